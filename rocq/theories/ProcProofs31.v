(** Signals with plain slots only: reconnecting. *)
From Verif Require Import ListUtil Amap SigModel SigSpec SigProofs SigProofs2 SigProofs3 SigProofs4 SigProofs5 SigProofs7 ProcProofs20 ProcProofs25.

(** Every connection is in use or was cut. *)
Definition PJ (st : state) : Prop := forall c, c < length (conns st) ->
  nth_error (conns st) c = Some (CRef (Some c)) /\ In c (slots (somes (entries st))) \/ nth_error (conns st) c = Some (CPtr c).

Lemma PJ_same st st' : PJ st -> conns st' = conns st -> somes (entries st') = somes (entries st) -> PJ st'.
Proof. intros P H1 H2 c. rewrite H1, H2. apply P. Qed.
Lemma PJ_watch a b : PJ b -> PJ (watch a b).
Proof. intros H. destruct (watch_cases a b) as [->|(s & ->)]; [exact H|]. apply (PJ_same b); auto. Qed.

Lemma drop_keeps s s' l : s <> s' -> In s' (slots l) -> In s' (slots (drop_first s l)).
Proof.
  intros NE. induction l as [|[k x] l IH]; cbn; [auto|]. intros [->|I].
  - destruct (Nat.eqb_spec s s'); [contradiction|]. left. reflexivity.
  - destruct (Nat.eqb s x); [exact I|]. right. auto.
Qed.

Lemma disconnect_cuts st c : PI st -> PJ st -> PJ (fst (disconnect Multi st c)).
Proof.
  intros H J. pose proof H as [A B C D E F]. unfold disconnect. destruct (nth_error (conns st) c) as [x|] eqn:N; [|exact J].
  destruct x as [[s|]|s|]; try exact J. pose proof (F c s (or_introl N)) as ->. destruct (owned st c); [|exact J]. rewrite A. destruct (has c (entries st)) eqn:HA; [|exact J].
  cbn [fst]. intros d. cbn [conns set_con with_conns remove emit with_entries entries]. rewrite length_set_nth. intros L.
  destruct (Nat.eq_dec c d) as [<-|NE]; [right; rewrite nth_set_same by exact L; reflexivity|]. rewrite nth_set_other by exact NE. destruct (J d L) as [[X Y]|X]; [left|right; exact X]. split; [exact X|].
  change (In d (slots (somes (entries (remove Multi st c))))). rewrite somes_remove. apply drop_keeps; auto.
Qed.
Lemma reconnect_adds st c : PI st -> PJ st -> PJ (fst (reconnect Multi st c)) /\
  (c < length (conns st) -> (snd (reconnect Multi st c) = false /\ fst (reconnect Multi st c) = st /\ In c (slots (somes (entries st)))) \/
     ~ In c (slots (somes (entries st))) /\ exists k, somes (entries (fst (reconnect Multi st c))) = somes (entries st) ++ [(k, c)]).
Proof.
  intros H J. pose proof H as [A B C D E F]. unfold reconnect. destruct (nth_error (conns st) c) as [x|] eqn:N.
  2:{ split; [exact J|]. intros L. apply nth_error_None in N. lia. }
  pose proof (nth_lt _ _ _ N) as L. destruct (J c L) as [[X Y]|X]; rewrite N in X; injection X as ->.
  - split; [exact J|]. intros _. left. auto.
  - rewrite A. unfold can_add_unique. destruct (has c (entries st)) eqn:HA; [exfalso; apply has_somes in HA; apply E in HA; congruence|]. cbn [negb fst].
    assert (NI : ~ In c (slots (somes (entries st)))) by (intros X; apply (proj2 (has_somes c (entries st))) in X; congruence). split.
    + intros d. cbn [conns set_con with_conns add emit with_entries with_serial entries]. rewrite length_set_nth. intros LD. rewrite somes_app. unfold slots. rewrite map_app.
      destruct (Nat.eq_dec c d) as [<-|NE]; [left; rewrite nth_set_same by exact LD; split; [reflexivity|apply in_or_app; right; left; reflexivity]|].
      rewrite nth_set_other by exact NE. destruct (J d LD) as [[X Y]|X]; [left|right; exact X]. split; [exact X|apply in_or_app; left; exact Y].
    + intros _. right. split; [exact NI|]. cbn. rewrite somes_app. eexists. reflexivity.
Qed.

Lemma PJ_next st l : PI st -> PJ st -> plain_action (snd l) = true -> PJ (next Multi st l).
Proof.
  intros H J PA. unfold next. destruct (crashed st); [exact J|]. apply PJ_watch. destruct l as [t a]. cbn [fst snd] in *. pose proof H as [A B C D E F]. destruct a as [k| | | | | | | |c|c| | | | | |v| | |]; try discriminate PA.
  - destruct k; try discriminate PA. cbn. destruct (free st t); [|exact J]. rewrite A. cbn. intros c. cbn. rewrite app_length. cbn. intros L. rewrite nth_snoc, somes_app. unfold slots. rewrite map_app. cbn.
    destruct (Nat.eqb_spec c (length (conns st))) as [->|NE]; [left; rewrite B; split; [reflexivity|apply in_or_app; right; left; reflexivity]|].
    destruct (J c ltac:(lia)) as [[X Y]|X]; [left|right; exact X]. split; [exact X|apply in_or_app; left; exact Y].
  - cbn. destruct (free st t); [|exact J]. rewrite (hidden_plain _ _ H). pose proof (disconnect_cuts st c H J) as Y. destruct (disconnect Multi st c). apply (PJ_same s); auto.
  - cbn. destruct (free st t); [|exact J]. rewrite (hidden_plain _ _ H). destruct (reconnect_adds st c H J) as [Y _]. destruct (reconnect Multi st c). apply (PJ_same s); auto.
  - cbn. destruct (free st t); [|exact J]. rewrite A. destruct (entries st) eqn:EN; [|destruct (notif st)]; apply (PJ_same st); auto; cbn; rewrite ?EN; reflexivity.
  - cbn. destruct (em st) as [e|]; [|exact J]. destruct (Nat.eqb (e_thread e) t); [|exact J]. destruct (e_run e); [exact J|]. unfold step. destruct (nth_error (entries st) (e_cur e)) as [[[k s]|]|] eqn:N.
    + destruct (kind_plain st s H) as [-> | -> ]; apply (PJ_same st); auto.
    + apply (PJ_same st); auto. cbn. apply somes_drop. exact N.
    + apply (PJ_same st); auto.
  - cbn. destruct (em st) as [e|]; [|exact J]. destruct (Nat.eqb (e_thread e) t); [|exact J]. destruct (e_run e) as [[k s]|]; [|exact J]. unfold slot_return. destruct (kind_plain st s H) as [-> | -> ]; apply (PJ_same st); auto.
Qed.
Lemma PJ_final h : (forall l, In l h -> plain_action (snd l) = true) -> PJ (final Multi h).
Proof.
  induction h as [|l h IH] using rev_ind; intros P; [intros c L; cbn in L; lia|]. assert (P' : forall x, In x h -> plain_action (snd x) = true) by (intros x I; apply P; apply in_or_app; left; exact I).
  unfold final. rewrite fold_left_app. cbn. apply PJ_next; [exact (PI_final h P')|exact (IH P')|]. apply P. apply in_or_app. right. left. reflexivity.
Qed.

(** reconnect(): the slot is connected afterwards; if it was not before, it is the last one. *)
Lemma restore_plain st t c : PI st -> PJ st -> crashed st = false -> free st t = true -> c < length (conns st) -> let st' := next Multi st (t, AReconnect c) in
  In c (slots (somes (entries st))) /\ somes (entries st') = somes (entries st) \/ ~ In c (slots (somes (entries st))) /\ exists k, somes (entries st') = somes (entries st) ++ [(k, c)].
Proof.
  intros H J C F L st'. subst st'. unfold next. rewrite C. cbn [fst snd]. destruct (watch_keeps st (act Multi st t (AReconnect c))) as (_ & _ & _ & _ & -> & _). cbn. rewrite F, (hidden_plain _ _ H).
  destruct (reconnect_adds st c H J) as [_ Y]. destruct (reconnect Multi st c) as [s b]. cbn in *. destruct (Y L) as [(_ & -> & I)|X]; auto.
Qed.
(** disconnect(): nobody else is affected. *)
Lemma cut_plain_exact st t c : PI st -> PJ st -> crashed st = false -> free st t = true -> somes (entries (next Multi st (t, ADisconnect c))) = drop_first c (somes (entries st)).
Proof.
  intros H J C F. unfold next. rewrite C. cbn [fst snd]. destruct (watch_keeps st (act Multi st t (ADisconnect c))) as (_ & _ & _ & _ & -> & _). cbn. rewrite F, (hidden_plain _ _ H).
  pose proof H as [A B CK D E FF]. assert (NO : ~ In c (slots (somes (entries st))) -> somes (entries st) = drop_first c (somes (entries st))).
  { intros N. clear - N. induction (somes (entries st)) as [|[k s] l IH]; [reflexivity|]. cbn in *. destruct (Nat.eqb_spec c s); [subst; exfalso; auto|]. f_equal. apply IH. auto. }
  unfold disconnect. destruct (nth_error (conns st) c) as [x|] eqn:N.
  2:{ cbn. apply NO. intros X. apply E in X. congruence. }
  destruct x as [[s|]|s|]; try (cbn; apply NO; intros X; apply E in X; congruence). pose proof (FF c s (or_introl N)) as ->. unfold owned. destruct (has c (entries st)) eqn:HA.
  - cbn [orb]. rewrite A. cbn. apply (somes_remove st c).
  - assert (NI : ~ In c (slots (somes (entries st)))) by (intros X; apply (proj2 (has_somes c (entries st))) in X; congruence).
    destruct (_ || _); cbn; [rewrite A; cbn|]; auto.
Qed.
