(** Signals with plain slots only: slot [s] belongs to connection [s]. *)
From Verif Require Import ListUtil Amap SigModel SigSpec SigProofs SigProofs2 SigProofs3 SigProofs4 SigProofs5 SigProofs7 ProcProofs20.

Record PI (st : state) : Prop := {
  pl_hub : hub st = true;
  pl_len : length (kinds st) = length (conns st);
  pl_kinds : forall k, In k (kinds st) -> k = KPlain;
  pl_nd : NoDup (slots (somes (entries st)));
  pl_in : forall s, In s (slots (somes (entries st))) -> nth_error (conns st) s = Some (CRef (Some s));
  pl_con : forall c s, nth_error (conns st) c = Some (CRef (Some s)) \/ nth_error (conns st) c = Some (CPtr s) -> s = c }.

Definition plain_action (a : action) : bool := match a with AConnect CPlain | ADisconnect _ | AReconnect _ | AEmit _ | AStep | AReturn => true | _ => false end.

Lemma PI_same st st' : PI st -> hub st' = hub st -> kinds st' = kinds st -> conns st' = conns st -> somes (entries st') = somes (entries st) -> PI st'.
Proof. intros [A B C D E F] H1 H2 H3 H4. split; rewrite ?H1, ?H2, ?H3, ?H4; auto. Qed.
Lemma hidden_plain st c : PI st -> hidden st c = false.
Proof.
  intros H. unfold hidden. destruct (existsb (hides_con c) (kinds st)) eqn:E; [|reflexivity]. apply existsb_exists in E as (k & I & X). rewrite (pl_kinds _ H k I) in X. discriminate.
Qed.
Lemma in_drop_first s l : NoDup (slots l) -> ~ In s (slots (drop_first s l)).
Proof.
  induction l as [|[k s'] l IH]; cbn; [auto|]. intros N. inversion N as [|? ? N1 N2]; subst. destruct (Nat.eqb_spec s s') as [->|NE]; [exact N1|]. cbn. intros [X|X]; [congruence|exact (IH N2 X)].
Qed.
Lemma nodup_drop s l : NoDup (slots l) -> NoDup (slots (drop_first s l)).
Proof.
  induction l as [|[k s'] l IH]; cbn; [auto|]. intros N. inversion N as [|? ? N1 N2]; subst. destruct (Nat.eqb s s'); [exact N2|]. cbn. constructor; [|auto]. intros X. apply N1. apply in_map_iff in X as (p & <- & X). apply in_map. eapply drop_first_incl; eauto.
Qed.
Lemma slots_drop s s' l : In s' (slots (drop_first s l)) -> In s' (slots l).
Proof. intros X. apply in_map_iff in X as (p & <- & X). apply in_map. eapply drop_first_incl; eauto. Qed.
Lemma somes_remove st s : somes (entries (remove Multi st s)) = drop_first s (somes (entries st)).
Proof. cbn. destruct (notif st); [apply somes_blank|apply somes_erase]. Qed.
Lemma kind_plain st s : PI st -> nth_error (kinds st) s = Some KPlain \/ nth_error (kinds st) s = None.
Proof. intros H. destruct (nth_error (kinds st) s) as [k|] eqn:E; [left; f_equal; apply (pl_kinds _ H); eapply nth_error_In; eauto|right; reflexivity]. Qed.

Lemma disconnect_plain st c : PI st -> PI (fst (disconnect Multi st c)) /\ ~ In c (slots (somes (entries (fst (disconnect Multi st c))))).
Proof.
  intros H. pose proof H as [A B C D E F]. unfold disconnect. destruct (nth_error (conns st) c) as [x|] eqn:N.
  2:{ split; [exact H|]. intros X. apply E in X. cbn in X. congruence. }
  destruct x as [[s|]|s|]; try (split; [exact H|]; intros X; apply E in X; cbn in X; congruence).
  pose proof (F c s (or_introl N)) as ->. destruct (owned st c) eqn:O.
  2:{ split; [exact H|]. cbn. intros X. apply (proj2 (has_somes c (entries st))) in X. unfold owned in O. rewrite X in O. discriminate. }
  rewrite A. destruct (has c (entries st)) eqn:HA.
  2:{ split; [exact H|]. cbn. intros X. apply (proj2 (has_somes c (entries st))) in X. congruence. }
  cbn [fst]. split.
  - split; cbn [hub kinds conns entries set_con with_conns remove emit with_entries]; auto.
    + rewrite length_set_nth. exact B.
    + change (NoDup (slots (somes (entries (remove Multi st c))))). rewrite somes_remove. apply nodup_drop, D.
    + intros s X. change (In s (slots (somes (entries (remove Multi st c))))) in X. rewrite somes_remove in X. assert (NE : c <> s) by (intros ->; exact (in_drop_first _ _ D X)).
      rewrite nth_set_other by exact NE. apply E. eapply slots_drop; exact X.
    + intros c' s X. destruct (Nat.eq_dec c c') as [<-|NE]; [|rewrite nth_set_other in X by exact NE; exact (F c' s X)]. rewrite nth_set_same in X by (eapply nth_lt; eauto). destruct X as [X|X]; [discriminate|injection X as <-; reflexivity].
  - change (~ In c (slots (somes (entries (remove Multi st c))))). rewrite somes_remove. apply in_drop_first, D.
Qed.
Lemma reconnect_plain st c : PI st -> PI (fst (reconnect Multi st c)).
Proof.
  intros H. pose proof H as [A B C D E F]. unfold reconnect. destruct (nth_error (conns st) c) as [[[s|]|s|]|] eqn:N; try exact H. pose proof (F c s (or_intror N)) as ->. rewrite A. unfold can_add_unique. destruct (has c (entries st)) eqn:HA.
  - exfalso. apply has_somes in HA. apply E in HA. congruence.
  - cbn [negb fst]. assert (NI : ~ In c (slots (somes (entries st)))) by (intros X; apply (proj2 (has_somes c (entries st))) in X; congruence).
    split; cbn [hub kinds conns entries set_con with_conns add emit with_entries with_serial]; auto.
    + rewrite length_set_nth. exact B.
    + rewrite somes_app. unfold slots. rewrite map_app. cbn. apply (NoDup_Add (a := c) (l := map snd (somes (entries st)))). { rewrite <- (app_nil_r (map snd (somes (entries st)))) at 1. apply Add_app. } split; [exact D|exact NI].
    + intros s X. rewrite somes_app in X. unfold slots in X. rewrite map_app in X. apply in_app_or in X as [X|[X|[]]].
      * assert (NE : c <> s) by (intros ->; exact (NI X)). rewrite nth_set_other by exact NE. apply E. exact X.
      * cbn in X. subst s. apply nth_set_same. eapply nth_lt; eauto.
    + intros c' s X. destruct (Nat.eq_dec c c') as [<-|NE]; [|rewrite nth_set_other in X by exact NE; exact (F c' s X)]. rewrite nth_set_same in X by (eapply nth_lt; eauto). destruct X as [X|X]; [injection X as <-; reflexivity|discriminate].
Qed.

Lemma PI_watch a b : PI b -> PI (watch a b).
Proof. intros H. destruct (watch_cases a b) as [->|(s & ->)]; [exact H|]. apply (PI_same b); auto. Qed.

Lemma PI_next st l : PI st -> plain_action (snd l) = true -> PI (next Multi st l).
Proof.
  intros H PA. unfold next. destruct (crashed st); [exact H|]. apply PI_watch. destruct l as [t a]. cbn [fst snd] in *. pose proof H as [A B C D E F]. destruct a as [k| | | | | | | |c|c| | | | | |v| | |]; try discriminate PA.
  - destruct k; try discriminate PA. cbn. destruct (free st t); [|exact H]. rewrite A. cbn. assert (LT : forall s, In s (slots (somes (entries st))) -> s < length (conns st)) by (intros s X; apply E in X; eapply nth_lt; eauto).
    split; cbn; auto.
    + rewrite !app_length, B. reflexivity.
    + intros k X. apply in_app_or in X as [X|[<-|[]]]; auto.
    + rewrite somes_app. unfold slots. rewrite map_app. cbn. apply (NoDup_Add (a := length (kinds st)) (l := map snd (somes (entries st)))). { rewrite <- (app_nil_r (map snd (somes (entries st)))) at 1. apply Add_app. } split; [exact D|]. intros X. apply LT in X. lia.
    + intros s X. rewrite somes_app in X. unfold slots in X. rewrite map_app in X. rewrite nth_snoc. apply in_app_or in X as [X|[X|[]]].
      * pose proof (LT _ X). destruct (Nat.eqb_spec s (length (conns st))); [lia|]. apply E. exact X.
      * cbn in X. subst s. rewrite <- B, Nat.eqb_refl. reflexivity.
    + intros c s X. rewrite nth_snoc in X. destruct (Nat.eqb_spec c (length (conns st))) as [->|NE]; [|exact (F c s X)]. destruct X as [X|X]; [injection X as <-; congruence|discriminate].
  - cbn. destruct (free st t); [|exact H]. rewrite (hidden_plain _ _ H). destruct (disconnect_plain st c H) as [Y _]. destruct (disconnect Multi st c). apply (PI_same s); auto.
  - cbn. destruct (free st t); [|exact H]. rewrite (hidden_plain _ _ H). pose proof (reconnect_plain st c H) as Y. destruct (reconnect Multi st c). apply (PI_same s); auto.
  - cbn. destruct (free st t); [|exact H]. rewrite A. destruct (entries st) eqn:EN; [|destruct (notif st)]; apply (PI_same st); auto; cbn; rewrite ?EN; reflexivity.
  - cbn. destruct (em st) as [e|]; [|exact H]. destruct (Nat.eqb (e_thread e) t); [|exact H]. destruct (e_run e); [exact H|]. unfold step. destruct (nth_error (entries st) (e_cur e)) as [[[k s]|]|] eqn:N.
    + destruct (kind_plain st s H) as [-> | -> ]; apply (PI_same st); auto.
    + apply (PI_same st); auto. cbn. apply somes_drop. exact N.
    + apply (PI_same st); auto.
  - cbn. destruct (em st) as [e|]; [|exact H]. destruct (Nat.eqb (e_thread e) t); [|exact H]. destruct (e_run e) as [[k s]|]; [|exact H]. unfold slot_return. destruct (kind_plain st s H) as [-> | -> ]; apply (PI_same st); auto.
Qed.
Lemma PI_init : PI init.
Proof. split; cbn; try reflexivity; try contradiction; [constructor|]. intros [|c] s [X|X]; discriminate. Qed.
Lemma PI_final h : (forall l, In l h -> plain_action (snd l) = true) -> PI (final Multi h).
Proof.
  induction h as [|l h IH] using rev_ind; intros P; [exact PI_init|]. unfold final. rewrite fold_left_app. cbn. apply PI_next; [apply IH; intros x I; apply P; apply in_or_app; left; exact I|]. apply P. apply in_or_app. right. left. reflexivity.
Qed.

Lemma connect_plain st t : PI st -> crashed st = false -> free st t = true -> entries (next Multi st (t, AConnect CPlain)) = entries st ++ [Some (serial st, length (conns st))].
Proof.
  intros H C F. unfold next. rewrite C. cbn [fst snd]. destruct (watch_keeps st (act Multi st t (AConnect CPlain))) as (_ & _ & _ & _ & -> & _). cbn. rewrite F, (pl_hub _ H). cbn. rewrite (pl_len _ H). reflexivity.
Qed.
Lemma cut_plain st t c : PI st -> crashed st = false -> free st t = true -> ~ In c (slots (somes (entries (next Multi st (t, ADisconnect c))))).
Proof.
  intros H C F. unfold next. rewrite C. cbn [fst snd]. destruct (watch_keeps st (act Multi st t (ADisconnect c))) as (_ & _ & _ & _ & -> & _). cbn. rewrite F, (hidden_plain _ _ H). destruct (disconnect_plain st c H) as [_ Y]. destruct (disconnect Multi st c). exact Y.
Qed.
