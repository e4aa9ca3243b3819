(** Provider lemmas used by the stub: why a request object is not valid any more, where every received request went,
    and which objects handlers were called with. *)
From Verif Require Import CsTypes ListUtil ProvModel ProvSpec ProvProofs ProvProofs2 ProvProofs3.

Definition abort_for (k : key) (l : list op) : Prop := exists m, In (OIn m) l /\ m_code m = Abort /\ (m_op m, m_rid m) = k.

Lemma abort_for_app k l1 l2 : abort_for k l1 -> abort_for k (l1 ++ l2).
Proof. intros (m & I & C). exists m. split; [apply in_or_app; left; exact I|exact C]. Qed.

(** ** Effect of one call on the heap *)
Definition hkeep (h1 h2 : list request) : Prop :=
  forall r q, nth_error h1 r = Some q -> exists q', nth_error h2 r = Some q' /\ (qkey q' = qkey q /\ q_src q' = q_src q) /\ (q_valid q = false -> q_valid q' = false).

Lemma hkeep_refl h : hkeep h h.
Proof. intros r q H. exists q. auto. Qed.
Lemma hkeep_upd r f h : (forall q, (qkey (f q) = qkey q /\ q_src (f q) = q_src q) /\ (q_valid q = false -> q_valid (f q) = false)) -> hkeep h (upd r f h).
Proof.
  intros F r1 q H. rewrite nth_upd, H. destruct (Nat.eqb r r1); cbn; [exists (f q)|exists q]; destruct (F q); auto.
Qed.

(** The cells made invalid by a call. *)
Definition killed (x : op) (ev : list event) (q : request) : Prop :=
  1 <= final_responses (qkey q) ev \/ abort_for (qkey q) [x] \/ x = ODeinit.

Lemma step_heap n s x s' ev : Inv s -> step n s x = (s', ev) ->
  hkeep (heap s) (heap s') /\
  (forall r q q', cell s r = Some q -> q_valid q = true -> cell s' r = Some q' -> q_valid q' = false -> killed x ev q) /\
  (forall r q', cell s r = None -> cell s' r = Some q' -> q_valid q' = true).
Proof.
  intros I E.
  assert (SAME : heap s' = heap s -> hkeep (heap s) (heap s') /\
     (forall r q q', cell s r = Some q -> q_valid q = true -> cell s' r = Some q' -> q_valid q' = false -> killed x ev q) /\
     (forall r q', cell s r = None -> cell s' r = Some q' -> q_valid q' = true)).
  { intros H. split; [rewrite H; apply hkeep_refl|]. unfold cell. rewrite H. split; intros; congruence. }
  assert (NONE : forall r0 f, heap s' = upd r0 f (heap s) -> forall r q', cell s r = None -> cell s' r = Some q' -> q_valid q' = true).
  { intros r0 f H r q' C C'. unfold cell in *. rewrite H, nth_upd, C in C'. destruct (Nat.eqb r0 r); discriminate. }
  destruct (step_core n s x s' ev I E) as [C|(r & p & b & -> & -> & D)]; [|apply SAME; reflexivity].
  destruct C as [x s' ev [SC _] NR IR _ _ _ _|m a s' Hm G [SC _]|m f s' Hm G Hh Hr|r0 q0 p r q a s' C0 V0 Ir Cr Ho Hr [_ T]|r q p a s' C V [SC _]
                |m r q s' Hm Ir C Ho Hr [_ T]|r q cb s' C V Hr Hh|r q cb s' C V [SC _]|r cb s' C [SC _]|s' ev D];
    try (apply SAME; exact SC).
  - split; [|split].
    + intros r q H. exists q. rewrite Hh, nth_error_app1 by (apply nth_lt in H; exact H). auto.
    + intros r q q' H V H' V'. unfold cell in *. rewrite Hh, nth_error_app1 in H' by (apply nth_lt in H; exact H). congruence.
    + intros r q' H H'. unfold cell in *. rewrite Hh, nth_snoc in H'. destruct (Nat.eqb_spec r (length (heap s))); [|congruence].
      inversion H'. reflexivity.
  - split; [rewrite T; apply hkeep_upd; auto|split; [|exact (NONE _ _ T)]].
    intros r1 q1 q' H V H' V'. left. unfold cell in *. rewrite T, nth_upd, H in H'. destruct (Nat.eqb_spec r r1) as [<-|N]; [|congruence].
    rewrite Cr in H. inversion H; subst q1. unfold final_responses. rewrite countb_cons. cbn [reply_for m_code m_op m_rid opcode_eqb andb].
    destruct (key_eqb_spec (q_op q0, q_rid q0) (qkey q)); [lia|]. unfold qkey in *. congruence.
  - split; [rewrite T; apply hkeep_upd; auto|split; [|exact (NONE _ _ T)]].
    intros r1 q1 q' H V H' V'. right. left. unfold cell in *. rewrite T, nth_upd, H in H'. destruct (Nat.eqb_spec r r1) as [<-|N]; [|congruence].
    rewrite C in H. inversion H; subst q1. exists m. split; [left; reflexivity|]. split; [exact Hm|]. unfold qkey. congruence.
  - split; [rewrite Hh; apply hkeep_upd; auto|split; [|exact (NONE _ _ Hh)]].
    intros r1 q1 q' H V1 H' V'. exfalso. unfold cell in *. rewrite Hh, nth_upd, H in H'. destruct (Nat.eqb_spec r r1) as [<-|N]; [|congruence].
    inversion H'; subst q'. cbn in V'. congruence.
  - rewrite deinit_eq in D. injection D as <- <-. cbn [heap]. split; [|split].
    + intros r q H. cbn. rewrite nth_inval_list, H. destruct (mem _ _); [exists (invalidate_q q)|exists q]; auto.
    + intros. right. right. reflexivity.
    + intros r q' H H'. unfold cell in *. cbn in H'. rewrite nth_inval_list, H in H'. destruct (mem _ _); discriminate.
Qed.

(** A valid request that is answered becomes invalid (distinct request keys). *)
Lemma reply_invalidates h n r q p : NoDup (requests_received (ops_of h)) -> cell (final h) r = Some q -> q_valid q = true ->
  exists q', cell (final (h ++ [(n, OReply r p false)])) r = Some q' /\ q_valid q' = false.
Proof.
  intros ND C V. rewrite final_snoc. pose proof (final_inv h) as I. destruct (step n (final h) (OReply r p false)) as [s' ev] eqn:E.
  cbn [fst]. destruct (step_core n _ _ s' ev I E) as [K|(r1 & p1 & b1 & EQ & -> & D)].
  - inversion K as [x s2 ev2 SC NR IR N1 N2 N3 N4| | |r0 q0 p0 r1 q1 a s2 C0 V0 Ir Cr Ho Hr [_ T]| | | | | |]; subst.
    + exfalso. eapply N3. reflexivity.
    + rewrite C in C0. inversion C0; subst q0. assert (r1 = r).
      { eapply same_key_same_cell; [exact ND|exact Cr|exact C|]. unfold qkey. congruence. }
      subst r1. unfold cell in *. rewrite T, nth_upd, Nat.eqb_refl, C. cbn. eexists. split; reflexivity.
  - inversion EQ; subst. destruct D as [[D _]|(q1 & D & V1 & _)]; congruence.
Qed.

Lemma why_invalid h r q : cell (final h) r = Some q -> q_valid q = false ->
  1 <= final_responses (qkey q) (trace h) \/ abort_for (qkey q) (ops_of h) \/ In ODeinit (ops_of h).
Proof.
  revert r q. induction h as [|[n x] h IH] using rev_ind; intros r q C V.
  - unfold cell in C. destruct r; discriminate.
  - rewrite final_snoc in C. rewrite trace_snoc, ops_snoc. unfold final_responses, next in *. rewrite countb_app.
    destruct (step n (final h) x) as [s' ev] eqn:E. cbn [fst snd] in *.
    destruct (step_heap n _ x s' ev (final_inv h) E) as (HK & KL & NEW).
    destruct (cell (final h) r) as [q0|] eqn:C0.
    + destruct (HK r q0 C0) as (q1 & H1 & (H2 & _) & H3). unfold cell in C. assert (q1 = q) by congruence. subst q1.
      destruct (q_valid q0) eqn:V0.
      * destruct (KL r q0 q C0 V0 C V) as [K|[K|K]]; try rewrite <- H2 in K.
        -- left. unfold final_responses in K. lia.
        -- right. left. destruct K as (m & J & K). exists m. split; [apply in_or_app; right; exact J|exact K].
        -- right. right. apply in_or_app. right. left. exact K.
      * destruct (IH r q0 C0 V0) as [K|[K|K]]; try rewrite <- H2 in K.
        -- left. lia.
        -- right. left. apply abort_for_app. exact K.
        -- right. right. apply in_or_app. left. exact K.
    + rewrite (NEW r q C0 C) in V. discriminate.
Qed.

Lemma where_received h k : In k (requests_received (ops_of h)) ->
  1 <= final_responses k (trace h) \/ exists r q, cell (final h) r = Some q /\ qkey q = k.
Proof.
  induction h as [|[n x] h IH] using rev_ind; [intros []|]. rewrite ops_snoc, requests_app, trace_snoc, final_snoc.
  unfold final_responses, next in *. rewrite countb_app. pose proof (final_inv h) as I. destruct (step n (final h) x) as [s' ev] eqn:E. cbn [fst snd].
  intros J. apply in_app_or in J as [J|J].
  - destruct (IH J) as [K|(r & q & C & K)]; [left; lia|]. right.
    destruct (step_heap n _ x s' ev I E) as (HK & _ & _). destruct (HK r q C) as (q' & H1 & (H2 & _) & _). exists r, q'. split; [exact H1|congruence].
  - cbn in J. destruct (is_request x) as [k0|] eqn:IR; [|destruct J]. destruct J as [->|[]].
    destruct (step_core n _ x s' ev I E) as [C|(r & p & b & -> & -> & D)]; [|discriminate].
    destruct C as [x s' ev SC NR IR2 _ _ _ _|m a s' Hm G SC|m f s' Hm G Hh Hr|r0 q0 p r q a s' C0 V0 Ir Cr Ho Hr T|r q p a s' C V SC
                |m r q s' Hm Ir C Ho Hr T|r q cb s' C V Hr Hh|r q cb s' C V SC|r cb s' C SC|s' ev D]; try discriminate; try congruence.
    + left. cbn in IR. rewrite Hm in IR. inversion IR; subst k. rewrite countb_cons. cbn [reply_for m_code m_op m_rid opcode_eqb andb].
      destruct (key_eqb_spec (m_op m, m_rid m) (m_op m, m_rid m)); [lia|congruence].
    + right. cbn in IR. rewrite Hm in IR. inversion IR; subst k. exists (length (heap (final h))). eexists. unfold cell. rewrite Hh, nth_snoc, Nat.eqb_refl.
      split; reflexivity.
    + cbn in IR. rewrite Hm in IR. discriminate.
Qed.

(** Handlers are called once per request object. *)
Definition calls_with (r : nat) (e : event) : bool := match e with EHandler _ r' => Nat.eqb r r' | _ => false end.

Lemma calls_none r ev : (forall f r0, ~ In (EHandler f r0) ev) -> cnt (calls_with r) ev = 0.
Proof. intros H. apply cnt_zero. intros e J. destruct e; try reflexivity. exfalso. eapply H. exact J. Qed.

Lemma calls_once h r : cnt (calls_with r) (trace h) = b2n (Nat.ltb r (length (heap (final h)))).
Proof.
  induction h as [|[n x] h IH] using rev_ind; [reflexivity|]. rewrite trace_snoc, final_snoc, cnt_app, IH. unfold next.
  pose proof (final_inv h) as I. destruct (step n (final h) x) as [s' ev] eqn:E. cbn [fst snd].
  assert (SAME : length (heap s') = length (heap (final h)) -> (forall f r0, ~ In (EHandler f r0) ev) ->
    b2n (r <? length (heap (final h))) + cnt (calls_with r) ev = b2n (r <? length (heap s'))).
  { intros H K. rewrite (calls_none r ev K), H. lia. }
  destruct (step_core n _ x s' ev I E) as [C|(r1 & p & b & -> & -> & D)].
  2:{ apply SAME; [reflexivity|]. intros f r0 J. destruct D as [[_ ->]|(q & _ & _ & ->)]; [destruct J|destruct J as [J|[]]; discriminate]. }
  destruct C as [x s' ev [SC _] NR IR _ _ _ _|m a s' Hm G [SC _]|m f s' Hm G Hh Hr|r0 q0 p r1 q a s' C0 V0 Ir Cr Ho Hr [_ T]|r1 q p a s' C V [SC _]
                |m r1 q s' Hm Ir C Ho Hr [_ T]|r1 q cb s' C V Hr Hh|r1 q cb s' C V [SC _]|r1 cb s' C [SC _]|s' ev D].
  - apply SAME; [rewrite SC; reflexivity|]. intros f r0 J. destruct (NR _ J) as (_ & _ & K). eapply K. reflexivity.
  - apply SAME; [rewrite SC; reflexivity|]. intros f r0 [J|[J|[]]]; discriminate.
  - rewrite Hh, app_length. cbn [length]. rewrite !cnt_cons, cnt_nil. cbn [calls_with b2n].
    destruct (Nat.eqb_spec r (length (heap (final h)))); destruct (Nat.ltb_spec r (length (heap (final h)))); destruct (Nat.ltb_spec r (length (heap (final h)) + 1)); cbn; lia.
  - apply SAME; [rewrite T; apply length_upd|]. intros f r2 [J|[J|[]]]; discriminate.
  - apply SAME; [rewrite SC; reflexivity|]. intros f r0 [J|[J|[]]]; discriminate.
  - apply SAME; [rewrite T; apply length_upd|]. intros f r2 J. apply in_app_or in J as [J|[J|[]]]; [|discriminate].
    destruct (q_abort q); [destruct J as [J|[]]; discriminate|destruct J].
  - apply SAME; [rewrite Hh; apply length_upd|]. intros f r0 [].
  - apply SAME; [rewrite SC; reflexivity|]. intros f r0 [J|[]]; discriminate.
  - apply SAME; [rewrite SC; reflexivity|]. intros f r0 [].
  - rewrite deinit_eq in D. injection D as <- <-. apply SAME; [cbn; apply length_inval_list|].
    intros f r0 J. apply in_flat_map in J as (r2 & _ & J). unfold abort_of in J.
    destruct (cell (final h) r2) as [q|]; [|destruct J]. destruct (q_abort q); [|destruct J]. destruct J as [J|[]]; discriminate.
Qed.
