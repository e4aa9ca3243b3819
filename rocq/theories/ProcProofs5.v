(** What is accepted, taken and thrown away is what the queue saw; every unfinished queue operation belongs to a thread. *)
From Verif Require Import ListUtil Amap ProcModel ProcSpec ProcProofs ProcProofs2 ProcProofs3 ProcProofs4.
From Verif Require QueueModel QueueSpec SigModel.

Lemma accepted_app p a b : accepted p (a ++ b) = accepted p a ++ accepted p b. Proof. apply flat_map_app. Qed.
Lemma gone_app p a b : gone p (a ++ b) = gone p a ++ gone p b. Proof. apply flat_map_app. Qed.
Lemma quiet_flat {A} (f : event -> list A) l : quiet l -> (forall e, neutral e = true -> f e = []) -> flat_map f l = [].
Proof. intros Q F. induction l as [|e l IH]; cbn; [reflexivity|]. rewrite F by (apply Q; left; reflexivity). apply IH. intros x I. apply Q. right. exact I. Qed.
Lemma quiet_accepted p l : quiet l -> accepted p l = [].
Proof. intros Q. apply quiet_flat; auto. intros []; cbn; congruence. Qed.
Lemma quiet_gone p l : quiet l -> gone p l = [].
Proof. intros Q. apply quiet_flat; auto. intros []; cbn; congruence. Qed.

Definition logged (st : state) : Prop := forall p, accepted p (tr st) = qputs (queue st p) /\ gone p (tr st) = qouts (queue st p).

Lemma result_some q i o ph : qtask q i = Some (o, ph) -> q_result q i <> None -> exists r, ph = QueueModel.PReturned r.
Proof. unfold q_result. intros -> H. destruct ph; try congruence. eauto. Qed.

Ltac cores := intros K; destruct K as [l Q E N|p e m x x' r l S Q E N|c U N Q E|p k just U Q E|n t0 c k k' r S C F F' Q PS FT E|n t0 c k res r S C F Q R KS E|n t0 p r S C Q E
    |n t0 p r S C P Q E|n t0 p r S C Q E|n t0 c p ch r S C P q1 R Q E|n t0 c p ch r S C P q1 R Q E|n t0 c p i ch r S C P q1 R Q E|f r p i l S FQ L OR RN Q E
    |n t0 c p i ch r S C P q1 R Q E|n t0 c p i ch r S C P q1 R Q E|n t0 c p i ch res r S C P q1 R Q E|n p just kd i ch e r S q1 R Q E|n p just kd i ch res x r S q1 R NT Q E
    |n p just kd e t0 c r S C Q E|n t0 c k r S C F SB Q PS E|b p e n p' just k r l S B N Q E|b p e n p' just r l S B N Q E|b p e n r l res S B N Q FI E|b p e r l S B N Q O E].

(** The queue operation of the call on top. *)
Lemma top_task st t n k r t0 c i : qinv st -> stk st t = FCall n k :: r -> nth_error (calls st) n = Some (t0, c) -> frame_q (calls st) (FCall n k) = Some (target c, i) ->
  exists o ph, qtask (queue st (target c)) i = Some (o, ph) /\ want (FCall n k) o ph.
Proof. intros I S C F. eapply (qi_want _ I); eauto. Qed.

Lemma logged_final h : logged (final h).
Proof.
  apply core_ind2; [intros p; split; reflexivity|]. intros t st st' G I J.
  assert (SAME : forall add, qsame st st' -> tr st' = tr st ++ add -> (forall p, accepted p add = [] /\ gone p add = []) -> logged st').
  { intros add Q T H p. rewrite T, accepted_app, gone_app, (proj1 (H p)), (proj2 (H p)), !app_nil_r, (Q p). apply J. }
  assert (MOVE : forall add p q', qto st st' p q' -> tr st' = tr st ++ add ->
    qputs q' = qputs (queue st p) ++ accepted p add -> qouts q' = qouts (queue st p) ++ gone p add ->
    (forall p', p' <> p -> accepted p' add = [] /\ gone p' add = []) -> logged st').
  { intros add p q' Q T A B H p'. rewrite T, accepted_app, gone_app, (Q p'). destruct (Nat.eq_dec p' p) as [-> |N].
    - rewrite upd_same, A, B, (proj1 (J p)), (proj2 (J p)). auto.
    - rewrite upd_other by auto. rewrite (proj1 (H _ N)), (proj2 (H _ N)), !app_nil_r. apply J. }
  assert (NOQ : forall add p q', qto st st' p q' -> tr st' = tr st ++ add -> same_q (queue st p) q' -> (forall p', accepted p' add = [] /\ gone p' add = []) -> logged st').
  { intros add p q' Q T [A B] H. eapply MOVE; [exact Q|exact T| | |intros; apply H]; rewrite ?(proj1 (H p)), ?(proj2 (H p)), app_nil_r; assumption. }
  assert (QT : forall l, quiet l -> forall p, accepted p l = [] /\ gone p l = []) by (intros l N p; split; [apply quiet_accepted|apply quiet_gone]; exact N).
  cores.
  - destruct E as (_ & T & _). eapply SAME; eauto.
  - destruct E as (_ & T & _). eapply SAME; eauto.
  - destruct E as (_ & T & _). eapply SAME; [exact Q|exact T|intros; split; reflexivity].
  - destruct E as (_ & T & _). eapply NOQ; [exact Q|exact T|apply q_call_same|intros; split; reflexivity].
  - destruct E as (_ & T & _). eapply SAME; [exact Q|exact T|intros; split; reflexivity].
  - destruct E as (_ & T & _). eapply SAME; [exact Q|exact T|intros; split; reflexivity].
  - destruct E as (_ & T & _). eapply NOQ; [exact Q|exact T|apply q_reopen|intros; split; reflexivity].
  - destruct E as (_ & T & _). eapply NOQ; [exact Q|exact T|apply q_call_same|intros; split; reflexivity].
  - destruct E as (_ & T & _). eapply NOQ; [exact Q|exact T|apply q_call_same|intros; split; reflexivity].
  - destruct E as (_ & T & _). eapply NOQ; [exact Q|exact T|apply q_enter_push|intros; split; reflexivity].
  - destruct E as (_ & T & _). eapply NOQ; [exact Q|exact T|apply q_enter_push|intros; split; reflexivity].
  - destruct E as (_ & T & _). destruct (top_task _ _ _ _ _ _ _ i I S C) as (o & ph & TK & W1 & W2); [cbn; rewrite C; reflexivity|]. rewrite <- P in TK. subst o ph.
    destruct (q_push_step _ _ _ ch TK) as [_ [[_ X]|(X & Y & _)]]; [fold q1 in X; contradiction|].
    eapply MOVE; [exact Q|exact T| | |]; cbn; rewrite ?Nat.eqb_refl, ?app_nil_r; auto. intros p' N. apply Nat.eqb_neq in N. rewrite N. auto.
  - destruct E as (_ & T & _). eapply NOQ; [exact Q|exact T| |intros; split; reflexivity].
    destruct (qi_want _ I _ _ _ _ _ S FQ) as (o & ph & TK & W). pose proof (want_live _ _ _ W) as LV. pose proof (RN (result_live _ _ _ _ TK LV)) as RR.
    destruct f as [n []|n p' j k []| |]; cbn in W; try contradiction; destruct W as [W1 W2]; subst.
    + destruct OR as [(ch & ->)|(? & ? & ? & ? & X)]; [|discriminate]. destruct (q_push_step _ _ _ ch TK) as [_ [[X _]|(_ & _ & X)]]; [|contradiction].
      unfold same_q, qputs, qouts, QueueModel.trace. change (QueueModel.final fifo) with q_state. rewrite X. auto.
    + destruct OR as [(ch & ->)|(? & ? & ? & ? & X)]; [|discriminate]. apply (q_close_step _ _ ch _ TK LV).
    + destruct OR as [(ch & ->)|(? & ? & ? & ? & X)]; [|discriminate]. destruct (q_clear_step _ _ ch TK) as [_ [[X _]|(_ & _ & X & _)]]; [|contradiction].
      unfold same_q, qputs, qouts, QueueModel.trace. change (QueueModel.final fifo) with q_state. rewrite X. auto.
    + destruct OR as [(ch & ->)|(? & ? & ? & ? & X)]; [|discriminate]. apply (q_size_step _ _ ch TK).
    + destruct (q_wait_step _ _ _ _ _ L TK LV) as (_ & A & ph' & TK' & [[B _]|(v & _ & _ & ->)]); [split; assumption|].
      unfold q_result in RR. rewrite TK' in RR. discriminate.
  - destruct E as (_ & T & _). destruct (top_task _ _ _ _ _ _ _ i I S C) as (o & ph & TK & W1 & W2); [cbn; rewrite C; reflexivity|]. rewrite <- P in TK. subst o.
    eapply NOQ; [exact Q|exact T| |intros; split; reflexivity]. destruct (q_close_step _ _ ch _ TK W2) as ([A B] & _). destruct (q_call_same q1 (QueueModel.OClear false)) as [[A' B'] _].
    fold q1 in A, B. split; congruence.
  - destruct E as (_ & T & _). destruct (top_task _ _ _ _ _ _ _ i I S C) as (o & ph & TK & W1 & W2); [cbn; rewrite C; reflexivity|]. rewrite <- P in TK. subst o ph.
    destruct (q_clear_step _ _ ch TK) as [_ [[_ X]|(X & Y & _)]]; [fold q1 in X; contradiction|].
    eapply MOVE; [exact Q|exact T| | |]; cbn; rewrite ?Nat.eqb_refl, ?app_nil_r; auto. intros p' N. apply Nat.eqb_neq in N. rewrite N. auto.
  - destruct E as (_ & T & _). destruct (top_task _ _ _ _ _ _ _ i I S C) as (o & ph & TK & W1 & W2); [cbn; rewrite C; reflexivity|]. rewrite <- P in TK. subst o ph.
    eapply NOQ; [exact Q|exact T| |intros; split; reflexivity]. apply (q_size_step _ _ ch TK).
  - destruct E as (_ & T & _). destruct (qi_want _ I _ _ _ p i S eq_refl) as (o & ph & TK & W1 & W2). subst o.
    destruct (q_wait_step _ (QueueModel.LRun i ch) _ _ _ eq_refl TK W2) as (_ & A & ph' & TK' & H). fold q1 in A, TK', H. unfold q_result in R. rewrite TK' in R.
    destruct H as [[_ [-> |H]]|(v & B & _ & ->)]; [discriminate|destruct ph'; try discriminate; exfalso; eapply H; reflexivity|]. injection R as ->.
    eapply MOVE; [exact Q|exact T| | |]; cbn; rewrite ?Nat.eqb_refl, ?app_nil_r; auto. intros p' N. apply Nat.eqb_neq in N. rewrite N. auto.
  - destruct E as (_ & T & _). destruct (qi_want _ I _ _ _ p i S eq_refl) as (o & ph & TK & W1 & W2). subst o.
    destruct (q_wait_step _ (QueueModel.LRun i ch) _ _ _ eq_refl TK W2) as (_ & A & ph' & TK' & H). fold q1 in A, TK', H. unfold q_result in R. rewrite TK' in R.
    eapply NOQ; [exact Q|exact T| |intros; split; reflexivity]. split; [exact A|]. destruct H as [[H _]|(v & _ & _ & ->)]; [exact H|]. injection R as <-. exfalso. eapply NT; reflexivity.
  - destruct E as (_ & T & _). eapply SAME; [exact Q|exact T|intros; split; reflexivity].
  - destruct E as (_ & T & _). eapply SAME; [exact Q|exact T|intros; split; reflexivity].
  - destruct E as (_ & T & _). eapply NOQ; [exact Q|exact T|apply q_call_same|]. intros p0. rewrite accepted_app, gone_app. destruct (QT l N p0) as [-> ->]. auto.
  - destruct E as (_ & T & _). eapply SAME; [exact Q|exact T|]. intros p0. rewrite accepted_app, gone_app. destruct (QT l N p0) as [-> ->]. auto.
  - destruct E as (_ & T & _). eapply SAME; [exact Q|exact T|]. intros p0. rewrite accepted_app, gone_app. destruct (QT l N p0) as [-> ->]. auto.
  - destruct E as (_ & T & _). eapply SAME; [exact Q|exact T|]. intros p0. rewrite accepted_app, gone_app. destruct (QT l N p0) as [-> ->]. auto.
Qed.

(** Acceptance order. *)
Lemma in_order h p : accepted p (trace h) = gone p (trace h) ++ pending h p.
Proof. unfold trace. destruct (logged_final h p) as [A B]. rewrite A, B. apply q_order. Qed.
