(** Every queue operation belongs to a call: no lost wake-ups, nothing taken after stop. *)
From Verif Require Import ListUtil Amap ProcModel ProcSpec ProcProofs ProcProofs2 ProcProofs3 ProcProofs4 ProcProofs5 ProcProofs6 ProcProofs7 ProcProofs8 ProcProofs9.
From Verif Require QueueModel QueueSpec QueueProofs QueueProofs2 QueueProofs3 SigModel.

Definition qops (q : QueueModel.history nat) : list (QueueModel.op nat) := map fst (QueueModel.tasks (q_state q)).
Lemma qops_call q o : qops (q ++ [QueueModel.LCall o]) = qops q ++ [o].
Proof. unfold qops. rewrite q_snoc. cbn. rewrite map_app. reflexivity. Qed.
Lemma qops_run q l : qid l <> None -> qops (q ++ [l]) = qops q.
Proof.
  intros N. unfold qops. rewrite q_snoc. destruct (QueueProofs3.next_ops nat fifo (q_state q) l) as (add & A & B). etransitivity; [exact A|].
  destruct l; cbn [qid] in N; try contradiction; rewrite B; apply app_nil_r.
Qed.
Lemma qops_nth q i o ph : qtask q i = Some (o, ph) -> nth_error (qops q) i = Some o.
Proof. intros E. unfold qops. apply (map_nth_error fst) in E. exact E. Qed.

(** Which operations there are. *)
Lemma core_ops t st st' p : all_good st -> core t st st' ->
  (exists l, qops (queue st' p) = qops (queue st p) ++ l /\ forall o, In o l ->
     (o = QueueModel.OClose -> exists n t0, nth_error (calls st') n = Some (t0, KStop p)) /\ (o = QueueModel.OReOpen -> exists n t0, nth_error (calls st') n = Some (t0, KReuse p))).
Proof.
  intros G. rename p into a.
  assert (SAME : qsame st st' -> exists l, qops (queue st' a) = qops (queue st a) ++ l /\ forall o, In o l ->
     (o = QueueModel.OClose -> exists n t0, nth_error (calls st') n = Some (t0, KStop a)) /\ (o = QueueModel.OReOpen -> exists n t0, nth_error (calls st') n = Some (t0, KReuse a))).
  { intros Q. exists []. rewrite (Q a), app_nil_r. split; [reflexivity|intros o []]. }
  assert (MOVE : forall p q' l, qto st st' p q' -> qops q' = qops (queue st p) ++ l -> (forall o, In o l ->
     (o = QueueModel.OClose -> exists n t0, nth_error (calls st') n = Some (t0, KStop p)) /\ (o = QueueModel.OReOpen -> exists n t0, nth_error (calls st') n = Some (t0, KReuse p))) ->
     exists l, qops (queue st' a) = qops (queue st a) ++ l /\ forall o, In o l ->
     (o = QueueModel.OClose -> exists n t0, nth_error (calls st') n = Some (t0, KStop a)) /\ (o = QueueModel.OReOpen -> exists n t0, nth_error (calls st') n = Some (t0, KReuse a))).
  { intros p q' l Q O H. rewrite (Q a). unfold upd. destruct (Nat.eqb_spec p a); [subst; eauto|]. exists []. rewrite app_nil_r. split; [reflexivity|intros o []]. }
  assert (NIL : forall p q', qto st st' p q' -> qops q' = qops (queue st p) -> exists l, qops (queue st' a) = qops (queue st a) ++ l /\ forall o, In o l ->
     (o = QueueModel.OClose -> exists n t0, nth_error (calls st') n = Some (t0, KStop a)) /\ (o = QueueModel.OReOpen -> exists n t0, nth_error (calls st') n = Some (t0, KReuse a))).
  { intros p q' Q O. eapply (MOVE p q' []); [exact Q|rewrite app_nil_r; exact O|intros o []]. }
  cores; try (apply SAME; exact Q).
  - eapply MOVE; [exact Q|apply qops_call|]. intros o [<-|[]]. split; discriminate.
  - eapply MOVE; [exact Q|rewrite qops_run by discriminate; apply qops_call|]. intros o [<-|[]]. split; [discriminate|]. intros _. destruct E as (_ & _ & ->). eauto.
  - eapply MOVE; [exact Q|apply qops_call|]. intros o [<-|[]]. split; [|discriminate]. intros _. destruct E as (_ & _ & ->). eauto.
  - eapply MOVE; [exact Q|apply qops_call|]. intros o [<-|[]]. split; discriminate.
  - eapply MOVE; [exact Q|unfold q1; rewrite qops_run by discriminate; apply qops_call|]. intros o [<-|[]]. split; discriminate.
  - eapply MOVE; [exact Q|unfold q1; rewrite qops_run by discriminate; apply qops_call|]. intros o [<-|[]]. split; discriminate.
  - eapply NIL; [exact Q|apply qops_run; discriminate].
  - eapply NIL; [exact Q|apply qops_run; rewrite L; discriminate].
  - eapply MOVE; [exact Q|rewrite qops_call; unfold q1; rewrite qops_run by discriminate; reflexivity|]. intros o [<-|[]]. split; discriminate.
  - eapply NIL; [exact Q|apply qops_run; discriminate].
  - eapply NIL; [exact Q|apply qops_run; discriminate].
  - eapply NIL; [exact Q|apply qops_run; discriminate].
  - eapply NIL; [exact Q|apply qops_run; discriminate].
  - eapply MOVE; [exact Q|apply qops_call|]. intros o [<-|[]]. split; discriminate.
Qed.

Definition ops_ok (st : state) (p : nat) : Prop :=
  (In QueueModel.OClose (qops (queue st p)) -> exists n t0, nth_error (calls st) n = Some (t0, KStop p)) /\
  (In QueueModel.OReOpen (qops (queue st p)) -> exists n t0, nth_error (calls st) n = Some (t0, KReuse p)).
Lemma ops_final h p : ops_ok (final h) p.
Proof.
  apply (core_ind2 (fun st => ops_ok st p)); [split; intros []|]. intros t st st' G I [J1 J2] K. pose proof (core_calls _ _ _ K) as CC. destruct (core_ops t st st' p G K) as (l & E & H). unfold ops_ok. rewrite E.
  split; intros X; apply in_app_or in X as [X|X].
  - destruct (J1 X) as (n & t0 & Y). exists n, t0. eapply nth_mono; eauto.
  - apply (H _ X). reflexivity.
  - destruct (J2 X) as (n & t0 & Y). exists n, t0. eapply nth_mono; eauto.
  - apply (H _ X). reflexivity.
Qed.

(** *** Every unfinished queue operation is some thread's. *)
Definition owned (st : state) : Prop := forall p i o ph, qtask (queue st p) i = Some (o, ph) -> live ph -> exists t, calling st t p i.

Lemma others_back i q q' j o ph : others i q q' -> j <> i -> j < q_next q -> qtask q' j = Some (o, ph) -> live ph -> exists ph0, qtask q j = Some (o, ph0) /\ live ph0.
Proof.
  intros O N L E LV. destruct (nth_error (QueueModel.tasks (q_state q)) j) as [[o0 p0]|] eqn:T; [|apply nth_error_None in T; unfold q_next in L; lia].
  destruct (O j o0 p0 N T) as (ph' & E' & H). rewrite E in E'. injection E' as <- <-. exists p0. split; [reflexivity|]. destruct H as [<-|[-> _]]; [exact LV|intros r; discriminate].
Qed.
Lemma live_result q i o ph : qtask q i = Some (o, ph) -> live ph -> q_result q i = None.
Proof. apply result_live. Qed.

Lemma owned_step t st st' : all_good st -> qinv st -> owned st -> core t st st' -> owned st'.
Proof.
  intros G I J K a b o ph TK LV. pose proof (G t) as GT.
  pose proof (core_qview t st st' G I K) as V.
  assert (KEEP : forall t', t' <> t -> calling st t' a b -> calling st' t' a b).
  { intros t' N (f & r & S & F). exists f, r. rewrite (qv_stk _ _ _ V) by exact N. split; [exact S|]. destruct (qv_calls _ _ _ V) as [-> |[x ->]]; [exact F|].
    rewrite (frame_q_mono _ _ t' f (stk st t')); auto. rewrite S. left. reflexivity. }
  assert (OLD : qtask (queue st a) b = Some (o, ph) \/ (exists ph0, qtask (queue st a) b = Some (o, ph0) /\ live ph0) -> (calling st t a b -> calling st' t a b) -> exists t', calling st' t' a b).
  { intros H C. assert (X : exists t', calling st t' a b) by (destruct H as [H|(ph0 & H & L0)]; eapply J; eauto). destruct X as (t' & X).
    destruct (Nat.eq_dec t' t) as [-> |N]; [exists t; auto|exists t'; auto]. }
  assert (SAME : qsame st st' -> (calling st t a b -> calling st' t a b) -> exists t', calling st' t' a b).
  { intros Q C. apply OLD; [|exact C]. left. rewrite <- (Q a). exact TK. }
  assert (NOC : forall f r, stk st t = f :: r -> frame_q (calls st) f = None -> calling st t a b -> calling st' t a b).
  { intros f r S F (f' & r' & S' & F'). rewrite S in S'. injection S' as <- <-. congruence. }
  assert (NOU : user (stk st t) = true -> calling st t a b -> calling st' t a b).
  { intros U (f' & r' & S' & F'). rewrite S' in U. destruct f' as [| | |? ? ? []]; discriminate. }
  (* the queue of p changes; own operation i *)
  assert (MOVE : forall p i q', qto st st' p q' -> others i (queue st p) q' -> (a = p -> b = i -> exists t', calling st' t' a b) -> (a = p -> q_next (queue st p) <= b -> b <> i -> exists t', calling st' t' a b) ->
    (calling st t a b -> calling st' t a b \/ (a = p /\ b = i)) -> exists t', calling st' t' a b).
  { intros p i q' Q O OWN NEW C. destruct (Nat.eq_dec a p) as [-> |N].
    - rewrite (Q p), upd_same in TK. destruct (Nat.eq_dec b i) as [-> |NB]; [auto|]. destruct (Nat.lt_ge_cases b (q_next (queue st p))) as [L|L]; [|auto].
      apply OLD; [right; eapply others_back; eauto|]. intros X. destruct (C X) as [|[_ ->]]; [assumption|contradiction].
    - rewrite (Q a), upd_other in TK by auto. apply OLD; [auto|]. intros X. destruct (C X) as [|[-> _]]; [assumption|contradiction]. }
  assert (TASK : forall p q', qto st st' p q' -> a = p -> qtask q' b = Some (o, ph)).
  { intros p q' Q ->. rewrite (Q p), upd_same in TK. exact TK. }
  assert (RES : forall p q', qto st st' p q' -> a = p -> q_result q' b <> None -> exists t', calling st' t' a b).
  { intros p q' Q A R. exfalso. apply R. eapply result_live; [eapply TASK; eauto|exact LV]. }
  assert (BIG : forall p q', qto st st' p q' -> a = p -> b < q_next q').
  { intros p q' Q A. pose proof (TASK _ _ Q A) as T. apply nth_lt in T. exact T. }
  destruct K as [l Q E N|p e m x x' r l S Q E N|c U N Q E|p k just U Q E|n t0 c k k' r S C F F' Q PS FT E|n t0 c k res r S C F Q R KS E|n t0 p r S C Q E
    |n t0 p r S C P Q E|n t0 p r S C Q E|n t0 c p ch r S C P q1 R Q E|n t0 c p ch r S C P q1 R Q E|n t0 c p i ch r S C P q1 R Q E|f r p i l S FQ L OR RN Q E
    |n t0 c p i ch r S C P q1 R Q E|n t0 c p i ch r S C P q1 R Q E|n t0 c p i ch res r S C P q1 R Q E|n p just kd i ch e r S q1 R Q E|n p just kd i ch res x r S q1 R NT Q E
    |n p just kd e t0 c r S C Q E|n t0 c k r S C F SB Q PS E|b' p e n p' just k r l S B N Q E|b' p e n p' just r l S B N Q E|b' p e n r l res S B N Q FI E|b' p e r l S B N Q O E].
  - apply SAME; [exact Q|]. intros (f & r & S & F). exists f, r. destruct E as (E & _ & ->). rewrite E, upd_same. auto.
  - apply SAME; [exact Q|]. eapply NOC; eauto.
  - apply SAME; [exact Q|]. auto.
  - apply (MOVE p (q_next (queue st p)) _ Q); [apply others_call| |intros A L N; exfalso; pose proof (BIG _ _ Q A) as X; rewrite q_next_call in X; lia|intros X; left; auto].
    intros -> ->. exists t. destruct E as (E & _ & _). do 2 eexists. rewrite E, upd_same. split; reflexivity.
  - apply SAME; [exact Q|]. eapply NOC; eauto. destruct k; try discriminate; reflexivity.
  - apply SAME; [exact Q|]. eapply NOC; eauto. destruct k; try discriminate; reflexivity.
  - apply (MOVE p (q_next (queue st p)) _ Q); [eapply others_trans; [apply others_call|apply others_run; reflexivity]| | |intros X; left; eapply NOC; eauto].
    + intros A ->. apply (RES _ _ Q A). pose proof (q_call_task (queue st p) QueueModel.OReOpen (q_next (queue st p))) as X. rewrite Nat.eqb_refl in X.
      unfold q_result. rewrite q_snoc. cbn. rewrite X. cbn. rewrite nth_set_same by (eapply nth_lt; eauto). discriminate.
    + intros A L N. exfalso. pose proof (BIG _ _ Q A) as X. rewrite q_next_run, q_next_call in X by discriminate. lia.
  - apply (MOVE p (q_next (queue st p)) _ Q); [apply others_call| |intros A L N; exfalso; pose proof (BIG _ _ Q A) as X; rewrite q_next_call in X; lia|intros X; left; eapply NOC; eauto].
    intros -> ->. exists t. destruct E as (E & _ & CC). do 2 eexists. rewrite E, upd_same. split; [reflexivity|]. cbn. rewrite CC, C. reflexivity.
  - apply (MOVE p (q_next (queue st p)) _ Q); [apply others_call| |intros A L N; exfalso; pose proof (BIG _ _ Q A) as X; rewrite q_next_call in X; lia|intros X; left; eapply NOC; eauto].
    intros -> ->. exists t. destruct E as (E & _ & CC). do 2 eexists. rewrite E, upd_same. split; [reflexivity|]. cbn. rewrite CC, C. reflexivity.
  - apply (MOVE p (q_next (queue st p)) _ Q); [eapply others_trans; [apply others_call|apply others_run; reflexivity]| | |intros X; left; eapply NOC; eauto].
    + intros A ->. apply (RES _ _ Q A). exact R.
    + intros A L N. exfalso. pose proof (BIG _ _ Q A) as X. unfold q1 in X. rewrite q_next_run, q_next_call in X by discriminate. lia.
  - apply (MOVE p (q_next (queue st p)) _ Q); [eapply others_trans; [apply others_call|apply others_run; reflexivity]| | |intros X; left; eapply NOC; eauto].
    + intros -> ->. exists t. destruct E as (E & _ & CC). do 2 eexists. rewrite E, upd_same. split; [reflexivity|]. cbn. rewrite CC, C, P. reflexivity.
    + intros A L N. exfalso. pose proof (BIG _ _ Q A) as X. unfold q1 in X. rewrite q_next_run, q_next_call in X by discriminate. lia.
  - apply (MOVE p i _ Q); [apply others_run; reflexivity|intros A ->; apply (RES _ _ Q A); exact R| |].
    + intros A L N. exfalso. pose proof (BIG _ _ Q A) as X. unfold q1 in X. rewrite q_next_run in X by discriminate. lia.
    + intros (f & r' & S' & F). right. rewrite S in S'. injection S' as <- <-. cbn in F. rewrite C in F. injection F as <- <-. auto.
  - assert (CA : calling st' t p i). { destruct E as (E & _ & CC). exists f, r. rewrite E, upd_same, CC. auto. }
    apply (MOVE p i _ Q); [apply others_run; exact L|intros -> ->; eauto| |].
    + intros A LB N. exfalso. pose proof (BIG _ _ Q A) as X. rewrite q_next_run in X by (rewrite L; discriminate). lia.
    + intros (f' & r' & S' & F). rewrite S in S'. injection S' as <- <-. rewrite FQ in F. injection F as <- <-. auto.
  - apply (MOVE p i _ Q); [apply (others_trans _ _ q1); [apply others_run; reflexivity|apply others_call]| | |].
    + intros A ->. apply (RES _ _ Q A). assert (X : qtask (q1 ++ [QueueModel.LCall (QueueModel.OClear false)]) i = qtask q1 i).
      { rewrite q_call_task. destruct (Nat.eqb_spec i (q_next q1)); [|reflexivity]. exfalso. unfold q1 in e. rewrite q_next_run in e by discriminate.
        assert (i < q_next (queue st p)); [|lia]. eapply (frame_q_lt st t); [exact I|exact S|]. cbn. rewrite C, P. reflexivity. }
      unfold q_result in *. rewrite X. exact R.
    + intros -> L N. exists t. destruct E as (E & _ & CC). do 2 eexists. rewrite E, upd_same. split; [reflexivity|]. cbn. rewrite CC, C, <- P. f_equal. f_equal.
      pose proof (BIG _ _ Q eq_refl) as X. rewrite q_next_call in X. unfold q1 in *. rewrite q_next_run in * by discriminate. lia.
    + intros (f & r' & S' & F). right. rewrite S in S'. injection S' as <- <-. cbn in F. rewrite C in F. injection F as <- <-. auto.
  - apply (MOVE p i _ Q); [apply others_run; reflexivity|intros A ->; apply (RES _ _ Q A); exact R| |].
    + intros A L N. exfalso. pose proof (BIG _ _ Q A) as X. unfold q1 in X. rewrite q_next_run in X by discriminate. lia.
    + intros (f & r' & S' & F). right. rewrite S in S'. injection S' as <- <-. cbn in F. rewrite C in F. injection F as <- <-. auto.
  - apply (MOVE p i _ Q); [apply others_run; reflexivity|intros A ->; apply (RES _ _ Q A); exact R| |].
    + intros A L N. exfalso. pose proof (BIG _ _ Q A) as X. unfold q1 in X. rewrite q_next_run in X by discriminate. lia.
    + intros (f & r' & S' & F). right. rewrite S in S'. injection S' as <- <-. cbn in F. rewrite C in F. injection F as <- <-. auto.
  - apply (MOVE p i _ Q); [apply others_run; reflexivity|intros A ->; apply (RES _ _ Q A); rewrite R; discriminate| |].
    + intros A L N. exfalso. pose proof (BIG _ _ Q A) as X. unfold q1 in X. rewrite q_next_run in X by discriminate. lia.
    + intros (f & r' & S' & F). right. rewrite S in S'. injection S' as <- <-. cbn in F. injection F as <- <-. auto.
  - apply (MOVE p i _ Q); [apply others_run; reflexivity|intros A ->; apply (RES _ _ Q A); rewrite R; discriminate| |].
    + intros A L N. exfalso. pose proof (BIG _ _ Q A) as X. unfold q1 in X. rewrite q_next_run in X by discriminate. lia.
    + intros (f & r' & S' & F). right. rewrite S in S'. injection S' as <- <-. cbn in F. injection F as <- <-. auto.
  - apply SAME; [exact Q|]. eapply NOC; eauto.
  - apply SAME; [exact Q|]. eapply NOC; eauto. destruct k; try discriminate; reflexivity.
  - apply (MOVE p' (q_next (queue st p')) _ Q); [apply others_call| |intros A L N'; exfalso; pose proof (BIG _ _ Q A) as X; rewrite q_next_call in X; lia|intros X; left; eapply NOC; eauto; destruct b'; try discriminate; reflexivity].
    intros -> ->. exists t. destruct E as (E & _ & _). do 2 eexists. rewrite E, upd_same. split; reflexivity.
  - apply SAME; [exact Q|]. eapply NOC; eauto. destruct b'; try discriminate; reflexivity.
  - apply SAME; [exact Q|]. eapply NOC; eauto. destruct b'; try discriminate; reflexivity.
  - apply SAME; [exact Q|]. eapply NOC; eauto. destruct b'; try discriminate; reflexivity.
Qed.
Lemma owned_final h : owned (final h).
Proof. apply core_ind2; [intros p i o ph E; destruct i; discriminate|]. intros t st st' G I J K. eapply owned_step; eauto. Qed.
