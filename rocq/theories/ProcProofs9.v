(** Results of the calls that submit executions; stop. *)
From Verif Require Import ListUtil Amap ProcModel ProcSpec ProcProofs ProcProofs2 ProcProofs3 ProcProofs4 ProcProofs5 ProcProofs6 ProcProofs7 ProcProofs8.
From Verif Require QueueModel QueueSpec QueueProofs QueueProofs2 SigModel.

(** How a processor becomes stopped, or is no longer. *)
Lemma core_closed t st st' p : all_good st -> qinv st -> core t st st' ->
  is_stopped st' p = is_stopped st p \/
  (is_stopped st' p = false /\ exists n r, stk st t = FCall n PStart :: r /\ nth_error (calls st) n = Some (t, KReuse p)) \/
  (is_stopped st' p = true /\ exists n i r, stk st t = FCall n (PClose i) :: r /\ stk st' t = FCall n (PClose i) :: r /\ nth_error (calls st) n = Some (t, KStop p)).
Proof.
  intros G I. rename p into a. pose proof (G t) as GT.
  assert (SAME : qsame st st' -> is_stopped st' a = is_stopped st a) by (intros Q; unfold is_stopped; rewrite (Q a); reflexivity).
  assert (MOVE : forall p q', qto st st' p q' -> q_closed q' = q_closed (queue st p) -> is_stopped st' a = is_stopped st a).
  { intros p q' Q C. unfold is_stopped. rewrite (Q a). unfold upd. destruct (Nat.eqb_spec p a); [subst; exact C|reflexivity]. }
  assert (OWN : forall n k r t0 c, stk st t = FCall n k :: r -> nth_error (calls st) n = Some (t0, c) -> t0 = t /\ fit c k = true).
  { intros n k r t0 c S C. rewrite S in GT. destruct (g_call _ _ _ GT n k) as (c' & C' & F); [left; reflexivity|]. rewrite C in C'. injection C' as <- <-. auto. }
  cores; try (left; apply SAME; exact Q).
  - left. eapply MOVE; [exact Q|]. apply q_call_same.
  - destruct (OWN _ _ _ _ _ S C) as [-> _]. destruct (Nat.eq_dec p a) as [-> |NE]; [right; left|left].
    + split; [|eauto]. unfold is_stopped. rewrite (Q a), upd_same. apply q_reopen.
    + unfold is_stopped. rewrite (Q a), upd_other by auto. reflexivity.
  - left. eapply MOVE; [exact Q|]. apply q_call_same.
  - left. eapply MOVE; [exact Q|]. apply q_call_same.
  - left. eapply MOVE; [exact Q|]. apply q_enter_push.
  - left. eapply MOVE; [exact Q|]. apply q_enter_push.
  - left. eapply MOVE; [exact Q|]. destruct (top_task _ _ _ _ _ _ _ i I S C) as (o & ph & TK & W1 & W2); [cbn; rewrite C; reflexivity|]. rewrite <- P in TK. subst o ph.
    apply (q_push_step _ _ _ ch TK).
  - destruct (qi_want _ I _ _ _ _ _ S FQ) as (o & ph & TK & W). pose proof (want_live _ _ _ W) as LV.
    destruct f as [n []|n p' j k []| |]; cbn in W; try contradiction; destruct W as [W1 W2]; subst.
    + left. eapply MOVE; [exact Q|]. destruct OR as [(ch & ->)|(? & ? & ? & ? & X)]; [|discriminate]. apply (q_push_step _ _ _ ch TK).
    + destruct OR as [(ch & ->)|(? & ? & ? & ? & X)]; [|discriminate]. destruct (q_close_step _ _ ch _ TK LV) as (_ & [[_ X]|[_ X]] & _).
      * destruct (Nat.eq_dec p a) as [-> |NE]; [right; right|left].
        -- split; [unfold is_stopped; rewrite (Q a), upd_same; exact X|]. cbn in FQ. destruct (nth_error (calls st) n) as [[t0 c]|] eqn:C; [|discriminate]. injection FQ as FQ <-. destruct (OWN _ _ _ _ _ S C) as [-> F].
           destruct c; try discriminate. cbn in FQ. subst. do 3 eexists. destruct E as (E & _). rewrite E, upd_same. eauto.
        -- unfold is_stopped. rewrite (Q a), upd_other by auto. reflexivity.
      * left. eapply MOVE; [exact Q|exact X].
    + left. eapply MOVE; [exact Q|]. destruct OR as [(ch & ->)|(? & ? & ? & ? & X)]; [|discriminate]. apply (q_clear_step _ _ ch TK).
    + left. eapply MOVE; [exact Q|]. destruct OR as [(ch & ->)|(? & ? & ? & ? & X)]; [|discriminate]. apply (q_size_step _ _ ch TK).
    + left. eapply MOVE; [exact Q|]. apply (q_wait_step _ _ _ _ _ L TK LV).
  - left. destruct (top_task _ _ _ _ _ _ _ i I S C) as (o & ph & TK & W1 & W2); [cbn; rewrite C; reflexivity|]. rewrite <- P in TK. subst o.
    eapply MOVE; [exact Q|]. destruct (q_call_same q1 (QueueModel.OClear false)) as [_ X]. rewrite X. destruct (q_close_step _ _ ch _ TK W2) as (_ & _ & [[-> Y]|Y]).
    + exfalso. apply R. fold q1 in Y. eapply result_live; [exact Y|intros ?; discriminate].
    + destruct (q_close_step _ _ ch _ TK W2) as (_ & [[-> Z]|[_ Z]] & _); [|exact Z]. clear - TK Z Y. fold q1 in Y, Z. 
      unfold q_closed in *. unfold q1 in *. rewrite q_snoc in *. unfold q_result in Y. rewrite q_snoc in Y. cbn in Z, Y |- *. rewrite TK in *. cbn in *. 
      destruct (QueueModel.closed (q_state (queue st p))) eqn:CL; [cbn in *; congruence|]. cbn in Y. rewrite nth_set_same in Y by (eapply nth_lt; eauto). contradiction.
  - left. destruct (top_task _ _ _ _ _ _ _ i I S C) as (o & ph & TK & W1 & W2); [cbn; rewrite C; reflexivity|]. rewrite <- P in TK. subst o ph.
    eapply MOVE; [exact Q|]. apply (q_clear_step _ _ ch TK).
  - left. destruct (top_task _ _ _ _ _ _ _ i I S C) as (o & ph & TK & W1 & W2); [cbn; rewrite C; reflexivity|]. rewrite <- P in TK. subst o ph.
    eapply MOVE; [exact Q|]. apply (q_size_step _ _ ch TK).
  - left. destruct (qi_want _ I _ _ _ p i S eq_refl) as (o & ph & TK & W1 & W2). subst o. eapply MOVE; [exact Q|]. apply (q_wait_step _ (QueueModel.LRun i ch) _ _ _ eq_refl TK W2).
  - left. destruct (qi_want _ I _ _ _ p i S eq_refl) as (o & ph & TK & W1 & W2). subst o. eapply MOVE; [exact Q|]. apply (q_wait_step _ (QueueModel.LRun i ch) _ _ _ eq_refl TK W2).
  - left. eapply MOVE; [exact Q|]. apply q_call_same.
Qed.

Lemma core_calls t st st' : core t st st' -> calls st' = calls st \/ exists x, calls st' = calls st ++ [x].
Proof. cores; destruct E as (_ & _ & CC); eauto. Qed.
Lemma nth_mono st st' n x : (calls st' = calls st \/ exists x, calls st' = calls st ++ [x]) -> nth_error (calls st) n = Some x -> nth_error (calls st') n = Some x.
Proof. intros CC E. destruct CC as [-> |[y ->]]; [exact E|]. rewrite nth_error_app1; auto. eapply nth_lt; eauto. Qed.

(** Stopped only by stop(). *)
Lemma stopped_by h p : is_stopped (final h) p = true -> exists n t, nth_error (calls (final h)) n = Some (t, KStop p).
Proof.
  apply (core_ind2 (fun st => is_stopped st p = true -> exists n t, nth_error (calls st) n = Some (t, KStop p))); [discriminate|]. clear h.
  intros t st st' G I J K H. pose proof (core_calls _ _ _ K) as CC. destruct (core_closed t st st' p G I K) as [X|[[X _]|(_ & n & i & r & _ & _ & X)]].
  - rewrite X in H. destruct (J H) as (n & t0 & E). exists n, t0. eapply nth_mono; eauto.
  - congruence.
  - exists n, t. eapply nth_mono; eauto.
Qed.

(** *** Results *)
Lemma evt_stable t h st' n : evt t (final h) st' -> 1 <= cnt (returns n) (tr (final h)) -> cnt (accepts n) (tr (final h)) = 0 -> cnt (starts n) (tr (final h)) = 0 ->
  cnt (accepts n) (tr st') = 0 /\ cnt (starts n) (tr st') = 0.
Proof.
  intros K R A Z. pose proof (calls_final h) as JC. pose proof (exec_final h) as JX. pose proof (logged_final h) as LG. set (st := final h) in *. rename n into a.
  assert (NI : ~ In a (ids (stk st t))) by (intros I; rewrite (c_open _ JC _ _ I) in R; lia).
  assert (DULL : forall add, tr st' = tr st ++ add -> (forall e, In e add -> dull e = true) -> cnt (accepts a) (tr st') = 0 /\ cnt (starts a) (tr st') = 0).
  { intros add T D. rewrite T, !cnt_app, A, Z. rewrite (proj2 (cnt_in (accepts a) add)), (proj2 (cnt_in (starts a) add)); auto; intros x I; specialize (D x I); destruct x; try reflexivity; discriminate. }
  evts K; destruct E as (S' & T & CC).
  - eapply DULL; [exact T|]. intros e I. apply neutral_dull, N, I.
  - eapply DULL; [exact T|]. intros e I. apply neutral_dull, N, I.
  - eapply DULL; [exact T|]. intros e [<-|[]]; reflexivity.
  - eapply DULL; [exact T|]. intros e I. apply in_snoc in I as [I|[<-|[]]]; [|reflexivity]. destruct DS as [-> |(p & es & ->)]; [destruct I|destruct I as [<-|[]]; reflexivity].
  - rewrite T, !cnt_app, !cnt_cons, !cnt_nil. cbn. destruct (Nat.eqb_spec a n); [|cbn; lia]. subst. exfalso. apply NI. rewrite S. left. reflexivity.
  - rewrite T, !cnt_app, !cnt_cons, !cnt_nil. cbn. lia.
  - rewrite T, !cnt_app, !cnt_cons, !cnt_nil. cbn. destruct (Nat.eqb_spec a e); [|cbn; lia]. subst. exfalso.
    destruct (x_got _ JX t n p j k e) as [TK _]; [rewrite S; left; reflexivity|]. destruct (take_accept _ _ _ _ LG TK) as (ta & AI). eapply accept_cnt; eauto.
  - rewrite T, !cnt_app, !cnt_cons, !cnt_nil. cbn. destruct (Nat.eqb_spec a n); [|cbn; lia]. subst. exfalso. apply NI. rewrite S. left. reflexivity.
  - eapply DULL; [exact T|]. intros x I. apply in_snoc in I as [I|[<-|[]]]; [apply neutral_dull, N, I|reflexivity].
  - eapply DULL; [exact T|]. intros x I. apply in_snoc in I as [I|[<-|[<-|[]]]]; [apply neutral_dull, N, I|reflexivity|reflexivity].
  - eapply DULL; [exact T|]. intros x I. apply in_snoc in I as [I|[<-|[<-|[]]]]; [apply neutral_dull, N, I|reflexivity|reflexivity].
Qed.

Definition outcome (st : state) (t n : nat) (c : call) (r : result) : Prop :=
  (r = no c /\ cnt (accepts n) (tr st) = 0 /\ cnt (starts n) (tr st) = 0) \/
  (r = fin c true /\ In (EAccept t (target c) n) (tr st)) \/
  (r = fin c true /\ In (EStart t (target c) n true) (tr st) /\ In (EEnd t (target c) n) (tr st)) \/
  ((r = fin c false \/ r = fin c true) /\ cnt (accepts n) (tr st) = 0 /\ cnt (starts n) (tr st) = 0 /\ exists n' t', nth_error (calls st) n' = Some (t', KStop (target c))).

Lemma opened t p e i l : In (p, e, i) (open t l) -> In (EStart t p e i) l.
Proof.
  induction l as [|x l IH] using rev_ind; [intros []|]. rewrite open_app. cbn. intros I. apply in_or_app.
  destruct x; cbn in I; try (left; apply IH; exact I); destruct (Nat.eqb_spec t t0); try (left; apply IH; exact I).
  - destruct I as [I|I]; [right; left; congruence|left; apply IH; exact I].
  - left. apply IH. destruct (open t l); [destruct I|right; exact I].
Qed.

Lemma outcome_final h : forall t n c r, In (ERet t n r) (tr (final h)) -> nth_error (calls (final h)) n = Some (t, c) -> submits c = true -> outcome (final h) t n c r.
Proof.
  apply (steps_ind (fun st => forall t n c r, In (ERet t n r) (tr st) -> nth_error (calls st) n = Some (t, c) -> submits c = true -> outcome st t n c r)); [intros t n c r []|].
  clear h. intros z h st' J K (lb & R') t a cc rr I C' SBM. pose proof (good_final h) as G. pose proof (calls_final h) as JC. pose proof (exec_final h) as JX. pose proof (bodies_final h) as BO.
  pose proof (stopped_by h (target cc)) as SB'. pose proof (evt_stable z h st' a K) as ST. pose proof (evt_calls _ _ _ K) as CM. set (st := final h) in *.
  assert (MONO : exists add, tr st' = tr st ++ add) by (evts K; destruct E as (_ & T & _); eauto).
  destruct MONO as (add & MONO).
  assert (INM : forall x, In x (tr st) -> In x (tr st')) by (intros x H; rewrite MONO; apply in_or_app; auto).
  assert (OLD : In (ERet t a rr) (tr st) -> outcome st' t a cc rr).
  { intros H. destruct (c_ret _ JC _ _ _ H) as (c0 & C0). pose proof (nth_mono _ _ _ _ CM C0) as C1. assert (c0 = cc) by congruence. subst c0.
    assert (RP : 1 <= cnt (returns a) (tr st)) by (eapply cnt_pos; [exact H|cbn; apply Nat.eqb_refl]).
    destruct (J t a cc rr H C0 SBM) as [(A & B & D)|[(A & B)|[(A & B & D)|(A & B & D & n' & t' & E)]]].
    - left. split; [exact A|apply ST; auto].
    - right. left. auto.
    - right. right. left. auto.
    - right. right. right. split; [exact A|]. destruct (ST RP B D) as [-> ->]. split; [reflexivity|split; [reflexivity|]]. exists n', t'. eapply nth_mono; eauto. }
  assert (NEW : In (ERet t a rr) add -> outcome st' t a cc rr); [|rewrite MONO, in_snoc in I; destruct I; auto].
  clear I. intros I.
  assert (NOCALL : forall x, no_call_ret x = false -> forall l, (forall e, In e l -> no_call_ret e = true) -> ~ In x l).
  { intros x NX l H HI. rewrite (H _ HI) in NX. discriminate. }
  evts K; destruct E as (S' & T & CC); rewrite T in MONO; apply app_inv_head in MONO; subst add.
  - exfalso. eapply NOCALL; [|apply quiet_ncr; exact N|exact I]. reflexivity.
  - exfalso. eapply NOCALL; [|apply quiet_ncr; exact N|exact I]. reflexivity.
  - destruct I as [I|[]]; discriminate.
  - apply in_snoc in I as [I|[I|[]]]; [destruct DS as [-> |(p & es & ->)]; [destruct I|destruct I as [I|[]]; discriminate]|]. injection I as -> -> ->. rewrite CC in C'.
    assert (D : dull (ERet t a rr) = true) by reflexivity.
    assert (Z : cnt (accepts a) (tr st') = 0 /\ cnt (starts a) (tr st') = 0).
    { destruct f as [n k|n p j k ph| |]; cbn in ID; try discriminate; injection ID as ->.
      - destruct (x_call _ JX t a k) as [X1 X2]; [rewrite S; left; reflexivity|]. rewrite T, !cnt_app, X1, X2 by (intros ->; exact W).
        destruct DS as [-> |(p & es & ->)]; rewrite ?cnt_cons, ?cnt_nil; cbn; auto.
      - exfalso. rewrite (g_loop _ _ _ (G t) a p j k ph) in C' by (rewrite S; left; reflexivity). injection C' as <-. discriminate. }
    destruct (X cc C' SBM) as [Y|[Y Y2]].
    + left. auto.
    + right. right. right. split; [exact Y|]. destruct Z as [-> ->]. split; [reflexivity|split; [reflexivity|]]. destruct (SB' Y2) as (n' & t' & E). exists n', t'. rewrite CC. exact E.
  - destruct I as [I|[I|[]]]; [discriminate|]. injection I as -> -> <-. rewrite CC in C'. rewrite C in C'. injection C' as <-. right. left. split; [reflexivity|]. rewrite T. apply in_or_app. right. left. congruence.
  - destruct I as [I|[]]; discriminate.
  - destruct I as [I|[]]; discriminate.
  - destruct I as [I|[]]; discriminate.
  - exfalso. apply in_snoc in I as [I|[I|[]]]; [|discriminate]. eapply NOCALL; [|apply quiet_ncr; exact N|exact I]. reflexivity.
  - apply in_snoc in I as [I|[I|[I|[]]]]; [|discriminate|].
    + exfalso. eapply NOCALL; [|apply quiet_ncr; exact N|exact I]. reflexivity.
    + injection I as -> -> <-. rewrite CC in C'. rewrite (g_loop _ _ _ (G t) a p j Once LBusy) in C' by (rewrite S; right; left; reflexivity). injection C' as <-. discriminate.
  - apply in_snoc in I as [I|[I|[I|[]]]]; [|discriminate|].
    + exfalso. eapply NOCALL; [|apply quiet_ncr; exact N|exact I]. reflexivity.
    + injection I as -> -> <-. rewrite CC in C'. rewrite C in C'. injection C' as <-. right. right. left. split; [reflexivity|].
      assert (O : In (EStart t p a true) (tr st)). { apply opened. rewrite BO, S. cbn. rewrite B. left. reflexivity. }
      destruct (x_inl _ JX _ _ _ O) as (_ & c' & C2 & _ & P2). rewrite C in C2. injection C2 as <-. subst p.
      split; [apply INM; exact O|]. rewrite T. apply in_or_app. right. apply in_or_app. right. left. reflexivity.
Qed.
