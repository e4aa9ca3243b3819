(** No lost wake-ups; nothing taken after stop. *)
From Verif Require Import ListUtil Amap ProcModel ProcSpec ProcProofs ProcProofs2 ProcProofs3 ProcProofs4 ProcProofs5 ProcProofs6 ProcProofs7 ProcProofs8 ProcProofs9 ProcProofs10.
From Verif Require QueueModel QueueSpec QueueProofs QueueProofs2 QueueProofs3 SigModel.

Lemma no_op_call (h : history) p bad : (forall o, In o (qops (queue (final h) p)) -> bad o = false) -> QueueSpec.no_call fifo bad (queue (final h) p).
Proof.
  intros H t o C. apply H. apply QueueProofs2.call_of_task in C as (ph & E). eapply nth_error_In. eapply qops_nth. exact E.
Qed.

Lemma never_stop h p : never_called h (stops p) -> forall n t, nth_error (calls (final h)) n <> Some (t, KStop p).
Proof. intros N n t E. apply (c_in _ (calls_final h)) in E. specialize (N _ _ _ E). cbn in N. rewrite Nat.eqb_refl in N. discriminate. Qed.
Lemma never_reuse h p : never_called h (reuses p) -> forall n t, nth_error (calls (final h)) n <> Some (t, KReuse p).
Proof. intros N n t E. apply (c_in _ (calls_final h)) in E. specialize (N _ _ _ E). cbn in N. rewrite Nat.eqb_refl in N. discriminate. Qed.

Lemma no_lost_wakeup h p t : never_called h (stops p) -> asleep_in h t p -> (forall t', resting h t') -> pending h p = [].
Proof.
  intros NS (n & j & k & i & r & S & A) R. eapply QueueProofs3.no_sleep_on_content; [|exact A|].
  - apply no_op_call. intros o I. destruct o; try reflexivity. destruct (proj1 (ops_final h p) I) as (n' & t0 & E). exfalso. eapply never_stop; eauto.
  - intros i' L. destruct (nth_error (QueueModel.tasks (q_state (queue (final h) p))) i') as [[o ph]|] eqn:E.
    + assert (D : (exists res, ph = QueueModel.PReturned res) \/ live ph) by (destruct ph; try (right; intros ?; discriminate); left; eauto). destruct D as [(res & ->)|LV].
      * left. exists res. eapply QueueProofs2.ret_task. exact E.
      * right. destruct (owned_final h _ _ _ _ E LV) as (t' & f & r' & S' & F). destruct (R t') as [U|(p' & n' & j' & k' & i0 & r0 & S0 & A0)].
        -- exfalso. rewrite S' in U. destruct f as [| | |? ? ? []]; discriminate.
        -- rewrite S' in S0. injection S0 as -> ->. cbn in F. injection F as -> ->. exact A0.
    + exfalso. apply nth_error_None in E. unfold QueueModel.calls in L. rewrite map_length in L. exact (Nat.lt_irrefl _ (Nat.lt_le_trans _ _ _ L E)).
Qed.

(** *** Stop *)
Definition settled (q : QueueModel.history nat) : Prop := forall i o, qtask q i <> Some (o, QueueModel.PPop).
Lemma settled_call q o : settled q -> settled (q ++ [QueueModel.LCall o]).
Proof. intros H i o' E. rewrite q_call_task in E. destruct (Nat.eqb i (q_next q)); [discriminate|eapply H; eauto]. Qed.
Lemma settled_run q l j : qid l = Some j -> q_closed q = true -> settled q -> settled (q ++ [l]).
Proof.
  intros L CL H i o E. destruct (Nat.eq_dec i j) as [-> |N].
  - rewrite q_snoc in E. unfold q_closed in CL. specialize (H j). revert E. destruct l as [o0|t c|t|t]; cbn in L; [discriminate|injection L as ->..]; cbn.
    + destruct (nth_error (QueueModel.tasks (q_state q)) j) as [[o0 p0]|] eqn:T; [|rewrite T; discriminate]. pose proof (nth_lt _ _ _ T) as LT.
      assert (H0 : p0 <> QueueModel.PPop) by (intros ->; eapply H; exact eq_refl).
      assert (G : forall l' x, QueueProofs.woke nat (QueueModel.tasks (q_state q)) l' -> snd x <> QueueModel.PPop -> nth_error (set_nth j x l') j = Some (o, QueueModel.PPop) -> False).
      { intros l' x W NX E. pose proof (QueueProofs.woke_length nat _ _ W) as WL. rewrite nth_set_same in E by exact (eq_ind_r (fun z => j < z) LT WL). injection E as ->. apply NX. reflexivity. }
      assert (G' : forall x, snd x <> QueueModel.PPop -> nth_error (set_nth j x (QueueModel.tasks (q_state q))) j = Some (o, QueueModel.PPop) -> False).
      { intros x NX E. rewrite nth_set_same in E by exact LT. injection E as ->. apply NX. reflexivity. }
      unfold QueueModel.step_at. rewrite CL. destruct p0; cbn; try contradiction;
        repeat match goal with |- context [if ?b then _ else _] => destruct b; cbn | |- context [match o0 with _ => _ end] => destruct o0; cbn
          | |- context [match ?x with Some _ => _ | None => _ end] => destruct x eqn:?; cbn end; intros E;
        first [congruence|eapply G'; [|exact E]; cbn; discriminate|eapply G; [| |exact E]; [first [apply QueueProofs.woke_all|eapply QueueProofs.woke_one; eassumption]|cbn; discriminate]].
    + destruct (nth_error (QueueModel.tasks (q_state q)) j) as [[[| |[]| | | | | | |] []]|] eqn:T; cbn; rewrite ?T; try discriminate; try (rewrite nth_set_same by (eapply nth_lt; eauto); discriminate); intros E; first [exact (H o E)|eapply (H o); rewrite E; reflexivity|congruence].
    + destruct (nth_error (QueueModel.tasks (q_state q)) j) as [[o0 []]|] eqn:T; cbn; rewrite ?T; try discriminate; try (rewrite nth_set_same by (eapply nth_lt; eauto); discriminate); intros E; first [exact (H o E)|eapply (H o); rewrite E; reflexivity|congruence].
  - destruct (nth_error (QueueModel.tasks (q_state q)) i) as [[o0 p0]|] eqn:T.
    + destruct (q_other q l i j o0 p0 L N T) as (p' & E' & X). rewrite E in E'. injection E' as <- <-. destruct X as [<-|[_ X]]; [eapply H; eauto|discriminate].
    + apply nth_error_None in T. apply nth_lt in E. assert (X := q_next_run q l). unfold q_next in X. rewrite X in E by (rewrite L; discriminate). lia.
Qed.
Lemma settled_free q : QueueModel.mutex (q_state q) = None -> settled q.
Proof.
  intros M i o E. assert (X : QueueModel.mutex (q_state q) = Some i); [|congruence].
  apply (QueueProofs2.i_mutex _ _ (QueueProofs2.inv_final nat fifo q)). exists o, QueueModel.PPop. split; [exact E|reflexivity].
Qed.

(** A close() that is done has closed the queue, if it is never opened again. *)
Lemma close_closes q i ph : (forall o, In o (qops q) -> o <> QueueModel.OReOpen) -> qtask q i = Some (QueueModel.OClose, ph) -> q_result q i <> None -> q_closed q = true.
Proof.
  intros N E R. destruct (result_some _ _ _ _ E R) as (r & ->). apply (QueueProofs3.closed_after nat fifo [] q i).
  - intros t C. exfalso. apply QueueProofs2.call_of_task in C as (p & T). eapply (N QueueModel.OReOpen); [|reflexivity]. eapply nth_error_In. eapply qops_nth. exact T.
  - apply Nat.le_0_l.
  - apply QueueProofs2.call_of_task. eauto.
  - exists r. eapply QueueProofs2.ret_task. exact E.
Qed.

Definition closing (k : pc) : Prop := exists i, k = PClose i \/ k = PClear i.
Record inv_stop (st : state) (p : nat) : Prop := {
  s_done : forall n t, nth_error (calls st) n = Some (t, KStop p) -> 1 <= cnt (returns n) (tr st) -> is_stopped st p = true;
  s_clear : forall n t i, In (FCall n (PClear i)) (stk st t) -> nth_error (calls st) n = Some (t, KStop p) -> is_stopped st p = true;
  s_settled : is_stopped st p = true -> settled (queue st p) \/ exists t n k r, stk st t = FCall n k :: r /\ nth_error (calls st) n = Some (t, KStop p) /\ closing k }.

(** The queue while it is closed. *)
Lemma core_settled t st st' p : all_good st -> qinv st -> core t st st' -> (forall n t0, nth_error (calls st') n <> Some (t0, KReuse p)) -> is_stopped st p = true ->
  settled (queue st p) -> settled (queue st' p).
Proof.
  intros G I K NR CL ST. rename p into a. pose proof (core_calls _ _ _ K) as CM. revert K.
  assert (SAME : qsame st st' -> settled (queue st' a)) by (intros Q; rewrite (Q a); exact ST).
  assert (MOVE : forall p q', qto st st' p q' -> (p = a -> settled q') -> settled (queue st' a)).
  { intros p q' Q H. rewrite (Q a). unfold upd. destruct (Nat.eqb_spec p a); [subst; auto|exact ST]. }
  unfold is_stopped in CL.
  assert (CL1 : forall o, q_closed (queue st a ++ [QueueModel.LCall o]) = true) by (intros o; rewrite (proj2 (q_call_same _ _)); exact CL).
  cores; try (apply SAME; exact Q).
  - eapply MOVE; [exact Q|intros ->; apply settled_call, ST].
  - eapply MOVE; [exact Q|]. intros ->. exfalso. eapply NR. eapply nth_mono; eauto.
  - eapply MOVE; [exact Q|intros ->; apply settled_call, ST].
  - eapply MOVE; [exact Q|intros ->; apply settled_call, ST].
  - eapply MOVE; [exact Q|]. intros ->. eapply settled_run; [reflexivity|apply CL1|apply settled_call, ST].
  - eapply MOVE; [exact Q|]. intros ->. eapply settled_run; [reflexivity|apply CL1|apply settled_call, ST].
  - eapply MOVE; [exact Q|]. intros ->. eapply settled_run; [reflexivity|exact CL|exact ST].
  - eapply MOVE; [exact Q|]. intros ->. eapply settled_run; [exact L|exact CL|exact ST].
  - eapply MOVE; [exact Q|]. intros ->. apply settled_call. eapply settled_run; [reflexivity|exact CL|exact ST].
  - eapply MOVE; [exact Q|]. intros ->. eapply settled_run; [reflexivity|exact CL|exact ST].
  - eapply MOVE; [exact Q|]. intros ->. eapply settled_run; [reflexivity|exact CL|exact ST].
  - eapply MOVE; [exact Q|]. intros ->. eapply settled_run; [reflexivity|exact CL|exact ST].
  - eapply MOVE; [exact Q|]. intros ->. eapply settled_run; [reflexivity|exact CL|exact ST].
  - eapply MOVE; [exact Q|intros ->; apply settled_call, ST].
Qed.

Lemma core_stays t st st' p : all_good st -> qinv st -> core t st st' -> (forall n t0, nth_error (calls st') n <> Some (t0, KReuse p)) -> is_stopped st p = true -> is_stopped st' p = true.
Proof.
  intros G I K NR CL. destruct (core_closed t st st' p G I K) as [X|[(_ & n & r & S & C)|[X _]]]; [congruence| |exact X]. exfalso. eapply NR. eapply nth_mono; [eapply core_calls; eauto|exact C].
Qed.

Lemma final_step h l : core (fst l) (final h) (final (h ++ [l])).
Proof. rewrite final_snoc. apply next_core, good_final. Qed.
Lemma calls_mono h h' n x : nth_error (calls (final h)) n = Some x -> nth_error (calls (final (h ++ h'))) n = Some x.
Proof.
  revert n x. induction h' as [|l h' IH] using rev_ind; intros n x E; [rewrite app_nil_r; exact E|]. rewrite app_assoc. eapply nth_mono; [eapply core_calls; apply final_step|]. auto.
Qed.

Lemma stop_final h p : (forall n t0, nth_error (calls (final h)) n <> Some (t0, KReuse p)) -> inv_stop (final h) p.
Proof.
  induction h as [|lb h IH] using rev_ind; intros NR.
  { split; cbn; [intros n t E; destruct n; discriminate|intros n t i []|discriminate]. }
  assert (NR0 : forall n t0, nth_error (calls (final h)) n <> Some (t0, KReuse p)) by (intros n t0 E; eapply NR; eapply calls_mono; exact E).
  specialize (IH NR0). pose proof (final_step h lb) as K. set (t := fst lb) in *. clearbody t.
  pose proof (good_final h) as G. pose proof (good_final (h ++ [lb])) as G'. pose proof (qinv_final h) as I. pose proof (qinv_final (h ++ [lb])) as I'. pose proof (calls_final (h ++ [lb])) as JC'.
  pose proof (calls_final h) as JC. pose proof (ops_final (h ++ [lb]) p) as [_ OPS]. pose proof (ops_final h p) as [_ OPS0].
  set (st := final h) in *. set (st' := final (h ++ [lb])) in *. clearbody st st'. clear h lb.
  pose proof (core_calls _ _ _ K) as CM. pose proof (fun X => core_stays t st st' p G I K NR X) as STAY.
  assert (NO : forall q, (exists l, qops (queue st p) = qops q ++ l) -> forall o, In o (qops q) -> o <> QueueModel.OReOpen).
  { intros q (l & X) o IO ->. destruct OPS0 as (n & t0 & E); [rewrite X; apply in_or_app; auto|]. eapply NR0; eauto. }
  (* a close() that just finished *)
  assert (DONE : forall n t0 c i ch r, stk st t = FCall n (PClose i) :: r -> nth_error (calls st) n = Some (t0, c) -> target c = p -> q_result (queue st p ++ [QueueModel.LRun i ch]) i <> None ->
    q_closed (queue st p ++ [QueueModel.LRun i ch]) = true).
  { intros n t0 c i ch r S C P R. destruct (top_task _ _ _ _ _ _ _ i I S C) as (o & ph & TK & W1 & W2); [cbn; rewrite C; reflexivity|]. rewrite P in TK. subst o.
    set (q1 := queue st p ++ [QueueModel.LRun i ch]) in *.
    assert (E1 : exists ph1, qtask q1 i = Some (QueueModel.OClose, ph1)).
    { assert (X : nth_error (qops q1) i = Some QueueModel.OClose) by (unfold q1; rewrite qops_run by discriminate; eapply qops_nth; eauto).
      destruct (nth_error (QueueModel.tasks (q_state q1)) i) as [[o1 ph1]|] eqn:E1; [|apply nth_error_None in E1; apply nth_lt in X; unfold qops in X; rewrite map_length in X; exfalso; exact (Nat.lt_irrefl _ (Nat.lt_le_trans _ _ _ X E1))].
      pose proof (qops_nth _ _ _ _ E1) as Y. rewrite X in Y. injection Y as <-. eauto. }
    destruct E1 as (ph1 & E1). eapply close_closes; [|exact E1|exact R]. unfold q1. rewrite qops_run by discriminate. apply NO. exists []. rewrite app_nil_r. reflexivity. }
  assert (OWN : forall n k r t0 c, stk st t = FCall n k :: r -> nth_error (calls st) n = Some (t0, c) -> t0 = t /\ fit c k = true).
  { intros n k r t0 c S C. pose proof (G t) as GT. rewrite S in GT. destruct (g_call _ _ _ GT n k) as (c' & C' & F); [left; reflexivity|]. rewrite C in C'. injection C' as <- <-. auto. }
  assert (OLDC : forall n t0 f r, stk st t = f :: r -> In n (id_of f) -> nth_error (calls st') n = Some (t0, KStop p) -> nth_error (calls st) n = Some (t0, KStop p)).
  { intros n t0 f r S ID C. destruct CM as [<-|[x CE]]; [exact C|]. rewrite CE in C. rewrite nth_error_app1 in C; [exact C|]. eapply ids_lt; [apply (G t)|]. rewrite S. apply in_or_app. left. exact ID. }
  split.
  - intros n t0 C R. destruct (Nat.eq_dec (cnt (returns n) (tr st)) 0) as [Z|NZ].
    + apply STAY. clear STAY DONE NO. rename p into a, n into n0, t0 into z, C into CZ, R into RZ.
      assert (QT : forall l, quiet l -> cnt (returns n0) l = 0) by (intros l Q; apply cnt_quiet; [exact Q|intros []; cbn; congruence]).
      assert (NEQ : forall n, n = n0 \/ b2n (Nat.eqb n0 n) = 0) by (intros n; destruct (Nat.eqb_spec n0 n); auto).
      assert (KN : forall n k r c t1, stk st t = FCall n k :: r -> nth_error (calls st) n = Some (t1, c) -> n = n0 -> c = KStop a).
      { intros n k r c t1 S C1 ->. pose proof (OLDC n0 z _ _ S (or_introl eq_refl) CZ). congruence. }
      revert K. cores; destruct E as (S' & T & CC); rewrite T in RZ; rewrite ?cnt_app, ?cnt_cons, ?cnt_nil in RZ; cbn [returns] in RZ; try match goal with N : quiet ?l |- _ => rewrite (QT l N) in RZ end; rewrite Z in RZ; try (cbn in RZ; lia).
      * destruct (NEQ n) as [->|X]; [|lia]. eapply KS. eapply KN; eauto.
      * destruct (NEQ n) as [->|X]; [|lia]. pose proof (KN _ _ _ _ _ S C eq_refl). discriminate.
      * destruct (NEQ n) as [->|X]; [|lia]. pose proof (KN _ _ _ _ _ S C eq_refl). subst c. destruct (OWN _ _ _ _ _ S C); discriminate.
      * destruct (NEQ n) as [->|X]; [|cbn in RZ; lia]. pose proof (KN _ _ _ _ _ S C eq_refl). subst c. destruct (OWN _ _ _ _ _ S C); discriminate.
      * destruct (NEQ n) as [->|X]; [|cbn in RZ; lia]. pose proof (KN _ _ _ _ _ S C eq_refl). subst c. destruct (OWN _ _ _ _ _ S C) as [-> _]. eapply (s_clear _ _ IH n0 t i); [rewrite S; left; reflexivity|exact C].
      * destruct (NEQ n) as [->|X]; [|lia]. pose proof (KN _ _ _ _ _ S C eq_refl). subst c. destruct (OWN _ _ _ _ _ S C); discriminate.
      * destruct (NEQ n) as [->|X]; [|lia]. pose proof (OLDC n0 z _ _ S (or_introl eq_refl) CZ). rewrite (g_loop _ _ _ (G t) n0 p just kd (LWait i)) in H by (rewrite S; left; reflexivity). discriminate.
      * destruct (NEQ n) as [->|X]; [|cbn in RZ; lia]. pose proof (g_loop _ _ _ (G t) n0 p' just Once LBusy) as GL. rewrite S in GL. specialize (GL (or_intror (or_introl eq_refl))). pose proof (nth_mono _ _ _ _ CM GL). congruence.
      * destruct (NEQ n) as [->|X]; [|cbn in RZ; lia]. destruct (g_call _ _ _ (G t) n0 PInline) as (c & C1 & F1); [rewrite S; right; left; reflexivity|]. pose proof (nth_mono _ _ _ _ CM C1). assert (c = KStop a) by congruence. subst c. discriminate.
    + apply STAY. apply (s_done _ _ IH n t0); [|lia]. assert (RI : exists t1 r1, In (ERet t1 n r1) (tr st)).
      { clear - NZ. induction (tr st) as [|x l IHl]; [rewrite cnt_nil in NZ; lia|]. rewrite cnt_cons in NZ. destruct (returns n x) eqn:RX.
        - destruct x; try discriminate. cbn in RX. apply Nat.eqb_eq in RX. subst. do 2 eexists. left. reflexivity.
        - destruct IHl as (t1 & r1 & H); [cbn in NZ; exact NZ|]. exists t1, r1. right. exact H. }
      destruct RI as (t1 & r1 & RI). destruct (c_ret _ JC _ _ _ RI) as (c & C1). pose proof (nth_mono _ _ _ _ CM C1). congruence.
  - intros n t0 i IN C.
    assert (OLD : In (FCall n (PClear i)) (stk st t0) -> is_stopped st' p = true).
    { intros IO. apply STAY. eapply (s_clear _ _ IH); [exact IO|]. destruct (g_call _ _ _ (G t0) _ _ IO) as (c & C1 & _). pose proof (nth_mono _ _ _ _ CM C1). congruence. }
    assert (EF : forall s', (forall t', stk st' t' = upd (stk st) t s' t') -> (In (FCall n (PClear i)) s' -> t0 = t -> In (FCall n (PClear i)) (stk st t)) -> is_stopped st' p = true).
    { intros s' S H. rewrite S in IN. unfold upd in IN. destruct (Nat.eqb_spec t t0); [subst t0; apply OLD, H; auto|apply OLD, IN]. }
    clear STAY. rename p into a, n into n0, t0 into z, i into i0, C into CZ. revert K.
    cores; destruct E as (S' & T & CC); try (eapply EF; [exact S'|]; try rewrite S; cbn [In]; intuition (try discriminate); fail).
    + eapply EF; [exact S'|]. rewrite S. intros [X|X] _; [injection X as -> ->; discriminate|right; exact X].
    + destruct (Nat.eq_dec z t) as [->|NZ]; [|apply OLD; rewrite S', upd_other in IN by auto; exact IN]. rewrite S', upd_same in IN. destruct IN as [X|X]; [|apply OLD; rewrite S; right; exact X].
      injection X as -> <-. pose proof (OLDC n0 t _ _ S (or_introl eq_refl) CZ) as C1. assert (c = KStop a) by congruence. subst c. cbn in P. subst p.
      unfold is_stopped. rewrite (Q a), upd_same, (proj2 (q_call_same _ _)). eapply DONE; eauto.
    + eapply EF; [exact S'|]. rewrite S. intros [X|[X|X]] _; [destruct c; discriminate|discriminate|right; exact X].
    + eapply EF; [exact S'|]. rewrite S. intros [X|[X|X]] _; [destruct c; discriminate|discriminate|right; exact X].
  - intros CL'. destruct (is_stopped st p) eqn:CL.
    + destruct (s_settled _ _ IH CL) as [ST|(t0 & n & k & r & S & C & CG)]; [left; exact (core_settled t st st' p G I K NR CL ST)|].
      destruct (Nat.eq_dec t0 t) as [->|NT].
      * destruct CG as (i & CG). revert K. rename p into a, n into n0, i into i0, k into k0, r into r0, S into S0, C into C0.
        assert (FC : forall n k r, stk st t = FCall n k :: r -> n = n0 /\ k = k0) by (intros n k r S; rewrite S0 in S; injection S as <- <- _; auto).
        cores; destruct E as (S' & T & CC); try (rewrite S0 in S; discriminate S); try (destruct (FC _ _ _ S) as [-> <-]; destruct CG; discriminate); try (destruct (FC _ _ _ S) as [-> <-]; destruct CG; subst; discriminate).
        -- right. exists t, n0, k0, r0. rewrite S', upd_same, S0. split; [reflexivity|]. split; [eapply nth_mono; eauto|exists i0; exact CG].
        -- rewrite S0 in U. discriminate.
        -- rewrite S0 in U. discriminate.
        -- right. exists t, n0, k0, r0. rewrite S', upd_same, S0 in *. injection S as <- <-. split; [reflexivity|]. split; [eapply nth_mono; eauto|exists i0; exact CG].
        -- right. destruct (FC _ _ _ S) as [-> _]. exists t, n0, (PClear (q_next q1)), r. rewrite S', upd_same. split; [reflexivity|]. split; [eapply nth_mono; eauto|eexists; right; reflexivity].
        -- destruct (FC _ _ _ S) as [-> _]. rewrite C0 in C. injection C as <- <-. cbn in P. subst p. left.
           destruct (top_task _ _ _ _ _ _ _ i I S C0) as (o & ph & TK & W1 & W2); [cbn; rewrite C0; reflexivity|]. subst o ph. cbn in TK.
           destruct (q_clear_step _ _ ch TK) as [_ [[_ X]|(_ & _ & _ & _ & X)]]; [fold q1 in X; contradiction|]. rewrite (Q a), upd_same. apply settled_free. exact X.
        -- rewrite S0 in S. injection S as Hb _. rewrite <- Hb in B. discriminate.
        -- rewrite S0 in S. injection S as Hb _. rewrite <- Hb in B. discriminate.
        -- rewrite S0 in S. injection S as Hb _. rewrite <- Hb in B. discriminate.
        -- rewrite S0 in S. injection S as Hb _. rewrite <- Hb in B. discriminate.
      * right. exists t0, n, k, r. split; [|split; [eapply nth_mono; eauto|exact CG]]. rewrite <- S. apply (qv_stk _ _ _ (core_qview t st st' G I K)). exact NT.
    + destruct (core_closed t st st' p G I K) as [X|[(X & _)|(_ & n & i & r & S & S' & C)]]; [congruence|congruence|].
      right. exists t, n, (PClose i), r. split; [exact S'|]. split; [eapply nth_mono; eauto|exists i; auto].
Qed.

(** Stopped for good: a stop() has returned, or all have; there is no reuse(). *)
Lemma stopped_after h p n r : never_called h (reuses p) -> (exists t, called h t n (KStop p)) -> returned h n r -> is_stopped (final h) p = true.
Proof.
  intros NR (t & C) (t' & R). apply (s_done _ _ (stop_final h p (never_reuse h p NR)) n t).
  - apply (c_in _ (calls_final h)). exact C.
  - eapply cnt_pos; [exact R|cbn; apply Nat.eqb_refl].
Qed.
Lemma called_app h h' t n c : called h t n c -> called (h ++ h') t n c.
Proof. unfold called, trace. rewrite !(c_in _ (calls_final _)). apply calls_mono. Qed.
Lemma never_prefix h h' bad : never_called (h ++ h') bad -> never_called h bad.
Proof. intros N t n c C. eapply N. apply called_app. exact C. Qed.

Lemma nothing_taken_after_stop h h' p : never_called (h ++ h') (reuses p) -> (exists t n, called h t n (KStop p)) ->
  (forall t n, called h t n (KStop p) -> exists r, returned h n r) -> taken p (trace (h ++ h')) = taken p (trace h).
Proof.
  intros NR (t & n & C) ALL.
  assert (ST0 : is_stopped (final h) p = true /\ settled (queue (final h) p)).
  { destruct (ALL _ _ C) as (r & R). pose proof (stopped_after h p n r (never_prefix _ _ _ NR) (ex_intro _ t C) R) as CL. split; [exact CL|].
    destruct (s_settled _ _ (stop_final h p (never_reuse _ _ (never_prefix _ _ _ NR))) CL) as [X|(t0 & n0 & k & r0 & S & C0 & _)]; [exact X|]. exfalso.
    destruct (ALL t0 n0) as (r1 & t1 & R1); [apply (c_in _ (calls_final h)); exact C0|]. assert (Z : cnt (returns n0) (tr (final h)) = 0).
    { eapply (c_open _ (calls_final h) t0). rewrite S. left. reflexivity. }
    rewrite cnt_in in Z. specialize (Z _ R1). cbn in Z. rewrite Nat.eqb_refl in Z. discriminate. }
  assert (X : is_stopped (final (h ++ h')) p = true /\ settled (queue (final (h ++ h')) p) /\ taken p (trace (h ++ h')) = taken p (trace h)); [|apply X].
  induction h' as [|l h' IH] using rev_ind; [rewrite app_nil_r; destruct ST0; auto|]. rewrite app_assoc in *. destruct (IH (never_prefix _ _ _ NR)) as (A & B & D). clear IH.
  pose proof (final_step (h ++ h') l) as K. pose proof (good_final (h ++ h')) as G. pose proof (qinv_final (h ++ h')) as I. pose proof (never_reuse _ _ NR) as NR'.
  split; [eapply core_stays; eauto|]. split; [eapply core_settled; eauto|]. rewrite <- D. unfold trace. set (st := final (h ++ h')) in *. set (st' := final ((h ++ h') ++ [l])) in *. clearbody st st'.
  set (tt := fst l) in *. clearbody tt. clear - K B I. rename p into a, tt into t, B into BZ. revert K. cores; destruct E as (S' & T & CC); rewrite T, taken_app; try (rewrite ?taken_app, (quiet_taken a l) by assumption); try (cbn; rewrite ?app_nil_r; reflexivity).
  cbn. destruct (Nat.eqb_spec a p); [|apply app_nil_r]. subst p. exfalso. destruct (qi_want _ I _ _ _ a i S eq_refl) as (o & ph & TK & W1 & W2). subst o.
  destruct (q_wait_step _ (QueueModel.LRun i ch) _ _ _ eq_refl TK W2) as (_ & _ & ph' & TK' & H). fold q1 in TK', H. unfold q_result in R. rewrite TK' in R.
  destruct H as [[_ [-> |H]]|(v & _ & -> & _)]; [discriminate|destruct ph'; try discriminate; eapply H; reflexivity|]. eapply BZ. exact TK.
Qed.
