(** The steps of a processor system by what they do to the queues, the stacks and the events. *)
From Verif Require Import ListUtil Amap ProcModel ProcSpec ProcProofs.
From Verif Require QueueModel QueueSpec SigModel.

Definition fresh (k : pc) : bool := match k with PStart | PAsync | PAdd | PMap | PSig _ | PConn _ | PClean _ => true | _ => false end.
Definition neutral (e : event) : bool := match e with ECreate _ _ | ELook _ _ _ _ _ | EHandle _ _ _ _ _ | EHandled _ _ _ _ | EAbort _ => true | _ => false end.
Definition quiet (l : list event) : Prop := forall e, In e l -> neutral e = true.
Definition body_of (f : frame) : option (nat * nat) := match f with FExec p e => Some (p, e) | FEmit p e _ _ => Some (p, e) | _ => None end.

Definition eff (st st' : state) (t : nat) (s' : list frame) (add : list event) : Prop :=
  (forall t', stk st' t' = upd (stk st) t s' t') /\ tr st' = tr st ++ add /\ calls st' = calls st.
Definition eff_call (st st' : state) (t : nat) (s' : list frame) (c : call) : Prop :=
  (forall t', stk st' t' = upd (stk st) t s' t') /\ tr st' = tr st ++ [ECall t (length (calls st)) c] /\ calls st' = calls st ++ [(t, c)].
Definition qsame (st st' : state) : Prop := forall p, queue st' p = queue st p.
Definition qto (st st' : state) (p : nat) (q : QueueModel.history nat) : Prop := forall p', queue st' p' = upd (queue st) p q p'.

(** The queue call a frame is in. *)
Definition frame_q (cs : list (nat * call)) (f : frame) : option (nat * nat) :=
  match f with
  | FCall n (PPush i) | FCall n (PClose i) | FCall n (PClear i) | FCall n (PSize i) =>
      match nth_error cs n with Some (_, c) => Some (target c, i) | None => None end
  | FLoop _ p _ _ (LWait i) => Some (p, i)
  | _ => None
  end.

(** Where a call of each kind can be. *)
Definition posts (c : call) : bool := match c with KPost _ _ | KWaitPost _ _ => true | _ => false end.
Definition fit (c : call) (k : pc) : bool :=
  match k with
  | PStart => match c with KRun _ _ => false | _ => true end
  | PAdd | PAsync | PPush _ | PInline => submits c
  | PSig _ => posts c
  | PMap => match c with KPost _ _ | KWaitPost _ _ | KConnect _ _ | KForget _ _ | KKnows _ _ => true | _ => false end
  | PConn _ => match c with KConnect _ _ => true | _ => false end
  | PClean _ => match c with KForget _ _ => true | _ => false end
  | PClose _ | PClear _ => match c with KStop _ => true | _ => false end
  | PSize _ => match c with KPending _ => true | _ => false end
  end.

Inductive core (t : nat) (st st' : state) : Prop :=
| K_quiet l : qsame st st' -> eff st st' t (stk st t) l -> quiet l -> core t st st'
| K_emit p e m x x' r l : stk st t = FEmit p e m x :: r -> qsame st st' -> eff st st' t (FEmit p e m x' :: r) l -> quiet l -> core t st st'
| K_call c : user (stk st t) = true -> (forall p k, c <> KRun p k) -> qsame st st' ->
    eff_call st st' t (FCall (length (calls st)) PStart :: stk st t) c -> core t st st'
| K_run p k just : user (stk st t) = true -> qto st st' p (queue st p ++ [QueueModel.LCall (QueueModel.OWait (timed k))]) ->
    eff_call st st' t (FLoop (length (calls st)) p just k (LWait (q_next (queue st p))) :: stk st t) (KRun p k) -> core t st st'
| K_goto n t0 c k k' r : stk st t = FCall n k :: r -> nth_error (calls st) n = Some (t0, c) -> fresh k = true -> fresh k' = true -> qsame st st' ->
    (k = PStart -> submits c = true -> is_stopped st (target c) = false) -> fit c k' = true -> eff st st' t (FCall n k' :: r) [] -> core t st st'
| K_ret n t0 c k res r : stk st t = FCall n k :: r -> nth_error (calls st) n = Some (t0, c) -> fresh k = true -> qsame st st' ->
    (submits c = true -> res = no c \/ (k <> PStart /\ res = fin c false /\ is_stopped st (target c) = true)) ->
    (forall p, c = KStop p -> is_stopped st p = true) -> eff st st' t r [ERet t n res] -> core t st st'
| K_reuse n t0 p r : stk st t = FCall n PStart :: r -> nth_error (calls st) n = Some (t0, KReuse p) ->
    qto st st' p ((queue st p ++ [QueueModel.LCall QueueModel.OReOpen]) ++ [QueueModel.LRun (q_next (queue st p)) 0]) ->
    eff st st' t r [ERet t n RUnit] -> core t st st'
| K_stop n t0 p r : stk st t = FCall n PStart :: r -> nth_error (calls st) n = Some (t0, KStop p) -> is_stopped st p = false ->
    qto st st' p (queue st p ++ [QueueModel.LCall QueueModel.OClose]) -> eff st st' t (FCall n (PClose (q_next (queue st p))) :: r) [] -> core t st st'
| K_count n t0 p r : stk st t = FCall n PStart :: r -> nth_error (calls st) n = Some (t0, KPending p) ->
    qto st st' p (queue st p ++ [QueueModel.LCall QueueModel.OSize]) -> eff st st' t (FCall n (PSize (q_next (queue st p))) :: r) [] -> core t st st'
| K_drop n t0 c p ch r : stk st t = FCall n PAdd :: r -> nth_error (calls st) n = Some (t0, c) -> p = target c ->
    let q1 := (queue st p ++ [QueueModel.LCall (QueueModel.OPush n)]) ++ [QueueModel.LRun (q_next (queue st p)) ch] in
    q_result q1 (q_next (queue st p)) <> None -> qto st st' p q1 -> eff st st' t r [ERet t n (fin c true)] -> core t st st'
| K_push n t0 c p ch r : stk st t = FCall n PAdd :: r -> nth_error (calls st) n = Some (t0, c) -> p = target c ->
    let q1 := (queue st p ++ [QueueModel.LCall (QueueModel.OPush n)]) ++ [QueueModel.LRun (q_next (queue st p)) ch] in
    q_result q1 (q_next (queue st p)) = None -> qto st st' p q1 -> eff st st' t (FCall n (PPush (q_next (queue st p))) :: r) [] -> core t st st'
| K_accept n t0 c p i ch r : stk st t = FCall n (PPush i) :: r -> nth_error (calls st) n = Some (t0, c) -> p = target c ->
    let q1 := queue st p ++ [QueueModel.LRun i ch] in
    q_result q1 i <> None -> qto st st' p q1 -> eff st st' t r [EAccept t p n; ERet t n (fin c true)] -> core t st st'
| K_spin f r p i l : stk st t = f :: r -> frame_q (calls st) f = Some (p, i) -> qid l = Some i ->
    ((exists ch, l = QueueModel.LRun i ch) \/ exists n p just k, f = FLoop n p just k (LWait i)) ->
    (q_result (queue st p) i = None -> q_result (queue st p ++ [l]) i = None) ->
    qto st st' p (queue st p ++ [l]) -> eff st st' t (f :: r) [] -> core t st st'
| K_close n t0 c p i ch r : stk st t = FCall n (PClose i) :: r -> nth_error (calls st) n = Some (t0, c) -> p = target c ->
    let q1 := queue st p ++ [QueueModel.LRun i ch] in
    q_result q1 i <> None -> qto st st' p (q1 ++ [QueueModel.LCall (QueueModel.OClear false)]) ->
    eff st st' t (FCall n (PClear (q_next q1)) :: r) [] -> core t st st'
| K_clear n t0 c p i ch r : stk st t = FCall n (PClear i) :: r -> nth_error (calls st) n = Some (t0, c) -> p = target c ->
    let q1 := queue st p ++ [QueueModel.LRun i ch] in
    q_result q1 i <> None -> qto st st' p q1 -> eff st st' t r [EDrop t p (qitems (queue st p)); ERet t n RUnit] -> core t st st'
| K_size n t0 c p i ch res r : stk st t = FCall n (PSize i) :: r -> nth_error (calls st) n = Some (t0, c) -> p = target c ->
    let q1 := queue st p ++ [QueueModel.LRun i ch] in
    q_result q1 i <> None -> qto st st' p q1 -> eff st st' t r [ERet t n res] -> core t st st'
| K_take n p just kd i ch e r : stk st t = FLoop n p just kd (LWait i) :: r -> let q1 := queue st p ++ [QueueModel.LRun i ch] in
    q_result q1 i = Some (QueueModel.RTook e) -> qto st st' p q1 -> eff st st' t (FLoop n p just kd (LGot e) :: r) [ETake t p e] -> core t st st'
| K_leave n p just kd i ch res x r : stk st t = FLoop n p just kd (LWait i) :: r -> let q1 := queue st p ++ [QueueModel.LRun i ch] in
    q_result q1 i = Some x -> (forall e, x <> QueueModel.RTook e) -> qto st st' p q1 -> eff st st' t r [ERet t n res] -> core t st st'
| K_start n p just kd e t0 c r : stk st t = FLoop n p just kd (LGot e) :: r -> nth_error (calls st) e = Some (t0, c) -> qsame st st' ->
    eff st st' t (body c p e :: FLoop n p just kd LBusy :: r) [EStart t p e false] -> core t st st'
| K_inline n t0 c k r : stk st t = FCall n k :: r -> nth_error (calls st) n = Some (t0, c) -> fresh k = true -> submits c = true -> qsame st st' ->
    (k = PStart -> is_stopped st (target c) = false) -> eff st st' t (body c (target c) n :: FCall n PInline :: r) [EStart t (target c) n true] -> core t st st'
| K_end_ask b p e n p' just k r l : stk st t = b :: FLoop n p' just k LBusy :: r -> body_of b = Some (p, e) -> quiet l ->
    qto st st' p' (queue st p' ++ [QueueModel.LCall (QueueModel.OWait (timed k))]) ->
    eff st st' t (FLoop n p' just k (LWait (q_next (queue st p'))) :: r) (l ++ [EEnd t p e]) -> core t st st'
| K_end_once b p e n p' just r l : stk st t = b :: FLoop n p' just Once LBusy :: r -> body_of b = Some (p, e) -> quiet l -> qsame st st' ->
    eff st st' t r (l ++ [EEnd t p e; ERet t n (RBool true)]) -> core t st st'
| K_end_call b p e n r l res : stk st t = b :: FCall n PInline :: r -> body_of b = Some (p, e) -> quiet l -> qsame st st' ->
    (forall t0 c, nth_error (calls st) n = Some (t0, c) -> res = fin c true) ->
    eff st st' t r (l ++ [EEnd t p e; ERet t n res]) -> core t st st'
| K_end_odd b p e r l : stk st t = b :: r -> body_of b = Some (p, e) -> quiet l -> qsame st st' ->
    (forall f r', r = f :: r' -> (forall n p just k, f <> FLoop n p just k LBusy) /\ forall n, f <> FCall n PInline) ->
    eff st st' t r (l ++ [EEnd t p e]) -> core t st st'.

Lemma upd_same {A} (f : nat -> A) t x : upd f t x t = x.
Proof. unfold upd. rewrite Nat.eqb_refl. reflexivity. Qed.
Lemma upd_other {A} (f : nat -> A) t x t' : t <> t' -> upd f t x t' = f t'.
Proof. unfold upd. intros N. apply Nat.eqb_neq in N. rewrite N. reflexivity. Qed.
Lemma upd_id {A} (f : nat -> A) t t' : upd f t (f t) t' = f t'.
Proof. unfold upd. destruct (Nat.eqb_spec t t'); congruence. Qed.
Lemma upd_upd {A} (f : nat -> A) t x y t' : upd (upd f t x) t y t' = upd f t y t'.
Proof. unfold upd. destruct (Nat.eqb t t'); reflexivity. Qed.

Lemma queue_set_q st p q p' : queue (set_q st p q) p' = upd (queue st) p q p'.
Proof. unfold queue, set_q, proc_at, upd. cbn. unfold upd. destruct (Nat.eqb p p'); reflexivity. Qed.
Lemma queue_set_q2 st p a b p' : queue (set_q (set_q st p a) p b) p' = upd (queue st) p b p'.
Proof. rewrite queue_set_q. unfold upd. destruct (Nat.eqb p p') eqn:E; [reflexivity|]. rewrite queue_set_q. unfold upd. rewrite E. reflexivity. Qed.
Lemma queue_set_q_same st p q : queue (set_q st p q) p = q.
Proof. rewrite queue_set_q. unfold upd. rewrite Nat.eqb_refl. reflexivity. Qed.
Lemma queue_set_lock st p l p' : queue (set_lock st p l) p' = queue st p'.
Proof. unfold queue, set_lock, proc_at. cbn. unfold upd. destruct (Nat.eqb_spec p p'); subst; reflexivity. Qed.
Lemma queue_set_map st p l p' : queue (set_map st p l) p' = queue st p'.
Proof. unfold queue, set_map, proc_at. cbn. unfold upd. destruct (Nat.eqb_spec p p'); subst; reflexivity. Qed.

Lemma stk_set_q st p q : stk (set_q st p q) = stk st. Proof. reflexivity. Qed.

Lemma quiet_nil : quiet []. Proof. intros e []. Qed.
Lemma quiet_one e : neutral e = true -> quiet [e]. Proof. intros H x [<-|[]]. exact H. Qed.

Ltac fin_eff := unfold eff, eff_call, goto, ret, leave, start_inline, ask, q_run, q_call;
  repeat match goal with |- context [if ?j then with_tl _ _ _ else _] => destruct j end;
  cbn; rewrite ?app_nil_r; try (split; [intros; try reflexivity; try (symmetry; apply upd_id); try (rewrite ?upd_upd; reflexivity)|split; try reflexivity; try (rewrite <- ?app_assoc; reflexivity)]).
Lemma queue_emit st l : queue (emit st l) = queue st. Proof. reflexivity. Qed.
Lemma queue_with_stk st t l : queue (with_stk st t l) = queue st. Proof. reflexivity. Qed.
Lemma queue_with_tl st t l : queue (with_tl st t l) = queue st. Proof. reflexivity. Qed.
Lemma queue_with_calls st l : queue (with_calls st l) = queue st. Proof. reflexivity. Qed.
Lemma queue_set_sig st g l : queue (set_sig st g l) = queue st. Proof. reflexivity. Qed.
Lemma queue_new_sig st : queue (new_sig st) = queue st. Proof. reflexivity. Qed.
Lemma queue_abort st t : queue (abort st t) = queue st. Proof. reflexivity. Qed.
Ltac qsimp := rewrite ?queue_emit, ?queue_with_stk, ?queue_with_tl, ?queue_with_calls, ?queue_set_sig, ?queue_new_sig, ?queue_abort, ?queue_set_lock, ?queue_set_map, ?queue_set_q.
Ltac fin_q := unfold qsame, qto, goto, ret, leave, start_inline, ask, q_run, q_call, sig_do; intros;
  repeat match goal with |- context [if ?j then with_tl _ _ _ else _] => destruct j end; qsimp;
  try reflexivity; try (unfold upd; repeat match goal with |- context [Nat.eqb ?a ?b] => destruct (Nat.eqb_spec a b); subst end; try congruence; reflexivity).

(** The end of a body. *)
Lemma finish_core t st st1 b p e r l : stk st t = b :: r -> body_of b = Some (p, e) -> quiet l -> qsame st st1 -> calls st1 = calls st -> stk st1 = stk st ->
  tr st1 = tr st ++ l -> core t st (finish st1 t p e r).
Proof.
  intros S B Q QS C K T. unfold finish.
  assert (E1 : forall s' x, eff st (emit (with_stk (emit st1 [EEnd t p e]) t s') x) t s' (l ++ EEnd t p e :: x)).
  { intros. unfold eff. cbn. rewrite K, C, T. rewrite <- !app_assoc. auto. }
  assert (E2 : eff st (with_stk (emit st1 [EEnd t p e]) t r) t r (l ++ [EEnd t p e])).
  { unfold eff. cbn. rewrite K, C, T. rewrite <- !app_assoc. auto. }
  destruct r as [|[n k|n p' just k ph|p' e'|p' e' m x] r].
  - eapply K_end_odd; eauto. intros f r' [=].
  - destruct k; try (eapply K_end_odd; eauto; intros f r' [= <- <-]; split; intros; discriminate).
    eapply K_end_call; eauto. intros t0 c X. rewrite C, X. reflexivity.
  - assert (OD : ph <> LBusy -> core t st (with_stk (emit st1 [EEnd t p e]) t (FLoop n p' just k ph :: r))).
    { intros N. eapply K_end_odd; eauto. intros f r' [= <- <-]. split; intros; [|discriminate]. intros [= _ _ _ _ X]. apply (N X). }
    destruct ph; [destruct k; apply OD; discriminate|destruct k; apply OD; discriminate|]. clear OD.
    assert (AS : forall k0, qto st (ask (emit st1 [EEnd t p e]) t n p' just k0 r) p' (queue st p' ++ [QueueModel.LCall (QueueModel.OWait (timed k0))])).
    { intros k0 p0. unfold ask, q_call. rewrite queue_with_stk, queue_set_q, queue_emit. rewrite (QS p'). unfold upd. destruct (Nat.eqb p' p0); [reflexivity|apply QS]. }
    assert (EA : forall k0, eff st (ask (emit st1 [EEnd t p e]) t n p' just k0 r) t (FLoop n p' just k0 (LWait (q_next (queue st p'))) :: r) (l ++ [EEnd t p e])).
    { intros k0. unfold ask, eff, q_call. cbn. rewrite queue_emit, (QS p'), K, C, T, <- !app_assoc. auto. }
    destruct k. 1,2: eapply K_end_ask; eauto.
    specialize (E1 r [ERet t n (RBool true)]).
    eapply K_end_once; eauto; unfold leave, ret; destruct just; auto; intros p0; apply QS.
  - eapply K_end_odd; eauto. intros f r' [= <- <-]. split; intros; discriminate.
  - eapply K_end_odd; eauto. intros f r' [= <- <-]. split; intros; discriminate.
Qed.

Lemma timeout_none q i (l : QueueModel.label nat) : l = QueueModel.LTimeout i \/ l = QueueModel.LSpurious i -> q_result q i = None -> q_result (q ++ [l]) i = None.
Proof.
  unfold q_result. rewrite q_snoc. intros [-> | -> ] H; cbn; destruct (nth_error (QueueModel.tasks (q_state q)) i) as [[o p]|] eqn:E; rewrite ?E; auto;
    pose proof (nth_lt _ _ _ E).
  - destruct o as [| |[]| | | | | | |]; cbn; rewrite ?E; auto. destruct p; cbn; rewrite ?E; auto. rewrite nth_set_same by assumption. reflexivity.
  - destruct p; cbn; rewrite ?E; auto. rewrite nth_set_same by assumption. reflexivity.
Qed.

Lemma go_call_core t st n t0 c k choice r : stk st t = FCall n k :: r -> nth_error (calls st) n = Some (t0, c) ->
  fit c k = true -> core t st (go_call st t n c k choice r).
Proof.
  intros S C FT.
  assert (ST : core t st st). { apply (K_quiet t st st []); [intros ?; reflexivity| |apply quiet_nil]. unfold eff. rewrite app_nil_r. split; auto. intros. symmetry. apply upd_id. }
  assert (GO : forall st1 k', qsame st st1 -> stk st1 = stk st -> tr st1 = tr st -> calls st1 = calls st -> fresh k = true -> fresh k' = true ->
    (k = PStart -> submits c = true -> is_stopped st (target c) = false) -> fit c k' = true -> core t st (goto st1 t n k' r)).
  { intros st1 k' Q A B D F F' PS X. eapply K_goto; eauto. unfold eff, goto. cbn. rewrite A, B, D, app_nil_r. auto. }
  assert (RT : forall st1 res, qsame st st1 -> stk st1 = stk st -> tr st1 = tr st -> calls st1 = calls st -> fresh k = true ->
    (submits c = true -> res = no c \/ (k <> PStart /\ res = fin c false /\ is_stopped st (target c) = true)) ->
    (forall p, c = KStop p -> is_stopped st p = true) -> core t st (ret st1 t n res r)).
  { intros st1 res Q A B D F X KS. eapply K_ret; eauto. unfold eff, ret. cbn. rewrite A, B, D. auto. }
  assert (QL : forall p l, qsame st (set_lock st p l)) by (intros p l p'; apply queue_set_lock).
  assert (QR : qsame st st) by (intros p; reflexivity).
  assert (LN : forall st1, qsame st st1 -> stk st1 = stk st -> tr st1 = tr st -> calls st1 = calls st -> fresh k = true -> submits c = true -> (k = PStart -> is_stopped st (target c) = false) -> core t st (start_inline st1 t n c (target c) r)).
  { intros st1 Q A B D F X PS. eapply K_inline; eauto. unfold eff, start_inline. cbn. rewrite A, B, D. auto. }
  unfold go_call. destruct k; cbn [fresh] in *.
  - destruct c as [p|p|p|p m|p m|p m|p m|p m|g s|g s|p|p|p|p|p kd]; cbn [target].
    + destruct (is_stopped st p) eqn:STP; [apply RT; auto; first [discriminate|right; repeat split; auto; discriminate]|apply GO; auto].
    + destruct (is_stopped st p) eqn:STP; [apply RT; auto; first [discriminate|right; repeat split; auto; discriminate]|]. destruct (on_own st t p); [apply LN; auto|apply GO; auto].
    + destruct (is_stopped st p) eqn:STP; [apply RT; auto; first [discriminate|right; repeat split; auto; discriminate]|]. destruct (same_id st t p); [apply LN; auto|apply GO; auto].
    + destruct (is_stopped st p) eqn:STP; [apply RT; auto; first [discriminate|right; repeat split; auto; discriminate]|apply GO; auto].
    + destruct (is_stopped st p) eqn:STP; [apply RT; auto; first [discriminate|right; repeat split; auto; discriminate]|apply GO; auto].
    + apply GO; auto; discriminate.
    + apply GO; auto; discriminate.
    + apply GO; auto; discriminate.
    + destruct (s_free (sig_at st g) t); [|exact ST]. apply RT; auto; first [discriminate|intros ? [= <-]; assumption].
    + destruct (s_free (sig_at st g) t); [|exact ST]. apply RT; auto; first [discriminate|intros ? [= <-]; assumption].
    + destruct (is_stopped st p) eqn:P; [apply RT; auto; first [discriminate|intros ? [= <-]; assumption]|]. eapply K_stop; eauto; [fin_q|]. unfold eff, goto, q_call. cbn. rewrite app_nil_r. auto.
    + eapply K_reuse; eauto; [|unfold eff, ret, q_run, q_call; cbn; auto]. intros p'. unfold ret, q_run, q_call. rewrite queue_emit, queue_with_stk, queue_set_q2, queue_set_q_same. reflexivity.
    + apply RT; auto; first [discriminate|intros ? [= <-]; assumption].
    + eapply K_count; eauto; [fin_q|]. unfold eff, goto, q_call. cbn. rewrite app_nil_r. auto.
    + discriminate.
  - cbn in FT. destruct (is_stopped st (target c)) eqn:STP; [apply RT; auto; first [discriminate|intros _; right; split; [discriminate|auto]|intros ? ->; discriminate FT]|apply GO; auto; discriminate].
  - cbn in FT. unfold q_run, q_call. set (p := target c) in *. set (i := q_next (queue st p)).
    assert (QQ : forall p', queue (set_q (set_q st p (queue st p ++ [QueueModel.LCall (QueueModel.OPush n)])) p (queue (set_q st p (queue st p ++ [QueueModel.LCall (QueueModel.OPush n)])) p ++ [QueueModel.LRun i choice])) p'
      = upd (queue st) p ((queue st p ++ [QueueModel.LCall (QueueModel.OPush n)]) ++ [QueueModel.LRun i choice]) p').
    { intros p'. rewrite queue_set_q2, queue_set_q_same. reflexivity. }
    rewrite (QQ p), upd_same.
    destruct (q_result ((queue st p ++ [QueueModel.LCall (QueueModel.OPush n)]) ++ [QueueModel.LRun i choice]) i) eqn:R.
    + apply (K_drop t st _ n t0 c p choice r S C eq_refl); [fold i; rewrite R; discriminate|exact QQ|]. unfold eff, ret. cbn. auto.
    + apply (K_push t st _ n t0 c p choice r S C eq_refl); [exact R|exact QQ|]. unfold eff, goto. cbn. rewrite app_nil_r. auto.
  - set (p := target c) in *. unfold q_run.
    assert (QQ : forall p', queue (set_q st p (queue st p ++ [QueueModel.LRun q choice])) p' = upd (queue st) p (queue st p ++ [QueueModel.LRun q choice]) p') by (intros; apply queue_set_q).
    rewrite (QQ p), upd_same. destruct (q_result (queue st p ++ [QueueModel.LRun q choice]) q) eqn:R.
    + apply (K_accept t st _ n t0 c p q choice r S C eq_refl); [rewrite R; discriminate|exact QQ|]. unfold eff, ret. cbn. rewrite <- app_assoc. auto.
    + eapply (K_spin t st _ (FCall n (PPush q)) r p q (QueueModel.LRun q choice)); eauto; [cbn; rewrite C; reflexivity|]. unfold eff. cbn. rewrite app_nil_r, <- S. split; auto. intros. symmetry. apply upd_id.
  - destruct (lock_free st (target c)); [|exact ST]. destruct c as [p|p|p|p m|p m|p m|p m|p m|g s|g s|p|p|p|p|p kd]; cbn [target] in *; try exact ST.
    + destruct (get m (p_map (proc_at st p))); [apply GO; auto; discriminate|apply RT; auto; discriminate].
    + destruct (get m (p_map (proc_at st p))); [apply GO; auto; discriminate|apply RT; auto; discriminate].
    + destruct (get m (p_map (proc_at st p))); [apply GO; auto; discriminate|]. apply GO; auto; try discriminate. intros p'. rewrite queue_set_lock, queue_set_map. reflexivity.
    + apply GO; auto; try discriminate. intros p'. rewrite queue_set_lock, queue_set_map. reflexivity.
    + apply RT; auto; first [discriminate|intros ? [= <-]; assumption].
  - destruct (s_free (sig_at st g) t); [|exact ST]. destruct (s_any (sig_at st g)); [|apply RT; auto; intros ? ->; discriminate FT].
    destruct c as [p|p|p|p m|p m|p m|p m|p m|g' s|g' s|p|p|p|p|p kd]; cbn [target] in *; try discriminate FT; [apply GO; auto; discriminate|].
    destruct (same_id st t p); [apply LN; auto; discriminate|apply GO; auto; discriminate].
  - destruct (s_free (sig_at st g) t); [|exact ST]. destruct c; try discriminate FT. apply RT; auto; try discriminate. intros p'. rewrite queue_set_lock. reflexivity.
  - destruct c; try discriminate FT. cbn [target] in *. destruct l as [|m0 l]; [apply RT; auto; first [discriminate|intros ? [= <-]; assumption]|]. destruct (get m0 (p_map (proc_at st p))) as [g|]; [|apply GO; auto; discriminate].
    destruct (s_free (sig_at st g) t); [|exact ST]. destruct (s_any (sig_at st g)); apply GO; auto; try discriminate. intros p'. rewrite queue_set_map. reflexivity.
  - set (p := target c) in *. unfold q_run.
    assert (QQ : forall p', queue (set_q st p (queue st p ++ [QueueModel.LRun q choice])) p' = upd (queue st) p (queue st p ++ [QueueModel.LRun q choice]) p') by (intros; apply queue_set_q).
    rewrite (QQ p), upd_same. destruct (q_result (queue st p ++ [QueueModel.LRun q choice]) q) eqn:R.
    + apply (K_close t st _ n t0 c p q choice r S C eq_refl); [rewrite R; discriminate| |].
      * intros p'. unfold goto, q_call. rewrite queue_with_stk, queue_set_q2, queue_set_q_same. reflexivity.
      * unfold eff, goto, q_call. cbn. rewrite app_nil_r. auto.
    + eapply (K_spin t st _ (FCall n (PClose q)) r p q (QueueModel.LRun q choice)); eauto; [cbn; rewrite C; reflexivity|]. unfold eff. cbn. rewrite app_nil_r, <- S. split; auto. intros. symmetry. apply upd_id.
  - set (p := target c) in *. unfold q_run.
    assert (QQ : forall p', queue (set_q st p (queue st p ++ [QueueModel.LRun q choice])) p' = upd (queue st) p (queue st p ++ [QueueModel.LRun q choice]) p') by (intros; apply queue_set_q).
    rewrite (QQ p), upd_same. destruct (q_result (queue st p ++ [QueueModel.LRun q choice]) q) eqn:R.
    + apply (K_clear t st _ n t0 c p q choice r S C eq_refl); [rewrite R; discriminate|exact QQ|]. unfold eff, ret. cbn. rewrite <- app_assoc. auto.
    + eapply (K_spin t st _ (FCall n (PClear q)) r p q (QueueModel.LRun q choice)); eauto; [cbn; rewrite C; reflexivity|]. unfold eff. cbn. rewrite app_nil_r, <- S. split; auto. intros. symmetry. apply upd_id.
  - set (p := target c) in *. unfold q_run.
    assert (QQ : forall p', queue (set_q st p (queue st p ++ [QueueModel.LRun q choice])) p' = upd (queue st) p (queue st p ++ [QueueModel.LRun q choice]) p') by (intros; apply queue_set_q).
    rewrite (QQ p), upd_same. destruct (q_result (queue st p ++ [QueueModel.LRun q choice]) q) as [x|] eqn:R.
    + assert (Z : forall res, core t st (ret (set_q st p (queue st p ++ [QueueModel.LRun q choice])) t n res r)).
      { intros res. apply (K_size t st _ n t0 c p q choice res r S C eq_refl); [rewrite R; discriminate|exact QQ|]. unfold eff, ret. cbn. auto. }
      destruct x; apply Z.
    + eapply (K_spin t st _ (FCall n (PSize q)) r p q (QueueModel.LRun q choice)); eauto; [cbn; rewrite C; reflexivity|]. unfold eff. cbn. rewrite app_nil_r, <- S. split; auto. intros. symmetry. apply upd_id.
  - exact ST.
Qed.

Lemma go_emit_core t st p e m x r : stk st t = FEmit p e m x :: r -> core t st (go_emit st t p e m x r).
Proof.
  intros S.
  assert (ST : core t st st). { apply (K_quiet t st st []); [intros ?; reflexivity| |apply quiet_nil]. unfold eff. rewrite app_nil_r. split; auto. intros. symmetry. apply upd_id. }
  assert (EM : forall st1 x' l, qsame st st1 -> stk st1 = stk st -> calls st1 = calls st -> tr st1 = tr st ++ l -> quiet l -> core t st (with_stk st1 t (FEmit p e m x' :: r))).
  { intros st1 x' l Q A B D N. apply (K_emit t st _ p e m x x' r l S); auto. unfold eff. cbn. rewrite A. auto. }
  assert (FI : forall st1 l, qsame st st1 -> stk st1 = stk st -> calls st1 = calls st -> tr st1 = tr st ++ l -> quiet l -> core t st (finish st1 t p e r)).
  { intros st1 l Q A B D N. eapply finish_core; eauto. }
  assert (QU : forall st1 l, qsame st st1 -> stk st1 = stk st -> calls st1 = calls st -> tr st1 = tr st ++ l -> quiet l -> core t st st1).
  { intros st1 l Q A B D N. apply (K_quiet t st _ l); auto. unfold eff. rewrite A. split; auto. intros. symmetry. apply upd_id. }
  assert (SD : forall g l, qsame st (sig_do st g l)) by (intros g l p'; reflexivity).
  destruct x; cbn [go_emit].
  - destruct (lock_free st p); [|exact ST]. destruct (get m (p_map (proc_at st p))).
    + eapply EM; [intros ?; reflexivity|reflexivity|reflexivity|reflexivity|apply quiet_one; reflexivity].
    + eapply FI; [intros ?; reflexivity|reflexivity|reflexivity|reflexivity|apply quiet_one; reflexivity].
  - destruct (s_free (sig_at st g) t); [|exact ST]. destruct (SigModel.crashed _).
    + eapply QU; [intros ?; reflexivity|reflexivity|reflexivity|reflexivity|apply quiet_one; reflexivity].
    + destruct (SigModel.em _); [eapply (EM _ _ [])|eapply (FI _ [])]; auto using quiet_nil; cbn; rewrite app_nil_r; reflexivity.
  - destruct (SigModel.em _) as [em|]; [|eapply (FI _ []); auto using quiet_nil; cbn; rewrite app_nil_r; reflexivity].
    destruct (SigModel.e_run em) as [[k s]|].
    + eapply EM; [intros ?; reflexivity|reflexivity|reflexivity|reflexivity|apply quiet_one; reflexivity].
    + eapply (QU _ []); auto using quiet_nil; cbn; rewrite app_nil_r; reflexivity.
  - exact ST.
Qed.

(** Every frame fits its call. *)
Definition fits (st : state) : Prop := forall t n k, In (FCall n k) (stk st t) -> exists c, nth_error (calls st) n = Some (t, c) /\ fit c k = true.

Lemma act_core st t a : fits st -> core t st (act st t a).
Proof.
  intros FT.
  assert (ST : core t st st). { apply (K_quiet t st st []); [intros ?; reflexivity| |apply quiet_nil]. unfold eff. rewrite app_nil_r. split; auto. intros. symmetry. apply upd_id. }
  destruct a as [id|c|ch| | |]; cbn [act].
  - destruct (user (stk st t)); [|exact ST]. apply (K_quiet t st _ [ECreate (np st) id]); [|unfold eff; cbn; split; [intros; symmetry; apply upd_id|auto]|apply quiet_one; reflexivity].
    intros p. unfold queue, proc_at. cbn. unfold upd. destruct (Nat.eqb_spec (np st) p); [|reflexivity]. subst. reflexivity.
  - destruct (user (stk st t)) eqn:U; [|exact ST]. destruct (valid st c) eqn:V; [|exact ST]. cbn [andb].
    assert (G : (forall p k, c <> KRun p k) -> core t st (goto (emit (with_calls st (calls st ++ [(t, c)])) [ECall t (length (calls st)) c]) t (length (calls st)) PStart (stk st t))).
    { intros N. apply (K_call t st _ c U N); [intros p; reflexivity|]. unfold eff_call, goto. cbn. auto. }
    destruct c; try (apply G; intros; discriminate). apply (K_run t st _ p k (match tl st t with None => true | Some _ => false end) U).
    + intros p'. unfold ask, q_call. rewrite queue_with_stk, queue_set_q. destruct (tl st t); reflexivity.
    + unfold eff_call, ask, q_call. destruct (tl st t); cbn; auto.
  - destruct (stk st t) as [|[n k|n p just kd ph|p e|p e m x] r] eqn:S; try exact ST.
    + destruct (FT t n k) as (c & C & F); [rewrite S; left; reflexivity|]. rewrite C. eapply go_call_core; eauto.
    + destruct ph as [i|e|].
      * unfold q_run. assert (QQ : forall p', queue (set_q st p (queue st p ++ [QueueModel.LRun i ch])) p' = upd (queue st) p (queue st p ++ [QueueModel.LRun i ch]) p') by (intros; apply queue_set_q).
        rewrite (QQ p), upd_same. destruct (q_result (queue st p ++ [QueueModel.LRun i ch]) i) as [x|] eqn:R.
        -- assert (L : forall res, (forall e, x <> QueueModel.RTook e) -> core t st (leave (set_q st p (queue st p ++ [QueueModel.LRun i ch])) t n just res r)).
           { intros res N. apply (K_leave t st _ n p just kd i ch res x r S R N); [intros p'|unfold eff; destruct just; cbn; auto]. rewrite <- QQ. unfold leave. destruct just; reflexivity. }
           destruct x; try (apply L; intros; discriminate). apply (K_take t st _ n p just kd i ch v r S R); [intros ?; apply QQ|]. unfold eff. cbn. auto.
        -- eapply (K_spin t st _ _ r p i (QueueModel.LRun i ch) S); eauto. unfold eff. cbn. rewrite app_nil_r, <- S. split; auto. intros. symmetry. apply upd_id.
      * destruct (nth_error (calls st) e) as [[t0 c]|] eqn:C; [|exact ST]. apply (K_start t st _ n p just kd e t0 c r S C); [intros ?; reflexivity|unfold eff; cbn; auto].
      * exact ST.
    + apply go_emit_core. exact S.
  - destruct (stk st t) as [|[n k|n p just kd ph|p e|p e m x] r] eqn:S; try exact ST.
    + apply (finish_core t st st (FExec p e) p e r [] S eq_refl quiet_nil); [intros ?; reflexivity|reflexivity|reflexivity|symmetry; apply app_nil_r].
    + destruct x; try exact ST. apply (K_emit t st _ p e m (MIn g s) (MAt g) r [EHandled t e g s] S); [intros ?; reflexivity|unfold eff; cbn; auto|apply quiet_one; reflexivity].
  - destruct (stk st t) as [|[n k|n p just kd [i| |]|p e|p e m x] r] eqn:S; try exact ST.
    eapply (K_spin t st _ _ r p i (QueueModel.LTimeout i) S); [reflexivity|reflexivity|right; eauto 6|apply timeout_none; auto|intros ?; apply queue_set_q|].
    unfold eff. cbn. rewrite app_nil_r, <- S. split; auto. intros. symmetry. apply upd_id.
  - destruct (stk st t) as [|[n k|n p just kd [i| |]|p e|p e m x] r] eqn:S; try exact ST.
    eapply (K_spin t st _ _ r p i (QueueModel.LSpurious i) S); [reflexivity|reflexivity|right; eauto 6|apply timeout_none; auto|intros ?; apply queue_set_q|].
    unfold eff. cbn. rewrite app_nil_r, <- S. split; auto. intros. symmetry. apply upd_id.
Qed.

