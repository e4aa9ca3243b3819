(** C41-C43, C76-C81: processors.  Vocabulary in ProcSpec.v. *)
From Verif Require Import ListUtil Amap ProcModel ProcSpec.
From Verif Require ProcProofs5 ProcProofs7 ProcProofs8 ProcProofs11 ProcProofs12 ProcProofs18 ProcProofs22 ProcProofs24 ProcProofs26 ProcProofs28 ProcProofs29 ProcProofs30.
From Verif Require QueueModel QueueSpec SigModel SigSpec.

Ltac conjs := repeat match goal with |- _ /\ _ => split end.
Definition go (t n : nat) : history := repeat (t, AGo 0) n.
Definition go2 (t n : nat) : history := repeat (t, AGo 2) n.

(** ** C41 *)
(** What joined the queue leaves it in that order, taken by a run loop or thrown away by stop(), nothing is lost and nothing is there twice. *)
Theorem C41_in_order h p : accepted p (trace h) = gone p (trace h) ++ pending h p /\ NoDup (accepted p (trace h)).
Proof. split; [exact (ProcProofs5.in_order h p)|exact (ProcProofs7.accepted_once h p)]. Qed.
Print Assumptions C41_in_order.

(** Every execution starts at most once, and a run loop starts only what it took out of the queue. *)
Theorem C41_at_most_once h e : cnt (starts e) (trace h) <= 1 /\ forall t p, In (EStart t p e false) (trace h) -> In (ETake t p e) (trace h).
Proof. split; [exact (ProcProofs7.started_once h e)|intros t p; exact (ProcProofs7.started_taken h t p e)]. Qed.
Print Assumptions C41_at_most_once.

(** If one thread runs the processor, the executions start in the order in which they were taken, and they run one at a time on that thread. *)
Theorem C41_started_in_order h p t : only_runner h p t -> exists rest, taken p (trace h) = started p (trace h) ++ rest /\ length rest <= 1.
Proof. exact (ProcProofs8.taken_started h p t). Qed.
Print Assumptions C41_started_in_order.
Theorem C41_one_at_a_time h p t : only_runner h p t -> not_nested h p ->
  length (open_of p (open t (trace h))) <= 1 /\ (forall t', t' <> t -> open_of p (open t' (trace h)) = []).
Proof. exact (ProcProofs8.one_at_a_time h p t). Qed.
Print Assumptions C41_one_at_a_time.

(** After all calls of stop() have returned nothing is taken any more; at most the one execution taken before still starts. *)
Theorem C41_nothing_after_stop h h' p : never_called (h ++ h') (reuses p) -> (exists t n, called h t n (KStop p)) -> (forall t n, called h t n (KStop p) -> exists r, returned h n r) ->
  taken p (trace (h ++ h')) = taken p (trace h).
Proof. exact (ProcProofs11.nothing_taken_after_stop h h' p). Qed.
Print Assumptions C41_nothing_after_stop.
Theorem C41_starts_after_stop h h' p t : only_runner (h ++ h') p t -> never_called (h ++ h') (reuses p) -> (exists t n, called h t n (KStop p)) -> (forall t n, called h t n (KStop p) -> exists r, returned h n r) ->
  exists last, started p (trace (h ++ h')) = started p (trace h) ++ last /\ length last <= 1.
Proof. exact (ProcProofs30.starts_after_stop h h' p t). Qed.
Print Assumptions C41_starts_after_stop.

(** false: it is neither queued nor run, ever. *)
Theorem C41_refused_never_runs h t n c : called h t n c -> submits c = true -> returned h n (no c) -> never_ran h n.
Proof. exact (ProcProofs28.refused_never_ran h t n c). Qed.
Print Assumptions C41_refused_never_runs.
(** true, and stop() is not called: it was queued, or it ran inside the call. *)
Theorem C41_accepted h a t n c b : called h t n c -> submits c = true -> never_called h (stops (target c)) -> trace h = a ++ ERet t n (fin c true) :: b ->
  In (EAccept t (target c) n) a \/ (In (EStart t (target c) n true) a /\ In (EEnd t (target c) n) a).
Proof. exact (ProcProofs28.told_before h a t n c b). Qed.
Print Assumptions C41_accepted.
(** A run loop does not sleep while executions are pending. *)
Theorem C41_no_lost_wakeup h p t : never_called h (stops p) -> asleep_in h t p -> (forall t', resting h t') -> pending h p = [].
Proof. exact (ProcProofs11.no_lost_wakeup h p t). Qed.
Print Assumptions C41_no_lost_wakeup.

(** Two executions, the first is running on the processor's thread. *)
Definition ex1 : history := [(0, ACreate 5); (1, ACall (KRun 0 Forever))] ++ go 1 3 ++ [(0, ACall (KAsync 0))] ++ go 0 5 ++ [(0, ACall (KAsync 0))] ++ go 0 5 ++ go 1 6.

Definition is_called (e : event) : list (nat * nat * call) := match e with ECall t n c => [(t, n, c)] | _ => [] end.
Lemma calls_dec (P : nat -> nat -> call -> bool) h : forallb (fun x => P (fst (fst x)) (snd (fst x)) (snd x)) (flat_map is_called (trace h)) = true -> forall t n c, called h t n c -> P t n c = true.
Proof.
  intros F t n c I. rewrite forallb_forall in F. specialize (F (t, n, c)). apply F. apply in_flat_map. exists (ECall t n c). split; [exact I|left; reflexivity].
Qed.
Lemma never_dec h bad : forallb (fun x => negb (bad (snd x))) (flat_map is_called (trace h)) = true -> never_called h bad.
Proof. intros F t n c I. apply negb_true_iff. revert t n c I. apply (calls_dec (fun _ _ c => negb (bad c))). exact F. Qed.
Lemma runner_dec h p t : forallb (fun x => negb (runs p (snd x)) || Nat.eqb (fst (fst x)) t) (flat_map is_called (trace h)) = true -> only_runner h p t.
Proof.
  intros F t' n c I R. pose proof (calls_dec (fun t0 _ c0 => negb (runs p c0) || Nat.eqb t0 t) h F t' n c I) as X. cbn in X. rewrite R in X. apply Nat.eqb_eq. exact X.
Qed.
Definition is_run (p : nat) (x : event) : bool := match x with ECall _ _ (KRun p' _) => Nat.eqb p p' | _ => false end.
Lemma nested_dec h p t n k b : trace h = ECall t n (KRun p k) :: b -> forallb (fun x => negb (is_run p x)) b = true -> not_nested h p.
Proof.
  intros E F a t' n' k' b' x T I. rewrite E in T. destruct a as [|y a]; [destruct I|]. injection T as _ T. rewrite forallb_forall in F. specialize (F (ECall t' n' (KRun p k'))). rewrite T in F.
  specialize (F ltac:(apply in_or_app; right; left; reflexivity)). cbn in F. rewrite Nat.eqb_refl in F. discriminate.
Qed.
Lemma nested_dec2 h p e0 t n k b : trace h = e0 :: ECall t n (KRun p k) :: b -> opening t [] e0 = [] -> is_run p e0 = false -> forallb (fun x => negb (is_run p x)) b = true -> not_nested h p.
Proof.
  intros E O R F a t' n' k' b' x T I. rewrite E in T. destruct a as [|y [|z a]].
  - injection T as -> _. cbn in R. rewrite Nat.eqb_refl in R. discriminate.
  - injection T as <- <- _ _. cbn in I. unfold open in I. cbn in I. rewrite O in I. exact I.
  - injection T as _ _ T. rewrite forallb_forall in F. specialize (F (ECall t' n' (KRun p k'))). rewrite T in F.
    specialize (F ltac:(apply in_or_app; right; left; reflexivity)). cbn in F. rewrite Nat.eqb_refl in F. discriminate.
Qed.

Example C41_applies : only_runner ex1 0 1 /\ not_nested ex1 0 /\ never_called ex1 (stops 0) /\ accepted 0 (trace ex1) = [1; 2] /\ started 0 (trace ex1) = [1] /\ open_of 0 (open 1 (trace ex1)) = [1] /\ pending ex1 0 = [2].
Proof.
  split; [apply runner_dec; vm_compute; reflexivity|]. split.
  { eapply nested_dec2; [vm_compute; reflexivity|reflexivity|reflexivity|vm_compute; reflexivity]. }
  split; [apply never_dec; vm_compute; reflexivity|]. conjs; vm_compute; reflexivity.
Qed.
(** The loop has nothing to do. *)
Definition ex2 : history := [(0, ACreate 5); (1, ACall (KRun 0 Forever))] ++ go 1 3.
Lemma resting_dec h (l : list nat) : (forall t, ~ In t l -> stk (final h) t = []) -> (forall t, In t l -> resting h t) -> forall t, resting h t.
Proof. intros A B t. destruct (in_dec Nat.eq_dec t l) as [I|I]; [apply B; exact I|left; rewrite (A t I); reflexivity]. Qed.
Lemma others_idle h l : (forall t, ~ In t l -> forall a, ~ In (t, a) h) -> forall t, ~ In t l -> stk (final h) t = [].
Proof.
  intros N t I. specialize (N t I). induction h as [|x h IH] using rev_ind; [reflexivity|]. rewrite ProcProofs23.other_stacks; [apply IH; intros a X; apply (N a); apply in_or_app; left; exact X|].
  intros ->. apply (N (snd x)). apply in_or_app. right. left. destruct x; reflexivity.
Qed.
Example C41_sleeper : asleep_in ex2 1 0 /\ (forall t, resting ex2 t) /\ never_called ex2 (stops 0).
Proof.
  assert (A : asleep_in ex2 1 0). { exists 0, true, Forever, 0, []. split; [vm_compute; reflexivity|]. vm_compute. eexists. reflexivity. }
  split; [exact A|]. split; [|apply never_dec; vm_compute; reflexivity]. apply (resting_dec ex2 [0; 1]).
  - apply others_idle. intros t N a I. apply N. unfold ex2 in I. cbn in I. repeat (destruct I as [I|I]; [injection I as <- _; cbn; auto|]). destruct I.
  - intros t [<-|[<-|[]]]; [left; vm_compute; reflexivity|right; exists 0; exact A].
Qed.
(** The processor is stopped while an execution is pending. *)
Definition ex3 : history := ex1 ++ [(0, ACall (KStop 0))] ++ go 0 8.
Example C41_stopped : never_called (ex3 ++ [(1, AReturn)] ++ go 1 5) (reuses 0) /\ (exists t n, called ex3 t n (KStop 0)) /\ (forall t n, called ex3 t n (KStop 0) -> exists r, returned ex3 n r) /\
  gone 0 (trace ex3) = [1; 2] /\ taken 0 (trace (ex3 ++ [(1, AReturn)] ++ go 1 5)) = [1].
Proof.
  split; [apply never_dec; vm_compute; reflexivity|]. split; [exists 0, 3; vm_compute; tauto|]. split.
  - intros t n C. exists RUnit. assert (X : n = 3). { apply Nat.eqb_eq. revert C. change (called ex3 t n (KStop 0) -> (fun _ m c => negb (stops 0 c) || Nat.eqb m 3) t n (KStop 0) = true). apply calls_dec. vm_compute. reflexivity. }
    subst n. exists 0. vm_compute. tauto.
  - conjs; vm_compute; reflexivity.
Qed.

(** *** C76: true means that it will run *)
(** The execution is dropped: executeAsync() says true, but stop() won the race for the queue. *)
Definition ex4 : history := [(0, ACreate 5); (1, ACall (KAsync 0)); (1, AGo 0); (0, ACall (KStop 0))] ++ go 0 8 ++ go 1 3.
Theorem C76_true_but_dropped_refuted : exists h t n p, called h t n (KAsync p) /\ returned h n (RBool true) /\ forall h', never_ran (h ++ h') n.
Proof.
  exists ex4, 1, 0, 0. split; [vm_compute; tauto|]. split; [exists 1; vm_compute; tauto|]. intros h'.
  assert (X : cnt (ProcProofs6.accepts 0) (tr (final ex4)) = 0 /\ cnt (starts 0) (tr (final ex4)) = 0 /\ 1 <= cnt (returns 0) (tr (final ex4))) by (conjs; vm_compute; auto).
  destruct X as (A & B & R). destruct (ProcProofs28.after_return ex4 h' 0 R A B) as (_ & A' & B'). apply ProcProofs28.none_ran; assumption.
Qed.
Print Assumptions C76_true_but_dropped_refuted.
(** The same for waitableExecute: a valid future of a task that never runs. *)
Definition ex5 : history := [(0, ACreate 5); (1, ACall (KWait 0)); (1, AGo 0); (1, AGo 0); (0, ACall (KStop 0))] ++ go 0 8 ++ go 1 3.
Theorem C76_future_without_task_refuted : exists h t n p, called h t n (KWait p) /\ returned h n (RFuture true) /\ forall h', never_ran (h ++ h') n.
Proof.
  exists ex5, 1, 0, 0. split; [vm_compute; tauto|]. split; [exists 1; vm_compute; tauto|]. intros h'.
  assert (X : cnt (ProcProofs6.accepts 0) (tr (final ex5)) = 0 /\ cnt (starts 0) (tr (final ex5)) = 0 /\ 1 <= cnt (returns 0) (tr (final ex5))) by (conjs; vm_compute; auto).
  destruct X as (A & B & R). destruct (ProcProofs28.after_return ex5 h' 0 R A B) as (_ & A' & B'). apply ProcProofs28.none_ran; assumption.
Qed.
Print Assumptions C76_future_without_task_refuted.

(** ** C42 *)
(** post() and waitablePost() refuse a message: it is neither queued nor handled, and at a moment during the call the processor was stopped or had no handler for it. *)
Theorem C42_refused h t n c p m : posting p m c -> called h t n c -> returned h n (no c) -> never_ran h n /\ exists h1, during h h1 t n c /\ (stopped_now h1 p \/ handlers h1 p m = []).
Proof. exact (ProcProofs28.refused_post h t n c p m). Qed.
Print Assumptions C42_refused.
(** They take it: at a moment during the call it had a handler, unless a handler of this type has disconnected a handler of this type before (C77). *)
Theorem C42_taken h t n c p m : posting p m c -> called h t n c -> (In (EAccept t p n) (trace h) \/ In (EStart t p n true) (trace h)) ->
  exists h1 g, during h h1 t n c /\ table h1 p m = Some g /\ (unaborted h1 -> cuts_outside h1 g -> handlers h1 p m <> []).
Proof. exact (ProcProofs28.accepted_post h t n c p m). Qed.
Print Assumptions C42_taken.
(** A handler is only given a message it is connected for at that moment; each once, in connection order, all on the thread processing the message; and no handler connected before it is skipped. *)
Theorem C42_handled h a t0 t e c p m g k s b : called h t0 e c -> posting p m c -> trace h = a ++ EHandle t e g k s :: b -> exists h1 h2,
  h = h1 ++ h2 /\ trace h1 = a /\ In (k, s) (handlers_of h1 g) /\ looked_up h1 t p m e g /\
  (forall t' g' k' s', In (EHandle t' e g' k' s') a -> t' = t /\ g' = g /\ k' < k) /\
  (forall k' s', In (k', s') (handlers_of h1 g) -> k' < k -> In (EHandle t e g k' s') a).
Proof. exact (ProcProofs28.handled_spec h a t0 t e c p m g k s b). Qed.
Print Assumptions C42_handled.
(** When the processing of a message ends, every handler connected at that moment has been given it. *)
Theorem C42_nobody_missed h t p e t0 c m : called h t0 e c -> posting p m c -> In (EEnd t p e) (trace h) -> exists h1, just_before h h1 (EEnd t p e) /\
  (table h1 p m = None \/ exists g, looked_up h1 t p m e g /\ forall k s, In (k, s) (handlers_of h1 g) -> In (EHandle t e g k s) (trace h1)).
Proof. exact (ProcProofs28.missed_spec h t p e t0 c m). Qed.
Print Assumptions C42_nobody_missed.
(** connect() adds the handler behind the others before it returns; MsgConnection::disconnect() removes it before it returns. *)
Theorem C42_connect h t n r p m : In (ERet t n r) (trace h) -> called h t n (KConnect p m) -> exists h1 l h2 g s k,
  h = h1 ++ l :: h2 /\ ~ returned h1 n r /\ returned (h1 ++ [l]) n r /\ r = RHandler g s /\ table (h1 ++ [l]) p m = Some g /\ handlers_of (h1 ++ [l]) g = handlers_of h1 g ++ [(k, s)].
Proof. exact (ProcProofs26.connected_now h t n r p m). Qed.
Print Assumptions C42_connect.
Theorem C42_disconnect h t n r g s : In (ERet t n r) (trace h) -> called h t n (KCut g s) -> exists h1 l h2,
  h = h1 ++ l :: h2 /\ ~ returned h1 n r /\ returned (h1 ++ [l]) n r /\ ~ In s (SigSpec.slots (handlers_of (h1 ++ [l]) g)).
Proof. exact (ProcProofs26.cut_now h t n r g s). Qed.
Print Assumptions C42_disconnect.

Lemma unaborted_dec h : existsb (fun e => match e with EAbort _ => true | _ => false end) (trace h) = false -> unaborted h.
Proof. intros E t I. assert (X : existsb (fun e => match e with EAbort _ => true | _ => false end) (trace h) = true) by (apply existsb_exists; exists (EAbort t); split; [exact I|reflexivity]). congruence. Qed.
Lemma cuts_dec h g : forallb (fun x => match snd x with ACall (KCut g' _) => negb (Nat.eqb g g') | _ => true end) h = true -> cuts_outside h g.
Proof.
  intros F h1 t s h2 ->. rewrite forallb_forall in F. specialize (F (t, ACall (KCut g s)) ltac:(apply in_or_app; right; left; reflexivity)). cbn in F. rewrite Nat.eqb_refl in F. discriminate.
Qed.
(** Two handlers, a message for them and one of an unknown type; the first handler is disconnected between them. *)
Definition ex6 : history := [(0, ACreate 5); (0, ACall (KConnect 0 7))] ++ go 0 3 ++ [(0, ACall (KConnect 0 7))] ++ go 0 3 ++ [(1, ACall (KPost 0 7))] ++ go 1 8 ++ [(1, ACall (KPost 0 8))] ++ go 1 8 ++
  [(0, ACall (KRun 0 Forever))] ++ go 0 8 ++ [(0, AReturn)] ++ go 0 3 ++ [(0, AReturn)] ++ go 0 3.
Example C42_applies : unaborted ex6 /\ cuts_outside ex6 0 /\ called ex6 1 2 (KPost 0 7) /\ In (EAccept 1 0 2) (trace ex6) /\ called ex6 1 3 (KPost 0 8) /\ returned ex6 3 (no (KPost 0 8)) /\ table ex6 0 7 = Some 0 /\ handlers_of ex6 0 = [(0, 0); (1, 1)] /\
  In (EHandle 0 2 0 0 0) (trace ex6) /\ In (EHandle 0 2 0 1 1) (trace ex6) /\ In (EEnd 0 0 2) (trace ex6).
Proof.
  split; [apply unaborted_dec; vm_compute; reflexivity|]. split; [apply cuts_dec; vm_compute; reflexivity|]. conjs; try (vm_compute; reflexivity); try (vm_compute; tauto). exists 1. vm_compute. tauto.
Qed.

(** *** C77: a message is only taken if somebody can handle it *)
(** The only handler disconnects itself while it runs; the next post() still says true, and nobody handles the message. *)
Definition ex7a : history := [(0, ACreate 5); (0, ACall (KConnect 0 7))] ++ go 0 3 ++ [(0, ACall (KPost 0 7))] ++ go 0 8 ++ [(0, ACall (KRun 0 Forever))] ++ go 0 8 ++ [(0, ACall (KCut 0 0))] ++ go 0 1 ++ [(0, AReturn)] ++ go 0 8.
Definition ex7 : history := ex7a ++ [(1, ACall (KPost 0 7))] ++ go2 1 8 ++ go 0 8.
Definition handles_it (e : nat) (x : event) : bool := match x with EHandle _ e' _ _ _ => Nat.eqb e e' | _ => false end.
Theorem C77_taken_without_handler_refuted : exists h h' p m t n, handlers h p m = [] /\ (forall t n, ~ In (ECall t n (KConnect p m)) (skipn (length (trace h)) (trace (h ++ h')))) /\
  called (h ++ h') t n (KPost p m) /\ ~ called h t n (KPost p m) /\ returned (h ++ h') n (RBool true) /\ (exists t', In (EEnd t' p n) (trace (h ++ h'))) /\ cnt (handles_it n) (trace (h ++ h')) = 0.
Proof.
  exists ex7a, ([(1, ACall (KPost 0 7))] ++ go2 1 8 ++ go 0 8), 0, 7, 1, 4.
  split; [vm_compute; reflexivity|]. split; [intros t n; vm_compute; intros I; repeat (destruct I as [I|I]; [discriminate I|]); exact I|].
  split; [vm_compute; tauto|]. split; [vm_compute; intros I; repeat (destruct I as [I|I]; [discriminate I|]); exact I|]. split; [exists 1; vm_compute; tauto|]. split; [exists 0; vm_compute; tauto|]. vm_compute. reflexivity.
Qed.
Print Assumptions C77_taken_without_handler_refuted.

(** *** C78: a handler may send messages *)
(** A handler sends a message of its own type with waitablePost() on the processor's thread: the assertion of the signal fails. *)
Definition ex8 : history := [(0, ACreate 5); (0, ACall (KConnect 0 7))] ++ go 0 3 ++ [(0, ACall (KPost 0 7))] ++ go 0 8 ++ [(0, ACall (KRun 0 Forever))] ++ go 0 8 ++ [(0, ACall (KWaitPost 0 7))] ++ go 0 8.
Theorem C78_own_type_inside_handler_refuted : exists h t, In (EAbort t) (trace h).
Proof. exists ex8, 0. vm_compute. tauto. Qed.
Print Assumptions C78_own_type_inside_handler_refuted.
(** And that is the only way: the thread was inside a handler of the type it sends. *)
Theorem C78_only_then_partial h t : In (EAbort t) (trace h) -> exists h1 l h2 g p e m r, h = h1 ++ l :: h2 /\ unaborted h1 /\ in_handler h1 (fst l) g /\ stk (final h1) (fst l) = FEmit p e m (MWait g) :: r.
Proof. exact (ProcProofs29.abort_nested h t). Qed.
Print Assumptions C78_only_then_partial.

(** *** C79: calls return *)
(** A handler connects another one while another thread posts a message of the handler's type: each has the mutex the other waits for. *)
Definition ex9 : history := [(0, ACreate 5); (0, ACall (KConnect 0 7))] ++ go 0 3 ++ [(0, ACall (KPost 0 7))] ++ go 0 8 ++ [(0, ACall (KRun 0 Forever))] ++ go 0 8 ++ [(1, ACall (KPost 0 7))] ++ go 1 2 ++ [(0, ACall (KConnect 0 8))] ++ go 0 1.
Theorem C79_deadlock_refuted : exists h p m m' n n', called h 0 n (KConnect p m') /\ called h 1 n' (KPost p m) /\ forall h', (forall r, ~ returned (h ++ h') n r) /\ (forall r, ~ returned (h ++ h') n' r).
Proof.
  exists ex9, 0, 7, 8, 4, 3. split; [vm_compute; tauto|]. split; [vm_compute; tauto|]. intros h'. apply (ProcProofs29.stuck_forever 0 1 4 3 0 0). split.
  - discriminate.
  - eexists. exists (KConnect 0 8). split; [vm_compute; reflexivity|]. split; [vm_compute; reflexivity|reflexivity].
  - eexists. exists (KPost 0 7). split; [vm_compute; reflexivity|]. split; [vm_compute; reflexivity|reflexivity].
  - eexists. split; vm_compute; reflexivity.
Qed.
Print Assumptions C79_deadlock_refuted.

(** ** C43 *)
(** What runs inside the call runs on the calling thread, which is the processor's own; what is queued was submitted by another. *)
Theorem C43_inline_is_own h a t n c b t' p : trace h = a ++ ECall t n c :: b -> In (EStart t' p n true) (trace h) -> t' = t /\ p = target c /\ own_thread h (instance t a) c.
Proof. exact (ProcProofs28.inline_own h a t n c b t' p). Qed.
Print Assumptions C43_inline_is_own.
Theorem C43_queued_is_other h a t n c b t' p : trace h = a ++ ECall t n c :: b -> In (EAccept t' p n) (trace h) -> t' = t /\ p = target c /\ ~ own_thread h (instance t a) c.
Proof. exact (ProcProofs28.queued_other h a t n c b t' p). Qed.
Print Assumptions C43_queued_is_other.
(** Without stop(): from the own thread the callable has run when the call returns; from any other it is in the queue by then. *)
Theorem C43_runs_before_return h a t n c b a' b' : trace h = a ++ ECall t n c :: b -> submits c = true -> never_called h (stops (target c)) -> own_thread h (instance t a) c ->
  trace h = a' ++ ERet t n (fin c true) :: b' -> In (EStart t (target c) n true) a' /\ In (EEnd t (target c) n) a'.
Proof. exact (ProcProofs30.own_runs h a t n c b a' b'). Qed.
Print Assumptions C43_runs_before_return.
Theorem C43_queued_before_return h a t n c b a' b' : trace h = a ++ ECall t n c :: b -> submits c = true -> never_called h (stops (target c)) -> ~ own_thread h (instance t a) c ->
  trace h = a' ++ ERet t n (fin c true) :: b' -> In (EAccept t (target c) n) a'.
Proof. exact (ProcProofs30.other_queues h a t n c b a' b'). Qed.
Print Assumptions C43_queued_before_return.
(** Without stop() nothing but a message is refused; once stop() has returned everything is refused and does not run, until reuse(). *)
Theorem C43_not_refused h t n c r : called h t n c -> (exists p, c = KAsync p \/ c = KExecute p \/ c = KWait p) -> never_called h (stops (target c)) -> returned h n r -> r = fin c true.
Proof. exact (ProcProofs30.callable_not_refused h t n c r). Qed.
Print Assumptions C43_not_refused.
Theorem C43_refused_when_stopped h h' p t n c : never_called (h ++ h') (reuses p) -> (exists t' n' r, called h t' n' (KStop p) /\ returned h n' r) ->
  called (h ++ h') t n c -> ~ called h t n c -> submits c = true -> target c = p ->
  (forall r, returned (h ++ h') n r -> r = no c) /\ never_ran (h ++ h') n.
Proof. exact (ProcProofs12.refused_once_stopped h h' p t n c). Qed.
Print Assumptions C43_refused_when_stopped.

(** An execution of the processor submits another: it runs inside; a stranger's is queued. *)
Definition ex10 : history := ex1 ++ [(1, ACall (KExecute 0)); (1, AGo 0); (1, AReturn); (2, ACall (KExecute 0))] ++ go 2 8.
Example C43_applies : never_called ex10 (stops 0) /\
  (exists a b, trace ex10 = a ++ ECall 1 3 (KExecute 0) :: b /\ own_thread ex10 (instance 1 a) (KExecute 0)) /\ (exists a b, trace ex10 = a ++ ECall 2 4 (KExecute 0) :: b /\ ~ own_thread ex10 (instance 2 a) (KExecute 0)) /\
  In (EStart 1 0 3 true) (trace ex10) /\ In (ERet 1 3 (fin (KExecute 0) true)) (trace ex10) /\ In (EAccept 2 0 4) (trace ex10) /\ In (ERet 2 4 (fin (KExecute 0) true)) (trace ex10).
Proof.
  split; [apply never_dec; vm_compute; reflexivity|]. split; [|split; [|conjs; vm_compute; tauto]].
  - exists (trace ex1). eexists. split; [vm_compute; reflexivity|]. vm_compute. reflexivity.
  - exists (trace (ex1 ++ [(1, ACall (KExecute 0)); (1, AGo 0); (1, AReturn)])). eexists. split; [vm_compute; reflexivity|]. vm_compute. tauto.
Qed.

Lemma none_dec (f : event -> bool) h x : existsb f (trace h) = false -> f x = true -> ~ In x (trace h).
Proof. intros E F I. assert (X : existsb f (trace h) = true) by (apply existsb_exists; eauto). congruence. Qed.

(** *** C80: from within an execution of a processor, execute() on that processor runs the callable at once *)
(** Processor 1 is run by an execution of processor 0: this_processor is still 0, so an execution of 1 that calls execute() on 1 only queues. *)
Definition ex11 : history := [(0, ACreate 5); (0, ACreate 6); (0, ACall (KAsync 0))] ++ go 0 6 ++ [(0, ACall (KAsync 1))] ++ go 0 6 ++ [(0, ACall (KRun 0 Forever))] ++ go 0 6 ++ [(0, ACall (KRun 1 Forever))] ++ go 0 6 ++ [(0, ACall (KExecute 1))] ++ go 0 6.
Theorem C80_nested_run_refuted : exists h t p n x, called h t n (KExecute p) /\ In (p, x, false) (open t (trace h)) /\ never_called h (stops p) /\ returned h n (RBool true) /\ (forall t' i, ~ In (EStart t' p n i) (trace h)).
Proof.
  exists ex11, 0, 1, 4, 1. split; [vm_compute; tauto|]. split; [vm_compute; tauto|]. split; [apply never_dec; vm_compute; reflexivity|]. split; [exists 0; vm_compute; tauto|].
  intros t' i. apply (none_dec (starts 4)); [vm_compute; reflexivity|reflexivity].
Qed.
Print Assumptions C80_nested_run_refuted.

(** *** C81: an execution of a processor runs on the thread that runs the processor *)
(** A stopped processor's thread calls waitableExecute() on a new processor with the same id: the callable runs on the old thread while the new processor is run by another. *)
Definition ex12 : history := [(0, ACreate 5); (0, ACall (KAsync 0))] ++ go 0 6 ++ [(0, ACall (KRun 0 Forever))] ++ go 0 6 ++ [(0, ACall (KStop 0))] ++ go 0 8 ++ [(0, ACreate 5); (1, ACall (KRun 1 Forever))] ++ go 1 3 ++ [(0, ACall (KWait 1)); (0, AGo 0)].
Theorem C81_foreign_thread_refuted : exists h p t t' n, only_runner h p t /\ (exists n' k, called h t n' (KRun p k)) /\ t' <> t /\ In (EStart t' p n true) (trace h).
Proof.
  exists ex12, 1, 1, 0, 4. split; [apply runner_dec; vm_compute; reflexivity|]. split; [exists 3, Forever; vm_compute; tauto|]. split; [discriminate|]. vm_compute. tauto.
Qed.
Print Assumptions C81_foreign_thread_refuted.
