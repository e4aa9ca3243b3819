(** Property theorems about the thread pools, part 2: C103-C105.  [fr] is the order of the task queue, [dyn] / [maxc] the dynamic pool
    and its limit, [n] the number of threads the constructor has launched. *)
From Verif Require Import ListUtil QueueModel QueueSpec QueueProofs4 QueueProps PoolModel PoolSpec PoolProofs2 PoolProofs3 PoolProofs5 PoolProofs6 PoolProofs7 PoolProofs8.

Lemma order_front fr : pool_order fr -> has_front tk fr.
Proof.
  intros [->| ->]; [apply fifo_has_front|]. apply priority_has_front; unfold tk_less.
  - intros a. apply Nat.ltb_irrefl.
  - intros a b c H K. apply Nat.ltb_lt in H, K. apply Nat.ltb_lt. lia.
Qed.

(** ** C103: the number of threads (activeThreadCount()) *)
(** A fixed pool keeps the threads it was created with. *)
Theorem C103_fixed_pools fr maxc n h : thread_count (final fr false maxc n h) = n.
Proof.
  induction h as [|l h IH] using rev_ind; [apply threads_init|]. rewrite final_snoc.
  transitivity (thread_count (final fr false maxc n h)); [|exact IH]. clear IH.
  destruct (next_pcases fr false maxc _ l (wf_final fr false maxc n h)) as [->|T]; [reflexivity|].
  unfold thread_count. destruct T as [r p|d|l0 L IT|a v b0 c E|a v t l0 E L C IT|a v t l0 E L IT|a d E O|a d E O|a d t l0 E L C IT|a d E|a d t l0 E L IT|a d E F|a d E|a E|a t l0 v E L T0 IT F|a t l0 E L C IT|a v E|a v E|a v E|a v E|a v E|a v pp0 pp1 E EP EQ];
    cbn [next agents with_agents with_submitted with_running with_once with_joined with_q put log qcall launch andb].
  all: try match goal with E : nth_error (agents ?s) ?a = Some ?y |- context [set_nth ?a ?x (agents ?s)] => pose proof (cnt_set is_worker (agents s) a x y E) as X; cbn [is_worker b2n] in X end.
  all: rewrite ?cnt_app, ?cnt_cons, ?cnt_nil; cbn [is_worker b2n]; lia.
Qed.
Print Assumptions C103_fixed_pools.

(** A dynamic pool whose run() calls do not overlap never has more threads than its limit. *)
Theorem C103_dynamic_pool_limit fr maxc h : one_by_one fr true maxc 0 h -> thread_count (final fr true maxc 0 h) <= maxc.
Proof. intros O. apply (dyn_inv fr maxc h O). Qed.
Print Assumptions C103_dynamic_pool_limit.

(** ... and if starting threads succeeds, each call adds one until the limit is reached. *)
Theorem C103_dynamic_pool_exact fr maxc h : one_by_one fr true maxc 0 h -> all_run_calls_returned fr true maxc 0 h -> launches_work fr maxc h ->
  thread_count (final fr true maxc 0 h) = min maxc (cnt is_submit (trace fr true maxc 0 h)).
Proof.
  intros O R L. destruct (dyn_inv fr maxc h O) as (_ & _ & _ & _ & X). rewrite (X L). f_equal. unfold trace. rewrite (u_cnt _ (runs_final fr true maxc 0 h)).
  pose proof (all_returned fr true maxc 0 h R) as Z. clear X. revert Z. induction (agents (final fr true maxc 0 h)) as [|x l IH]; [reflexivity|]. rewrite !cnt_cons. intros Z.
  rewrite (IH ltac:(lia)). f_equal. destruct x as [v p| |]; try reflexivity. destruct p; cbn in Z |- *; try reflexivity; lia.
Qed.
Print Assumptions C103_dynamic_pool_exact.

(** Threads are never taken away. *)
Theorem C103_never_fewer fr dyn maxc n h h' : thread_count (final fr dyn maxc n h) <= thread_count (final fr dyn maxc n (h ++ h')).
Proof. apply threads_mono. Qed.
Print Assumptions C103_never_fewer.

(** Two run() calls at the same time exceed the limit: both find that there is no thread yet. *)
Definition h103r : history := [LSubmit 7 0; LSubmit 8 0; LGo 0 0; LGo 1 0; LGo 0 0; LGo 1 0; LGo 0 0; LGo 1 0].
Theorem C103_dynamic_pool_limit_refuted : thread_count (final fifo true 1 0 h103r) = 2.
Proof. vm_compute. reflexivity. Qed.
Print Assumptions C103_dynamic_pool_limit_refuted.

(** Limit 2, three tasks. *)
Definition run5 a : history := [LGo a 0; LGo a 0; LGo a 0; LGo a 0; LGo a 0].
Definition h103 : history := [LSubmit 7 0] ++ run5 0 ++ [LSubmit 8 0] ++ run5 2 ++ [LSubmit 9 0] ++ run5 4.
Fixpoint check_prefixes {A} (f : list A -> list A -> bool) (l1 l2 : list A) : bool := f l1 l2 && match l2 with [] => true | x :: l => check_prefixes f (l1 ++ [x]) l end.
Lemma check_sound {A} (f : list A -> list A -> bool) l2 : forall l1, check_prefixes f l1 l2 = true -> forall a b, l1 ++ l2 = (l1 ++ a) ++ b -> f (l1 ++ a) b = true.
Proof.
  induction l2 as [|x l IH]; intros l1 H a b E; cbn in H; apply andb_prop in H as [H1 H2].
  - rewrite <- app_assoc in E. apply app_inv_head in E. symmetry in E. apply app_eq_nil in E as [-> ->]. rewrite app_nil_r. exact H1.
  - rewrite <- app_assoc in E. apply app_inv_head in E. destruct a as [|y a].
    + cbn in E. subst b. rewrite app_nil_r. exact H1.
    + injection E as <- E. replace (l1 ++ x :: a) with ((l1 ++ [x]) ++ a) by (rewrite <- app_assoc; reflexivity). apply IH; [exact H2|]. rewrite E, app_assoc. reflexivity.
Qed.
Definition ret_or_not (l : list event) (e : event) : bool := match e with ESubmit v => existsb (fun e' => match e' with ERunRet w => Nat.eqb (num v) (num w) && Nat.eqb (runner v) (runner w) && Nat.eqb (prio v) (prio w) | _ => false end) l | _ => true end.
Lemma ret_sound l : forallb (ret_or_not l) l = true -> forall v, In (ESubmit v) l -> In (ERunRet v) l.
Proof.
  intros H v I. rewrite forallb_forall in H. specialize (H _ I). cbn in H. apply existsb_exists in H as (e & J & X). destruct e; try discriminate X.
  apply andb_prop in X as [X X3]. apply andb_prop in X as [X1 X2]. apply Nat.eqb_eq in X1, X2, X3. destruct v as [a1 b1 c1], v0 as [a2 b2 c2]. cbn in X1, X2, X3. subst. exact J.
Qed.
Example C103_applies : one_by_one fifo true 2 0 h103 /\ all_run_calls_returned fifo true 2 0 h103 /\ launches_work fifo 2 h103 /\
  thread_count (final fifo true 2 0 h103) = 2 /\ cnt is_submit (trace fifo true 2 0 h103) = 3.
Proof.
  split; [|split; [|split; [|split; vm_compute; reflexivity]]].
  - intros h1 r p h2 E. apply ret_sound.
    pose (f := fun a b => match b with LSubmit _ _ :: _ => forallb (ret_or_not (trace fifo true 2 0 a)) (trace fifo true 2 0 a) | _ => true end).
    pose proof (check_sound f h103 [] ltac:(vm_compute; reflexivity) h1 (LSubmit r p :: h2) E) as X. exact X.
  - intros v. apply ret_sound. vm_compute. reflexivity.
  - intros h1 a c h2 v b E _.
    pose (f := fun (_ b : history) => match b with LGo _ c :: _ => Nat.eqb c 0 | _ => true end).
    pose proof (check_sound f h103 [] ltac:(vm_compute; reflexivity) h1 (LGo a c :: h2) E) as X. apply Nat.eqb_eq in X. exact X.
Qed.

(** ** C104: as long as nobody shuts the pool down, every task gets executed *)
(** Whatever has happened, the calls and threads that are there can go on until every task has been run and finished, exactly once, and run() has returned. *)
Theorem C104_every_task_gets_executed fr dyn maxc n h : pool_order fr -> no_shut h -> 1 <= thread_count (final fr dyn maxc n h) ->
  exists h', (forall l, In l h' -> is_go l = true) /\ let l := trace fr dyn maxc n (h ++ h') in
    forall v, In (ESubmit v) (trace fr dyn maxc n h) -> In (ERunRet v) l /\ cnt (starts (num v)) l = 1 /\ cnt (ends (num v)) l = 1 /\ cnt (finishes (num v)) l = 1.
Proof.
  intros PO N TC. destruct (open_settles fr dyn maxc n (order_front fr PO) h N) as (h' & G & C). exists h'. split; [exact G|]. cbv zeta. intros v S.
  assert (N' : no_shut (h ++ h')) by (apply no_shut_app; [exact N|]; intros l I; specialize (G l I); destruct l; try discriminate; reflexivity).
  unfold trace in *. apply calm_done; [exact N'| |exact C|].
  - pose proof (threads_mono fr dyn maxc n h h'). lia.
  - clear - S. induction h' as [|lb h' IH] using rev_ind; [rewrite app_nil_r; exact S|]. rewrite app_assoc, final_snoc.
    destruct (next_pcases fr dyn maxc _ lb (wf_final fr dyn maxc n (h ++ h'))) as [->|T]; [exact IH|].
    destruct (PoolProofs4.evs_grow fr dyn maxc _ _ T) as (add & ->). apply in_or_app. left. exact IH.
Qed.
Print Assumptions C104_every_task_gets_executed.

(** The pool is at a standstill (no call and no thread can do anything) only when all tasks have been executed. *)
Theorem C104_idle_when_done fr dyn maxc n h : pool_order fr -> no_shut h -> 1 <= thread_count (final fr dyn maxc n h) ->
  (forall a c, final fr dyn maxc n (h ++ [LGo a c]) = final fr dyn maxc n h) -> let l := trace fr dyn maxc n h in
  forall v, In (ESubmit v) l -> In (ERunRet v) l /\ cnt (starts (num v)) l = 1 /\ cnt (ends (num v)) l = 1 /\ cnt (finishes (num v)) l = 1.
Proof.
  intros PO N TC ST. cbv zeta. intros v S. unfold trace in *. apply calm_done; [exact N|exact TC| |exact S].
  destruct (find_or (calm_agent (q (final fr dyn maxc n h))) (agents (final fr dyn maxc n h))) as [A|B]; [exact A|]. exfalso.
  destruct (open_moves fr dyn maxc n h (order_front fr PO) N B) as (l & L & M). destruct l as [| |a c|]; try discriminate L. specialize (ST a c). rewrite final_snoc in ST. rewrite ST in M. lia.
Qed.
Print Assumptions C104_idle_when_done.

(** Two threads, a task in the queue, one run() call under way. *)
Definition h104 : history := [LSubmit 7 0; LGo 2 0; LGo 2 0; LGo 2 0; LSubmit 8 0; LGo 0 0].
Example C104_applies : no_shut h104 /\ thread_count (final fifo false 0 2 h104) = 2 /\ In (ESubmit (Tk 1 8 0)) (trace fifo false 0 2 h104) /\
  ~ In (ERunRet (Tk 1 8 0)) (trace fifo false 0 2 h104) /\ waiting (final fifo false 0 2 h104) = [Tk 0 7 0].
Proof.
  split; [|split; [vm_compute; reflexivity|split; [vm_compute; auto|split; [|vm_compute; reflexivity]]]].
  - intros l I. vm_compute in I. repeat (destruct I as [<-|I]; [reflexivity|]). destruct I.
  - vm_compute. intros H. repeat (destruct H as [H|H]; [discriminate|]). exact H.
Qed.

(** ** C105: nothing but the lost wake-up (C82) can keep shutdown from returning *)
(** If shutdown was called and sleeping threads get woken up, everything comes to an end: all calls of run() and of shutdown() return, and all threads exit. *)
Theorem C105_shutdown_completes fr dyn maxc n h a : pool_order fr -> In (EShut a) (trace fr dyn maxc n h) ->
  exists h', (forall l, In l h' -> go_or_wake l = true) /\ let l := trace fr dyn maxc n (h ++ h') in
    (forall v, In (ESubmit v) l -> In (ERunRet v) l) /\ (forall b, In (EShut b) l -> In (EShutRet b) l) /\
    (forall w p, nth_error (agents (final fr dyn maxc n (h ++ h'))) w = Some (AWorker p) -> p = WExited).
Proof.
  intros PO S. destruct (c_shut _ (calls_final fr dyn maxc n h) _ S) as (d & p & E). apply nth_error_In in E.
  destruct (shut_can_close fr dyn maxc n h d p E) as (h1 & G1 & C1). destruct (closed_settles fr dyn maxc n (order_front fr PO) (h ++ h1) C1) as (h2 & G2 & C2).
  exists (h1 ++ h2). rewrite app_assoc. split.
  { intros l I. apply in_app_or in I as [I|I]; [specialize (G1 l I); destruct l; try discriminate; reflexivity|auto]. }
  cbv zeta. unfold trace. destruct (over_done fr dyn maxc n ((h ++ h1) ++ h2) C2) as [A B]. split; [exact A|]. split; [exact B|].
  intros w p0 W. specialize (C2 _ (nth_error_In _ _ W)). destruct p0; try discriminate C2. reflexivity.
Qed.
Print Assumptions C105_shutdown_completes.

(** A task that runs, one that waits, a run() under way and a sleeping thread when shutdown is called. *)
Definition h105 : history := [LGo 1 0; LGo 1 0; LGo 1 0; LGo 1 0; LSubmit 7 0; LGo 2 0; LGo 2 0; LGo 2 1; LSubmit 8 0; LGo 3 0; LShut false; LGo 0 0].
Example C105_applies : In (EShut 4) (trace fifo false 0 2 h105) /\ sleeper (q (final fifo false 0 2 [LGo 1 0; LGo 1 0; LGo 1 0; LGo 1 0])) (AWorker (WWaiting 0)) = true.
Proof. split; [vm_compute; auto 10|vm_compute; reflexivity]. Qed.
