(** Property theorems about the thread pools: C55, C56 and C82-C85.  [fr] is the order of the task queue ([fifo], or
    [by_priority tk_less] for the priority pool), [dyn] / [maxc] the dynamic pool and its limit, [n] the number of threads
    the constructor has launched; a history [h] is any interleaving of calls, pool threads and spurious wake-ups. *)
From Verif Require Import ListUtil QueueModel QueueSpec PoolModel PoolSpec PoolProofs PoolProofs2 PoolProofs3 PoolProofs4 PoolProofs5.
From Coq Require Import Permutation.

(** ** C55 *)
(** Each submission is started, ended and finished at most once. *)
Theorem C55_at_most_once fr dyn maxc n h k : let l := trace fr dyn maxc n h in
  cnt (starts k) l <= 1 /\ cnt (ends k) l <= 1 /\ cnt (finishes k) l <= 1.
Proof.
  destruct (once_final fr dyn maxc n h k) as [(A & B & C) _]. unfold total, kept, total_s, total_e, trace in *. cbv zeta. lia.
Qed.
Print Assumptions C55_at_most_once.

(** A task is started after it was submitted and ends after its start; it is finished after its end, or else it is never started. *)
Theorem C55_order fr dyn maxc n h a b v : let l := trace fr dyn maxc n h in
  (l = a ++ EStart v :: b -> In (ESubmit v) a) /\ (l = a ++ EEnd v :: b -> In (EStart v) a) /\
  (l = a ++ EDone v :: b -> In (ESubmit v) a /\ (In (EEnd v) a \/ forall w, num w = num v -> ~ In (EStart w) l)).
Proof.
  cbv zeta. destruct (ordered_final fr dyn maxc n h) as (A & B & C). unfold trace.
  split; [intros E; eapply A; exact E|]. split; [intros E; eapply B; exact E|]. intros E. destruct (C _ _ _ E) as [C1 C2]. split; [exact C1|].
  destruct C2 as [C2|C2]; [auto|]. right. intros w N I. rewrite E in I.
  assert (I' : In (EStart w) (a ++ b)) by (apply in_app_or in I as [I|[I|I]]; [apply in_or_app; auto|discriminate|apply in_or_app; auto]).
  pose proof (cnt_zero_inv _ _ _ C2 I') as X. cbn in X. rewrite N, Nat.eqb_refl in X. discriminate.
Qed.
Print Assumptions C55_order.

(** A task whose run() call returned before shutdown was called has been finished, exactly once, when shutdown has returned. *)
Theorem C55_every_task_is_finished fr dyn maxc n h1 h2 v a : no_shut h1 -> In (ERunRet v) (trace fr dyn maxc n h1) ->
  In (EShutRet a) (trace fr dyn maxc n (h1 ++ h2)) -> cnt (finishes (num v)) (trace fr dyn maxc n (h1 ++ h2)) = 1.
Proof. exact (safe_done fr dyn maxc n h1 h2 v a). Qed.
Print Assumptions C55_every_task_is_finished.

(** When shutdown returns, every task that was started has ended and is finished, and nothing happens to any task afterwards. *)
Theorem C55_quiet_after_shutdown fr dyn maxc n h a b c : trace fr dyn maxc n h = a ++ EShutRet c :: b ->
  (forall k, cnt (starts k) a <= cnt (ends k) a /\ cnt (ends k) a <= cnt (finishes k) a) /\ forall v, ~ In (EStart v) b.
Proof. intros E. destruct (settled_final fr dyn maxc n h _ _ _ E) as [A B]. auto. Qed.
Print Assumptions C55_quiet_after_shutdown.

Theorem C55_nothing_happens_after_shutdown fr dyn maxc n h1 h2 c : In (EShutRet c) (trace fr dyn maxc n h1) ->
  exists b, trace fr dyn maxc n (h1 ++ h2) = trace fr dyn maxc n h1 ++ b /\ forall e, In e b -> about_task e = false.
Proof.
  intros I. destruct (calm_after fr dyn maxc n h1 h2 c I) as (b & E & C). exists b. split; [exact E|].
  intros e J. specialize (C e J). destruct e; try reflexivity; discriminate.
Qed.
Print Assumptions C55_nothing_happens_after_shutdown.

(** The shutdown that closes the pool calls stop() once for each task that is being executed (by pointer and priority), and for nothing else;
    nobody else calls stop(). *)
Theorem C55_stops_what_is_executed fr dyn maxc n h a d c r p : let s := final fr dyn maxc n h in
  nth_error (agents s) a = Some (AShut d SStopping) ->
  cnt (stops r p) (trace fr dyn maxc n h) = 0 /\ cnt (stops r p) (trace fr dyn maxc n (h ++ [LGo a c])) = cnt (executes r p) (agents s).
Proof.
  cbv zeta. intros E. unfold trace. destruct (stop_final fr dyn maxc n h) as [_ X].
  assert (Z : cnt (stops r p) (evs (final fr dyn maxc n h)) = 0).
  { assert (Y : cnt is_stop (evs (final fr dyn maxc n h)) = 0) by (apply X; right; eapply cnt_in; [eapply nth_error_In; exact E|reflexivity]).
    apply cnt_zero. intros e I. pose proof (cnt_zero_inv _ _ _ Y I) as K. destruct e; try reflexivity; discriminate. }
  split; [exact Z|]. rewrite final_snoc. cbn [next]. rewrite E. cbn [PoolModel.shut_step put qcall with_q log evs]. rewrite cnt_app, Z, cnt_map. cbn [Nat.add stops].
  apply running_final.
Qed.
Print Assumptions C55_stops_what_is_executed.

(** One thread, two tasks: the first is running when shutdown is called, the second is still waiting. *)
Definition h55a : history := [LSubmit 7 0; LGo 0 0; LGo 0 0; LGo 0 0; LGo 0 0; LGo 1 0; LGo 1 0; LGo 1 0; LGo 0 0; LGo 0 0; LGo 0 0; LGo 0 0; LGo 0 0; LSubmit 8 0; LGo 2 0; LGo 2 0; LGo 2 0].
Definition h55b : history := [LShut false; LGo 3 0; LGo 3 0; LGo 3 0; LGo 3 0; LGo 3 0; LGo 0 0; LGo 0 0; LGo 0 0; LGo 0 0; LGo 0 0; LGo 0 0; LGo 0 0; LGo 3 0; LGo 3 0].
Example C55_applies :
  no_shut h55a /\ In (ERunRet (Tk 0 7 0)) (trace fifo false 0 1 h55a) /\ In (ERunRet (Tk 1 8 0)) (trace fifo false 0 1 h55a) /\
  trace fifo false 0 1 (h55a ++ h55b) =
    [ESubmit (Tk 0 7 0); ERunRet (Tk 0 7 0); EStart (Tk 0 7 0); ESubmit (Tk 1 8 0); ERunRet (Tk 1 8 0); EShut 3; EStop (Tk 0 7 0); EDone (Tk 1 8 0);
     EEnd (Tk 0 7 0); EDone (Tk 0 7 0); EShutRet 3].
Proof.
  split; [|split; [|split]].
  - intros l I. vm_compute in I. repeat (destruct I as [<-|I]; [reflexivity|]). destruct I.
  - vm_compute. repeat (first [left; reflexivity|right]).
  - vm_compute. repeat (first [left; reflexivity|right]).
  - vm_compute. reflexivity.
Qed.
Example C55_applies_stop : nth_error (agents (final fifo false 0 1 (h55a ++ firstn 4 h55b))) 3 = Some (AShut false SStopping) /\
  cnt (executes 7 0) (agents (final fifo false 0 1 (h55a ++ firstn 4 h55b))) = 1.
Proof. split; vm_compute; reflexivity. Qed.

(** ** C56 *)
(** Whenever a thread of a pool takes a task, the task is one of those that wait, which loses just that task. *)
Lemma took fr dyn maxc n h a c v : takes (final fr dyn maxc n h) (final fr dyn maxc n (h ++ [LGo a c])) a v ->
  exists i, nth_error (waiting (final fr dyn maxc n h)) i = Some v /\ fr (waiting (final fr dyn maxc n h)) i = true.
Proof.
  intros [(t & E) N]. rewrite final_snoc in N. cbn [next] in N. rewrite E in N. unfold worker_step, qrun, result in N. cbn [q with_q] in N.
  pose proof (wf_final fr dyn maxc n h) as W. destruct (w_own _ W _ _ _ _ E eq_refl) as (p & T & NR).
  pose proof (qrun_cases fr _ t c _ _ (w_q _ W) T NR) as QC.
  inversion QC as [o1 p1 T1 N1 IT| | |v1 T1 T0 IT F|T1 C IT| |]; subst; rewrite T1 in N.
  - destruct p1; try contradiction; cbn [agents with_q] in N; rewrite E in N; discriminate.
  - cbn [agents put with_q] in N. rewrite nth_set_same in N by (eapply nth_lt; exact E). injection N as <-. exact F.
  - cbn [agents put with_q] in N. rewrite nth_set_same in N by (eapply nth_lt; exact E). discriminate.
Qed.

(** Priority pool: no waiting task has a higher priority than the one taken. *)
Theorem C56_thread_takes_highest_priority dyn maxc n h a c v :
  takes (final (by_priority tk_less) dyn maxc n h) (final (by_priority tk_less) dyn maxc n (h ++ [LGo a c])) a v ->
  In v (waiting (final (by_priority tk_less) dyn maxc n h)) /\ forall w, In w (waiting (final (by_priority tk_less) dyn maxc n h)) -> prio w <= prio v.
Proof.
  intros T. destruct (took _ _ _ _ _ _ _ _ T) as (i & E & F). split; [eapply nth_error_In; exact E|].
  revert E F. generalize (waiting (final (by_priority tk_less) dyn maxc n h)). intros W E F w I. unfold by_priority in F. rewrite E in F. rewrite forallb_forall in F. specialize (F w I). unfold tk_less in F.
  apply negb_true_iff, Nat.ltb_ge in F. exact F.
Qed.
Print Assumptions C56_thread_takes_highest_priority.

(** The other pools: the task that waits longest is taken. *)
Theorem C56_thread_takes_oldest dyn maxc n h a c v :
  takes (final fifo dyn maxc n h) (final fifo dyn maxc n (h ++ [LGo a c])) a v -> nth_error (waiting (final fifo dyn maxc n h)) 0 = Some v.
Proof.
  intros T. destruct (took _ _ _ _ _ _ _ _ T) as (i & E & F). revert E F. generalize (waiting (final fifo dyn maxc n h)). intros W E F. unfold fifo in F. apply Nat.eqb_eq in F. subst i. exact E.
Qed.
Print Assumptions C56_thread_takes_oldest.

(** Three tasks with priorities 1, 5, 3 and a thread that comes later; choice 1 is the second. *)
Definition push3 a : history := [LGo a 0; LGo a 0; LGo a 0].
Definition h56 : history := [LSubmit 7 1; LSubmit 8 5; LSubmit 9 3] ++ push3 1 ++ push3 2 ++ push3 3 ++ [LGo 0 0; LGo 0 0; LGo 0 0; LGo 0 0].
Example C56_pool_applies :
  waiting (final (by_priority tk_less) false 0 1 h56) = [Tk 0 7 1; Tk 1 8 5; Tk 2 9 3] /\
  takes (final (by_priority tk_less) false 0 1 h56) (final (by_priority tk_less) false 0 1 (h56 ++ [LGo 0 1])) 0 (Tk 1 8 5) /\
  ~ takes (final (by_priority tk_less) false 0 1 h56) (final (by_priority tk_less) false 0 1 (h56 ++ [LGo 0 0])) 0 (Tk 0 7 1).
Proof.
  split; [vm_compute; reflexivity|]. split; [split; [eexists; vm_compute; reflexivity|vm_compute; reflexivity]|].
  intros [_ H]. vm_compute in H. discriminate.
Qed.

(** ** C82: shutdown() may never return *)
(** A thread that found the queue empty and open goes to sleep after close() has notified: unless it wakes up spuriously, shutdown hangs,
    whatever else happens. *)
Definition h82 : history := [LGo 0 0; LGo 0 0; LGo 0 0; LShut false; LGo 1 0; LGo 1 0; LGo 1 0; LGo 0 0].
Theorem C82_shutdown_hangs_refuted :
  In (EShut 1) (trace fifo false 0 1 h82) /\
  forall h2, (forall l, In l h2 -> wakes l = false) -> forall a, ~ In (EShutRet a) (trace fifo false 0 1 (h82 ++ h2)).
Proof.
  split; [vm_compute; auto|]. intros h2 N a. unfold trace. eapply (stuck_after fifo false 0 1 h82 h2 0 0).
  - split; [vm_compute; reflexivity|]. split; [vm_compute; reflexivity|]. split; [vm_compute; reflexivity|]. split; [vm_compute; reflexivity|].
    intros t o p H. destruct t as [|[|[|t]]]; vm_compute in H; try discriminate H; injection H as <- <-; split; discriminate.
  - intros l I. specialize (N l I). destruct l; try reflexivity; discriminate.
Qed.
Print Assumptions C82_shutdown_hangs_refuted.

(** ** C83: a task submitted while the pool shuts down may be neither run nor finished *)
Definition h83 : history := [LSubmit 7 0; LGo 1 0; LGo 1 0; LShut false; LGo 2 0; LGo 2 0; LGo 2 0; LGo 2 0; LGo 2 0; LGo 1 0; LGo 0 0; LGo 0 0; LGo 0 0; LGo 0 0; LGo 2 0; LGo 2 0].
Theorem C83_task_forgotten_refuted :
  trace fifo false 0 1 h83 = [ESubmit (Tk 0 7 0); EShut 2; ERunRet (Tk 0 7 0); EShutRet 2] /\
  forall h2 e, In e (trace fifo false 0 1 (h83 ++ h2)) -> about_task e = false.
Proof.
  assert (T : trace fifo false 0 1 h83 = [ESubmit (Tk 0 7 0); EShut 2; ERunRet (Tk 0 7 0); EShutRet 2]) by (vm_compute; reflexivity).
  split; [exact T|]. intros h2 e I. destruct (C55_nothing_happens_after_shutdown fifo false 0 1 h83 h2 2) as (b & E & C).
  - rewrite T. cbn. auto.
  - rewrite E, T in I. cbn in I. repeat (destruct I as [<-|I]; [reflexivity|]). apply C. exact I.
Qed.
Print Assumptions C83_task_forgotten_refuted.

(** ** C84: run() after shutdown() of a dynamic pool makes its destructor call std::terminate *)
Definition h84 : history := [LShut false; LGo 0 0; LGo 0 0; LGo 0 0; LGo 0 0; LGo 0 0; LGo 0 0; LGo 0 0; LSubmit 7 0; LGo 1 0; LGo 1 0; LGo 1 0; LGo 1 0; LGo 1 0; LShut true; LGo 3 0; LGo 3 0].
Theorem C84_run_after_shutdown_refuted :
  trace fifo true 4 0 h84 = [EShut 0; EShutRet 0; ESubmit (Tk 0 7 0); ERunRet (Tk 0 7 0); EShut 3; EUnjoined 2; EShutRet 3].
Proof. vm_compute. reflexivity. Qed.
Print Assumptions C84_run_after_shutdown_refuted.

(** The fixed pools are safe: all their threads are joined. *)
Theorem C84_fixed_pools_partial fr maxc n h w : ~ In (EUnjoined w) (trace fr false maxc n h).
Proof.
  unfold trace.
  assert (X : (forall b, nth_error (agents (final fr false maxc n h)) b <> None -> n <= b -> forall p, nth_error (agents (final fr false maxc n h)) b <> Some (AWorker p)) /\
    (once (final fr false maxc n h) = Some true -> forall b, b < n -> In b (joined (final fr false maxc n h))) /\
    (forall b, b < n -> exists p, nth_error (agents (final fr false maxc n h)) b = Some (AWorker p)) /\
    ~ In (EUnjoined w) (evs (final fr false maxc n h))).
  2: apply X.
  assert (K : forall h, shut_inv (final fr false maxc n h)) by (intros; apply shut_final).
  induction h as [|lb h IH] using rev_ind.
  - cbn [final fold_left init agents once joined evs]. split; [|split; [|split]]; try discriminate.
    + intros b H L p E. apply nth_lt in E. rewrite repeat_length in E. lia.
    + intros b L. exists WLoop. clear - L. revert b L. induction n as [|m IHm]; intros [|b] L; cbn; try lia; [reflexivity|apply IHm; lia].
    + intros [].
  - destruct IH as (I1 & I2 & I3 & I4). specialize (K h). rewrite final_snoc. destruct (next_pcases fr false maxc _ lb (wf_final fr false maxc n h)) as [->|T]; [auto|].
    revert T. generalize (next fr false maxc (final fr false maxc n h) lb). intros s' T. clear lb. remember (final fr false maxc n h) as s eqn:HS. clear HS.
    assert (SET : forall a x y, nth_error (agents s) a = Some y -> is_worker x = is_worker y -> 
      (forall b, nth_error (set_nth a x (agents s)) b <> None -> n <= b -> forall p, nth_error (set_nth a x (agents s)) b <> Some (AWorker p)) /\
      (forall b, b < n -> exists p, nth_error (set_nth a x (agents s)) b = Some (AWorker p))).
    { intros a x y E WK. split.
      - intros b H L p E'. rewrite (nth_set _ _ _ _ _ E) in E'. destruct (Nat.eqb_spec a b) as [->|].
        + injection E' as ->. cbn in WK. destruct y as [| |py]; try discriminate. eapply (I1 b); [congruence|exact L|exact E].
        + eapply (I1 b); [congruence|exact L|exact E'].
      - intros b L. rewrite (nth_set _ _ _ _ _ E). destruct (Nat.eqb_spec a b) as [->|]; [|auto]. destruct (I3 b L) as (py & E2). rewrite E2 in E. injection E as <-.
        destruct x as [| |px]; try discriminate. eauto. }
    assert (ADD : forall x, is_worker x = false -> 
      (forall b, nth_error (agents s ++ [x]) b <> None -> n <= b -> forall p, nth_error (agents s ++ [x]) b <> Some (AWorker p)) /\
      (forall b, b < n -> exists p, nth_error (agents s ++ [x]) b = Some (AWorker p))).
    { intros x WK. split.
      - intros b H L p E'. rewrite nth_snoc in E'. destruct (Nat.eqb b (length (agents s))); [injection E' as ->; discriminate|]. eapply (I1 b); [congruence|exact L|exact E'].
      - intros b L. rewrite nth_snoc. destruct (I3 b L) as (py & E2). pose proof (nth_lt _ _ _ E2). destruct (Nat.eqb_spec b (length (agents s))); [lia|eauto]. }
    assert (WI : forall b, In b (worker_indices s) <-> b < n).
    { intros b. unfold worker_indices. rewrite filter_In, in_seq. split.
      - intros [_ H]. destruct (nth_error (agents s) b) as [[| |px]|] eqn:E; try discriminate. destruct (le_lt_dec n b) as [L|L]; [|exact L]. exfalso. eapply (I1 b); [congruence|exact L|exact E].
      - intros L. destruct (I3 b L) as (px & E). rewrite E. split; [pose proof (nth_lt _ _ _ E); lia|reflexivity]. }
    assert (LA : forall b0 c, launch false s b0 c = s) by (intros; reflexivity).
    destruct T as [r p|d|l L IT|a v b0 c E|a v t l E L C IT|a v t l E L IT|a d E O|a d E O|a d t l E L C IT|a d E|a d t l E L IT|a d E F|a d E|a E|a t l v E L T0 IT F|a t l E L C IT|a v E|a v E|a v E|a v E|a v E|a v pp0 pp1 E EP EQ]; try (destruct pp0; try discriminate EP; destruct pp1; try discriminate EQ);
      cbn [next agents with_agents with_submitted with_running with_once with_joined with_q put log qcall q evs submitted once running joined]; rewrite ?LA.
    all: try (match goal with E : nth_error (agents ?s) ?a = Some ?y |- context [set_nth ?a ?x (agents ?s)] => destruct (SET a x y E eq_refl) as [S1 S2] end).
    all: try (match goal with |- context [agents ?z ++ [?x]] => destruct (ADD x eq_refl) as [S1 S2] end).
    all: split; [first [exact S1|exact I1]|split; [|split; [first [exact S2|exact I3]|]]]; try exact I2; try exact I4; try discriminate.
    all: try (intros I; apply in_app_or in I as [I|I]; [exact (I4 I)|]; repeat (destruct I as [I|I]; [discriminate|]); exact I).
    all: try (intros I; apply in_app_or in I as [I|I]; [exact (I4 I)|]; apply in_map_iff in I as (v1 & I & _); discriminate).
    + intros _ b L. apply WI. exact L.
    + intros I. apply in_app_or in I as [I|I]; [exact (I4 I)|]. apply in_app_or in I as [I|[I|[]]]; [|discriminate]. destruct d; [|destruct I].
      apply in_map_iff in I as (b & X & I). unfold unjoined in I. apply filter_In in I as [J1 J2]. apply WI in J1.
      assert (O1 : once s = Some true) by (eapply (s_end s K); [eapply nth_error_In; exact E|reflexivity]).
      specialize (I2 O1 b J1). apply negb_true_iff in J2. assert (Y : existsb (Nat.eqb b) (joined s) = true) by (apply existsb_exists; exists b; split; [exact I2|apply Nat.eqb_refl]). congruence.
Qed.
Print Assumptions C84_fixed_pools_partial.

(** ** C85: a task may start after shutdown has stopped the running ones *)
(** The thread has taken the task but not registered it yet when shutdown calls stop(): the task starts all the same, is never asked to stop, and shutdown waits for it. *)
Definition h85 : history := [LSubmit 7 0; LGo 1 0; LGo 1 0; LGo 1 0; LGo 0 0; LGo 0 0; LGo 0 0; LGo 0 0; LGo 0 0; LShut false; LGo 2 0; LGo 2 0; LGo 2 0; LGo 2 0; LGo 0 0; LGo 0 0].
Theorem C85_started_after_stop_refuted :
  trace fifo false 0 1 h85 = [ESubmit (Tk 0 7 0); ERunRet (Tk 0 7 0); EShut 2; EStart (Tk 0 7 0)] /\
  forall h2 v, ~ In (EStop v) (trace fifo false 0 1 (h85 ++ h2)).
Proof.
  split; [vm_compute; reflexivity|]. intros h2 v I. unfold trace in I.
  assert (X : cnt is_stop (evs (final fifo false 0 1 (h85 ++ h2))) = 0).
  { rewrite stopped_after; [vm_compute; reflexivity|]. split; [vm_compute; discriminate|vm_compute; reflexivity]. }
  pose proof (cnt_zero_inv _ _ _ X I). discriminate.
Qed.
Print Assumptions C85_started_after_stop_refuted.

(** Or stop() is called before run(). *)
Definition h85b : history := [LSubmit 7 0; LGo 1 0; LGo 1 0; LGo 1 0; LGo 0 0; LGo 0 0; LGo 0 0; LGo 0 0; LGo 0 0; LGo 0 0; LShut false; LGo 2 0; LGo 2 0; LGo 2 0; LGo 2 0; LGo 0 0].
Theorem C85_stopped_before_start_refuted :
  trace fifo false 0 1 h85b = [ESubmit (Tk 0 7 0); ERunRet (Tk 0 7 0); EShut 2; EStop (Tk 0 7 0); EStart (Tk 0 7 0)].
Proof. vm_compute. reflexivity. Qed.
Print Assumptions C85_stopped_before_start_refuted.
