(** Model of maf::threading::ThreadPoolImplBase (include/maf/threading/ThreadPoolImplBase.h) and of the three pools built
    on it (src/common/maf/threading/threadpool/{StableThreadPool,PriorityThreadPool,DynamicCountThreadPool}.cpp), on top
    of the model of their task queue (QueueModel.v).

    Every call of run(), shutdown() or the destructor and every pool thread is an agent; a history interleaves their atomic steps
    in any order.  The three critical sections of _runningTaskMutex (ThreadPoolImplBase.h:103-121) contain no other
    blocking operation of the pool and are one step each.  A task's run() is two events, start and end, between which
    anything may happen; calls that tasks make on the pool are agents like any others.
    Simplifications: stop() and the destructor of a task (fStop, fDone) take no time; null Runnable pointers are not
    submitted; each single access to the unsynchronised vector of threads of the dynamic pool is atomic (in C++ concurrent
    accesses to it are a data race, with undefined behaviour); a task that shuts its own
    pool down is not told apart from another thread doing so; exceptions of tasks are not modelled. *)
From Verif Require Import ListUtil QueueModel.

(** A submission: a serial number (not in the code, names the call of run()), the Runnable pointer and the priority
    (PriorityThreadPool.cpp:8-23; always 0 in the other pools, whose queue holds the pointer alone). *)
Record tk := Tk { num : nat; runner : nat; prio : nat }.

(** operator== on tasks: pointer and priority (PriorityThreadPool.cpp:19-22) *)
Definition same (a b : tk) : bool := Nat.eqb (runner a) (runner b) && Nat.eqb (prio a) (prio b).
(** operator< (PriorityThreadPool.cpp:15-18) *)
Definition tk_less (a b : tk) : bool := Nat.ltb (prio a) (prio b).

Inductive event :=
| ESubmit (v : tk)              (* run() is called with this task *)
| ERunRet (v : tk)              (* ... and returns *)
| EStart (v : tk)               (* a pool thread calls run() of the task (ThreadPoolImplBase.h:77) *)
| EEnd (v : tk)                 (* ... which returns *)
| EStop (v : tk)                (* shutdown calls stop() of the task (119) *)
| EDone (v : tk)                (* the task is given to fDone: deleted if it asked for that (79, 69) *)
| EShut (a : nat)               (* call a: shutdown() or the destructor *)
| EShutRet (a : nat)            (* ... returns *)
| EUnjoined (w : nat).          (* the destructor destroys the std::thread of the running thread w: std::terminate *)

(** RCheck, RTry: before the two reads of the number of threads; RStart b: b = launch a thread; then push. *)
Inductive rpc := RCheck | RTry | RStart (b : bool) | RPushing (t : nat) | RReturned.
Inductive spc := SStart | SClosing (t : nat) | SStopping | SClearing (t : nat) | SJoining | SEnd | SReturned.
Inductive wpc := WLoop | WWaiting (t : nat) | WAdd (v : tk) | WStart (v : tk) | WRunning (v : tk) | WRemove (v : tk) | WDone (v : tk) | WExited.

Inductive agent :=
| ARun (v : tk) (p : rpc)
| AShut (destroy : bool) (p : spc)
| AWorker (p : wpc).

(** once: the std::once_flag: not called, being executed (Some false), executed (Some true). *)
Record pool := Po { q : QueueModel.state tk; agents : list agent; running : list tk; once : option bool;
                    submitted : nat; joined : list nat; evs : list event }.

Section Pool.
Variable fr : list tk -> nat -> bool.   (* fifo, or by_priority tk_less *)
Variable dyn : bool.                    (* the dynamic pool *)
Variable maxc : nat.                    (* its _maxThreadCount *)

(** The constructors launch the threads of the fixed pools (StableThreadPool.cpp:26-33, PriorityThreadPool.cpp:28-34);
    a launch may fail (ThreadPoolImplBase.h:44), so any number n of threads may be there. The dynamic pool has n = 0. *)
Definition init (n : nat) : pool := Po QueueModel.init (repeat (AWorker WLoop) n) [] None 0 [] [].

Definition is_worker (x : agent) : bool := match x with AWorker _ => true | _ => false end.
(** activeThreadCount = _pool.size() (ThreadPoolImplBase.h:53-55): exited threads stay in the vector. *)
Definition thread_count (s : pool) : nat := cnt is_worker (agents s).

Definition put (s : pool) (a : nat) (x : agent) : pool :=
  Po (q s) (set_nth a x (agents s)) (running s) (once s) (submitted s) (joined s) (evs s).
Definition with_q (s : pool) (k : QueueModel.state tk) : pool :=
  Po k (agents s) (running s) (once s) (submitted s) (joined s) (evs s).
Definition with_agents (s : pool) (l : list agent) : pool :=
  Po (q s) l (running s) (once s) (submitted s) (joined s) (evs s).
Definition with_running (s : pool) (l : list tk) : pool :=
  Po (q s) (agents s) l (once s) (submitted s) (joined s) (evs s).
Definition with_once (s : pool) (o : option bool) : pool :=
  Po (q s) (agents s) (running s) o (submitted s) (joined s) (evs s).
Definition with_submitted (s : pool) (n : nat) : pool :=
  Po (q s) (agents s) (running s) (once s) n (joined s) (evs s).
Definition with_joined (s : pool) (l : list nat) : pool :=
  Po (q s) (agents s) (running s) (once s) (submitted s) l (evs s).
Definition log (s : pool) (l : list event) : pool :=
  Po (q s) (agents s) (running s) (once s) (submitted s) (joined s) (evs s ++ l).

(** Starting a call on the queue, and one step of it. *)
Definition fresh (s : pool) : nat := length (tasks (q s)).
Definition qcall (s : pool) (o : op tk) : pool := with_q s (next fr (q s) (LCall o)).
Definition qrun (s : pool) (t choice : nat) : pool := with_q s (next fr (q s) (LRun t choice)).
Definition result (s : pool) (t : nat) : option (res tk) :=
  match nth_error (tasks (q s)) t with Some (_, PReturned r) => Some r | _ => None end.

(** run() (ThreadPoolImplBase.h:49; DynamicCountThreadPool.cpp:11-18, tryLaunchNewThread ThreadPoolImplBase.h:38-47):
    the dynamic pool compares the number of threads with the limit twice (DynamicCountThreadPool.cpp:13,
    ThreadPoolImplBase.h:39) and then adds a thread.  choice 0: the launch of a thread succeeds. *)
Definition launch (s : pool) (b : bool) (choice : nat) : pool :=
  if dyn && b && Nat.eqb choice 0 then with_agents s (agents s ++ [AWorker WLoop]) else s.

Definition run_step (s : pool) (a : nat) (v : tk) (p : rpc) (choice : nat) : pool :=
  match p with
  | RCheck => put s a (ARun v (if Nat.ltb (thread_count s) maxc then RTry else RStart false))
  | RTry => put s a (ARun v (RStart (Nat.ltb (thread_count s) maxc)))
  | RStart b => put (qcall (launch s b choice) (OPush v)) a (ARun v (RPushing (fresh s)))
  | RPushing t =>
      let s' := qrun s t choice in
      match result s' t with
      | Some _ => log (put s' a (ARun v RReturned)) [ERunRet v]
      | None => s'
      end
  | RReturned => s
  end.

(** The first element equal to [v] is removed from the list of running tasks (removeFromRunningTasks, 106-115). *)
Fixpoint remove_first (v : tk) (l : list tk) : list tk :=
  match l with [] => [] | w :: l' => if same w v then l' else w :: remove_first v l' end.

Definition worker_indices (s : pool) : list nat :=
  filter (fun a => match nth_error (agents s) a with Some x => is_worker x | None => false end) (seq 0 (length (agents s))).
Definition exited (x : agent) : bool := match x with AWorker WExited => true | AWorker _ => false | _ => true end.
(** A thread that was neither joined nor ... : std::thread::joinable() *)
Definition unjoined (s : pool) : list nat :=
  filter (fun a => negb (existsb (Nat.eqb a) (joined s))) (worker_indices s).

(** shutdown() (61-63): std::call_once runs stopThePool (65-70) in the first caller; the others wait until it is over.
    The destructor calls shutdown() and then destroys the vector of threads (36).
    For the join (123-129): the caller goes on when all threads have exited. *)
Definition shut_step (s : pool) (a : nat) (d : bool) (p : spc) (choice : nat) : pool :=
  match p with
  | SStart =>
      match once s with
      | None => put (with_once (qcall s OClose) (Some false)) a (AShut d (SClosing (fresh s)))
      | Some false => s
      | Some true => put s a (AShut d SEnd)
      end
  | SClosing t =>
      let s' := qrun s t choice in
      match result s' t with Some _ => put s' a (AShut d SStopping) | None => s' end
  | SStopping =>
      put (qcall (log s (map EStop (running s))) (OClear true)) a (AShut d (SClearing (fresh s)))
  | SClearing t =>
      let s' := qrun s t choice in
      match result s' t with
      | Some _ => log (put s' a (AShut d SJoining)) (map EDone (items (q s)))
      | None => s'
      end
  | SJoining =>
      if forallb exited (agents s) then put (with_once (with_joined s (worker_indices s)) (Some true)) a (AShut d SEnd) else s
  | SEnd =>
      log (put s a (AShut d SReturned)) ((if d then map EUnjoined (unjoined s) else []) ++ [EShutRet a])
  | SReturned => s
  end.

(** coptRunPendingTask and coptRun (74-86). *)
Definition worker_step (s : pool) (a : nat) (p : wpc) (choice : nat) : pool :=
  match p with
  | WLoop => put (qcall s (OWait false)) a (AWorker (WWaiting (fresh s)))
  | WWaiting t =>
      let s' := qrun s t choice in
      match result s' t with
      | Some (RTook v) => put s' a (AWorker (WAdd v))
      | Some _ => put s' a (AWorker WExited)
      | None => s'
      end
  | WAdd v => put (with_running s (running s ++ [v])) a (AWorker (WStart v))
  | WStart v => log (put s a (AWorker (WRunning v))) [EStart v]
  | WRunning v => log (put s a (AWorker (WRemove v))) [EEnd v]
  | WRemove v => put (with_running s (remove_first v (running s))) a (AWorker (WDone v))
  | WDone v => log (put s a (AWorker WLoop)) [EDone v]
  | WExited => s
  end.

Inductive label :=
| LSubmit (r p : nat)             (* run(r, p) is called *)
| LShut (destroy : bool)          (* shutdown() or the destructor is called *)
| LGo (a : nat) (choice : nat)    (* agent a makes its next step *)
| LWake (t : nat).                (* a spurious wake-up in the queue *)

Definition history := list label.

Definition next (s : pool) (l : label) : pool :=
  match l with
  | LSubmit r p =>
      let v := Tk (submitted s) r p in
      log (with_submitted (with_agents s (agents s ++ [ARun v (if dyn then RCheck else RStart false)])) (S (submitted s))) [ESubmit v]
  | LShut d => log (with_agents s (agents s ++ [AShut d SStart])) [EShut (length (agents s))]
  | LGo a choice =>
      match nth_error (agents s) a with
      | Some (ARun v p) => run_step s a v p choice
      | Some (AShut d p) => shut_step s a d p choice
      | Some (AWorker p) => worker_step s a p choice
      | None => s
      end
  | LWake t => with_q s (QueueModel.next fr (q s) (LSpurious t))
  end.

Definition final (n : nat) (h : history) : pool := fold_left next h (init n).
Definition trace (n : nat) (h : history) : list event := evs (final n h).
End Pool.
