(** Vocabulary for the thread pool properties C55, C56, C82-C85, C103-C105. *)
From Verif Require Import ListUtil QueueModel PoolModel.

(** What happened to the task submitted by the [n]-th call of run(). *)
Definition submits (n : nat) (e : event) : bool := match e with ESubmit v => Nat.eqb (num v) n | _ => false end.
Definition starts (n : nat) (e : event) : bool := match e with EStart v => Nat.eqb (num v) n | _ => false end.
Definition ends (n : nat) (e : event) : bool := match e with EEnd v => Nat.eqb (num v) n | _ => false end.
Definition finishes (n : nat) (e : event) : bool := match e with EDone v => Nat.eqb (num v) n | _ => false end.
Definition is_start (e : event) : bool := match e with EStart _ => true | _ => false end.
Definition stops (r p : nat) (e : event) : bool := match e with EStop v => Nat.eqb (runner v) r && Nat.eqb (prio v) p | _ => false end.

(** No call of shutdown() or of the destructor. *)
Definition is_shut (l : label) : bool := match l with LShut _ => true | _ => false end.
Definition no_shut (h : history) : Prop := forall l, In l h -> is_shut l = false.

(** A pool thread has this Runnable, with this priority, in its hands: registered as running, not yet unregistered. *)
Definition executes (r p : nat) (x : agent) : bool :=
  match x with
  | AWorker (WStart v) | AWorker (WRunning v) | AWorker (WRemove v) => Nat.eqb (runner v) r && Nat.eqb (prio v) p
  | _ => false
  end.

(** Pool thread [a] takes task [v] out of the queue in its next step; [waiting h]: the tasks that wait to be taken, in the order in
    which they were submitted. *)
Definition waiting (s : pool) : list tk := items (q s).
Definition takes (s s' : pool) (a : nat) (v : tk) : Prop :=
  (exists t, nth_error (agents s) a = Some (AWorker (WWaiting t))) /\ nth_error (agents s') a = Some (AWorker (WAdd v)).

(** The events after which something happens to a task. *)
Definition about_task (e : event) : bool := match e with EStart _ | EEnd _ | EDone _ | EStop _ => true | _ => false end.
Definition wakes (l : label) : bool := match l with LWake _ => true | _ => false end.

(** The task queue of the pools: first in first out, or by priority. *)
Definition pool_order (fr : list tk -> nat -> bool) : Prop := fr = fifo \/ fr = by_priority tk_less.

(** Only threads and calls that are already there go on; with or without spurious wake-ups. *)
Definition is_go (l : label) : bool := match l with LGo _ _ => true | _ => false end.
Definition go_or_wake (l : label) : bool := match l with LGo _ _ | LWake _ => true | _ => false end.

(** The calls of run() do not overlap: whenever one is made, the earlier ones have returned. *)
Definition one_by_one fr dyn maxc n (h : history) : Prop := forall h1 r p h2, h = h1 ++ LSubmit r p :: h2 ->
  forall v, In (ESubmit v) (trace fr dyn maxc n h1) -> In (ERunRet v) (trace fr dyn maxc n h1).
Definition all_run_calls_returned fr dyn maxc n (h : history) : Prop :=
  forall v, In (ESubmit v) (trace fr dyn maxc n h) -> In (ERunRet v) (trace fr dyn maxc n h).

(** Every attempt of a dynamic pool to start a thread succeeds (choice 0). *)
Definition launches_work fr maxc (h : history) : Prop := forall h1 a c h2 v b, h = h1 ++ LGo a c :: h2 ->
  nth_error (agents (final fr true maxc 0 h1)) a = Some (ARun v (RStart b)) -> c = 0.
Definition is_submit (e : event) : bool := match e with ESubmit _ => true | _ => false end.
