(** Model of SyncTimer (include/maf/messaging/SyncTimer.h, src/common/maf/messaging/SyncTimer.cpp): a timer whose start() blocks its
    caller and calls the callback on the caller's thread.

    Any number of threads; each has a stack of start() calls in progress, because a callback may use the timer again.  Time is
    a natural number and passes at any moment ([LTick]).  A step is one critical section of the recursive mutex or one
    access outside it.  start() holds the mutex while its callback runs and gives up one level of it while it waits
    (condition_variable_any), so the mutex is held by exactly the threads that have a callback of the timer running;
    a step of another thread that needs it is not possible meanwhile ([can_lock]) and does nothing.
    notify_one wakes one of the waiting threads, chosen by the environment ([w]).
    Simplified: an executor (50-51) either runs the callback on the spot or queues it, which is a callback that
    returns at once; callbacks do not throw; the timer is not destroyed while it is used; a null callback is refused without
    any effect (36-38) and is not modelled; the unlocked read of [running] (39, 78; a data race) is atomic. *)
From Verif Require Import ListUtil.

Inductive fpc :=
| PCheck                              (* 39 *)
| PStop                               (* 41 *)
| PLock                               (* 44-45 *)
| PWait (deadline : nat) (notified : bool) (* in wait_for, 48 *)
| PAwake (deadline : nat) (expired : bool) (* woken up, needs the mutex again *)
| PCall.                              (* in the callback, 50-54; holds the mutex *)

(** One call of start(): its number, the interval, whether an executor was given, whether the callback was moved away (51). *)
Record frame := Fr { f_id : nat; f_ms : nat; f_ex : bool; f_moved : bool; f_pc : fpc }.
Definition set_pc (f : frame) (p : fpc) : frame := Fr (f_id f) (f_ms f) (f_ex f) (f_moved f) p.

(** SyncTimerDataPrv (14-19), the clock and the threads; [made]: number of calls of start(). *)
Record tstate := TS { now : nat; running : bool; cyclic : bool; made : nat; stacks : list (list frame) }.
Definition timer_new (c : bool) (threads : nat) : tstate := TS 0 false c 0 (repeat [] threads).

Inductive label :=
| LTick (d : nat)                          (* time passes *)
| LStart (t ms : nat) (ex : bool)          (* user code on thread t calls start(ms, callback, executor) *)
| LStop (t w : nat)                        (* ... stop() *)
| LRestart (t w : nat)                     (* ... restart() *)
| LCyclic (t : nat) (b : bool)             (* ... setCyclic(b) *)
| LRunning (t : nat)                       (* ... running() *)
| LReturn (t : nat)                        (* the callback running on thread t returns *)
| LStep (t w : nat)                        (* start() on thread t goes on *)
| LSpurious (t : nat)                      (* a wait ends for no reason *)
| LExpire (t : nat).                       (* a wait ends because its deadline has passed *)

Inductive event :=
| EStart (n t ms : nat)        (* thread t calls start() with interval ms: start number n *)
| ESet (n c : nat)             (* start number n takes effect at time c *)
| EFire (n c : nat) (ok : bool)(* the callback of start n is called (given to the executor) at time c; ok = false: it is empty by now *)
| EEnd (n : nat)               (* start number n returns *)
| EStop (t : nat)              (* stop() called by thread t *)
| ERestart (t : nat)
| ERunning (t : nat) (b : bool).

Definition in_call (f : frame) : bool := match f_pc f with PCall => true | _ => false end.
Definition holds (st : list frame) : bool := existsb in_call st.
Definition is_waiting (st : list frame) : bool :=
  match st with f :: _ => match f_pc f with PWait _ false => true | _ => false end | [] => false end.
(** Thread [t] can lock the mutex: no other thread holds it. *)
Definition can_lock (s : tstate) (t : nat) : bool :=
  forallb (fun u => Nat.eqb u t || negb (holds (nth u (stacks s) []))) (seq 0 (length (stacks s))).
(** Thread [t] runs user code: it is in no call of the timer or in a callback. *)
Definition in_user (s : tstate) (t : nat) : bool :=
  match nth_error (stacks s) t with Some [] => true | Some (f :: _) => in_call f | None => false end.

Definition with_stack (s : tstate) (t : nat) (st : list frame) : tstate :=
  TS (now s) (running s) (cyclic s) (made s) (set_nth t st (stacks s)).
Definition set_running (s : tstate) (b : bool) : tstate := TS (now s) b (cyclic s) (made s) (stacks s).

(** The waiting thread that notify_one wakes: [w] if it waits, otherwise the first one that does. *)
Fixpoint first_waiting (i : nat) (l : list (list frame)) : option nat :=
  match l with [] => None | st :: l' => if is_waiting st then Some i else first_waiting (S i) l' end.
Definition pick (s : tstate) (w : nat) : option nat :=
  if is_waiting (nth w (stacks s) []) then Some w else first_waiting 0 (stacks s).
Definition notify_one (s : tstate) (w : nat) : tstate :=
  match pick s w with
  | Some u => match nth u (stacks s) [] with
              | f :: st => match f_pc f with PWait d _ => with_stack s u (set_pc f (PWait d true) :: st) | _ => s end
              | [] => s
              end
  | None => s
  end.

(** SyncTimer::stop (70-76), the mutex being available. *)
Definition do_stop (s : tstate) (w : nat) : tstate :=
  if running s then notify_one (set_running s false) w else s.

(** The end of start(): line 64 and the unlocking. *)
Definition finish (s : tstate) (t : nat) (f : frame) (st : list frame) : tstate * list event :=
  (with_stack (set_running s false) t st, [EEnd (f_id f)]).

Definition start_step (s : tstate) (t w : nat) (f : frame) (st : list frame) : tstate * list event :=
  match f_pc f with
  | PCheck => (with_stack s t (set_pc f (if running s then PStop else PLock) :: st), [])
  | PStop => if can_lock s t then
               let s' := do_stop s w in (with_stack s' t (set_pc f PLock :: st), [EStop t])
             else (s, [])
  | PLock => if can_lock s t then
               (with_stack (set_running s true) t (set_pc f (PWait (now s + f_ms f) false) :: st), [ESet (f_id f) (now s)])
             else (s, [])
  | PWait d true => (with_stack s t (set_pc f (PAwake d false) :: st), [])
  | PWait d false => (s, [])
  | PAwake d expired =>
      if can_lock s t then
        if running s then
          if expired then
            (with_stack s t (Fr (f_id f) (f_ms f) (f_ex f) (f_moved f || (f_ex f && negb (cyclic s))) PCall :: st),
             [EFire (f_id f) (now s) (negb (f_moved f))])
          else (with_stack s t (set_pc f (PWait d false) :: st), [])
        else finish s t f st
      else (s, [])
  | PCall => (s, [])
  end.

Definition step (s : tstate) (l : label) : tstate * list event :=
  match l with
  | LTick d => (TS (now s + d) (running s) (cyclic s) (made s) (stacks s), [])
  | LStart t ms ex =>
      if in_user s t then
        (TS (now s) (running s) (cyclic s) (S (made s))
            (set_nth t (Fr (made s) ms ex false PCheck :: nth t (stacks s) []) (stacks s)), [EStart (made s) t ms])
      else (s, [])
  | LStop t w => if in_user s t && can_lock s t then (do_stop s w, [EStop t]) else (s, [])
  | LRestart t w => if in_user s t then (notify_one s w, [ERestart t]) else (s, [])
  | LCyclic t b => if in_user s t && can_lock s t then (TS (now s) (running s) b (made s) (stacks s), []) else (s, [])
  | LRunning t => if in_user s t then (s, [ERunning t (running s)]) else (s, [])
  | LReturn t =>
      match nth_error (stacks s) t with
      | Some (f :: st) =>
          match f_pc f with
          | PCall => (* 57-62 *)
              if running s && cyclic s then (with_stack s t (set_pc f (PWait (now s + f_ms f) false) :: st), [])
              else finish s t f st
          | _ => (s, [])
          end
      | _ => (s, [])
      end
  | LStep t w => match nth_error (stacks s) t with Some (f :: st) => start_step s t w f st | _ => (s, []) end
  | LSpurious t =>
      match nth_error (stacks s) t with
      | Some (f :: st) => match f_pc f with PWait d _ => (with_stack s t (set_pc f (PAwake d false) :: st), []) | _ => (s, []) end
      | _ => (s, [])
      end
  | LExpire t =>
      match nth_error (stacks s) t with
      | Some (f :: st) =>
          match f_pc f with
          | PWait d _ => if Nat.leb d (now s) then (with_stack s t (set_pc f (PAwake d true) :: st), []) else (s, [])
          | _ => (s, [])
          end
      | _ => (s, [])
      end
  end.

Fixpoint run (s : tstate) (h : list label) : tstate * list event :=
  match h with
  | [] => (s, [])
  | l :: h' => let (s1, e1) := step s l in let (s2, e2) := run s1 h' in (s2, e1 ++ e2)
  end.
