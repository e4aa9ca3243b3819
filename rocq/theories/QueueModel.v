(** Model of maf::threading::ThreadSafeQueue (include/maf/threading/ThreadSafeQueue.h).

    Every API call is an agent of its own (number [t] = the [t]-th call made); a history interleaves the atomic steps of
    any number of calls in any order, so threads are the special case where the calls of one thread do not overlap.
    The mutex is explicit, and [closed_] (an std::atomic_bool read and written without the mutex) is accessed in steps
    of its own.  The wrapped container is a list in insertion order; [is_front l i] says that the [i]-th of the
    elements [l] is a possible front(): the first for std::queue, any maximal one for std::priority_queue.
    Not modelled: std::bad_alloc, exceptions of element copies, destruction of the queue while calls are in flight. *)
From Verif Require Import ListUtil.

Section Queue.
Variable V : Type.
Variable is_front : list V -> nat -> bool.

(** The public calls (ThreadSafeQueue.h:23-135); wait = OWait false, waitFor / waitUntil = OWait true. *)
Inductive op :=
| OPush (v : V)             (* 24-37 *)
| OPushSeq (vs : list V)    (* 39-53 *)
| OWait (timed : bool)      (* 54-66, 68-81, 87-97 *)
| OTryPop                   (* 99-107 *)
| OClose                    (* 111-117 *)
| OReOpen                   (* 109 *)
| OClear (cb : bool)        (* 121-133, with or without a callback *)
| OSize                     (* 135 *)
| OEmpty                    (* 23 *)
| OIsClosed.                (* 119 *)

Inductive res := RDone | RNothing | RTook (v : V) | RNum (n : nat) | RBool (b : bool).

(** Where a call is. *)
Inductive pc :=
| PStart                    (* called, nothing done yet *)
| PPush                     (* push: isClosed() was false (25/32/46); next: lock, append, notify, unlock *)
| PEnter                    (* wait: needs the mutex to evaluate the predicate (first time or after a wake-up) *)
| PSleepPre                 (* wait: mutex held, predicate was false; next: release the mutex and sleep *)
| PAsleep                   (* wait: sleeping in the condition variable, mutex released *)
| PTimeout                  (* timed wait: the deadline passed; needs the mutex for the last predicate evaluation *)
| PChecked                  (* mutex held, an element was there or the queue was closed; next: isClosed() (60/75/91/101) *)
| PPop                      (* mutex held, isClosed() was false; next: take the front, release the mutex *)
| PNotify                   (* close: the flag was changed (113); next: notify_all (115) *)
| PReturned (r : res).

Definition task := (op * pc)%type.

Inductive event :=
| EPut (t : nat) (vs : list V)   (* call t put these elements in *)
| ETake (t : nat) (v : V)        (* call t took this element out *)
| EClear (t : nat) (vs : list V) (* call t discarded these elements *)
| ERet (t : nat) (r : res)
| EUndefined (t : nat).          (* call t asked an empty container for its front (61/76/92): undefined behaviour *)

Record state := St { items : list V; closed : bool; mutex : option nat; tasks : list task; tr : list event }.

Definition init : state := St [] false None [] [].

Inductive label :=
| LCall (o : op)
| LRun (t : nat) (choice : nat)  (* call t makes its next step; choice: which element is the front / which waiter notify_one wakes *)
| LTimeout (t : nat)             (* the deadline of a sleeping timed wait passes *)
| LSpurious (t : nat).           (* a spurious wake-up of a sleeping wait *)

Definition history := list label.

Definition asleepb (x : task) : bool := match snd x with PAsleep => true | _ => false end.

(** std::condition_variable_any::notify_all *)
Definition wake1 (x : task) : task := match snd x with PAsleep => (fst x, PEnter) | _ => x end.
Definition wake_all (l : list task) : list task := map wake1 l.

(** notify_one: wakes one sleeping waiter, unspecified which ([choice]); nothing if there is none.
    None: [choice] is not a sleeping waiter although there is one. *)
Definition wake_one (choice : nat) (l : list task) : option (list task) :=
  match nth_error l choice with
  | Some (o, PAsleep) => Some (set_nth (A := task) choice (o, PEnter) l)
  | _ => if existsb asleepb l then None else Some l
  end.

Definition set_pc (s : state) (t : nat) (o : op) (p : pc) : state :=
  St (items s) (closed s) (mutex s) (set_nth (A := task) t (o, p) (tasks s)) (tr s).
Definition ret (s : state) (t : nat) (o : op) (r : res) : state :=
  St (items s) (closed s) (mutex s) (set_nth (A := task) t (o, PReturned r) (tasks s)) (tr s ++ [ERet t r]).
Definition with_items (s : state) (l : list V) := St l (closed s) (mutex s) (tasks s) (tr s).
Definition with_closed (s : state) (b : bool) := St (items s) b (mutex s) (tasks s) (tr s).
Definition with_mutex (s : state) (m : option nat) := St (items s) (closed s) m (tasks s) (tr s).
Definition with_tasks (s : state) (l : list task) := St (items s) (closed s) (mutex s) l (tr s).
Definition emit (s : state) (e : event) := St (items s) (closed s) (mutex s) (tasks s) (tr s ++ [e]).

Definition nonempty (s : state) : bool := match items s with [] => false | _ => true end.

(** The wait predicate, evaluated with the mutex held (58, 72, 90). *)
Definition pred (s : state) : bool := nonempty s || closed s.

(** Removing the [i]-th element. *)
Fixpoint remove_nth (i : nat) (l : list V) : list V :=
  match l, i with
  | [], _ => []
  | _ :: l', O => l'
  | x :: l', S i' => x :: remove_nth i' l'
  end.

Definition elems (o : op) : list V := match o with OPush v => [v] | OPushSeq vs => vs | _ => [] end.

(** One atomic step of call [t], which executes [o] and is at [p]. A step that needs the mutex while another call holds
    it does nothing (the call stays blocked). *)
Definition free (s : state) : bool := match mutex s with None => true | Some _ => false end.

Definition step_at (s : state) (t : nat) (o : op) (p : pc) (choice : nat) : state :=
  match p with
  | PStart =>
      match o with
      | OPush _ | OPushSeq _ => if closed s then ret s t o RDone else set_pc s t o PPush
      | OWait _ => set_pc s t o PEnter
      | OTryPop =>
          if free s then if nonempty s then with_mutex (set_pc s t o PChecked) (Some t) else ret s t o RNothing else s
      | OClose => if closed s then ret s t o RDone else with_closed (set_pc s t o PNotify) true
      | OReOpen => with_closed (ret s t o RDone) false
      | OClear _ => if free s then with_items (ret (emit s (EClear t (items s))) t o RDone) [] else s
      | OSize => if free s then ret s t o (RNum (length (items s))) else s
      | OEmpty => if free s then ret s t o (RBool (negb (nonempty s))) else s
      | OIsClosed => ret s t o (RBool (closed s))
      end
  | PPush =>
      if free s then
        match (match o with OPush _ => wake_one choice (tasks s) | _ => Some (wake_all (tasks s)) end) with
        | Some l => ret (emit (with_items (with_tasks s l) (items s ++ elems o)) (EPut t (elems o))) t o RDone
        | None => s
        end
      else s
  | PEnter => if free s then with_mutex (set_pc s t o (if pred s then PChecked else PSleepPre)) (Some t) else s
  | PSleepPre => with_mutex (set_pc s t o PAsleep) None
  | PAsleep => s
  | PTimeout =>
      if free s then if pred s then with_mutex (set_pc s t o PChecked) (Some t) else ret s t o RNothing else s
  | PChecked => if closed s then with_mutex (ret s t o RNothing) None else set_pc s t o PPop
  | PPop =>
      match nth_error (items s) choice with
      | Some v =>
          if is_front (items s) choice
          then with_mutex (ret (emit (with_items s (remove_nth choice (items s))) (ETake t v)) t o (RTook v)) None
          else s
      | None => match items s with [] => emit s (EUndefined t) | _ => s end
      end
  | PNotify => ret (with_tasks s (wake_all (tasks s))) t o RDone
  | PReturned _ => s
  end.

Definition next (s : state) (l : label) : state :=
  match l with
  | LCall o => with_tasks s (tasks s ++ [(o, PStart) : task])
  | LRun t choice =>
      match nth_error (tasks s) t with Some (o, p) => step_at s t o p choice | None => s end
  | LTimeout t =>
      match nth_error (tasks s) t with Some (OWait true, PAsleep) => set_pc s t (OWait true) PTimeout | _ => s end
  | LSpurious t =>
      match nth_error (tasks s) t with Some (o, PAsleep) => set_pc s t o PEnter | _ => s end
  end.

Definition final (h : history) : state := fold_left next h init.
Definition trace (h : history) : list event := tr (final h).
Definition calls (h : history) : list op := map fst (tasks (final h)).
Definition call_of (h : history) (t : nat) : option op := nth_error (calls h) t.

End Queue.

Arguments OPush {V}. Arguments OPushSeq {V}. Arguments OWait {V}. Arguments OTryPop {V}. Arguments OClose {V}.
Arguments OReOpen {V}. Arguments OClear {V}. Arguments OSize {V}. Arguments OEmpty {V}. Arguments OIsClosed {V}.
Arguments RDone {V}. Arguments RNothing {V}. Arguments RTook {V}. Arguments RNum {V}. Arguments RBool {V}.
Arguments PStart {V}. Arguments PPush {V}. Arguments PEnter {V}. Arguments PSleepPre {V}. Arguments PAsleep {V}.
Arguments PTimeout {V}. Arguments PChecked {V}. Arguments PPop {V}. Arguments PNotify {V}. Arguments PReturned {V}.
Arguments EPut {V}. Arguments ETake {V}. Arguments EClear {V}. Arguments ERet {V}. Arguments EUndefined {V}.
Arguments LCall {V}. Arguments LRun {V}. Arguments LTimeout {V}. Arguments LSpurious {V}.
Arguments St {V}. Arguments items {V}. Arguments closed {V}. Arguments mutex {V}. Arguments tasks {V}. Arguments tr {V}.
Arguments init {V}. Arguments elems {V}. Arguments remove_nth {V}. Arguments asleepb {V}. Arguments nonempty {V}.
Arguments pred {V}. Arguments free {V}. Arguments wake1 {V}. Arguments wake_all {V}. Arguments wake_one {V}.
Arguments set_pc {V}. Arguments ret {V}. Arguments with_items {V}. Arguments with_closed {V}. Arguments with_mutex {V}.
Arguments with_tasks {V}. Arguments emit {V}. Arguments step_at {V}. Arguments next {V}. Arguments final {V}.
Arguments trace {V}. Arguments calls {V}. Arguments call_of {V}.

(** std::queue (ThreadSafeQueue.h:147): the front is the oldest element. *)
Definition fifo {V} (_ : list V) (i : nat) : bool := Nat.eqb i 0.

(** std::priority_queue (ThreadSafeQueue.h:150-159, front() = top()): a front is an element that is not less than any
    other; [less a b] is the comparator. *)
Definition by_priority {V} (less : V -> V -> bool) (l : list V) (i : nat) : bool :=
  match nth_error l i with Some v => forallb (fun w => negb (less v w)) l | None => false end.
