(** Model of the timers of one processor thread (src/common/maf/messaging/Timer.cpp, include/maf/messaging/Timer.h), together with the part of
    the processor's loop they are woven into (src/common/maf/messaging/Processor.cpp:194-254).

    The timer manager is thread-local (Timer.cpp:90-93); everything below except [Tick], [Post], [StopProc], [Foreign] and [Cyclic] happens on the
    thread of the processor, so that one control point [pc] is enough.  Time is a natural number, read whenever the code calls Clock::now(),
    and passes at any moment ([Tick]).
    Simplified: the heap (std::make_heap, push_heap, pop_heap) is a list with an element of minimal deadline in front; which one among equals is
    chosen by the environment ([k] in the labels).  push_heap and pop_heap are assumed to work although updateShortestTimer() and restart() change the
    deadline of the front before pop_heap (288-292, 240-243); with the usual implementations they do.  Intervals are not negative; callbacks do not
    throw; user code does not run the loop of the processor itself (runUntil etc.); the processor is not reused after a stop. *)
From Verif Require Import ListUtil.
From Verif Require Amap.

(** struct TimerData, Timer.cpp:30-56. *)
Record tdata := TD { deadline : nat; duration : nat; cyclic : bool; running : bool }.
(** TimerMgr::State, Timer.cpp:64. *)
Inductive mstate := NoTimer | HaveTimer | Waiting.
(** What is in the queue of the processor: code of the user, the check of onTimerModified() (226), the empty callback of interruptCurrentTimer() (296). *)
Inductive exec := QUser | QCheck | QEmpty.

Inductive point :=
| PIdle                    (* run(), Processor.cpp:206-210, before the wait *)
| PUser                    (* user code taken by run() *)
| PLoop                    (* checkAllTimers, Timer.cpp:179 *)
| PWait (r w : nat)        (* in runOnceUntil(w) for timer r, 182 *)
| PUserIn (r : nat)        (* user code run by runOnceUntil *)
| PWoken (r : nat)         (* 183-198 *)
| PCall (r : nat).         (* in the callback of r, 236 *)

Inductive op := Start (r d : nat) | Stop (r : nat) | Restart (r : nat) | Return.
Inductive label :=
| Tick (d : nat)             (* time passes *)
| Post                       (* somebody gives the processor something to execute *)
| StopProc                   (* somebody stops the processor: Processor::stop, Processor.cpp:249-254 *)
| Foreign (r : nat)          (* Timer::stop() or ~Timer() on another thread *)
| Cyclic (r : nat) (b : bool) (* Timer::setCyclic 137-141, or the constructor 101 *)
| Step (k : nat)             (* the processor goes on *)
| U (o : op) (k : nat).      (* user code on the processor's thread *)

Inductive event :=
| EStart (r now d : nat)     (* timer r was started *)
| EStop (r : nat)            (* stopped on the thread of the processor *)
| EForeign (r : nat)         (* stopped on another thread *)
| ERestart (r now : nat)
| ECyclic (r : nat) (b : bool)
| EFire (r now : nat)        (* its callback is called *)
| EPick (r w : nat)          (* the loop chose timer r, due at w *)
| ELook (r now : nat)        (* and having waited, looks whether it is due *)
| EExec                      (* the processor executes something of the user *)
| EDead (r : nat)            (* the callback of r is destroyed while it runs *)
| EBad.                      (* front() of an empty heap *)

Record state := St { now : nat; dat : nat -> tdata; records : list nat; mst : mstate; queue : list exec; closed : bool; pc : point; tr : list event }.
Definition init : state := St 0 (fun _ => TD 0 0 false false) [] NoTimer [] false PIdle [].

Definition with_dat (st : state) (r : nat) (x : tdata) : state := St (now st) (fun q => if Nat.eqb q r then x else dat st q) (records st) (mst st) (queue st) (closed st) (pc st) (tr st).
Definition with_records (st : state) (l : list nat) : state := St (now st) (dat st) l (mst st) (queue st) (closed st) (pc st) (tr st).
Definition with_mst (st : state) (m : mstate) : state := St (now st) (dat st) (records st) m (queue st) (closed st) (pc st) (tr st).
Definition with_queue (st : state) (q : list exec) : state := St (now st) (dat st) (records st) (mst st) q (closed st) (pc st) (tr st).
Definition with_pc (st : state) (p : point) : state := St (now st) (dat st) (records st) (mst st) (queue st) (closed st) p (tr st).
Definition emit (st : state) (l : list event) : state := St (now st) (dat st) (records st) (mst st) (queue st) (closed st) (pc st) (tr st ++ l).

(** The heap [l]: an element of minimal deadline comes to the front, the k-th of them if there are several. *)
Definition least (f : nat -> nat) (l : list nat) (r : nat) : bool := forallb (fun q => Nat.leb (f r) (f q)) l.
Fixpoint drop_one (r : nat) (l : list nat) : list nat := match l with [] => [] | q :: l' => if Nat.eqb q r then l' else q :: drop_one r l' end.
Definition heap (k : nat) (f : nat -> nat) (l : list nat) : list nat :=
  match filter (least f l) l with [] => l | m :: ms => let r := nth k (m :: ms) m in r :: drop_one r l end.
Definition deadlines (st : state) (r : nat) : nat := deadline (dat st r).
Definition refresh (k : nat) (st : state) : state := with_records st (heap k (deadlines st) (records st)). (* Timer.cpp:172 *)

(** expired(), Timer.cpp:48. *)
Definition expired (st : state) (r : nat) : bool := Nat.leb (deadline (dat st r)) (now st).
(** executeAsync, Processor.cpp:299-301: nothing is queued once the processor is stopped. *)
Definition async (st : state) (e : exec) : state := if closed st then st else with_queue st (queue st ++ [e]).
(** checkRecordListEmpty, Timer.cpp:302-308. *)
Definition check_empty (st : state) : state := match records st with [] => with_mst st NoTimer | _ => st end.
(** removeShortestTimer, 279-286. *)
Definition remove_shortest (k : nat) (st : state) : state := check_empty (refresh k (with_records st (tl (records st)))).
(** updateShortestTimer, 288-292: the front's deadline is advanced by its own duration. *)
Definition update_shortest (k : nat) (st : state) : state :=
  match records st with
  | [] => emit st [EBad]
  | f :: _ => let x := dat st f in refresh k (with_dat st f (TD (deadline x + duration x) (duration x) (cyclic x) (running x)))
  end.
(** remove, 256-270. *)
Definition remove_timer (k r : nat) (st : state) : state :=
  match records st with
  | [] => st
  | f :: _ => if Nat.eqb f r then remove_shortest k st else if Amap.mem r (records st) then refresh k (check_empty (with_records st (drop_one r (records st)))) else st
  end.

(** runTimer and TimerMgr::start, 95-99, 202-210, 250-254.  The callback is replaced, also if it is being run. *)
Definition start (k r d : nat) (st : state) : state :=
  let st := match pc st with PCall q => if Nat.eqb q r then emit st [EDead r] else st | _ => st end in
  let x := dat st r in
  let st1 := with_dat st r (TD (now st + d) d (cyclic x) true) in
  let st2 := if running x then refresh k st1 else refresh k (with_records st1 (records st1 ++ [r])) in
  async (emit st2 [EStart r (now st) d]) QCheck.

(** TimerMgr::stop, 212-220, and interruptCurrentTimer, 294-300. *)
Definition stop (k r : nat) (st : state) : state :=
  let x := dat st r in
  if running x then
    let st1 := emit (with_dat st r (TD (deadline x) (duration x) (cyclic x) false)) [EStop r] in
    let st2 := remove_timer k r st1 in
    match records st1, records st2, mst st2 with
    | f :: _, _ :: _, Waiting => if Nat.eqb f r then async st2 QEmpty else st2
    | _, _, _ => st2
    end
  else st.

(** TimerMgr::restart, 239-248, TimerData::restart 44-47. *)
Definition restart (k r : nat) (st : state) : state :=
  let x := dat st r in
  let st1 := emit (with_dat st r (TD (now st + duration x) (duration x) (cyclic x) true)) [ERestart r (now st)] in
  let st2 := match records st1 with [] => emit st1 [EBad] | _ => refresh k st1 end in
  async st2 QCheck.

(** onShortestTimerExpired, 229-237. *)
Definition on_expired (k r : nat) (st : state) : state :=
  let x := dat st r in
  let st1 := if cyclic x then update_shortest k st else remove_shortest k (with_dat st r (TD (deadline x) (duration x) (cyclic x) false)) in
  with_pc (emit st1 [EFire r (now st)]) (PCall r).

Definition user_op (st : state) (o : op) (k : nat) : state :=
  match o with
  | Start r d => start k r d st
  | Stop r => stop k r st
  | Restart r => restart k r st
  | Return => match pc st with PUser => with_pc st PIdle | PUserIn r => with_pc st (PWoken r) | PCall _ => with_pc st PLoop | _ => st end
  end.
Definition in_user (p : point) : bool := match p with PUser | PUserIn _ | PCall _ => true | _ => false end.

(** One step of the processor between pieces of user code. *)
Definition step (st : state) (k : nat) : state :=
  match pc st with
  | PIdle => (* Processor.cpp:208 *)
      if closed st then st else
      match queue st with
      | [] => st
      | QUser :: q => with_pc (emit (with_queue st q) [EExec]) PUser
      | QEmpty :: q => with_queue st q
      | QCheck :: q => match mst st with Waiting => with_queue st q | _ => with_pc (with_queue st q) PLoop end (* Timer.cpp:175-177 *)
      end
  | PLoop => (* 179-183 *)
      match records st with
      | [] => with_pc st PIdle
      | r :: _ =>
          let st1 := emit st [EPick r (deadline (dat st r))] in
          if expired st r then with_pc st1 (PWoken r) else with_pc (with_mst st1 Waiting) (PWait r (deadline (dat st r)))
      end
  | PWait r w => (* Processor.cpp:233-247, ThreadSafeQueue::waitUntil *)
      if closed st then with_pc st (PWoken r) else
      match queue st with
      | [] => if Nat.leb w (now st) then with_pc st (PWoken r) else st
      | QUser :: q => with_pc (emit (with_queue st q) [EExec]) (PUserIn r)
      | QEmpty :: q => with_pc (with_queue st q) (PWoken r)
      | QCheck :: q => match mst st with Waiting => with_pc (with_queue st q) (PWoken r) | _ => st end (* the state is Waiting here *)
      end
  | PWoken r => (* Timer.cpp:183-198 *)
      let st1 := with_mst st HaveTimer in
      if closed st then with_pc st1 PIdle else
      let st2 := emit st1 [ELook r (now st)] in
      if expired st r then if running (dat st r) then on_expired k r st2 else with_pc st2 PLoop else with_pc st2 PLoop
  | PUser | PUserIn _ | PCall _ => st
  end.

Definition next (st : state) (l : label) : state :=
  match l with
  | Tick d => St (now st + d) (dat st) (records st) (mst st) (queue st) (closed st) (pc st) (tr st)
  | Post => async st QUser
  | StopProc => St (now st) (dat st) (records st) (mst st) [] true (pc st) (tr st)
  | Foreign r => let x := dat st r in if running x then emit (with_dat st r (TD (deadline x) (duration x) (cyclic x) false)) [EForeign r] else st
  | Cyclic r b => let x := dat st r in emit (with_dat st r (TD (deadline x) (duration x) b (running x))) [ECyclic r b]
  | Step k => step st k
  | U o k => if in_user (pc st) then user_op st o k else st
  end.

Definition history := list label.
Definition final (h : history) : state := fold_left next h init.
Definition trace (h : history) : list event := tr (final h).
