(** Model of AsyncProcessor (include/maf/messaging/ProcessorEx.h:40-105) on Processor::run, stop and reuse
    (src/common/maf/messaging/Processor.cpp:199-211, 249-256) and the blocking wait of the queue (include/maf/threading/ThreadSafeQueue.h:91-128).

    Any number of processors, of AsyncProcessor objects on them, of threads launched by launch() (workers; one per std::async), and of calls, made
    on other threads or by an execution that a worker runs.  Calls on one object do not overlap and none follows its destruction: the
    class leaves that to the user.  A step is what is done between two points where another thread may interfere.
    Simplified: what the queue of a processor holds is up to the schedule (an open processor has an execution to run whenever the schedule says so;
    ProcModel has the queue); stop() is one step; threadInit and threadDeinit do not throw; launchProcessor is used by launch only. *)
From Verif Require Import ListUtil.

(** A launched thread: not started; looks at the queue; saw an open empty queue and is going to sleep (97-98; the test and the sleep are not one step
    for close(), which does not take the mutex); asleep; runs an execution; ended, by an exception? *)
Inductive wpc := WStart | WLook | WPre | WSleep | WBusy | WEnd (threw : bool).
Record worker := Wk { w_proc : nat; w_pc : wpc }.
(** [o_proc]: instance_ (50).  [o_sig]: stopSignal_ (104) is valid and belongs to this worker. *)
Record obj := Ob { o_proc : option nat; o_sig : option nat; o_dead : bool }.

Inductive call :=
| CLaunch (o : nat)              (* 59-65 *)
| CWait (o : nat) (timed : bool)     (* 79-89; timed: duration > 0 *)
| CStopWait (o : nat) (timed : bool) (* 67-72 *)
| CDestroy (o : nat)             (* 48 *)
| CRunning (o : nat)             (* 74 *)
| CAssign (o o2 : nat)           (* o = std::move(o2), 47 *)
| CStop (p : nat)                (* Processor::stop *)
| CReuse (p : nat).              (* Processor::reuse *)
Inductive pc :=
| PStart
| PBlock (w : nat)   (* in wait_for or get of the future of w (82-86) *)
| PJoin (w : nat)    (* in the destructor of the future of w, which the assignment has replaced *)
| PDone.
(** [a_on]: the worker whose execution makes the call. *)
Record agent := Ag { a_call : call; a_on : option nat; a_pc : pc }.
(** [closed]: per processor. *)
Record st := St { closed : list bool; workers : list worker; objs : list obj; ags : list agent }.
Definition st_new : st := St [] [] [] [].

Inductive label :=
| LProc                              (* Processor::create *)
| LObj (p : nat)                     (* AsyncProcessor(inst) *)
| LCall (c : call) (on : option nat)
| LStep (t : nat) (expired : bool)   (* call t goes on; expired: the duration is over *)
| LInit (w : nat) | LTake (w : nat) | LEmpty (w : nat) | LEnd (w : nat) | LSleep (w : nat)
| LWake (w : nat)                    (* by a push, or spuriously *)
| LDone (w : nat) (threw : bool).

Inductive result := RUnit | RBool (b : bool) | RThrew.
Inductive event :=
| ECall (t : nat) (c : call)
| ERet (t : nat) (r : result)
| EObj (o p : nat)
| ELaunch (t o w p : nat)     (* call t launched thread w, for object o, to run processor p *)
| ECollect (t o w : nat)      (* call t got the outcome of thread w *)
| EMoved (t o o2 : nat)
| EStop (p : nat) | EReuse (p : nat)
| EInit (w : nat)             (* threadInit, on thread w *)
| ETake (w : nat)             (* w begins an execution *)
| EDone (w : nat) (threw : bool)
| EDeinit (w : nat)           (* threadDeinit; w ends *)
| ETerminate.                 (* std::terminate: an exception leaves the destructor *)

Definition is_done (a : agent) : bool := match a_pc a with PDone => true | _ => false end.
Definition uses (c : call) (o : nat) : bool :=
  match c with
  | CLaunch o' | CWait o' _ | CStopWait o' _ | CDestroy o' | CRunning o' => Nat.eqb o o'
  | CAssign o1 o2 => Nat.eqb o o1 || Nat.eqb o o2
  | _ => false
  end.
Definition in_use (s : st) (o : nat) : bool := existsb (fun a => uses (a_call a) o && negb (is_done a)) (ags s).
Definition usable (s : st) (o : nat) : bool :=
  match nth_error (objs s) o with Some x => negb (o_dead x) && negb (in_use s o) | None => false end.
Definition calls_on (s : st) (w : nat) : bool :=
  existsb (fun a => match a_on a with Some w' => Nat.eqb w w' | None => false end && negb (is_done a)) (ags s).
Definition may_call (s : st) (c : call) (on : option nat) : bool :=
  match on with
  | None => true
  | Some w => match nth_error (workers s) w with Some (Wk _ WBusy) => negb (calls_on s w) | _ => false end
  end &&
  match c with
  | CLaunch o | CWait o _ | CStopWait o _ | CDestroy o | CRunning o => usable s o
  | CAssign o o2 => usable s o && usable s o2 && negb (Nat.eqb o o2)
  | CStop p | CReuse p => Nat.ltb p (length (closed s))
  end.

Definition upd (s : st) (t : nat) (a : agent) (p : pc) : st := St (closed s) (workers s) (objs s) (set_nth t (Ag (a_call a) (a_on a) p) (ags s)).
Definition set_obj (s : st) (o : nat) (x : obj) : st := St (closed s) (workers s) (set_nth o x (objs s)) (ags s).
Definition set_worker (s : st) (w : nat) (p : nat) (q : wpc) : st := St (closed s) (set_nth w (Wk p q) (workers s)) (objs s) (ags s).
Definition finish (s : st) (t : nat) (a : agent) (r : result) : st * list event := (upd s t a PDone, [ERet t r]).

(** stop(): close() wakes those that sleep (ThreadSafeQueue.h:132-138). *)
Definition woken (p : nat) (k : worker) : worker :=
  match k with Wk p' WSleep => if Nat.eqb p p' then Wk p' WLook else k | _ => k end.
Definition stop (s : st) (p : nat) : st * list event :=
  match nth_error (closed s) p with
  | Some false => (St (set_nth p true (closed s)) (map (woken p) (workers s)) (objs s) (ags s), [EStop p])
  | _ => (s, [])
  end.

(** wait, once stopSignal_ is known to be valid. *)
Definition wait_step (s : st) (t : nat) (a : agent) (o w : nat) (timed expired dies : bool) : st * list event :=
  match nth_error (workers s) w, nth_error (objs s) o with
  | Some k, Some x =>
      match w_pc k with
      | WEnd threw =>
          if threw && dies then (s, [ETerminate])   (* the program is over: this call stays where it is *)
          else (upd (set_obj s o (Ob (o_proc x) None dies)) t a PDone, [ECollect t o w; ERet t (if threw then RThrew else RUnit)])
      | _ => if timed && expired then finish s t a RUnit else (s, [])
      end
  | _, _ => (s, [])
  end.
Definition dead_now (x : obj) (dies : bool) : obj := Ob (o_proc x) (o_sig x) dies.

(** stopAndWait *)
Definition stop_wait (s : st) (t : nat) (a : agent) (o : nat) (x : obj) (dies : bool) : st * list event :=
  match o_sig x, o_proc x with
  | Some w, Some p => let (s1, e1) := stop s p in (upd s1 t a (PBlock w), e1)
  | _, _ => finish (set_obj s o (dead_now x dies)) t a RUnit
  end.

Definition step (s : st) (l : label) : st * list event :=
  match l with
  | LProc => (St (closed s ++ [false]) (workers s) (objs s) (ags s), [])
  | LObj p =>
      if Nat.ltb p (length (closed s))
      then (St (closed s) (workers s) (objs s ++ [Ob (Some p) None false]) (ags s), [EObj (length (objs s)) p]) else (s, [])
  | LCall c on =>
      if may_call s c on then (St (closed s) (workers s) (objs s) (ags s ++ [Ag c on PStart]), [ECall (length (ags s)) c]) else (s, [])
  | LStep t expired =>
      match nth_error (ags s) t with
      | None => (s, [])
      | Some a =>
          match a_pc a, a_call a with
          | PStart, CStop p => let (s1, e1) := stop s p in (upd s1 t a PDone, e1 ++ [ERet t RUnit])
          | PStart, CReuse p => (upd (St (set_nth p false (closed s)) (workers s) (objs s) (ags s)) t a PDone, [EReuse p; ERet t RUnit])
          | PStart, CLaunch o =>
              match nth_error (objs s) o with
              | Some x =>
                  match o_proc x, o_sig x with
                  | Some p, None =>
                      let w := length (workers s) in
                      (upd (St (closed s) (workers s ++ [Wk p WStart]) (set_nth o (Ob (Some p) (Some w) (o_dead x)) (objs s)) (ags s)) t a PDone,
                       [ELaunch t o w p; ERet t RUnit])
                  | _, _ => finish s t a RUnit
                  end
              | None => (s, [])
              end
          | PStart, CRunning o =>
              match nth_error (objs s) o with
              | Some x => finish s t a (RBool (match o_sig x with Some _ => true | None => false end))
              | None => (s, [])
              end
          | PStart, CWait o _ =>
              match nth_error (objs s) o with
              | Some x => match o_sig x with Some w => (upd s t a (PBlock w), []) | None => finish s t a RUnit end
              | None => (s, [])
              end
          | PStart, CStopWait o _ => match nth_error (objs s) o with Some x => stop_wait s t a o x false | None => (s, []) end
          | PStart, CDestroy o => match nth_error (objs s) o with Some x => stop_wait s t a o x true | None => (s, []) end
          | PStart, CAssign o o2 =>
              match nth_error (objs s) o, nth_error (objs s) o2 with
              | Some x, Some y =>
                  let s1 := set_obj (set_obj s o (Ob (o_proc y) (o_sig y) false)) o2 (Ob None None false) in
                  match o_sig x with
                  | Some w => (upd s1 t a (PJoin w), [EMoved t o o2])
                  | None => (upd s1 t a PDone, [EMoved t o o2; ERet t RUnit])
                  end
              | _, _ => (s, [])
              end
          | PBlock w, CWait o timed => wait_step s t a o w timed expired false
          | PBlock w, CStopWait o timed => wait_step s t a o w timed expired false
          | PBlock w, CDestroy o => wait_step s t a o w false expired true
          | PJoin w, CAssign o o2 =>
              match nth_error (workers s) w with
              | Some (Wk _ (WEnd _)) => finish s t a RUnit
              | _ => (s, [])
              end
          | _, _ => (s, [])
          end
      end
  | LInit w => match nth_error (workers s) w with Some (Wk p WStart) => (set_worker s w p WLook, [EInit w]) | _ => (s, []) end
  | LTake w =>
      match nth_error (workers s) w with
      | Some (Wk p WLook) => match nth_error (closed s) p with Some false => (set_worker s w p WBusy, [ETake w]) | _ => (s, []) end
      | _ => (s, [])
      end
  | LEmpty w =>
      match nth_error (workers s) w with
      | Some (Wk p WLook) => match nth_error (closed s) p with Some false => (set_worker s w p WPre, []) | _ => (s, []) end
      | _ => (s, [])
      end
  | LEnd w =>
      match nth_error (workers s) w with
      | Some (Wk p WLook) => match nth_error (closed s) p with Some true => (set_worker s w p (WEnd false), [EDeinit w]) | _ => (s, []) end
      | _ => (s, [])
      end
  | LSleep w => match nth_error (workers s) w with Some (Wk p WPre) => (set_worker s w p WSleep, []) | _ => (s, []) end
  | LWake w => match nth_error (workers s) w with Some (Wk p WSleep) => (set_worker s w p WLook, []) | _ => (s, []) end
  | LDone w threw =>
      match nth_error (workers s) w with
      | Some (Wk p WBusy) =>
          if calls_on s w then (s, [])
          else if threw then (set_worker s w p (WEnd true), [EDone w true; EDeinit w]) else (set_worker s w p WLook, [EDone w false])
      | _ => (s, [])
      end
  end.

Fixpoint run (s : st) (h : list label) : st * list event :=
  match h with
  | [] => (s, [])
  | l :: h' => let (s1, e1) := step s l in let (s2, e2) := run s1 h' in (s2, e1 ++ e2)
  end.
