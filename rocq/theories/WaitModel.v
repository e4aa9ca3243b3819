(** Model of ServiceStatusSignal (include/maf/messaging/client-server/ServiceStatusSignal.h:11-81): waiting for a status of a
    service.

    Any number of threads; every API call is an agent (number [t] = the [t]-th call made).  The critical sections of m_
    contain nothing that blocks except the wait on the condition variable, so each of them is one step.  A wait that has
    to block registers with the condition variable and releases m_ in one step (std::condition_variable::wait); it goes on
    when it was notified ([LStep]), for no reason at all ([LSpurious]), or, if timed, when its interval has elapsed ([LExpire]).
    Not modelled: destruction of the signal while calls are in progress. *)
From Verif Require Import ListUtil.
From Verif Require Import CsTypes.

Inductive call :=
| CWait (exp : availability) (timed : bool)  (* waitIfNot(expected) 25-34; waitIfNot(expected, interval) 36-55 *)
| CStop                                      (* stop() 57-61 *)
| CChange (new : availability)               (* onServiceStatusChanged 63-69 *)
| CCurrent.                                  (* currentStatus() 71-74 *)

Inductive pc :=
| PStart
| PBlocked (notified : bool)   (* inside wait / wait_for, m_ released *)
| PAwake (expired : bool)      (* woken up, has to lock m_ again *)
| PDone.

(** currentStatus_, stopped_ (79-80) and the calls made so far. *)
Record sgn := Sgn { cur : availability; stopped : bool; calls : list (call * pc) }.
Definition sgn_new : sgn := Sgn Unavailable false [].

Inductive label :=
| LCall (c : call)
| LStep (t : nat)
| LSpurious (t : nat)
| LExpire (t : nat).

Inductive event :=
| EReady (t : nat) | EInterrupted (t : nat) | ETimeOut (t : nat)   (* waitIfNot returns *)
| EStop (t : nat)                                                  (* stop() *)
| EChange (t : nat) (a : availability)                             (* the signal is told the status a *)
| ECurrent (t : nat) (a : availability).                           (* currentStatus() returns a *)

Definition avail_eqb (a b : availability) : bool :=
  match a, b with Unavailable, Unavailable | Available, Available | Unknown, Unknown => true | _, _ => false end.

(** notify_all (60, 68). *)
Definition wake (x : call * pc) : call * pc :=
  match x with (c, PBlocked _) => (c, PBlocked true) | _ => x end.

(** The predicate of the waits (28, 45). *)
Definition pred (s : sgn) (exp : availability) : bool := avail_eqb exp (cur s) || stopped s.
(** What a wait returns once the predicate holds (30-33, 47-51). *)
Definition verdict (s : sgn) (t : nat) : event := if stopped s then EInterrupted t else EReady t.

Definition at_pc (s : sgn) (t : nat) (c : call) (p : pc) : sgn := Sgn (cur s) (stopped s) (set_nth t (c, p) (calls s)).

(** The wait evaluates its predicate with m_ locked: wait(lock, pred) and wait_for(lock, interval, pred) both check the predicate first
    and after every wake-up; wait_for gives up if it is still false after the interval has elapsed (53). *)
Definition check (s : sgn) (t : nat) (exp : availability) (timed expired : bool) : sgn * list event :=
  if pred s exp then (at_pc s t (CWait exp timed) PDone, [verdict s t])
  else if expired then (at_pc s t (CWait exp timed) PDone, [ETimeOut t])
  else (at_pc s t (CWait exp timed) (PBlocked false), []).

Definition step (s : sgn) (l : label) : sgn * list event :=
  match l with
  | LCall c => (Sgn (cur s) (stopped s) (calls s ++ [(c, PStart)]), [])
  | LStep t =>
      match nth_error (calls s) t with
      | Some (CWait exp timed, PStart) => check s t exp timed false
      | Some (CWait exp timed, PAwake x) => check s t exp timed x
      | Some (CWait exp timed, PBlocked true) => (at_pc s t (CWait exp timed) (PAwake false), [])
      | Some (CStop, PStart) =>
          (Sgn (cur s) true (set_nth t (CStop, PDone) (map wake (calls s))), [EStop t])
      | Some (CChange a, PStart) =>
          (Sgn a (stopped s) (set_nth t (CChange a, PDone) (map wake (calls s))), [EChange t a])
      | Some (CCurrent, PStart) => (at_pc s t CCurrent PDone, [ECurrent t (cur s)])
      | _ => (s, [])
      end
  | LSpurious t =>
      match nth_error (calls s) t with
      | Some (CWait exp timed, PBlocked _) => (at_pc s t (CWait exp timed) (PAwake false), [])
      | _ => (s, [])
      end
  | LExpire t =>
      match nth_error (calls s) t with
      | Some (CWait exp true, PBlocked _) => (at_pc s t (CWait exp true) (PAwake true), [])
      | _ => (s, [])
      end
  end.

Fixpoint run (s : sgn) (h : list label) : sgn * list event :=
  match h with
  | [] => (s, [])
  | l :: h' => let (s1, e1) := step s l in let (s2, e2) := run s1 h' in (s2, e1 ++ e2)
  end.
