(** Vocabulary for the properties of ServiceStatusSignal, read off the calls made and the events seen. *)
From Verif Require Import ListUtil CsTypes WaitModel.

Definition history := list label.
Definition final (h : history) : sgn := fst (run sgn_new h).
Definition trace (h : history) : list event := snd (run sgn_new h).

(** The [t]-th call made. *)
Fixpoint calls_of (h : history) : list call :=
  match h with [] => [] | LCall c :: h' => c :: calls_of h' | _ :: h' => calls_of h' end.
Definition call_no (h : history) (t : nat) : option call := nth_error (calls_of h) t.

(** The status the signal was last told (Unavailable before the first time), and whether it was stopped. *)
Definition last_told (tr : list event) : availability :=
  fold_left (fun a e => match e with EChange _ b => b | _ => a end) tr Unavailable.
Definition was_stopped (tr : list event) : Prop := exists t, In (EStop t) tr.

(** Returning of call [t]. *)
Definition returns (t : nat) (e : event) : bool :=
  match e with
  | EReady t' | EInterrupted t' | ETimeOut t' | EStop t' | EChange t' _ | ECurrent t' _ => Nat.eqb t t'
  end.
Definition returned (h : history) (t : nat) : Prop := exists e, In e (trace h) /\ returns t e = true.
(** Call [t] was made and has not returned. *)
Definition pending (h : history) (t : nat) (c : call) : Prop := call_no h t = Some c /\ ~ returned h t.
