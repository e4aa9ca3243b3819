(** Specification vocabulary for the service requester: read off the history (which calls were made) and the trace
    (what was observed), not off the model's tables. *)
From Verif Require Import ReqModel.

Definition history := list label.
Definition final (h : history) : st := fst (run st_new h).
Definition trace (h : history) : list event := snd (run st_new h).

(** The calls made in a history; call number [t] is the [t]-th of them. *)
Fixpoint calls (h : history) : list call :=
  match h with
  | [] => []
  | LCall c :: h' => c :: calls h'
  | LRun _ _ :: h' => calls h'
  end.
Definition call_of (h : history) (t : nat) : option call := nth_error (calls h) t.

(** Calls that put a request on the wire, and its operation. *)
Definition request_op (c : call) : option nat :=
  match c with
  | CSendAsync o _ _ | CSendSync o _ _ | CGetAsync o | CGetSync o _ => Some o
  | _ => None
  end.
(** Messages that answer a request: final ones and partial updates. *)
Definition final_code (c : opcode) : bool := match c with OpRequest | StatusGet => true | _ => false end.
Definition answer_code (c : opcode) : bool := final_code c || is_partial c.
(** Call [t] is the arrival of a final answer / an answer. *)
Definition is_final (h : history) (t : nat) : bool :=
  match call_of h t with Some (CIncoming true m) => final_code (m_code m) | _ => false end.

(** Number of times the callback given to call [owner] was run by the arrival of a final answer. *)
Definition final_runs (h : history) (owner : nat) : nat :=
  cnt (fun e => match e with ECb t o _ => Nat.eqb o owner && is_final h t | _ => false end) (trace h).
(** Number of times call [t] ran the callback of call [owner]. *)
Definition runs_by (h : history) (t owner : nat) : nat :=
  cnt (fun e => match e with ECb t' o _ => Nat.eqb t' t && Nat.eqb o owner | _ => false end) (trace h).
(** Fewer than 2^64-1 calls in total: ids did not wrap around. *)
Definition few (h : history) : Prop := (N.of_nat (length (calls h)) < 2 ^ 64 - 1)%N.

Definition returned (h : history) (t : nat) : Prop := exists v, In (ERet t v) (trace h).
