(** Specification of synchronous requests: how they may end, read off the history and the trace. *)
From Verif Require Import ReqModel ReqSpec.

(** Call [t] was the arrival of an answer for operation [o] and request id [rid] carrying [p]. *)
Definition answer_by (h : history) (t : nat) (o : nat) (rid : N) (p : option payload) : Prop :=
  exists m, call_of h t = Some (CIncoming true m) /\ answer_code (m_code m) = true /\ m_op m = o /\ m_rid m = rid /\ m_pay m = p.

(** Calls that make the requester forget the request [rid] of operation [o] without an answer. *)
Definition forgets (o : nat) (rid : N) (c : call) : Prop :=
  c = CAbort rid o \/ c = CDeinit \/ exists old, c = CServiceStatus true old Unavailable.

(** The ways call [t] (synchronous, operation [o], [bounded] = it has a timeout) may end: payload and call status. *)
Inductive outcome (h : history) (t o : nat) (bounded : bool) : option payload -> acs -> Prop :=
| OAnswered u rid p : In (EAlloc t rid) (trace h) -> answer_by h u o rid p -> In (ECb u t p) (trace h) -> outcome h t o bounded p Success
| ORefused : (forall m, ~ In (ESend t m) (trace h)) -> outcome h t o bounded None ServiceUnavailable
| OSendFailed w a : In (LRun t w) h -> o_res w = a -> a <> Success -> outcome h t o bounded None a
| OTimeout w rid : bounded = true -> In (LRun t w) h -> o_expired w = true -> In (EAlloc t rid) (trace h) ->
    (In (ESend t (Msg Abort o rid None 0)) (trace h) \/ (exists u c, call_of h u = Some c /\ forgets o rid c) \/
     (exists u p, answer_by h u o rid p)) ->
    outcome h t o bounded None Timeout
| OBroken u c rid : In (EAlloc t rid) (trace h) -> call_of h u = Some c -> forgets o rid c -> outcome h t o bounded None ActionBroken.

(** Number of steps of call [t] in a schedule. *)
Definition steps_of (t : nat) (h : history) : nat :=
  cnt (fun l => match l with LRun u _ => Nat.eqb u t | LCall _ => false end) h.
