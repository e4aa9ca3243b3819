(** Specification vocabulary for observers of the service status. *)
From Verif Require Import ReqModel ReqSpec ReqSerSpec.

(** Calls that report a status of the service to the requester. *)
Definition stat_call (c : call) : bool := match c with CServiceStatus _ _ _ => true | _ => false end.
(** ... or register an observer. *)
Definition obs_call (c : call) : bool := match c with CServiceStatus _ _ _ | CObserve _ => true | _ => false end.

(** Observer [x] never throws UnavailableException. *)
Definition never_throws (h : history) (x : nat) : Prop := forall t w, In (LRun t w) h -> o_gone w x = false.
(** [x] was registered by call [r] only, [r] has returned in [h1], it is never unregistered and never throws in [h]. *)
Definition observes (h1 h : history) (x r : nat) : Prop :=
  call_of h r = Some (CObserve (Some x)) /\ returned h1 r /\
  (forall r', call_of h r' = Some (CObserve (Some x)) -> r' = r) /\
  (forall u, call_of h u <> Some (CUnobserve x)) /\ never_throws h x.

(** Number of notifications call [t] sent to observer [x]. *)
Definition notified (h : history) (t x : nat) : nat :=
  cnt (fun e => match e with ENotify t' x' _ _ => Nat.eqb t' t && Nat.eqb x' x | _ => false end) (trace h).
(** Call [t] changed what serviceStatus() answers. *)
Definition changed (h : history) (t : nat) : nat :=
  cnt (fun e => match e with EStatus t' _ => Nat.eqb t' t | _ => false end) (trace h).

(** Statuses taken on in a piece of trace, in order. *)
Definition statuses (tr : list event) : list availability :=
  flat_map (fun e => match e with EStatus _ a => [a] | _ => [] end) tr.
(** New statuses reported to observer [x] by status calls in a piece of trace, in order. *)
Definition told (h : history) (tr : list event) (x : nat) : list availability :=
  flat_map (fun e => match e with
                     | ENotify t x' _ new => if Nat.eqb x' x && match call_of h t with Some c => stat_call c | None => false end
                                             then [new] else []
                     | _ => [] end) tr.
(** Each element differs from the one before. *)
Fixpoint alternates (a : availability) (l : list availability) : Prop :=
  match l with [] => True | b :: l' => b <> a /\ alternates b l' end.
