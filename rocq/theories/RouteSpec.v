(** Specification for routing: notions read off the trace of calls, results and effects only. *)
From Verif Require Import ListUtil Amap RouteModel.

(** The processor that is joined under an id after the events l. *)
Fixpoint back (id : nat) (l : list event) : option nat :=
  match l with
  | [] => None
  | EJoin _ i o :: l => if Nat.eqb i id then Some o else back id l
  | ELeave _ i _ :: l => if Nat.eqb i id then None else back id l
  | _ :: l => back id l
  end.
Definition joined (l : list event) (id : nat) : option nat := back id (rev l).

(** The queue of o is open: it was not closed since it was opened last. *)
Fixpoint open_back (o : nat) (l : list event) : bool :=
  match l with
  | [] => true
  | EClose x :: l => if Nat.eqb x o then false else open_back o l
  | EOpen x :: l => if Nat.eqb x o then true else open_back o l
  | _ :: l => open_back o l
  end.
Definition is_open (l : list event) (o : nat) : bool := open_back o (rev l).

(** A handler for messages of type ty is connected to o. *)
Fixpoint handler_back (o ty : nat) (l : list event) : bool :=
  match l with
  | [] => false
  | EConnect x t :: l => if Nat.eqb x o && Nat.eqb t ty then true else handler_back o ty l
  | EDisconnect x t :: l => if Nat.eqb x o && Nat.eqb t ty then false else handler_back o ty l
  | _ :: l => handler_back o ty l
  end.
Definition listens (l : list event) (o ty : nat) : bool := handler_back o ty (rev l).

(** o would take the message m after the events l. *)
Definition wants (l : list event) (o : nat) (m : message) : bool := is_open l o && listens l o (mtype m).

(** l1 is an initial part of l that contains ... *)
Definition called (l : list event) (a : nat) (c : call) : Prop := In (ECall a c) l.
Definition returned (l : list event) (a : nat) (r : res) : Prop := In (ERet a r) l.
Definition running (l : list event) (a : nat) : Prop := (exists c, called l a c) /\ forall r, ~ returned l a r.
(** At some moment both calls are being executed. *)
Definition overlap (l : list event) (a b : nat) : Prop := a <> b /\ exists l1 l2, l = l1 ++ l2 /\ running l1 a /\ running l1 b.

(** Processors are created one at a time for each id, not stopped by two threads at once and not reused. *)
Record careful (l : list event) : Prop := {
  no_reuse : forall a o, ~ called l a (KReuse o);
  one_create : forall a b id, id <> 0 -> called l a (KCreate id) -> called l b (KCreate id) -> ~ overlap l a b;
  one_stop : forall a b o, called l a (KStop o) -> called l b (KStop o) -> ~ overlap l a b
}.

(** Handlers that run inside sendToAll() do not use routing. *)
Definition calm (h : history) : Prop := forall a n, In (LRun a n) h -> n = 0.

(** os are the joined processors that would take m after the events l, each once. *)
Definition audience (l : list event) (m : message) (os : list nat) : Prop :=
  NoDup os /\ forall o, In o os <-> wants l o m = true /\ exists id, joined l id = Some o.
