(** Specification for routing, second part: what the single calls do, read off the trace only. *)
From Verif Require Import ListUtil Amap RouteModel RouteSpec.

(** After the events l, the call a of sendToAll(m), made by an execution of processor self, has posted m: at one moment (after
    the events l0) once to each joined processor that takes it, except self, and nothing before or after.  os: those processors. *)
Definition served (l : list event) (a : nat) (self : option nat) (m : message) (l0 l3 : list event) (os : list nat) : Prop :=
  l = l0 ++ map (fun o => EPost a o m) os ++ l3 /\ In (ECall a (KSendAll self m)) l0 /\ NoDup os /\
  (forall o, In o os <-> wants l0 o m = true /\ (exists id, joined l0 id = Some o) /\ self <> Some o) /\
  (forall x m', ~ In (EPost a x m') l0) /\ (forall x m', ~ In (EPost a x m') l3).

(** At some moment after the call a of stop() on o began, o was stopped. *)
Definition was_closed (l : list event) (a o : nat) : Prop := exists l0 l3, l = l0 ++ l3 /\ In (ECall a (KStop o)) l0 /\ is_open l0 o = false.

(** The calls that connect, disconnect, reopen and close a processor. *)
Definition cause (e : event) (c : call) : Prop :=
  match e with
  | EConnect o ty => c = KConnect o ty
  | EDisconnect o ty => c = KDisconnect o ty
  | EOpen o => c = KReuse o
  | EClose o => c = KStop o
  | _ => False
  end.

(** The messages a call can post to somebody. *)
Definition may_post (c : call) (m : message) : Prop :=
  match c with
  | KPost _ m' | KPostAll m' | KSendAll _ m' => m = m'
  | KCreate _ => exists o, m = MStatus true o
  | KStop o => m = MStatus false o
  | _ => False
  end.
