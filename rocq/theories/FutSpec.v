(** Vocabulary for the properties of waitable connections. *)
From Verif Require Import ListUtil FutModel.

Definition history := list label.
Definition final (h : history) : st := fst (run st_new h).
Definition trace (h : history) : list event := snd (run st_new h).

Definition called (tr : list event) (t : nat) (c : call) : Prop := In (ECall t c) tr.
(** Call [t] is a wait on [w], of whatever kind. *)
Definition waits (tr : list event) (t w : nat) : Prop := called tr t (CWait w) \/ called tr t (CWaitFor w).
Definition returned (tr : list event) (t : nat) : Prop := exists r, In (ERet t r) tr.
Definition fired (tr : list event) (w v : nat) : Prop := exists e, In (EFire e w v) tr.
(** The user's slot for [w] was called. *)
Definition handled (tr : list event) (w : nat) : Prop := exists t v, In (ESlot t w v) tr.
Definition slot_for (w : nat) (e : event) : bool := match e with ESlot _ w' _ => Nat.eqb w w' | _ => false end.
Definition fires (w : nat) (e : event) : bool := match e with EFire _ w' _ => Nat.eqb w w' | _ => false end.
Definition rets (t : nat) (e : event) : bool := match e with ERet t' _ => Nat.eqb t t' | _ => false end.

(** What call [c] may return, given what happened before. *)
Definition result_ok (l : list event) (t : nat) (c : call) (r : result) : Prop :=
  match c, r with
  | CConnect, RFut (Some w) => In (EJoin t w) l /\ (forall v, ~ fired l w v) /\ ~ In (EBroke w) l /\ ~ In (ECancel w) l
  | CConnect, RFut None => exists w, In (EJoin t w) l /\ ((exists v, fired l w v) \/ In (EBroke w) l)
  | CEmit v, RUnit => In (EEnd t) l
  | CClear, RUnit => True
  | CCancel w, RUnit => In (ECancel w) l \/ (exists v, fired l w v) \/ In (EBroke w) l
  | (CWait w | CWaitFor w), RBool true => exists v, In (ESlot t w v) l
  | CWait w, RBool false => In (EBroke w) l \/ handled l w
  | CWaitFor w, RBool false => In (EBroke w) l \/ handled l w \/ forall v, ~ fired l w v
  | _, _ => False
  end.
