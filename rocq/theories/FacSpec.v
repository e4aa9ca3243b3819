(** Vocabulary for the properties of csmgmt. *)
From Verif Require Import ListUtil FacModel.

Definition history := list label.
Definition final (h : history) : st := fst (run st_new h).
Definition trace (h : history) : list event := snd (run st_new h).

(** The calls made, in order. *)
Definition calls_made (h : history) : list call := flat_map (fun l => match l with LCall c => [c] | _ => [] end) h.
Definition call_no (h : history) (t : nat) : option call := nth_error (calls_made h) t.

(** No shutdown of the clients (of the servers) was called. *)
Definition never_shut (r : role) (h : history) : Prop := forall rs, In (LCall (CShut rs)) h -> ~ In r rs.

(** Requester [k] is the one that a call for a connection of type [ty] to [a] and service [sid] returned. *)
Definition got (h : history) (t : nat) (r : role) (ty : ctype) (a sid k : nat) : Prop :=
  call_no h t = Some (CGet r ty a sid) /\ In (EGot t (Some k)) (trace h).
(** Client [o] was made for [a] and initialised successfully. *)
Definition serves (tr : list event) (r : role) (ty : ctype) (a o : nat) : Prop := In (EInit r ty a o true) tr.
Definition inits_ok (r : role) (ty : ctype) (a : nat) (e : event) : bool :=
  match e with EInit r' ty' a' _ true => role_eqb r r' && ctype_eqb ty ty' && Nat.eqb a a' | _ => false end.
Definition starts (r : role) (o : nat) (e : event) : bool :=
  match e with EStart r' o' => role_eqb r r' && Nat.eqb o o' | _ => false end.
Definition downs (r : role) (k : nat) (e : event) : bool :=
  match e with EDown r' k' => role_eqb r r' && Nat.eqb k k' | _ => false end.
(** Requester [k] was made on client [o] after that had been deinitialised. *)
Definition made_too_late (tr : list event) (r : role) (k o sid : nat) : Prop :=
  exists l1 l2, tr = l1 ++ EMade r k o sid :: l2 /\ In (EDeinit r o) l1.
Definition returns (t : nat) (e : event) : bool := match e with EGot t' _ | EShut t' => Nat.eqb t t' | _ => false end.
