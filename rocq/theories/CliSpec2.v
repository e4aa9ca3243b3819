(** Specification for C114. *)
From Verif Require Import ListUtil.
From Verif Require Export CliSpec.

(** Requester [o] is deinitialised. *)
Definition is_free (o : nat) (e : event) : bool := match e with EFree o' => Nat.eqb o' o | _ => false end.
(** The server is told that the client is no longer interested in service [sid]. *)
Definition is_unreg (sid : nat) (e : event) : bool := match e with EUnregister sid' _ => Nat.eqb sid' sid | _ => false end.
(** No status message for [sid] is being handled. *)
Definition settled (l : list event) (sid : nat) : Prop := forall t av, In (ECall t (CIn (MStatus sid (Some av)))) l -> returned l t.
(** [t] is the only call of deinit. *)
Definition only_deinit (l : list event) (t : nat) : Prop := forall t', In (ECall t' CDeinit) l -> t' = t.
