(** Specification for C113. *)
From Verif Require Import ListUtil.
From Verif Require Export SrvSpec.

(** Client [a] does not register in [l]. *)
Definition no_reg (a : nat) (l : list event) : Prop := forall t m, In (ECall t (CIn m)) l -> ~ is_register m a.
(** All registrations of [a] have been handled. *)
Definition settled (l : list event) (a : nat) : Prop := forall t m, In (ECall t (CIn m)) l -> is_register m a -> returned l t.
(** Provider [o] is deinitialised. *)
Definition is_free (o : nat) (e : event) : bool := match e with EFree o' => Nat.eqb o' o | _ => false end.
(** Why a client may be told that [o] has this availability: somebody asked for it. *)
Definition asked (l : list event) (o : nat) (av : availability) : Prop :=
  exists t c, In (ECall t c) l /\ ((c = CStart o /\ av = Available) \/ (c = CStop o /\ av = Unavailable) \/ (c = CDeinit /\ av = Unavailable)).
