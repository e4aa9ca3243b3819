(** Vocabulary for the properties of SyncTimer. *)
From Verif Require Import ListUtil SyncModel.

Definition history := list label.
(** A timer made with SyncTimer(c), used by [N] threads. *)
Definition final (c : bool) (N : nat) (h : history) : tstate := fst (run (timer_new c N) h).
Definition trace (c : bool) (N : nat) (h : history) : list event := snd (run (timer_new c N) h).
(** The time after [h]. *)
Fixpoint clock (h : history) : nat := match h with [] => 0 | LTick d :: h' => d + clock h' | _ :: h' => clock h' end.

Definition starts (n : nat) (e : event) : bool := match e with EStart n' _ _ => Nat.eqb n n' | _ => false end.
Definition sets (n : nat) (e : event) : bool := match e with ESet n' _ => Nat.eqb n n' | _ => false end.
Definition fires (n : nat) (e : event) : bool := match e with EFire n' _ _ => Nat.eqb n n' | _ => false end.
Definition ends (n : nat) (e : event) : bool := match e with EEnd n' => Nat.eqb n n' | _ => false end.

(** A start took effect, and since then nobody called stop() and no start() returned. *)
Definition armed (tr : list event) : bool :=
  fold_left (fun b e => match e with ESet _ _ => true | EStop _ | EEnd _ => false | _ => b end) tr false.

(** setCyclic is not called. *)
Definition no_set_cyclic (h : history) : Prop := forall t b, ~ In (LCyclic t b) h.

(** start number [n], called by thread [t] with interval [ms], took effect at time [c] and is waiting for its first time-out. *)
Definition waits_since (tr : list event) (n t ms c : nat) : Prop :=
  In (EStart n t ms) tr /\ In (ESet n c) tr /\ cnt (fires n) tr = 0 /\ cnt (ends n) tr = 0.
(** start number [n] has taken effect and has not returned. *)
Definition active (tr : list event) (n : nat) : Prop := cnt (sets n) tr = 1 /\ cnt (ends n) tr = 0.
(** No callback is running. *)
Definition no_callback (s : tstate) : Prop := forall t, holds (nth t (stacks s) []) = false.
(** start() on thread [u] goes on, or its wait ends in time. *)
Definition by_thread (u : nat) (l : label) : Prop := l = LExpire u \/ exists w, l = LStep u w.
(** ... without help of the clock. *)
Definition only_steps (u : nat) (l : label) : Prop := exists w, l = LStep u w.
