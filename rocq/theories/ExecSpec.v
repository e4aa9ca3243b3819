(** Vocabulary for the properties of slots with executors. *)
From Verif Require Import ListUtil ExecModel.

Definition history := list label.
Definition final (h : history) : st := fst (run st_new h).
Definition trace (h : history) : list event := snd (run st_new h).

Definition called (tr : list event) (t : nat) (c : call) (on_proc : bool) : Prop := In (ECall t c on_proc) tr.
Definition returned (tr : list event) (t : nat) : Prop := In (ERet t) tr.
(** Connection [c] has an executor of kind [k]. *)
Definition has_kind (tr : list event) (c : nat) (k : kind) : Prop := exists t, In (ECon t c k) tr.
(** The connections after [tr], in connection order. *)
Definition connected (tr : list event) : list nat :=
  fold_left (fun l e => match e with ECon _ c _ => l ++ [c] | ECut c => filter (fun x => negb (Nat.eqb x c)) l | _ => l end) tr [].
(** What emission [e] handed over: connection and argument. *)
Definition sent (e : nat) (tr : list event) : list (nat * nat) :=
  flat_map (fun x => match x with ESend e' c v _ => if Nat.eqb e e' then [(c, v)] else [] | _ => [] end) tr.
(** What was posted to the processor; what left its queue, in order. *)
Definition posted (tr : list event) : list (nat * nat * nat) :=
  flat_map (fun x => match x with ESend e c v Posted => [(e, c, v)] | _ => [] end) tr.
Definition taken (tr : list event) : list (nat * nat * nat) :=
  flat_map (fun x => match x with EProc e c v | EDrop e c v => [(e, c, v)] | _ => [] end) tr.
(** The slot of [c] is run for emission [e]. *)
Definition runs (e c : nat) (x : event) : bool :=
  match x with ESend e' c' _ Ran | EProc e' c' _ => Nat.eqb e e' && Nat.eqb c c' | _ => false end.
Definition emits (e : nat) (x : event) : bool := match x with EEmit e' _ => Nat.eqb e e' | _ => false end.
Definition rets (t : nat) (x : event) : bool := match x with ERet t' => Nat.eqb t t' | _ => false end.
Definition never_stopped (tr : list event) : Prop := ~ In EStop tr /\ ~ In EGone tr.
(** Code of the user runs on the processor. *)
Definition working (tr : list event) : bool :=
  fold_left (fun b e => match e with EBegin => true | EFinish => false | _ => b end) tr false.
(** The arguments that were notified to connection [c]; those its slot was run with. *)
Definition notified (c : nat) (tr : list event) : list nat :=
  flat_map (fun x => match x with ESend _ c' v _ => if Nat.eqb c c' then [v] else [] | _ => [] end) tr.
Definition handled (c : nat) (tr : list event) : list nat :=
  flat_map (fun x => match x with ESend _ c' v Ran | EProc _ c' v => if Nat.eqb c c' then [v] else [] | _ => [] end) tr.
