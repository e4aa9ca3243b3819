(** Vocabulary for the properties of AsyncProcessor. *)
From Verif Require Import ListUtil AsyncModel.

Definition history := list label.
Definition final (h : history) : st := fst (run st_new h).
Definition trace (h : history) : list event := snd (run st_new h).

Definition called (tr : list event) (t : nat) (c : call) : Prop := In (ECall t c) tr.
Definition returned (tr : list event) (t : nat) : Prop := exists r, In (ERet t r) tr.
(** The thread that object [o] has launched, or taken over from another object, and whose outcome it has not collected. *)
Definition holds (o : nat) (tr : list event) : option nat :=
  fold_left (fun f e => match e with
    | ELaunch _ o' w _ => fun i => if Nat.eqb i o' then Some w else f i
    | ECollect _ o' _ => fun i => if Nat.eqb i o' then None else f i
    | EMoved _ o1 o2 => fun i => if Nat.eqb i o2 then None else if Nat.eqb i o1 then f o2 else f i
    | _ => f
    end) tr (fun _ => None) o.
(** Is processor [p] stopped? *)
Definition stopped (p : nat) (tr : list event) : bool :=
  fold_left (fun b e => match e with EStop p' => Nat.eqb p p' || b | EReuse p' => negb (Nat.eqb p p') && b | _ => b end) tr false.
(** Thread [w] runs processor [p]. *)
Definition runs (tr : list event) (w p : nat) : Prop := exists t o, In (ELaunch t o w p) tr.
Definition is_init (w : nat) (x : event) : bool := match x with EInit w' => Nat.eqb w w' | _ => false end.
Definition is_deinit (w : nat) (x : event) : bool := match x with EDeinit w' => Nat.eqb w w' | _ => false end.
Definition is_launch (w : nat) (x : event) : bool := match x with ELaunch _ _ w' _ => Nat.eqb w w' | _ => false end.
Definition rets (t : nat) (x : event) : bool := match x with ERet t' _ => Nat.eqb t t' | _ => false end.
(** Thread [w] runs an execution. *)
Definition busy (w : nat) (tr : list event) : bool :=
  fold_left (fun b e => match e with ETake w' => Nat.eqb w w' || b | EDone w' _ => negb (Nat.eqb w w') && b | _ => b end) tr false.
(** A step of call [t], or of thread [w] that is not within an execution. *)
Definition own_step (t w : nat) (l : label) : Prop := l = LStep t false \/ l = LInit w \/ l = LEnd w \/ l = LSleep w \/ l = LWake w.
