(** Model of compound observables (include/maf/utils/Observable.h:430-517), made with join() etc. (541-585).

    The components and the compound itself are observables (ObsModel).  The compound connects a slot to each component; when that slot is
    called it sets the compound's sub-state (463-474, 494-500).  Any thread may use any component and the compound.
    Simplified: all components have one sub-state of the same type (a slot of the compound takes one State argument, so that a component
    with several sub-states does not compile); the variants with an executor (475-486, 502-511) and the destruction of the compound are not modelled; a thread may
    in addition interleave its calls on different observables freely, which allows more than nested calls do. *)
From Verif Require Import ListUtil.
From Verif Require SigModel.
From Verif Require Import ObsModel.
Import SigModel (mode, Multi, Single).

Section Comp.
Variable V : Type.
Variable eqb : V -> V -> bool.
Variable mc : nat -> mode. (* keeper of each component *)
Variable mo : mode.        (* keeper of the compound: M_StateBasedKeeper_ or S_StateBasedKeeper_ (524-538) *)

Inductive caction :=
| CComp (i : nat) (a : action V) (* component i is used *)
| CJoin (i : nat)                (* the constructor of the compound connects to component i (464-468) *)
| CDuty                          (* the slot sets the sub-state of the compound (467, 498) *)
| COuter (a : action V).         (* the compound is used *)

(** [link i]: the slot of the compound at component i; [todo]: the threads that are in such a slot and have not set the sub-state yet. *)
Record cstate := CSt { comps : list (state V); outer : state V; link : list (option nat); todo : list (nat * (nat * list V)) }.
Definition cinit (vs : list (list V)) (v0 : list V) : cstate := CSt (map (init V) vs) (init V v0) (map (fun _ => None) vs) [].

Definition comp (st : cstate) (i : nat) : state V := nth i (comps st) (init V []).
Definition linked (st : cstate) (i : nat) : option nat := nth i (link st) None.
Definition busy (st : cstate) (t : nat) : bool := existsb (fun p => Nat.eqb t (fst p)) (todo st).

(** What the slot of component [i] was just told. *)
Definition news (st st' : state V) : list (event V) := skipn (length (tr V st)) (tr V st').
Definition told_now (lk : option nat) (l : list (event V)) : option (list V) :=
  match lk with
  | Some s => last (map Some (flat_map (fun e => match e with VTold _ s' v => if Nat.eqb s s' then [v] else [] | _ => [] end) l)) None
  | None => None
  end.
Definition on_comp (st : cstate) (t i : nat) (a : action V) : cstate :=
  let c := comp st i in
  let c' := next V eqb (mc i) c (t, a) in
  CSt (set_nth i c' (comps st)) (outer st) (link st)
    (match told_now (linked st i) (news c c') with Some v => (t, (i, v)) :: todo st | None => todo st end).

(** set is private in the compound (436), and its operator= hides the inherited one (442); silentSet and mutable_ remain accessible. *)
Definition accessible (a : action V) : bool := match a with OSet _ _ | OSetAll _ _ => false | _ => true end.

Definition cnext (st : cstate) (l : nat * caction) : cstate :=
  let t := fst l in
  match find (fun p => Nat.eqb t (fst p)) (todo st) with
  | Some (_, (i, v)) =>
      match snd l with
      | CDuty =>
          if may V mo (outer st) t && negb (crashed V mo (outer st)) then
            CSt (comps st) (next V eqb mo (outer st) (t, OSet V (match v with x :: _ => [(i, x)] | [] => [] end))) (link st)
              (filter (fun p => negb (Nat.eqb t (fst p))) (todo st))
          else st
      | _ => st
      end
  | None =>
      match snd l with
      | CComp i a => if Nat.ltb i (length (comps st)) then on_comp st t i a else st
      | CJoin i =>
          if Nat.ltb i (length (comps st)) then
            match linked st i with
            | Some _ => st
            | None =>
                if may V (mc i) (comp st i) t && negb (crashed V (mc i) (comp st i)) then
                  let s := length (SigModel.kinds (keeper V (mc i) (comp st i))) in
                  let st1 := on_comp st t i (OConnect V FCallable) in
                  CSt (comps st1) (outer st1) (set_nth i (Some s) (link st1)) (todo st1)
                else st
            end
          else st
      | CDuty => st
      | COuter a => if accessible a then CSt (comps st) (next V eqb mo (outer st) (t, a)) (link st) (todo st) else st
      end
  end.

Definition chistory := list (nat * caction).
Definition cfinal (vs : list (list V)) (v0 : list V) (h : chistory) : cstate := fold_left cnext h (cinit vs v0).
End Comp.
