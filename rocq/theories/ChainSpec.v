(** Vocabulary for the properties of ProcessorChain. *)
From Verif Require Import ListUtil ChainModel.

Definition history := list label.
Definition trace (beh : behaviour) (h : history) : list event := snd (run beh [] h).

(** What a chain is, by how it was made: given away (then was called on it), made by then from one that had been given away (or a copy of one such),
    or the functions it was built of, first one first. *)
Inductive chain := Given | Dud | Fns (l : list nat).
Definition chains (tr : list event) : list chain :=
  fold_left (fun cs e => match e with
    | ENew _ => cs ++ [Fns []]
    | ECopy c _ => cs ++ [nth c cs Given]
    | EThen c f _ => set_nth c Given cs ++ [match nth c cs Given with Fns l => Fns (l ++ [f]) | _ => Dud end]
    | _ => cs
    end) tr [].
Definition chain_at (tr : list event) (c : nat) : option chain := nth_error (chains tr) c.

(** The functions [l] one after the other, each on what the one before returned, up to the first that throws. *)
Fixpoint pipe (beh : behaviour) (l : list nat) (v : nat) : list event * result :=
  match l with
  | [] => ([], RVal v)
  | f :: l' => match beh f v with
               | Some x => (EStage f v :: fst (pipe beh l' x), snd (pipe beh l' x))
               | None => ([EStage f v], RThrew)
               end
  end.
Definition stage_of (e : event) : list nat := match e with EStage f _ => [f] | _ => [] end.
(** No chain is used to make another after it was given away. *)
Definition not_reused (tr : list event) : Prop := forall l e l', tr = l ++ e :: l' ->
  match e with EThen c _ _ | ECopy c _ => chain_at l c <> Some Given | _ => True end.
