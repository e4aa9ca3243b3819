(** Model of ProcessorChain (include/maf/utils/ProcessorChain.h): the chain of an input type with functions that return values
    (the overloads for functions that return nothing after one with an input do not compile: 112-119 passes a void argument).
    A function is a number; what it does is given from outside: [beh f v] is what [f] returns for [v], or that it throws (None).
    Simplified: values are numbers, of one type (so that Output{} of 20-21 is 0); functions keep no state; a std::function that was moved from is
    empty, which the standard allows and the libraries do; a chain that was moved to another, or destroyed, is just not used any more. *)
From Verif Require Import ListUtil.

Definition behaviour := nat -> nat -> option nat.
(** What a chain holds: the function of the default constructor (132), or the lambda of then (78-87) with the captured std::function, which is
    empty if then was called on an empty chain. *)
Inductive cb := Id | Comp (inner : option cb) (f : nat).
(** One chain per place; None: cb_ is empty. *)
Definition st := list (option cb).

Inductive label := LNew | LCopy (c : nat) | LThen (c f : nat) | LCall (c v : nat) | LAsk (c : nat).
Inductive result := RVal (n : nat) | RThrew.
Inductive event :=
| ENew (c : nat)
| ECopy (c c' : nat)             (* c' is a copy of c *)
| EThen (c f c' : nat)           (* c' = c.then(f) *)
| EStage (f v : nat)             (* function f is called with v *)
| ERet (c v : nat) (r : result)  (* the call c(v) ends *)
| EAsk (c : nat) (valid connected : bool).

(** The call of a std::function; an empty one throws bad_function_call. *)
Fixpoint call_cb (beh : behaviour) (k : cb) (v : nat) : list event * option nat :=
  match k with
  | Id => ([], Some v)
  | Comp None f => ([], None)
  | Comp (Some k') f =>
      match call_cb beh k' v with
      | (e, None) => (e, None)
      | (e, Some x) => (e ++ [EStage f x], beh f x)
      end
  end.

Definition step (beh : behaviour) (s : st) (l : label) : st * list event :=
  match l with
  | LNew => (s ++ [Some Id], [ENew (length s)])                                           (* 132 *)
  | LCopy c => match nth_error s c with Some k => (s ++ [k], [ECopy c (length s)]) | None => (s, []) end
  | LThen c f =>                                                                          (* 75-88 *)
      match nth_error s c with Some k => (set_nth c None s ++ [Some (Comp k f)], [EThen c f (length s)]) | None => (s, []) end
  | LCall c v =>                                                                          (* 17-25 *)
      match nth_error s c with
      | Some (Some k) => let (e, r) := call_cb beh k v in (s, e ++ [ERet c v (match r with Some x => RVal x | None => RThrew end)])
      | Some None => (s, [ERet c v (RVal 0)])
      | None => (s, [])
      end
  | LAsk c =>                                                                             (* 27-31 *)
      match nth_error s c with
      | Some k => let e := match k with Some _ => false | None => true end in (s, [EAsk c (negb e) e])
      | None => (s, [])
      end
  end.
Fixpoint run (beh : behaviour) (s : st) (h : list label) : st * list event :=
  match h with
  | [] => (s, [])
  | l :: h' => let (s1, e1) := step beh s l in let (s2, e2) := run beh s1 h' in (s2, e1 ++ e2)
  end.
