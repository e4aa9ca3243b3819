(** What std::map / std::set require of their comparison ("Compare"): a strict weak order. *)
From Coq Require Import List NArith Bool.

Definition incomparable {A} (lt : A -> A -> bool) (x y : A) : Prop := lt x y = false /\ lt y x = false.

Record strict_weak_order {A} (P : A -> Prop) (lt : A -> A -> bool) : Prop := {
  swo_irrefl : forall x, P x -> lt x x = false;
  swo_trans : forall x y z, P x -> P y -> P z -> lt x y = true -> lt y z = true -> lt x z = true;
  swo_incomp : forall x y z, P x -> P y -> P z ->
     incomparable lt x y -> incomparable lt y z -> incomparable lt x z }.
