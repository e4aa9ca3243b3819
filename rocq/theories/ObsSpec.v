(** Vocabulary for the observable properties C53, C54, C69. *)
From Verif Require Import ListUtil ObsModel.
From Verif Require SigModel SigSpec.

Section Spec.
Context {V : Type}.
(** The value of the observable, told from its changes. *)
Definition value_step (v : list V) (e : event V) : list V := match e with VChange _ _ w _ => w | _ => v end.
Definition value (v0 : list V) (tr : list (event V)) : list V := fold_left value_step tr v0.
(** What the signal inside the observable did. *)
Definition sigpart (tr : list (event V)) : list SigModel.event := flat_map (fun e => match e with VSig _ e => [e] | _ => [] end) tr.
(** The observers connected, in order. *)
Definition observers (tr : list (event V)) : list nat := SigSpec.slots (SigSpec.live (sigpart tr)).
(** What observer [s] was told last. *)
Definition told_step (s : nat) (o : option (list V)) (e : event V) : option (list V) :=
  match e with VTold _ s' v => if Nat.eqb s s' then Some v else o | _ => o end.
Definition last_told (s : nat) (tr : list (event V)) : option (list V) := fold_left (told_step s) tr None.
(** No change in [tr] is made behind the observers' back. *)
Definition is_change (e : event V) : Prop := match e with VChange _ _ _ _ => True | _ => False end.
Definition all_announced (tr : list (event V)) : Prop := forall t v, ~ In (VChange V t v false) tr.
(** The last change, if there was one, was announced. *)
Definition settled (tr : list (event V)) : Prop := forall a t v x b, tr = a ++ VChange V t v x :: b -> (forall e, In e b -> ~ is_change e) -> x = true.
(** Whenever observer [s] was connected, it was passed as a callable object. *)
Definition callable (s : nat) (tr : list (event V)) : Prop := forall t f, In (VConnect V t s f) tr -> f = FCallable.
End Spec.

(** Nobody is using the observable. *)
Definition quiescent {V} (st : state V) : Prop := hold V st = None /\ pend V st = [].
