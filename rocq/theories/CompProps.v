(** C54: a compound observable mirrors its components. *)
From Verif Require Import ListUtil.
From Verif Require SigModel SigSpec.
From Verif Require Import ObsModel ObsSpec ObsProofs5 CompModel CompProofs.
Import SigModel (mode, Multi, Single).

Section Props.
Variable V : Type.
Variable eqb : V -> V -> bool.
Variable mc : nat -> mode.
Variable mo : mode.
Variable vs : list (list V). (* the values of the components when the compound is made *)
Variable v0 : list V.        (* the initial value of the compound *)
Hypothesis eqb_eq : forall x y, eqb x y = true -> x = y.
Hypothesis size : length v0 = length vs.
Notation final := (cfinal V eqb mc mo vs v0).

(** The compound is an observable, so that C53 and C70 hold for it, and so are the components. *)
Theorem C54_is_an_observable h : (forall t i c, ~ In (t, CComp V i (OPass V (SigModel.AReconnect c))) h) -> (forall t l, ~ In (t, COuter V (OSilentSet V l)) h) -> (forall t l, ~ In (t, COuter V (OModify V l)) h) ->
  (exists ho, outer V (final h) = ObsModel.final V eqb mo v0 ho) /\ forall i, i < length vs -> exists hc, comp V (final h) i = ObsModel.final V eqb (mc i) (nth i vs []) hc.
Proof.
  intros A B C. assert (F : forall t a, In (t, a) h -> fine V a).
  { intros t a X. destruct a as [i a|i| |a]; cbn; auto; destruct a as [f| | |l|v|l|l|v| | | |b]; auto; [destruct b; auto; exact (A _ _ _ X)|exact (B _ _ X)|exact (C _ _ X)]. }
  pose proof (P_final V eqb mc mo vs v0 eqb_eq size h F) as H. split; [apply (p_outer _ _ _ _ _ _ _ H)|]. intros i L. destruct (p_comp _ _ _ _ _ _ _ H i L) as (hc & E & _). eauto.
Qed.

(** When nobody is in a slot of the compound and nobody uses component [i], the i-th part of the compound is the value of that component:
    whatever threads did to the components and the compound, and in whatever order; the changes of the component must have been announced,
    the slot of the compound must not have been removed from it, and nobody may have changed the compound behind its back. *)
Theorem C54_mirrors h i s x r : (forall t i c, ~ In (t, CComp V i (OPass V (SigModel.AReconnect c))) h) -> (forall t l, ~ In (t, COuter V (OSilentSet V l)) h) -> (forall t l, ~ In (t, COuter V (OModify V l)) h) ->
  i < length vs -> todo V (final h) = [] -> quiescent (comp V (final h) i) -> crashed V (mc i) (comp V (final h) i) = false -> settled (tr V (comp V (final h) i)) ->
  linked V (final h) i = Some s -> In s (observers (tr V (comp V (final h) i))) ->
  val V (comp V (final h) i) = x :: r -> nth_error (val V (outer V (final h))) i = Some x.
Proof.
  intros A B C L T Q CR S LK O VA. assert (F : forall t a, In (t, a) h -> fine V a).
  { intros t a X. destruct a as [i0 a|i0| |a]; cbn; auto; destruct a as [f| | |l|v|l|l|v| | | |b]; auto; [destruct b; auto; exact (A _ _ _ X)|exact (B _ _ X)|exact (C _ _ X)]. }
  pose proof (P_final V eqb mc mo vs v0 eqb_eq size h F) as H. destruct (p_comp _ _ _ _ _ _ _ H i L) as (hc & E & KH). destruct (p_mine _ _ _ _ _ _ _ H i s LK) as [_ CA].
  assert (LT : last_told s (tr V (comp V (final h) i)) = Some (x :: r)).
  { rewrite <- VA. rewrite E in Q, CR, S, O, CA |- *. apply (up_to_date V eqb (mc i) (nth i vs []) hc s KH CA S Q CR O). }
  destruct (p_mirror _ _ _ _ _ _ _ H i s x r LK LT) as [(t & v & X)|X]; [|exact X]. rewrite T in X. destruct X.
Qed.
End Props.
Print Assumptions C54_is_an_observable.
Print Assumptions C54_mirrors.

Notation cobs := (cfinal nat Nat.eqb (fun _ => Multi) Multi).
Ltac conjs := unfold quiescent; repeat match goal with |- _ /\ _ => split end.
Ltac none_of := let X := fresh in intros; intros X; repeat (destruct X as [X|X]; [discriminate X|]); exact X.
Definition compound : list (nat * caction nat) :=
  [(0, CJoin _ 0); (0, CComp _ 0 (OTell _)); (0, CDuty _); (0, CComp _ 0 (OTellDone _)); (0, CJoin _ 1); (0, CComp _ 1 (OTell _)); (0, CDuty _); (0, CComp _ 1 (OTellDone _))].

(** Two components, one is set by another thread. *)
Example C54_applies : let h := compound ++ [(1, CComp _ 1 (OSet _ [(0, 9)])); (1, CComp _ 1 (OStep _)); (1, CDuty _); (1, CComp _ 1 (OReturn _)); (1, CComp _ 1 (OStep _))] in
  val nat (outer nat (cobs [[3]; [4]] [0; 0] h)) = [3; 9] /\ todo nat (cobs [[3]; [4]] [0; 0] h) = [] /\ quiescent (comp nat (cobs [[3]; [4]] [0; 0] h) 1) /\
  crashed nat Multi (comp nat (cobs [[3]; [4]] [0; 0] h) 1) = false /\ linked nat (cobs [[3]; [4]] [0; 0] h) 1 = Some 0 /\ observers (tr nat (comp nat (cobs [[3]; [4]] [0; 0] h) 1)) = [0] /\
  val nat (comp nat (cobs [[3]; [4]] [0; 0] h) 1) = [9] /\ (forall t i c, ~ In (t, CComp nat i (OPass nat (SigModel.AReconnect c))) h) /\ (forall t l, ~ In (t, COuter nat (OSilentSet nat l)) h).
Proof. conjs; try (vm_compute; reflexivity); none_of. Qed.

(** mutable_() and silentSet() are accessible in a compound: it then no longer mirrors its components, and its observers are told so. *)
Theorem C71_changed_directly_refuted : exists h, (forall t l, ~ In (t, COuter nat (OSilentSet nat l)) h) /\
  let st := cobs [[3]] [0] h in todo nat st = [] /\ quiescent (comp nat st 0) /\ quiescent (outer nat st) /\ crashed nat Multi (comp nat st 0) = false /\ linked nat st 0 = Some 0 /\
  observers (tr nat (comp nat st 0)) = [0] /\ val nat (comp nat st 0) = [3] /\ val nat (outer nat st) = [5] /\ last_told 0 (tr nat (outer nat st)) = Some [5].
Proof.
  exists [(0, CJoin _ 0); (0, CComp _ 0 (OTell _)); (0, CDuty _); (0, CComp _ 0 (OTellDone _)); (0, COuter _ (OConnect _ FCallable)); (0, COuter _ (OTell _)); (0, COuter _ (OTellDone _));
    (0, COuter _ (ORef _ [0])); (0, COuter _ (OModify _ [5])); (0, COuter _ (ORefEnd _)); (0, COuter _ (OStep _)); (0, COuter _ (OReturn _)); (0, COuter _ (OStep _))].
  split; [none_of|]. cbv zeta. conjs; vm_compute; reflexivity.
Qed.
Print Assumptions C71_changed_directly_refuted.
(** Nor does it if a component is changed without announcement. *)
Theorem C71_silent_component_refuted : exists h, (forall t a, ~ In (t, COuter nat a) h) /\
  let st := cobs [[3]] [0] h in todo nat st = [] /\ quiescent (comp nat st 0) /\ quiescent (outer nat st) /\ crashed nat Multi (comp nat st 0) = false /\ linked nat st 0 = Some 0 /\
  observers (tr nat (comp nat st 0)) = [0] /\ val nat (comp nat st 0) = [7] /\ val nat (outer nat st) = [3].
Proof.
  exists [(0, CJoin _ 0); (0, CComp _ 0 (OTell _)); (0, CDuty _); (0, CComp _ 0 (OTellDone _)); (1, CComp _ 0 (OSilentSet _ [(0, 7)]))].
  split; [none_of|]. cbv zeta. conjs; vm_compute; reflexivity.
Qed.
Print Assumptions C71_silent_component_refuted.
