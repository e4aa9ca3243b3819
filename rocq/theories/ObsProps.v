(** Properties C53, C69 and C70: observables.
    [trace v0 h] is what happens in history [h] of an observable (with keeper [m], sub-states of type V compared with [eqb]) whose first value is
    [v0]; [value v0] reads the current value off a trace; [observers] are the connected slots (see ObsSpec). *)
From Verif Require Import ListUtil.
From Verif Require Import SigProofs SigProofs2 SigProofs3 SigProofs4 SigProofs5 SigProofs6 SigProofs7 SigProofs8 SigProofs9 ObsProofs.
From Verif Require SigModel SigSpec ReqIds.
From Verif Require Import ObsModel ObsSpec ObsProofs2 ObsProofs3 ObsProofs4 ObsProofs5.
Import SigModel (mode, Multi, Single).

Section Props.
Variable V : Type.
Variable eqb : V -> V -> bool.
Variable m : mode.
Variable v0 : list V.
Notation final := (ObsModel.final V eqb m v0).
Notation trace := (ObsModel.trace V eqb m v0).
Notation event := (ObsModel.event V).

Lemma final_snoc h l : final (h ++ [l]) = next V eqb m (final h) l.
Proof. unfold ObsModel.final. rewrite fold_left_app. reflexivity. Qed.

(** An observable that nobody uses can be used by anyone. *)
Lemma quiescent_may h t : quiescent (final h) -> may V m (final h) t = true.
Proof. intros [HO PE]. unfold may, runs, waiting, gets_lock, frames. rewrite HO, PE. reflexivity. Qed.

Lemma differs_spec cur l : differs V eqb cur l = false <-> forall i w u, In (i, w) l -> nth_error cur i = Some u -> eqb u w = true.
Proof.
  unfold differs. rewrite <- not_true_iff_false, existsb_exists. split.
  - intros N i w u X E. destruct (eqb u w) eqn:Q; [reflexivity|]. exfalso. apply N. exists (i, w). split; [exact X|]. cbn. rewrite E, Q. reflexivity.
  - intros A ((i & w) & X & Y). cbn in Y. destruct (nth_error cur i) as [u|] eqn:E; [|discriminate]. rewrite (A i w u X E) in Y. discriminate.
Qed.

(** The trace tells the value, and the signal inside behaves as C49-C52 say. *)
Theorem C53_value_and_signal h : value v0 (trace h) = val V (final h) /\ sigpart (trace h) = SigModel.trace m (sig V (final h)).
Proof. pose proof (I_final V eqb m v0 h) as H. split; apply H. Qed.

(** Setting sub-states to what they are does nothing at all ... *)
Theorem C53_set_the_same h t l : (forall i w u, In (i, w) l -> nth_error (val V (final h)) i = Some u -> eqb u w = true) -> final (h ++ [(t, OSet V l)]) = final h.
Proof.
  intros S. apply differs_spec in S. rewrite final_snoc. unfold next. destruct (crashed V m (final h)); [reflexivity|]. cbn. rewrite S, andb_false_r. reflexivity.
Qed.
(** ... otherwise the value is changed and then, unless this happens inside an emission, one emission begins. *)
Definition set_to (cur : list V) (l : list (nat * V)) : list V := fold_left (fun c p => set_nth (fst p) (snd p) c) l cur.
Theorem C53_set_another h t l i w u : may V m (final h) t = true -> crashed V m (final h) = false -> In (i, w) l -> nth_error (val V (final h)) i = Some u -> eqb u w = false ->
  let v := set_to (val V (final h)) l in exists r, trace (h ++ [(t, OSet V l)]) = trace h ++ VChange V t v true :: r /\ val V (final (h ++ [(t, OSet V l)])) = v /\
  (SigModel.em (keeper V m (final h)) = None -> exists e, hd_error r = Some (VSig V (SigModel.EEmit t e 0)) /\ forall s x, ~ In (VTold V s x) r).
Proof.
  intros M C X N E v. pose proof (I_final V eqb m v0 h) as H. destruct (may_free V m v0 _ t H M) as (F & G & R).
  assert (D : differs V eqb (val V (final h)) l = true) by (destruct (differs V eqb (val V (final h)) l) eqn:D; [reflexivity|]; rewrite differs_spec in D; rewrite (D i w u X N) in E; discriminate).
  unfold ObsModel.trace. rewrite final_snoc. unfold next. rewrite C. cbn [fst snd act]. rewrite M, D. cbn [andb]. cbv zeta. change (update V (val V (final h)) l) with v.
  unfold notify. set (s1 := emit V (with_val V (final h) v) [VChange V t v true]). destruct (on_signal_spec V m s1 t (SigModel.AEmit 0)) as (E1 & E2 & _ & _ & _ & new & E6 & E7).
  exists (flat_map (seen V (given V s1 t)) new). set (s2 := on_signal V m s1 t (SigModel.AEmit 0)) in *.
  assert (T : tr V s2 = tr V (final h) ++ VChange V t v true :: flat_map (seen V (given V s1 t)) new) by (rewrite E7; unfold s1; cbn [tr emit with_val]; rewrite <- app_assoc; reflexivity).
  assert (A : forall s', (s' = s2 \/ s' = push V s2 t (FEmit V None)) -> tr V s' = tr V s2 /\ val V s' = v) by (intros s' [->| ->]; split; try reflexivity; exact E2).
  assert (B : let s' := match SigModel.em (keeper V m s1), SigModel.em (keeper V m s2) with None, Some _ => push V s2 t (FEmit V None) | _, _ => s2 end in tr V s' = tr V s2 /\ val V s' = v).
  { cbv zeta. apply A. destruct (SigModel.em (keeper V m s1)), (SigModel.em (keeper V m s2)); auto. }
  destruct B as [B1 B2]. split; [rewrite B1; exact T|]. split; [exact B2|]. intros EM.
  destruct (sig_emit m (sig V (final h)) t 0 C (i_fol _ _ _ _ H) (i_hub _ _ _ _ H) F) as [Y|[Y|[Y|Y]]].
  - destruct Y as (_ & _ & Y & _). rewrite E1 in E6. change (sig V s1) with (sig V (final h)) in E6. unfold SigModel.trace in E6. rewrite Y in E6. apply app_inv_head in E6. subst new. eexists. cbn. split; [reflexivity|]. intros s x [Z|[Z|[]]]; discriminate.
  - destruct Y as (_ & _ & Y & _). rewrite E1 in E6. change (sig V s1) with (sig V (final h)) in E6. unfold SigModel.trace in E6. rewrite Y in E6. apply app_inv_head in E6. subst new. eexists. cbn. split; [reflexivity|]. intros s x [Z|[]]; discriminate.
  - destruct Y as (Y & _). contradiction.
  - destruct Y as (y & Y & _). unfold keeper in EM. rewrite EM in Y. discriminate.
Qed.

(** When nobody is using the observable any more, everyone then connected has been told the value last announced (if it was not changed since),
    or was connected after the change. *)
Theorem C53_everybody_learns h a t v b s : trace h = a ++ VChange V t v true :: b -> (forall e, In e b -> ~ is_change e) ->
  quiescent (final h) -> crashed V m (final h) = false -> In s (observers (trace h)) ->
  In (VTold V s v) b \/ In (VSig V (SigModel.EJoin s)) b.
Proof. intros T U Q C O. exact (reaches V eqb m v0 h a t v b s Q C T U O). Qed.

(** Observers are told the value as it is when they are called, as long as nothing was changed silently. *)
Theorem C53_told_the_current_value h a s v b : trace h = a ++ VTold V s v :: b -> all_announced a -> v = value v0 a.
Proof. exact (told_is_current V eqb m v0 h a s v b). Qed.
(** Even so they are told the current value or the last one that was announced. *)
Theorem C53_told_a_value_that_was_set h a s v b : trace h = a ++ VTold V s v :: b -> v = value v0 a \/ exists a1 t a2, a = a1 ++ VChange V t v true :: a2 /\ forall t' v', ~ In (VChange V t' v' true) a2.
Proof.
  intros T. destruct (told_current V eqb m v0 h a s v b T) as [E|E]; [left; exact E|right]. clear T.
  induction a as [|e a IH] using rev_ind; [discriminate|]. rewrite ann_app in E. cbn in E. destruct e as [t w [|]|s' w|t s' f|e]; cbn in E.
  - injection E as ->. exists a, t, []. split; [reflexivity|]. intros t' v' [].
  - destruct (IH E) as (a1 & t1 & a2 & -> & N). exists a1, t1. eexists. split; [rewrite <- app_assoc; reflexivity|]. intros t' v' X. apply in_app_or in X as [X|[X|[]]]; [eapply N; exact X|discriminate].
  - destruct (IH E) as (a1 & t1 & a2 & -> & N). exists a1, t1. eexists. split; [rewrite <- app_assoc; reflexivity|]. intros t' v' X. apply in_app_or in X as [X|[X|[]]]; [eapply N; exact X|discriminate].
  - destruct (IH E) as (a1 & t1 & a2 & -> & N). exists a1, t1. eexists. split; [rewrite <- app_assoc; reflexivity|]. intros t' v' X. apply in_app_or in X as [X|[X|[]]]; [eapply N; exact X|discriminate].
  - destruct (IH E) as (a1 & t1 & a2 & -> & N). exists a1, t1. eexists. split; [rewrite <- app_assoc; reflexivity|]. intros t' v' X. apply in_app_or in X as [X|[X|[]]]; [eapply N; exact X|discriminate].
Qed.

(** Silent changes tell nobody. *)
Theorem C53_silent_set h t l : may V m (final h) t = true -> crashed V m (final h) = false ->
  trace (h ++ [(t, OSilentSet V l)]) = trace h ++ [VChange V t (set_to (val V (final h)) l) false].
Proof. intros M C. unfold ObsModel.trace. rewrite final_snoc. unfold next. rewrite C. cbn [fst snd act]. rewrite M. reflexivity. Qed.
(** A mutable reference announces when it is dropped, if a sub-state it refers to then differs from what it was. *)
Theorem C53_reference h t old fs : hold V (final h) = Some (t, FRef V old :: fs) -> crashed V m (final h) = false -> runs V m (final h) t = true ->
  ((forall i w u, In (i, w) old -> nth_error (val V (final h)) i = Some u -> eqb u w = true) -> trace (h ++ [(t, ORefEnd V)]) = trace h) /\
  (forall i w u, In (i, w) old -> nth_error (val V (final h)) i = Some u -> eqb u w = false -> exists r, trace (h ++ [(t, ORefEnd V)]) = trace h ++ VChange V t (val V (final h)) true :: r).
Proof.
  intros HO C R. unfold ObsModel.trace. rewrite final_snoc. unfold next. rewrite C. cbn [fst snd act]. rewrite (frames_hold V _ _ _ HO), R. split.
  - intros S. apply differs_spec in S. rewrite S. reflexivity.
  - intros i w u X N E. assert (D : differs V eqb (val V (final h)) old = true) by (destruct (differs V eqb (val V (final h)) old) eqn:D; [reflexivity|]; rewrite differs_spec in D; rewrite (D i w u X N) in E; discriminate).
    rewrite D. unfold notify. set (s1 := emit V (pop V (final h) t) [VChange V t (val V (final h)) true]). destruct (on_signal_spec V m s1 t (SigModel.AEmit 0)) as (_ & _ & _ & _ & _ & new & _ & E7).
    exists (flat_map (seen V (given V s1 t)) new). set (s2 := on_signal V m s1 t (SigModel.AEmit 0)) in *.
    assert (T : tr V s2 = tr V (final h) ++ VChange V t (val V (final h)) true :: flat_map (seen V (given V s1 t)) new) by (rewrite E7; unfold s1; cbn [tr emit pop with_hold]; rewrite <- app_assoc; reflexivity).
    destruct (SigModel.em (keeper V m s1)), (SigModel.em (keeper V m s2)); exact T.
Qed.
(** A callable object that is accepted as an observer is told the current value by connect() itself, whatever happens in between. *)
Theorem C53_new_observer h t : may V m (final h) t = true -> crashed V m (final h) = false -> (m = Single -> observers (trace h) = []) ->
  let s := length (SigModel.kinds (keeper V m (final h))) in let h1 := h ++ [(t, OConnect V FCallable)] in
  In (VConnect V t s FCallable) (trace h1) /\ In s (observers (trace h1)) /\ In (t, s) (pend V (final h1)).
Proof.
  intros M C AD s h1. pose proof (I_final V eqb m v0 h) as H. pose proof (I_final V eqb m v0 h1) as H1. destruct (may_free V m v0 _ t H M) as (F & _ & _).
  assert (OK : SigModel.can_add m (SigModel.entries (keeper V m (final h))) = true).
  { destruct m; [reflexivity|]. specialize (AD eq_refl). unfold observers, SigSpec.slots, ObsModel.trace in AD. rewrite (i_sig _ _ _ _ H) in AD. apply map_eq_nil in AD. rewrite SigProofs7.live_entries in AD. cbn. pose proof (SigProofs3.c_one _ _ (CI_final Single (sig V (ObsModel.final V eqb Single v0 h))) eq_refl) as [_ SE].
    unfold keeper. destruct (SigModel.entries _) as [|[y|] l]; [reflexivity|discriminate AD|]. exfalso. apply (SE None); [left; reflexivity|reflexivity]. }
  assert (FN : final h1 = let st1 := on_signal V m (final h) t (SigModel.AConnect SigModel.CPlain) in with_pend V (emit V st1 [VConnect V t s FCallable]) ((t, s) :: pend V st1)).
  { unfold h1. rewrite final_snoc. unfold next. rewrite C. cbn [fst snd act]. rewrite M, OK. reflexivity. }
  unfold observers. unfold ObsModel.trace. rewrite FN. cbv zeta. cbn [tr with_pend emit pend]. split; [apply in_or_app; right; left; reflexivity|]. split; [|left; reflexivity].
  destruct (on_signal_spec V m (final h) t (SigModel.AConnect SigModel.CPlain)) as (E1 & _ & _ & _ & E5 & new & E6 & E7). rewrite E7, !sigpart_app, seen_sig, (i_sig _ _ _ _ H), <- E6, app_nil_r.
  apply SigProofs7.has_live. change (SigModel.final m (sig V (on_signal V m (final h) t (SigModel.AConnect SigModel.CPlain)))) with (keeper V m (on_signal V m (final h) t (SigModel.AConnect SigModel.CPlain))).
  rewrite E5. unfold SigModel.next. unfold crashed in C. rewrite C. cbn [fst snd SigModel.act]. rewrite F. cbn [SigModel.call]. rewrite (i_hub _ _ _ _ H). unfold SigModel.save. cbn [SigModel.entries SigModel.with_kinds]. rewrite OK.
  unfold SigModel.watch. assert (HS : SigModel.has s (SigModel.entries (keeper V m (final h)) ++ [Some (SigModel.serial (keeper V m (final h)), s)]) = true).
  { unfold SigModel.has. rewrite existsb_app. cbn. rewrite Nat.eqb_refl. apply orb_true_r. }
  destruct (SigModel.em (keeper V m (final h))) as [x|]; [destruct (SigModel.e_run x) as [[n s1]|]; [destruct (_ && _)|]|]; exact HS.
Qed.
Theorem C53_new_observer_is_told h t s : In (t, s) (pend V (final h)) -> gets_lock V (final h) t = true -> crashed V m (final h) = false -> In s (observers (trace h)) ->
  trace (h ++ [(t, OTell V)]) = trace h ++ [VTold V s (val V (final h))].
Proof.
  intros P G C O. pose proof (I_final V eqb m v0 h) as H. unfold ObsModel.trace. rewrite final_snoc. unfold next. rewrite C. cbn [fst snd act].
  destruct (find (fun p => Nat.eqb t (fst p)) (pend V (final h))) as [[t' s']|] eqn:FI.
  - apply find_some in FI as [IN EQ]. cbn in EQ. apply Nat.eqb_eq in EQ. subst t'. pose proof (ReqIds.nodup_fst_inj _ _ _ _ (i_pend _ _ _ _ H) P IN) as <-. rewrite G.
    destruct (SigModel.owned (keeper V m (final h)) s) eqn:OW; [reflexivity|]. exfalso. eapply owned_live; eauto.
  - exfalso. apply (find_none _ _ FI) in P. cbn in P. rewrite Nat.eqb_refl in P. discriminate.
Qed.

(** ** C69: partial.  Only callable objects are told; the other ways of connecting tell nothing (see the example below). *)
(** ** C70: when nobody uses the observable, everybody was last told its current value. *)
(** It holds for observers passed as callable objects and not reconnected, if the last change of the value was announced. *)
Theorem C70_up_to_date_partial h s : (forall t c, ~ In (t, OPass V (SigModel.AReconnect c)) h) -> callable s (trace h) -> settled (trace h) ->
  quiescent (final h) -> crashed V m (final h) = false -> In s (observers (trace h)) -> last_told s (trace h) = Some (val V (final h)).
Proof.
  intros A CA SE Q C O. apply up_to_date; auto. intros t a X. destruct a; cbn; auto. destruct a; auto. eapply A. exact X.
Qed.
End Props.
Print Assumptions C53_value_and_signal.
Print Assumptions C53_set_the_same.
Print Assumptions C53_set_another.
Print Assumptions C53_everybody_learns.
Print Assumptions C53_told_the_current_value.
Print Assumptions C53_told_a_value_that_was_set.
Print Assumptions C53_silent_set.
Print Assumptions C53_reference.
Print Assumptions C53_new_observer.
Print Assumptions C53_new_observer_is_told.
Print Assumptions C70_up_to_date_partial.

(** ** Examples *)
Ltac conjs := unfold quiescent; repeat match goal with |- _ /\ _ => split end.
Ltac intr := vm_compute; repeat (first [left; reflexivity|right]).
Notation obs := (ObsModel.final nat Nat.eqb).
Notation obst := (ObsModel.trace nat Nat.eqb).
Lemma announced_dec {V} (l : list (event V)) : existsb (fun e => match e with VChange _ _ _ false => true | _ => false end) l = false -> all_announced l.
Proof. intros E t v X. rewrite <- not_true_iff_false, existsb_exists in E. apply E. exists (VChange V t v false). auto. Qed.
(** Thread 0 connects two observers; thread 1 sets the value, and both are told. *)
Definition h53 : history nat := [(0, OConnect _ FCallable); (0, OTell _); (0, OTellDone _); (0, OConnect _ FMethod); (1, OSet _ [(0, 5)]); (1, OStep _); (1, OReturn _); (1, OStep _); (1, OReturn _); (1, OStep _)].
Example C53_applies :
  obst Multi [3; 4] h53 = [VSig _ (SigModel.EJoin 0); VSig _ (SigModel.ERet 0 (SigModel.AConnect SigModel.CPlain) (SigModel.RCon 0 0 true)); VConnect _ 0 0 FCallable; VTold _ 0 [3; 4];
    VSig _ (SigModel.EJoin 1); VSig _ (SigModel.ERet 0 (SigModel.AConnect SigModel.CPlain) (SigModel.RCon 1 1 true)); VConnect _ 0 1 FMethod;
    VChange _ 1 [5; 4] true; VSig _ (SigModel.EEmit 1 0 0); VSig _ (SigModel.ECall 1 0 0 0 0); VTold _ 0 [5; 4]; VSig _ (SigModel.ECall 1 0 1 1 0); VTold _ 1 [5; 4]; VSig _ (SigModel.EEnd 1 0)] /\
  quiescent (obs Multi [3; 4] h53) /\ crashed nat Multi (obs Multi [3; 4] h53) = false /\ observers (obst Multi [3; 4] h53) = [0; 1] /\
  pend nat (obs Multi [3; 4] [(0, OConnect _ FCallable)]) = [(0, 0)] /\
  hold nat (obs Multi [3; 4] [(0, ORef _ [0; 1]); (0, OModify _ [3; 9])]) = Some (0, [FRef _ [(0, 3); (1, 4)]]) /\ all_announced (obst Multi [3; 4] h53).
Proof. conjs; [vm_compute; reflexivity ..|]. apply announced_dec; vm_compute; reflexivity. Qed.

(** Callable objects are told (C53_new_observer, C53_new_observer_is_told) ... *)
Theorem C69_callable_objects_partial (V : Type) eqb m v0 h t : may V m (ObsModel.final V eqb m v0 h) t = true -> crashed V m (ObsModel.final V eqb m v0 h) = false -> (m = Single -> observers (ObsModel.trace V eqb m v0 h) = []) ->
  let s := length (SigModel.kinds (keeper V m (ObsModel.final V eqb m v0 h))) in let h1 := h ++ [(t, OConnect V FCallable)] in
  In s (observers (ObsModel.trace V eqb m v0 h1)) /\
  forall h2, let h' := h1 ++ h2 in In (t, s) (pend V (ObsModel.final V eqb m v0 h')) -> gets_lock V (ObsModel.final V eqb m v0 h') t = true -> crashed V m (ObsModel.final V eqb m v0 h') = false -> In s (observers (ObsModel.trace V eqb m v0 h')) ->
    ObsModel.trace V eqb m v0 (h' ++ [(t, OTell V)]) = ObsModel.trace V eqb m v0 h' ++ [VTold V s (val V (ObsModel.final V eqb m v0 h'))].
Proof.
  intros M C A s h1. destruct (C53_new_observer V eqb m v0 h t M C A) as (_ & O & _). split; [exact O|]. intros h2 h' P G C' O'. apply C53_new_observer_is_told; auto.
Qed.
Print Assumptions C69_callable_objects_partial.
(** ... but an object with a method, or an std::function, is not, whatever happens next without a change of the value. *)
Theorem C69_refuted : exists h s, In (VConnect nat 0 s FMethod) (obst Multi [3] h) /\ In (VConnect nat 0 (S s) FFunction) (obst Multi [3] h) /\ quiescent (obs Multi [3] h) /\ observers (obst Multi [3] h) = [s; S s] /\
  last_told s (obst Multi [3] h) = None /\ last_told (S s) (obst Multi [3] h) = None.
Proof. exists [(0, OConnect _ FMethod); (0, OTell _); (0, OConnect _ FFunction); (0, OTell _)], 0. split; [intr|]. split; [intr|]. conjs; vm_compute; reflexivity. Qed.
Print Assumptions C69_refuted.

(** A reference taken while another one is held by the same thread: the change is undone behind the observer's back. *)
Theorem C70_nested_references_refuted : exists h, (forall t a, In (t, a) h -> match a with OConnect _ f => f = FCallable | OPass _ _ | OSilentSet _ _ => False | _ => True end) /\
  quiescent (obs Multi [3] h) /\ crashed nat Multi (obs Multi [3] h) = false /\ observers (obst Multi [3] h) = [0] /\
  val nat (obs Multi [3] h) = [3] /\ last_told 0 (obst Multi [3] h) = Some [8].
Proof.
  exists [(0, OConnect _ FCallable); (0, OTell _); (0, OTellDone _); (0, ORef _ [0]); (0, OSet _ [(0, 8)]); (0, OStep _); (0, OReturn _); (0, OStep _); (0, OModify _ [3]); (0, ORefEnd _)].
  split; [intros t a X; repeat (destruct X as [X|X]; [injection X as <- <-; auto|]); destruct X|]. conjs; vm_compute; reflexivity.
Qed.
Print Assumptions C70_nested_references_refuted.
(** An observer that sets the observable it observes makes the assertion of notify() fail. *)
Theorem C70_set_in_an_observer_refuted : exists h, (forall t a, In (t, a) h -> match a with OConnect _ FCallable | OTell _ | OTellDone _ | OSet _ _ | OStep _ => True | _ => False end) /\ crashed nat Multi (obs Multi [3] h) = true.
Proof.
  exists [(0, OConnect _ FCallable); (0, OTell _); (0, OTellDone _); (0, OSet _ [(0, 8)]); (0, OStep _); (0, OSet _ [(0, 9)])].
  split; [intros t a X; repeat (destruct X as [X|X]; [injection X as <- <-; exact Logic.I|]); destruct X|vm_compute; reflexivity].
Qed.
Print Assumptions C70_set_in_an_observer_refuted.
Lemma settled_dec {V} (l : list (event V)) : fold_left (fun o e => match e with VChange _ _ _ x => x | _ => o end) l true = true -> settled l.
Proof.
  intros E a t v x b -> U. rewrite fold_left_app in E. cbn in E. rewrite <- E. clear E. revert x. induction b as [|e b IH]; intros x; [reflexivity|].
  cbn. pose proof (U e (or_introl eq_refl)) as N. destruct e as [? ? ?| | |]; cbn in N; try (exfalso; apply N; exact Logic.I); apply IH; intros e' X; apply U; right; exact X.
Qed.
Lemma callable_dec {V} s (l : list (event V)) : forallb (fun e => match e with VConnect _ _ s' f => negb (Nat.eqb s s') || tells f | _ => true end) l = true -> callable s l.
Proof. intros E t f X. rewrite forallb_forall in E. specialize (E _ X). cbn in E. rewrite Nat.eqb_refl in E. destruct f; auto; discriminate. Qed.
Example C70_applies : let h := [(0, OConnect nat FCallable); (0, OTell _); (0, OTellDone _); (1, ORef _ [0]); (1, OModify _ [8]); (1, ORefEnd _); (1, OStep _); (1, OReturn _); (1, OStep _)] in
  quiescent (obs Multi [3] h) /\ crashed nat Multi (obs Multi [3] h) = false /\ observers (obst Multi [3] h) = [0] /\ settled (obst Multi [3] h) /\ callable 0 (obst Multi [3] h) /\ last_told 0 (obst Multi [3] h) = Some [8].
Proof. conjs; try (vm_compute; reflexivity); [apply settled_dec|apply callable_dec]; vm_compute; reflexivity. Qed.
