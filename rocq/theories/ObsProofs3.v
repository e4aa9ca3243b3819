(** The observable model: what a step does, and C53. *)
From Verif Require Import ListUtil.
From Verif Require Import SigProofs SigProofs2 SigProofs3 SigProofs4 SigProofs5 SigProofs6 SigProofs7 SigProofs8 SigProofs9 ObsProofs.
From Verif Require SigModel SigSpec.
From Verif Require Import ObsModel ObsSpec ObsProofs2.
Import SigModel (mode, Multi, Single).

Section Steps.
Variable V : Type.
Variable eqb : V -> V -> bool.
Variable m : mode.
Variable v0 : list V.
Notation state := (ObsModel.state V).
Notation keeper := (ObsModel.keeper V m).
Notation final := (ObsModel.final V eqb m v0).
Notation trace := (ObsModel.trace V eqb m v0).
Notation next := (ObsModel.next V eqb m).
Notation tr := (ObsModel.tr V).
Notation val := (ObsModel.val V).
Notation sig := (ObsModel.sig V).
Notation hold := (ObsModel.hold V).
Notation pend := (ObsModel.pend V).
Notation event := (ObsModel.event V).
Notation frames := (ObsModel.frames V).
Notation I := (ObsProofs2.I V m v0).
Notation ann := (ObsProofs2.ann V).
Local Arguments ObsModel.keeper : simpl never.
Local Arguments sigpart : simpl never.
Local Arguments value : simpl never.
Local Arguments SigModel.trace : simpl never.
Local Arguments ObsProofs2.ann : simpl never.

(** Events without a change of the value. *)
Definition unchanged (l : list event) : Prop := forall e, In e l -> ~ is_change e.
Definition runs_on (st st' : state) (l : list event) : Prop :=
  forall x, SigModel.em (keeper st) = Some x -> (exists x', SigModel.em (keeper st') = Some x' /\ SigModel.e_thread x' = SigModel.e_thread x /\ SigModel.e_no x' = SigModel.e_no x) \/
    In (SigModel.EEnd (SigModel.e_thread x) (SigModel.e_no x)) (sigpart l).
(** The calls among these events: the slot is told the value, which is the one last announced if the slots are given arguments. *)
Definition tells_well (st : state) (l : list event) : Prop :=
  (forall t e k s v, In (SigModel.ECall t e k s v) (sigpart l) -> exists w, l = [VSig V (SigModel.ECall t e k s v); VTold V s w]) /\
  (forall s w, In (VTold V s w) l -> w = val st \/ ann (tr st) = Some w).
Definition quiet (st st' : state) (l : list event) : Prop := tr st' = tr st ++ l /\ val st' = val st /\ unchanged l /\ tells_well st l /\ runs_on st st' l.
Definition announced (st st' : state) (t : nat) (v : list V) (l : list event) : Prop :=
  let e := SigModel.emno (keeper st) in
  tr st' = tr st ++ VChange V t v true :: l /\ val st' = v /\
  ((crashed V m st' = true /\ l = [VSig V SigModel.ECrash]) \/
   l = [VSig V (SigModel.EEmit t e 0); VSig V (SigModel.EEnd t e)] \/
   l = [VSig V (SigModel.EEmit t e 0)] /\ exists x, SigModel.em (keeper st') = Some x /\ SigModel.e_thread x = t /\ SigModel.e_no x = e).

Lemma seen_unchanged v l : unchanged (flat_map (seen V v) l).
Proof. intros e X. apply in_flat_map in X as (s & _ & X). destruct s; cbn in X; repeat (destruct X as [X|X]; [subst e; cbn; auto|]); destruct X. Qed.
Lemma seen_told v l s w : In (VTold V s w) (flat_map (seen V v) l) -> w = v.
Proof. intros X. apply in_flat_map in X as (e & _ & X). destruct e; cbn in X; repeat (destruct X as [X|X]; [try discriminate; injection X as _ <-; reflexivity|]); destruct X. Qed.

Lemma quiet_signal st t a : I st -> crashed V m st = false -> let st1 := on_signal V m st t a in
  (a = SigModel.AStep -> forall x, SigModel.em (keeper st) = Some x -> SigModel.e_run x = None -> exists arg fs, hold st = Some (t, FEmit V arg :: fs)) ->
  runs_on st st1 (flat_map (seen V (given V st t)) (skipn (length (SigModel.trace m (sig st))) (SigModel.trace m (sig st1)))) ->
  exists l, quiet st st1 l /\ l = flat_map (seen V (given V st t)) (skipn (length (SigModel.trace m (sig st))) (SigModel.trace m (sig st1))).
Proof.
  intros H CR st1 AR RO. destruct (on_signal_spec V m st t a) as (E1 & E2 & E3 & E4 & E5 & new & E6 & E7). fold st1 in E1, E2, E3, E4, E5, E6, E7.
  rewrite E6, skipn_app, skipn_all, Nat.sub_diag in RO |- *. cbn [skipn app] in RO |- *. eexists. split; [|reflexivity]. split; [exact E7|]. split; [exact E2|]. split; [apply seen_unchanged|]. split; [split|exact RO].
  - intros t0 e k s v X. rewrite seen_sig in X. rewrite E1 in E6. destruct (new_calls m (sig st) t a new t0 e k s v E6 X) as (_ & _ & -> & _). cbn. eauto.
  - intros s w X. pose proof (seen_told _ _ _ _ X) as ->.
    assert (Y : exists t0 e k s' v', In (SigModel.ECall t0 e k s' v') new).
    { apply in_flat_map in X as (y & Y & X). destruct y; cbn in X; repeat (destruct X as [X|X]; [try discriminate X|]); try destruct X. eauto 8. }
    destruct Y as (t0 & e & k & s' & v' & Y). rewrite E1 in E6. destruct (new_calls m (sig st) t a new t0 e k s' v' E6 Y) as (_ & EA & _ & x & EM & ER & _).
    destruct (AR EA x EM ER) as (arg & fs & HO). unfold given. rewrite (frames_hold V st t _ HO). destruct arg as [a0|]; [|left; reflexivity]. right.
    eapply (i_arg V m v0 st H CR x t _ a0 EM HO); [left; reflexivity|]. right. exact ER.
Qed.
Lemma runs_on_same st st' l : SigModel.em (keeper st') = SigModel.em (keeper st) -> runs_on st st' l.
Proof. intros E x X. left. exists x. rewrite E. auto. Qed.

(** Every step is quiet, silent or an announcement. *)
Lemma step_cases st lab : I st -> let st' := next st lab in
  (exists l, quiet st st' l) \/
  (exists t v, tr st' = tr st ++ [VChange V t v false] /\ val st' = v /\ keeper st' = keeper st) \/
  (exists t v l, announced st st' t v l).
Proof.
  intros H st'. unfold st', ObsModel.next.
  assert (SAME : exists l, quiet st st l).
  { exists []. split; [symmetry; apply app_nil_r|]. split; [reflexivity|]. split; [intros e []|]. split; [split; [intros ? ? ? ? ? []|intros ? ? []]|apply runs_on_same; reflexivity]. }
  destruct (crashed V m st) eqn:CR; [left; exact SAME|]. destruct lab as [t a]. cbn [fst snd].
  assert (POP : forall s1 l, quiet st s1 l -> quiet st (pop V s1 t) l) by (intros s1 l (A & B & C & D & E); split; [exact A|]; split; [exact B|]; split; [exact C|]; split; [exact D|exact E]).
  assert (ANN : forall s0 v args, I s0 -> crashed V m s0 = false -> keeper s0 = keeper st -> tr s0 = tr st -> SigModel.free (keeper s0) t = true ->
    announced st (notify V m (emit V (with_val V s0 v) [VChange V t v true]) t args) t v (flat_map (seen V (given V (emit V (with_val V s0 v) [VChange V t v true]) t)) (skipn (length (SigModel.trace m (sig s0))) (SigModel.trace m (sig s0 ++ [(t, SigModel.AEmit 0)]))))).
  { intros s0 v args H0 CR0 K0 T0 F0. set (s1 := emit V (with_val V s0 v) [VChange V t v true]). unfold notify. destruct (on_signal_spec V m s1 t (SigModel.AEmit 0)) as (E1 & E2 & E3 & E4 & E5 & new & E6 & E7).
    set (s2 := on_signal V m s1 t (SigModel.AEmit 0)) in *.
    assert (TT : tr s2 = tr st ++ VChange V t v true :: flat_map (seen V (given V s1 t)) new) by (rewrite E7; unfold s1; cbn [ObsModel.tr emit with_val]; rewrite T0, <- app_assoc; reflexivity).
    assert (N : skipn (length (SigModel.trace m (sig s0))) (SigModel.trace m (sig s0 ++ [(t, SigModel.AEmit 0)])) = new).
    { pose proof E6 as E6'. rewrite E1 in E6'. change (sig s1) with (sig s0) in E6'. rewrite E6', skipn_app, skipn_all, Nat.sub_diag. reflexivity. }
    rewrite N. assert (NN : SigModel.tr (keeper s2) = SigModel.tr (keeper s0) ++ new) by exact E6.
    assert (KK : SigModel.emno (keeper s0) = SigModel.emno (keeper st)) by (rewrite K0; reflexivity).
    destruct (sig_emit m (sig s0) t 0 CR0 (i_fol _ _ _ _ H0) (i_hub _ _ _ _ H0) F0) as [X|[X|[X|X]]];
      replace (SigModel.final m (sig s0 ++ [(t, SigModel.AEmit 0)])) with (keeper s2) in X by (unfold ObsModel.keeper; rewrite E1; reflexivity);
      change (SigModel.final m (sig s0)) with (keeper s0) in X; change (keeper s1) with (keeper s0).
    - destruct X as (M1 & M2 & M3 & M4 & M5 & M6). rewrite M1, M2. split; [exact TT|]. split; [exact E2|]. right. left. rewrite NN in M3. apply app_inv_head in M3. rewrite M3, KK. reflexivity.
    - destruct X as (M1 & M2 & M3 & M4 & M5). rewrite M1, M2. split; [exact TT|]. split; [exact E2|]. right. right. rewrite NN in M3. apply app_inv_head in M3. rewrite M3, <- KK. split; [reflexivity|].
      eexists. split; [exact M2|]. cbn. auto.
    - destruct X as (M1 & M2 & M3 & M4 & M5 & M6). destruct (SigModel.em (keeper s0)) as [x|] eqn:EM; [|congruence]. rewrite NN in M4. apply app_inv_head in M4. split; [exact TT|]. split; [exact E2|]. left. split; [exact M3|]. rewrite M4. reflexivity.
    - destruct X as (x & M1 & M2 & M3 & M4 & M5 & M6 & M7 & M8). rewrite M1. rewrite NN in M8. apply app_inv_head in M8. split; [exact TT|]. split; [exact E2|]. right. left. rewrite M8, KK. reflexivity. }
  assert (CALM : forall a, calm_action a -> exists l, quiet st (on_signal V m st t a) l).
  { intros a0 C. destruct (calm_next m (keeper st) t a0 C) as (A & _). destruct (quiet_signal st t a0 H CR) as (l & Q & _); [| |exists l; exact Q].
    - intros ->. destruct C as [C|C]; discriminate C.
    - apply runs_on_same. destruct (on_signal_spec V m st t a0) as (_ & _ & _ & _ & E5 & _). rewrite E5. exact A. }
  destruct a as [f| | |l|v|l|l|v| | | |a]; cbn [ObsModel.act].
  - destruct (may V m st t) eqn:M; [|left; exact SAME]. left. cbv zeta. destruct (CALM (SigModel.AConnect SigModel.CPlain) (or_intror eq_refl)) as (l & Q1 & Q2 & Q3 & (Q4 & Q4') & Q5).
    set (ok := SigModel.can_add m _). set (s := length _). set (st1 := on_signal V m st t (SigModel.AConnect SigModel.CPlain)) in *.
    assert (NC : forall t0 e k s0 v, ~ In (SigModel.ECall t0 e k s0 v) (sigpart l)).
    { intros t0 e k s0 v X. destruct (on_signal_spec V m st t (SigModel.AConnect SigModel.CPlain)) as (E1 & _ & _ & _ & _ & new & E6 & E7). fold st1 in E1, E6, E7.
      rewrite E7 in Q1. apply app_inv_head in Q1. subst l. rewrite seen_sig in X. rewrite E1 in E6. destruct (new_calls m (sig st) t _ new t0 e k s0 v E6 X) as (_ & Y & _). discriminate Y. }
    assert (G : forall l2 p, quiet st (with_pend V (emit V st1 ([VConnect V t s f] ++ l2)) p) (l ++ [VConnect V t s f] ++ l2) \/ l2 <> []).
    { intros l2 p. destruct l2; [left|right; discriminate]. split; [cbn [ObsModel.tr with_pend emit]; rewrite Q1, <- app_assoc; reflexivity|]. split; [exact Q2|]. split; [|split; [split|]].
      - intros e X. apply in_app_or in X as [X|[<-|[]]]; [apply Q3; exact X|cbn; auto].
      - intros t0 e k s0 v X. exfalso. rewrite sigpart_app in X. apply in_app_or in X as [X|[]]. exact (NC _ _ _ _ _ X).
      - intros s0 w X. apply in_app_or in X as [X|[X|[]]]; [exact (Q4' _ _ X)|discriminate X].
      - intros x X. destruct (Q5 x X) as [Y|Y]; [left; exact Y|right]. rewrite sigpart_app. apply in_or_app. left. exact Y. }
    destruct ok; [|rewrite andb_false_r; exists l; split; [exact Q1|]; split; [exact Q2|]; split; [exact Q3|]; split; [split; [exact Q4|exact Q4']|exact Q5]].
    destruct (tells f); cbn [andb].
    + destruct (G [] ((t, s) :: pend st1)) as [X|X]; [eexists; exact X|congruence].
    + destruct (G [] (pend st1)) as [X|X]; [eexists; exact X|congruence].
  - left. destruct (find _ (pend st)) as [[t' s]|] eqn:FI; [|exact SAME]. destruct (gets_lock V st t) eqn:G; [|exact SAME]. cbv zeta. destruct (SigModel.owned (keeper st) s).
    + exists [VTold V s (val st)]. split; [reflexivity|]. split; [reflexivity|]. split; [intros e [<-|[]]; cbn; auto|]. split; [split; [intros ? ? ? ? ? []|intros s0 w [X|[]]; injection X as _ <-; left; reflexivity]|apply runs_on_same; reflexivity].
    + exact SAME.
  - left. destruct (frames st t) as [|[s| |] fs]; try exact SAME. destruct (runs V m st t); exact SAME.
  - destruct (may V m st t) eqn:M; [|left; exact SAME]. destruct (differs V eqb (val st) l); [|left; exact SAME]. right. right. cbn [andb]. cbv zeta. do 3 eexists. apply ANN; auto. eapply may_free; eauto.
  - destruct (may V m st t) eqn:M; [|left; exact SAME]. cbn [andb]. destruct (Nat.eqb _ _ && _); [|left; exact SAME]. right. right. do 3 eexists. apply ANN; auto. eapply may_free; eauto.
  - destruct (may V m st t) eqn:M; [|left; exact SAME]. right. left. do 2 eexists. split; [reflexivity|]. split; reflexivity.
  - destruct (may V m st t) eqn:M; left; exact SAME.
  - destruct (runs V m st t && _ && _); [|left; exact SAME]. right. left. do 2 eexists. split; [reflexivity|]. split; reflexivity.
  - destruct (frames st t) as [|[|args|old] fs] eqn:FR; try (left; exact SAME). destruct (runs V m st t) eqn:R; [|left; exact SAME].
    destruct (differs V eqb (val st) old); [|left; destruct SAME as (l & Q); exists l; apply POP; exact Q]. right. right.
    change (emit V (pop V st t) [VChange V t (val st) true]) with (emit V (with_val V (pop V st t) (val st)) [VChange V t (val st) true]). do 3 eexists. apply ANN; auto.
    + eapply I_pop; eauto.
    + pose proof (frames_in _ _ _ _ _ FR) as HO. assert (G : gets_lock V st t = true) by (unfold gets_lock; rewrite HO; apply Nat.eqb_refl).
      assert (M : may V m st t = true) by (unfold may; rewrite R, G; reflexivity). change (SigModel.free (keeper st) t = true). eapply may_free; eauto.
  - left. destruct (frames st t) as [|[|args|old] fs] eqn:FR; try exact SAME. destruct (negb (runs V m st t) && negb (waiting V st t)) eqn:R; [|exact SAME].
    pose proof (frames_in _ _ _ _ _ FR) as HO. destruct (emit_frame V m v0 st t _ fs H HO eq_refl) as (x & EM & TX & CN).
    apply andb_true_iff in R as [R1 R2]. rewrite (runs_frames V m st t _ fs x FR eq_refl EM), R2 in R1. cbn [andb] in R1. destruct (SigModel.e_run x) eqn:ER; [discriminate R1|].
    cbv zeta. destruct (on_signal_spec V m st t SigModel.AStep) as (E1 & _ & _ & _ & _ & new & E6 & _).
    destruct (quiet_signal st t SigModel.AStep H CR) as (l & Q & _).
    + intros _ y _ _. eauto.
    + intros y Y. rewrite EM in Y. injection Y as <-. rewrite E6, skipn_app, skipn_all, Nat.sub_diag, seen_sig. cbn [skipn app].
      destruct (sig_step m (sig st) t x CR EM TX ER (i_hub _ _ _ _ H)) as (A & B & D). rewrite <- E1 in D. destruct D as [(x' & C1 & C2 & C3 & _)|(C1 & C2 & l0 & C3 & C4)].
      * left. exists x'. rewrite C2, C3. auto.
      * right. rewrite TX. unfold SigModel.trace in E6. rewrite C3 in E6. apply app_inv_head in E6. subst l0. exact C4.
    + destruct (SigModel.em (keeper (on_signal V m st t SigModel.AStep))); exists l; [exact Q|apply POP; exact Q].
  - left. destruct (frames st t) as [|[|args|old] fs] eqn:FR; try exact SAME. destruct (runs V m st t) eqn:R; [|exact SAME].
    pose proof (frames_in _ _ _ _ _ FR) as HO. destruct (emit_frame V m v0 st t _ fs H HO eq_refl) as (x & EM & TX & CN).
    rewrite (runs_frames V m st t _ fs x FR eq_refl EM) in R. apply andb_true_iff in R as [R2 R1]. assert (ER : SigModel.e_run x <> None) by (destruct (SigModel.e_run x); [discriminate|discriminate R1]).
    cbv zeta. destruct (on_signal_spec V m st t SigModel.AReturn) as (E1 & _ & _ & _ & _ & new & E6 & _).
    destruct (quiet_signal st t SigModel.AReturn H CR) as (l & Q & _).
    + discriminate.
    + intros y Y. rewrite EM in Y. injection Y as <-. rewrite E6, skipn_app, skipn_all, Nat.sub_diag, seen_sig. cbn [skipn app].
      destruct (sig_return m (sig st) t x CR EM TX ER (i_hub _ _ _ _ H)) as (A & B & D). rewrite <- E1 in D. destruct D as [(_ & x' & C1 & C2 & C3 & _)|(C1 & C2 & l0 & C3 & C4)].
      * left. exists x'. rewrite C2, C3. auto.
      * right. rewrite TX. unfold SigModel.trace in E6. rewrite C3 in E6. apply app_inv_head in E6. subst l0. exact C4.
    + destruct (SigModel.em (keeper (on_signal V m st t SigModel.AReturn))); exists l; [exact Q|apply POP; exact Q].
  - left. destruct (may V m st t) eqn:M; [|exact SAME]. cbn [andb]. destruct (passes a) eqn:P; [|exact SAME]. apply CALM. left. exact P.
Qed.
End Steps.
