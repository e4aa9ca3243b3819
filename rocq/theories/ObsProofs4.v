(** The observable model: announced changes reach everybody. *)
From Verif Require Import ListUtil.
From Verif Require Import SigProofs SigProofs2 SigProofs3 SigProofs4 SigProofs5 SigProofs6 SigProofs7 SigProofs8 SigProofs9 ObsProofs.
From Verif Require SigModel SigSpec SigProps.
From Verif Require Import ObsModel ObsSpec ObsProofs2 ObsProofs3.
Import SigModel (mode, Multi, Single).

Section Reach.
Variable V : Type.
Variable eqb : V -> V -> bool.
Variable m : mode.
Variable v0 : list V.
Notation state := (ObsModel.state V).
Notation keeper := (ObsModel.keeper V m).
Notation final := (ObsModel.final V eqb m v0).
Notation trace := (ObsModel.trace V eqb m v0).
Notation next := (ObsModel.next V eqb m).
Notation tr := (ObsModel.tr V).
Notation val := (ObsModel.val V).
Notation sig := (ObsModel.sig V).
Notation hold := (ObsModel.hold V).
Notation pend := (ObsModel.pend V).
Notation event := (ObsModel.event V).
Notation I := (ObsProofs2.I V m v0).
Notation ann := (ObsProofs2.ann V).
Notation unchanged := (ObsProofs3.unchanged V).
Local Arguments ObsModel.keeper : simpl never.
Local Arguments sigpart : simpl never.
Local Arguments value : simpl never.
Local Arguments SigModel.trace : simpl never.
Local Arguments ObsProofs2.ann : simpl never.

Lemma unchanged_app a b : unchanged (a ++ b) <-> unchanged a /\ unchanged b.
Proof. unfold ObsProofs3.unchanged. setoid_rewrite in_app_iff. firstorder. Qed.
Lemma unchanged_value w b : unchanged b -> fold_left value_step b w = w.
Proof. revert w. induction b as [|e b IH]; intros w U; [reflexivity|]. cbn. rewrite IH by (intros x X; apply U; right; exact X). pose proof (U e (or_introl eq_refl)) as N. destruct e; cbn in N |- *; tauto || reflexivity. Qed.
Lemma unchanged_ann o b : unchanged b -> fold_left (ann_step V) b o = o.
Proof. revert o. induction b as [|e b IH]; intros w U; [reflexivity|]. cbn. rewrite IH by (intros x X; apply U; right; exact X). pose proof (U e (or_introl eq_refl)) as N. destruct e; cbn in N |- *; tauto || reflexivity. Qed.
Lemma value_last a t v x b : unchanged b -> value v0 (a ++ VChange V t v x :: b) = v.
Proof. intros U. rewrite value_app. cbn. apply unchanged_value. exact U. Qed.
Lemma ann_last a t v b : unchanged b -> ann (a ++ VChange V t v true :: b) = Some v.
Proof. intros U. rewrite ann_app. cbn. apply unchanged_ann. exact U. Qed.

(** What follows the announcement of the current value. *)
Definition Q (st : state) : Prop := forall a t v b, tr st = a ++ VChange V t v true :: b -> unchanged b -> crashed V m st = false ->
  exists e b', b = VSig V (SigModel.EEmit t e 0) :: b' /\
    (forall t' k s v', ~ In (SigModel.ECall t' e k s v') (sigpart a)) /\
    ((exists x, SigModel.em (keeper st) = Some x /\ SigModel.e_thread x = t /\ SigModel.e_no x = e) \/ In (SigModel.EEnd t e) (sigpart b')) /\
    (forall t' k s v', In (SigModel.ECall t' e k s v') (sigpart b') -> In (VTold V s v) b').

Lemma crashed_stays st l : crashed V m st = true -> next st l = st.
Proof. intros C. unfold ObsModel.next. rewrite C. reflexivity. Qed.
Lemma not_crashed_before st l : crashed V m (next st l) = false -> crashed V m st = false.
Proof. intros C. destruct (crashed V m st) eqn:E; [|reflexivity]. rewrite crashed_stays in C by exact E. congruence. Qed.

Lemma Q_next st l : I st -> Q st -> Q (next st l).
Proof.
  intros H IQ a t v b T U CR. pose proof (not_crashed_before _ _ CR) as CR0.
  destruct (step_cases V eqb m v0 st l H) as [(new & T1 & T2 & T3 & (T4 & T4') & T5)|[(t1 & v1 & T1 & _)|(t1 & v1 & new & T1 & T2 & T3)]]; rewrite T in T1.
  - symmetry in T1. destruct (split_app _ _ _ _ _ T1) as [(b0 & E)|(a' & E & _)].
    + rewrite E in T1. rewrite <- app_assoc in T1. apply app_inv_head in T1. cbn in T1. injection T1 as <-. apply unchanged_app in U as [U1 U2].
      destruct (IQ a t v b0 E U1 CR0) as (e & b' & -> & A & B & C). exists e, (b' ++ new). split; [reflexivity|]. split; [exact A|]. split.
      * destruct B as [(x & X & TX & NX)|B]; [|right; rewrite sigpart_app; apply in_or_app; left; exact B]. destruct (T5 x X) as [(x' & X' & TX' & NX')|Y].
        { left. exists x'. split; [exact X'|]. split; congruence. }
        { right. rewrite sigpart_app. apply in_or_app. right. rewrite <- TX, <- NX. exact Y. }
      * intros t' k s v' X. rewrite sigpart_app in X. apply in_or_app. apply in_app_or in X as [X|X]; [left; eapply C; exact X|]. right.
        destruct (T4 _ _ _ _ _ X) as (w & ->). right. left. f_equal.
        destruct (T4' s w) as [W|W]; [right; left; reflexivity|rewrite W, <- (i_val _ _ _ _ H), E; apply value_last; exact U1|]. rewrite E, ann_last in W by exact U1. congruence.
    + exfalso. apply (T3 (VChange V t v true)); [rewrite E; apply in_or_app; right; left; reflexivity|exact Logic.I].
  - exfalso. symmetry in T1. destruct (split_app _ _ _ _ _ T1) as [(b0 & E)|(a' & E & _)].
    + rewrite E in T1. rewrite <- app_assoc in T1. apply app_inv_head in T1. cbn in T1. injection T1 as <-. apply (U (VChange V t1 v1 false)); [apply in_or_app; right; left; reflexivity|exact Logic.I].
    + destruct a' as [|y [|z a']]; discriminate.
  - symmetry in T1. destruct (split_app _ _ _ _ _ T1) as [(b0 & E)|(a' & E & EA)].
    + exfalso. rewrite E in T1. rewrite <- app_assoc in T1. apply app_inv_head in T1. cbn in T1. injection T1 as <-. apply (U (VChange V t1 v1 true)); [apply in_or_app; right; left; reflexivity|exact Logic.I].
    + destruct a' as [|y a'].
      * injection E as <- <- <-. cbn in EA. rewrite app_nil_r in EA. subst a. set (e := SigModel.emno (keeper st)) in *.
        assert (NC : forall t' k s v', ~ In (SigModel.ECall t' e k s v') (sigpart (tr st))).
        { intros t' k s v' X. rewrite (i_sig _ _ _ _ H) in X. pose proof (c_no _ _ (CI_final m (sig st)) _ _ _ _ _ X) as Y. unfold e, ObsModel.keeper in Y. lia. }
        destruct T3 as [[X _]|[-> |(-> & x & X & TX & NX)]]; [congruence| |].
        { exists e, [VSig V (SigModel.EEnd t1 e)]. split; [reflexivity|]. split; [exact NC|]. split; [right; left; reflexivity|]. intros t' k s v' [X|[]]; discriminate. }
        { exists e, []. split; [reflexivity|]. split; [exact NC|]. split; [left; exists x; auto|]. intros t' k s v' []. }
      * exfalso. injection E as <- E. destruct T3 as [[_ X]|[X|[X _]]]; rewrite X in E; destruct a' as [|z [|y a']]; try discriminate; destruct a'; discriminate.
Qed.
Lemma Q_final h : Q (final h).
Proof.
  assert (X : I (init V v0) /\ Q (init V v0)) by (split; [apply I_init|]; intros a t v b E; cbn in E; destruct a; discriminate).
  unfold ObsModel.final. revert X. generalize (init V v0). induction h as [|l h IH]; intros st [X Y]; [exact Y|]. cbn. apply IH. split; [apply I_act; exact X|apply Q_next; auto].
Qed.

Lemma live_app a b n l : In n (snd (fold_left SigSpec.account b (a, l))) -> In n l \/ In (SigModel.EJoin (snd n)) b.
Proof.
  revert a l. induction b as [|e b IH]; intros a l X; [left; exact X|]. cbn in X. destruct (SigSpec.account (a, l) e) as [a' l'] eqn:E. destruct (IH a' l' X) as [Y|Y]; [|right; right; exact Y].
  destruct e; cbn in E; injection E as <- <-; try (left; exact Y).
  - apply in_app_or in Y as [Y|[Y|[]]]; [left; exact Y|right; left; subst n; reflexivity].
  - left. clear - Y. induction l as [|[k s'] l IH]; [destruct Y|]. cbn in Y. destruct (Nat.eqb s s'); [right; exact Y|]. destruct Y as [Y|Y]; [left; exact Y|right; auto].
  - destruct Y.
Qed.
Lemma live_split a b n : In n (SigSpec.live (a ++ b)) -> In n (SigSpec.live a) \/ In (SigModel.EJoin (snd n)) b.
Proof. unfold SigSpec.live. rewrite fold_left_app. destruct (fold_left SigSpec.account a (0, [])) as [x l] eqn:E. intros X. apply live_app in X. exact X. Qed.
Lemma sigpart_in (e : SigModel.event) (b : list event) : In e (sigpart b) <-> In (VSig V e) b.
Proof. unfold sigpart. rewrite in_flat_map. split; [intros ([| | |e'] & X & Y); cbn in Y; try destruct Y as [Y|[]]; try destruct Y; subst; exact X|intros X; exists (VSig V e); split; [exact X|left; reflexivity]]. Qed.

Lemma quiet_em st : I st -> hold st = None -> SigModel.em (keeper st) = None.
Proof. intros H Q0. destruct (SigModel.em (keeper st)) as [x|] eqn:E; [|reflexivity]. destruct (i_own _ _ _ _ H x E). congruence. Qed.

Lemma prefix_call k h p t e i s v q : SigModel.trace k h = p ++ SigModel.ECall t e i s v :: q -> exists h', SigModel.trace k h' = p.
Proof.
  revert q. induction h as [|[t' a'] h IH] using rev_ind; intros q E; [destruct p; discriminate|].
  destruct (trace_grows k h t' a') as (new & N). rewrite N in E. destruct (split_app _ _ _ _ _ E) as [(b & B)|(z & Z & PZ)]; [eapply IH; exact B|].
  assert (X : In (SigModel.ECall t e i s v) new) by (rewrite Z; apply in_or_app; right; left; reflexivity).
  destruct (new_calls k h t' a' new _ _ _ _ _ N X) as (_ & _ & NE & _). rewrite NE in Z. destruct z as [|y [|]]; try discriminate. exists h. rewrite PZ, app_nil_r. reflexivity.
Qed.

Theorem reaches h a t v b s : quiescent (final h) -> crashed V m (final h) = false -> trace h = a ++ VChange V t v true :: b -> unchanged b -> In s (observers (trace h)) ->
  In (VTold V s v) b \/ In (VSig V (SigModel.EJoin s)) b.
Proof.
  intros [HO _] CR T U OB. pose proof (I_final V eqb m v0 h) as H. destruct (Q_final h a t v b T U CR) as (e & b' & -> & NC & B & C).
  destruct B as [(x & X & _)|B]; [rewrite (quiet_em _ H HO) in X; discriminate|].
  destruct (in_split _ _ B) as (c & d & SP).
  assert (ST : SigModel.trace m (sig (final h)) = (sigpart a ++ SigModel.EEmit t e 0 :: c) ++ SigModel.EEnd t e :: d).
  { rewrite <- (i_sig _ _ _ _ H). unfold ObsModel.trace in T. rewrite T, sigpart_app. change (sigpart (VChange V t v true :: VSig V (SigModel.EEmit t e 0) :: b')) with (SigModel.EEmit t e 0 :: sigpart b'). rewrite SP, <- app_assoc. reflexivity. }
  unfold observers, SigSpec.slots in OB. apply in_map_iff in OB as ([k s'] & EQ & OB). cbn in EQ. subst s'. unfold ObsModel.trace in OB. rewrite (i_sig _ _ _ _ H), ST in OB.
  apply live_split in OB as [OB|OB]; [|right; right; apply sigpart_in; rewrite SP; apply in_or_app; right; exact OB].
  assert (CALL : forall k0 s0 v1, In (SigModel.ECall t e k0 s0 v1) (sigpart a ++ SigModel.EEmit t e 0 :: c) -> In (VTold V s0 v) (VSig V (SigModel.EEmit t e 0) :: b')).
  { intros k0 s0 v1 X. right. apply (C t k0 s0 v1). rewrite SP. apply in_or_app. left. apply in_app_or in X as [X|[X|X]]; [exfalso; exact (NC _ _ _ _ X)|discriminate|exact X]. }
  pose proof (CI_final m (sig (final h))) as CI. pose proof (c_good _ _ CI _ _ _ ST) as GD. destruct m.
  - destruct GD as (v1 & _ & G). left. eapply CALL. apply (G k s OB).
  - destruct GD as (v1 & _ & [G|(k1 & s1 & G)]); [rewrite G in OB; destruct OB|].
    destruct (in_split _ _ G) as (p & q & PQ). rewrite PQ in OB.
    apply live_split in OB as [OB|OB].
    + assert (ST2 : SigModel.trace Single (sig (ObsModel.final V eqb Single v0 h)) = p ++ SigModel.ECall t e k1 s1 v1 :: q ++ SigModel.EEnd t e :: d) by (rewrite ST, PQ, <- app_assoc; reflexivity).
      pose proof (c_good _ _ CI _ _ _ ST2) as (L1 & _). left.
      assert (L : length (SigSpec.live p) <= 1).
      { destruct (prefix_call _ _ _ _ _ _ _ _ _ ST2) as (h' & E'). rewrite <- E'. apply SigProps.C52_at_most_one_slot. }
      destruct (SigSpec.live p) as [|y [|z r]]; [destruct OB| |cbn in L; lia]. destruct OB as [OB|[]]. destruct L1 as [L1|[]]. subst y. injection L1 as <- <-. eapply CALL. exact G.
    + cbn in OB. destruct OB as [OB|OB]; [discriminate OB|]. right. right. apply sigpart_in. rewrite SP.
      assert (Y : In (SigModel.EJoin s) (sigpart a ++ SigModel.EEmit t e 0 :: c)) by (rewrite PQ; apply in_or_app; right; right; exact OB).
      (* the call is in c, so what follows it is in c too *)
      assert (W : exists c1, c = c1 ++ SigModel.ECall t e k1 s1 v1 :: q \/ In (SigModel.EJoin s) c).
      { destruct (split_app (A:=SigModel.event) p q (sigpart a) (SigModel.EEmit t e 0 :: c) (SigModel.ECall t e k1 s1 v1)) as [(z & Z)|(z & Z & _)].
        - exact PQ.
        - exfalso. apply (NC t k1 s1 v1). rewrite Z. apply in_or_app. right. left. reflexivity.
        - destruct z as [|y z]; [discriminate Z|]. injection Z as _ Z. exists z. left. exact Z. }
      destruct W as (c1 & [W|W]); apply in_or_app; left; [rewrite W; apply in_or_app; right; right; exact OB|exact W].
Qed.
End Reach.
