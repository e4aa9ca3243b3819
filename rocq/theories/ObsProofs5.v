(** The observable model: what observers are told. *)
From Verif Require Import ListUtil.
From Verif Require Import SigProofs SigProofs2 SigProofs3 SigProofs4 SigProofs5 SigProofs6 SigProofs7 SigProofs8 SigProofs9 ObsProofs.
From Verif Require SigModel SigSpec SigProps ReqIds.
From Verif Require Import ObsModel ObsSpec ObsProofs2 ObsProofs3 ObsProofs4.
Import SigModel (mode, Multi, Single).

Lemma new_joins m h t a new s : SigModel.trace m (h ++ [(t, a)]) = SigModel.trace m h ++ new -> In (SigModel.EJoin s) new -> calm_action a \/ a = SigModel.AStep \/ a = SigModel.AReturn \/ (exists v, a = SigModel.AEmit v) ->
  (exists c, a = SigModel.AReconnect c) \/ a = SigModel.AConnect SigModel.CPlain /\ s = length (SigModel.kinds (SigModel.final m h)) /\ SigModel.can_add m (SigModel.entries (SigModel.final m h)) = true.
Proof.
  unfold SigModel.trace. rewrite final_snoc. unfold SigModel.next. destruct (SigModel.crashed (SigModel.final m h)) eqn:CR; [intros T X; apply (f_equal (@length SigModel.event)) in T; rewrite app_length in T; destruct new; [destruct X|cbn in T; lia]|].
  cbn [fst snd]. set (st := SigModel.final m h). intros T X C.
  assert (Y : exists l, SigModel.tr (SigModel.act m st t a) = SigModel.tr st ++ l /\ In (SigModel.EJoin s) l).
  { destruct (grows_act m st t a (J_final m h)) as (l & TL & _). exists l. split; [exact TL|].
    destruct (watch_tr st (SigModel.act m st t a)) as [W|(s' & W & _)]; rewrite W, TL, <- ?app_assoc in T; apply app_inv_head in T; subst new; [exact X|].
    apply in_app_or in X as [X|[X|[]]]; [exact X|discriminate]. }
  clear T X. destruct Y as (l & T & X).
  assert (NO : SigModel.tr (SigModel.act m st t a) = SigModel.tr st -> False) by (intros E; rewrite E in T; apply (f_equal (@length SigModel.event)) in T; rewrite app_length in T; destruct l; [destruct X|cbn in T; lia]).
  assert (EX : forall l', SigModel.tr (SigModel.act m st t a) = SigModel.tr st ++ l' -> l = l') by (intros l' E; rewrite T in E; apply app_inv_head in E; exact E).
  unfold SigModel.act in *.
  assert (RC : forall c, a = SigModel.AReconnect c -> exists c, a = SigModel.AReconnect c) by eauto.
  destruct C as [[C| ->]|[-> |[-> |[v ->]]]].
  - destruct a as [k| |z|z|z| | | |c|c|c|c|c|o| |v| | |]; try discriminate C; try (left; eauto; fail); exfalso.
    all: try (destruct (SigModel.free st t); [|apply NO; reflexivity]).
    all: cbn [SigModel.call] in *.
    + destruct (SigModel.hub st); [|apply NO; reflexivity]. destruct m; [destruct (SigModel.em st)|]; rewrite (EX _ eq_refl) in X; destruct X as [X|[]]; discriminate.
    + destruct (SigModel.hub st); [|apply NO; reflexivity]. rewrite (EX _ eq_refl) in X. destruct X as [X|[]]; discriminate.
    + destruct (SigModel.hub st); [|apply NO; reflexivity]. rewrite (EX _ eq_refl) in X. destruct X as [X|[]]; discriminate.
    + destruct (SigModel.hidden st c); [apply NO; reflexivity|]. destruct (tr_disconnect m st c) as (l0 & E0 & D0). destruct (SigModel.disconnect m st c) as [st' b] eqn:DD. cbn in E0.
      cbn [SigModel.emit SigModel.tr] in *. rewrite E0, <- app_assoc in EX. rewrite (EX _ eq_refl) in X. apply in_app_or in X as [X|[X|[]]]; [|discriminate]. destruct D0 as [->|(z & ->)]; [destruct X|destruct X as [X|[]]; discriminate].
    + destruct (SigModel.hidden st c); [apply NO; reflexivity|]. rewrite (EX _ eq_refl) in X. destruct X as [X|[]]; discriminate.
    + destruct (SigModel.internal st c || _); [apply NO; reflexivity|]. rewrite (EX _ eq_refl) in X. destruct X as [X|[]]; discriminate.
    + destruct (SigModel.internal st c || _); [apply NO; reflexivity|]. destruct (tr_disconnect m st c) as (l0 & E0 & D0). destruct (SigModel.is_connected st c); cbn [SigModel.emit SigModel.tr SigModel.set_con SigModel.with_conns] in *.
      * rewrite E0, <- app_assoc in EX. rewrite (EX _ eq_refl) in X. apply in_app_or in X as [X|[X|[]]]; [|discriminate]. destruct D0 as [->|(z & ->)]; [destruct X|destruct X as [X|[]]; discriminate].
      * rewrite (EX _ eq_refl) in X. destruct X as [X|[]]; discriminate.
  - right. split; [reflexivity|]. destruct (SigModel.free st t); [|exfalso; apply NO; reflexivity]. cbn [SigModel.call] in *. destruct (SigModel.hub st); [|exfalso; apply NO; reflexivity].
    rewrite tr_save in EX. cbn in EX. rewrite (EX _ eq_refl) in X. destruct (SigModel.can_add m (SigModel.entries st)); cbn in X; [|destruct X as [X|[]]; discriminate]. destruct X as [X|[X|[]]]; [injection X as <-; auto|discriminate].
  - exfalso. destruct (SigModel.em st) as [x|]; [|apply NO; reflexivity]. destruct (Nat.eqb _ t); [|apply NO; reflexivity]. destruct (SigModel.e_run x); [apply NO; reflexivity|].
    unfold SigModel.step in *. destruct (nth_error (SigModel.entries st) (SigModel.e_cur x)) as [[[n s1]|]|].
    + destruct (nth_error (SigModel.kinds st) s1) as [[| | |o c]|]; try (rewrite (EX _ eq_refl) in X; destruct X as [X|[]]; discriminate).
      destruct (SigModel.is_dead st o); [|rewrite (EX _ eq_refl) in X; destruct X as [X|[]]; discriminate].
      destruct (tr_disconnect m st c) as (l0 & E0 & D0). cbv zeta in *. set (st1 := fst (SigModel.disconnect m st c)) in *.
      set (st2 := match nth_error (SigModel.conns st1) c with Some (SigModel.CPtr _) => _ | _ => _ end) in *.
      assert (E2 : SigModel.tr st2 = SigModel.tr st ++ l0) by (unfold st2; destruct (nth_error (SigModel.conns st1) c) as [[| |]|]; exact E0).
      assert (G : exists l1, SigModel.tr (SigModel.go_on m (if SigModel.owned st2 s1 then st2 else SigModel.emit st2 [SigModel.EFreed s1]) x) = SigModel.tr st ++ l0 ++ l1 /\ ~ In (SigModel.EJoin s) l1).
      { unfold SigModel.go_on. destruct m; destruct (SigModel.owned st2 s1); cbn [SigModel.tr SigModel.emit SigModel.with_em]; rewrite E2, <- ?app_assoc.
        - exists []. rewrite app_nil_r. split; [reflexivity|intros []].
        - eexists. split; [reflexivity|]. intros [Z|[]]; discriminate.
        - eexists. split; [reflexivity|]. intros [Z|[]]; discriminate.
        - eexists. split; [reflexivity|]. cbn. intros [Z|[Z|[]]]; discriminate. }
      destruct G as (l1 & G1 & G2). rewrite (EX _ G1) in X. apply in_app_or in X as [X|X]; [|auto]. destruct D0 as [->|(z & ->)]; [destruct X|destruct X as [X|[]]; discriminate].
    + apply NO. reflexivity.
    + rewrite (EX _ eq_refl) in X. destruct X as [X|[]]; discriminate.
  - exfalso. destruct (SigModel.em st) as [x|]; [|apply NO; reflexivity]. destruct (Nat.eqb _ t); [|apply NO; reflexivity]. destruct (SigModel.e_run x) as [[n s1]|]; [|apply NO; reflexivity].
    assert (G : exists l1, SigModel.tr (SigModel.slot_return m st x s1) = SigModel.tr st ++ l1 /\ ~ In (SigModel.EJoin s) l1).
    { unfold SigModel.slot_return, SigModel.go_on.
      assert (Z : forall st0, SigModel.tr st0 = SigModel.tr st -> exists l1, SigModel.tr (SigModel.go_on m st0 x) = SigModel.tr st ++ l1 /\ ~ In (SigModel.EJoin s) l1).
      { intros st0 Z. unfold SigModel.go_on. destruct m; cbn [SigModel.tr SigModel.emit SigModel.with_em]; rewrite Z; [exists []; rewrite app_nil_r; split; [reflexivity|intros []]|eexists; split; [reflexivity|]; intros [W|[]]; discriminate]. }
      apply Z. destruct (nth_error (SigModel.kinds st) s1) as [[| |c|o c]|]; try reflexivity; destruct (nth_error (SigModel.conns st) c) as [[| |]|]; reflexivity. }
    destruct G as (l1 & G1 & G2). rewrite (EX _ G1) in X. auto.
  - exfalso. destruct (SigModel.free st t); [|apply NO; reflexivity]. cbn [SigModel.call] in *. destruct (SigModel.hub st); [|apply NO; reflexivity].
    destruct (SigModel.entries st); [|destruct (SigModel.notif st)]; rewrite (EX _ eq_refl) in X; repeat (destruct X as [X|X]; [discriminate X|]); destruct X.
Qed.

Section Told.
Variable V : Type.
Variable eqb : V -> V -> bool.
Variable m : mode.
Variable v0 : list V.
Notation state := (ObsModel.state V).
Notation keeper := (ObsModel.keeper V m).
Notation final := (ObsModel.final V eqb m v0).
Notation trace := (ObsModel.trace V eqb m v0).
Notation next := (ObsModel.next V eqb m).
Notation tr := (ObsModel.tr V).
Notation val := (ObsModel.val V).
Notation sig := (ObsModel.sig V).
Notation hold := (ObsModel.hold V).
Notation pend := (ObsModel.pend V).
Notation event := (ObsModel.event V).
Notation I := (ObsProofs2.I V m v0).
Notation ann := (ObsProofs2.ann V).
Notation unchanged := (ObsProofs3.unchanged V).
Local Arguments ObsModel.keeper : simpl never.
Local Arguments sigpart : simpl never.
Local Arguments value : simpl never.
Local Arguments SigModel.trace : simpl never.
Local Arguments ObsProofs2.ann : simpl never.

(** Told values are current, unless the value was changed behind the observers' back. *)
Lemma told_current h a s v b : trace h = a ++ VTold V s v :: b -> v = value v0 a \/ ann a = Some v.
Proof.
  revert b. unfold ObsModel.trace. induction h as [|l h IH] using rev_ind; intros b E; [destruct a; discriminate|].
  assert (FS : final (h ++ [l]) = next (final h) l) by (unfold ObsModel.final; rewrite fold_left_app; reflexivity). rewrite FS in E.
  pose proof (I_final V eqb m v0 h) as H.
  assert (OLD : forall new, tr (next (final h) l) = tr (final h) ++ new -> (forall a' b', new = a' ++ VTold V s v :: b' -> v = value v0 (tr (final h) ++ a') \/ ann (tr (final h) ++ a') = Some v) -> v = value v0 a \/ ann a = Some v).
  { intros new N G. rewrite N in E. destruct (split_app _ _ _ _ _ E) as [(b0 & E0)|(a' & E0 & ->)]; [eapply IH; exact E0|eapply G; exact E0]. }
  destruct (step_cases V eqb m v0 (final h) l H) as [(new & T1 & T2 & T3 & (T4 & T4') & T5)|[(t1 & v1 & T1 & _)|(t1 & v1 & new & T1 & T2 & T3)]]; apply (OLD _ T1).
  - intros a' b' N. rewrite value_app, ann_app. assert (U : unchanged a') by (rewrite N in T3; apply unchanged_app in T3 as [T3 _]; exact T3). rewrite (unchanged_value V _ _ U), (unchanged_ann V _ _ U), (i_val _ _ _ _ H).
    apply (T4' s v). rewrite N. apply in_or_app. right. left. reflexivity.
  - intros a' b' N. exfalso. destruct a' as [|y [|]]; discriminate.
  - intros a' b' N. exfalso. destruct T3 as [[_ ->]|[->|[-> _]]]; destruct a' as [|y [|z [|w [|]]]]; discriminate.
Qed.
Lemma ann_value a w : all_announced a -> ann a = Some w -> value v0 a = w.
Proof.
  induction a as [|e a IH] using rev_ind; [discriminate|]. intros A. rewrite ann_app, value_app. assert (A' : all_announced a) by (intros t v X; apply (A t v); apply in_or_app; left; exact X).
  destruct e as [t v [|]| | |]; cbn; auto; [intros E; congruence|]. exfalso. apply (A t v). apply in_or_app. right. left. reflexivity.
Qed.
Lemma told_is_current h a s v b : trace h = a ++ VTold V s v :: b -> all_announced a -> v = value v0 a.
Proof. intros T A. destruct (told_current h a s v b T) as [E|E]; [exact E|]. symmetry. apply ann_value; auto. Qed.

(** ** Who joins, and who waits to be told *)
Definition no_join (l : list event) : Prop := forall s, ~ In (SigModel.EJoin s) (sigpart l).
Lemma signal_no_join st t a : (calm_action a /\ (forall c, a <> SigModel.AReconnect c) /\ a <> SigModel.AConnect SigModel.CPlain) \/ a = SigModel.AStep \/ a = SigModel.AReturn \/ (exists v, a = SigModel.AEmit v) ->
  exists l, tr (on_signal V m st t a) = tr st ++ l /\ no_join l.
Proof.
  intros C. destruct (on_signal_spec V m st t a) as (E1 & E2 & E3 & E4 & E5 & new & E6 & E7). eexists. split; [exact E7|]. intros s X. rewrite seen_sig in X. rewrite E1 in E6.
  destruct (new_joins m (sig st) t a new s E6 X) as [(c & ->)|(-> & _)].
  - destruct C as [[C _]|C]; auto.
  - destruct C as [(_ & C & _)|[C|[C|[v C]]]]; try discriminate. apply (C c). reflexivity.
  - destruct C as [(_ & _ & C)|[C|[C|[v C]]]]; try discriminate. auto.
Qed.
Lemma no_join_app a b : no_join a -> no_join b -> no_join (a ++ b).
Proof. intros A B s X. rewrite sigpart_app in X. apply in_app_or in X as [X|X]; [eapply A; exact X|eapply B; exact X]. Qed.

Definition K (s : nat) (st : state) : Prop := forall a b, tr st = a ++ VSig V (SigModel.EJoin s) :: b -> In s (observers (tr st)) -> (exists t, In (t, s) (pend st)) \/ exists w, In (VTold V s w) b.

Lemma observers_app a l s : no_join l -> In s (observers (a ++ l)) -> In s (observers a).
Proof.
  unfold observers, SigSpec.slots. rewrite sigpart_app. intros N X. apply in_map_iff in X as ([k s'] & E & X). cbn in E. subst s'. apply live_split in X as [X|X]; [|exfalso; exact (N _ X)]. apply in_map_iff. exists (k, s). auto.
Qed.
Lemma K_quiet s st st' l : K s st -> tr st' = tr st ++ l -> no_join l -> (forall p, In p (pend st) -> In p (pend st') \/ ~ In (snd p) (observers (tr st)) \/ exists w, In (VTold V (snd p) w) l) -> K s st'.
Proof.
  intros HK T N P a b E O. rewrite T in E, O. apply (observers_app _ _ _ N) in O. destruct (split_app _ _ _ _ _ E) as [(b0 & E0)|(a' & E0 & _)].
  - rewrite E0 in E. rewrite <- app_assoc in E. apply app_inv_head in E. cbn in E. injection E as <-. destruct (HK a b0 E0 O) as [(t & X)|(w & X)].
    + destruct (P _ X) as [Y|[Y|(w & Y)]]; [left; eauto|exfalso; apply Y; exact O|right; exists w; apply in_or_app; right; exact Y].
    + right. exists w. apply in_or_app. left. exact X.
  - exfalso. apply (N s). apply sigpart_in. rewrite E0. apply in_or_app. right. left. reflexivity.
Qed.
Definition keeps (a : action V) : Prop := match a with OPass _ (SigModel.AReconnect _) => False | _ => True end.

Lemma owned_live st s : I st -> SigModel.owned (keeper st) s = false -> ~ In s (observers (tr st)).
Proof.
  intros H O X. unfold observers in X. rewrite (i_sig _ _ _ _ H) in X. apply has_live in X. unfold SigModel.owned in O. unfold ObsModel.keeper in O. rewrite X in O. discriminate.
Qed.

Lemma K_next s st l : I st -> K s st -> keeps (snd l) -> callable s (tr (next st l)) -> K s (next st l).
Proof.
  intros H HK KE. unfold ObsModel.next. destruct (crashed V m st) eqn:CR; [intros _; exact HK|]. destruct l as [t a]. cbn [fst snd] in *.
  assert (QT : forall st' l, tr st' = tr st ++ l -> no_join l -> pend st' = pend st -> K s st') by (intros st' l T N P; apply (K_quiet s st st' l); auto; intros p X; left; rewrite P; exact X).
  assert (SM : forall st', tr st' = tr st -> pend st' = pend st -> K s st') by (intros st' T P; apply (QT st' []); [rewrite app_nil_r; exact T|intros ? []|exact P]).
  assert (NT : forall s0 v args, tr s0 = tr st ++ [VChange V t v true] -> pend s0 = pend st -> K s (notify V m s0 t args)).
  { intros s0 v args T P. destruct (signal_no_join s0 t (SigModel.AEmit 0)) as (l & L & N); [eauto 6|].
    destruct (on_signal_spec V m s0 t (SigModel.AEmit 0)) as (_ & _ & _ & E4 & _).
    apply (QT _ ([VChange V t v true] ++ l)).
    - unfold notify. destruct (SigModel.em (keeper s0)), (SigModel.em (keeper (on_signal V m s0 t (SigModel.AEmit 0)))); unfold push; cbn [ObsModel.tr with_hold]; rewrite L, T, <- app_assoc; reflexivity.
    - apply no_join_app; [intros ? []|exact N].
    - unfold notify. destruct (SigModel.em (keeper s0)), (SigModel.em (keeper (on_signal V m s0 t (SigModel.AEmit 0)))); unfold push; cbn [ObsModel.pend with_hold]; rewrite E4; exact P. }
  assert (SG : forall a, (calm_action a /\ (forall c, a <> SigModel.AReconnect c) /\ a <> SigModel.AConnect SigModel.CPlain) \/ a = SigModel.AStep \/ a = SigModel.AReturn -> forall h', K s (with_hold V (on_signal V m st t a) h') /\ K s (on_signal V m st t a)).
  { intros a0 C h'. destruct (signal_no_join st t a0) as (l & L & N); [tauto|]. destruct (on_signal_spec V m st t a0) as (_ & _ & _ & E4 & _). split; apply (QT _ l); auto. }
  destruct a as [f| | |l|v|l|l|v| | | |a]; cbn [ObsModel.act].
  - destruct (may V m st t) eqn:M; [|intros _; exact HK]. cbv zeta. set (s0 := length _). set (ok := SigModel.can_add m _).
    destruct (on_signal_spec V m st t (SigModel.AConnect SigModel.CPlain)) as (E1 & E2 & E3 & E4 & E5 & new & E6 & E7). set (st1 := on_signal V m st t (SigModel.AConnect SigModel.CPlain)) in *.
    assert (NJ : In (SigModel.EJoin s) new -> s = s0 /\ ok = true).
    { intros X. rewrite E1 in E6. destruct (new_joins m (sig st) t _ new s E6 X) as [(c & Y)|(_ & Y & Z)]; [left; right; reflexivity|discriminate|auto]. }
    assert (G : forall st' r, tr st' = tr st ++ flat_map (seen V (given V st t)) new ++ r -> sigpart r = [] -> (forall p, In p (pend st) -> In p (pend st')) -> (ok = true -> s = s0 -> In (t, s0) (pend st')) -> K s st').
    { intros st' r T R P1 P2 a b E O. rewrite T in E, O.
      assert (SR : sigpart (flat_map (seen V (given V st t)) new ++ r) = new) by (rewrite sigpart_app, seen_sig, R, app_nil_r; reflexivity).
      assert (JN : In (SigModel.EJoin s) new -> exists t0, In (t0, s) (pend st')) by (intros X; destruct (NJ X) as [EQ OK]; exists t; rewrite EQ; auto).
      destruct (split_app _ _ _ _ _ E) as [(b0 & E0)|(a' & E0 & _)].
      - assert (OO : In s (observers (tr st)) \/ In (SigModel.EJoin s) new).
        { unfold observers, SigSpec.slots in O. rewrite sigpart_app, SR in O. apply in_map_iff in O as ([k s'] & Z & O). cbn in Z. subst s'. apply live_split in O as [O|O]; [left|right; exact O]. apply in_map_iff. exists (k, s). auto. }
        destruct OO as [OO|OO]; [|left; auto]. rewrite E0 in E. rewrite <- app_assoc in E. apply app_inv_head in E. cbn in E. injection E as <-.
        destruct (HK a b0 E0 OO) as [(t0 & X)|(w & X)]; [left; eauto|right; exists w; apply in_or_app; left; exact X].
      - left. apply JN. rewrite <- SR. rewrite E0. rewrite sigpart_app. apply in_or_app. right. left. reflexivity. }
    fold st1. destruct ok eqn:OK.
    + rewrite andb_true_r. intros CA. destruct (tells f) eqn:TF.
      * apply (G _ [VConnect V t s0 f]); [cbn [ObsModel.tr with_pend emit]; rewrite E7, app_assoc; reflexivity|reflexivity|intros p X; cbn [ObsModel.pend with_pend emit]; right; rewrite E4; exact X|intros _ _; left; reflexivity].
      * apply (G _ [VConnect V t s0 f]); [cbn [ObsModel.tr with_pend emit]; rewrite E7, app_assoc; reflexivity|reflexivity|intros p X; cbn [ObsModel.pend with_pend emit]; rewrite E4; exact X|].
        intros _ EQ. exfalso. assert (f = FCallable); [|subst f; discriminate]. apply (CA t). cbn [ObsModel.tr emit]. rewrite EQ. apply in_or_app. right. left. reflexivity.
    + rewrite andb_false_r. intros _. apply (G _ []); [rewrite E7, app_nil_r; reflexivity|reflexivity|intros p X; rewrite E4; exact X|discriminate].
  - intros _. destruct (find _ (pend st)) as [[t' s2]|] eqn:FI; [|exact HK]. destruct (gets_lock V st t) eqn:G; [|exact HK]. cbv zeta. apply find_some in FI as [IN EQ]. cbn in EQ. apply Nat.eqb_eq in EQ. subst t'.
    assert (P : forall p, In p (pend st) -> In p (filter (fun p => negb (Nat.eqb t (fst p))) (pend st)) \/ snd p = s2).
    { intros [t1 s1] X. destruct (Nat.eqb t t1) eqn:E; [right|left; apply filter_In; cbn; rewrite E; auto]. apply Nat.eqb_eq in E. subst t1. cbn.
      pose proof (i_pend _ _ _ _ H) as ND. exact (ReqIds.nodup_fst_inj _ _ _ _ ND X IN). }
    destruct (SigModel.owned (keeper st) s2) eqn:OW.
    + apply (K_quiet s st _ [VTold V s2 (val st)]); auto; [intros s1 []|]. intros p X. destruct (P p X) as [Y|Y]; [left; exact Y|right; right]. rewrite Y. eexists. left. reflexivity.
    + apply (K_quiet s st _ []); auto; [rewrite app_nil_r; reflexivity|intros s1 []|]. intros p X. destruct (P p X) as [Y|Y]; [left; exact Y|right; left]. rewrite Y. apply owned_live; auto.
  - intros _. destruct (ObsModel.frames V st t) as [|[s2| |] fs]; try exact HK. destruct (runs V m st t); [|exact HK]. apply SM; reflexivity.
  - intros _. destruct (may V m st t && _); [|exact HK]. cbv zeta. apply (NT _ (update V (val st) l)); reflexivity.
  - intros _. destruct (may V m st t && _ && _); [|exact HK]. apply (NT _ v); reflexivity.
  - intros _. destruct (may V m st t); [|exact HK]. apply (QT _ [VChange V t (update V (val st) l) false]); [reflexivity|intros ? []|reflexivity].
  - intros _. destruct (may V m st t); [|exact HK]. apply SM; reflexivity.
  - intros _. destruct (runs V m st t && _ && _); [|exact HK]. apply (QT _ [VChange V t v false]); [reflexivity|intros ? []|reflexivity].
  - intros _. destruct (ObsModel.frames V st t) as [|[|args|old] fs]; try exact HK. destruct (runs V m st t); [|exact HK]. destruct (differs V eqb (val st) old); [|apply SM; reflexivity]. apply (NT _ (val st)); reflexivity.
  - intros _. destruct (ObsModel.frames V st t) as [|[|args|old] fs]; try exact HK. destruct (negb _ && _); [|exact HK]. cbv zeta. destruct (SigModel.em _); [eapply proj2, (SG SigModel.AStep) with (h' := None); auto|]. unfold pop. eapply proj1, (SG SigModel.AStep); auto.
  - intros _. destruct (ObsModel.frames V st t) as [|[|args|old] fs]; try exact HK. destruct (runs V m st t); [|exact HK]. cbv zeta. destruct (SigModel.em _); [eapply proj2, (SG SigModel.AReturn) with (h' := None); auto|]. unfold pop. eapply proj1, (SG SigModel.AReturn); auto.
  - intros _. destruct (may V m st t && passes a) eqn:M; [|exact HK]. apply andb_true_iff in M as [_ M]. eapply proj2, (SG a) with (h' := None). left. split; [left; exact M|]. split; [intros c ->; exact KE|intros ->; discriminate M].
Qed.

Lemma next_grows st l : I st -> exists new, tr (next st l) = tr st ++ new.
Proof. intros H. destruct (step_cases V eqb m v0 st l H) as [(new & T1 & _)|[(t1 & v1 & T1 & _)|(t1 & v1 & new & T1 & _)]]; eauto. Qed.
Lemma K_final s h : (forall t a, In (t, a) h -> keeps a) -> callable s (trace h) -> K s (final h).
Proof.
  unfold ObsModel.trace. intros KE. induction h as [|l h IH] using rev_ind; [intros _ a b E; cbn in E; destruct a; discriminate|].
  assert (FS : final (h ++ [l]) = next (final h) l) by (unfold ObsModel.final; rewrite fold_left_app; reflexivity). rewrite FS. intros CA.
  apply K_next; [apply I_final|apply IH; [intros t a X; apply (KE t a); apply in_or_app; left; exact X|]| |exact CA].
  - intros t f X. apply (CA t f). destruct (next_grows (final h) l (I_final V eqb m v0 h)) as (new & ->). apply in_or_app. left. exact X.
  - destruct l as [t a]. apply (KE t a). apply in_or_app. right. left. reflexivity.
Qed.

Lemma last_told_app s (a b : list event) : last_told s (a ++ b) = fold_left (told_step s) b (last_told s a).
Proof. apply fold_left_app. Qed.
Lemma last_told_is s w (b : list event) o : (forall x, In (VTold V s x) b -> x = w) -> (exists x, In (VTold V s x) b) \/ o = Some w -> fold_left (told_step s) b o = Some w.
Proof.
  revert o. induction b as [|e b IH]; intros o A B; [destruct B as [(x & [])|B]; exact B|]. cbn. apply IH; [intros x X; apply A; right; exact X|].
  destruct B as [(x & [X|X])|B]; [|left; eauto|].
  - subst e. right. cbn. rewrite Nat.eqb_refl. f_equal. apply A. left. reflexivity.
  - subst o. right. destruct e as [| s' y | |]; cbn; auto. destruct (Nat.eqb s s') eqn:E; [|reflexivity]. apply Nat.eqb_eq in E. subst s'. f_equal. apply A. left. reflexivity.
Qed.
(** The last change, if any. *)
Lemma last_change (l : list event) : unchanged l \/ exists a t v x b, l = a ++ VChange V t v x :: b /\ unchanged b.
Proof.
  induction l as [|e l IH] using rev_ind; [left; intros e []|].
  destruct e as [t v x| | |e']; [right; exists l, t, v, x, []; split; [reflexivity|intros e []]| | |];
    (destruct IH as [U|(a & t0 & v1 & x & b & -> & U)]; [left; apply unchanged_app; split; [exact U|]; intros e [<-|[]]; cbn; auto|right; exists a, t0, v1, x; eexists; split; [rewrite <- app_assoc; reflexivity|]; apply unchanged_app; split; [exact U|]; intros e [<-|[]]; cbn; auto]).
Qed.
Lemma told_since h a b w s : trace h = a ++ b -> (a = [] /\ w = v0 \/ exists a' t, a = a' ++ [VChange V t w true]) -> unchanged b -> (exists x, In (VTold V s x) b) -> last_told s (trace h) = Some w.
Proof.
  intros T W U B. rewrite T, last_told_app. apply last_told_is; [|left; exact B]. intros x X. destruct (in_split _ _ X) as (b1 & b2 & E).
  assert (T' : trace h = (a ++ b1) ++ VTold V s x :: b2) by (rewrite T, E, <- app_assoc; reflexivity). rewrite E in U. apply unchanged_app in U as [U _].
  destruct (told_current h _ _ _ _ T') as [Y|Y]; destruct W as [[-> ->]|(a' & t & ->)].
  - rewrite Y. cbn. apply (unchanged_value V v0 b1 U).
  - rewrite Y, <- app_assoc. cbn. apply value_last. exact U.
  - unfold ObsProofs2.ann in Y. cbn in Y. rewrite (unchanged_ann V None b1 U) in Y. discriminate.
  - rewrite <- app_assoc in Y. cbn in Y. rewrite ann_last in Y by exact U. congruence.
Qed.
Lemma observer_joined (l : list event) s : In s (observers l) -> In (VSig V (SigModel.EJoin s)) l.
Proof.
  intros X. unfold observers, SigSpec.slots in X. apply in_map_iff in X as ([k s'] & E & X). cbn in E. subst s'. apply sigpart_in. apply (live_split [] (sigpart l)) in X as [X|X]; [destruct X|exact X].
Qed.

Theorem up_to_date h s : (forall t a, In (t, a) h -> keeps a) -> callable s (trace h) -> settled (trace h) -> quiescent (final h) -> crashed V m (final h) = false -> In s (observers (trace h)) ->
  last_told s (trace h) = Some (val (final h)).
Proof.
  intros KE CA AA QU CR O. pose proof (I_final V eqb m v0 h) as H. pose proof (K_final s h KE CA) as HK. rewrite <- (i_val _ _ _ _ H). fold (trace h).
  assert (JT : forall a b, trace h = a ++ VSig V (SigModel.EJoin s) :: b -> exists w, In (VTold V s w) b).
  { intros a b T. destruct (HK a b T O) as [(t & X)|X]; [|exact X]. destruct QU as [_ QU]. rewrite QU in X. destruct X. }
  change (ObsModel.tr V (final h)) with (trace h).
  destruct (last_change (trace h)) as [U|(a & t & v & x & b & T & U)].
  - assert (W : value v0 (trace h) = v0) by (apply (unchanged_value V v0 _ U)). rewrite W. apply (told_since h [] (trace h)); auto. pose proof (observer_joined _ _ O) as J. destruct (in_split _ _ J) as (p & q & E). destruct (JT _ _ E) as (w & X).
    exists w. rewrite E. apply in_or_app. right. right. exact X.
  - pose proof (AA _ _ _ _ _ T U). subst x.
    assert (W : value v0 (trace h) = v) by (rewrite T; apply value_last; exact U). rewrite W.
    apply (told_since h (a ++ [VChange V t v true]) b); eauto; [rewrite T, <- app_assoc; reflexivity|].
    destruct (reaches V eqb m v0 h a t v b s QU CR T U O) as [X|X]; [eauto|]. destruct (in_split _ _ X) as (p & q & E). destruct (JT (a ++ VChange V t v true :: p) q) as (w & Y); [rewrite T, E, <- app_assoc; reflexivity|].
    exists w. rewrite E. apply in_or_app. right. right. exact Y.
Qed.
End Told.
