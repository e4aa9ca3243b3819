(** The observable model: invariant. *)
From Verif Require Import ListUtil.
From Verif Require Import SigProofs SigProofs2 SigProofs3 SigProofs4 SigProofs5 SigProofs6 SigProofs7 SigProofs8 SigProofs9 ObsProofs.
From Verif Require SigModel SigSpec.
From Verif Require Import ObsModel ObsSpec.
Import SigModel (mode, Multi, Single).

Section Inv.
Variable V : Type.
Variable eqb : V -> V -> bool.
Variable m : mode.
Variable v0 : list V.
Notation state := (ObsModel.state V).
Notation act := (ObsModel.act V eqb m).
Notation keeper := (ObsModel.keeper V m).
Notation final := (ObsModel.final V eqb m v0).
Notation trace := (ObsModel.trace V eqb m v0).
Notation next := (ObsModel.next V eqb m).
Notation tr := (ObsModel.tr V).
Notation val := (ObsModel.val V).
Notation sig := (ObsModel.sig V).
Notation hold := (ObsModel.hold V).
Notation pend := (ObsModel.pend V).
Notation event := (ObsModel.event V).
Notation frames := (ObsModel.frames V).

Local Arguments ObsModel.keeper : simpl never.
Local Arguments sigpart : simpl never.
Local Arguments value : simpl never.
Local Arguments SigModel.trace : simpl never.

Definition is_emit (f : frame V) : bool := match f with FEmit _ _ => true | _ => false end.
(** The last announced value. *)
Definition ann_step (o : option (list V)) (e : event) : option (list V) := match e with VChange _ _ w true => Some w | _ => o end.
Definition ann (l : list event) : option (list V) := fold_left ann_step l None.
Local Arguments ann : simpl never.
Lemma ann_app a b : ann (a ++ b) = fold_left ann_step b (ann a).
Proof. apply fold_left_app. Qed.
Lemma value_app (a b : list event) : value v0 (a ++ b) = fold_left value_step b (value v0 a).
Proof. apply fold_left_app. Qed.
Lemma sigpart_app (a b : list event) : sigpart (a ++ b) = sigpart a ++ sigpart b.
Proof. apply flat_map_app. Qed.

Lemma seen_value v l w : fold_left value_step (flat_map (seen V v) l) w = w.
Proof. induction l as [|e l IH]; [reflexivity|]. destruct e; cbn; exact IH. Qed.
Lemma seen_ann v l o : fold_left ann_step (flat_map (seen V v) l) o = o.
Proof. induction l as [|e l IH]; [reflexivity|]. destruct e; cbn; exact IH. Qed.
Lemma seen_sig v l : sigpart (flat_map (seen V v) l) = l.
Proof. unfold sigpart. induction l as [|e l IH]; [reflexivity|]. destruct e; cbn; f_equal; exact IH. Qed.

Lemma on_signal_spec st t a : let st' := on_signal V m st t a in
  sig st' = sig st ++ [(t, a)] /\ val st' = val st /\ hold st' = hold st /\ pend st' = pend st /\ keeper st' = SigModel.next m (keeper st) (t, a) /\
  exists new, SigModel.trace m (sig st') = SigModel.trace m (sig st) ++ new /\ tr st' = tr st ++ flat_map (seen V (given V st t)) new.
Proof.
  intros st'. unfold st', on_signal. cbn. repeat split; [apply final_snoc|].
  destruct (trace_grows m (sig st) t a) as (new & T). exists new. split; [exact T|]. f_equal. rewrite T, skipn_app, skipn_all, Nat.sub_diag. reflexivity.
Qed.

Record I (st : state) : Prop := {
  i_sig : sigpart (tr st) = SigModel.trace m (sig st);
  i_val : value v0 (tr st) = val st;
  i_hub : SigModel.hub (keeper st) = true;
  i_fol : follows (keeper st);
  i_ne : forall t, hold st <> Some (t, []);
  i_cnt : forall t fs, hold st = Some (t, fs) -> cnt is_emit fs = match SigModel.em (keeper st) with Some _ => 1 | None => 0 end;
  i_own : forall x, SigModel.em (keeper st) = Some x -> exists fs, hold st = Some (SigModel.e_thread x, fs);
  i_btw : forall x, SigModel.em (keeper st) = Some x -> SigModel.e_run x = None -> exists t a fs, hold st = Some (t, FEmit V a :: fs) /\ ~ In t (map fst (pend st));
  i_arg : crashed V m st = false -> forall x t fs a, SigModel.em (keeper st) = Some x -> hold st = Some (t, fs) -> In (FEmit V (Some a)) fs -> (m = Multi \/ SigModel.e_run x = None) -> ann (tr st) = Some a;
  i_pend : NoDup (map fst (pend st))
}.

(** [may] means that the signal can be called. *)
Lemma may_free st t : I st -> may V m st t = true -> SigModel.free (keeper st) t = true /\ gets_lock V st t = true /\ runs V m st t = true.
Proof.
  intros H M. unfold may in M. apply andb_true_iff in M as [R G]. split; [|auto]. unfold SigModel.free. destruct (SigModel.em (keeper st)) as [x|] eqn:E; [|reflexivity].
  destruct (i_own _ H x E) as (fs & HO). unfold gets_lock in G. rewrite HO in G. rewrite Nat.eqb_sym, G. apply Nat.eqb_eq in G. cbn.
  destruct (SigModel.e_run x) eqn:ER; [reflexivity|]. destruct (i_btw _ H x E ER) as (t' & a & fs' & HO' & _). rewrite HO in HO'. injection HO' as <- ->.
  unfold runs in R. unfold ObsModel.frames in R. rewrite HO, <- G, Nat.eqb_refl, E, ER, andb_false_r in R. discriminate.
Qed.
Lemma may_running st t x : I st -> runs V m st t = true -> gets_lock V st t = true -> SigModel.em (keeper st) = Some x -> SigModel.e_run x <> None /\ SigModel.e_thread x = t.
Proof.
  intros H R G E. assert (M : may V m st t = true) by (unfold may; rewrite R, G; reflexivity). destruct (may_free st t H M) as (F & _ & _). unfold SigModel.free in F. rewrite E in F.
  apply andb_true_iff in F as [F1 F2]. apply Nat.eqb_eq in F1. split; [|exact F1]. destruct (SigModel.e_run x); [discriminate|discriminate F2].
Qed.

Lemma I_init : I (init V v0).
Proof. split; cbn; auto; try discriminate; try constructor. Qed.

(** A calm call on the signal. *)
Lemma I_calm st t a : I st -> calm_action a -> I (on_signal V m st t a).
Proof.
  intros H C. destruct (on_signal_spec st t a) as (E1 & E2 & E3 & E4 & E5 & new & E6 & E7). destruct (calm_next m (keeper st) t a C) as (A & B & D).
  split; rewrite ?E2, ?E3, ?E4, ?E5, ?A.
  - rewrite E7, sigpart_app, seen_sig, E6, (i_sig _ H). reflexivity.
  - rewrite E7, value_app, seen_value. apply H.
  - rewrite D. apply H.
  - unfold follows. rewrite A, B. apply H.
  - apply H.
  - apply H.
  - apply H.
  - apply H.
  - intros CR x t0 fs a0. rewrite E7, ann_app, seen_ann. apply (i_arg _ H). unfold crashed, next in *. rewrite E5 in CR. unfold SigModel.next in CR. destruct (SigModel.crashed (keeper st)) eqn:X; [congruence|reflexivity].
  - apply H.
Qed.
Lemma I_emit st l : I st -> sigpart l = [] -> fold_left value_step l (val st) = val st -> (forall o, fold_left ann_step l o = o) -> I (emit V st l).
Proof.
  intros H S W N. split; cbn; try apply H.
  - rewrite sigpart_app, S, app_nil_r. apply H.
  - rewrite value_app, (i_val _ H). exact W.
  - intros. rewrite ann_app, N. eapply (i_arg _ H); eauto.
Qed.

Lemma frames_hold st t fs : hold st = Some (t, fs) -> frames st t = fs.
Proof. intros H. unfold ObsModel.frames. rewrite H, Nat.eqb_refl. reflexivity. Qed.
Lemma frames_lock st t : gets_lock V st t = true -> hold st = None /\ frames st t = [] \/ exists fs, hold st = Some (t, fs) /\ frames st t = fs.
Proof.
  unfold gets_lock. destruct (hold st) as [[t' fs]|] eqn:H; [|left; unfold ObsModel.frames; rewrite H; auto]. intros E. apply Nat.eqb_eq in E. subst t'. right. exists fs. split; [reflexivity|apply frames_hold; exact H].
Qed.
Lemma frames_in st t f fs : frames st t = f :: fs -> hold st = Some (t, f :: fs).
Proof. unfold ObsModel.frames. destruct (hold st) as [[t' fs']|] eqn:H; [|discriminate]. destruct (Nat.eqb t t') eqn:E; [|discriminate]. apply Nat.eqb_eq in E. subst t'. intros ->. reflexivity. Qed.

Lemma waiting_in st t : waiting V st t = false -> ~ In t (map fst (pend st)).
Proof.
  intros W X. apply in_map_iff in X as ([t' s] & E & X). cbn in E. subst t'. unfold waiting in W. rewrite <- not_true_iff_false, existsb_exists in W. apply W. exists (t, s). split; [exact X|]. cbn. apply Nat.eqb_refl.
Qed.
Lemma not_waiting_in st t : waiting V st t = true -> In t (map fst (pend st)).
Proof.
  unfold waiting. rewrite existsb_exists. intros ([t' s] & X & E). cbn in E. apply Nat.eqb_eq in E. subst t'. apply in_map_iff. exists (t, s). auto.
Qed.

(** A frame that is not an emission is put on or taken off. *)
Lemma I_push st t f : I st -> gets_lock V st t = true -> (runs V m st t = true \/ forall x, SigModel.em (keeper st) = Some x -> SigModel.e_run x <> None) -> is_emit f = false -> I (push V st t f).
Proof.
  intros H G R NF. unfold push. destruct (frames_lock st t G) as [[HO FR]|(fs & HO & FR)]; rewrite FR.
  - assert (E : SigModel.em (keeper st) = None) by (destruct (SigModel.em (keeper st)) as [x|] eqn:E; [destruct (i_own _ H x E); congruence|reflexivity]).
    split; cbn; try apply H; try discriminate.
    + intros t0 fs X. injection X as <- <-. change (keeper (with_hold V st (Some (t, [f])))) with (keeper st). rewrite E, cnt_cons, NF. reflexivity.
    + intros x X. change (keeper (with_hold V st (Some (t, [f])))) with (keeper st) in X. congruence.
    + intros x X. change (keeper (with_hold V st (Some (t, [f])))) with (keeper st) in X. congruence.
    + intros _ x t0 fs a X. change (keeper (with_hold V st (Some (t, [f])))) with (keeper st) in X. congruence.
  - split; cbn; try apply H; try discriminate.
    + intros t0 fs' X. injection X as <- <-. change (keeper (with_hold V st (Some (t, f :: fs)))) with (keeper st). rewrite cnt_cons, NF. apply (i_cnt _ H t fs HO).
    + intros x X. change (keeper (with_hold V st (Some (t, f :: fs)))) with (keeper st) in X. destruct (i_own _ H x X) as (fs' & HO'). rewrite HO in HO'. injection HO' as -> ->. eauto.
    + intros x X Y. change (keeper (with_hold V st (Some (t, f :: fs)))) with (keeper st) in X. exfalso. destruct R as [R|R]; [|apply (R x X Y)]. destruct (may_running st t x H R G X) as [Z _]. congruence.
    + intros CR x t0 fs' a X Y Z W. change (keeper (with_hold V st (Some (t, f :: fs)))) with (keeper st) in X. injection Y as <- <-. destruct Z as [->|Z]; [discriminate NF|]. eapply (i_arg _ H); eauto.
Qed.
Lemma I_pop st t f fs : I st -> frames st t = f :: fs -> is_emit f = false -> runs V m st t = true -> I (pop V st t).
Proof.
  intros H FR NF R. pose proof (frames_in _ _ _ _ FR) as HO. unfold pop. rewrite FR. cbn [tl].
  assert (C : cnt is_emit fs = match SigModel.em (keeper st) with Some _ => 1 | None => 0 end) by (pose proof (i_cnt _ H t _ HO) as X; rewrite cnt_cons, NF in X; exact X).
  assert (RU : forall x, SigModel.em (keeper st) = Some x -> SigModel.e_run x <> None).
  { intros x X. apply (may_running st t x H R); [unfold gets_lock; rewrite HO; apply Nat.eqb_refl|exact X]. }
  destruct fs as [|f' fs].
  - assert (E : SigModel.em (keeper st) = None) by (destruct (SigModel.em (keeper st)); [discriminate C|reflexivity]).
    split; cbn; try apply H; try discriminate.
    + intros x X. change (keeper (with_hold V st None)) with (keeper st) in X. congruence.
    + intros x X. change (keeper (with_hold V st None)) with (keeper st) in X. congruence.
  - split; cbn; try apply H; try discriminate.
    + intros t0 fs0 X. injection X as <- <-. exact C.
    + intros x X. change (keeper (with_hold V st (Some (t, f' :: fs)))) with (keeper st) in X. destruct (i_own _ H x X) as (fs' & HO'). rewrite HO in HO'. injection HO' as -> _. eauto.
    + intros x X Y. change (keeper (with_hold V st (Some (t, f' :: fs)))) with (keeper st) in X. exfalso. exact (RU x X Y).
    + intros CR x t0 fs' a X Y Z W. change (keeper (with_hold V st (Some (t, f' :: fs)))) with (keeper st) in X. injection Y as <- <-. eapply (i_arg _ H); eauto. right. exact Z.
Qed.

(** The value changes. *)
Lemma I_change st t v b : I st -> crashed V m st = false -> (b = true -> SigModel.em (keeper st) = None) -> I (emit V (with_val V st v) [VChange V t v b]).
Proof.
  intros H CR NE. split; cbn; try apply H.
  - rewrite sigpart_app. unfold sigpart at 2. cbn. rewrite app_nil_r. apply H.
  - rewrite value_app. reflexivity.
  - intros _ x t0 fs a X Y Z W. rewrite ann_app. cbn. destruct b; [change (keeper (emit V (with_val V st v) [VChange V t v true])) with (keeper st) in X; rewrite (NE eq_refl) in X; discriminate|].
    eapply (i_arg _ H); eauto.
Qed.
(** What a call on the signal never does to the value and to what was announced. *)
Lemma I_sig_parts st t a : I st -> let st' := on_signal V m st t a in
  sigpart (tr st') = SigModel.trace m (sig st') /\ value v0 (tr st') = val st' /\ ann (tr st') = ann (tr st).
Proof.
  intros H st'. unfold st'. destruct (on_signal_spec st t a) as (E1 & E2 & E3 & E4 & E5 & new & E6 & E7).
  rewrite E2, E7, sigpart_app, value_app, ann_app, seen_sig, seen_value, seen_ann, E6, (i_sig _ H), (i_val _ H). auto.
Qed.

(** A change is announced. *)
Lemma I_announce st t v args : I st -> crashed V m st = false -> SigModel.free (keeper st) t = true -> gets_lock V st t = true -> ~ In t (map fst (pend st)) ->
  args = None \/ args = Some v -> I (notify V m (emit V (with_val V st v) [VChange V t v true]) t args).
Proof.
  intros H CR FR G NP AR. set (s1 := emit V (with_val V st v) [VChange V t v true]).
  assert (KS : keeper s1 = keeper st) by reflexivity. assert (HS : hold s1 = hold st) by reflexivity. assert (PS : pend s1 = pend st) by reflexivity.
  assert (P : let st' := on_signal V m s1 t (SigModel.AEmit 0) in sigpart (tr st') = SigModel.trace m (sig st') /\ value v0 (tr st') = val st' /\ ann (tr st') = Some v).
  { cbv zeta. destruct (on_signal_spec s1 t (SigModel.AEmit 0)) as (E1 & E2 & E3 & E4 & E5 & new & E6 & E7).
    rewrite E2, E7, sigpart_app, value_app, ann_app, seen_sig, seen_value, seen_ann, E6. unfold s1 at 1 3 5. cbn [ObsModel.tr emit with_val].
    rewrite sigpart_app, value_app, ann_app. unfold sigpart at 2. cbn [flat_map]. rewrite app_nil_r, (i_sig _ H). cbn. auto. }
  destruct P as (P1 & P2 & P3).
  destruct (on_signal_spec s1 t (SigModel.AEmit 0)) as (E1 & E2 & E3 & E4 & E5 & _).
  destruct (sig_emit m (sig st) t 0 CR (i_fol _ H) (i_hub _ H) FR) as [X|[X|[X|X]]];
    unfold notify; set (s2 := on_signal V m s1 t (SigModel.AEmit 0)) in *;
    replace (SigModel.final m (sig st ++ [(t, SigModel.AEmit 0)])) with (keeper s2) in X by (unfold ObsModel.keeper; rewrite E1; reflexivity);
    change (SigModel.final m (sig st)) with (keeper st) in X; rewrite KS.
  - destruct X as (M1 & M2 & M3 & M4 & M5 & M6). rewrite M1, M2.
    split; try assumption; rewrite ?M2, ?E3, ?E4, ?HS, ?PS; try discriminate; try apply H.
    + unfold follows. rewrite M2, M6. intros _. apply (i_fol _ H). exact M1.
    + intros t0 fs HO. rewrite (i_cnt _ H t0 fs HO), M1. reflexivity.
  - destruct X as (M1 & M2 & M3 & M4 & M5). rewrite M1, M2. unfold push.
    assert (FS : frames s2 t = frames st t) by (unfold ObsModel.frames; rewrite E3, HS; reflexivity). rewrite FS.
    assert (CN : cnt is_emit (frames st t) = 0).
    { destruct (frames_lock st t G) as [[_ ->]|(fs & HO & ->)]; [reflexivity|]. rewrite (i_cnt _ H t fs HO), M1. reflexivity. }
    split; cbn [ObsModel.tr ObsModel.val ObsModel.sig ObsModel.hold ObsModel.pend with_hold]; try assumption; change (keeper (with_hold V s2 ?h)) with (keeper s2); rewrite ?M2; try discriminate.
    + intros X. congruence.
    + intros t0 fs X. injection X as <- <-. rewrite cnt_cons, CN. reflexivity.
    + intros x X. injection X as <-. cbn. eauto.
    + intros x X _. rewrite E4, PS. exists t, args, (frames st t). auto.
    + intros _ x t0 fs a X Y Z W. injection Y as <- <-. destruct Z as [Z|Z]; [destruct AR as [->| ->]; [discriminate Z|injection Z as <-; exact P3]|].
      exfalso. destruct (in_split _ _ Z) as (l1 & l2 & L). rewrite L, cnt_app, cnt_cons in CN. cbn [is_emit b2n] in CN. lia.
    + rewrite E4, PS. apply H.
  - destruct X as (M1 & M2 & M3 & M4 & M5 & M6). rewrite M2. destruct (SigModel.em (keeper st)) as [x|] eqn:EM; [|congruence].
    split; try assumption; rewrite ?M2, ?E3, ?E4, ?HS, ?PS; try discriminate; try apply H.
    + unfold follows. rewrite M2. discriminate.
    + intros t0 fs HO. rewrite (i_cnt _ H t0 fs HO), EM. reflexivity.
    + intros y Y. rewrite <- EM in Y. apply (i_own _ H y Y).
    + intros y Y. rewrite <- EM in Y. apply (i_btw _ H y Y).
    + unfold crashed. rewrite M3. discriminate.
  - destruct X as (x & EM & R & MS & M2 & M3 & M4 & M5 & M6). rewrite M2, EM.
    split; try assumption; rewrite ?M2, ?E3, ?E4, ?HS, ?PS; try discriminate; try apply H.
    + unfold follows. rewrite M2, EM. discriminate.
    + intros _ y t0 fs a Y Z W [->|U]; [discriminate MS|]. congruence.
Qed.

(** The emission goes on. *)
Lemma waiting_not st t : ~ In t (map fst (pend st)) -> waiting V st t = false.
Proof. intros N. destruct (waiting V st t) eqn:W; [exfalso; apply N, not_waiting_in, W|reflexivity]. Qed.
Lemma emit_frame st t f fs : I st -> hold st = Some (t, f :: fs) -> is_emit f = true -> exists x, SigModel.em (keeper st) = Some x /\ SigModel.e_thread x = t /\ cnt is_emit fs = 0.
Proof.
  intros H HO F. pose proof (i_cnt _ H t _ HO) as C. rewrite cnt_cons, F in C. destruct (SigModel.em (keeper st)) as [x|] eqn:E; [|discriminate].
  exists x. split; [reflexivity|]. destruct (i_own _ H x E) as (fs' & HO'). rewrite HO in HO'. injection HO' as -> _. split; [reflexivity|]. cbn [b2n] in C. lia.
Qed.
Lemma I_over st t a x f fs : I st -> frames st t = f :: fs -> is_emit f = true -> SigModel.em (keeper st) = Some x -> ~ In t (map fst (pend st)) -> crashed V m st = false ->
  let st1 := on_signal V m st t a in
  SigModel.crashed (keeper st1) = false /\ SigModel.hub (keeper st1) = true /\
  ((exists x', SigModel.em (keeper st1) = Some x' /\ SigModel.e_thread x' = t) \/ (SigModel.em (keeper st1) = None /\ SigModel.notif (keeper st1) = false)) ->
  (m = Single -> SigModel.e_run x <> None -> SigModel.em (keeper st1) = None) ->
  I (match SigModel.em (keeper st1) with None => pop V st1 t | Some _ => st1 end).
Proof.
  intros H FR F EM NP CR st1 (C1 & HB & D) SI. pose proof (frames_in _ _ _ _ FR) as HO. destruct (emit_frame st t f fs H HO F) as (y & EY & TY & CN). rewrite EM in EY. injection EY as <-.
  destruct (I_sig_parts st t a H) as (P1 & P2 & P3). fold st1 in P1, P2, P3. destruct (on_signal_spec st t a) as (E1 & E2 & E3 & E4 & E5 & _). fold st1 in E1, E2, E3, E4, E5.
  destruct f as [|args|]; try discriminate F.
  destruct D as [(x' & X1 & X2)|[X1 X2]]; rewrite X1.
  - split; try assumption; rewrite ?X1, ?E3, ?E4; try discriminate; try apply H.
    + unfold follows. rewrite X1. discriminate.
    + intros t0 fs0 X. rewrite (i_cnt _ H t0 fs0 X), EM. reflexivity.
    + intros y Y. injection Y as <-. rewrite X2. eauto.
    + intros y Y _. exists t, args, fs. auto.
    + intros _ y t0 fs0 a0 Y Z W U. rewrite P3. eapply (i_arg _ H CR x t0 fs0 a0 EM Z W). destruct m; [auto|]. right. destruct (SigModel.e_run x) eqn:ER; [|reflexivity]. exfalso. rewrite SI in X1; [discriminate|reflexivity|congruence].
  - unfold pop. assert (FS : frames st1 t = FEmit V args :: fs) by (unfold ObsModel.frames; rewrite E3, HO, Nat.eqb_refl; reflexivity). rewrite FS. cbn [tl].
    assert (KEY : forall h, h = None \/ h = Some (t, fs) /\ fs <> [] -> I (with_hold V st1 h)); [|apply KEY; destruct fs; [left; reflexivity|right; split; [reflexivity|discriminate]]].
    intros h EH.
    assert (X1' : SigModel.em (keeper (with_hold V st1 h)) = None) by exact X1.
    split; cbn [ObsModel.tr ObsModel.val ObsModel.sig ObsModel.hold ObsModel.pend with_hold]; rewrite ?X1'; try assumption; try discriminate.
    + intros _. exact X2.
    + intros t0 X. destruct EH as [EH|[EH N]]; congruence.
    + intros t0 fs0 X. destruct EH as [EH|[EH N]]; [congruence|]. replace fs0 with fs by congruence. exact CN.
    + rewrite E4. apply H.
Qed.
Lemma I_pend st l : I st -> NoDup (map fst l) -> (forall t, In t (map fst l) -> In t (map fst (pend st)) \/ runs V m st t = true /\ gets_lock V st t = true) -> I (with_pend V st l).
Proof.
  intros H ND LI. split; cbn [ObsModel.tr ObsModel.val ObsModel.sig ObsModel.hold ObsModel.pend with_pend]; try assumption; try apply H.
  change (keeper (with_pend V st l)) with (keeper st). intros x E R. destruct (i_btw _ H x E R) as (t & a & fs & HO & NP). exists t, a, fs. split; [exact HO|]. intros X. destruct (LI t X) as [Y|[Y1 Y2]]; [auto|].
  destruct (may_running st t x H Y1 Y2 E) as [Z _]. congruence.
Qed.

Lemma NoDup_map_filter {A B} (f : A -> B) g l : NoDup (map f l) -> NoDup (map f (filter g l)).
Proof.
  induction l as [|x l IH]; cbn; [auto|]. intros N. inversion N as [|? ? N1 N2]; subst. destruct (g x); cbn; [|auto]. constructor; [|auto]. intros X. apply N1. apply in_map_iff in X as (y & E & Y). apply filter_In in Y as [Y _]. apply in_map_iff. eauto.
Qed.
Lemma runs_np st t : runs V m st t = true -> ~ In t (map fst (pend st)).
Proof. unfold runs. intros R. apply andb_true_iff in R as [R _]. apply waiting_in. apply negb_true_iff. exact R. Qed.
Lemma runs_frames st t f fs x : frames st t = f :: fs -> is_emit f = true -> SigModel.em (keeper st) = Some x -> runs V m st t = negb (waiting V st t) && match SigModel.e_run x with Some _ => true | None => false end.
Proof. intros FR F E. unfold runs. rewrite FR. destruct f; try discriminate F. rewrite E. reflexivity. Qed.

Lemma I_act st l : I st -> I (next st l).
Proof.
  intros H. unfold ObsModel.next. destruct (crashed V m st) eqn:CR; [exact H|]. destruct l as [t a]. cbn [fst snd]. destruct a as [f| | |l|v|l|l|v| | | |a]; cbn [ObsModel.act].
  - destruct (may V m st t) eqn:M; [|exact H]. destruct (may_free st t H M) as (F & G & R). cbv zeta.
    set (ok := SigModel.can_add m _). set (s := length _).
    assert (H1 : I (on_signal V m st t (SigModel.AConnect SigModel.CPlain))) by (apply I_calm; [exact H|right; reflexivity]).
    set (st1 := on_signal V m st t (SigModel.AConnect SigModel.CPlain)) in *.
    assert (H2 : I (if ok then emit V st1 [VConnect V t s f] else st1)) by (destruct ok; [apply I_emit; auto|exact H1]).
    destruct (tells f && ok) eqn:TF; [|exact H2]. apply andb_true_iff in TF as [_ OK]. rewrite OK in *.
    destruct (on_signal_spec st t (SigModel.AConnect SigModel.CPlain)) as (E1 & E2 & E3 & E4 & E5 & _). fold st1 in E1, E2, E3, E4, E5.
    destruct (calm_next m (keeper st) t (SigModel.AConnect SigModel.CPlain) (or_intror eq_refl)) as (K1 & _).
    assert (RE : forall t0, runs V m (emit V st1 [VConnect V t s f]) t0 = runs V m st t0).
    { intros t0. unfold runs, waiting, ObsModel.frames. cbn [ObsModel.pend ObsModel.hold emit]. rewrite E3, E4. change (keeper (emit V st1 [VConnect V t s f])) with (keeper st1). rewrite E5, K1. reflexivity. }
    assert (GE : forall t0, gets_lock V (emit V st1 [VConnect V t s f]) t0 = gets_lock V st t0) by (intros t0; unfold gets_lock; cbn [ObsModel.hold emit]; rewrite E3; reflexivity).
    apply I_pend; [exact H2| |].
    + cbn [ObsModel.pend emit map fst]. constructor; [rewrite E4; apply runs_np; exact R|rewrite E4; apply H].
    + cbn [ObsModel.pend emit map fst]. intros t0 [<-|X]; [right; rewrite RE, GE; auto|left; exact X].
  - destruct (find _ (pend st)) as [[t' s]|] eqn:FI; [|exact H]. destruct (gets_lock V st t) eqn:G; [|exact H]. cbv zeta. apply find_some in FI as [IN EQ]. cbn in EQ. apply Nat.eqb_eq in EQ. subst t'.
    set (l := filter _ _).
    assert (H1 : I (with_pend V st l)).
    { apply I_pend; [exact H| |].
      - unfold l. apply NoDup_map_filter. apply H.
      - intros t0 X. left. apply in_map_iff in X as (p & <- & X). unfold l in X. apply filter_In in X as [X _]. apply in_map. exact X. }
    destruct (SigModel.owned (keeper st) s); [|exact H1]. apply I_emit; auto. apply I_push; auto.
    right. intros x E R. destruct (i_btw _ H x E R) as (t0 & a & fs & HO & NP). unfold gets_lock in G. rewrite HO in G. apply Nat.eqb_eq in G. subst t0. apply NP. apply in_map_iff. exists (t, s). auto.
  - destruct (frames st t) as [|[s| |] fs] eqn:FR; try exact H. destruct (runs V m st t) eqn:R; [|exact H]. eapply I_pop; eauto.
  - destruct (may V m st t) eqn:M; [|exact H]. destruct (differs V eqb (val st) l); [|exact H]. destruct (may_free st t H M) as (F & G & R). cbn [andb]. cbv zeta. apply I_announce; auto. apply runs_np. exact R.
  - destruct (may V m st t) eqn:M; [|exact H]. cbn [andb]. destruct (Nat.eqb _ _ && _); [|exact H]. destruct (may_free st t H M) as (F & G & R). apply I_announce; auto. apply runs_np. exact R.
  - destruct (may V m st t) eqn:M; [|exact H]. apply I_change; auto. discriminate.
  - destruct (may V m st t) eqn:M; [|exact H]. destruct (may_free st t H M) as (F & G & R). apply I_push; auto.
  - destruct (runs V m st t && _ && _); [|exact H]. apply I_change; auto. discriminate.
  - destruct (frames st t) as [|[|args|old] fs] eqn:FR; try exact H. destruct (runs V m st t) eqn:R; [|exact H].
    assert (H1 : I (pop V st t)) by (eapply I_pop; eauto).
    destruct (differs V eqb (val st) old); [|exact H1].
    pose proof (frames_in _ _ _ _ FR) as HO. assert (G : gets_lock V st t = true) by (unfold gets_lock; rewrite HO; apply Nat.eqb_refl).
    assert (M : may V m st t = true) by (unfold may; rewrite R, G; reflexivity).
    destruct (may_free st t H M) as (F & _ & _).
    change (emit V (pop V st t) [VChange V t (val st) true]) with (emit V (with_val V (pop V st t) (val st)) [VChange V t (val st) true]). apply I_announce; auto.
    + unfold pop. rewrite FR. cbn [tl]. unfold gets_lock. cbn [ObsModel.hold with_hold]. destruct fs; [reflexivity|apply Nat.eqb_refl].
    + apply runs_np in R. exact R.
  - destruct (frames st t) as [|[|args|old] fs] eqn:FR; try exact H. destruct (negb (runs V m st t) && negb (waiting V st t)) eqn:R; [|exact H].
    pose proof (frames_in _ _ _ _ FR) as HO. destruct (emit_frame st t _ fs H HO eq_refl) as (x & EM & TX & CN).
    apply andb_true_iff in R as [R1 R2]. rewrite (runs_frames st t _ fs x FR eq_refl EM), R2 in R1. cbn [andb] in R1. destruct (SigModel.e_run x) eqn:ER; [discriminate R1|].
    cbv zeta. destruct (on_signal_spec st t SigModel.AStep) as (E1 & _).
    apply (I_over st t SigModel.AStep x (FEmit V args) fs); auto.
    + apply waiting_in. apply negb_true_iff. exact R2.
    + unfold ObsModel.keeper. rewrite E1. destruct (sig_step m (sig st) t x CR EM TX ER (i_hub _ H)) as (A & B & [(x' & C1 & C2 & _)|(C1 & C2 & _)]); eauto 8.
    + congruence.
  - destruct (frames st t) as [|[|args|old] fs] eqn:FR; try exact H. destruct (runs V m st t) eqn:R; [|exact H].
    pose proof (frames_in _ _ _ _ FR) as HO. destruct (emit_frame st t _ fs H HO eq_refl) as (x & EM & TX & CN).
    assert (NP := runs_np _ _ R).
    rewrite (runs_frames st t _ fs x FR eq_refl EM) in R. apply andb_true_iff in R as [R2 R1]. assert (ER : SigModel.e_run x <> None) by (destruct (SigModel.e_run x); [discriminate|discriminate R1]).
    cbv zeta. destruct (on_signal_spec st t SigModel.AReturn) as (E1 & _).
    destruct (sig_return m (sig st) t x CR EM TX ER (i_hub _ H)) as (A & B & D).
    apply (I_over st t SigModel.AReturn x (FEmit V args) fs); auto; unfold ObsModel.keeper; rewrite E1.
    + destruct D as [(_ & x' & C1 & C2 & _)|(C1 & C2 & _)]; eauto 8.
    + intros MS _. destruct D as [(C & _)|(C1 & _)]; [congruence|exact C1].
  - destruct (may V m st t) eqn:M; [|exact H]. cbn [andb]. destruct (passes a) eqn:P; [|exact H]. apply I_calm; [exact H|left; exact P].
Qed.
Lemma I_final h : I (final h).
Proof.
  unfold ObsModel.final. assert (X : I (init V v0)) by apply I_init. revert X. generalize (init V v0). induction h as [|l h IH]; intros st X; [exact X|]. cbn. apply IH, I_act, X.
Qed.
End Inv.
