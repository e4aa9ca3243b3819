(** The observable model: further facts, for compounds. *)
From Verif Require Import ListUtil.
From Verif Require Import SigProofs SigProofs2 SigProofs3 SigProofs4 SigProofs5 SigProofs6 SigProofs7 SigProofs8 SigProofs9 ObsProofs.
From Verif Require SigModel SigSpec.
From Verif Require Import ObsModel ObsSpec ObsProofs2 ObsProofs3 ObsProofs4 ObsProofs5.
Import SigModel (mode, Multi, Single).

Lemma owned_bound m h s : SigModel.owned (SigModel.final m h) s = true -> s < length (SigModel.kinds (SigModel.final m h)).
Proof.
  pose proof (J_final m h) as J0. unfold SigModel.owned. intros O. apply orb_true_iff in O as [O|O]; [apply orb_true_iff in O as [O|O]|].
  - apply (j_ent _ J0). exact O.
  - apply existsb_exists in O as (x & X & E). apply Nat.eqb_eq in E. subst x. apply (j_held _ J0) in X. eapply nth_lt. exact X.
  - apply existsb_exists in O as (x & X & E). destruct x as [|s'|]; try discriminate. cbn in E. apply Nat.eqb_eq in E. subst s'. apply In_nth_error in X as (c & X). eapply (j_ptr _ J0). exact X.
Qed.

Section More.
Variable V : Type.
Variable eqb : V -> V -> bool.
Variable m : mode.
Variable v0 : list V.
Notation state := (ObsModel.state V).
Notation keeper := (ObsModel.keeper V m).
Notation final := (ObsModel.final V eqb m v0).
Notation trace := (ObsModel.trace V eqb m v0).
Notation next := (ObsModel.next V eqb m).
Notation tr := (ObsModel.tr V).
Notation val := (ObsModel.val V).
Notation sig := (ObsModel.sig V).
Notation hold := (ObsModel.hold V).
Notation pend := (ObsModel.pend V).
Notation event := (ObsModel.event V).
Notation I := (ObsProofs2.I V m v0).
Local Arguments ObsModel.keeper : simpl never.
Local Arguments sigpart : simpl never.
Local Arguments value : simpl never.
Local Arguments SigModel.trace : simpl never.

(** While one thread holds the observable the others can do nothing. *)
Lemma held_by_another st t t' fs a : hold st = Some (t', fs) -> t <> t' -> next st (t, a) = st.
Proof.
  intros HO NE. assert (G : gets_lock V st t = false) by (unfold gets_lock; rewrite HO; apply Nat.eqb_neq; exact NE).
  assert (F : frames V st t = []) by (unfold frames; rewrite HO; apply Nat.eqb_neq in NE; rewrite NE; reflexivity).
  assert (M : may V m st t = false) by (unfold may; rewrite G; apply andb_false_r).
  unfold ObsModel.next. destruct (crashed V m st); [reflexivity|]. cbn [fst snd]. destruct a; cbn [ObsModel.act]; rewrite ?M, ?F, ?G; cbn [existsb andb]; rewrite ?andb_false_r; try reflexivity.
  destruct (find _ _) as [[]|]; reflexivity.
Qed.

Lemma seen_one v new s w : In (VTold V s w) (flat_map (seen V v) new) -> exists t e k x, In (SigModel.ECall t e k s x) new.
Proof. intros X. apply in_flat_map in X as (y & Y & X). destruct y; cbn in X; repeat (destruct X as [X|X]; [try discriminate X|]); try contradiction. injection X as -> _. eauto. Qed.

(** A slot that is called is called by a thread that then holds the observable, and it is the only one called in that step. *)
Lemma told_holds st t a new s v : I st -> tr (next st (t, a)) = tr st ++ new -> In (VTold V s v) new ->
  (exists fs, hold (next st (t, a)) = Some (t, fs)) /\ s < length (SigModel.kinds (keeper st)) /\ exists l, new = l ++ [VTold V s v] /\ forall s' v', ~ In (VTold V s' v') l.
Proof.
  intros H. unfold ObsModel.next. destruct (crashed V m st) eqn:CR; [intros T X; apply (f_equal (@length _)) in T; rewrite app_length in T; destruct new; [destruct X|cbn in T; lia]|]. cbn [fst snd].
  assert (NO : forall l, tr st ++ l = tr st ++ new -> (forall s' v', ~ In (VTold V s' v') l) -> In (VTold V s v) new -> False) by (intros l E N X; apply app_inv_head in E; subst l; eapply N; exact X).
  assert (NO0 : tr st = tr st ++ new -> In (VTold V s v) new -> False) by (intros E; apply (NO []); [rewrite app_nil_r; exact E|intros ? ? []]).
  assert (SG : forall s0 b l0, sig s0 = sig st -> b <> SigModel.AStep -> tr s0 = tr st ++ l0 -> (forall s' v', ~ In (VTold V s' v') l0) -> tr (on_signal V m s0 t b) = tr st ++ new -> In (VTold V s v) new -> False).
  { intros s0 b l0 ES NB T0 N0 T X. destruct (on_signal_spec V m s0 t b) as (E1 & _ & _ & _ & _ & nw & E6 & E7). rewrite E7, T0, <- app_assoc in T. apply app_inv_head in T. subst new. apply in_app_or in X as [X|X]; [eapply N0; exact X|].
    destruct (seen_one _ _ _ _ X) as (t1 & e & k & x & Y). rewrite E1 in E6. destruct (new_calls m (sig s0) t b nw _ _ _ _ _ E6 Y) as (_ & Z & _). contradiction. }
  assert (NT : forall s0 w args, sig s0 = sig st -> tr s0 = tr st ++ [VChange V t w true] -> tr (notify V m s0 t args) = tr st ++ new -> In (VTold V s v) new -> False).
  { intros s0 w args ES T0 T X. apply (SG s0 (SigModel.AEmit 0) [VChange V t w true]); auto; [discriminate|intros s' v' [Z|[]]; discriminate|]. unfold notify in T. destruct (SigModel.em (keeper s0)), (SigModel.em (keeper (on_signal V m s0 t (SigModel.AEmit 0)))); exact T. }
  destruct a as [f| | |l|v1|l|l|v1| | | |a]; cbn [ObsModel.act].
  - destruct (may V m st t); [|intros T X; exfalso; auto]. cbv zeta. set (ok := SigModel.can_add m _). set (s0 := length _).
    destruct (on_signal_spec V m st t (SigModel.AConnect SigModel.CPlain)) as (E1 & _ & _ & _ & _ & nw & E6 & E7). set (st1 := on_signal V m st t (SigModel.AConnect SigModel.CPlain)) in *.
    assert (NN : forall r, (forall s' v', ~ In (VTold V s' v') r) -> flat_map (seen V (given V st t)) nw ++ r = new -> In (VTold V s v) new -> False).
    { intros r NR <- X. apply in_app_or in X as [X|X]; [|eapply NR; exact X]. destruct (seen_one _ _ _ _ X) as (t1 & e & k & x & Y). rewrite E1 in E6. destruct (new_calls m (sig st) t _ nw _ _ _ _ _ E6 Y) as (_ & Z & _). discriminate Z. }
    assert (TN : forall st' r, tr st' = tr st1 ++ r -> (forall s' v', ~ In (VTold V s' v') r) -> tr st' = tr st ++ new -> In (VTold V s v) new -> False).
    { intros st' r T1 NR T. rewrite T1, E7, <- app_assoc in T. apply app_inv_head in T. eapply NN; eauto. }
    intros T X. exfalso. destruct ok; [|rewrite andb_false_r in T; apply (TN st1 []); auto; rewrite app_nil_r; reflexivity]. rewrite andb_true_r in T.
    eapply (TN _ [VConnect V t s0 f]); [|intros s' v' [Z|[]]; discriminate|exact T|exact X]. destruct (tells f); reflexivity.
  - destruct (find _ (pend st)) as [[t' s1]|] eqn:FI; [|intros T X; exfalso; auto]. destruct (gets_lock V st t); [|intros T X; exfalso; auto]. cbv zeta. destruct (SigModel.owned (keeper st) s1) eqn:OW; [|intros T X; exfalso; auto].
    cbn [ObsModel.tr emit push with_hold with_pend]. intros T X. apply app_inv_head in T. subst new. destruct X as [X|[]]. injection X as -> ->. split; [eexists; reflexivity|]. split; [|exists []; split; [reflexivity|intros ? ? []]].
    apply (owned_bound m (sig st) s OW).
  - intros T X. exfalso. destruct (frames V st t) as [|[s1| |] fs]; auto. destruct (runs V m st t); auto.
  - intros T X. exfalso. destruct (may V m st t && _); auto. cbv zeta in T. eapply NT; [| |exact T|exact X]; reflexivity.
  - intros T X. exfalso. destruct (may V m st t && _ && _); auto. eapply NT; [| |exact T|exact X]; reflexivity.
  - intros T X. exfalso. destruct (may V m st t); auto. eapply (NO [_]); [exact T|intros s' v' [Z|[]]; discriminate|exact X].
  - intros T X. exfalso. destruct (may V m st t); auto.
  - intros T X. exfalso. destruct (runs V m st t && _ && _); auto. eapply (NO [_]); [exact T|intros s' v' [Z|[]]; discriminate|exact X].
  - intros T X. exfalso. destruct (frames V st t) as [|[|args|old] fs]; auto. destruct (runs V m st t); auto. destruct (differs V eqb (val st) old); auto. eapply NT; [| |exact T|exact X]; reflexivity.
  - destruct (frames V st t) as [|[|args|old] fs] eqn:FR; try (intros T X; exfalso; auto; fail). destruct (negb _ && _); [|intros T X; exfalso; auto]. cbv zeta.
    destruct (on_signal_spec V m st t SigModel.AStep) as (E1 & _ & E3 & _ & E5 & nw & E6 & E7). set (st1 := on_signal V m st t SigModel.AStep) in *.
    intros T X. assert (TT : tr st1 = tr st ++ new) by (destruct (SigModel.em (keeper st1)); exact T). rewrite E7 in TT. apply app_inv_head in TT. subst new.
    destruct (seen_one _ _ _ _ X) as (t1 & e & k & x & Y). rewrite E1 in E6. destruct (new_calls m (sig st) t _ nw _ _ _ _ _ E6 Y) as (_ & _ & -> & y & EM & ER & _).
    pose proof (frames_in V _ _ _ _ FR) as HO.
    assert (EM' : SigModel.em (keeper st1) <> None).
    { rewrite E5. intros Z. unfold SigModel.trace in E6. rewrite final_snoc in E6. change (SigModel.final m (sig st)) with (keeper st) in E6, EM. unfold SigModel.next in Z, E6. unfold crashed in CR. rewrite CR in Z, E6. cbn [fst snd] in Z, E6.
      unfold SigModel.watch in Z, E6. rewrite EM, ER in Z, E6. unfold SigModel.act in Z, E6. rewrite EM, ER in Z, E6. destruct (Nat.eqb (SigModel.e_thread y) t); [|congruence].
      revert E6 Z. unfold SigModel.step. destruct (nth_error (SigModel.entries (keeper st)) (SigModel.e_cur y)) as [[[n s1]|]|].
      - destruct (nth_error (SigModel.kinds (keeper st)) s1) as [[| | |o c]|]; try (cbn; discriminate). destruct (SigModel.is_dead (keeper st) o); [|cbn; discriminate].
        destruct (tr_disconnect m (keeper st) c) as (l0 & E0 & D0). cbv zeta. intros E6 Z. revert E6.
        set (sd := fst (SigModel.disconnect m (keeper st) c)) in *. set (s2 := match nth_error (SigModel.conns sd) c with Some (SigModel.CPtr _) => _ | _ => _ end).
        assert (TS : SigModel.tr s2 = SigModel.tr (keeper st) ++ l0) by (unfold s2; destruct (nth_error (SigModel.conns sd) c) as [[| |]|]; exact E0).
        assert (GO : exists r, SigModel.tr (SigModel.go_on m (if SigModel.owned s2 s1 then s2 else SigModel.emit s2 [SigModel.EFreed s1]) y) = SigModel.tr (keeper st) ++ l0 ++ r /\ forall q, In q r -> match q with SigModel.ECall _ _ _ _ _ => False | _ => True end).
        { unfold SigModel.go_on. destruct m; destruct (SigModel.owned s2 s1); cbn [SigModel.tr SigModel.emit SigModel.with_em]; rewrite TS, <- ?app_assoc; [exists []; rewrite app_nil_r; split; [reflexivity|intros ? []]|eexists; split; [reflexivity|]..]; intros q Q; repeat (destruct Q as [<-|Q]; [exact Logic.I|]); destruct Q. }
        destruct GO as (r & GO & NC). rewrite GO. intros E6. apply app_inv_head in E6.
        assert (W : In (SigModel.ECall t1 e k s x) (l0 ++ r)) by (rewrite E6; left; reflexivity). apply in_app_or in W as [W|W]; [|exact (NC _ W)]. destruct D0 as [->|(z & ->)]; [destruct W|destruct W as [W|[]]; discriminate].
      - cbn. intros _. congruence.
      - cbn. intros E6. apply app_inv_head in E6. discriminate. }
    split; [|split].
    + destruct (SigModel.em (keeper st1)); [|congruence]. rewrite E3. eauto.
    + assert (L : In (k, s) (SigSpec.live (SigModel.trace m (sig st)))) by (apply (c_good _ _ (CI_final m (sig st ++ [(t, SigModel.AStep)])) (SigModel.trace m (sig st)) _ [] E6)).
      rewrite live_entries in L. apply somes_in in L as (i & L). apply (j_ent _ (J_final m (sig st))). eapply has_nth. exact L.
    + cbn in X |- *. destruct X as [X|[X|[]]]; [discriminate|]. injection X as <-. exists [VSig V (SigModel.ECall t1 e k s x)]. split; [reflexivity|]. intros s' v' [Z|[]]; discriminate.
  - destruct (frames V st t) as [|[|args|old] fs] eqn:FR; try (intros T X; exfalso; auto; fail). destruct (runs V m st t); [|intros T X; exfalso; auto]. cbv zeta. intros T X. exfalso.
    apply (SG st SigModel.AReturn []); auto; [discriminate|rewrite app_nil_r; reflexivity|]. destruct (SigModel.em _); exact T.
  - intros T X. exfalso. destruct (may V m st t && passes a) eqn:M; auto. apply andb_true_iff in M as [_ M]. apply (SG st a []); auto; [intros ->; discriminate M|rewrite app_nil_r; reflexivity].
Qed.

Lemma keeper_next st t a : keeper (next st (t, a)) = keeper st \/ exists b, keeper (next st (t, a)) = SigModel.next m (keeper st) (t, b).
Proof.
  unfold ObsModel.next. destruct (crashed V m st); [left; reflexivity|]. cbn [fst snd].
  assert (SG : forall s0 b, keeper s0 = keeper st -> exists b', keeper (on_signal V m s0 t b) = SigModel.next m (keeper st) (t, b')) by (intros s0 b E; exists b; destruct (on_signal_spec V m s0 t b) as (_ & _ & _ & _ & E5 & _); rewrite E5, E; reflexivity).
  assert (NT : forall s0 args, keeper s0 = keeper st -> exists b, keeper (notify V m s0 t args) = SigModel.next m (keeper st) (t, b)).
  { intros s0 args E. unfold notify. destruct (SG s0 (SigModel.AEmit 0) E) as (b & B). exists b. destruct (SigModel.em (keeper s0)), (SigModel.em (keeper (on_signal V m s0 t (SigModel.AEmit 0)))); exact B. }
  destruct a as [f| | |l|v1|l|l|v1| | | |a]; cbn [ObsModel.act].
  - destruct (may V m st t); [|left; reflexivity]. right. cbv zeta. destruct (SG st (SigModel.AConnect SigModel.CPlain) eq_refl) as (b & B). exists b. destruct (SigModel.can_add m _); [destruct (tells f)|rewrite andb_false_r]; exact B.
  - left. destruct (find _ _) as [[]|]; [|reflexivity]. destruct (gets_lock V st t); [|reflexivity]. cbv zeta. destruct (SigModel.owned _ _); reflexivity.
  - left. destruct (frames V st t) as [|[| |] fs]; try reflexivity. destruct (runs V m st t); reflexivity.
  - destruct (may V m st t && _); [|left; reflexivity]. right. apply NT. reflexivity.
  - destruct (may V m st t && _ && _); [|left; reflexivity]. right. apply NT. reflexivity.
  - left. destruct (may V m st t); reflexivity.
  - left. destruct (may V m st t); reflexivity.
  - left. destruct (runs V m st t && _ && _); reflexivity.
  - destruct (frames V st t) as [|[| |old] fs]; try (left; reflexivity). destruct (runs V m st t); [|left; reflexivity]. destruct (differs V eqb (val st) old); [|left; reflexivity]. right. apply NT. reflexivity.
  - destruct (frames V st t) as [|[| |old] fs]; try (left; reflexivity). destruct (negb _ && _); [|left; reflexivity]. right. destruct (SG st SigModel.AStep eq_refl) as (b & B). exists b. cbv zeta. destruct (SigModel.em _); exact B.
  - destruct (frames V st t) as [|[| |old] fs]; try (left; reflexivity). destruct (runs V m st t); [|left; reflexivity]. right. destruct (SG st SigModel.AReturn eq_refl) as (b & B). exists b. cbv zeta. destruct (SigModel.em _); exact B.
  - destruct (may V m st t && passes a); [|left; reflexivity]. right. apply SG. reflexivity.
Qed.
Lemma kinds_mono st t a : length (SigModel.kinds (keeper st)) <= length (SigModel.kinds (keeper (next st (t, a)))).
Proof.
  destruct (keeper_next st t a) as [->|(b & ->)]; [apply le_n|]. unfold SigModel.next. destruct (SigModel.crashed (keeper st)); [apply le_n|]. cbn [fst snd].
  assert (E : SigModel.kinds (SigModel.watch (keeper st) (SigModel.act m (keeper st) t b)) = SigModel.kinds (SigModel.act m (keeper st) t b)) by (destruct (watch_cases (keeper st) (SigModel.act m (keeper st) t b)) as [->|[z ->]]; reflexivity).
  rewrite E. destruct (grow_act m (keeper st) t b (J_final m (sig st))) as [_ [G|(k & G & _)]]; rewrite G; [apply le_n|]. rewrite app_length. lia.
Qed.
(** A connect that gets the mutex makes a new slot. *)
Lemma connect_fresh st t f : I st -> may V m st t = true -> crashed V m st = false -> length (SigModel.kinds (keeper (next st (t, OConnect V f)))) = S (length (SigModel.kinds (keeper st))).
Proof.
  intros H M C. destruct (may_free V m v0 st t H M) as (F & _ & _). unfold ObsModel.next. rewrite C. cbn [fst snd ObsModel.act]. rewrite M. cbv zeta.
  destruct (on_signal_spec V m st t (SigModel.AConnect SigModel.CPlain)) as (_ & _ & _ & _ & E5 & _). set (st1 := on_signal V m st t (SigModel.AConnect SigModel.CPlain)) in *.
  assert (G : length (SigModel.kinds (keeper st1)) = S (length (SigModel.kinds (keeper st)))).
  { rewrite E5. unfold SigModel.next. unfold crashed in C. rewrite C. cbn [fst snd].
    assert (E : SigModel.kinds (SigModel.watch (keeper st) (SigModel.act m (keeper st) t (SigModel.AConnect SigModel.CPlain))) = SigModel.kinds (SigModel.act m (keeper st) t (SigModel.AConnect SigModel.CPlain))) by (destruct (watch_cases (keeper st) (SigModel.act m (keeper st) t (SigModel.AConnect SigModel.CPlain))) as [->|[z ->]]; reflexivity).
    rewrite E. cbn [SigModel.act]. rewrite F. cbn [SigModel.call]. rewrite (i_hub _ _ _ _ H). destruct (kinds_save m (SigModel.with_kinds (keeper st) (SigModel.kinds (keeper st) ++ [SigModel.KPlain])) t (SigModel.AConnect SigModel.CPlain) (length (SigModel.kinds (keeper st)))) as (A & _).
    rewrite A. cbn. rewrite app_length. cbn. lia. }
  destruct (SigModel.can_add m _); [destruct (tells f)|rewrite andb_false_r]; exact G.
Qed.
(** Who is announced as an observer. *)
Lemma connect_event st t a new t' s f : I st -> tr (next st (t, a)) = tr st ++ new -> In (VConnect V t' s f) new ->
  a = OConnect V f /\ t' = t /\ s = length (SigModel.kinds (keeper st)) /\ may V m st t = true /\ crashed V m st = false.
Proof.
  intros H. unfold ObsModel.next. destruct (crashed V m st) eqn:CR; [intros T X; apply (f_equal (@length _)) in T; rewrite app_length in T; destruct new; [destruct X|cbn in T; lia]|]. cbn [fst snd].
  assert (NO : forall l, tr st ++ l = tr st ++ new -> (forall t' s' f', ~ In (VConnect V t' s' f') l) -> In (VConnect V t' s f) new -> False) by (intros l E N X; apply app_inv_head in E; subst l; eapply N; exact X).
  assert (NO0 : tr st = tr st ++ new -> In (VConnect V t' s f) new -> False) by (intros E; apply (NO []); [rewrite app_nil_r; exact E|intros ? ? ? []]).
  assert (SE : forall v nw t' s f, ~ In (VConnect V t' s f) (flat_map (seen V v) nw)) by (intros v nw t1 s1 f1 X; apply in_flat_map in X as (e & _ & X); destruct e; cbn in X; repeat (destruct X as [X|X]; [discriminate X|]); destruct X).
  assert (SG : forall s0 b l0, tr s0 = tr st ++ l0 -> (forall t' s' f', ~ In (VConnect V t' s' f') l0) -> tr (on_signal V m s0 t b) = tr st ++ new -> In (VConnect V t' s f) new -> False).
  { intros s0 b l0 T0 N0 T X. destruct (on_signal_spec V m s0 t b) as (_ & _ & _ & _ & _ & nw & _ & E7). rewrite E7, T0, <- app_assoc in T. apply app_inv_head in T. subst new. apply in_app_or in X as [X|X]; [eapply N0; exact X|eapply SE; exact X]. }
  assert (NT : forall s0 w args, tr s0 = tr st ++ [VChange V t w true] -> tr (notify V m s0 t args) = tr st ++ new -> In (VConnect V t' s f) new -> False).
  { intros s0 w args T0 T X. apply (SG s0 (SigModel.AEmit 0) [VChange V t w true]); auto; [intros ? s' v' [Z|[]]; discriminate|]. unfold notify in T. destruct (SigModel.em (keeper s0)), (SigModel.em (keeper (on_signal V m s0 t (SigModel.AEmit 0)))); exact T. }
  destruct a as [f1| | |l|v1|l|l|v1| | | |a]; cbn [ObsModel.act].
  - destruct (may V m st t); [|intros T X; exfalso; auto]. cbv zeta.
    destruct (on_signal_spec V m st t (SigModel.AConnect SigModel.CPlain)) as (_ & _ & _ & _ & _ & nw & _ & E7). set (st1 := on_signal V m st t (SigModel.AConnect SigModel.CPlain)) in *.
    intros T X. destruct (SigModel.can_add m _); [|rewrite andb_false_r in T; exfalso; apply (SG st (SigModel.AConnect SigModel.CPlain) []); auto; rewrite app_nil_r; reflexivity].
    assert (T1 : tr st1 ++ [VConnect V t (length (SigModel.kinds (keeper st))) f1] = tr st ++ new) by (destruct (tells f1); exact T). rewrite E7, <- app_assoc in T1. apply app_inv_head in T1. subst new. apply in_app_or in X as [X|[X|[]]]; [exfalso; eapply SE; exact X|]. injection X as <- <- <-. auto.
  - intros T X. exfalso. destruct (find _ (pend st)) as [[t1 s1]|]; auto. destruct (gets_lock V st t); auto. cbv zeta in T. destruct (SigModel.owned (keeper st) s1); auto. eapply (NO [_]); [exact T|intros ? s' v' [Z|[]]; discriminate|exact X].
  - intros T X. exfalso. destruct (frames V st t) as [|[s1| |] fs]; auto. destruct (runs V m st t); auto.
  - intros T X. exfalso. destruct (may V m st t && _); auto. cbv zeta in T. eapply NT; [|exact T|exact X]; reflexivity.
  - intros T X. exfalso. destruct (may V m st t && _ && _); auto. eapply NT; [|exact T|exact X]; reflexivity.
  - intros T X. exfalso. destruct (may V m st t); auto. eapply (NO [_]); [exact T|intros ? s' v' [Z|[]]; discriminate|exact X].
  - intros T X. exfalso. destruct (may V m st t); auto.
  - intros T X. exfalso. destruct (runs V m st t && _ && _); auto. eapply (NO [_]); [exact T|intros ? s' v' [Z|[]]; discriminate|exact X].
  - intros T X. exfalso. destruct (frames V st t) as [|[|args|old] fs]; auto. destruct (runs V m st t); auto. destruct (differs V eqb (val st) old); auto. eapply NT; [|exact T|exact X]; reflexivity.
  - intros T X. exfalso. destruct (frames V st t) as [|[|args|old] fs]; auto. destruct (negb _ && _); auto. cbv zeta in T. eapply (SG st SigModel.AStep []); auto; [rewrite app_nil_r; reflexivity|]. destruct (SigModel.em _); exact T.
  - intros T X. exfalso. destruct (frames V st t) as [|[|args|old] fs]; auto. destruct (runs V m st t); auto. cbv zeta in T. eapply (SG st SigModel.AReturn []); auto; [rewrite app_nil_r; reflexivity|]. destruct (SigModel.em _); exact T.
  - intros T X. exfalso. destruct (may V m st t && passes a); auto. eapply (SG st a []); auto. rewrite app_nil_r; reflexivity.
Qed.

(** The value of the compound. *)
Lemma set_value st t i x : may V m st t = true -> crashed V m st = false -> (forall y z, eqb y z = true -> y = z) -> i < length (val st) ->
  nth_error (val (next st (t, OSet V [(i, x)]))) i = Some x /\ (forall j, j <> i -> nth_error (val (next st (t, OSet V [(i, x)]))) j = nth_error (val st) j) /\ length (val (next st (t, OSet V [(i, x)]))) = length (val st).
Proof.
  intros M C EQ L. unfold ObsModel.next. rewrite C. cbn [fst snd ObsModel.act]. rewrite M. cbn [andb]. destruct (differs V eqb (val st) [(i, x)]) eqn:D.
  - cbv zeta. assert (E : val (notify V m (emit V (with_val V st (update V (val st) [(i, x)])) [VChange V t (update V (val st) [(i, x)]) true]) t None) = set_nth i x (val st)).
    { unfold notify. set (s0 := emit V _ _). destruct (on_signal_spec V m s0 t (SigModel.AEmit 0)) as (_ & E2 & _). destruct (SigModel.em (keeper s0)), (SigModel.em (keeper (on_signal V m s0 t (SigModel.AEmit 0)))); exact E2. }
    rewrite E. split; [apply nth_set_same; exact L|]. split; [intros j N; apply nth_set_other; auto|apply length_set_nth].
  - split; [|auto]. unfold differs in D. cbn in D. rewrite orb_false_r in D. destruct (nth_error (val st) i) as [u|] eqn:N; [|apply nth_error_None in N; lia]. apply negb_false_iff, EQ in D. subst u. reflexivity.
Qed.
Lemma read_value st t a : match a with OSet _ _ | OSetAll _ _ | OSilentSet _ _ | OModify _ _ => False | _ => True end -> val (next st (t, a)) = val st.
Proof.
  intros R. unfold ObsModel.next. destruct (crashed V m st); [reflexivity|]. cbn [fst snd].
  assert (SG : forall b, val (on_signal V m st t b) = val st) by (intros b; apply (on_signal_spec V m st t b)).
  destruct a as [f1| | |l|v1|l|l|v1| | | |a]; cbn [ObsModel.act]; try destruct R.
  - destruct (may V m st t); [|reflexivity]. cbv zeta. destruct (SigModel.can_add m _); [destruct (tells f1)|rewrite andb_false_r]; apply SG.
  - destruct (find _ (pend st)) as [[t1 s1]|]; [|reflexivity]. destruct (gets_lock V st t); [|reflexivity]. cbv zeta. destruct (SigModel.owned (keeper st) s1); reflexivity.
  - destruct (frames V st t) as [|[s1| |] fs]; try reflexivity. destruct (runs V m st t); reflexivity.
  - destruct (may V m st t); reflexivity.
  - destruct (frames V st t) as [|[s1| |old] fs]; try reflexivity. destruct (runs V m st t); [|reflexivity]. destruct (differs V eqb (val st) old); [|reflexivity].
    unfold notify. set (s0 := emit V _ _). destruct (on_signal_spec V m s0 t (SigModel.AEmit 0)) as (_ & E2 & _). destruct (SigModel.em (keeper s0)), (SigModel.em (keeper (on_signal V m s0 t (SigModel.AEmit 0)))); exact E2.
  - destruct (frames V st t) as [|[s1| |old] fs]; try reflexivity. destruct (negb _ && _); [|reflexivity]. cbv zeta. destruct (SigModel.em _); apply SG.
  - destruct (frames V st t) as [|[s1| |old] fs]; try reflexivity. destruct (runs V m st t); [|reflexivity]. cbv zeta. destruct (SigModel.em _); apply SG.
  - destruct (may V m st t && passes a); [|reflexivity]. apply SG.
Qed.
End More.
