(** The observable model: who is told. *)
From Verif Require Import ListUtil.
From Verif Require Import SigProofs SigProofs2 SigProofs3 SigProofs4 SigProofs5 SigProofs6 SigProofs7 SigProofs8 SigProofs9 ObsProofs.
From Verif Require SigModel SigSpec.
From Verif Require Import ObsModel ObsSpec ObsProofs2 ObsProofs3 ObsProofs4 ObsProofs5 ObsProofs6 ObsProofs7.
Import SigModel (mode, Multi, Single).

(** ** The observable *)
Section Told.
Variable V : Type.
Variable eqb : V -> V -> bool.
Variable m : mode.
Variable v0 : list V.
Notation state := (ObsModel.state V).
Notation keeper := (ObsModel.keeper V m).
Notation final := (ObsModel.final V eqb m v0).
Notation trace := (ObsModel.trace V eqb m v0).
Notation next := (ObsModel.next V eqb m).
Notation tr := (ObsModel.tr V).
Notation val := (ObsModel.val V).
Notation sig := (ObsModel.sig V).
Notation hold := (ObsModel.hold V).
Notation pend := (ObsModel.pend V).
Notation event := (ObsModel.event V).
Notation I := (ObsProofs2.I V m v0).
Local Arguments ObsModel.keeper : simpl never.
Local Arguments sigpart : simpl never.
Local Arguments value : simpl never.
Local Arguments SigModel.trace : simpl never.

Lemma sig_next st t a : sig (next st (t, a)) = sig st \/ exists b, fine b = true /\ sig (next st (t, a)) = sig st ++ [(t, b)].
Proof.
  unfold ObsModel.next. destruct (crashed V m st); [left; reflexivity|]. cbn [fst snd].
  assert (SG : forall s0 b, sig s0 = sig st -> fine b = true -> exists b', fine b' = true /\ sig (on_signal V m s0 t b) = sig st ++ [(t, b')]) by (intros s0 b E FB; exists b; destruct (on_signal_spec V m s0 t b) as (E1 & _); rewrite E1, E; auto).
  assert (NT : forall s0 args, sig s0 = sig st -> exists b, fine b = true /\ sig (notify V m s0 t args) = sig st ++ [(t, b)]).
  { intros s0 args E. unfold notify. destruct (SG s0 (SigModel.AEmit 0) E eq_refl) as (b & FB & B'). exists b. split; [exact FB|]. destruct (SigModel.em (keeper s0)), (SigModel.em (keeper (on_signal V m s0 t (SigModel.AEmit 0)))); exact B'. }
  destruct a as [f| | |l|v1|l|l|v1| | | |a]; cbn [ObsModel.act].
  - destruct (may V m st t); [|left; reflexivity]. right. cbv zeta. destruct (SG st (SigModel.AConnect SigModel.CPlain) eq_refl eq_refl) as (b & FB & B'). exists b. split; [exact FB|]. destruct (SigModel.can_add m _); [destruct (tells f)|rewrite andb_false_r]; exact B'.
  - left. destruct (find _ _) as [[]|]; [|reflexivity]. destruct (gets_lock V st t); [|reflexivity]. cbv zeta. destruct (SigModel.owned _ _); reflexivity.
  - left. destruct (frames V st t) as [|[| |] fs]; try reflexivity. destruct (runs V m st t); reflexivity.
  - destruct (may V m st t && _); [|left; reflexivity]. right. apply NT. reflexivity.
  - destruct (may V m st t && _ && _); [|left; reflexivity]. right. apply NT. reflexivity.
  - left. destruct (may V m st t); reflexivity.
  - left. destruct (may V m st t); reflexivity.
  - left. destruct (runs V m st t && _ && _); reflexivity.
  - destruct (frames V st t) as [|[| |old] fs]; try (left; reflexivity). destruct (runs V m st t); [|left; reflexivity]. destruct (differs V eqb (val st) old); [|left; reflexivity]. right. apply NT. reflexivity.
  - destruct (frames V st t) as [|[| |old] fs]; try (left; reflexivity). destruct (negb _ && _); [|left; reflexivity]. right. destruct (SG st SigModel.AStep eq_refl eq_refl) as (b & FB & B'). exists b. split; [exact FB|]. cbv zeta. destruct (SigModel.em _); exact B'.
  - destruct (frames V st t) as [|[| |old] fs]; try (left; reflexivity). destruct (runs V m st t); [|left; reflexivity]. right. destruct (SG st SigModel.AReturn eq_refl eq_refl) as (b & FB & B'). exists b. split; [exact FB|]. cbv zeta. destruct (SigModel.em _); exact B'.
  - destruct (may V m st t && passes a) eqn:P; [|left; reflexivity]. right. apply andb_true_iff in P as [_ P]. apply SG; [reflexivity|]. destruct a; try discriminate P; reflexivity.
Qed.
Lemma sig_fine h t a : In (t, a) (sig (final h)) -> fine a = true.
Proof.
  revert t a. induction h as [|[t1 a1] h IH] using rev_ind; intros t a X; [destruct X|]. assert (FS : final (h ++ [(t1, a1)]) = next (final h) (t1, a1)) by (unfold ObsModel.final; rewrite fold_left_app; reflexivity). rewrite FS in X.
  destruct (sig_next (final h) t1 a1) as [E|(b & FB & E)]; rewrite E in X; [eapply IH; exact X|]. apply in_app_or in X as [X|[X|[]]]; [eapply IH; exact X|]. injection X as _ <-. exact FB.
Qed.

(** A slot is told by the emission that calls it, or by the connect() that is waiting to do so. *)
Lemma told_step st t a new s v : I st -> tr (next st (t, a)) = tr st ++ new -> In (VTold V s v) new ->
  (exists t' e k x, new = [VSig V (SigModel.ECall t' e k s x); VTold V s v]) \/ (new = [VTold V s v] /\ In (t, s) (pend st) /\ SigModel.owned (keeper st) s = true).
Proof.
  intros H. unfold ObsModel.next. destruct (crashed V m st) eqn:CR; [intros T X; apply (f_equal (@length _)) in T; rewrite app_length in T; destruct new; [destruct X|cbn in T; lia]|]. cbn [fst snd].
  assert (NO : forall l, tr st ++ l = tr st ++ new -> (forall s' v', ~ In (VTold V s' v') l) -> In (VTold V s v) new -> False) by (intros l E N X; apply app_inv_head in E; subst l; eapply N; exact X).
  assert (NO0 : tr st = tr st ++ new -> In (VTold V s v) new -> False) by (intros E; apply (NO []); [rewrite app_nil_r; exact E|intros ? ? []]).
  assert (SG : forall s0 b l0, sig s0 = sig st -> b <> SigModel.AStep -> tr s0 = tr st ++ l0 -> (forall s' v', ~ In (VTold V s' v') l0) -> tr (on_signal V m s0 t b) = tr st ++ new -> In (VTold V s v) new -> False).
  { intros s0 b l0 ES NB T0 N0 T X. destruct (on_signal_spec V m s0 t b) as (E1 & _ & _ & _ & _ & nw & E6 & E7). rewrite E7, T0, <- app_assoc in T. apply app_inv_head in T. subst new. apply in_app_or in X as [X|X]; [eapply N0; exact X|].
    destruct (seen_one _ _ _ _ _ X) as (t1 & e & k & x & Y). rewrite E1 in E6. destruct (new_calls m (sig s0) t b nw _ _ _ _ _ E6 Y) as (_ & Z & _). contradiction. }
  assert (NT : forall s0 w args, sig s0 = sig st -> tr s0 = tr st ++ [VChange V t w true] -> tr (notify V m s0 t args) = tr st ++ new -> In (VTold V s v) new -> False).
  { intros s0 w args ES T0 T X. apply (SG s0 (SigModel.AEmit 0) [VChange V t w true]); auto; [discriminate|intros s' v' [Z|[]]; discriminate|]. unfold notify in T. destruct (SigModel.em (keeper s0)), (SigModel.em (keeper (on_signal V m s0 t (SigModel.AEmit 0)))); exact T. }
  destruct a as [f| | |l|v1|l|l|v1| | | |a]; cbn [ObsModel.act].
  - destruct (may V m st t); [|intros T X; exfalso; auto]. cbv zeta. intros T X. exfalso.
    destruct (on_signal_spec V m st t (SigModel.AConnect SigModel.CPlain)) as (E1 & _ & _ & _ & _ & nw & E6 & E7). set (st1 := on_signal V m st t (SigModel.AConnect SigModel.CPlain)) in *.
    assert (NN : forall r, (forall s' v', ~ In (VTold V s' v') r) -> flat_map (seen V (given V st t)) nw ++ r = new -> False).
    { intros r NR <-. apply in_app_or in X as [X|X]; [|eapply NR; exact X]. destruct (seen_one _ _ _ _ _ X) as (t1 & e & k & x & Y). rewrite E1 in E6. destruct (new_calls m (sig st) t _ nw _ _ _ _ _ E6 Y) as (_ & Z & _). discriminate Z. }
    destruct (SigModel.can_add m _).
    + apply (NN [VConnect V t (length (SigModel.kinds (keeper st))) f]); [intros s' v' [Z|[]]; discriminate|]. apply (app_inv_head (tr st)). rewrite app_assoc, <- E7, <- T. destruct (tells f); reflexivity.
    + rewrite andb_false_r in T. apply (NN []); [intros s' v' []|]. apply (app_inv_head (tr st)). rewrite app_nil_r, <- E7, <- T. reflexivity.
  - destruct (find _ (pend st)) as [[t' s1]|] eqn:FI; [|intros T X; exfalso; auto]. destruct (gets_lock V st t); [|intros T X; exfalso; auto]. cbv zeta. destruct (SigModel.owned (keeper st) s1) eqn:OW; [|intros T X; exfalso; auto].
    cbn [ObsModel.tr emit push with_hold with_pend]. intros T X. apply app_inv_head in T. subst new. destruct X as [X|[]]. injection X as -> ->. right. split; [reflexivity|].
    apply find_some in FI as [IN EQ]. cbn in EQ. apply Nat.eqb_eq in EQ. subst t'. split; [exact IN|exact OW].
  - intros T X. exfalso. destruct (frames V st t) as [|[s1| |] fs]; auto. destruct (runs V m st t); auto.
  - intros T X. exfalso. destruct (may V m st t && _); auto. cbv zeta in T. eapply NT; [| |exact T|exact X]; reflexivity.
  - intros T X. exfalso. destruct (may V m st t && _ && _); auto. eapply NT; [| |exact T|exact X]; reflexivity.
  - intros T X. exfalso. destruct (may V m st t); auto. eapply (NO [_]); [exact T|intros s' v' [Z|[]]; discriminate|exact X].
  - intros T X. exfalso. destruct (may V m st t); auto.
  - intros T X. exfalso. destruct (runs V m st t && _ && _); auto. eapply (NO [_]); [exact T|intros s' v' [Z|[]]; discriminate|exact X].
  - intros T X. exfalso. destruct (frames V st t) as [|[|args|old] fs]; auto. destruct (runs V m st t); auto. destruct (differs V eqb (val st) old); auto. eapply NT; [| |exact T|exact X]; reflexivity.
  - destruct (frames V st t) as [|[|args|old] fs] eqn:FR; try (intros T X; exfalso; auto; fail). destruct (negb _ && _); [|intros T X; exfalso; auto]. cbv zeta.
    destruct (on_signal_spec V m st t SigModel.AStep) as (E1 & _ & E3 & _ & E5 & nw & E6 & E7). set (st1 := on_signal V m st t SigModel.AStep) in *.
    intros T X. assert (TT : tr st1 = tr st ++ new) by (destruct (SigModel.em (keeper st1)); exact T). rewrite E7 in TT. apply app_inv_head in TT. subst new.
    destruct (seen_one _ _ _ _ _ X) as (t1 & e & k & x & Y). rewrite E1 in E6. destruct (new_calls m (sig st) t _ nw _ _ _ _ _ E6 Y) as (_ & _ & -> & _).
    left. exists t1, e, k, x. cbn in X |- *. destruct X as [X|[X|[]]]; [discriminate|]. injection X as <-. reflexivity.
  - destruct (frames V st t) as [|[|args|old] fs] eqn:FR; try (intros T X; exfalso; auto; fail). destruct (runs V m st t); [|intros T X; exfalso; auto]. cbv zeta. intros T X. exfalso.
    apply (SG st SigModel.AReturn []); auto; [discriminate|rewrite app_nil_r; reflexivity|]. destruct (SigModel.em _); exact T.
  - intros T X. exfalso. destruct (may V m st t && passes a) eqn:M; auto. apply andb_true_iff in M as [_ M]. apply (SG st a []); auto; [intros ->; discriminate M|rewrite app_nil_r; reflexivity].
Qed.
(** Who waits to be told was accepted. *)
Lemma pend_next st t a t' s : I st -> In (t', s) (pend (next st (t, a))) -> In (t', s) (pend st) \/ In (VConnect V t' s FCallable) (tr (next st (t, a))).
Proof.
  intros H. unfold ObsModel.next. destruct (crashed V m st); [auto|]. cbn [fst snd].
  assert (SG : forall s0 b, pend (on_signal V m s0 t b) = pend s0) by (intros s0 b; destruct (on_signal_spec V m s0 t b) as (_ & _ & _ & E & _); exact E).
  assert (NT : forall s0 args, pend (notify V m s0 t args) = pend s0) by (intros s0 args; unfold notify; destruct (SigModel.em (keeper s0)), (SigModel.em (keeper (on_signal V m s0 t (SigModel.AEmit 0)))); apply SG).
  destruct a as [f| | |l|v1|l|l|v1| | | |a]; cbn [ObsModel.act].
  - destruct (may V m st t); [|auto]. cbv zeta. destruct (SigModel.can_add m _); [|rewrite andb_false_r, SG; auto]. destruct (tells f) eqn:TF; cbn [andb ObsModel.pend with_pend emit ObsModel.tr]; [|rewrite SG; auto].
    intros [X|X]; [|rewrite SG in X; auto]. injection X as <- <-. right. apply in_or_app. right. left. destruct f; try discriminate TF. reflexivity.
  - destruct (find _ _) as [[t1 s1]|]; [|auto]. destruct (gets_lock V st t); [|auto]. cbv zeta. intros X. left. assert (Y : In (t', s) (filter (fun p => negb (Nat.eqb t (fst p))) (pend st))) by (destruct (SigModel.owned (keeper st) s1); exact X). apply filter_In in Y as [Y _]. exact Y.
  - destruct (frames V st t) as [|[| |] fs]; auto. destruct (runs V m st t); auto.
  - destruct (may V m st t && _); [|auto]. cbv zeta. rewrite NT. auto.
  - destruct (may V m st t && _ && _); [|auto]. rewrite NT. auto.
  - destruct (may V m st t); auto.
  - destruct (may V m st t); auto.
  - destruct (runs V m st t && _ && _); auto.
  - destruct (frames V st t) as [|[| |old] fs]; auto. destruct (runs V m st t); auto. destruct (differs V eqb (val st) old); auto. rewrite NT. auto.
  - destruct (frames V st t) as [|[| |old] fs]; auto. destruct (negb _ && _); auto. cbv zeta. destruct (SigModel.em _); [rewrite SG; auto|]. intros X. left. rewrite <- (SG st SigModel.AStep). exact X.
  - destruct (frames V st t) as [|[| |old] fs]; auto. destruct (runs V m st t); auto. cbv zeta. destruct (SigModel.em _); [rewrite SG; auto|]. intros X. left. rewrite <- (SG st SigModel.AReturn). exact X.
  - destruct (may V m st t && passes a); [|auto]. rewrite SG. auto.
Qed.
Lemma final_snoc' h l : final (h ++ [l]) = next (final h) l.
Proof. unfold ObsModel.final. rewrite fold_left_app. reflexivity. Qed.
Lemma pend_connected h t s : In (t, s) (pend (final h)) -> In (VConnect V t s FCallable) (trace h).
Proof.
  induction h as [|[t1 a1] h IH] using rev_ind; intros X; [destruct X|]. unfold ObsModel.trace in *. rewrite final_snoc' in *. destruct (pend_next _ _ _ _ _ (I_final V eqb m v0 h) X) as [Y|Y]; [|exact Y].
  destruct (next_grows V eqb m v0 (final h) (t1, a1) (I_final V eqb m v0 h)) as (new & ->). apply in_or_app. left. apply IH. exact Y.
Qed.
(** The signal part of a trace is the trace of some history of the signal. *)
Definition sig_of (h : history V) : SigModel.history := sig (final h).
Theorem told_who h a s v b : trace h = a ++ VTold V s v :: b ->
  (exists a' t e k x, a = a' ++ [VSig V (SigModel.ECall t e k s x)] /\ In s (observers a')) \/
  (exists t, In (VConnect V t s FCallable) a /\ (In s (observers a) \/ exists c t' x, In (VSig V (SigModel.ERet t' x (SigModel.RCon c s true))) a /\ SigSpec.cut c (sigpart a) = true /\ ~ In (VSig V (SigModel.EDestroy c)) a)).
Proof.
  revert b. induction h as [|[t1 a1] h IH] using rev_ind; intros b E; [destruct a; discriminate|].
  pose proof (I_final V eqb m v0 h) as H. unfold ObsModel.trace in E. rewrite final_snoc' in E.
  destruct (next_grows V eqb m v0 (final h) (t1, a1) H) as (new & N). rewrite N in E. destruct (split_app _ _ _ _ _ E) as [(b0 & E0)|(a' & E0 & ->)]; [eapply IH; exact E0|].
  destruct (told_step _ _ _ _ s v H N) as [(t' & e & k & x & ->)|(-> & P & O)]; [rewrite E0; apply in_or_app; right; left; reflexivity| |].
  - left. destruct a' as [|y a']; [discriminate E0|]. injection E0 as <- E0. destruct a' as [|y a']; [|destruct a'; discriminate E0].
    exists (tr (final h)), t', e, k, x. split; [reflexivity|]. pose proof (I_final V eqb m v0 (h ++ [(t1, a1)])) as H'. rewrite final_snoc' in H'.
    pose proof (i_sig _ _ _ _ H') as SI. rewrite N, sigpart_app in SI. cbn in SI. symmetry in SI.
    destruct (c_good _ _ (CI_final m _) _ _ _ SI) as (L & _). unfold observers, SigSpec.slots. apply in_map_iff. exists (k, s). split; [reflexivity|exact L].
  - right. destruct a' as [|y a']; [|destruct a'; discriminate E0]. rewrite app_nil_r. exists t1. split; [apply pend_connected; exact P|].
    destruct (owned_means m (sig (final h)) s (sig_fine h) (i_hub _ _ _ _ H) O) as [L|(c & (t' & x & M) & C & D)].
    + left. unfold observers. rewrite (i_sig _ _ _ _ H). exact L.
    + right. exists c, t', x. split; [apply sigpart_in; rewrite (i_sig _ _ _ _ H); exact M|]. split; [rewrite (i_sig _ _ _ _ H); exact C|]. intros X. apply D. rewrite <- (i_sig _ _ _ _ H). apply sigpart_in. exact X.
Qed.
(** Who is announced as an observer was accepted. *)
Theorem accepted h t s f : In (VConnect V t s f) (trace h) -> In (VSig V (SigModel.EJoin s)) (trace h).
Proof.
  unfold ObsModel.trace. induction h as [|[t1 a1] h IH] using rev_ind; intros X; [destruct X|]. pose proof (I_final V eqb m v0 h) as H. rewrite final_snoc' in *.
  destruct (next_grows V eqb m v0 (final h) (t1, a1) H) as (new & N). rewrite N in X. apply in_app_or in X as [X|X]; [rewrite N; apply in_or_app; left; apply IH; exact X|].
  destruct (connect_event V eqb m v0 _ _ _ _ _ _ _ H N X) as (-> & -> & -> & M & C). destruct (may_free V m v0 _ t1 H M) as (F & _ & _). rewrite N.
  unfold ObsModel.next in N. rewrite C in N. cbn [fst snd ObsModel.act] in N. rewrite M in N. cbv zeta in N.
  destruct (on_signal_spec V m (final h) t1 (SigModel.AConnect SigModel.CPlain)) as (E1 & _ & _ & _ & E5 & nw & E6 & E7). set (st1 := on_signal V m (final h) t1 (SigModel.AConnect SigModel.CPlain)) in *.
  destruct (SigModel.can_add m (SigModel.entries (keeper (final h)))) eqn:CA.
  - assert (NN : new = flat_map (seen V (given V (final h) t1)) nw ++ [VConnect V t1 (length (SigModel.kinds (keeper (final h)))) f]).
    { apply (app_inv_head (tr (final h))). rewrite <- N, app_assoc, <- E7. destruct (tells f); reflexivity. }
    rewrite NN. apply in_or_app. right. apply in_or_app. left. apply in_flat_map. exists (SigModel.EJoin (length (SigModel.kinds (keeper (final h))))). split; [|left; reflexivity].
    assert (K : SigModel.tr (keeper st1) = SigModel.tr (keeper (final h)) ++ nw) by exact E6. rewrite E5 in K. unfold SigModel.next in K. unfold crashed in C. rewrite C in K. cbn [fst snd] in K. cbn [SigModel.act] in K. rewrite F in K. cbn [SigModel.call] in K. rewrite (i_hub _ _ _ _ H) in K.
    rewrite watch_owned in K by (intros z Z; apply owned_save; exact Z). rewrite tr_save in K. cbn [SigModel.entries SigModel.with_kinds SigModel.tr] in K. rewrite CA in K. apply app_inv_head in K. subst nw. left. reflexivity.
  - exfalso. rewrite andb_false_r in N. rewrite E7 in N. apply app_inv_head in N. subst new. apply in_flat_map in X as (y & _ & X). destruct y; cbn in X; repeat (destruct X as [X|X]; [discriminate X|]); destruct X.
Qed.
End Told.
