(** Inline or queued: the invariant. *)
From Verif Require Import ListUtil Amap ProcModel ProcSpec ProcProofs ProcProofs2 ProcProofs3 ProcProofs4 ProcProofs5 ProcProofs6 ProcProofs7 ProcProofs8 ProcProofs9 ProcProofs10 ProcProofs11 ProcProofs12 ProcProofs13 ProcProofs14 ProcProofs15.
From Verif Require QueueModel QueueSpec QueueProofs QueueProofs2 QueueProofs3 SigModel.

Definition homed_at (st : state) (x : option nat) (c : call) : bool :=
  match c, x with
  | KExecute p, Some p' => Nat.eqb p' p
  | KWait p, Some p' | KWaitPost p _, Some p' => Nat.eqb (p_id (procs st p')) (p_id (procs st p))
  | _, _ => false
  end.
Lemma homed_is st t c : homed st t c = homed_at st (tl st t) c.
Proof. destruct c; cbn; unfold on_own, same_id, proc_at; destruct (tl st t); reflexivity. Qed.

Lemma inst_called t l : forall x n p, fold_left (inst t) l x = Some (n, p) -> x = Some (n, p) \/ exists k, In (ECall t n (KRun p k)) l.
Proof.
  induction l as [|e l IH]; intros x n p H; cbn in H; [left; exact H|]. apply IH in H as [H|(k & H)]; [|right; exists k; right; exact H].
  destruct e as [|t' n' c'|t' n' r'| | | | | | | | |]; cbn in H; try (destruct x; left; exact H).
  - destruct c'; try (destruct x; left; exact H). destruct x; [left; exact H|]. destruct (Nat.eqb_spec t t'); [|discriminate]. injection H as <- <-. subst t'. right. eexists. left. reflexivity.
  - destruct x as [[n1 p1]|]; [|discriminate]. destruct (Nat.eqb t t' && Nat.eqb n' n1); [discriminate|left; exact H].
Qed.
Lemma instance_called t l p : instance t l = Some p -> exists n k, In (ECall t n (KRun p k)) l.
Proof.
  unfold instance. destruct (fold_left (inst t) l None) as [[n p']|] eqn:E; cbn; [|discriminate]. intros H. injection H as ->. apply inst_called in E as [E|(k & E)]; [discriminate|eauto].
Qed.

Record placed (st : state) : Prop := {
  pl_top : forall t n k r c, stk st t = FCall n k :: r -> nth_error (calls st) n = Some (t, c) -> queued k = true -> homed st t c = false;
  pl_inl : forall t p n a b c, In (EStart t p n true) (tr st) -> tr st = a ++ ECall t n c :: b -> homed_at st (instance t a) c = true;
  pl_acc : forall t p n a b c, In (EAccept t p n) (tr st) -> tr st = a ++ ECall t n c :: b -> homed_at st (instance t a) c = false }.

Lemma prefix_called h t n c a b : trace h = a ++ ECall t n c :: b -> nth_error (calls (final h)) n = Some (t, c).
Proof. intros T. apply (c_in _ (calls_final h)). unfold trace in T. rewrite T. apply in_or_app. right. left. reflexivity. Qed.

Lemma submit_target h n t c : nth_error (calls (final h)) n = Some (t, c) -> submits c = true -> target c < np (final h).
Proof. intros E S. pose proof (n_calls _ (named_final h) _ _ _ E) as N. destruct c; try discriminate; exact N. Qed.
Lemma inst_exists h t a b p : trace h = a ++ b -> instance t a = Some p -> p < np (final h).
Proof.
  intros T I. apply instance_called in I as (n & k & I). assert (C : nth_error (calls (final h)) n = Some (t, KRun p k)) by (apply (c_in _ (calls_final h)); unfold trace in T; rewrite T; apply in_or_app; left; exact I).
  exact (n_calls _ (named_final h) _ _ _ C).
Qed.

Lemma homed_stays h l x c : (forall p, x = Some p -> p < np (final h)) -> (submits c = true -> target c < np (final h)) -> homed_at (final (h ++ [l])) x c = homed_at (final h) x c.
Proof.
  intros X C. destruct c as [p|p|p|p m|p m| | | | | | | | | |]; try reflexivity; destruct x as [p'|]; try reflexivity; cbn in *; destruct (step_ids h l p' (X _ eq_refl)) as [_ ->]; destruct (step_ids h l p (C eq_refl)) as [_ ->]; reflexivity.
Qed.

Lemma evt_add t st st' : evt t st st' -> exists add, tr st' = tr st ++ add /\
  (forall t' n c, In (ECall t' n c) add -> n = length (calls st)) /\
  (forall t' p n, In (EStart t' p n true) add -> t' = t /\ exists k c r, stk st t = FCall n k :: r /\ fresh k = true /\ nth_error (calls st) n = Some (t, c) /\ submits c = true /\ stk st' t = body c (target c) n :: FCall n PInline :: r) /\
  (forall t' p n, In (EAccept t' p n) add -> t' = t /\ exists i c r, stk st t = FCall n (PPush i) :: r /\ nth_error (calls st) n = Some (t, c) /\ submits c = true).
Proof.
  intros V.
  assert (QN : forall l x, quiet l -> In x l -> neutral x = true) by (intros l x Q I; apply Q, I).
  destruct V as [l Q E|f f' r l S SI Q E|f c0 U ID W E|f n0 r ds res S ID W DS E _|n0 i c0 p r S C SB P E|n0 p j k0 i e r S E|n0 p j k0 e t1 c0 r S C E|n0 k0 c0 r S C F SB E|bd p e n0 j k0 i r l S B Q E|bd p e n0 j r l S B Q E|bd p n0 r l c0 S B Q C E];
    destruct E as (S' & TT & CC); (eexists; split; [exact TT|]);
    try (assert (QD : forall x, In x ds -> match x with EDrop _ _ _ => True | _ => False end) by (destruct DS as [->|(p & es & ->)]; [intros x []|intros x [<-|[]]; exact Logic.I]));
    (split; [intros t' n1 c1 I|split; [intros t' p1 n1 I|intros t' p1 n1 I]]);
    repeat (apply in_app_or in I as [I|I]; [try (apply (QN _ _ Q) in I; discriminate I); try (apply QD in I; contradiction I)|]);
    try (apply (QN _ _ Q) in I; discriminate I); cbn in I; repeat (destruct I as [I|I]; [try discriminate I|]); try contradiction I.
  - injection I as _ <- _. reflexivity.
  - injection I as <- <- <-. split; [reflexivity|]. eauto 8.
  - injection I as <- <- <-. split; [reflexivity|]. exists k0, c0, r. rewrite S', upd_same. auto 8.
Qed.

Lemma placed_final h : placed (final h).
Proof.
  induction h as [|lb h IH] using rev_ind.
  { split; cbn; [intros; discriminate|intros ? ? ? ? ? ? []|intros ? ? ? ? ? ? []]. }
  pose proof (final_step h lb) as K. pose proof (good_final h) as G. pose proof (good_final (h ++ [lb])) as G'.
  assert (TS : forall t, t <> fst lb -> tl (final (h ++ [lb])) t = tl (final h) t).
  { intros t NT. destruct (final_tls h lb) as [X _|n p j _ X _|n p j X _]; [apply X| |]; rewrite X; destruct j; try reflexivity; apply upd_other; auto. }
  assert (HS : forall t c, tl (final (h ++ [lb])) t = tl (final h) t -> (submits c = true -> target c < np (final h)) -> homed (final (h ++ [lb])) t c = homed (final h) t c).
  { intros t c E C. rewrite !homed_is, E. apply homed_stays; [|exact C]. intros p X. rewrite instance_is in X. eapply (inst_exists h t _ []); [rewrite app_nil_r; reflexivity|exact X]. }
  assert (OLDC : forall n x, nth_error (calls (final h)) n = Some x -> nth_error (calls (final (h ++ [lb]))) n = Some x) by (intros; apply calls_mono; assumption).
  assert (OLD : forall a b t n c, trace (h ++ [lb]) = a ++ ECall t n c :: b -> nth_error (calls (final h)) n <> None -> exists b', trace h = a ++ ECall t n c :: b').
  { intros a b t n c T NN. pose proof (core_evt _ _ _ G (qinv_final h) K) as V.
    destruct (evt_add _ _ _ V) as (add & TA & NA & _). unfold trace in *.
    rewrite TA in T. apply app_split in T as [X|(a' & _ & T)]; [exact X|]. exfalso. assert (n = length (calls (final h))) by (eapply NA; rewrite T; apply in_or_app; right; left; reflexivity).
    subst n. apply NN. apply nth_error_None. lia. }
  split.
  - intros t n k r c S C Q. destruct (Nat.eq_dec t (fst lb)) as [->|NT].
    + destruct (nth_error (calls (final h)) n) as [x|] eqn:CO.
      * assert (x = (fst lb, c)) by (specialize (OLDC _ _ CO); congruence). subst x.
        assert (TOP : exists k1, stk (final h) (fst lb) = FCall n k1 :: r /\ tl (final (h ++ [lb])) (fst lb) = tl (final h) (fst lb)).
        { pose proof (final_tls h lb) as TL. pose proof (core_evt _ _ _ G (qinv_final h) K) as V. revert V TL S. clear - Q G CO. set (t := fst lb). set (st := final h) in *. set (st' := final (h ++ [lb])). clearbody st st' t.
          intros V TL S.
          assert (LOOPS : loops (stk st t) = loops (stk st' t) -> tl st' t = tl st t).
          { intros L. destruct TL as [X _|n0 p j _ _ X|n0 p j _ X]; [apply X| |]; exfalso; rewrite L in X; apply (f_equal (@length _)) in X; cbn in X; lia. }
          assert (POP : forall f r0, stk st t = f :: r0 -> In (FCall n k) r0 -> False).
          { intros f r0 S0 I0. destruct (call_top _ _ _ n k (G t)) as (r1 & S1); [rewrite S0; right; exact I0|destruct k; discriminate|]. rewrite S0 in S1. injection S1 as -> ->.
            pose proof (g_ids _ _ _ (G t)) as ND. rewrite S0 in ND. inversion ND as [|? ? NI _]. apply NI. unfold ids. apply in_flat_map. eexists. split; [exact I0|left; reflexivity]. }
          destruct V as [l QQ E|f f' r0 l S0 SI QQ E|f c0 U ID W E|f n0 r0 ds res S0 ID W DS E _|n0 i c0 p r0 S0 C SB P E|n0 p j k0 i e r0 S0 E|n0 p j k0 e t1 c0 r0 S0 C E|n0 k0 c0 r0 S0 C F SB E|bd p e n0 j k0 i r0 l S0 B QQ E|bd p e n0 j r0 l S0 B QQ E|bd p n0 r0 l c0 S0 B QQ C E];
            destruct E as (S' & TT & CC); rewrite S', upd_same in S.
          - exists k. split; [exact S|]. apply LOOPS. rewrite S', upd_same. reflexivity.
          - injection S as -> ->. destruct SI as [->|[(n1 & k1 & k2 & -> & E2 & W & _)|(? & ? & ? & ? & ? & _ & X)]]; [|injection E2 as <- <-|discriminate].
            + exists k. split; [exact S0|]. apply LOOPS. rewrite S', upd_same, S0. reflexivity.
            + exists k1. split; [exact S0|]. apply LOOPS. rewrite S', upd_same, S0. reflexivity.
          - injection S as -> _. injection ID as ->. apply nth_lt in CO. lia.
          - exfalso. eapply POP; [exact S0|]. rewrite S. left. reflexivity.
          - exfalso. eapply POP; [exact S0|]. rewrite S. left. reflexivity.
          - discriminate.
          - destruct c0; discriminate.
          - destruct c0; discriminate.
          - discriminate.
          - exfalso. eapply POP; [exact S0|]. rewrite S. right. left. reflexivity.
          - exfalso. eapply POP; [exact S0|]. rewrite S. right. left. reflexivity. }
        destruct TOP as (k1 & S0 & TT). pose proof (G (fst lb)) as GT. destruct (g_call _ _ _ GT n k1) as (c1 & C1 & F1); [rewrite S0; left; reflexivity|]. assert (c1 = c) by congruence. subst c1.
        rewrite HS; [|exact TT|intros SB; eapply submit_target; eauto].
        pose proof S as S1. rewrite final_snoc in S1. unfold next in S1. destruct (dead (final h)) eqn:D.
        { rewrite S0 in S1. injection S1 as <-. eapply (pl_top _ IH); eauto. }
        destruct (act_homed (final h) (fst lb) (snd lb) n k1 r (fst lb) c S0 CO F1) as [AH _]. destruct (AH k S1 Q) as [Q1|X]; [|exact X]. eapply (pl_top _ IH); eauto.
      * (* just called *)
        exfalso. revert K S. clear - Q CO G C. set (t := fst lb) in *. set (st := final h) in *. set (st' := final (h ++ [lb])) in *. clearbody st st' t. intros K S.
        assert (NI : ~ In (FCall n k) (stk st t)) by (intros I0; destruct (g_call _ _ _ (G t) _ _ I0) as (c1 & C1 & _); congruence).
        assert (EQ : forall s', (forall t', stk st' t' = upd (stk st) t s' t') -> In (FCall n k) s') by (intros s' E; rewrite E, upd_same in S; rewrite S; left; reflexivity).
        assert (CN : calls st' <> calls st) by (intros E; rewrite E in C; congruence).
        rename n into n1, k into k1, c into c1, r into r1, S into S1, C into C1, Q into Q1.
        revert K. cores; destruct E as (S' & TT & CC); try (exfalso; apply CN; exact CC).
        -- apply EQ in S'. destruct S' as [X|X]; [injection X as <- <-; discriminate|exact (NI X)].
        -- apply EQ in S'. destruct S' as [X|X]; [discriminate|exact (NI X)].
    + assert (S0 : stk (final h) t = FCall n k :: r).
      { rewrite <- S. symmetry. apply (qv_stk _ _ _ (core_qview _ _ _ G (qinv_final h) K)). exact NT. }
      destruct (g_call _ _ _ (G t) n k) as (c1 & C1 & _); [rewrite S0; left; reflexivity|]. assert (c1 = c) by (specialize (OLDC _ _ C1); congruence). subst c1.
      rewrite HS; [|apply TS, NT|intros SB; eapply submit_target; eauto]. eapply (pl_top _ IH); eauto.
  - intros t p n a b c I T. destruct (evt_add _ _ _ (core_evt _ _ _ G (qinv_final h) K)) as (add & TA & _ & NS & _). pose proof I as I0. rewrite TA in I0. apply in_app_or in I0 as [I0|I0].
    + destruct (x_inl _ (exec_final h) _ _ _ I0) as [_ (c1 & C1 & SB & _)]. destruct (OLD _ _ _ _ _ T) as (b' & T0); [congruence|].
      assert (C0 : c1 = c) by (pose proof (prefix_called _ _ _ _ _ _ T0); congruence). subst c1.
      rewrite homed_stays; [eapply (pl_inl _ IH); eauto|intros p0 X; eapply inst_exists; eauto|intros _; eapply submit_target; eauto].
    + destruct (NS _ _ _ I0) as (-> & k & c1 & r & S & F & C1 & SB & S'). destruct (OLD _ _ _ _ _ T) as (b' & T0); [congruence|].
      assert (C0 : c1 = c) by (pose proof (prefix_called _ _ _ _ _ _ T0); congruence). subst c1.
      rewrite homed_stays; [|intros p0 X; eapply inst_exists; eauto|intros _; eapply submit_target; eauto].
      assert (NK : k <> PInline) by (intros ->; discriminate).
      assert (E1 : instance (fst lb) a = tl (final h) (fst lb)) by (rewrite instance_is; eapply since_final; [rewrite S; left; reflexivity|exact NK|exact T0]). rewrite E1, <- homed_is.
      destruct (g_call _ _ _ (G (fst lb)) n k) as (c1 & C2 & F1); [rewrite S; left; reflexivity|]. assert (c1 = c) by congruence. subst c1.
      rewrite final_snoc in S'. unfold next in S'. destruct (dead (final h)); [exfalso; rewrite S in S'; injection S' as _ S'; apply (f_equal (@length _)) in S'; cbn in S'; lia|].
      eapply (proj2 (act_homed (final h) (fst lb) (snd lb) n k r (fst lb) c S C1 F1)). exact S'.
  - intros t p n a b c I T. destruct (evt_add _ _ _ (core_evt _ _ _ G (qinv_final h) K)) as (add & TA & _ & _ & NS). pose proof I as I0. rewrite TA in I0. apply in_app_or in I0 as [I0|I0].
    + destruct (x_acc _ (exec_final h) _ _ _ I0) as (c1 & C1 & SB & _). destruct (OLD _ _ _ _ _ T) as (b' & T0); [congruence|].
      assert (C0 : c1 = c) by (pose proof (prefix_called _ _ _ _ _ _ T0); congruence). subst c1.
      rewrite homed_stays; [eapply (pl_acc _ IH); eauto|intros p0 X; eapply inst_exists; eauto|intros _; eapply submit_target; eauto].
    + destruct (NS _ _ _ I0) as (-> & i & c1 & r & S & C1 & SB). destruct (OLD _ _ _ _ _ T) as (b' & T0); [congruence|].
      assert (C0 : c1 = c) by (pose proof (prefix_called _ _ _ _ _ _ T0); congruence). subst c1.
      rewrite homed_stays; [|intros p0 X; eapply inst_exists; eauto|intros _; eapply submit_target; eauto].
      assert (E1 : instance (fst lb) a = tl (final h) (fst lb)) by (rewrite instance_is; eapply since_final; [rewrite S; left; reflexivity|discriminate|exact T0]). rewrite E1, <- homed_is.
      eapply (pl_top _ IH); [exact S|exact C1|reflexivity].
Qed.

(** What a submitting call does, it has done before it returns. *)
Lemma ret_step h a t n r b : trace h = a ++ ERet t n r :: b -> exists h1, trace h1 = a ++ [ERet t n r].
Proof.
  revert b. induction h as [|lb h IH] using rev_ind; intros b T; [destruct a; discriminate|]. pose proof (core_evt _ _ _ (good_final h) (qinv_final h) (final_step h lb)) as V.
  assert (X : exists add, trace (h ++ [lb]) = trace h ++ add /\ forall a' t' n' r' b', add = a' ++ ERet t' n' r' :: b' -> b' = []).
  { assert (L : forall l (e : event), (forall t' n' r', ~ In (ERet t' n' r') l) -> forall a' t' n' r' b', l ++ [e] = a' ++ ERet t' n' r' :: b' -> b' = []).
    { intros l e NI a' t' n' r' b' E. destruct b' as [|x b'] using rev_ind; [reflexivity|]. exfalso. clear IHb'. rewrite app_comm_cons, app_assoc in E. apply app_inj_tail in E as [E _]. eapply NI. rewrite E. apply in_or_app. right. left. reflexivity. }
    assert (LQ : forall l, (forall t' n' r', ~ In (ERet t' n' r') l) -> forall a' t' n' r' b', l = a' ++ ERet t' n' r' :: b' -> b' = []).
    { intros l NI a' t' n' r' b' E. exfalso. eapply NI. rewrite E. apply in_or_app. right. left. reflexivity. }
    assert (QN : forall l, quiet l -> forall t' n' r', ~ In (ERet t' n' r') l) by (intros l Q t' n' r'; apply quiet_not; [exact Q|reflexivity]).
    unfold trace. destruct V as [l Q E|f f' r0 l S SI Q E|f c0 U ID W E|f n0 r0 ds res S ID W DS E _|n0 i c0 p r0 S C SB P E|n0 p j k0 i e r0 S E|n0 p j k0 e t1 c0 r0 S C E|n0 k0 c0 r0 S C F SB E|bd p e n0 j k0 i r0 l S B Q E|bd p e n0 j r0 l S B Q E|bd p n0 r0 l c0 S B Q C E];
      destruct E as (S' & TT & CC); (eexists; split; [exact TT|]).
    - apply LQ, QN, Q.
    - apply LQ, QN, Q.
    - apply LQ. intros t' n' r' [I|[]]. discriminate.
    - apply L. destruct DS as [->|(p & es & ->)]; [intros t' n' r' []|intros t' n' r' [I|[]]; discriminate].
    - apply (L [_]). intros t' n' r' [I|[]]. discriminate.
    - apply LQ. intros t' n' r' [I|[]]. discriminate.
    - apply LQ. intros t' n' r' [I|[]]. discriminate.
    - apply LQ. intros t' n' r' [I|[]]. discriminate.
    - apply LQ. intros t' n' r' I. apply in_app_or in I as [I|[I|[]]]; [eapply QN; eauto|discriminate].
    - change [EEnd (fst lb) p e; ERet (fst lb) n0 (RBool true)] with ([EEnd (fst lb) p e] ++ [ERet (fst lb) n0 (RBool true)]). rewrite app_assoc. apply L. intros t' n' r' I. apply in_app_or in I as [I|[I|[]]]; [eapply QN; eauto|discriminate].
    - change [EEnd (fst lb) p n0; ERet (fst lb) n0 (fin c0 true)] with ([EEnd (fst lb) p n0] ++ [ERet (fst lb) n0 (fin c0 true)]). rewrite app_assoc. apply L. intros t' n' r' I. apply in_app_or in I as [I|[I|[]]]; [eapply QN; eauto|discriminate]. }
  destruct X as (add & TA & NA). pose proof T as T1. rewrite TA in T1. apply app_split in T1 as [(b' & X)|(a' & -> & X)]; [exact (IH _ X)|].
  pose proof (NA _ _ _ _ _ X) as ->. exists (h ++ [lb]). exact T.
Qed.
