(** Processing messages: the invariant holds. *)
From Verif Require Import ListUtil Amap ProcModel ProcSpec ProcProofs ProcProofs2 ProcProofs3 ProcProofs4 ProcProofs5 ProcProofs6 ProcProofs7 ProcProofs16 ProcProofs19 ProcProofs20 ProcProofs21 ProcProofs22.
From Verif Require QueueModel SigModel SigSpec SigProofs SigProofs3.

Lemma sig_to_same st st' g l : sig_to st st' g l -> sg_at st' g = SigModel.next SigModel.Multi (sg_at st g) l.
Proof. intros H. unfold sg_at. rewrite (H g), upd_same. apply sg_next. Qed.
Lemma sig_to_other st st' g l g' : sig_to st st' g l -> g' <> g -> sg_at st' g' = sg_at st g'.
Proof. intros H N. unfold sg_at. rewrite (H g'), upd_other by auto. reflexivity. Qed.
Lemma nodup_tail {A} (x : A) l : NoDup (x :: l) -> NoDup l. Proof. intros H. inversion H. assumption. Qed.

Lemma EI_step t st st' : EI st -> sg t st st' -> (forall t', t' <> t -> stk st' t' = stk st t') -> (forall e, cnt (starts e) (tr st') <= 1) -> dead st' = false -> EI st'.
Proof.
  intros J G OS CN DD.
  assert (OT : forall t', t' <> t -> fes (stk st' t') = fes (stk st t')) by (intros t' N; rewrite OS by exact N; reflexivity).
  assert (SGS : sig_same st st' -> forall g, healthy (sg_at st' g) /\ SigModel.em (sg_at st' g) = SigModel.em (sg_at st g) /\ sig_calls (SigModel.tr (sg_at st' g)) = sig_calls (SigModel.tr (sg_at st g)) /\ (SigModel.em (sg_at st g) = None \/ silent (sg_at st g) (sg_at st' g))).
  { intros H g. unfold sg_at. rewrite (H g). split; [apply (i_ok _ J)|]. split; [reflexivity|]. split; [reflexivity|right; apply silent_refl]. }
  assert (BUSY : forall g e x (y k : nat), SigModel.em (sg_at st g) = Some x -> SigModel.e_thread x = t -> SigModel.e_val x = e -> forall t' e' x', In (e', x') (fes (stk st t')) -> busy x' g -> y = k -> t' = t /\ e' = e).
  { intros g e x y k E1 E2 E3 t' e' x' I [->|(s & ->)] _.
    - destruct (i_at _ J _ _ _ I) as (x2 & F1 & F2 & F3 & _). rewrite E1 in F1. injection F1 as <-. split; congruence.
    - destruct (i_in _ J _ _ _ _ I) as (x2 & k2 & F1 & F2 & F3 & _). rewrite E1 in F1. injection F1 as <-. split; congruence. }
  destruct G as [SS FS NH _|p e i SS FS TR _|p e m g r S GM SS FS TR _|p e m r S GM SS FS (x & TR & XX) _|g a FR UA ST FS NH _|p e m g r S FR ST NH R|p e m g r S ST _ R|p e m g s r S ST FS NH _].
  - apply (EI_quiet t st st'); auto; [intros e x I; left; rewrite <- FS; exact I|rewrite FS; apply (i_once _ J)].
  - assert (Z : cnt (starts e) (tr st) = 0) by (specialize (CN e); rewrite TR, cnt_app, cnt_cons in CN; cbn in CN; rewrite Nat.eqb_refl in CN; cbn in CN; lia).
    apply (EI_quiet t st st'); auto.
    + eapply nh_one; [exact TR|reflexivity].
    + intros e' x I. rewrite FS in I. destruct I as [I|I]; [|left; exact I]. injection I as <- <-. right. left. split; [reflexivity|]. split; [|exact Z]. exists p, i. rewrite TR. apply in_or_app. right. left. reflexivity.
    + rewrite FS. cbn. constructor; [|apply (i_once _ J)]. intros I. apply in_map_iff in I as ([e' x] & E & I). cbn in E. subst e'. destruct (i_start _ J _ _ _ I) as (p' & i' & X). rewrite cnt_in in Z. specialize (Z _ X). cbn in Z. rewrite Nat.eqb_refl in Z. discriminate.
  - assert (F0 : fes (stk st t) = (e, MLook) :: fes r) by (rewrite S; reflexivity). apply (EI_quiet t st st'); auto.
    + eapply nh_one; [exact TR|reflexivity].
    + intros e' x I. rewrite FS in I. rewrite F0. destruct I as [I|I]; [|left; right; exact I]. injection I as <- <-. right. right. exists g. split; [reflexivity|left; reflexivity].
    + rewrite FS. pose proof (i_once _ J t) as X. rewrite F0 in X. exact X.
  - assert (F0 : fes (stk st t) = (e, MLook) :: fes r) by (rewrite S; reflexivity). apply (EI_quiet t st st'); auto.
    + eexists. split; [exact TR|]. intros y [<-|[<-|I]]; [reflexivity|reflexivity|apply XX; exact I].
    + intros e' x' I. rewrite FS in I. left. rewrite F0. right. exact I.
    + rewrite FS. pose proof (i_once _ J t) as X. rewrite F0 in X. exact (nodup_tail _ _ X).
  - apply (EI_quiet t st st'); auto; [|intros e x I; left; rewrite <- FS; exact I|rewrite FS; apply (i_once _ J)].
    intros g'. destruct (Nat.eq_dec g' g) as [->|N].
    + assert (UU : user_action a = true) by (destruct a as [[]| | | | | | | | | | | | | | | | | |]; try contradiction; reflexivity).
      destruct (keep_user _ t a (i_ok _ J g) FR UU) as (K1 & K2 & K3). rewrite (sig_to_same _ _ _ _ ST). split; [exact K2|]. split; [exact K1|]. split; [apply silent_calls; exact K3|right; exact K3].
    + rewrite (sig_to_other _ _ _ _ _ ST N). split; [apply (i_ok _ J)|]. split; [reflexivity|]. split; [reflexivity|right; apply silent_refl].
  - assert (F0 : fes (stk st t) = (e, MWait g) :: fes r) by (rewrite S; reflexivity). cbv zeta in R. pose proof (keep_emit _ t e (sg_CI st g) (i_ok _ J g) FR) as K. cbv zeta in K. rewrite <- (sig_to_same _ _ _ _ ST) in K. fold (sg_at st' g) in R.
    destruct R as [(CR & D & _)|(CR & D & R)]; [congruence|]. destruct K as [K|(E0 & HY & SC & EN & K)]; [congruence|].
    destruct R as [(EM & FS & _)|(EM & FS)].
    + apply (EI_quiet t st st'); auto.
      * intros g'. destruct (Nat.eq_dec g' g) as [->|N]; [split; [exact HY|]; split; [congruence|]; split; [exact SC|left; exact E0]|]. rewrite (sig_to_other _ _ _ _ _ ST N). split; [apply (i_ok _ J)|]. split; [reflexivity|]. split; [reflexivity|right; apply silent_refl].
      * intros e' x' I. rewrite FS in I. left. rewrite F0. right. exact I.
      * rewrite FS. pose proof (i_once _ J t) as X. rewrite F0 in X. exact (nodup_tail _ _ X).
    + destruct K as [(_ & K)|K]; [contradiction|]. assert (NO : none st e) by (eapply (i_early _ J); [rewrite F0; left; reflexivity|right; eauto]).
      destruct NH as (add & TA & NH). assert (PR : handles g (tr st') = sig_calls (SigModel.tr (sg_at st' g))) by (rewrite TA, handles_app, (handles_none g add NH), app_nil_r, (i_proj _ J); symmetry; exact SC).
      apply (EI_move t g e (MWait g) (fes r) st st'); auto.
      * intros g'. destruct (Nat.eq_dec g' g) as [->|N]; [exact HY|]. rewrite (sig_to_other _ _ _ _ _ ST N). apply (i_ok _ J).
      * intros g' N. apply (sig_to_other _ _ _ _ _ ST N).
      * intros t' e' x' I [->|(s & ->)]; [destruct (i_at _ J _ _ _ I) as (x2 & F1 & _)|destruct (i_in _ J _ _ _ _ I) as (x2 & k2 & F1 & _)]; congruence.
      * intros t' g' k s I. exfalso. exact (NO _ _ _ _ I).
      * exists add. split; [exact TA|]. intros y I X. apply NH in I. congruence.
      * right. exists (MAt g). eexists. split; [exact FS|]. split; [exact K|]. split; [reflexivity|]. split; [reflexivity|]. split; [|left; split; reflexivity].
        intros t' no k s I. exfalso. assert (X : In (t', e, k, s) (sig_calls (SigModel.tr (sg_at st' g)))) by (apply in_sig_calls; eauto). rewrite SC, <- (i_proj _ J) in X. apply in_handles in X. exact (NO _ _ _ _ X).
  - assert (F0 : fes (stk st t) = (e, MAt g) :: fes r) by (rewrite S; reflexivity). cbv zeta in R. fold (sg_at st' g) in R.
    assert (I0 : In (e, MAt g) (fes (stk st t))) by (rewrite F0; left; reflexivity). destruct (i_at _ J _ _ _ I0) as (x & E1 & E2 & E3 & E4 & E5).
    destruct (keep_step _ t x (i_ok _ J g) E1 E2 E4) as (HY & K). rewrite <- (sig_to_same _ _ _ _ ST) in HY, K.
    assert (ADD : exists add, tr st' = tr st ++ add /\ (forall y, In y add -> is_handle y = true -> exists k s, y = EHandle t e g k s)).
    { destruct R as [(_ & _ & z & R1 & R2)|[(y & _ & _ & _ & R1)|(y & k & s & _ & _ & _ & R1)]].
      - eexists. split; [exact R1|]. intros w [<-|I] X; [discriminate|apply R2 in I; congruence].
      - exists []. rewrite app_nil_r. split; [exact R1|intros y0 []].
      - eexists. split; [exact R1|]. intros w [<-|[]] _. eauto. }
    apply (EI_move t g e (MAt g) (fes r) st st'); auto.
    + intros g'. destruct (Nat.eq_dec g' g) as [->|N]; [exact HY|]. rewrite (sig_to_other _ _ _ _ _ ST N). apply (i_ok _ J).
    + intros g' N. apply (sig_to_other _ _ _ _ _ ST N).
    + intros t' e' x' I B. exact (BUSY g e x 0 0 E1 E2 E3 t' e' x' I B eq_refl).
    + intros t' g' k s I. eapply (i_only _ J); [exact I0|left; reflexivity|exact I].
    + destruct R as [(R0 & _ & z & R1 & R2)|[(y & R0 & R00 & _ & R1)|(y & k & s & R0 & R00 & _ & R1)]]; rewrite R0 in K.
      * destruct K as [(_ & _ & K & _)|[(K & _)|(k & s & K & _)]]; try discriminate. rewrite K, R1, handles_app, <- (i_proj _ J). rewrite (handles_none g (EEnd t p e :: z)), app_nil_r; [reflexivity|]. intros w [<-|I]; [reflexivity|apply R2; exact I].
      * destruct K as [(_ & K & _)|[(_ & K)|(k & s & K & _)]]; try discriminate; [|injection K as ->; discriminate]. rewrite K, R1. apply (i_proj _ J).
      * destruct K as [(_ & K & _)|[(K & _)|(k' & s' & K & KT)]]; [discriminate|injection K as ->; congruence|]. injection K as ->. cbn in R00. injection R00 as -> ->.
        rewrite KT, R1, handles_app, sig_calls_app, (i_proj _ J). cbn. rewrite Nat.eqb_refl, E3. reflexivity.
    + destruct R as [(_ & FS & _)|[(y & R0 & R00 & FS & R1)|(y & k & s & R0 & R00 & FS & R1)]]; [left; exact FS| |]; right; rewrite R0 in K.
      * destruct K as [(_ & K & _)|[(K & KT)|(k & s & K & _)]]; try discriminate; [|injection K as ->; discriminate]. injection K as ->. exists (MAt g), x. split; [rewrite FS; exact F0|]. split; [exact R0|]. split; [exact E2|]. split; [exact E3|]. split; [|left; auto].
        intros t' no k s I. rewrite KT in I. eapply E5; exact I.
      * destruct K as [(_ & K & _)|[(K & _)|(k' & s' & K & KT)]]; [discriminate|injection K as ->; congruence|]. injection K as ->. cbn in R00. injection R00 as -> ->.
        exists (MIn g s). eexists. split; [exact FS|]. split; [exact R0|]. split; [reflexivity|]. split; [exact E3|]. split; [|right; eexists; eexists; split; reflexivity].
        intros t' no k1 s1 I. rewrite KT in I. apply in_app_or in I as [I|[I|[]]]; [eapply E5; exact I|injection I as _ <- _ _ _; reflexivity].
  - assert (F0 : fes (stk st t) = (e, MIn g s) :: fes r) by (rewrite S; reflexivity). assert (I0 : In (e, MIn g s) (fes (stk st t))) by (rewrite F0; left; reflexivity). destruct (i_in _ J _ _ _ _ I0) as (x & k & E1 & E2 & E3 & E4 & E5).
    destruct (keep_return _ t x k s (i_ok _ J g) E1 E2 E4) as (HY & K1 & K2 & K3). rewrite <- (sig_to_same _ _ _ _ ST) in HY, K1, K2, K3.
    destruct NH as (add & TA & NH). assert (PR : handles g (tr st') = sig_calls (SigModel.tr (sg_at st' g))) by (rewrite TA, handles_app, (handles_none g add NH), app_nil_r, (i_proj _ J); symmetry; exact K2).
    apply (EI_move t g e (MIn g s) (fes r) st st'); auto.
    + intros g'. destruct (Nat.eq_dec g' g) as [->|N]; [exact HY|]. rewrite (sig_to_other _ _ _ _ _ ST N). apply (i_ok _ J).
    + intros g' N. apply (sig_to_other _ _ _ _ _ ST N).
    + intros t' e' x' I B. exact (BUSY g e x 0 0 E1 E2 E3 t' e' x' I B eq_refl).
    + intros t' g' k' s' I. eapply (i_only _ J); [exact I0|right; eauto|exact I].
    + exists add. split; [exact TA|]. intros y I X. apply NH in I. congruence.
    + right. exists (MAt g). eexists. split; [exact FS|]. split; [exact K1|]. split; [reflexivity|]. split; [exact E3|]. split; [|left; split; reflexivity].
      intros t' no k' s' I. eapply E5. eapply silent_ecall; [exact K3|exact I].
Qed.

Lemma EI_init : EI init.
Proof.
  split; cbn; try contradiction; try (intros; reflexivity).
  - intros g. split; reflexivity.
  - intros t. constructor.
  - intros e _ t g k s [].
Qed.
Lemma next_sg h l : sg (fst l) (final h) (final (h ++ [l])) \/ final (h ++ [l]) = final h.
Proof.
  destruct (final_act h l) as [E|E]; [right; exact E|left]. rewrite E. apply act_sg. apply all_fits, good_final.
Qed.
Lemma dead_prefix h l : dead (final (h ++ [l])) = false -> dead (final h) = false.
Proof. intros D. rewrite final_snoc in D. unfold next in D. destruct (dead (final h)) eqn:E; [congruence|reflexivity]. Qed.
Lemma other_stacks h l t : t <> fst l -> stk (final (h ++ [l])) t = stk (final h) t.
Proof.
  intros N. pose proof (ProcProofs11.final_step h l) as C. exact (qv_stk _ _ _ (core_qview _ _ _ (good_final h) (qinv_final h) C) t N).
Qed.
Theorem EI_final h : dead (final h) = false -> EI (final h).
Proof.
  induction h as [|l h IH] using rev_ind; intros D; [exact EI_init|]. pose proof (dead_prefix _ _ D) as D0. destruct (next_sg h l) as [G|E]; [|rewrite E; exact (IH D0)].
  eapply EI_step; [exact (IH D0)|exact G|intros t' N; apply other_stacks; exact N|intros e; apply started_once|exact D].
Qed.
