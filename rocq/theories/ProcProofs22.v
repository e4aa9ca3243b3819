(** Processing messages: handlers are called as the signal of the message type calls its slots. *)
From Verif Require Import ListUtil Amap ProcModel ProcSpec ProcProofs ProcProofs2 ProcProofs3 ProcProofs4 ProcProofs5 ProcProofs6 ProcProofs7 ProcProofs20 ProcProofs21.
From Verif Require QueueModel SigModel SigSpec SigProofs SigProofs3 SigProofs6 SigProofs7.

Definition sg_at (st : state) (g : nat) : SigModel.state := s_state (sig_at st g).
Definition handle_of (g : nat) (e : event) : list (nat * nat * nat * nat) := match e with EHandle t e g' k s => if Nat.eqb g g' then [(t, e, k, s)] else [] | _ => [] end.
Definition handles (g : nat) (l : list event) : list (nat * nat * nat * nat) := flat_map (handle_of g) l.
Lemma handles_app g a b : handles g (a ++ b) = handles g a ++ handles g b. Proof. apply flat_map_app. Qed.
Lemma in_handles g t e k s l : In (t, e, k, s) (handles g l) <-> In (EHandle t e g k s) l.
Proof.
  unfold handles. rewrite in_flat_map. split.
  - intros (x & I & C). destruct x; cbn in C; try contradiction. destruct (Nat.eqb_spec g g0) as [<-|]; [|contradiction]. destruct C as [C|[]]. injection C as -> -> -> ->. exact I.
  - intros I. exists (EHandle t e g k s). split; [exact I|]. cbn. rewrite Nat.eqb_refl. left. reflexivity.
Qed.
Lemma handles_none g l : (forall x, In x l -> is_handle x = false) -> handles g l = [].
Proof.
  induction l as [|x l IH]; intros H; [reflexivity|]. change (handles g (x :: l)) with (handle_of g x ++ handles g l). rewrite IH by (intros y I; apply H; right; exact I).
  specialize (H x (or_introl eq_refl)). destruct x; try reflexivity. discriminate.
Qed.

Definition own (st : state) (g e : nat) (x : SigModel.emis) : Prop := forall t' no k s, In (SigModel.ECall t' no k s e) (SigModel.tr (sg_at st g)) -> no = SigModel.e_no x.
Definition early (x : mstate) : Prop := x = MLook \/ exists g, x = MWait g.
Definition none (st : state) (e : nat) : Prop := forall t g k s, ~ In (EHandle t e g k s) (tr st).
Definition busy (x : mstate) (g : nat) : Prop := x = MAt g \/ exists s, x = MIn g s.

Record EI (st : state) : Prop := {
  i_ok : forall g, healthy (sg_at st g);
  i_proj : forall g, handles g (tr st) = sig_calls (SigModel.tr (sg_at st g));
  i_start : forall t e x, In (e, x) (fes (stk st t)) -> exists p i, In (EStart t p e i) (tr st);
  i_once : forall t, NoDup (map fst (fes (stk st t)));
  i_early : forall t e x, In (e, x) (fes (stk st t)) -> early x -> none st e;
  i_none : forall e, cnt (starts e) (tr st) = 0 -> none st e;
  i_at : forall t e g, In (e, MAt g) (fes (stk st t)) -> exists x, SigModel.em (sg_at st g) = Some x /\ SigModel.e_thread x = t /\ SigModel.e_val x = e /\ SigModel.e_run x = None /\ own st g e x;
  i_in : forall t e g s, In (e, MIn g s) (fes (stk st t)) -> exists x k, SigModel.em (sg_at st g) = Some x /\ SigModel.e_thread x = t /\ SigModel.e_val x = e /\ SigModel.e_run x = Some (k, s) /\ own st g e x;
  i_only : forall t e x g, In (e, x) (fes (stk st t)) -> busy x g -> forall t' g' k s, In (EHandle t' e g' k s) (tr st) -> t' = t /\ g' = g }.

Lemma start_same l e t p i t' p' i' : cnt (starts e) l <= 1 -> In (EStart t p e i) l -> In (EStart t' p' e i') l -> t = t'.
Proof.
  intros C I I'. apply in_split in I as (a & b & ->). rewrite cnt_app, cnt_cons in C. cbn in C. rewrite Nat.eqb_refl in C. cbn in C.
  assert (A : cnt (starts e) a = 0) by lia. assert (B : cnt (starts e) b = 0) by lia. rewrite cnt_in in A, B.
  apply in_app_or in I' as [I'|[I'|I']]; [specialize (A _ I')|injection I' as <- _ _; reflexivity|specialize (B _ I')]; cbn in *; rewrite Nat.eqb_refl in *; discriminate.
Qed.
Lemma sg_next h l : s_state (h ++ [l]) = SigModel.next SigModel.Multi (s_state h) l. Proof. unfold s_state, SigModel.final. rewrite fold_left_app. reflexivity. Qed.
Lemma sg_CI st g : SigProofs3.CI SigModel.Multi (sg_at st g). Proof. unfold sg_at, s_state. apply SigProofs3.CI_final. Qed.

Lemma silent_ecall a b t n k s v : silent a b -> In (SigModel.ECall t n k s v) (SigModel.tr b) -> In (SigModel.ECall t n k s v) (SigModel.tr a).
Proof. intros (l & -> & H) I. apply in_app_or in I as [I|I]; [exact I|]. specialize (H _ I). contradiction. Qed.

Lemma EI_quiet t st st' : EI st -> (forall g, healthy (sg_at st' g) /\ SigModel.em (sg_at st' g) = SigModel.em (sg_at st g) /\ sig_calls (SigModel.tr (sg_at st' g)) = sig_calls (SigModel.tr (sg_at st g)) /\ (SigModel.em (sg_at st g) = None \/ silent (sg_at st g) (sg_at st' g))) ->
  nohandle st st' -> (forall t', t' <> t -> fes (stk st' t') = fes (stk st t')) ->
  (forall e x, In (e, x) (fes (stk st' t)) -> In (e, x) (fes (stk st t)) \/ (x = MLook /\ (exists p i, In (EStart t p e i) (tr st')) /\ cnt (starts e) (tr st) = 0) \/ exists g, x = MWait g /\ In (e, MLook) (fes (stk st t))) ->
  NoDup (map fst (fes (stk st' t))) -> EI st'.
Proof.
  intros J SG (add & TA & NH) OT FR ND.
  assert (HB : forall t' e g k s, In (EHandle t' e g k s) (tr st') -> In (EHandle t' e g k s) (tr st)).
  { intros t' e g k s I. rewrite TA in I. apply in_app_or in I as [I|I]; [exact I|]. apply NH in I. discriminate. }
  assert (NB : forall e, none st e -> none st' e) by (intros e N t' g k s I; exact (N _ _ _ _ (HB _ _ _ _ _ I))).
  assert (OB : forall g e x y, SigModel.em (sg_at st g) = Some y -> own st g e x -> own st' g e x) by (intros g e x y EY O t' no k s I; destruct (SG g) as (_ & _ & _ & [EN|SI]); [congruence|eapply O, silent_ecall; [exact SI|exact I]]).
  assert (IN : forall t' e x, In (e, x) (fes (stk st' t')) -> ~ early x -> In (e, x) (fes (stk st t'))).
  { intros t' e x I NE. destruct (Nat.eq_dec t' t) as [->|NT]; [|rewrite OT in I by exact NT; exact I]. destruct (FR _ _ I) as [I0|[(-> & _)|(g & -> & _)]]; [exact I0|exfalso; apply NE; left; reflexivity|exfalso; apply NE; right; eauto]. }
  split.
  - intros g. apply SG.
  - intros g. rewrite TA, handles_app, (handles_none g add NH), app_nil_r, (i_proj _ J). symmetry. apply SG.
  - intros t' e x I. destruct (Nat.eq_dec t' t) as [->|NT].
    + destruct (FR _ _ I) as [I0|[(_ & X & _)|(g & _ & I0)]]; [| exact X|]; (destruct (i_start _ J _ _ _ I0) as (p & i & E); exists p, i; rewrite TA; apply in_or_app; left; exact E).
    + rewrite OT in I by exact NT. destruct (i_start _ J _ _ _ I) as (p & i & E). exists p, i. rewrite TA. apply in_or_app. left. exact E.
  - intros t'. destruct (Nat.eq_dec t' t) as [->|NT]; [exact ND|]. rewrite OT by exact NT. apply (i_once _ J).
  - intros t' e x I EA. apply NB. destruct (Nat.eq_dec t' t) as [->|NT].
    + destruct (FR _ _ I) as [I0|[(_ & _ & Z)|(g & _ & I0)]]; [eapply (i_early _ J); eauto|apply (i_none _ J); exact Z|eapply (i_early _ J); [exact I0|left; reflexivity]].
    + rewrite OT in I by exact NT. eapply (i_early _ J); eauto.
  - intros e Z. apply NB, (i_none _ J). rewrite TA, cnt_app in Z. lia.
  - intros t' e g I. apply IN in I; [|intros [X|(g' & X)]; discriminate]. destruct (i_at _ J _ _ _ I) as (x & E1 & E2 & E3 & E4 & E5). exists x. destruct (SG g) as (_ & -> & _). conjs; eauto.
  - intros t' e g s I. apply IN in I; [|intros [X|(g' & X)]; discriminate]. destruct (i_in _ J _ _ _ _ I) as (x & k & E1 & E2 & E3 & E4 & E5). exists x, k. destruct (SG g) as (_ & -> & _). conjs; eauto.
  - intros t' e x g I B t1 g1 k s I1. apply HB in I1. apply IN in I; [|intros [->|(g' & ->)]; destruct B as [X|(s' & X)]; discriminate]. eapply (i_only _ J); eauto.
Qed.

Lemma EI_move t g e x0 fs st st' : EI st -> (forall g', healthy (sg_at st' g')) -> (forall g', g' <> g -> sg_at st' g' = sg_at st g') ->
  fes (stk st t) = (e, x0) :: fs -> (forall t' e' x', In (e', x') (fes (stk st t')) -> busy x' g -> t' = t /\ e' = e) ->
  (forall t' g' k s, In (EHandle t' e g' k s) (tr st) -> t' = t /\ g' = g) ->
  (exists add, tr st' = tr st ++ add /\ (forall y, In y add -> is_handle y = true -> exists k s, y = EHandle t e g k s)) ->
  handles g (tr st') = sig_calls (SigModel.tr (sg_at st' g)) -> (forall t', t' <> t -> fes (stk st' t') = fes (stk st t')) ->
  (forall e', cnt (starts e') (tr st') <= 1) ->
  (fes (stk st' t) = fs \/ exists x1 x, fes (stk st' t) = (e, x1) :: fs /\ SigModel.em (sg_at st' g) = Some x /\ SigModel.e_thread x = t /\ SigModel.e_val x = e /\ own st' g e x /\
     ((x1 = MAt g /\ SigModel.e_run x = None) \/ exists k s, x1 = MIn g s /\ SigModel.e_run x = Some (k, s))) -> EI st'.
Proof.
  intros J HY OTH F0 UN HO (add & TA & AH) PR OT CN NEW.
  assert (ND : ~ In e (map fst fs)) by (pose proof (i_once _ J t) as X; rewrite F0 in X; inversion X; assumption).
  assert (SE : exists p i, In (EStart t p e i) (tr st)) by (eapply (i_start _ J t e x0); rewrite F0; left; reflexivity).
  assert (MONO : forall t' p e' i, In (EStart t' p e' i) (tr st) -> In (EStart t' p e' i) (tr st')) by (intros; rewrite TA; apply in_or_app; left; assumption).
  assert (HB : forall t' e' g' k s, In (EHandle t' e' g' k s) (tr st') -> In (EHandle t' e' g' k s) (tr st) \/ (t' = t /\ e' = e /\ g' = g)).
  { intros t' e' g' k s I. rewrite TA in I. apply in_app_or in I as [I|I]; [left; exact I|]. destruct (AH _ I eq_refl) as (k' & s' & X). injection X as -> -> -> _ _. auto. }
  (* frames after the step: the new one, or an old one of another execution *)
  assert (OLD : forall t' e' x', In (e', x') (fes (stk st' t')) -> (In (e', x') (fes (stk st t')) /\ e' <> e) \/ (t' = t /\ e' = e /\ exists x, fes (stk st' t) = (e, x') :: fs /\ SigModel.em (sg_at st' g) = Some x /\ SigModel.e_thread x = t /\ SigModel.e_val x = e /\ own st' g e x /\
     ((x' = MAt g /\ SigModel.e_run x = None) \/ exists k s, x' = MIn g s /\ SigModel.e_run x = Some (k, s)))).
  { intros t' e' x' I. destruct (Nat.eq_dec t' t) as [->|NT].
    - assert (FS : In (e', x') fs -> In (e', x') (fes (stk st t)) /\ e' <> e).
      { intros X. split; [rewrite F0; right; exact X|]. intros ->. apply ND. apply in_map_iff. exists (e, x'). auto. }
      destruct NEW as [NEW|(x1 & x & NEW & REST)].
      + rewrite NEW in I. left. apply FS. exact I.
      + rewrite NEW in I. destruct I as [I|I]; [|left; apply FS; exact I]. injection I as <- <-. right. split; [reflexivity|]. split; [reflexivity|]. exists x. split; [exact NEW|exact REST].
    - rewrite OT in I by exact NT. left. split; [exact I|]. intros ->. destruct (i_start _ J _ _ _ I) as (p & i & S1). destruct SE as (p' & i' & S2). apply NT. eapply start_same; [apply (CN e)|apply MONO; exact S1|apply MONO; exact S2]. }
  assert (NG : forall t' e' x' g', In (e', x') (fes (stk st t')) -> e' <> e -> busy x' g' -> g' <> g).
  { intros t' e' x' g' I NE B ->. destruct (UN _ _ _ I B) as [_ X]. exact (NE X). }
  split.
  - exact HY.
  - intros g'. destruct (Nat.eq_dec g' g) as [->|NG']; [exact PR|]. rewrite OTH by exact NG'. rewrite <- (i_proj _ J), TA, handles_app.
    assert (Z : handles g' add = []).
    { clear - AH NG'. induction add as [|y add IH]; [reflexivity|]. change (handles g' (y :: add)) with (handle_of g' y ++ handles g' add). rewrite IH by (intros z I; apply AH; right; exact I). rewrite app_nil_r.
      specialize (AH y (or_introl eq_refl)). destruct y; try reflexivity. destruct (AH eq_refl) as (k' & s' & X). injection X as -> -> -> _ _. cbn. destruct (Nat.eqb_spec g' g); [contradiction|reflexivity]. }
    rewrite Z, app_nil_r. reflexivity.
  - intros t' e' x' I. destruct (OLD _ _ _ I) as [(I0 & _)|(-> & -> & _)].
    + destruct (i_start _ J _ _ _ I0) as (p & i & X). eauto.
    + destruct SE as (p & i & X). eauto.
  - intros t'. destruct (Nat.eq_dec t' t) as [->|NT]; [|rewrite OT by exact NT; apply (i_once _ J)].
    pose proof (i_once _ J t) as X. rewrite F0 in X. destruct NEW as [->|(x1 & x & -> & _)]; [inversion X; assumption|exact X].
  - intros t' e' x' I EA t1 g1 k s I1. destruct (OLD _ _ _ I) as [(I0 & NE)|(-> & -> & x & _ & _ & _ & _ & _ & X)].
    + destruct (HB _ _ _ _ _ I1) as [I2|(_ & -> & _)]; [|contradiction]. eapply (i_early _ J); eauto.
    + destruct EA as [->|(g2 & ->)]; destruct X as [(X & _)|(k' & s' & X & _)]; discriminate.
  - intros e' Z t1 g1 k s I1. rewrite TA, cnt_app in Z. destruct (HB _ _ _ _ _ I1) as [I2|(_ & -> & _)].
    + eapply (i_none _ J); [|exact I2]. lia.
    + destruct SE as (p & i & X). assert (Y : cnt (starts e) (tr st) = 0) by lia. rewrite cnt_in in Y. specialize (Y _ X). cbn in Y. rewrite Nat.eqb_refl in Y. discriminate.
  - intros t' e' g' I. destruct (OLD _ _ _ I) as [(I0 & NE)|(-> & -> & x & _ & X1 & X2 & X3 & X4 & X5)].
    + assert (N : g' <> g) by (eapply NG; [exact I0|exact NE|left; reflexivity]). destruct (i_at _ J _ _ _ I0) as (x & E1 & E2 & E3 & E4 & E5). exists x. unfold own in *. rewrite OTH by exact N. conjs; assumption.
    + destruct X5 as [(X5 & X6)|(k' & s' & X5 & _)]; [|discriminate]. injection X5 as ->. exists x. conjs; assumption.
  - intros t' e' g' s I. destruct (OLD _ _ _ I) as [(I0 & NE)|(-> & -> & x & _ & X1 & X2 & X3 & X4 & X5)].
    + assert (N : g' <> g) by (eapply NG; [exact I0|exact NE|right; eauto]). destruct (i_in _ J _ _ _ _ I0) as (x & k & E1 & E2 & E3 & E4 & E5). exists x, k. unfold own in *. rewrite OTH by exact N. conjs; assumption.
    + destruct X5 as [(X5 & _)|(k' & s' & X5 & X6)]; [discriminate|]. injection X5 as -> ->. exists x, k'. conjs; assumption.
  - intros t' e' x' g' I B t1 g1 k s I1. destruct (OLD _ _ _ I) as [(I0 & NE)|(-> & -> & x & _ & X1 & X2 & X3 & X4 & X5)].
    + destruct (HB _ _ _ _ _ I1) as [I2|(_ & -> & _)]; [|contradiction]. eapply (i_only _ J); eauto.
    + assert (g' = g) as -> by (destruct X5 as [(-> & _)|(k' & s' & -> & _)]; destruct B as [B|(s2 & B)]; inversion B; reflexivity).
      destruct (HB _ _ _ _ _ I1) as [I2|(-> & _ & ->)]; [apply HO with (1 := I2)|auto].
Qed.
