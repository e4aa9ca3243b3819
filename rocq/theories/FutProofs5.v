(** Waitable connections: what happened before each event. *)
From Verif Require Import ListUtil FutModel FutSpec FutProofs FutProofs2 FutProofs3 FutProofs4.

(** A connection is given to the user by the call that made it only. *)
Definition checkI (s : st) : Prop :=
  (forall t a w, nth_error (ags s) t = Some a -> a_pc a = PCheck w -> exists x, nth_error (wts s) w = Some x /\ w_pub x = false) /\
  (forall t t' a a' w, nth_error (ags s) t = Some a -> nth_error (ags s) t' = Some a' -> a_pc a = PCheck w -> a_pc a' = PCheck w -> t = t').

Lemma check_set s s' t a p : checkI s -> nth_error (ags s) t = Some a -> ags s' = set_nth t (Ag (a_call a) (a_in a) p) (ags s) ->
  (forall w, p <> PCheck w) ->
  (forall w x, nth_error (wts s) w = Some x -> w_pub x = false -> a_pc a = PCheck w \/ exists x', nth_error (wts s') w = Some x' /\ w_pub x' = false) ->
  checkI s'.
Proof.
  intros [C U] Ha E Hp Hw. assert (Hlt := nth_lt _ _ _ Ha).
  assert (Hset : forall t' a' w, nth_error (ags s') t' = Some a' -> a_pc a' = PCheck w -> t' <> t /\ nth_error (ags s) t' = Some a').
  { intros t' a' w H P. rewrite E in H. destruct (Nat.eq_dec t' t) as [->|Hne].
    - rewrite nth_set_same in H by exact Hlt. inversion H; subst. cbn in P. destruct (Hp w P).
    - rewrite nth_set_other in H by congruence. auto. }
  split.
  - intros t1 a1 w H P. destruct (Hset _ _ _ H P) as [Hne H1]. destruct (C _ _ _ H1 P) as (x & Hx & Hf).
    destruct (Hw _ _ Hx Hf) as [Q|Q]; [|exact Q]. destruct Hne. exact (U _ _ _ _ _ H1 Ha P Q).
  - intros t1 t2 a1 a2 w H1 H2 P1 P2. apply Hset with (w := w) in H1 as [_ H1]; [|exact P1]. apply Hset with (w := w) in H2 as [_ H2]; [|exact P2].
    exact (U _ _ _ _ _ H1 H2 P1 P2).
Qed.

Lemma check_step s l s' ev : checkI s -> pstep s l s' ev -> checkI s'.
Proof.
  intros W Hp.
  assert (Hset : forall w1 y y', nth_error (wts s) w1 = Some y -> w_pub y' = w_pub y -> forall w x, nth_error (wts s) w = Some x -> w_pub x = false ->
            exists x', nth_error (set_nth w1 y' (wts s)) w = Some x' /\ w_pub x' = false).
  { intros w1 y y' Hy Hf w x Hx Hf'. destruct (Nat.eq_dec w w1) as [->|Hne].
    - rewrite nth_set_same by (eapply nth_lt; eauto). exists y'. split; [reflexivity|congruence].
    - rewrite nth_set_other by congruence. eauto. }
  destruct Hp.
  - exact W.
  - destruct W as [C U].
    assert (Hsn : forall t a w, nth_error (ags s ++ [Ag c i PStart]) t = Some a -> a_pc a = PCheck w -> nth_error (ags s) t = Some a).
    { intros t a w Hx P. rewrite nth_snoc in Hx. destruct (Nat.eqb_spec t (length (ags s))); [inversion Hx; subst; discriminate|exact Hx]. }
    split; [intros t a w H1 P|intros t t' a a' w H1 H2 P1 P2]; cbn [ags wts] in *; eauto.
  - (* XJoin *)
    destruct W as [C U]. subst w. assert (Hlt := nth_lt _ _ _ H).
    assert (Hset' : forall t' a' w, nth_error (set_nth t (Ag CConnect i (PCheck (length (wts s)))) (ags s)) t' = Some a' -> a_pc a' = PCheck w ->
              (t' = t /\ w = length (wts s)) \/ nth_error (ags s) t' = Some a').
    { intros t' a' w Hx P. destruct (Nat.eq_dec t' t) as [->|Hne].
      - rewrite nth_set_same in Hx by exact Hlt. inversion Hx; subst. cbn in P. inversion P. auto.
      - rewrite nth_set_other in Hx by congruence. auto. }
    split; cbn [ags wts upd a_call a_in].
    + intros t1 a1 w1 Hx P. apply Hset' with (w := w1) in Hx as [[-> ->]|Hx]; [| |exact P].
      * rewrite nth_snoc, Nat.eqb_refl. eexists. split; reflexivity.
      * destruct (C _ _ _ Hx P) as (x & Hxx & Hf). exists x. split; [|exact Hf]. rewrite nth_error_app1 by (eapply nth_lt; eauto). exact Hxx.
    + intros t1 t2 a1 a2 w1 H1 H2 P1 P2.
      assert (Hno : forall t0 a0, nth_error (ags s) t0 = Some a0 -> a_pc a0 = PCheck (length (wts s)) -> False).
      { intros t0 a0 Q P. destruct (C _ _ _ Q P) as (x & Hxx & _). apply nth_lt in Hxx. lia. }
      apply Hset' with (w := w1) in H1; [|exact P1]. apply Hset' with (w := w1) in H2; [|exact P2].
      destruct H1 as [[-> ->]|H1], H2 as [[-> E2]|H2]; auto.
      * destruct (Hno _ _ H2 P2).
      * subst. destruct (Hno _ _ H1 P1).
      * eapply (U t1 t2); eauto.
  - eapply check_set; [exact W|exact H|reflexivity|discriminate|]. intros w' x' Hx' Hf. cbn [a_pc wts upd set_wt].
    destruct (Nat.eq_dec w' w) as [->|Hne]; [auto|]. right. rewrite nth_set_other by congruence. eauto.
  - eapply check_set; [exact W|exact H|reflexivity|discriminate|]. intros; right; eauto.
  - eapply check_set; [exact W|exact H|reflexivity|discriminate|]. intros; right; eauto.
  - destruct W as [C U]. split; [|exact U]. intros t1 a1 w1 H2 P. destruct (C _ _ _ H2 P) as (y & Hy & Hf).
    refine (Hset w x _ H0 _ w1 y Hy Hf). reflexivity.
  - eapply check_set; [exact W|exact H|reflexivity|discriminate|]. intros; right; eauto.
  - eapply check_set; [exact W|exact H|reflexivity|discriminate|]. intros w' x' Hx' Hf. right. cbn [wts upd break_all].
    rewrite nth_error_map, Hx'. eexists. split; [reflexivity|]. unfold broke. destruct (w_in x'); exact Hf.
  - eapply check_set; [exact W|exact H|reflexivity|discriminate|]. intros w' x' Hx' Hf. right.
    refine (Hset w x _ H0 _ w' x' Hx' Hf). reflexivity.
  - eapply check_set; [exact W|exact H|reflexivity|discriminate|]. intros; right; eauto.
  - eapply check_set; [exact W|exact H|reflexivity|discriminate|]. intros; right; eauto.
  - eapply check_set; [exact W|exact H|reflexivity|discriminate|]. intros; right; eauto.
  - eapply check_set; [exact W|exact H|reflexivity|discriminate|]. intros w' x' Hx' Hf. right.
    refine (Hset w x _ H1 _ w' x' Hx' Hf). reflexivity.
  - eapply check_set; [exact W|exact H|reflexivity|discriminate|]. intros w' x' Hx' Hf. right.
    refine (Hset w x _ H1 _ w' x' Hx' Hf). reflexivity.
  - eapply check_set; [exact W|exact H|reflexivity|discriminate|]. intros; right; eauto.
  - eapply check_set; [exact W|exact H|reflexivity|discriminate|]. intros; right; eauto.
Qed.
Lemma check_final h : checkI (final h).
Proof.
  apply (history_ind (fun _ s _ => checkI s)); [|intros; eapply check_step; eauto].
  split; [intros t a w H|intros t t' a a' w H]; destruct t; discriminate.
Qed.

Lemma g_callI s tr t a c i q : agsI s tr -> nth_error (ags s) t = Some a -> a = Ag c i q -> called tr t c.
Proof. intros G H ->. apply (g_call _ _ G). eexists. split; [exact H|reflexivity]. Qed.
Lemma waits_call tr t c w : called tr t c -> waits_on c = Some w -> waits tr t w.
Proof. destruct c; cbn; intros H E; inversion E; subst; [left|right]; exact H. Qed.
Lemma cnt_fired tr w : 1 <= cnt (fires w) tr -> exists v, fired tr w v.
Proof.
  intro H. apply cnt_pos_inv in H as (e & He & F). destruct e; try discriminate. cbn in F. apply Nat.eqb_eq in F. subst. exists v, e. exact He.
Qed.
Lemma cnt_handled tr w : 1 <= cnt (slot_for w) tr -> handled tr w.
Proof.
  intro H. apply cnt_pos_inv in H as (e & He & F). destruct e; try discriminate. cbn in F. apply Nat.eqb_eq in F. subst. exists t, v. exact He.
Qed.
Lemma not_fired tr w : cnt (fires w) tr = 0 -> forall v, ~ fired tr w v.
Proof. intros H v [e He]. apply cnt_zero_inv with (x := EFire e w v) in H; [|exact He]. cbn in H. rewrite Nat.eqb_refl in H. discriminate. Qed.

(** What must have happened before an event. *)
Definition before (l : list event) (x : event) : Prop :=
  match x with
  | ECall _ _ => True
  | EJoin t w => called l t CConnect /\ ~ (exists t', In (EJoin t' w) l)
  | EEmit t v => called l t (CEmit v)
  | EFire e w v => In (EEmit e v) l /\ (exists t, In (EJoin t w) l) /\ (forall v', ~ fired l w v') /\ ~ In (ECancel w) l /\ ~ In (EBroke w) l
  | EEnd e => (exists v, In (EEmit e v) l) /\
              forall t w, In (EJoin t w) l -> (exists v, fired l w v) \/ In (EBroke w) l \/ In (ECancel w) l
  | EBroke w => (exists t, called l t CClear) /\ (exists t, In (EJoin t w) l) /\ (forall v, ~ fired l w v)
  | ECancel w => (exists t, called l t (CCancel w)) /\ (forall v, ~ fired l w v) /\ ~ In (EBroke w) l
  | ESlot t w v => waits l t w /\ fired l w v /\ ~ returned l t /\ ~ handled l w
  | ERet t r => exists c, called l t c /\ result_ok l t c r
  end.

Lemma one_eq {A} (y : A) l3 x l4 : [y] = l3 ++ x :: l4 -> l3 = [] /\ x = y.
Proof. destruct l3 as [|z l3]; cbn; intro H; inversion H; subst; [auto|destruct l3; discriminate]. Qed.
Lemma called_app l l' t c : called l t c -> called (l ++ l') t c.
Proof. unfold called. intro H. apply in_or_app. auto. Qed.

Lemma before_step h l s' ev : pstep (final h) l s' ev -> forall l3 x l4, ev = l3 ++ x :: l4 -> before (trace h ++ l3) x.
Proof.
  intros Hp l3 x l4 E. destruct (inv_final h) as [B G [O F]]. assert (Ck := check_final h). destruct Ck as [Ck _].
  set (tr := trace h) in *. set (s := final h) in *.
  destruct Hp.
  - destruct l3; discriminate.
  - apply one_eq in E as [-> ->]. exact Logic.I.
  - (* EJoin *)
    apply one_eq in E as [-> ->]. rewrite app_nil_r. cbn. split; [eapply g_callI; eauto|].
    intros [t' Hj]. assert (N := b_none _ _ B w (EJoin t' w)). subst w. cbn in N. rewrite Nat.eqb_refl in N. discriminate (N (le_n _) Hj).
  - apply one_eq in E as [-> ->]. rewrite app_nil_r. cbn. exists CConnect. split; [eapply g_callI; eauto|].
    destruct (ok_in _ _ _ (b_ok _ _ B _ _ H0) H1) as (_ & _ & _ & D & Eb & _ & Ec). cbn.
    split; [|split; [apply not_fired; exact D|split; [exact Eb|exact Ec]]]. eapply (g_check _ _ G); [exact H|reflexivity].
  - apply one_eq in E as [-> ->]. rewrite app_nil_r. cbn. exists CConnect. split; [eapply g_callI; eauto|]. cbn.
    exists w. split; [eapply (g_check _ _ G); [exact H|reflexivity]|].
    destruct (b_ok _ _ B _ _ H0) as (_ & Hh & K). destruct (Ck _ _ w H eq_refl) as (y & Hy & Hpub). assert (y = x0) by congruence. subst y.
    destruct (w_prom x0).
    + destruct K as (A & _). rewrite H1 in A. destruct (w_held x0); [|discriminate]. rewrite Hh in Hpub by reflexivity. discriminate.
    + left. destruct K as (_ & _ & K & _). eauto.
    + right. destruct K as (_ & _ & K & _). exact K.
  - apply one_eq in E as [-> ->]. rewrite app_nil_r. cbn. eapply g_callI; eauto.
  - (* EFire *)
    apply one_eq in E as [-> ->]. rewrite app_nil_r. cbn.
    destruct (ok_in _ _ _ (b_ok _ _ B _ _ H0) H1) as (_ & _ & _ & D & Eb & _ & Ec).
    split; [|split; [apply (b_ok _ _ B _ _ H0)|split; [apply not_fired; exact D|split; [exact Ec|exact Eb]]]].
    destruct (g_run _ _ G _ _ H eq_refl) as (v' & Hv & Hin). cbn in Hv. inversion Hv; subst. exact Hin.
  - (* EEnd *)
    destruct l3 as [|z l3]; cbn in E; injection E as E1 E2.
    + subst x. rewrite app_nil_r. cbn. destruct (g_run _ _ G _ _ H eq_refl) as (v' & Hv & Hin).
      split; [eauto|]. intros t1 w Hj.
      destruct (nth_error (wts s) w) as [y|] eqn:Hy.
      * assert (Hn := H0 _ _ Hy). destruct (b_ok _ _ B _ _ Hy) as (_ & _ & K). destruct (w_prom y).
        -- destruct K as (A & _ & _ & _ & _ & K). rewrite Hn in A. destruct (w_held y); [auto|discriminate].
        -- destruct K as (_ & _ & K & _). eauto.
        -- destruct K as (_ & _ & K & _). auto.
      * apply nth_error_None in Hy. assert (N := b_none _ _ B w _ Hy Hj). cbn in N. rewrite Nat.eqb_refl in N. discriminate.
    + apply one_eq in E2 as [-> ->]. subst z. cbn. exists (CEmit v). split; [apply called_app; eapply g_callI; eauto|].
      cbn. apply in_or_app. right. now left.
  - (* XClear *)
    assert (Hc : called tr t CClear) by (eapply g_callI; eauto).
    apply app_split in E as [[l2' Eq]|[l5 [-> E]]].
    + assert (Hin : In x (broken_now s)) by (rewrite Eq; apply in_or_app; right; now left).
      assert (Hl3 : forall w v, ~ fired l3 w v).
      { intros w v [e He]. assert (Q : In (EFire e w v) (broken_now s)) by (rewrite Eq; apply in_or_app; auto).
        apply in_broken in Q as (? & ? & Q & _). discriminate. }
      apply in_broken in Hin as (w & y & -> & Hy & Hw). destruct (ok_in _ _ _ (b_ok _ _ B _ _ Hy) Hw) as (_ & _ & _ & D & _).
      cbn. split; [exists t; apply called_app; exact Hc|]. split.
      * destruct (b_ok _ _ B _ _ Hy) as ([t0 Hj] & _). exists t0. apply in_or_app. auto.
      * intros v [e He]. apply in_app_iff in He as [He|He]; [exact (not_fired _ _ D v (ex_intro _ e He))|exact (Hl3 w v (ex_intro _ e He))].
    + apply one_eq in E as [-> ->]. cbn. exists CClear. split; [apply called_app; exact Hc|exact Logic.I].
  - (* XCancel *)
    assert (Hc : called tr t (CCancel w)) by (eapply g_callI; eauto).
    destruct (ok_in _ _ _ (b_ok _ _ B _ _ H0) H1) as (_ & _ & _ & D & Eb & _).
    destruct l3 as [|z l3]; cbn in E; injection E as E1 E2.
    + subst x. rewrite app_nil_r. cbn. split; [eauto|]. split; [apply not_fired; exact D|exact Eb].
    + apply one_eq in E2 as [-> ->]. subst z. cbn. exists (CCancel w). split; [apply called_app; exact Hc|].
      cbn. left. apply in_or_app. right. now left.
  - apply one_eq in E as [-> ->]. rewrite app_nil_r. cbn. exists (CCancel w). split; [eapply g_callI; eauto|]. cbn.
    destruct (b_ok _ _ B _ _ H0) as (_ & _ & K). destruct (w_prom x0).
    + destruct K as (A & _ & _ & _ & _ & K). rewrite H1 in A. destruct (w_held x0); [auto|discriminate].
    + destruct K as (_ & _ & K & _). eauto.
    + destruct K as (_ & _ & K & _). auto.
  - apply one_eq in E as [-> ->]. rewrite app_nil_r. cbn. exists c. split; [eapply g_callI; eauto|].
    assert (K : In (EBroke w) tr \/ handled tr w).
    { destruct (b_ok _ _ B _ _ H1) as (_ & _ & K). destruct (w_prom x0).
      - destruct K as (_ & K & _). congruence.
      - destruct K as (_ & _ & _ & _ & _ & K). rewrite H2 in K. right. apply cnt_handled. lia.
      - destruct K as (_ & _ & K & _). auto. }
    destruct c; cbn in H0; inversion H0; subst; cbn; [exact K|destruct K; auto].
  - destruct l3; discriminate.
  - (* ESlot *)
    apply one_eq in E as [-> ->]. rewrite app_nil_r. cbn. split; [eapply waits_call; [eapply g_callI; eauto|exact H0]|].
    destruct (b_ok _ _ B _ _ H1) as (_ & _ & K). rewrite H2 in K. destruct K as (_ & _ & K & _ & _ & Hs). split; [exact K|].
    assert (Hf : w_fut x0 = true) by (eapply (F t _ w); eauto). rewrite Hf in Hs. split.
    + intro Hr. apply (g_done _ _ G) in Hr as (a & Ha & Hd). rewrite H in Ha. inversion Ha; subst. discriminate.
    + intros (t' & v' & Hin). apply cnt_zero_inv with (x := ESlot t' w v') in Hs; [|exact Hin]. cbn in Hs. rewrite Nat.eqb_refl in Hs. discriminate.
  - apply one_eq in E as [-> ->]. rewrite app_nil_r. cbn. exists c. split; [eapply g_callI; eauto|].
    destruct (b_ok _ _ B _ _ H1) as (_ & _ & K). rewrite H2 in K. destruct K as (_ & _ & K & _).
    destruct c; cbn in H0; inversion H0; subst; cbn; auto.
  - apply one_eq in E as [-> ->]. rewrite app_nil_r. cbn. exists (CWaitFor w). split; [eapply g_callI; eauto|].
    destruct (b_ok _ _ B _ _ H0) as (_ & _ & K). rewrite H1 in K. destruct K as (_ & _ & K & _). cbn. right. right. apply not_fired. exact K.
  - apply one_eq in E as [-> ->]. rewrite app_nil_r. cbn. exists c. split; [eapply g_callI; eauto|].
    destruct (g_slot _ _ G _ _ v H eq_refl) as (w' & Hw & Hin). cbn in Hw. assert (w' = w) by congruence. subst w'.
    destruct c; cbn in H0; inversion H0; subst; cbn; eauto.
Qed.
Lemma before_ok h l1 x l2 : trace h = l1 ++ x :: l2 -> before l1 x.
Proof. apply (hist_pos before). exact before_step. Qed.
