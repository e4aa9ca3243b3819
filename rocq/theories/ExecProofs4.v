(** Slots with executors: what happened before each event. *)
From Verif Require Import ListUtil ExecModel ExecSpec ExecProofs ExecProofs2 ExecProofs3.

Lemma in_posted tr e c v : In (e, c, v) (posted tr) <-> In (ESend e c v Posted) tr.
Proof.
  unfold posted. rewrite in_flat_map. split.
  - intros (x & Hx & K). destruct x; try contradiction. destruct f; try contradiction. destruct K as [K|[]]. inversion K; subst. exact Hx.
  - intro H. exists (ESend e c v Posted). split; [exact H|now left].
Qed.
Lemma in_taken tr e c v : In (e, c, v) (taken tr) <-> In (EProc e c v) tr \/ In (EDrop e c v) tr.
Proof.
  unfold taken. rewrite in_flat_map. split.
  - intros (x & Hx & K). destruct x; try contradiction; destruct K as [K|[]]; inversion K; subst; auto.
  - intros [H|H]; eexists; (split; [exact H|now left]).
Qed.
Lemma in_sent tr e c v : In (c, v) (sent e tr) <-> exists f, In (ESend e c v f) tr.
Proof.
  unfold sent. rewrite in_flat_map. split.
  - intros (x & Hx & K). destruct x; try contradiction. destruct (Nat.eqb_spec e e0); [|contradiction]. destruct K as [K|[]]. inversion K; subst. eauto.
  - intros [f H]. exists (ESend e c v f). split; [exact H|]. rewrite Nat.eqb_refl. now left.
Qed.
Lemma in_with_arg v l c v' : In (c, v') (with_arg v l) <-> In c l /\ v' = v.
Proof.
  unfold with_arg. rewrite in_map_iff. split; [intros (x & E & H); inversion E; subst; auto|intros [H ->]; eauto].
Qed.

(** Every execution that [e] waited for has been run or thrown away. *)
Definition waited_done (l : list event) (e : nat) : Prop :=
  forall c v, In (ESend e c v Posted) l -> has_kind l c Blocking -> In (EProc e c v) l \/ In (EDrop e c v) l.
Definition fate_ok (l : list event) (k : kind) (on_proc : bool) (f : fate) : Prop :=
  match f with
  | Ran => k = Direct \/ (k <> Async /\ on_proc = true)
  | Posted => k <> Direct /\ (on_proc = true -> k = Async)
  | Lost => k <> Direct /\ (In EStop l \/ In EGone l)
  end.
Definition before (l : list event) (x : event) : Prop :=
  match x with
  | ESend e c v f => In c (connected l) /\ ~ In (ECut c) l /\ waited_done l e /\
                     exists k p, has_kind l c k /\ called l e (CNotify v) p /\ fate_ok l k p f
  | EEnd e => waited_done l e /\ exists v l1 l2, l = l1 ++ EEmit e v :: l2 /\ sent e l1 = [] /\ sent e l2 = map (fun c => (c, v)) (connected l1)
  | EEmit e v => exists p, called l e (CNotify v) p
  | EProc e c v => In (ESend e c v Posted) l /\ working l = false /\ (has_kind l c Blocking -> ~ In (ECut c) l /\ ~ returned l e)
  | EDrop e c v => In (ESend e c v Posted) l /\ (In EStop l \/ In EGone l)
  | ECut c => exists t p, called l t (CCut c) p
  | ECon t c k => (exists p, called l t (CConnect k) p) /\ forall k', ~ has_kind l c k'
  | ERet t => exists c p, called l t c p /\
      match c with CNotify _ => In (EEnd t) l | CCut d => ~ In d (connected l) | CConnect k => exists d, In (ECon t d k) l end
  | _ => True
  end.

Lemma running_done h t a r : nth_error (ags (final h)) t = Some a -> a_pc a = PRun r -> waited_done (trace h) t.
Proof.
  intros Ha Hp c v Hs Hk. destruct (inv_final h) as [N C _ Q]. apply in_posted in Hs. rewrite (q_fifo _ _ Q) in Hs.
  apply in_app_iff in Hs as [Hs|Hs]; [apply in_taken; exact Hs|]. apply in_map_iff in Hs as (k & E & Hin). unfold id_of in E. inversion E; subst.
  apply (n_kind _ _ N) in Hk. destruct (q_held _ _ Q _ Hin Hk) as (b & r' & Hb & Hpb). congruence.
Qed.
Lemma prog_in tr t v rest c : prog tr t v rest -> In c rest \/ (exists f w, In (ESend t c w f) tr) -> In c (connected tr).
Proof.
  intros (l1 & l2 & E & S1 & S2 & S3) H. rewrite S3. assert (K : exists w, In (c, w) (with_arg v (connected l1))).
  { rewrite <- S2. destruct H as [H|(f & w & H)].
    - exists v. apply in_or_app. right. apply in_with_arg. auto.
    - exists w. apply in_or_app. left. assert (X : In (c, w) (sent t tr)) by (apply in_sent; eauto).
      rewrite E, sent_app, S1 in X. exact X. }
  destruct K as [w K]. apply in_with_arg in K. apply K.
Qed.
Lemma called_at h t a : nth_error (ags (final h)) t = Some a -> called (trace h) t (a_call a) (a_proc a).
Proof. intro H. destruct (inv_final h) as [_ C _ _]. apply (g_call _ _ C). eauto. Qed.
Lemma called_more l l' t c p : called l t c p -> called (l ++ l') t c p.
Proof. unfold called. intro H. apply in_or_app. auto. Qed.

Lemma send_before h t a v c rest k f : nth_error (ags (final h)) t = Some a -> a_call a = CNotify v -> a_pc a = PRun (c :: rest) ->
  nth_error (kinds (final h)) c = Some k -> fate_ok (trace h) k (a_proc a) f -> before (trace h) (ESend t c v f).
Proof.
  intros Ha Hc Hp Hk Hf. destruct (inv_final h) as [N C E Q].
  assert (Hin : In c (connected (trace h))).
  { assert (K := e_ok _ _ E _ _ Ha). unfold em_ok in K. rewrite Hp in K. destruct K as [(w & _ & K) _]. eapply prog_in; [exact K|]. left. now left. }
  cbn. split; [exact Hin|]. split.
  - intro X. apply (n_cut _ _ N) in X as [_ X]. apply X. rewrite (n_keep _ _ N). exact Hin.
  - split; [eapply running_done; eauto|]. exists k, (a_proc a). split; [apply (n_kind _ _ N); exact Hk|]. split; [|exact Hf].
    rewrite <- Hc. apply called_at. exact Ha.
Qed.
Lemma drop_before h l3 x l4 y : dropped (final h) = l3 ++ x :: l4 -> (y = EStop \/ y = EGone) -> before (trace h ++ y :: l3) x.
Proof.
  intros E Hy. assert (Hin : In x (dropped (final h))) by (rewrite E; apply in_or_app; right; now left).
  apply dropped_in in Hin as (k & Hk & ->). destruct (inv_final h) as [_ _ _ Q]. cbn. split.
  - apply in_or_app. left. apply in_posted. rewrite (q_fifo _ _ Q). apply in_or_app. right. apply in_map_iff. exists k. auto.
  - destruct Hy as [-> | ->]; [left|right]; apply in_or_app; right; now left.
Qed.

Lemma before_step h l s' ev : pstep (final h) l s' ev -> forall l3 x l4, ev = l3 ++ x :: l4 -> before (trace h ++ l3) x.
Proof.
  intros Hp l3 x l4 E. destruct (inv_final h) as [N C M Q]. destruct Hp.
  - destruct l3; discriminate.
  - apply one_eq in E as [-> ->]. exact Logic.I.
  - (* XConn *)
    destruct l3 as [|z l3]; cbn in E; injection E as E1 E2.
    + subst x. rewrite app_nil_r. cbn. split; [exists (a_proc a); rewrite <- H0; apply called_at; exact H|].
      intros k' Hk. apply (n_kind _ _ N) in Hk. apply nth_lt in Hk. lia.
    + apply one_eq in E2 as [-> ->]. subst z. cbn. exists (CConnect k), (a_proc a). split; [apply called_more; rewrite <- H0; apply called_at; exact H|].
      exists c. apply in_or_app. right. now left.
  - (* XCut *)
    assert (Hc : called (trace h) t (CCut c) (a_proc a)) by (rewrite <- H0; apply called_at; exact H).
    destruct (existsb (Nat.eqb c) (keeper (final h))) eqn:X.
    + destruct l3 as [|z l3]; cbn in E; injection E as E1 E2.
      * subst x. rewrite app_nil_r. cbn. eauto.
      * apply one_eq in E2 as [-> ->]. subst z. cbn. exists (CCut c), (a_proc a). split; [apply called_more; exact Hc|].
        rewrite connected_cut by noconn. rewrite remove_in. tauto.
    + apply one_eq in E as [-> ->]. rewrite app_nil_r. cbn. exists (CCut c), (a_proc a). split; [exact Hc|].
      rewrite <- (n_keep _ _ N). intro Hin. assert (Y : existsb (Nat.eqb c) (keeper (final h)) = true); [|congruence].
      apply existsb_exists. exists c. split; [exact Hin|apply Nat.eqb_refl].
  - apply one_eq in E as [-> ->]. rewrite app_nil_r. cbn. exists (a_proc a). rewrite <- H0. apply called_at. exact H.
  - apply one_eq in E as [-> ->]. rewrite app_nil_r. eapply send_before; eauto.
  - apply one_eq in E as [-> ->]. rewrite app_nil_r. eapply send_before; eauto. cbn. split; [assumption|].
    apply orb_true_iff in H4 as [G|G]; apply (q_stop _ _ Q) in G; auto.
  - apply one_eq in E as [-> ->]. rewrite app_nil_r. eapply send_before; eauto. cbn. auto.
  - (* XEnd *)
    destruct l3 as [|z l3]; cbn in E; injection E as E1 E2.
    + subst x. rewrite app_nil_r. cbn. split; [eapply running_done; eauto|].
      assert (K := e_ok _ _ M _ _ H). unfold em_ok in K. rewrite H1 in K. destruct K as [(w & _ & (l1 & l2 & E & S1 & S2 & S3)) _].
      exists w, l1, l2. split; [exact E|]. split; [exact S1|]. cbn in S2. rewrite app_nil_r in S2. exact S2.
    + apply one_eq in E2 as [-> ->]. subst z. cbn. exists (CNotify v), (a_proc a). split; [apply called_more; rewrite <- H0; apply called_at; exact H|].
      apply in_or_app. right. now left.
  - destruct l3; discriminate.
  - (* XLoop *)
    apply one_eq in E as [-> ->]. rewrite app_nil_r. cbn. assert (Hin : In k (queue (final h))) by (rewrite H0; now left).
    assert (Hs : In (ESend (k_em k) (k_conn k) (k_val k) Posted) (trace h)).
    { apply in_posted. rewrite (q_fifo _ _ Q). apply in_or_app. right. apply in_map_iff. exists k. auto. }
    split; [exact Hs|]. split; [rewrite <- (q_busy _ _ Q); exact H|]. intro Hk. apply (n_kind _ _ N) in Hk.
    destruct (q_held _ _ Q _ Hin Hk) as (a & rest & Ha & Hpa). split.
    + intro X. apply (n_cut _ _ N) in X as [_ X]. apply X. rewrite (n_keep _ _ N).
      assert (K := e_ok _ _ M _ _ Ha). unfold em_ok in K. rewrite Hpa in K. destruct K as [(w & _ & K) _]. eapply prog_in; eauto.
    + intro X. apply (g_done _ _ C) in X as (b & Hb & Hd). congruence.
  - apply one_eq in E as [-> ->]. exact Logic.I.
  - apply one_eq in E as [-> ->]. exact Logic.I.
  - destruct l3 as [|z l3]; cbn in E; injection E as E1 E2; [subst x; exact Logic.I|]. subst z. eapply drop_before; eauto.
  - apply one_eq in E as [-> ->]. exact Logic.I.
  - destruct l3 as [|z l3]; cbn in E; injection E as E1 E2; [subst x; exact Logic.I|]. subst z. eapply drop_before; eauto.
Qed.
Lemma before_ok h l1 x l2 : trace h = l1 ++ x :: l2 -> before l1 x.
Proof. apply (hist_pos before). exact before_step. Qed.
Lemma in_before h x : In x (trace h) -> exists l1 l2, trace h = l1 ++ x :: l2 /\ before l1 x.
Proof. intro H. apply in_split in H as (l1 & l2 & E). exists l1, l2. split; [exact E|]. eapply before_ok; eauto. Qed.
Lemma prefix_in (tr l1 l2 : list event) x e : tr = l1 ++ x :: l2 -> In e l1 -> In e tr.
Proof. intros -> H. apply in_or_app. auto. Qed.
Lemma call_unique h t c c' p p' : called (trace h) t c p -> called (trace h) t c' p' -> c = c' /\ p = p'.
Proof.
  destruct (inv_final h) as [_ C _ _]. intros H H'. apply (g_call _ _ C) in H as (a & Ha & <- & <-). apply (g_call _ _ C) in H' as (b & Hb & <- & <-).
  assert (a = b) by congruence. subst. auto.
Qed.
Lemma kind_unique h c k k' : has_kind (trace h) c k -> has_kind (trace h) c k' -> k = k'.
Proof. destruct (inv_final h) as [N _ _ _]. intros H H'. apply (n_kind _ _ N) in H. apply (n_kind _ _ N) in H'. congruence. Qed.
Lemma kind_prefix (tr l1 l2 : list event) x c k : tr = l1 ++ x :: l2 -> has_kind l1 c k -> has_kind tr c k.
Proof. intros E [t H]. exists t. eapply prefix_in; eauto. Qed.
