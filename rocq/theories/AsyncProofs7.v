(** AsyncProcessor: a move assignment waits for the thread that it replaces. *)
From Verif Require Import ListUtil AsyncModel AsyncSpec AsyncProofs AsyncProofs2 AsyncProofs3 AsyncProofs4 AsyncProofs5.

Definition joinI (s : st) (tr : list event) : Prop := forall t o o2 l1 l2 w, tr = l1 ++ EMoved t o o2 :: l2 -> holds o l1 = Some w ->
  (exists a, nth_error (ags s) t = Some a /\ a_pc a = PJoin w) \/ In (EDeinit w) tr.
Lemma ended_in h w k threw : nth_error (workers (final h)) w = Some k -> w_pc k = WEnd threw -> In (EDeinit w) (trace h).
Proof.
  intros Hk Hp. destruct (inv_final h) as [_ _ W]. apply deinit_in. rewrite (k_deinit _ _ W), Hk. destruct k as [p q]. cbn in Hp. subst q. cbn. lia.
Qed.
Lemma join_final h : joinI (final h) (trace h).
Proof.
  apply (history_ind joinI). { intros t o o2 [|] l2 w E; discriminate. }
  intros h0 l s' ev IH Hs t o o2 l1 l2 w E Hh. apply app_split in E as [[l2' E]|(l3 & -> & E)].
  - destruct (IH _ _ _ _ _ _ E Hh) as [(a & Ha & Hp)|K]; [|right; apply in_or_app; auto].
    set (s := final h0) in *.
    assert (Ot : forall u b q, u <> t -> nth_error (ag s u b q) t = Some a) by (intros; unfold ag; rewrite nth_set_other by congruence; exact Ha).
    assert (Npc : forall u b, nth_error (ags s) u = Some b -> a_pc b <> PJoin w -> u <> t) by (intros u b Hb Q ->; congruence).
    assert (G : nth_error (ags s') t = Some a -> (exists a, nth_error (ags s') t = Some a /\ a_pc a = PJoin w) \/ In (EDeinit w) (trace h0 ++ ev)) by eauto.
    destruct Hs; try (apply G; cbn [ags]; auto; apply Ot; eapply Npc; eauto; congruence).
    + apply G. cbn [ags]. rewrite nth_error_app1 by (eapply nth_lt; eauto). exact Ha.
    + destruct (Nat.eq_dec t0 t) as [->|Hne]; [|apply G, Ot, Hne].
      assert (a0 = a) by congruence. subst a0. destruct H0; try congruence. assert (w0 = w) by congruence. subst w0.
      right. apply in_or_app. left. eapply ended_in; eauto.
  - assert (Hin : In (EMoved t o o2) ev) by (rewrite E; apply in_or_app; right; now left).
    destruct Hs; try (destruct Hin as [X|X]; [discriminate X|]; try (destruct X as [X|X]; [discriminate X|]); destruct X; fail); try (destruct Hin; fail).
    + (* XMove *) destruct Hin as [X|X]; [|destruct (o_sig x); [destruct X|destruct X as [X|[]]; discriminate X]].
      injection X as -> -> ->.
      assert (l3 = []). { destruct l3 as [|z l3]; [reflexivity|]. exfalso. cbn in E. injection E as _ E.
        destruct (o_sig x); [destruct l3; discriminate E|]. destruct l3 as [|? [|]]; cbn in E; discriminate E. }
      subst l3. rewrite app_nil_r in Hh. destruct (inv_final h0) as [_ O _]. rewrite (h_sig _ _ O) in Hh. unfold sig_at in Hh. rewrite H2 in Hh. rewrite Hh.
      left. eexists. split; [cbn [ags]; unfold ag; apply nth_set_same; eapply nth_lt; eauto|reflexivity].
    + apply (wmove_calm _ _ _ _ _ H1) in Hin. destruct Hin.
Qed.
Definition waited (l : list event) (x : event) : Prop := forall t r o o2 l1 l2 w, x = ERet t r -> l = l1 ++ EMoved t o o2 :: l2 -> holds o l1 = Some w -> In (EDeinit w) l.
Lemma waited_step h l s' ev : pstep (final h) l s' ev -> forall l3 x l4, ev = l3 ++ x :: l4 -> waited (trace h ++ l3) x.
Proof.
  intros Hs l3 x l4 E t r o o2 l1 l2 w -> El Hh. set (s := final h) in *.
  assert (J := join_final h). fold s in J.
  assert (Old : forall a, nth_error (ags s) t = Some a -> a_pc a <> PJoin w -> (exists l2', trace h = l1 ++ EMoved t o o2 :: l2') -> In (EDeinit w) (trace h ++ l3)).
  { intros a Ha Hp [l2' E']. destruct (J _ _ _ _ _ _ E' Hh) as [(b & Hb & Q)|K]; [congruence|apply in_or_app; auto]. }
  assert (Hin : In (ERet t r) ev) by (rewrite E; apply in_or_app; right; now left).
  apply app_split in El as [[l2' El]|(l5 & -> & El)].
  - destruct Hs; cbn [In] in Hin; try (destruct Hin; fail); try (destruct Hin as [X|[]]; discriminate X);
      try (assert (t0 = t) by (repeat (destruct Hin as [X|Hin]; [first [discriminate X|inversion X; reflexivity]|]); destruct Hin); subst t0; eapply Old; eauto; congruence).
    + (* XFin *) destruct Hin as [X|[]]. inversion X; subst t0 r0.
      destruct (J _ _ _ _ _ _ El Hh) as [(b' & Hb & Q)|K]; [|apply in_or_app; auto].
      assert (b' = a) by congruence. subst b'. destruct H0; try congruence. assert (w0 = w) by congruence. subst w0.
      apply in_or_app. left. eapply ended_in; eauto.
    + (* XMove *) assert (t0 = t). { destruct Hin as [X|X]; [discriminate X|]. destruct (o_sig x); [destruct X|]. destruct X as [X|[]]. inversion X. reflexivity. }
      subst t0. eapply Old; eauto. congruence.
    + apply (wmove_quiet _ _ _ _ _ H1) in Hin. discriminate.
  - assert (Hm : In (EMoved t o o2) ev) by (rewrite E, El; apply in_or_app; left; apply in_or_app; right; now left).
    destruct Hs; cbn [In] in Hm; try (destruct Hm; fail); try (repeat (destruct Hm as [X|Hm]; [discriminate X|]); destruct Hm; fail).
    + assert (N : o_sig x = None). { destruct (o_sig x); [|reflexivity]. exfalso. destruct Hin as [X|[]]; discriminate X. }
      rewrite N in *. subst l3. destruct l5 as [|z l5].
      * destruct Hm as [X|[X|[]]]; [|discriminate X]. inversion X; subst. rewrite app_nil_r in Hh. destruct (inv_final h) as [_ O _].
        rewrite (h_sig _ _ O) in Hh. unfold sig_at in Hh. fold s in Hh. rewrite H2, N in Hh. discriminate.
      * exfalso. destruct l5 as [|? [|]]; cbn in E; discriminate E.
    + apply (wmove_calm _ _ _ _ _ H1) in Hm. destruct Hm.
Qed.
Lemma waited_ok h l1 x l2 : trace h = l1 ++ x :: l2 -> waited l1 x.
Proof. apply (hist_pos waited). exact waited_step. Qed.
