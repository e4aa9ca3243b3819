(** AsyncProcessor: the invariant of threads; what holds when an event happens. *)
From Verif Require Import ListUtil AsyncModel AsyncSpec AsyncProofs AsyncProofs2 AsyncProofs3.

Definition inits (k : option worker) : nat := match k with None | Some (Wk _ WStart) => 0 | _ => 1 end.
Definition deinits (k : option worker) : nat := match k with Some (Wk _ (WEnd _)) => 1 | _ => 0 end.
Definition stop_at (s : st) (p : nat) : bool := match nth_error (closed s) p with Some b => b | None => false end.
Record wkI (s : st) (tr : list event) : Prop := {
  k_runs : forall w p, runs tr w p <-> exists q, nth_error (workers s) w = Some (Wk p q);
  k_once : forall w, cnt (is_launch w) tr <= 1;
  k_init : forall w, cnt (is_init w) tr = inits (nth_error (workers s) w);
  k_deinit : forall w, cnt (is_deinit w) tr = deinits (nth_error (workers s) w);
  k_closed : forall p, stopped p tr = stop_at s p }.

Definition plain (x : event) : bool := match x with ELaunch _ _ _ _ | EInit _ | EDeinit _ | EStop _ | EReuse _ => false | _ => true end.
Lemma stopped_snoc p tr e : stopped p (tr ++ [e]) = match e with EStop p' => Nat.eqb p p' || stopped p tr | EReuse p' => negb (Nat.eqb p p') && stopped p tr | _ => stopped p tr end.
Proof. unfold stopped. rewrite fold_left_app. reflexivity. Qed.
Lemma stopped_same p tr ev : (forall x, In x ev -> match x with EStop _ | EReuse _ => False | _ => True end) -> stopped p (tr ++ ev) = stopped p tr.
Proof.
  revert tr. induction ev as [|x ev IH]; intros tr H; [rewrite app_nil_r; reflexivity|].
  change (x :: ev) with ([x] ++ ev). rewrite app_assoc, IH by (intros; apply H; now right). rewrite stopped_snoc.
  specialize (H x (or_introl eq_refl)). destruct x; try reflexivity; contradiction.
Qed.
Lemma plain_zero f ev : (forall x, In x ev -> plain x = true) -> (forall x, plain x = true -> f x = false) -> cnt f ev = 0.
Proof. intros H K. apply cnt_zero. auto. Qed.
Lemma runs_plain tr ev w p : (forall t o w p, ~ In (ELaunch t o w p) ev) -> runs (tr ++ ev) w p <-> runs tr w p.
Proof.
  intro H. unfold runs. split; intros (t & o & K); exists t, o.
  - apply in_app_iff in K as [K|K]; [exact K|]. apply H in K. contradiction.
  - apply in_or_app. auto.
Qed.
(** Steps that neither launch nor run a thread. *)
Lemma wk_frame s s' tr ev : wkI s tr -> (forall x, In x ev -> match x with ELaunch _ _ _ _ | EInit _ | EDeinit _ => False | _ => True end) ->
  (forall p, stopped p (tr ++ ev) = stop_at s' p) ->
  (workers s' = workers s \/ exists p, workers s' = map (woken p) (workers s)) -> wkI s' (tr ++ ev).
Proof.
  intros [R O I D _] H Hc Hw. constructor; auto.
  - intros w p. rewrite runs_plain; [|intros t o w' p' K; apply H in K; exact K]. rewrite R. destruct Hw as [->|[p0 ->]]; [reflexivity|].
    rewrite nth_error_map. destruct (nth_error (workers s) w) as [[p' q]|]; cbn; [|split; intros [q0 K]; discriminate].
    destruct q; cbn; try reflexivity. destruct (Nat.eqb p0 p'); split; intros [q0 K]; inversion K; subst; eauto.
  - intro w. rewrite cnt_app. assert (Z : cnt (is_launch w) ev = 0) by (apply cnt_zero; intros x Hx; apply H in Hx; destruct x; try reflexivity; contradiction). rewrite Z.
    specialize (O w). lia.
  - intro w. rewrite cnt_app. assert (Z : cnt (is_init w) ev = 0) by (apply cnt_zero; intros x Hx; apply H in Hx; destruct x; try reflexivity; contradiction). rewrite Z, I, Nat.add_0_r.
    destruct Hw as [->|[p0 ->]]; [reflexivity|]. rewrite nth_error_map. destruct (nth_error (workers s) w) as [[p' q]|]; cbn; [|reflexivity].
    destruct q; cbn; try reflexivity. destruct (Nat.eqb p0 p'); reflexivity.
  - intro w. rewrite cnt_app. assert (Z : cnt (is_deinit w) ev = 0) by (apply cnt_zero; intros x Hx; apply H in Hx; destruct x; try reflexivity; contradiction). rewrite Z, D, Nat.add_0_r.
    destruct Hw as [->|[p0 ->]]; [reflexivity|]. rewrite nth_error_map. destruct (nth_error (workers s) w) as [[p' q]|]; cbn; [|reflexivity].
    destruct q; cbn; try reflexivity. destruct (Nat.eqb p0 p'); reflexivity.
Qed.
Ltac none_list := let K := fresh in intros ? K; cbn in K; repeat (destruct K as [<-|K]; [exact Logic.I|]); destruct K.
Lemma stop_set s p b p' ws os la x : nth_error (closed s) p = Some x -> stop_at (St (set_nth p b (closed s)) ws os la) p' = if Nat.eqb p' p then b else stop_at s p'.
Proof.
  intro H. unfold stop_at. cbn [closed]. destruct (Nat.eqb_spec p' p) as [->|Hne]; [rewrite nth_set_same by (eapply nth_lt; eauto); reflexivity|].
  rewrite nth_set_other by congruence. reflexivity.
Qed.
Lemma wk_step s l s' ev tr : wkI s tr -> pstep s l s' ev -> wkI s' (tr ++ ev).
Proof.
  intros I Hs. assert (I' := I). destruct I' as [R O Ii D K].
  assert (St0 : forall ev p, (forall x, In x ev -> match x with EStop _ | EReuse _ => False | _ => True end) -> stopped p (tr ++ ev) = stop_at s p).
  { intros ev0 p H. rewrite stopped_same by exact H. apply K. }
  destruct Hs.
  - apply (wk_frame s); auto; [none_list|]. intro; apply St0; none_list.
  - apply (wk_frame s); auto; [none_list|]. intro p. rewrite St0 by none_list. unfold stop_at. cbn [closed]. rewrite nth_snoc.
    destruct (Nat.eqb_spec p (length (closed s))) as [->|]; [|reflexivity]. assert (N : nth_error (closed s) (length (closed s)) = None) by (apply nth_error_None; lia).
    rewrite N. reflexivity.
  - apply (wk_frame s); auto; [none_list|]. intro; apply St0; none_list.
  - apply (wk_frame s); auto; [none_list|]. intro; apply St0; none_list.
  - apply (wk_frame s); auto; [none_list|]. intro; apply St0; none_list.
  - apply (wk_frame s); auto; [none_list|]. intro p'. change [EReuse p; ERet t RUnit] with ([EReuse p] ++ [ERet t RUnit]). rewrite app_assoc, stopped_snoc, stopped_snoc, K.
    destruct (nth_error (closed s) p) eqn:E.
    + rewrite (stop_set s p false p' _ _ _ _ E). destruct (Nat.eqb p' p); reflexivity.
    + assert (X : set_nth p false (closed s) = closed s).
      { apply nth_error_None in E. clear -E. revert p E. induction (closed s) as [|x l IH]; intros [|p] E; cbn in *; try reflexivity; try lia. f_equal. apply IH. lia. }
      unfold stop_at. cbn [closed]. rewrite X. destruct (Nat.eqb_spec p' p) as [->|]; [rewrite E; reflexivity|reflexivity].
  - apply (wk_frame s); [exact I|none_list| |right; exists p; reflexivity]. intro p'. change [EStop p; ERet t RUnit] with ([EStop p] ++ [ERet t RUnit]). rewrite app_assoc, stopped_snoc, stopped_snoc, K.
    rewrite (stop_set s p true p' _ _ _ _ H2). destruct (Nat.eqb p' p); reflexivity.
  - apply (wk_frame s); [exact I|none_list| |right; exists p; reflexivity]. intro p'. rewrite stopped_snoc, K.
    rewrite (stop_set s p true p' _ _ _ _ H5). destruct (Nat.eqb p' p); reflexivity.
  - apply (wk_frame s); auto; [none_list|]. intro; apply St0; none_list.
  - apply (wk_frame s); auto; [none_list|]. intro; apply St0; none_list.
  - (* XLaunch *)
    assert (N : nth_error (workers s) (length (workers s)) = None) by (apply nth_error_None; lia). constructor; cbn [workers].
    + intros w p'. rewrite nth_snoc. destruct (Nat.eqb_spec w (length (workers s))) as [->|Hne].
      * split.
        -- intros (t0 & o0 & K0). apply in_app_iff in K0 as [K0|[K0|[K0|[]]]]; [|inversion K0; subst; eauto|discriminate].
           destruct (proj1 (R (length (workers s)) p')) as [q Hq]; [unfold runs; eauto|congruence].
        -- intros [q Hq]. inversion Hq; subst. exists t, o. apply in_or_app. right. now left.
      * rewrite <- R. unfold runs. split; intros (t0 & o0 & K0); exists t0, o0; [|apply in_or_app; auto].
        apply in_app_iff in K0 as [K0|[K0|[K0|[]]]]; [exact K0|inversion K0; subst; contradiction|discriminate].
    + intro w. rewrite cnt_app, !cnt_cons, cnt_nil. cbn [is_launch]. destruct (Nat.eqb_spec w (length (workers s))) as [->|Hne]; cbn [b2n]; [|specialize (O w); lia].
      assert (Z : cnt (is_launch (length (workers s))) tr = 0); [|lia]. apply cnt_zero. intros x0 Hx. destruct (is_launch (length (workers s)) x0) eqn:E; [|reflexivity].
      destruct x0; try discriminate. cbn in E. apply Nat.eqb_eq in E. subst w.
      destruct (proj1 (R (length (workers s)) p0)) as [q Hq]; [unfold runs; eauto|congruence].
    + intro w. rewrite cnt_app, !cnt_cons, cnt_nil. cbn. rewrite Ii, nth_snoc. destruct (Nat.eqb_spec w (length (workers s))) as [->|Hne]; [rewrite N; reflexivity|lia].
    + intro w. rewrite cnt_app, !cnt_cons, cnt_nil. cbn. rewrite D, nth_snoc. destruct (Nat.eqb_spec w (length (workers s))) as [->|Hne]; [rewrite N; reflexivity|lia].
    + intro p'. rewrite St0 by none_list. reflexivity.
  - apply (wk_frame s); auto; [none_list|]. intro; apply St0; none_list.
  - apply (wk_frame s); auto; [none_list|]. intro; apply St0; none_list.
  - apply (wk_frame s); auto; [destruct (o_sig x); none_list|]. intro; apply St0; destruct (o_sig x); none_list.
  - (* XWork *)
    assert (Nl : forall t o w p, ~ In (ELaunch t o w p) ev) by (destruct H1; intros ? ? ? ? X; cbn in X; repeat (destruct X as [X|X]; [discriminate|]); exact X).
    assert (Zl : forall w', cnt (is_launch w') ev = 0) by (destruct H1; reflexivity).
    assert (Zc : forall p', stopped p' (tr ++ ev) = stop_at s p') by (intro p'; apply St0; destruct H1; none_list).
    assert (Nz : forall w', w' <> w -> cnt (is_init w') ev = 0 /\ cnt (is_deinit w') ev = 0).
    { intros w' Hne. apply Nat.eqb_neq in Hne. destruct H1; rewrite ?cnt_cons, ?cnt_nil; cbn; rewrite ?Hne; auto. }
    assert (Zw : inits (Some (Wk p q)) + cnt (is_init w) ev = inits (Some (Wk p q')) /\ deinits (Some (Wk p q)) + cnt (is_deinit w) ev = deinits (Some (Wk p q'))).
    { destruct H1; rewrite ?cnt_cons, ?cnt_nil; cbn; rewrite ?Nat.eqb_refl; auto. }
    constructor; cbn [workers].
    + intros w' p'. rewrite runs_plain by exact Nl. rewrite R. destruct (Nat.eq_dec w' w) as [->|Hne].
      * rewrite nth_set_same by (eapply nth_lt; eauto). split; intros [q0 X]; [assert (p' = p) by congruence; subst; eauto|inversion X; subst; eauto].
      * rewrite nth_set_other by congruence. reflexivity.
    + intro w'. rewrite cnt_app, Zl. specialize (O w'). lia.
    + intro w'. rewrite cnt_app, Ii. destruct (Nat.eq_dec w' w) as [->|Hne].
      * rewrite H, nth_set_same by (eapply nth_lt; eauto). apply Zw.
      * rewrite nth_set_other by congruence. destruct (Nz _ Hne) as [-> _]. lia.
    + intro w'. rewrite cnt_app, D. destruct (Nat.eq_dec w' w) as [->|Hne].
      * rewrite H, nth_set_same by (eapply nth_lt; eauto). apply Zw.
      * rewrite nth_set_other by congruence. destruct (Nz _ Hne) as [_ ->]. lia.
    + intro p'. rewrite Zc. reflexivity.
Qed.

Record inv (s : st) (tr : list event) : Prop := { i_call : callI s tr; i_obj : objI s tr; i_wk : wkI s tr }.
Lemma nth_nil {A} i : nth_error (@nil A) i = None. Proof. destruct i; reflexivity. Qed.
Lemma inv_final h : inv (final h) (trace h).
Proof.
  apply history_ind.
  - assert (N : forall A i (x : A), nth_error [] i = Some x -> False) by (intros A i x; rewrite nth_nil; discriminate).
    constructor; constructor.
    + intros t c. split; [intros []|intros (a & K & _); destruct (N _ _ _ K)].
    + intros t. split; [intros [r []]|intros (a & K & _); destruct (N _ _ _ K)].
    + intro t. rewrite cnt_nil. lia.
    + intros t u a b o [K _]. destruct (N _ _ _ K).
    + intro o. unfold sig_at. cbn [objs st_new]. rewrite nth_nil. reflexivity.
    + intros o x w K. destruct (N _ _ _ K).
    + intros t a w K. destruct (N _ _ _ K).
    + intros t a w K. destruct (N _ _ _ K).
    + intros w p. split; [intros (t & o & [])|intros [q K]; destruct (N _ _ _ K)].
    + intro w. rewrite cnt_nil. lia.
    + intro w. cbn [workers st_new]. rewrite nth_nil. reflexivity.
    + intro w. cbn [workers st_new]. rewrite nth_nil. reflexivity.
    + intro p. unfold stop_at. cbn [closed st_new]. rewrite nth_nil. reflexivity.
  - intros h0 l s' ev [C O W] Hp. constructor; [eapply call_step|eapply obj_step|eapply wk_step]; eauto.
Qed.

(** ** No thread gets lost *)
Definition left_of (s : st) (w : nat) : Prop :=
  (exists p b, nth_error (workers s) w = Some (Wk p (WEnd b))) \/ (exists o, sig_at s o = Some w) \/
  (exists t a o o2, nth_error (ags s) t = Some a /\ a_call a = CAssign o o2 /\ a_pc a = PJoin w).
Lemma left_final h : forall w p q, nth_error (workers (final h)) w = Some (Wk p q) -> left_of (final h) w.
Proof.
  induction h as [|l h IH] using rev_ind; [intros w p q H; cbn in H; rewrite nth_nil in H; discriminate|].
  rewrite final_snoc. destruct (inv_final h) as [C O W]. destruct O as [S Wk0 B J].
  generalize (step_pstep (final h) l). generalize (fst (step (final h) l)), (snd (step (final h) l)). intros s' ev Hs.
  set (s := final h) in *.
  assert (Fr : forall w, left_of s w -> (forall w p b, nth_error (workers s) w = Some (Wk p (WEnd b)) -> nth_error (workers s') w = Some (Wk p (WEnd b))) ->
     (forall o w, sig_at s o = Some w -> left_of s' w) ->
     (forall t a w, nth_error (ags s) t = Some a -> a_pc a = PJoin w -> left_of s' w \/ nth_error (ags s') t = Some a) -> left_of s' w).
  { intros w [(p & b & K)|[(o & K)|(t & a & o & o2 & K1 & K2 & K3)]] H1 H2 H3; [left; eauto|eauto|].
    destruct (H3 _ _ _ K1 K3) as [X|X]; [exact X|]. right. right. eauto 8. }
  assert (Ag0 : forall t a p u b, nth_error (ags s) t = Some a -> (forall w, a_pc a <> PJoin w) -> nth_error (ags s) u = Some b -> (exists w, a_pc b = PJoin w) -> nth_error (ag s t a p) u = Some b).
  { intros t a p u b Ha Hn Hb [w Hw]. assert (u <> t) by (intros ->; assert (a = b) by congruence; subst; eapply Hn; eauto). unfold ag. rewrite nth_set_other by congruence. exact Hb. }
  assert (Wo : forall p w p' b, nth_error (workers s) w = Some (Wk p' (WEnd b)) -> nth_error (map (woken p) (workers s)) w = Some (Wk p' (WEnd b))).
  { intros p w p' b K. rewrite nth_error_map, K. reflexivity. }
  assert (Wi : forall p w p' q, nth_error (map (woken p) (workers s)) w = Some (Wk p' q) -> left_of s w).
  { intros p w p' q K. rewrite nth_error_map in K. destruct (nth_error (workers s) w) as [[p0 q0]|] eqn:E; [|discriminate]. eauto. }
  destruct Hs; intros w' p' q0 Hw; cbn [workers] in Hw.
  - eauto.
  - apply Fr; eauto. right. left. eauto.
  - apply Fr; eauto. intros o w Ho. right. left. exists o. unfold sig_at in *. cbn [objs]. destruct (nth_error (objs s) o) eqn:E; [|discriminate].
    rewrite nth_error_app1 by (eapply nth_lt; eauto). rewrite E. exact Ho.
  - apply Fr; eauto. { right. left. eauto. } intros t a w Ha _. right. cbn [ags]. rewrite nth_error_app1 by (eapply nth_lt; eauto). exact Ha.
  - apply Fr; eauto. { right. left. eauto. } intros u b' w Hb Hj. cbn [ags]. destruct (Nat.eq_dec u t) as [->|Hne].
    + left. assert (b' = a) by congruence. subst b'. destruct H0; try congruence. assert (w0 = w) by congruence. subst w0.
      left. cbn [workers]. destruct k as [pk qk]. cbn in H3. subst qk. eauto.
    + right. unfold ag. rewrite nth_set_other by congruence. exact Hb.
  - apply Fr; eauto. { right. left. eauto. } intros u b' w Hb Hj. right. eapply Ag0; eauto. congruence.
  - apply Fr; eauto. { right. left. eauto. } intros u b' w Hb Hj. right. eapply Ag0; eauto. congruence.
  - apply Fr; eauto. { right. left. eauto. } intros u b' w0 Hb Hj. right. eapply Ag0; eauto. congruence.
  - apply Fr; eauto. { right. left. eauto. } intros u b' w0 Hb Hj. right. eapply Ag0; eauto. congruence.
  - apply Fr; eauto.
    + intros o' w Ho. right. left. exists o'. rewrite (sig_set s o x _ _ _ _ H2). destruct (Nat.eqb_spec o' o) as [->|]; [|exact Ho]. unfold sig_at in Ho. rewrite H2 in Ho. exact Ho.
    + intros u b' w Hb Hj. right. eapply Ag0; eauto. congruence.
  - (* XLaunch *)
    rewrite nth_snoc in Hw. destruct (Nat.eqb_spec w' (length (workers s))) as [->|Hne].
    + right. left. exists o. rewrite (sig_set s o x _ _ _ _ H2), Nat.eqb_refl. reflexivity.
    + apply Fr; eauto.
      * intros w p0 b' K. cbn [workers]. rewrite nth_error_app1 by (eapply nth_lt; eauto). exact K.
      * intros o' w Ho. right. left. exists o'. rewrite (sig_set s o x _ _ _ _ H2). destruct (Nat.eqb_spec o' o) as [->|]; [|exact Ho]. unfold sig_at in Ho. rewrite H2 in Ho. congruence.
      * intros u b' w Hb Hj. right. eapply Ag0; eauto. congruence.
  - (* XCollect *)
    destruct k as [pk qk]. cbn in H4. subst qk. apply Fr; eauto.
    + intros o' w0 Ho. destruct (Nat.eq_dec o' o) as [->|Hne].
      * left. destruct (B _ _ _ H H0) as (o1 & d1 & K1 & K2).
        assert (o1 = o). { apply waits_uses in K1 as K3. apply waits_uses in H1 as K4. clear -K1 H1. destruct d, d1; cbn in *; repeat match goal with X : exists _, _ |- _ => destruct X end; repeat match goal with X : _ \/ _ |- _ => destruct X end; congruence. }
        subst o1. assert (w0 = w) by congruence. subst. cbn [workers]. eauto.
      * right. left. exists o'. rewrite (sig_set s o x _ _ _ _ H2). apply Nat.eqb_neq in Hne. rewrite Hne. exact Ho.
    + intros u b' w0 Hb Hj. right. eapply Ag0; eauto. congruence.
  - eauto.
  - (* XMove *)
    assert (Hxy : o <> o2 -> nth_error (set_nth o (Ob (o_proc y) (o_sig y) false) (objs s)) o2 = Some y) by (intro; rewrite nth_set_other by congruence; exact H3).
    apply Fr; eauto.
    + intros o' w Ho. destruct (Nat.eq_dec o' o) as [->|Hne].
      * right. right. unfold sig_at in Ho. rewrite H2 in Ho. rewrite Ho. exists t. eexists _, o, o2. split; [cbn [ags]; unfold ag; apply nth_set_same; eapply nth_lt; eauto|]. split; [exact H1|reflexivity].
      * right. left. destruct (Nat.eq_dec o o2) as [->|Hoo].
        -- exists o'. unfold sig_at. cbn [objs]. rewrite !nth_set_other by congruence. exact Ho.
        -- destruct (Nat.eq_dec o' o2) as [->|Hne2].
           ++ exists o. unfold sig_at. cbn [objs]. rewrite nth_set_other by congruence. rewrite nth_set_same by (eapply nth_lt; eauto). unfold sig_at in Ho. rewrite H3 in Ho. exact Ho.
           ++ exists o'. unfold sig_at. cbn [objs]. rewrite !nth_set_other by congruence. exact Ho.
    + intros u b' w Hb Hj. right. eapply Ag0; eauto. congruence.
  - (* XWork *)
    assert (Ew : forall w0 p0 b, nth_error (workers s) w0 = Some (Wk p0 (WEnd b)) -> nth_error (set_nth w (Wk p q') (workers s)) w0 = Some (Wk p0 (WEnd b))).
    { intros w0 p0 b K. assert (w0 <> w) by (intros ->; rewrite H in K; inversion K; subst; inversion H1). rewrite nth_set_other by congruence. exact K. }
    apply Fr; auto.
    + destruct (Nat.eq_dec w' w) as [->|Hne]; [eauto|]. rewrite nth_set_other in Hw by congruence. eauto.
    + intros o w0 Ho. right. left. eauto.
Qed.
