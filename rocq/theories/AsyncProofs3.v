(** AsyncProcessor: the invariants of objects and threads. *)
From Verif Require Import ListUtil AsyncModel AsyncSpec AsyncProofs AsyncProofs2.

Definition calm (x : event) : Prop := match x with ELaunch _ _ _ _ | ECollect _ _ _ | EMoved _ _ _ => False | _ => True end.
Ltac calm_list := let K := fresh in intros ? K; cbn in K; repeat (destruct K as [<-|K]; [exact Logic.I|]); destruct K.
Lemma sig_some s o w : sig_at s o = Some w -> exists x, nth_error (objs s) o = Some x /\ o_sig x = Some w.
Proof. unfold sig_at. destruct (nth_error (objs s) o) eqn:E; [eauto|discriminate]. Qed.
Definition keeps (s s' : st) : Prop := forall w p q, nth_error (workers s) w = Some (Wk p q) -> exists q', nth_error (workers s') w = Some (Wk p q').
Lemma keeps_same s s' : workers s' = workers s -> keeps s s'.
Proof. intros E w p q H. rewrite E. eauto. Qed.

Lemma obj_frame s s' tr ev : objI s tr -> (forall x, In x ev -> calm x) -> (forall o, sig_at s' o = sig_at s o) ->
  (forall o x', nth_error (objs s') o = Some x' -> o_sig x' = None \/ exists x, nth_error (objs s) o = Some x /\ o_sig x' = o_sig x /\ o_proc x' = o_proc x) ->
  keeps s s' ->
  (forall t a', nth_error (ags s') t = Some a' -> nth_error (ags s) t = Some a' \/
     match a_pc a' with PBlock w => exists o d, waits (a_call a') o d /\ sig_at s o = Some w | PJoin w => False | _ => True end) ->
  objI s' (tr ++ ev).
Proof.
  intros [S W B J] Hc Hs Ho Hk Ha. constructor.
  - intro o. rewrite holds_same by exact Hc. rewrite S. symmetry. apply Hs.
  - intros o x' w Hx Hw. destruct (Ho _ _ Hx) as [K|(x & K & K1 & K2)]; [congruence|].
    destruct (W o x w K) as (p & q & K3 & K4); [congruence|]. destruct (Hk _ _ _ K3) as [q' K5]. exists p, q'. split; [exact K5|congruence].
  - intros t a w Ht Hp. destruct (Ha _ _ Ht) as [K|K].
    + destruct (B _ _ _ K Hp) as (o & d & K1 & K2). exists o, d. rewrite Hs. auto.
    + rewrite Hp in K. destruct K as (o & d & K1 & K2). exists o, d. rewrite Hs. auto.
  - intros t a w Ht Hp. destruct (Ha _ _ Ht) as [K|K].
    + destruct (J _ _ _ K Hp) as (p & q & K1). destruct (Hk _ _ _ K1) as [q' K2]. eauto.
    + rewrite Hp in K. contradiction.
Qed.
Lemma ag_old s t a p : nth_error (ags s) t = Some a -> forall u b, nth_error (ag s t a p) u = Some b ->
  nth_error (ags s) u = Some b \/ (u = t /\ b = Ag (a_call a) (a_on a) p).
Proof.
  intros Ha u b Hb. unfold ag in Hb. destruct (Nat.eq_dec u t) as [->|Hne].
  - rewrite nth_set_same in Hb by (eapply nth_lt; eauto). inversion Hb; auto.
  - rewrite nth_set_other in Hb by congruence. auto.
Qed.
Lemma sig_set s o x o' cl ws la : nth_error (objs s) o = Some x -> forall y,
  sig_at (St cl ws (set_nth o y (objs s)) la) o' = if Nat.eqb o' o then o_sig y else sig_at s o'.
Proof.
  intros Hx y. unfold sig_at. cbn [objs]. destruct (Nat.eqb_spec o' o) as [->|Hne].
  - rewrite nth_set_same by (eapply nth_lt; eauto). reflexivity.
  - rewrite nth_set_other by congruence. reflexivity.
Qed.
Lemma keeps_woken s s' p : workers s' = map (woken p) (workers s) -> keeps s s'.
Proof. intros E w p' q H. rewrite E. destruct (woken_shape p _ _ _ _ H) as (q' & K & _). eauto. Qed.
Lemma wmove_calm w c q q' ev : wmove w c q q' ev -> forall x, In x ev -> calm x.
Proof. intros [] x K; cbn in K; repeat (destruct K as [<-|K]; [exact Logic.I|]); destruct K. Qed.
Lemma other_block s tr t a o u b w : callI s tr -> objI s tr -> nth_error (ags s) t = Some a -> a_pc a <> PDone -> uses (a_call a) o = true ->
  nth_error (ags s) u = Some b -> a_pc b = PBlock w -> u <> t -> exists o' d, waits (a_call b) o' d /\ sig_at s o' = Some w /\ o' <> o.
Proof.
  intros C [_ _ B _] Ha Hp Hu Hb Hpb Hne. destruct (B _ _ _ Hb Hpb) as (o' & d & K1 & K2). exists o', d. split; [exact K1|]. split; [exact K2|].
  intros ->. apply Hne. apply (g_uni _ _ C u t b a o); [split; [exact Hb|congruence]|split; auto|eapply waits_uses; eauto|exact Hu].
Qed.

Lemma obj_step s l s' ev tr : callI s tr -> objI s tr -> pstep s l s' ev -> objI s' (tr ++ ev).
Proof.
  intros C I Hs. assert (I' := I). destruct I' as [S W B J].
  assert (Same : forall o x', nth_error (objs s) o = Some x' -> o_sig x' = None \/ exists x, nth_error (objs s) o = Some x /\ o_sig x' = o_sig x /\ o_proc x' = o_proc x) by eauto 7.
  destruct Hs.
  - apply (obj_frame s); auto; [calm_list|apply keeps_same; reflexivity].
  - apply (obj_frame s); auto; [calm_list|apply keeps_same; reflexivity].
  - apply (obj_frame s); auto; [calm_list| | |apply keeps_same; reflexivity].
    + intro o. unfold sig_at. cbn [objs]. rewrite nth_snoc. destruct (Nat.eqb_spec o (length (objs s))) as [->|]; [|reflexivity].
      assert (K : nth_error (objs s) (length (objs s)) = None) by (apply nth_error_None; lia). rewrite K. reflexivity.
    + intros o x' Hx. cbn [objs] in Hx. rewrite nth_snoc in Hx. destruct (Nat.eqb o (length (objs s))); [|eauto]. inversion Hx; subst. auto.
  - apply (obj_frame s); auto; [calm_list|apply keeps_same; reflexivity|].
    intros t a' Ht. cbn [ags] in Ht. rewrite nth_snoc in Ht. destruct (Nat.eqb t (length (ags s))); [|auto]. inversion Ht; subst. right. exact Logic.I.
  - apply (obj_frame s); auto; [calm_list|apply keeps_same; reflexivity|].
    intros u b' Hu. destruct (ag_old _ _ _ _ H _ _ Hu) as [K|[-> ->]]; [auto|right; exact Logic.I].
  - apply (obj_frame s); auto; [calm_list|apply keeps_same; reflexivity|].
    intros u b' Hu. destruct (ag_old _ _ _ _ H _ _ Hu) as [K|[-> ->]]; [auto|right; exact Logic.I].
  - apply (obj_frame s); auto; [calm_list|eapply keeps_woken; reflexivity|].
    intros u b' Hu. destruct (ag_old _ _ _ _ H _ _ Hu) as [K|[-> ->]]; [auto|right; exact Logic.I].
  - apply (obj_frame s); auto; [calm_list|eapply keeps_woken; reflexivity|].
    intros u b' Hu. destruct (ag_old _ _ _ _ H _ _ Hu) as [K|[-> ->]]; [auto|right]. cbn. exists o, d. split; [exact H1|]. unfold sig_at. rewrite H2. exact H3.
  - apply (obj_frame s); auto; [calm_list|apply keeps_same; reflexivity|].
    intros u b' Hu. destruct (ag_old _ _ _ _ H _ _ Hu) as [K|[-> ->]]; [auto|right]. cbn. exists o, d. split; [exact H1|]. unfold sig_at. rewrite H2. exact H3.
  - (* XNone *)
    apply (obj_frame s); auto; [calm_list| | |apply keeps_same; reflexivity|].
    + intro o'. rewrite (sig_set s o x _ _ _ _ H2). destruct (Nat.eqb_spec o' o) as [->|]; [|reflexivity]. unfold sig_at. rewrite H2. reflexivity.
    + intros o' x' Hx. cbn [objs] in Hx. destruct (Nat.eq_dec o' o) as [->|Hne].
      * rewrite nth_set_same in Hx by (eapply nth_lt; eauto). inversion Hx; subst. right. exists x. cbn. auto.
      * rewrite nth_set_other in Hx by congruence. eauto.
    + intros u b' Hu. destruct (ag_old _ _ _ _ H _ _ Hu) as [K|[-> ->]]; [auto|right; exact Logic.I].
  - (* XLaunch *)
    assert (Hu : uses (a_call a) o = true) by (rewrite H1; cbn; apply Nat.eqb_refl).
    set (s' := St _ _ _ _). assert (Sg : forall o', sig_at s' o' = if Nat.eqb o' o then Some (length (workers s)) else sig_at s o') by (intro; apply (sig_set s o x _ _ _ _ H2)).
    constructor.
    + intro o'. change [ELaunch t o (length (workers s)) p; ERet t RUnit] with ([ELaunch t o (length (workers s)) p] ++ [ERet t RUnit]).
      rewrite app_assoc, holds_snoc. cbn [moves]. rewrite holds_snoc. cbn [moves]. rewrite Sg, S. reflexivity.
    + intros o' x' w Hx Hw. unfold s' in Hx. cbn [objs] in Hx. unfold s'. cbn [workers]. destruct (Nat.eq_dec o' o) as [->|Hne].
      * rewrite nth_set_same in Hx by (eapply nth_lt; eauto). inversion Hx; subst. cbn in Hw. inversion Hw; subst.
        exists p, WStart. rewrite nth_snoc, Nat.eqb_refl. auto.
      * rewrite nth_set_other in Hx by congruence. destruct (W _ _ _ Hx Hw) as (p' & q & K1 & K2). exists p', q. split; [|exact K2].
        rewrite nth_error_app1 by (eapply nth_lt; eauto). exact K1.
    + intros u b' w Hb Hp. destruct (ag_old _ _ _ _ H _ _ Hb) as [K|[-> ->]]; [|discriminate].
      assert (Hne : u <> t) by (intros ->; congruence).
      destruct (other_block s tr t a o u b' w C I H ltac:(congruence) Hu K Hp Hne) as (o' & d & K1 & K2 & K3). exists o', d. split; [exact K1|].
      rewrite Sg. apply Nat.eqb_neq in K3. rewrite K3. exact K2.
    + intros u b' w Hb Hp. destruct (ag_old _ _ _ _ H _ _ Hb) as [K|[-> ->]]; [|discriminate]. destruct (J _ _ _ K Hp) as (p' & q & K1).
      exists p', q. unfold s'. cbn [workers]. rewrite nth_error_app1 by (eapply nth_lt; eauto). exact K1.
  - (* XCollect *)
    assert (Hu : uses (a_call a) o = true) by (eapply waits_uses; eauto).
    set (s' := St _ _ _ _). assert (Sg : forall o', sig_at s' o' = if Nat.eqb o' o then None else sig_at s o') by (intro; apply (sig_set s o x _ _ _ _ H2)).
    constructor.
    + intro o'. change [ECollect t o w; ERet t (if threw then RThrew else RUnit)] with ([ECollect t o w] ++ [ERet t (if threw then RThrew else RUnit)]).
      rewrite app_assoc, holds_snoc. cbn [moves]. rewrite holds_snoc. cbn [moves]. rewrite Sg, S. reflexivity.
    + intros o' x' w' Hx Hw. unfold s' in Hx. cbn [objs] in Hx. unfold s'. cbn [workers]. destruct (Nat.eq_dec o' o) as [->|Hne].
      * rewrite nth_set_same in Hx by (eapply nth_lt; eauto). inversion Hx; subst. discriminate.
      * rewrite nth_set_other in Hx by congruence. eauto.
    + intros u b' w' Hb Hp. destruct (ag_old _ _ _ _ H _ _ Hb) as [K|[-> ->]]; [|discriminate].
      assert (Hne : u <> t). { intros ->. unfold s' in Hb. cbn [ags] in Hb. unfold ag in Hb. rewrite nth_set_same in Hb by (eapply nth_lt; eauto). inversion Hb; subst. discriminate. }
      destruct (other_block s tr t a o u b' w' C I H ltac:(congruence) Hu K Hp Hne) as (o' & d' & K1 & K2 & K3). exists o', d'. split; [exact K1|].
      rewrite Sg. apply Nat.eqb_neq in K3. rewrite K3. exact K2.
    + intros u b' w' Hb Hp. destruct (ag_old _ _ _ _ H _ _ Hb) as [K|[-> ->]]; [|discriminate]. eauto.
  - apply (obj_frame s); auto; [calm_list|apply keeps_same; reflexivity].
  - (* XMove *)
    assert (Hu : uses (a_call a) o = true) by (rewrite H1; cbn; rewrite Nat.eqb_refl; reflexivity).
    assert (Hu2 : uses (a_call a) o2 = true) by (rewrite H1; cbn; rewrite Nat.eqb_refl, orb_true_r; reflexivity).
    set (s' := St _ _ _ _). set (s1 := St (closed s) (workers s) (set_nth o (Ob (o_proc y) (o_sig y) false) (objs s)) (ags s)).
    assert (Hy : exists y', nth_error (objs s1) o2 = Some y').
    { unfold s1. cbn [objs]. destruct (Nat.eq_dec o o2) as [<-|Hne]; [rewrite nth_set_same by (eapply nth_lt; eauto); eauto|rewrite nth_set_other by congruence; eauto]. }
    destruct Hy as [y' Hy].
    assert (Sg : forall o', sig_at s' o' = if Nat.eqb o' o2 then None else if Nat.eqb o' o then o_sig y else sig_at s o').
    { intro o'. unfold s'. change (set_nth o (Ob (o_proc y) (o_sig y) false) (objs s)) with (objs s1). rewrite (sig_set s1 o2 y' _ _ _ _ Hy).
      destruct (Nat.eqb o' o2); [reflexivity|]. unfold s1. rewrite (sig_set s o x _ _ _ _ H2). reflexivity. }
    assert (Sy : sig_at s o2 = o_sig y) by (unfold sig_at; rewrite H3; reflexivity).
    constructor.
    + intro o'. assert (E : holds o' (tr ++ EMoved t o o2 :: match o_sig x with Some _ => [] | None => [ERet t RUnit] end) = holds o' (tr ++ [EMoved t o o2])).
      { destruct (o_sig x); [reflexivity|]. change [EMoved t o o2; ERet t RUnit] with ([EMoved t o o2] ++ [ERet t RUnit]). rewrite app_assoc, holds_snoc. reflexivity. }
      rewrite E, holds_snoc. cbn [moves]. rewrite Sg, !S, Sy. reflexivity.
    + intros o' x' w Hx Hw. unfold s' in Hx. cbn [objs] in Hx. unfold s'. cbn [workers]. destruct (Nat.eq_dec o' o2) as [->|Hne].
      * rewrite nth_set_same in Hx by (unfold s1 in Hy; cbn [objs] in Hy; eapply nth_lt; eauto). inversion Hx; subst. discriminate.
      * rewrite nth_set_other in Hx by congruence. destruct (Nat.eq_dec o' o) as [->|Hne2].
        -- rewrite nth_set_same in Hx by (eapply nth_lt; eauto). inversion Hx; subst. cbn in *. eauto.
        -- rewrite nth_set_other in Hx by congruence. eauto.
    + intros u b' w Hb Hp. destruct (ag_old _ _ _ _ H _ _ Hb) as [K|[-> ->]].
      2:{ cbn in Hp. destruct (o_sig x); discriminate. }
      assert (Hne : u <> t) by (intros ->; congruence).
      destruct (other_block s tr t a o u b' w C I H ltac:(congruence) Hu K Hp Hne) as (o' & d & K1 & K2 & K3). exists o', d. split; [exact K1|].
      destruct (other_block s tr t a o2 u b' w C I H ltac:(congruence) Hu2 K Hp Hne) as (o'' & d'' & K1' & _ & K3').
      assert (o'' = o').
      { clear -K1 K1'. destruct d, d''; cbn in *; repeat match goal with H : exists _, _ |- _ => destruct H end; repeat match goal with H : _ \/ _ |- _ => destruct H end; congruence. }
      subst o''. rewrite Sg. apply Nat.eqb_neq in K3, K3'. rewrite K3, K3'. exact K2.
    + intros u b' w Hb Hp. destruct (ag_old _ _ _ _ H _ _ Hb) as [K|[-> ->]]; [eauto|]. cbn in Hp. destruct (o_sig x) as [w'|] eqn:Ex; [|discriminate].
      inversion Hp; subst. destruct (W _ _ _ H2 Ex) as (p & q & K1 & K2). unfold s'. cbn. eauto.
  - apply (obj_frame s); auto; [eapply wmove_calm; eauto|].
    intros w' p' q0 Hw. cbn [workers]. destruct (Nat.eq_dec w' w) as [->|Hne].
    + rewrite nth_set_same by (eapply nth_lt; eauto). assert (p' = p) by congruence. subst. eauto.
    + rewrite nth_set_other by congruence. eauto.
Qed.
