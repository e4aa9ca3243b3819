(** AsyncProcessor: invariants. *)
From Verif Require Import ListUtil AsyncModel AsyncSpec AsyncProofs.

(** ** Calls *)
Definition live (s : st) (t : nat) (a : agent) : Prop := nth_error (ags s) t = Some a /\ a_pc a <> PDone.
Record callI (s : st) (tr : list event) : Prop := {
  g_call : forall t c, called tr t c <-> exists a, nth_error (ags s) t = Some a /\ a_call a = c;
  g_done : forall t, returned tr t <-> exists a, nth_error (ags s) t = Some a /\ a_pc a = PDone;
  g_once : forall t, cnt (rets t) tr <= 1;
  g_uni : forall t u a b o, live s t a -> live s u b -> uses (a_call a) o = true -> uses (a_call b) o = true -> t = u }.

Definition quiet (x : event) : bool := match x with ECall _ _ | ERet _ _ => false | _ => true end.
Lemma call_frame s s' tr ev : callI s tr -> ags s' = ags s -> (forall x, In x ev -> quiet x = true) -> callI s' (tr ++ ev).
Proof.
  intros [C D O U] E H. constructor; unfold live; rewrite ?E; auto.
  - intros t c. rewrite <- C. unfold called. rewrite in_app_iff. split; [intros [?|K]; [auto|apply H in K; discriminate]|auto].
  - intros t. rewrite <- D. unfold returned. split; intros [r K]; exists r.
    + apply in_app_iff in K as [K|K]; [exact K|apply H in K; discriminate].
    + apply in_app_iff. auto.
  - intros t. rewrite cnt_app. assert (K : cnt (rets t) ev = 0).
    { apply cnt_zero. intros x Hx. apply H in Hx. destruct x; try discriminate; reflexivity. }
    rewrite K. specialize (O t). lia.
Qed.
Lemma live_upd s s' t a p u b : nth_error (ags s) t = Some a -> ags s' = ag s t a p -> live s' u b ->
  (u = t /\ b = Ag (a_call a) (a_on a) p /\ p <> PDone) \/ (u <> t /\ live s u b).
Proof.
  unfold live, ag. intros Ha E [Hb Hp]. rewrite E in Hb. destruct (Nat.eq_dec u t) as [->|Hne].
  - left. rewrite nth_set_same in Hb by (eapply nth_lt; eauto). inversion Hb; subst. auto.
  - right. rewrite nth_set_other in Hb by congruence. auto.
Qed.
Lemma call_upd s s' tr t a p ev : callI s tr -> nth_error (ags s) t = Some a -> a_pc a <> PDone -> ags s' = ag s t a p ->
  (forall x, In x ev -> quiet x = true) -> forall fin, (fin = [] /\ p <> PDone \/ exists r, fin = [ERet t r] /\ p = PDone) -> callI s' (tr ++ ev ++ fin).
Proof.
  intros [C D O U] Ha Hp E H fin Hf. constructor.
  - intros u c. rewrite E. unfold ag. transitivity (called tr u c).
    { unfold called. rewrite !in_app_iff. split; [intros [K|[K|K]]; [exact K|apply H in K; discriminate|]|auto].
      destruct Hf as [[-> _]|(r & -> & _)]; [destruct K|destruct K as [K|[]]; discriminate]. }
    rewrite C. destruct (Nat.eq_dec u t) as [->|Hne].
    + rewrite nth_set_same by (eapply nth_lt; eauto). split; intros (b & Hb & Hc).
      * assert (b = a) by congruence. subst. eexists. split; [reflexivity|reflexivity].
      * inversion Hb; subst. eauto.
    + rewrite nth_set_other by congruence. reflexivity.
  - intros u. rewrite E. unfold ag. assert (N : ~ returned tr t).
    { intro K. apply D in K as (b & Hb & Hd). congruence. }
    assert (R : returned (tr ++ ev ++ fin) u <-> returned tr u \/ (u = t /\ p = PDone)).
    { unfold returned. split.
      - intros [r K]. rewrite !in_app_iff in K. destruct K as [K|[K|K]]; [eauto|apply H in K; discriminate|].
        destruct Hf as [[-> _]|(r' & -> & ->)]; [destruct K|destruct K as [K|[]]]. inversion K; subst. auto.
      - intros [[r K]|[-> K]]; [exists r; rewrite in_app_iff; auto|]. destruct Hf as [[-> Hf]|(r' & -> & _)]; [contradiction|].
        exists r'. rewrite !in_app_iff. right. right. now left. }
    rewrite R. destruct (Nat.eq_dec u t) as [->|Hne].
    + rewrite nth_set_same by (eapply nth_lt; eauto). split.
      * intros [K|[_ K]]; [contradiction|]. eexists. split; [reflexivity|exact K].
      * intros (b & Hb & Hd). inversion Hb; subst. right. auto.
    + rewrite nth_set_other by congruence. rewrite D. split; [intros [K|[K _]]; [exact K|contradiction]|auto].
  - intros u. rewrite !cnt_app. assert (K : cnt (rets u) ev = 0).
    { apply cnt_zero. intros x Hx. apply H in Hx. destruct x; try discriminate; reflexivity. }
    rewrite K. specialize (O u). destruct Hf as [[-> _]|(r & -> & _)]; [rewrite cnt_nil; lia|]. rewrite cnt_cons, cnt_nil.
    destruct (rets u (ERet t r)) eqn:E1; cbn [b2n]; [|lia]. cbn in E1. apply Nat.eqb_eq in E1. subst u.
    assert (Z : cnt (rets t) tr = 0); [|lia]. apply cnt_zero. intros x Hx. destruct (rets t x) eqn:E2; [|reflexivity].
    destruct x; try discriminate. cbn in E2. apply Nat.eqb_eq in E2. subst. exfalso.
    destruct (proj1 (D t0)) as (b & Hb & Hd); [unfold returned; eauto|]. congruence.
  - intros u v b c o Hb Hc U1 U2. apply (live_upd s s' t a p u b Ha E) in Hb. apply (live_upd s s' t a p v c Ha E) in Hc.
    assert (La : live s t a) by (split; auto).
    destruct Hb as [(-> & -> & _)|[N1 Hb]]; destruct Hc as [(-> & -> & _)|[N2 Hc]]; cbn in *; eauto.
Qed.
Lemma call_new s s' tr c on : callI s tr -> may_call s c on = true -> ags s' = ags s ++ [Ag c on PStart] -> callI s' (tr ++ [ECall (length (ags s)) c]).
Proof.
  intros [C D O U] M E. assert (N : nth_error (ags s) (length (ags s)) = None) by (apply nth_error_None; lia).
  assert (Hu : forall o, uses c o = true -> in_use s o = false).
  { intros o Ho. unfold may_call in M. apply andb_true_iff in M as [_ M].
    assert (K : forall o', usable s o' = true -> in_use s o' = false).
    { intros o' K. unfold usable in K. destruct (nth_error (objs s) o'); [|discriminate]. apply andb_true_iff in K as [_ K]. apply negb_true_iff in K. exact K. }
    destruct c; cbn [uses] in Ho; try discriminate; try (apply Nat.eqb_eq in Ho; subst; auto; fail).
    apply andb_true_iff in M as [M _]. apply andb_true_iff in M as [M1 M2]. apply orb_true_iff in Ho as [Ho|Ho]; apply Nat.eqb_eq in Ho; subst; auto. }
  assert (Hx : forall o u b, uses c o = true -> live s u b -> uses (a_call b) o = true -> False).
  { intros o u b Ho [Hb Hp] Hub. apply Hu in Ho. unfold in_use in Ho. assert (X : existsb (fun a => uses (a_call a) o && negb (is_done a)) (ags s) = true); [|congruence].
    apply existsb_exists. exists b. split; [eapply nth_error_In; eauto|]. rewrite Hub. unfold is_done. destruct (a_pc b) eqn:Q; try reflexivity. congruence. }
  assert (Hl : forall u b, live s' u b -> (u = length (ags s) /\ b = Ag c on PStart) \/ live s u b).
  { intros u b [Hb Hp]. rewrite E, nth_snoc in Hb. destruct (Nat.eqb_spec u (length (ags s))) as [->|Hne]; [left; inversion Hb; auto|right; split; auto]. }
  constructor.
  - intros t c0. rewrite E. unfold called. rewrite in_app_iff. setoid_rewrite nth_snoc. destruct (Nat.eqb_spec t (length (ags s))) as [->|Hne].
    + split.
      * intros [K|[K|[]]]; [apply C in K as (b & Hb & _); congruence|]. inversion K; subst. eexists. split; reflexivity.
      * intros (b & Hb & <-). inversion Hb; subst. right. now left.
    + rewrite <- C. unfold called. split; [intros [K|[K|[]]]; [exact K|inversion K; subst; contradiction]|auto].
  - intros t. rewrite E. assert (R : returned (tr ++ [ECall (length (ags s)) c]) t <-> returned tr t).
    { unfold returned. split; intros [r K]; exists r; [apply in_app_iff in K as [K|[K|[]]]; [exact K|discriminate]|apply in_or_app; auto]. }
    rewrite R, D. setoid_rewrite nth_snoc. destruct (Nat.eqb_spec t (length (ags s))) as [->|Hne]; [|reflexivity].
    split; intros (b & Hb & Hd); [congruence|inversion Hb; subst; discriminate].
  - intros t. rewrite cnt_app, cnt_cons, cnt_nil. cbn. specialize (O t). lia.
  - intros t u a b o Ha Hb U1 U2. apply Hl in Ha as [[-> ->]|Ha]; apply Hl in Hb as [[-> ->]|Hb]; cbn [a_call] in *; auto.
    + exfalso. eapply Hx; eauto.
    + exfalso. eapply Hx; eauto.
    + eauto.
Qed.
Lemma fin_not_done s a r : fin_ok s a r -> a_pc a <> PDone.
Proof. intros []; congruence. Qed.
Lemma wmove_quiet w c q q' ev : wmove w c q q' ev -> forall x, In x ev -> quiet x = true.
Proof. intros [] x K; cbn in K; repeat (destruct K as [<-|K]; [reflexivity|]); destruct K. Qed.
Ltac quiet_list := let K := fresh in intros ? K; cbn in K; repeat (destruct K as [<-|K]; [reflexivity|]); destruct K.
Lemma call_step s l s' ev tr : callI s tr -> pstep s l s' ev -> callI s' (tr ++ ev).
Proof.
  intros I Hs. destruct Hs.
  - eapply call_frame; eauto; quiet_list.
  - eapply call_frame; eauto; quiet_list.
  - eapply call_frame; eauto; quiet_list.
  - eapply call_new; eauto.
  - refine (call_upd s _ tr t a PDone [] I H (fin_not_done _ _ _ H0) _ _ [ERet t r] _); [reflexivity|quiet_list|eauto].
  - refine (call_upd s _ tr t a PDone [EReuse p] I H ltac:(congruence) _ _ [ERet t RUnit] _); [reflexivity|quiet_list|eauto].
  - refine (call_upd s _ tr t a PDone [EStop p] I H ltac:(congruence) _ _ [ERet t RUnit] _); [reflexivity|quiet_list|eauto].
  - refine (call_upd s _ tr t a (PBlock w) [EStop p] I H ltac:(congruence) _ _ [] _); [reflexivity|quiet_list|left; split; [reflexivity|discriminate]].
  - refine (call_upd s _ tr t a (PBlock w) [] I H ltac:(congruence) _ _ [] _); [reflexivity|quiet_list|left; split; [reflexivity|discriminate]].
  - refine (call_upd s _ tr t a PDone [] I H ltac:(congruence) _ _ [ERet t RUnit] _); [reflexivity|quiet_list|eauto].
  - refine (call_upd s _ tr t a PDone [ELaunch t o (length (workers s)) p] I H ltac:(congruence) _ _ [ERet t RUnit] _); [reflexivity|quiet_list|eauto].
  - refine (call_upd s _ tr t a PDone [ECollect t o w] I H ltac:(congruence) _ _ [ERet t _] _); [reflexivity|quiet_list|eauto].
  - eapply call_frame; eauto; quiet_list.
  - destruct (o_sig x) as [w|] eqn:S1.
    + refine (call_upd s _ tr t a (PJoin w) [EMoved t o o2] I H ltac:(congruence) _ _ [] _); [reflexivity|quiet_list|left; split; [reflexivity|discriminate]].
    + refine (call_upd s _ tr t a PDone [EMoved t o o2] I H ltac:(congruence) _ _ [ERet t RUnit] _); [reflexivity|quiet_list|eauto].
  - eapply call_frame; eauto. eapply wmove_quiet; eauto.
Qed.

(** ** Objects *)
Definition moves (e : event) (f : nat -> option nat) (i : nat) : option nat :=
  match e with
  | ELaunch _ o' w _ => if Nat.eqb i o' then Some w else f i
  | ECollect _ o' _ => if Nat.eqb i o' then None else f i
  | EMoved _ o1 o2 => if Nat.eqb i o2 then None else if Nat.eqb i o1 then f o2 else f i
  | _ => f i
  end.
Lemma holds_snoc o tr e : holds o (tr ++ [e]) = moves e (fun i => holds i tr) o.
Proof. unfold holds. rewrite fold_left_app. cbn [fold_left]. destruct e; reflexivity. Qed.
Lemma holds_same o tr ev : (forall x, In x ev -> match x with ELaunch _ _ _ _ | ECollect _ _ _ | EMoved _ _ _ => False | _ => True end) -> holds o (tr ++ ev) = holds o tr.
Proof.
  revert tr. induction ev as [|x ev IH]; intros tr H; [rewrite app_nil_r; reflexivity|].
  change (x :: ev) with ([x] ++ ev). rewrite app_assoc, IH by (intros; apply H; now right). rewrite holds_snoc.
  specialize (H x (or_introl eq_refl)). destruct x; try reflexivity; contradiction.
Qed.
Definition sig_at (s : st) (o : nat) : option nat := match nth_error (objs s) o with Some x => o_sig x | None => None end.
Record objI (s : st) (tr : list event) : Prop := {
  h_sig : forall o, holds o tr = sig_at s o;
  h_wk : forall o x w, nth_error (objs s) o = Some x -> o_sig x = Some w -> exists p q, nth_error (workers s) w = Some (Wk p q) /\ o_proc x = Some p;
  h_block : forall t a w, nth_error (ags s) t = Some a -> a_pc a = PBlock w -> exists o d, waits (a_call a) o d /\ sig_at s o = Some w;
  h_join : forall t a w, nth_error (ags s) t = Some a -> a_pc a = PJoin w -> exists p q, nth_error (workers s) w = Some (Wk p q) }.
Lemma waits_uses c o d : waits c o d -> uses c o = true.
Proof. destruct d; cbn; [intros -> |intros [b [->| ->]]]; cbn; apply Nat.eqb_refl. Qed.
Lemma woken_shape p ws w p' q : nth_error ws w = Some (Wk p' q) -> exists q', nth_error (map (woken p) ws) w = Some (Wk p' q') /\
  (q' = q \/ q = WSleep /\ q' = WLook).
Proof.
  intro H. rewrite nth_error_map, H. cbn [option_map woken]. destruct q; eauto. destruct (Nat.eqb p p'); eauto.
Qed.
