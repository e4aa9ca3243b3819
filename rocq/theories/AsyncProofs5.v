(** AsyncProcessor: what holds when an event happens; progress; calls that never return. *)
From Verif Require Import ListUtil AsyncModel AsyncSpec AsyncProofs AsyncProofs2 AsyncProofs3 AsyncProofs4.

Lemma busy_snoc w tr e : busy w (tr ++ [e]) = match e with ETake w' => Nat.eqb w w' || busy w tr | EDone w' _ => negb (Nat.eqb w w') && busy w tr | _ => busy w tr end.
Proof. unfold busy. rewrite fold_left_app. reflexivity. Qed.
Lemma busy_same w tr ev : (forall x, In x ev -> match x with ETake w' | EDone w' _ => w' <> w | _ => True end) -> busy w (tr ++ ev) = busy w tr.
Proof.
  revert tr. induction ev as [|x ev IH]; intros tr H; [rewrite app_nil_r; reflexivity|].
  change (x :: ev) with ([x] ++ ev). rewrite app_assoc, IH by (intros; apply H; now right). rewrite busy_snoc.
  specialize (H x (or_introl eq_refl)). destruct x; try reflexivity; assert (E : Nat.eqb w w0 = false) by (apply Nat.eqb_neq; congruence); rewrite E; reflexivity.
Qed.
Definition thr_ok (s : st) (tr : list event) : Prop := forall w,
  match nth_error (workers s) w with
  | Some (Wk _ q) => (q = WEnd true -> In (EDone w true) tr) /\ busy w tr = (match q with WBusy => true | _ => false end)
  | None => busy w tr = false
  end.
Lemma thr_final h : thr_ok (final h) (trace h).
Proof.
  apply history_ind; [intro w; cbn [workers st_new]; rewrite nth_nil; reflexivity|].
  intros h0 l s' ev IH Hs. set (s := final h0) in *. set (tr := trace h0) in *.
  assert (Fr : (forall x, In x ev -> match x with ETake _ | EDone _ _ => False | _ => True end) -> forall w, busy w (tr ++ ev) = busy w tr).
  { intros H w. apply busy_same. intros x Hx. apply H in Hx. destruct x; try exact Logic.I; contradiction. }
  assert (Same : workers s' = workers s -> (forall x, In x ev -> match x with ETake _ | EDone _ _ => False | _ => True end) -> thr_ok s' (tr ++ ev)).
  { intros E H w. rewrite E, Fr by exact H. specialize (IH w). destruct (nth_error (workers s) w) as [[p q]|]; [|exact IH]. destruct IH as [K1 K2].
    split; [intro; apply in_or_app; auto|exact K2]. }
  assert (Wo : forall p, workers s' = map (woken p) (workers s) -> (forall x, In x ev -> match x with ETake _ | EDone _ _ => False | _ => True end) -> thr_ok s' (tr ++ ev)).
  { intros p E H w. rewrite E, Fr by exact H. specialize (IH w). rewrite nth_error_map. destruct (nth_error (workers s) w) as [[p' q]|]; [|exact IH]. destruct IH as [K1 K2].
    cbn [option_map woken]. destruct q; try (split; [intro; apply in_or_app; auto|exact K2]). destruct (Nat.eqb p p'); (split; [discriminate|exact K2]). }
  destruct Hs; try (apply Same; [reflexivity|none_list]); try (apply (Wo p); [reflexivity|none_list]).
  - intro w. cbn [workers]. rewrite Fr by none_list. specialize (IH w). rewrite nth_snoc. destruct (Nat.eqb_spec w (length (workers s))) as [->|Hne].
    + assert (N : nth_error (workers s) (length (workers s)) = None) by (apply nth_error_None; lia). rewrite N in IH. split; [discriminate|exact IH].
    + destruct (nth_error (workers s) w) as [[p' q]|]; [|exact IH]. destruct IH as [K1 K2]. split; [intro; apply in_or_app; auto|exact K2].
  - apply Same; [reflexivity|]. destruct (o_sig x); none_list.
  - intro w'. cbn [workers]. assert (K := IH w'). destruct (Nat.eq_dec w' w) as [->|Hne].
    + rewrite nth_set_same by (eapply nth_lt; eauto). rewrite H in K. destruct K as [K1 K2].
      destruct H1; rewrite ?app_nil_r; try (change [EDone w true; EDeinit w] with ([EDone w true] ++ [EDeinit w]); rewrite app_assoc, busy_snoc);
        rewrite ?busy_snoc, ?Nat.eqb_refl; cbn [orb negb andb]; try (split; [discriminate|first [reflexivity|exact K2]]).
      split; [|reflexivity]. intros _. rewrite <- app_assoc. apply in_or_app. right. now left.
    + rewrite nth_set_other by congruence. rewrite busy_same.
      * destruct (nth_error (workers s) w') as [[p' q0]|]; [|exact K]. destruct K as [K1 K2]. split; [intro; apply in_or_app; auto|exact K2].
      * destruct H1; intros x Hx; cbn in Hx; repeat (destruct Hx as [<-|Hx]; [try exact Logic.I; congruence|]); destruct Hx.
Qed.

Definition before (l : list event) (x : event) : Prop :=
  match x with
  | ELaunch t o w p => called l t (CLaunch o) /\ holds o l = None /\ cnt (is_launch w) l = 0
  | EInit w => (exists p, runs l w p) /\ ~ In (EDeinit w) l
  | ETake w => In (EInit w) l /\ ~ In (EDeinit w) l /\ exists p, runs l w p /\ stopped p l = false
  | EDeinit w => In (EInit w) l /\ ((exists p, runs l w p /\ stopped p l = true) \/ exists l', l = l' ++ [EDone w true])
  | ECollect t o w => holds o l = Some w /\ In (EDeinit w) l /\ exists d, exists c, called l t c /\ waits c o d
  | EMoved t o o2 => called l t (CAssign o o2)
  | ERet t r => exists c, called l t c /\ (r = RThrew -> exists w, In (EDone w true) l) /\
      match c with
      | CRunning o => r = RBool (match holds o l with Some _ => true | None => false end)
      | CWait o false | CStopWait o false | CDestroy o => holds o l = None
      | CAssign o o2 => In (EMoved t o o2) l
      | _ => True
      end
  | ETerminate => exists w, In (EDone w true) l
  | _ => True
  end.
Lemma called_at h t a : nth_error (ags (final h)) t = Some a -> called (trace h) t (a_call a).
Proof. intro H. apply (g_call _ _ (i_call _ _ (inv_final h))). eauto. Qed.
Lemma called_more l l' t c : called l t c -> called (l ++ l') t c.
Proof. unfold called. intro H. apply in_or_app. auto. Qed.
Lemma cnt_in {A} (f : A -> bool) l x : f x = true -> cnt f l = 0 -> ~ In x l.
Proof. intros H Z K. apply (cnt_zero_inv f l x Z) in K. congruence. Qed.
Lemma init_in tr w : 1 <= cnt (is_init w) tr -> In (EInit w) tr.
Proof. intro H. apply cnt_pos_inv in H as (x & Hx & E). destruct x; try discriminate. cbn in E. apply Nat.eqb_eq in E. subst. exact Hx. Qed.
Lemma deinit_in tr w : 1 <= cnt (is_deinit w) tr -> In (EDeinit w) tr.
Proof. intro H. apply cnt_pos_inv in H as (x & Hx & E). destruct x; try discriminate. cbn in E. apply Nat.eqb_eq in E. subst. exact Hx. Qed.
Lemma moved_join h : forall t a w, nth_error (ags (final h)) t = Some a -> a_pc a = PJoin w -> exists o o2, a_call a = CAssign o o2 /\ In (EMoved t o o2) (trace h).
Proof.
  apply (history_ind (fun s tr => forall t a w, nth_error (ags s) t = Some a -> a_pc a = PJoin w -> exists o o2, a_call a = CAssign o o2 /\ In (EMoved t o o2) tr)).
  { intros t a w K. cbn in K. rewrite nth_nil in K. discriminate. }
  intros h0 l s' ev IH Hs u b w Hb Hp. set (s := final h0) in *.
  assert (K : nth_error (ags s) u = Some b \/ exists o o2, a_call b = CAssign o o2 /\ In (EMoved u o o2) ev).
  { destruct Hs; cbn [ags] in Hb; auto; try (destruct (ag_old _ _ _ _ H _ _ Hb) as [K|[-> ->]]; [auto|discriminate]).
    - rewrite nth_snoc in Hb. destruct (Nat.eqb u (length (ags s))); [inversion Hb; subst; discriminate|auto].
    - destruct (ag_old _ _ _ _ H _ _ Hb) as [K|[-> ->]]; [auto|]. right. exists o, o2. split; [exact H1|now left]. }
  destruct K as [K|(o & o2 & K1 & K2)]; [|exists o, o2; split; [exact K1|apply in_or_app; auto]].
  destruct (IH _ _ _ K Hp) as (o & o2 & K1 & K2). exists o, o2. split; [exact K1|]. apply in_or_app. auto.
Qed.
Lemma before_step h l s' ev : pstep (final h) l s' ev -> forall l3 x l4, ev = l3 ++ x :: l4 -> before (trace h ++ l3) x.
Proof.
  intros Hs l3 x l4 E. destruct (inv_final h) as [C O W]. destruct O as [S Wk0 B J].
  assert (Sg : forall o y, nth_error (objs (final h)) o = Some y -> holds o (trace h) = o_sig y) by (intros o y K; rewrite S; unfold sig_at; rewrite K; reflexivity).
  destruct Hs.
  - destruct l3; discriminate.
  - destruct l3; discriminate.
  - apply one_eq in E as [-> ->]. exact Logic.I.
  - apply one_eq in E as [-> ->]. exact Logic.I.
  - (* XFin *)
    apply one_eq in E as [-> ->]. rewrite app_nil_r. exists (a_call a). split; [apply called_at; exact H|]. destruct H0 as [p P Q|o P Q|o y P Q R|o bb y P Q R T|o w P [Q|Q]|o o2 w k threw P Q R T]; rewrite Q.
    + split; [discriminate|exact Logic.I].
    + split; [discriminate|exact Logic.I].
    + split; [discriminate|]. rewrite (Sg _ _ R). reflexivity.
    + split; [discriminate|]. destruct bb; [exact Logic.I|]. rewrite (Sg _ _ R). exact T.
    + split; [discriminate|exact Logic.I].
    + split; [discriminate|exact Logic.I].
    + split; [discriminate|]. destruct (moved_join h t a w H P) as (o' & o2' & K1 & K2). congruence.
  - apply two_eq in E as [[-> ->]|[-> ->]]; [exact Logic.I|]. exists (a_call a). split; [apply called_more, called_at; exact H|]. rewrite H1. split; [discriminate|exact Logic.I].
  - apply two_eq in E as [[-> ->]|[-> ->]]; [exact Logic.I|]. exists (a_call a). split; [apply called_more, called_at; exact H|]. rewrite H1. split; [discriminate|exact Logic.I].
  - apply one_eq in E as [-> ->]. exact Logic.I.
  - destruct l3; discriminate.
  - (* XNone *)
    apply one_eq in E as [-> ->]. rewrite app_nil_r. exists (a_call a). split; [apply called_at; exact H|]. split; [discriminate|].
    assert (Z : holds o (trace h) = None).
    { rewrite (Sg _ _ H2). destruct H3 as [H3|H3]; [exact H3|]. destruct (o_sig x0) as [w|] eqn:Q; [|reflexivity]. destruct (Wk0 _ _ _ H2 Q) as (? & ? & _ & K). congruence. }
    destruct d; cbn in H1; [rewrite H1; exact Z|]. destruct H1 as [bb [-> | ->]]; destruct bb; auto.
  - (* XLaunch *)
    apply two_eq in E as [[-> ->]|[-> ->]].
    + rewrite app_nil_r. cbn. split; [rewrite <- H1; apply called_at; exact H|]. split; [rewrite (Sg _ _ H2); exact H3|].
      apply cnt_zero. intros y Hy. destruct (is_launch (length (workers (final h))) y) eqn:Q; [|reflexivity]. destruct y; try discriminate. cbn in Q. apply Nat.eqb_eq in Q. subst.
      destruct (proj1 (k_runs _ _ W (length (workers (final h))) p0)) as [q Hq]; [unfold runs; eauto|]. apply nth_lt in Hq. lia.
    + exists (a_call a). split; [apply called_more, called_at; exact H|]. rewrite H1. split; [discriminate|exact Logic.I].
  - (* XCollect *)
    assert (Hd : In (EDeinit w) (trace h)).
    { apply deinit_in. rewrite (k_deinit _ _ W), H3. destruct k as [pk qk]. cbn in H4. subst. cbn. lia. }
    destruct (B _ _ _ H H0) as (o1 & d1 & K1 & K2).
    assert (o1 = o). { clear -K1 H1. destruct d, d1; cbn in *; repeat match goal with X : exists _, _ |- _ => destruct X end; repeat match goal with X : _ \/ _ |- _ => destruct X end; congruence. }
    subst o1. rewrite <- S in K2. apply two_eq in E as [[-> ->]|[-> ->]].
    + rewrite app_nil_r. cbn. split; [exact K2|]. split; [exact Hd|]. exists d, (a_call a). split; [apply called_at; exact H|exact H1].
    + exists (a_call a). split; [apply called_more, called_at; exact H|]. split.
      * intro Q. destruct threw; [|discriminate]. exists w. apply in_or_app. left. assert (T := thr_final h w). rewrite H3 in T. destruct k as [pk qk]. cbn in H4. subst. apply T. reflexivity.
      * assert (Z : holds o (trace h ++ [ECollect t o w]) = None) by (rewrite holds_snoc; cbn; rewrite Nat.eqb_refl; reflexivity).
        destruct d; cbn in H1; [rewrite H1; exact Z|]. destruct H1 as [bb [-> | ->]]; destruct bb; auto.
  - apply one_eq in E as [-> ->]. rewrite app_nil_r. exists w. assert (T := thr_final h w). rewrite H2 in T. destruct k as [pk qk]. cbn in H3. subst. apply T. reflexivity.
  - (* XMove *)
    assert (K : called (trace h) t (CAssign o o2)) by (rewrite <- H1; apply called_at; exact H).
    destruct (o_sig x0); [apply one_eq in E as [-> ->]; rewrite app_nil_r; exact K|]. apply two_eq in E as [[-> ->]|[-> ->]]; [rewrite app_nil_r; exact K|].
    exists (CAssign o o2). split; [apply called_more; exact K|]. split; [discriminate|]. apply in_or_app. right. now left.
  - (* XWork *)
    assert (R : runs (trace h) w p) by (apply (k_runs _ _ W); eauto).
    assert (In0 : inits (Some (Wk p q)) = 1 -> In (EInit w) (trace h)) by (intro Q; apply init_in; rewrite (k_init _ _ W), H, Q; lia).
    assert (De : deinits (Some (Wk p q)) = 0 -> ~ In (EDeinit w) (trace h)).
    { intros Q. apply (cnt_in (is_deinit w)); [cbn; apply Nat.eqb_refl|]. rewrite (k_deinit _ _ W), H. exact Q. }
    assert (Cl : nth_error (closed (final h)) p = Some c -> stopped p (trace h) = c) by (intro Q; rewrite (k_closed _ _ W); unfold stop_at; rewrite Q; reflexivity).
    destruct H1; try (destruct l3; discriminate); try (apply one_eq in E as [-> ->]; rewrite app_nil_r).
    + split; [eauto|apply De; reflexivity].
    + split; [apply In0; reflexivity|]. split; [apply De; reflexivity|]. exists p. split; [exact R|]. destruct H0 as [H0|[H0|[H0|[H0|H0]]]]; try discriminate. auto.
    + split; [apply In0; reflexivity|]. left. exists p. split; [exact R|]. destruct H0 as [H0|[H0|[H0|[H0|H0]]]]; try discriminate. auto.
    + exact Logic.I.
    + apply two_eq in E as [[-> ->]|[-> ->]]; [exact Logic.I|]. split; [apply in_or_app; left; apply In0; reflexivity|]. right. exists (trace h). reflexivity.
Qed.
Lemma before_ok h l1 x l2 : trace h = l1 ++ x :: l2 -> before l1 x.
Proof. apply (hist_pos before). exact before_step. Qed.

(** ** Calls that never return *)
Definition blocked (s : st) (t w : nat) : Prop :=
  exists a, nth_error (ags s) t = Some a /\ ((a_pc a = PBlock w /\ exists o, waits_untimed (a_call a) o) \/ a_pc a = PJoin w).
Lemma blocked_step s l s' ev t w tr : callI s tr -> wkI s tr -> blocked s t w -> pstep s l s' ev -> ~ In (EDeinit w) (tr ++ ev) ->
  (blocked s' t w /\ forall r, ~ In (ERet t r) ev).
Proof.
  intros C W (a & Ha & Hp) Hs Hd.
  assert (Nd : forall p b, nth_error (workers s) w <> Some (Wk p (WEnd b))).
  { intros p b K. apply Hd. apply in_or_app. left. apply deinit_in. rewrite (k_deinit _ _ W), K. cbn. lia. }
  assert (Keep : forall u b p, nth_error (ags s) u = Some b -> u <> t -> exists a0, nth_error (ag s u b p) t = Some a0 /\ ((a_pc a0 = PBlock w /\ exists o, waits_untimed (a_call a0) o) \/ a_pc a0 = PJoin w)).
  { intros u b p _ Hne. unfold ag. rewrite nth_set_other by congruence. eauto. }
  assert (Npc : forall u b, nth_error (ags s) u = Some b -> a_pc b = PStart -> u <> t) by (intros u b Hb Q ->; assert (b = a) by congruence; subst; destruct Hp as [[Hp _]|Hp]; congruence).
  unfold blocked. destruct Hs; cbn [ags]; try (split; [eauto|intros ? []; fail]).
  - split; [eauto|intros r [K|[]]; discriminate].
  - split; [|intros r [K|[]]; discriminate]. exists a. rewrite nth_error_app1 by (eapply nth_lt; eauto). auto.
  - assert (Hne : t0 <> t).
    { intros ->. assert (a0 = a) by congruence. subst a0. destruct H0 as [p P Q|o P Q|o y P Q R|o bb y P Q R T|o w0 P Q|o o2 w0 k threw P Q R T]; destruct Hp as [[Hp (o' & Hw)]|Hp]; try congruence.
      - unfold waits_untimed in Hw. destruct Q, Hw as [Hw|[Hw|Hw]]; congruence.
      - assert (w0 = w) by congruence. subst. destruct k as [pk qk]. cbn in T. subst. eapply Nd; eauto. }
    split; [apply Keep; auto|]. intros r0 [K|[]]. inversion K; subst. contradiction.
  - assert (Hne := Npc _ _ H H0). split; [apply Keep; auto|]. intros r0 [K|[K|[]]]; inversion K; subst. contradiction.
  - assert (Hne := Npc _ _ H H0). split; [apply Keep; auto|]. intros r0 [K|[K|[]]]; inversion K; subst. contradiction.
  - assert (Hne := Npc _ _ H H0). split; [apply Keep; auto|]. intros r0 [K|[]]; discriminate.
  - assert (Hne := Npc _ _ H H0). split; [apply Keep; auto|]. intros r0 [K|[]]; inversion K; subst. contradiction.
  - assert (Hne := Npc _ _ H H0). split; [apply Keep; auto|]. intros r0 [K|[K|[]]]; inversion K; subst. contradiction.
  - assert (Hne : t0 <> t).
    { intros ->. assert (a0 = a) by congruence. subst a0. destruct Hp as [[Hp _]|Hp]; [|congruence]. assert (w0 = w) by congruence. subst. destruct k as [pk qk]. cbn in H4. subst. eapply Nd; eauto. }
    split; [apply Keep; auto|]. intros r0 [K|[K|[]]]; inversion K; subst. contradiction.
  - split; [eauto|intros r [K|[]]; discriminate].
  - assert (Hne := Npc _ _ H H0). split; [apply Keep; auto|]. intros r0 K. destruct (o_sig x); [destruct K as [K|[]]; discriminate|]. destruct K as [K|[K|[]]]; inversion K; subst. contradiction.
  - split; [eauto|]. intros r K. apply (wmove_quiet _ _ _ _ _ H1) in K. discriminate.
Qed.
Lemma trace_run h h2 : exists ev, trace (h ++ h2) = trace h ++ ev.
Proof. unfold trace. rewrite run_app. destruct (run st_new h) as [s e]. destruct (run s h2) as [s2 e2]. exists e2. reflexivity. Qed.
Lemma blocked_run h t w h2 : blocked (final h) t w -> ~ returned (trace h) t -> ~ In (EDeinit w) (trace (h ++ h2)) -> ~ returned (trace (h ++ h2)) t.
Proof.
  intros Hb Hr Hd. assert (K : blocked (final (h ++ h2)) t w /\ ~ returned (trace (h ++ h2)) t); [|tauto].
  induction h2 as [|l h2 IH] using rev_ind; [rewrite app_nil_r; auto|].
  destruct IH as [B R]; [intro X; apply Hd; rewrite app_assoc, trace_snoc; apply in_or_app; auto|].
  rewrite app_assoc in Hd. rewrite app_assoc, final_snoc. rewrite trace_snoc in *. destruct (inv_final (h ++ h2)) as [C _ W].
  destruct (blocked_step _ l _ _ t w _ C W B (step_pstep (final (h ++ h2)) l) Hd) as [B' R']. split; [exact B'|].
  intros [r X]. apply in_app_iff in X as [X|X]; [apply R; exists r; exact X|eapply R'; eauto].
Qed.
(** A thread does not end as long as its processor is not stopped and it does not throw. *)
Lemma no_stop_no_end h h2 w p : runs (trace h) w p -> stopped p (trace h) = false -> ~ In (EDeinit w) (trace h) ->
  (forall ev, trace (h ++ h2) = trace h ++ ev -> ~ In (EStop p) ev /\ ~ In (EDone w true) ev) -> ~ In (EDone w true) (trace h) -> ~ In (EDeinit w) (trace (h ++ h2)).
Proof.
  intros R S D N Nt K. destruct (trace_run h h2) as [ev E]. destruct (N ev E) as [N1 N2]. rewrite E in K. apply in_app_iff in K as [K|K]; [auto|].
  apply in_split in K as (a & b & ->). assert (E' : trace (h ++ h2) = (trace h ++ a) ++ EDeinit w :: b) by (rewrite E, <- app_assoc; reflexivity).
  apply before_ok in E'. destruct E' as [_ [(p' & R' & S')|(l' & X)]].
  - assert (p' = p).
    { destruct (inv_final (h ++ h2)) as [_ _ W]. assert (K1 : runs (trace (h ++ h2)) w p') by (destruct R' as (t & o & K1); exists t, o; rewrite E; apply in_app_iff in K1 as [K1|K1]; apply in_or_app; auto; right; apply in_or_app; auto).
      assert (K2 : runs (trace (h ++ h2)) w p) by (destruct R as (t & o & K2); exists t, o; rewrite E; apply in_or_app; auto).
      apply (k_runs _ _ W) in K1 as [q1 K1]. apply (k_runs _ _ W) in K2 as [q2 K2]. congruence. }
    subst p'. assert (Z : forall l, ~ In (EStop p) l -> forall tr, stopped p tr = false -> stopped p (tr ++ l) = false).
    { clear. induction l as [|x l IH]; intros Hn tr Hs; [rewrite app_nil_r; exact Hs|]. change (x :: l) with ([x] ++ l). rewrite app_assoc. apply IH; [intro; apply Hn; now right|].
      rewrite stopped_snoc. destruct x; try exact Hs; rewrite Hs; [|apply andb_false_r]. destruct (Nat.eqb_spec p p0) as [->|]; [destruct Hn; now left|reflexivity]. }
    rewrite Z in S'; [discriminate| |exact S]. intro X. apply N1. apply in_or_app. auto.
  - assert (X2 : In (EDone w true) (trace h ++ a)) by (rewrite X; apply in_or_app; right; now left). apply in_app_iff in X2 as [X2|X2]; [contradiction|]. apply N2. apply in_or_app. auto.
Qed.
