(** AsyncProcessor: waiting for a stopped processor ends; self-waiting and lost wake-ups do not. *)
From Verif Require Import ListUtil AsyncModel AsyncSpec AsyncProofs AsyncProofs2 AsyncProofs3 AsyncProofs4 AsyncProofs5.

Lemma look_end s w p : nth_error (workers s) w = Some (Wk p WLook) -> nth_error (closed s) p = Some true ->
  step s (LEnd w) = (set_worker s w p (WEnd false), [EDeinit w]).
Proof. intros H1 H2. cbn [step]. rewrite H1, H2. reflexivity. Qed.
Lemma set_same s w p q k : nth_error (workers s) w = Some k -> nth_error (workers (set_worker s w p q)) w = Some (Wk p q).
Proof. intro H. cbn. apply nth_set_same. eapply nth_lt; eauto. Qed.
Lemma thread_ends h w p q : nth_error (workers (final h)) w = Some (Wk p q) -> nth_error (closed (final h)) p = Some true -> q <> WBusy ->
  exists h2, (forall l, In l h2 -> l = LInit w \/ l = LEnd w \/ l = LSleep w \/ l = LWake w) /\ ags (final (h ++ h2)) = ags (final h) /\ objs (final (h ++ h2)) = objs (final h) /\
    exists b, nth_error (workers (final (h ++ h2))) w = Some (Wk p (WEnd b)).
Proof.
  intros H C N.
  assert (L : forall h, nth_error (workers (final h)) w = Some (Wk p WLook) -> nth_error (closed (final h)) p = Some true ->
     ags (final (h ++ [LEnd w])) = ags (final h) /\ objs (final (h ++ [LEnd w])) = objs (final h) /\ nth_error (workers (final (h ++ [LEnd w]))) w = Some (Wk p (WEnd false))).
  { intros h0 H0 C0. rewrite final_snoc, (look_end _ _ _ H0 C0). cbn [fst]. split; [reflexivity|]. split; [reflexivity|]. eapply set_same; eauto. }
  destruct q; [| | | |congruence|].
  - assert (E : step (final h) (LInit w) = (set_worker (final h) w p WLook, [EInit w])) by (cbn [step]; rewrite H; reflexivity).
    destruct (L (h ++ [LInit w])) as (A1 & A2 & A3); [rewrite final_snoc, E; eapply set_same; eauto|rewrite final_snoc, E; exact C|].
    exists [LInit w; LEnd w]. rewrite <- app_assoc in *. cbn [app] in *. split; [intros l [<-|[<-|[]]]; auto|]. rewrite A1, A2. rewrite final_snoc, E. cbn. eauto.
  - destruct (L h H C) as (A1 & A2 & A3). exists [LEnd w]. split; [intros l [<-|[]]; auto|]. eauto.
  - assert (E : step (final h) (LSleep w) = (set_worker (final h) w p WSleep, [])) by (cbn [step]; rewrite H; reflexivity).
    assert (E2 : step (final (h ++ [LSleep w])) (LWake w) = (set_worker (final (h ++ [LSleep w])) w p WLook, [])).
    { rewrite final_snoc, E. cbn [fst step]. rewrite (set_same _ _ _ _ _ H). reflexivity. }
    destruct (L ((h ++ [LSleep w]) ++ [LWake w])) as (A1 & A2 & A3).
    + rewrite (final_snoc _ (LWake w)), E2. cbn [fst]. eapply set_same. rewrite final_snoc, E. cbn [fst]. eapply set_same; eauto.
    + rewrite (final_snoc _ (LWake w)), E2, final_snoc, E. exact C.
    + exists [LSleep w; LWake w; LEnd w]. split; [intros l [<-|[<-|[<-|[]]]]; auto|].
      replace (h ++ [LSleep w; LWake w; LEnd w]) with (((h ++ [LSleep w]) ++ [LWake w]) ++ [LEnd w]) by (rewrite <- !app_assoc; reflexivity).
      rewrite A1, A2, (final_snoc _ (LWake w)), E2, final_snoc, E. cbn [fst]. split; [reflexivity|]. split; [reflexivity|]. eauto.
  - assert (E : step (final h) (LWake w) = (set_worker (final h) w p WLook, [])) by (cbn [step]; rewrite H; reflexivity).
    destruct (L (h ++ [LWake w])) as (A1 & A2 & A3); [rewrite final_snoc, E; eapply set_same; eauto|rewrite final_snoc, E; exact C|].
    exists [LWake w; LEnd w]. rewrite <- app_assoc in *. cbn [app] in *. split; [intros l [<-|[<-|[]]]; auto|]. rewrite A1, A2. rewrite final_snoc, E. cbn. eauto.
  - exists []. rewrite app_nil_r. split; [intros l []|]. eauto.
Qed.
Lemma waits_same c o d o' d' : waits c o d -> waits c o' d' -> o = o'.
Proof.
  intros H1 H2. destruct d, d'; cbn in *; repeat match goal with X : exists _, _ |- _ => destruct X end; repeat match goal with X : _ \/ _ |- _ => destruct X end; congruence.
Qed.
Lemma block_ends h t a o d w p q : nth_error (ags (final h)) t = Some a -> waits (a_call a) o d -> a_pc a = PBlock w ->
  nth_error (workers (final h)) w = Some (Wk p q) -> nth_error (closed (final h)) p = Some true -> q <> WBusy ->
  exists h2, (forall l, In l h2 -> own_step t w l) /\ (returned (trace (h ++ h2)) t \/ In ETerminate (trace (h ++ h2))).
Proof.
  intros Ha Hw Hp Hk Hc Hq. destruct (thread_ends h w p q Hk Hc Hq) as (h1 & Q1 & A1 & O1 & b & K1).
  destruct (inv_final h) as [_ [_ _ B _] _]. destruct (B _ _ _ Ha Hp) as (o' & d' & W' & S'). assert (o' = o) by (eapply waits_same; eauto). subst o'.
  destruct (sig_some _ _ _ S') as (x & Hx & _).
  exists (h1 ++ [LStep t false]). split.
  { intros l Hl. apply in_app_iff in Hl as [Hl|[<-|[]]]; [apply Q1 in Hl; unfold own_step; tauto|left; reflexivity]. }
  rewrite app_assoc, trace_snoc. unfold returned. set (s := final (h ++ h1)) in *.
  assert (Ha1 : nth_error (ags s) t = Some a) by (rewrite A1; exact Ha). assert (Hx1 : nth_error (objs s) o = Some x) by (rewrite O1; exact Hx).
  assert (E : forall timed, (exists r, In (ERet t r) (snd (wait_step s t a o w timed false d))) \/ In ETerminate (snd (wait_step s t a o w timed false d))).
  { intro timed. unfold wait_step. rewrite K1, Hx1. cbn [w_pc]. destruct (b && d); cbn [snd]; [right; now left|left; eexists; right; now left]. }
  assert (E2 : exists timed, step s (LStep t false) = wait_step s t a o w timed false d).
  { destruct d; cbn in Hw.
    - exists false. cbn [step]. rewrite Ha1, Hp, Hw. reflexivity.
    - destruct Hw as [tm [Hw|Hw]]; exists tm; cbn [step]; rewrite Ha1, Hp, Hw; reflexivity. }
  destruct E2 as [timed E2]. rewrite E2. destruct (E timed) as [[r Hr]|Ht]; [left; exists r|right]; apply in_or_app; auto.
Qed.
Lemma wait_ends h t c o d w p : called (trace h) t c -> waits c o d -> holds o (trace h) = Some w -> runs (trace h) w p ->
  stopped p (trace h) = true -> busy w (trace h) = false ->
  exists h2, (forall l, In l h2 -> own_step t w l) /\ (returned (trace (h ++ h2)) t \/ In ETerminate (trace (h ++ h2))).
Proof.
  intros Hc Hw Hh Hr Hs Hb. destruct (inv_final h) as [C O W]. assert (O' := O). destruct O' as [S Wk0 B J].
  apply (g_call _ _ C) in Hc as (a & Ha & <-). apply (k_runs _ _ W) in Hr as [q Hk].
  assert (Hq : q <> WBusy). { intros ->. assert (T := thr_final h w). rewrite Hk in T. destruct T as [_ T]. congruence. }
  assert (Hcl : nth_error (closed (final h)) p = Some true).
  { rewrite (k_closed _ _ W) in Hs. unfold stop_at in Hs. destruct (nth_error (closed (final h)) p); congruence. }
  rewrite S in Hh. destruct (a_pc a) as [|w0|w0|] eqn:P.
  - destruct (sig_some _ _ _ Hh) as (x & Hx & Hsx). destruct (Wk0 _ _ _ Hx Hsx) as (p' & q' & K & Op). assert (p' = p) by congruence. subst p'.
    assert (St : step (final h) (LStep t false) = (upd (final h) t a (PBlock w), [])).
    { assert (G : forall dd, stop_wait (final h) t a o x dd = (upd (final h) t a (PBlock w), [])).
      { intro dd. unfold stop_wait. rewrite Hsx, Op. unfold stop. rewrite Hcl. reflexivity. }
      destruct d; cbn in Hw; [|destruct Hw as [tm [Hw|Hw]]]; cbn [step]; rewrite Ha, P, Hw, Hx; rewrite ?G, ?Hsx; reflexivity. }
    destruct (block_ends (h ++ [LStep t false]) t (Ag (a_call a) (a_on a) (PBlock w)) o d w p q) as (h2 & Q2 & R2); auto.
    + rewrite final_snoc, St. cbn. apply nth_set_same. eapply nth_lt; eauto.
    + rewrite final_snoc, St. exact Hk.
    + rewrite final_snoc, St. exact Hcl.
    + exists (LStep t false :: h2). split; [intros l [<-|Hl]; [left; reflexivity|auto]|].
      replace (h ++ LStep t false :: h2) with ((h ++ [LStep t false]) ++ h2) by (rewrite <- app_assoc; reflexivity). exact R2.
  - destruct (B _ _ _ Ha P) as (o' & d' & W' & S'). assert (o' = o) by (eapply waits_same; eauto). subst o'. assert (w0 = w) by congruence. subst w0.
    eapply block_ends; eauto.
  - destruct (moved_join _ _ _ _ Ha P) as (o1 & o2 & K & _). destruct d; cbn in Hw; [|destruct Hw as [tm [Hw|Hw]]]; congruence.
  - exists []. rewrite app_nil_r. split; [intros l []|]. left. apply (g_done _ _ C). eauto.
Qed.

(** A thread that waits for itself. *)
Definition self_stuck (t w : nat) (s : st) : Prop := exists p a, nth_error (workers s) w = Some (Wk p WBusy) /\ nth_error (ags s) t = Some a /\
  a_on a = Some w /\ a_pc a = PBlock w /\ exists o, waits_untimed (a_call a) o.
Lemma self_run h t w h2 : self_stuck t w (final h) -> self_stuck t w (final (h ++ h2)).
Proof.
  intro Hs. induction h2 as [|l h2 IH] using rev_ind; [rewrite app_nil_r; exact Hs|].
  rewrite app_assoc, final_snoc. destruct IH as (p & a & Hk & Ha & Ho & Hp & o & Hw). set (s := final (h ++ h2)) in *.
  generalize (step_pstep s l). generalize (fst (step s l)), (snd (step s l)). intros s' ev Hst.
  assert (Co : calls_on s w = true).
  { unfold calls_on. apply existsb_exists. exists a. split; [eapply nth_error_In; eauto|]. rewrite Ho, Nat.eqb_refl. unfold is_done. rewrite Hp. reflexivity. }
  assert (Fr : nth_error (workers s') w = Some (Wk p WBusy) -> nth_error (ags s') t = Some a -> self_stuck t w s').
  { intros K1 K2. exists p, a. split; [exact K1|]. split; [exact K2|]. split; [exact Ho|]. split; [exact Hp|]. eauto. }
  assert (Ot : forall u b q, u <> t -> nth_error (ag s u b q) t = Some a) by (intros; unfold ag; rewrite nth_set_other by congruence; exact Ha).
  assert (Wo : forall p', nth_error (map (woken p') (workers s)) w = Some (Wk p WBusy)) by (intro; rewrite nth_error_map, Hk; reflexivity).
  assert (Npc : forall u b, nth_error (ags s) u = Some b -> a_pc b = PStart -> u <> t) by (intros u b Hb Q ->; congruence).
  destruct Hst; apply Fr; cbn [workers ags]; auto; try (apply Ot; eapply Npc; eauto; fail).
  - rewrite nth_error_app1 by (eapply nth_lt; eauto). exact Ha.
  - apply Ot. intros ->. assert (a0 = a) by congruence. subst a0.
    destruct H0 as [p' P Q|o' P Q|o' y P Q R|o' bb y P Q R T|o' w0 P Q|o' o2 w0 k threw P Q R T]; try congruence.
    unfold waits_untimed in Hw. destruct Q, Hw as [Hw|[Hw|Hw]]; congruence.
  - rewrite nth_error_app1 by (eapply nth_lt; eauto). exact Hk.
  - apply Ot. intros ->. assert (a0 = a) by congruence. subst a0. assert (w0 = w) by congruence. subst w0. rewrite Hk in H3. inversion H3; subst. discriminate.
  - destruct (Nat.eq_dec w w0) as [<-|Hne]; [|rewrite nth_set_other by congruence; exact Hk].
    rewrite Hk in H. inversion H; subst. rewrite H2 in Co by reflexivity. discriminate.
Qed.
(** A thread that missed the wake-up of stop(). *)
Definition overslept (t w p : nat) (s : st) : Prop := nth_error (closed s) p = Some true /\
  (nth_error (workers s) w = Some (Wk p WPre) \/ nth_error (workers s) w = Some (Wk p WSleep)).
Lemma sleep_run h t w p h2 : overslept t w p (final h) -> ~ In (LWake w) h2 -> (forall ev, trace (h ++ h2) = trace h ++ ev -> ~ In (EReuse p) ev) ->
  overslept t w p (final (h ++ h2)).
Proof.
  intros Hs Hn Hr. induction h2 as [|l h2 IH] using rev_ind; [rewrite app_nil_r; exact Hs|].
  destruct (trace_run h h2) as [ev0 E0].
  assert (Hr' : forall x, In x (snd (step (final (h ++ h2)) l)) -> x <> EReuse p).
  { intros x Hx ->. apply (Hr (ev0 ++ snd (step (final (h ++ h2)) l))); [rewrite app_assoc, trace_snoc, E0, <- app_assoc; reflexivity|]. apply in_or_app. auto. }
  destruct IH as [Hc Hk].
  { intro X. apply Hn. apply in_or_app. auto. }
  { intros ev E X. apply (Hr (ev ++ snd (step (final (h ++ h2)) l))); [rewrite app_assoc, trace_snoc, E, <- app_assoc; reflexivity|]. apply in_or_app. auto. }
  rewrite app_assoc, final_snoc. set (s := final (h ++ h2)) in *. revert Hr'.
  generalize (step_pstep s l). generalize (fst (step s l)), (snd (step s l)). intros s' ev Hst Hr'.
  assert (Hl : l <> LWake w) by (intros ->; apply Hn; apply in_or_app; right; now left).
  assert (Cs : forall p' b, nth_error (closed s) p' = Some false -> nth_error (set_nth p' b (closed s)) p = Some true) by (intros p' b K; rewrite nth_set_other by congruence; exact Hc).
  assert (Wm : forall p', p' <> p -> nth_error (map (woken p') (workers s)) w = Some (Wk p WPre) \/ nth_error (map (woken p') (workers s)) w = Some (Wk p WSleep)).
  { intros p' Hne. rewrite nth_error_map. destruct Hk as [-> | ->]; cbn; [auto|]. apply Nat.eqb_neq in Hne. rewrite Hne. auto. }
  unfold overslept. destruct Hst; cbn [closed workers]; auto.
  - rewrite nth_error_app1 by (eapply nth_lt; eauto). auto.
  - split; [|exact Hk]. rewrite nth_set_other; [exact Hc|]. intros ->. apply (Hr' (EReuse p)); [now left|reflexivity].
  - split; [auto|]. apply Wm. congruence.
  - split; [auto|]. apply Wm. congruence.
  - split; [exact Hc|]. destruct Hk as [Hk|Hk]; [left|right]; (rewrite nth_error_app1 by (eapply nth_lt; eauto); exact Hk).
  - split; [exact Hc|]. destruct (Nat.eq_dec w w0) as [<-|Hne]; [|rewrite nth_set_other by congruence; exact Hk].
    rewrite nth_set_same by (eapply nth_lt; eauto). rewrite H in Hk. destruct Hk as [Hk|Hk]; inversion Hk; subst; inversion H1; subst; auto.
    exfalso. apply Hl. auto.
Qed.
