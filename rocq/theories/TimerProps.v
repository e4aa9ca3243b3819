(** C46-C48, C72-C75: timers. *)
From Verif Require Import ListUtil TimerModel TimerSpec TimerProofs TimerProofs2 TimerProofs3 TimerProofs4.

(** ** C46, however timers are used *)
(** A timer only fires when it was started and has not been stopped since, and a one-shot timer has not fired since: see [due]. *)
Theorem C46_only_running_timers_fire h a r t b : trace h = a ++ EFire r t :: b -> due r a <> None.
Proof. exact (fires_running h a r t b). Qed.
Print Assumptions C46_only_running_timers_fire.
Lemma due_none_stays r p b : due_at p = None -> (forall t d, ~ In (EStart r t d) b) -> (forall t, ~ In (ERestart r t) b) -> due_at (fold_left (plan_step r) b p) = None.
Proof.
  revert p. induction b as [|e b IH]; intros p D A B; [exact D|]. cbn. apply IH; [|intros t d X; eapply A; right; exact X|intros t X; eapply B; right; exact X].
  destruct e; cbn; auto; destruct (Nat.eqb r0 r) eqn:E; auto; try (apply Nat.eqb_eq in E; subst r0); try (exfalso; first [eapply A; left; reflexivity|eapply B; left; reflexivity]). cbn. destruct (again p); [rewrite D|]; reflexivity.
Qed.
Theorem C46_stopped_timer_is_silent h a r b t c : trace h = a ++ EStop r :: b ++ EFire r t :: c -> (exists t' d, In (EStart r t' d) b) \/ exists t', In (ERestart r t') b.
Proof.
  intros E. assert (D : due r (a ++ EStop r :: b) <> None) by (apply (fires_running h _ r t c); rewrite E, <- app_assoc; reflexivity).
  destruct (existsb (fun e => match e with EStart q _ _ | ERestart q _ => Nat.eqb q r | _ => false end) b) eqn:X.
  - apply existsb_exists in X as (e & X & Y). destruct e; try discriminate; apply Nat.eqb_eq in Y; subst r0; eauto.
  - exfalso. apply D. unfold due. rewrite plan_app. cbn. rewrite Nat.eqb_refl. apply due_none_stays; [reflexivity| |]; intros; intros Y; assert (Z : existsb (fun e => match e with EStart q _ _ | ERestart q _ => Nat.eqb q r | _ => false end) b = true) by (apply existsb_exists; eexists; split; [exact Y|apply Nat.eqb_refl]); congruence.
Qed.
Print Assumptions C46_stopped_timer_is_silent.
Theorem C46_one_shot_fires_once h a r t b t' c : trace h = a ++ EFire r t :: b ++ EFire r t' :: c -> again (plan_of r a) = false -> (exists t' d, In (EStart r t' d) b) \/ exists t', In (ERestart r t') b.
Proof.
  intros E AG. assert (D : due r (a ++ EFire r t :: b) <> None) by (apply (fires_running h _ r t' c); rewrite E, <- app_assoc; reflexivity).
  destruct (existsb (fun e => match e with EStart q _ _ | ERestart q _ => Nat.eqb q r | _ => false end) b) eqn:X.
  - apply existsb_exists in X as (e & X & Y). destruct e; try discriminate; apply Nat.eqb_eq in Y; subst r0; eauto.
  - exfalso. apply D. unfold due. rewrite plan_app. cbn. rewrite Nat.eqb_refl, AG. apply due_none_stays; [reflexivity| |]; intros; intros Y; assert (Z : existsb (fun e => match e with EStart q _ _ | ERestart q _ => Nat.eqb q r | _ => false end) b = true) by (apply existsb_exists; eexists; split; [exact Y|apply Nat.eqb_refl]); congruence.
Qed.
Print Assumptions C46_one_shot_fires_once.
(** It never fires earlier than its interval after it was last started ... *)
Theorem C46_never_early h a r s d b t c : trace h = a ++ EStart r s d :: b ++ EFire r t :: c -> (forall t d, ~ In (EStart r t d) b) -> (forall t, ~ In (ERestart r t) b) -> s + d <= t.
Proof.
  intros E A B. apply (fires_late h (a ++ EStart r s d :: b) r t c); [rewrite E, <- app_assoc; reflexivity|]. rewrite since_app. cbn. rewrite Nat.eqb_refl. rewrite since_quiet by auto. reflexivity.
Qed.
Print Assumptions C46_never_early.
(** running() tells whether it is due. *)
Theorem C46_running h r : running (dat (final h) r) = true <-> due r (trace h) <> None.
Proof. apply (W_final h r). Qed.
Print Assumptions C46_running.

(** ** C46, for timers that are used on their own thread, are restarted only while running, and are not overrun *)
Theorem C46_in_order h a r t b : own_thread (trace h) -> restarts_running (trace h) -> punctual (trace h) -> trace h = a ++ EFire r t :: b ->
  exists w, due r a = Some w /\ w <= t /\ forall q w', due q a = Some w' -> w <= w'.
Proof. intros A B C. apply in_order. split; [|split]; auto. Qed.
Print Assumptions C46_in_order.
(** The processor never sleeps longer than until the first timer is due, and does not sleep without limit if there is one. *)
Theorem C46_sleeps_until_the_first h u : own_thread (trace h) -> restarts_running (trace h) -> punctual (trace h) -> asleep (final h) u ->
  match u with None => forall r, due r (trace h) = None | Some w => (exists r, due r (trace h) = Some w) /\ forall r w', due r (trace h) = Some w' -> w <= w' end.
Proof. intros A B C. apply sleeps. split; [|split]; auto. Qed.
Print Assumptions C46_sleeps_until_the_first.
(** When that time has come, it fires next. *)
Theorem C46_fires_when_due h w k k' : own_thread (trace h) -> restarts_running (trace h) -> punctual (trace h) -> asleep (final h) (Some w) -> w <= now (final h) ->
  exists r, due r (trace h) = Some w /\ trace (h ++ [Step k; Step k']) = trace h ++ [ELook r (now (final h)); EFire r (now (final h))].
Proof. intros A B C. apply wakes. split; [|split]; auto. Qed.
Print Assumptions C46_fires_when_due.
(** And a timer is never looked for in an empty heap. *)
Theorem C46_no_undefined_behaviour h : own_thread (trace h) -> restarts_running (trace h) -> punctual (trace h) -> ~ In EBad (trace h).
Proof. intros A B C. apply (t_bad _ (T_final h (conj A (conj B C)))). Qed.
Print Assumptions C46_no_undefined_behaviour.

(** ** C47 *)
Definition fires (r : nat) (e : event) : bool := match e with EFire q _ => Nat.eqb q r | _ => false end.
Definition about (r : nat) (e : event) : Prop := match e with EStart q _ _ | EStop q | EForeign q | ERestart q _ | ECyclic q _ => q = r | _ => False end.
Lemma cyclic_due r b w d : (forall e, In e b -> ~ about r e) -> fold_left (plan_step r) b (Plan (Some w) d true) = Plan (Some (w + cnt (fires r) b * d)) d true.
Proof.
  revert w. induction b as [|e b IH]; intros w A; [cbn; rewrite cnt_nil; f_equal; f_equal; lia|]. cbn [fold_left]. rewrite cnt_cons.
  assert (A' : forall e, In e b -> ~ about r e) by (intros e' X; apply A; right; exact X). specialize (A e (or_introl eq_refl)).
  assert (S : plan_step r (Plan (Some w) d true) e = Plan (Some (w + b2n (fires r e) * d)) d true).
  { destruct e; cbn in *; try (rewrite Nat.add_0_r; reflexivity); destruct (Nat.eqb r0 r) eqn:E; try (rewrite Nat.add_0_r; reflexivity); try (apply Nat.eqb_eq in E; contradiction). cbn. f_equal. f_equal. lia. }
  rewrite S, IH by exact A'. f_equal. f_equal. lia.
Qed.
(** The n-th firing of a cyclic timer is due n intervals after it was started, whenever the earlier ones happened: it never fires before
    that, and the processor does not sleep beyond it. *)
Theorem C47_never_before_its_time h a r s d b t c : own_thread (trace h) -> restarts_running (trace h) -> punctual (trace h) ->
  trace h = a ++ EStart r s d :: b ++ EFire r t :: c -> again (plan_of r a) = true -> (forall e, In e b -> ~ about r e) -> s + (1 + cnt (fires r) b) * d <= t.
Proof.
  intros A B C E AG N. destruct (in_order h (a ++ EStart r s d :: b) r t c (conj A (conj B C))) as (w & D & L & _); [rewrite E, <- app_assoc; reflexivity|].
  unfold due in D. rewrite plan_app in D. cbn in D. rewrite Nat.eqb_refl, AG, (cyclic_due r b (s + d) d N) in D. cbn in D. injection D as <-. lia.
Qed.
Print Assumptions C47_never_before_its_time.
Theorem C47_no_sleep_beyond_it h a r s d b u : own_thread (trace h) -> restarts_running (trace h) -> punctual (trace h) ->
  trace h = a ++ EStart r s d :: b -> again (plan_of r a) = true -> (forall e, In e b -> ~ about r e) -> asleep (final h) u -> exists w, u = Some w /\ w <= s + (1 + cnt (fires r) b) * d.
Proof.
  intros A B C E AG N S. pose proof (sleeps h u (conj A (conj B C)) S) as X.
  assert (D : due r (trace h) = Some (s + d + cnt (fires r) b * d)) by (unfold due; rewrite E, plan_app; cbn; rewrite Nat.eqb_refl, AG, (cyclic_due r b (s + d) d N); reflexivity).
  destruct u as [w|]; [|rewrite X in D; discriminate]. exists w. split; [reflexivity|]. apply (proj2 X) in D. lia.
Qed.
Print Assumptions C47_no_sleep_beyond_it.

(** ** C48 *)
Lemma quiet_due r p b : (forall e, In e b -> ~ about r e /\ fires r e = false) -> due_at (fold_left (plan_step r) b p) = due_at p.
Proof.
  revert p. induction b as [|e b IH]; intros p A; [reflexivity|]. cbn. rewrite IH by (intros e' X; apply A; right; exact X). destruct (A e (or_introl eq_refl)) as [X Y]. destruct e; cbn in *; auto; destruct (Nat.eqb r0 r) eqn:E; auto; try (apply Nat.eqb_eq in E; contradiction). discriminate.
Qed.
Lemma every_since r a : every (plan_of r a) = snd (since r a).
Proof. induction a as [|e a IH] using rev_ind; [reflexivity|]. rewrite plan_snoc, since_snoc. destruct e; cbn; auto; destruct (Nat.eqb r0 r); auto. Qed.
(** A running timer that is restarted does not fire before its interval has passed again ... *)
Theorem C48_restart_defers h a r s b t c : trace h = a ++ ERestart r s :: b ++ EFire r t :: c -> (forall t d, ~ In (EStart r t d) b) -> (forall t, ~ In (ERestart r t) b) -> s + interval r a <= t.
Proof.
  intros E A B. unfold interval. rewrite every_since. apply (fires_late h (a ++ ERestart r s :: b) r t c); [rewrite E, <- app_assoc; reflexivity|]. rewrite since_app. cbn. rewrite Nat.eqb_refl. rewrite since_quiet by auto. reflexivity.
Qed.
Print Assumptions C48_restart_defers.
(** ... it is due then, and the processor does not sleep beyond it. *)
Theorem C48_restart_is_due h a r s b u : own_thread (trace h) -> restarts_running (trace h) -> punctual (trace h) ->
  trace h = a ++ ERestart r s :: b -> (forall e, In e b -> ~ about r e /\ fires r e = false) -> asleep (final h) u -> due r (trace h) = Some (s + interval r a) /\ exists w, u = Some w /\ w <= s + interval r a.
Proof.
  intros A B C E N S. pose proof (sleeps h u (conj A (conj B C)) S) as X.
  assert (D : due r (trace h) = Some (s + interval r a)) by (unfold due; rewrite E, plan_app; cbn; rewrite Nat.eqb_refl, quiet_due by exact N; reflexivity). split; [exact D|].
  destruct u as [w|]; [|rewrite X in D; discriminate]. exists w. split; [reflexivity|]. apply (proj2 X) in D. exact D.
Qed.
Print Assumptions C48_restart_is_due.

(** ** The hypotheses are met *)
Fixpoint calm (pre : list event) (m : bool) (l : list event) : bool :=
  match l with
  | [] => true
  | e :: l' =>
      match e with ELook r t => negb m || match due r pre with Some w => Nat.ltb t w | None => true end | _ => true end &&
      calm (pre ++ [e]) (match e with EPick _ _ => false | EStart _ _ _ | EStop _ | ERestart _ _ => true | _ => m end) l'
  end.
Lemma calm_after pre m l1 l2 : calm pre m (l1 ++ l2) = true -> exists m', calm (pre ++ l1) m' l2 = true.
Proof.
  revert pre m. induction l1 as [|e l1 IH]; intros pre m C; [exists m; rewrite app_nil_r; exact C|]. cbn in C. apply andb_true_iff in C as [_ C]. destruct (IH _ _ C) as (m' & X). exists m'. rewrite <- app_assoc in X. exact X.
Qed.
Lemma calm_mode pre m b l2 : calm pre m (b ++ l2) = true -> (forall e, In e b -> ~ is_pick e) -> exists m', calm (pre ++ b) m' l2 = true /\ (m' = false -> m = false /\ forall e, In e b -> ~ is_op e).
Proof.
  revert pre m. induction b as [|e b IH]; intros pre m C N; [exists m; rewrite app_nil_r; split; [exact C|]; intros ->; split; [reflexivity|intros e []]|].
  cbn in C. apply andb_true_iff in C as [_ C]. destruct (IH _ _ C) as (m' & X & Y); [intros e' Z; apply N; right; exact Z|]. rewrite <- app_assoc in X. exists m'. split; [exact X|]. intros F. destruct (Y F) as [Y1 Y2]. specialize (N e (or_introl eq_refl)).
  destruct e; cbn in *; try discriminate; try (exfalso; apply N; exact Logic.I); (split; [exact Y1|]); intros e' [<-|Z]; cbn; auto.
Qed.
Lemma calm_punctual l : calm [] false l = true -> punctual l.
Proof.
  intros C a r w b t c w' E N D L. subst l. apply calm_after in C as (m & C). cbn in C. destruct (calm_mode _ _ b (ELook r t :: c) C N) as (m' & X & Y). destruct m'; [|left; apply Y; reflexivity].
  exfalso. cbn in X. apply andb_true_iff in X as [X _]. replace ((a ++ [EPick r w]) ++ b) with (a ++ EPick r w :: b) in X by (rewrite <- app_assoc; reflexivity). rewrite D in X. apply Nat.ltb_lt in X. lia.
Qed.
Fixpoint used_well (pre : list event) (l : list event) : bool :=
  match l with
  | [] => true
  | e :: l' => match e with EForeign _ => false | ERestart r _ => match due r pre with Some _ => true | None => false end | _ => true end && used_well (pre ++ [e]) l'
  end.
Lemma used_well_spec pre l : used_well pre l = true -> own_thread l /\ forall a r t b, l = a ++ ERestart r t :: b -> due r (pre ++ a) <> None.
Proof.
  revert pre. induction l as [|e l IH]; intros pre U; [split; [intros r []|intros a r t b E; destruct a; discriminate]|]. cbn in U. apply andb_true_iff in U as [U1 U2]. destruct (IH _ U2) as [A B]. split.
  - intros r [X|X]; [subst e; discriminate|exact (A r X)].
  - intros a r t b E. destruct a as [|x a]; cbn in E; injection E as -> E; [rewrite app_nil_r; destruct (due r pre); [discriminate|discriminate U1]|]. specialize (B a r t b E). rewrite <- app_assoc in B. exact B.
Qed.
Lemma used_well_restarts l : used_well [] l = true -> own_thread l /\ restarts_running l.
Proof. intros U. destruct (used_well_spec [] l U) as [A B]. split; [exact A|exact B]. Qed.

Definition aboutb (r : nat) (e : event) : bool := match e with EStart q _ _ | EStop q | EForeign q | ERestart q _ | ECyclic q _ => Nat.eqb q r | _ => false end.
Lemma about_dec r l : forallb (fun e => negb (aboutb r e)) l = true -> forall e, In e l -> ~ about r e.
Proof. intros H e X A. rewrite forallb_forall in H. specialize (H e X). destruct e; cbn in *; try contradiction; subst; rewrite Nat.eqb_refl in H; discriminate. Qed.
Lemma quiet_dec r l : forallb (fun e => negb (aboutb r e) && negb (fires r e)) l = true -> forall e, In e l -> ~ about r e /\ fires r e = false.
Proof. intros H e X. rewrite forallb_forall in H. pose proof (H e X) as Y. apply andb_true_iff in Y as [Y Z]. split; [|destruct (fires r e); [discriminate|reflexivity]]. apply (about_dec r [e]); [cbn; rewrite Y; reflexivity|left; reflexivity]. Qed.
Lemma not_in_dec (f : event -> bool) l e : forallb (fun x => negb (f x)) l = true -> f e = true -> ~ In e l.
Proof. intros H F X. rewrite forallb_forall in H. specialize (H e X). rewrite F in H. discriminate. Qed.
Lemma in_dec_b (f : event -> bool) l e : (forall x, f x = true -> x = e) -> existsb f l = true -> In e l.
Proof. intros H X. apply existsb_exists in X as (x & X & Y). apply H in Y. subst x. exact X. Qed.

(** Timer 0 is one-shot, due after 10; timer 1 is cyclic, every 4.  A task started while the processor waits starts timer 2 and restarts timer 0 after 5. *)
Definition h46 : history :=
  [Cyclic 1 true; Post; Step 0; U (Start 0 10) 0; U (Start 1 4) 0; U Return 0; Step 0; Step 0; Tick 4; Step 0; Step 0; Step 0; U Return 0; Step 0; Tick 1; Post; Step 0; U (Start 2 1) 0; U (Restart 0) 0; U Return 0;
   Step 0; Step 0; Step 0; Tick 1; Step 0; Step 0; U Return 0; Step 0; Step 0; Step 0; Step 0; Step 0].
Example C46_applies : trace h46 = [ECyclic 1 true; EExec; EStart 0 0 10; EStart 1 0 4; EPick 1 4; ELook 1 4; EFire 1 4; EPick 1 8; EExec; EStart 2 5 1; ERestart 0 5; ELook 1 5; EPick 2 6; ELook 2 6; EFire 2 6; EPick 1 8; ELook 1 6; EPick 1 8] /\
  own_thread (trace h46) /\ restarts_running (trace h46) /\ punctual (trace h46) /\ asleep (final h46) (Some 8) /\ due 0 (trace h46) = Some 15 /\ due 1 (trace h46) = Some 8 /\ due 2 (trace h46) = None.
Proof.
  split; [vm_compute; reflexivity|]. destruct (used_well_restarts (trace h46)) as [A B]; [vm_compute; reflexivity|]. split; [exact A|]. split; [exact B|]. split; [apply calm_punctual; vm_compute; reflexivity|].
  split; [split; [vm_compute; reflexivity|]; split; [vm_compute; reflexivity|]; exists 1; vm_compute; reflexivity|]. repeat match goal with |- _ /\ _ => split end; vm_compute; reflexivity.
Qed.
(** Here the cyclic timer 1 has fired once, and timer 0 was restarted. *)
Example C47_applies : exists a b, trace h46 = a ++ EStart 1 0 4 :: b /\ again (plan_of 1 a) = true /\ (forall e, In e b -> ~ about 1 e) /\ cnt (fires 1) b = 1.
Proof.
  exists [ECyclic 1 true; EExec; EStart 0 0 10], (skipn 4 (trace h46)). repeat match goal with |- _ /\ _ => split end; try (vm_compute; reflexivity).
  apply about_dec. vm_compute. reflexivity.
Qed.
Example C48_applies : exists a b, trace h46 = a ++ ERestart 0 5 :: b /\ interval 0 a = 10 /\ forall e, In e b -> ~ about 0 e /\ fires 0 e = false.
Proof.
  exists (firstn 10 (trace h46)), (skipn 11 (trace h46)). repeat match goal with |- _ /\ _ => split end; try (vm_compute; reflexivity).
  apply quiet_dec. vm_compute. reflexivity.
Qed.

(** ** C72: an overrun.  While the processor waits for timer 0 (due at 10) a task starts timer 1 (due at 1) and returns at 20: timer 0 fires,
    but timer 1 is removed instead of it.  It never fires, and the processor never executes anything again. *)
Definition h72 : history := [Post; Step 0; U (Start 0 10) 0; U Return 0; Step 0; Step 0; Post; Step 0; U (Start 1 1) 0; Tick 20; U Return 0; Step 0; U Return 0].
Theorem C72_timer_lost_and_processor_hung_refuted : exists h, own_thread (trace h) /\ restarts_running (trace h) /\ closed (final h) = false /\ due 1 (trace h) = Some 1 /\ now (final h) = 20 /\
  forall h', ~ In StopProc h' -> exists new, trace (h ++ h') = trace h ++ new /\ forall e, In e new -> match e with EFire _ _ | EExec => False | _ => True end.
Proof.
  exists h72. destruct (used_well_restarts (trace h72)) as [A B]; [vm_compute; reflexivity|]. split; [exact A|]. split; [exact B|]. split; [vm_compute; reflexivity|]. split; [vm_compute; reflexivity|]. split; [vm_compute; reflexivity|].
  intros h' N. apply (spins_forever h72 0 h'); [|exact N]. split; try (vm_compute; reflexivity); [exists []; vm_compute; reflexivity|apply Nat.leb_le; vm_compute; reflexivity|left; vm_compute; reflexivity].
Qed.
Print Assumptions C72_timer_lost_and_processor_hung_refuted.
(** If timer 0 is cyclic, it fires twice for the same period. *)
Theorem C72_fires_early_refuted : exists h a t b w, own_thread (trace h) /\ restarts_running (trace h) /\ trace h = a ++ EFire 0 t :: b /\ due 0 a = Some w /\ t < w.
Proof.
  set (h := [Cyclic 0 true; Post; Step 0; U (Start 0 10) 0; U Return 0; Step 0; Step 0; Post; Step 0; U (Start 1 1) 0; Tick 15; U Return 0; Step 0; U Return 0; Step 0; Step 0; U Return 0; Step 0; Step 0]).
  exists h, (removelast (trace h)), 15, [], 20. destruct (used_well_restarts (trace h)) as [A B]; [vm_compute; reflexivity|]. split; [exact A|]. split; [exact B|]. split; [vm_compute; reflexivity|]. split; [vm_compute; reflexivity|lia].
Qed.
Print Assumptions C72_fires_early_refuted.

(** ** C73: a timer stopped, or destroyed, on another thread. *)
Theorem C73_stopped_elsewhere_refuted : exists h, restarts_running (trace h) /\ punctual (trace h) /\ closed (final h) = false /\ In (EForeign 0) (trace h) /\
  forall h', ~ In StopProc h' -> exists new, trace (h ++ h') = trace h ++ new /\ forall e, In e new -> match e with EFire _ _ | EExec => False | _ => True end.
Proof.
  set (h := [Post; Step 0; U (Start 0 10) 0; U Return 0; Step 0; Step 0; Foreign 0; Tick 20; Step 0; Step 0]). exists h. split; [intros a r t b E; exfalso; apply (not_in_dec (fun e => match e with ERestart _ _ => true | _ => false end) (trace h) (ERestart r t)); [vm_compute; reflexivity|reflexivity|rewrite E; apply in_or_app; right; left; reflexivity]|].
  split; [apply calm_punctual; vm_compute; reflexivity|]. split; [vm_compute; reflexivity|]. split; [apply (in_dec_b (fun e => match e with EForeign 0 => true | _ => false end)); [intros [| |[|q]| | | | | | | |]; cbn; intros Q; try discriminate Q; reflexivity|vm_compute; reflexivity]|].
  intros h' N. apply (spins_forever h 0 h'); [|exact N]. split; try (vm_compute; reflexivity); [exists []; vm_compute; reflexivity|apply Nat.leb_le; vm_compute; reflexivity|left; vm_compute; reflexivity].
Qed.
Print Assumptions C73_stopped_elsewhere_refuted.
(** It stays silent all the same. *)
Theorem C73_silent_partial h a r b t c : trace h = a ++ EForeign r :: b ++ EFire r t :: c -> (exists t' d, In (EStart r t' d) b) \/ exists t', In (ERestart r t') b.
Proof.
  intros E. assert (D : due r (a ++ EForeign r :: b) <> None) by (apply (fires_running h _ r t c); rewrite E, <- app_assoc; reflexivity).
  destruct (existsb (fun e => match e with EStart q _ _ | ERestart q _ => Nat.eqb q r | _ => false end) b) eqn:X.
  - apply existsb_exists in X as (e & X & Y). destruct e; try discriminate; apply Nat.eqb_eq in Y; subst r0; eauto.
  - exfalso. apply D. unfold due. rewrite plan_app. cbn. rewrite Nat.eqb_refl. apply due_none_stays; [reflexivity| |]; intros; intros Y; assert (Z : existsb (fun e => match e with EStart q _ _ | ERestart q _ => Nat.eqb q r | _ => false end) b = true) by (apply existsb_exists; eexists; split; [exact Y|apply Nat.eqb_refl]); congruence.
Qed.
Print Assumptions C73_silent_partial.

(** ** C74: restart() of a timer that is not running.  One-shot timer 0 is restarted by its own callback while timer 1 runs: running() is true,
    but it never fires again, even if it is started again, unless it is stopped first. *)
Theorem C74_restarted_timer_is_dead_refuted : exists h, own_thread (trace h) /\ punctual (trace h) /\ running (dat (final h) 0) = true /\ due 0 (trace h) = Some 20 /\ closed (final h) = false /\
  forall h', (forall l, In l h' -> match l with Foreign 0 | U (Stop 0) _ => False | _ => True end) -> exists new, trace (h ++ h') = trace h ++ new /\ forall t, ~ In (EFire 0 t) new.
Proof.
  set (h := [Post; Step 0; U (Start 0 10) 0; U (Start 1 50) 0; U Return 0; Step 0; Step 0; Tick 10; Step 0; Step 0; Step 0; U (Restart 0) 0; U Return 0]). exists h.
  split; [intros r; apply (not_in_dec (fun e => match e with EForeign _ => true | _ => false end)); [vm_compute; reflexivity|reflexivity]|]. split; [apply calm_punctual; vm_compute; reflexivity|]. split; [vm_compute; reflexivity|]. split; [vm_compute; reflexivity|]. split; [vm_compute; reflexivity|].
  intros h' N. apply (ghost_forever h 0 h').
  - split; [vm_compute; reflexivity| |assert (PE : pc (final h) = PLoop) by (vm_compute; reflexivity); rewrite PE; exact Logic.I]. assert (RE : records (final h) = [1]) by (vm_compute; reflexivity). rewrite RE. intros [X|[]]. discriminate.
  - intros l X S. specialize (N l X). destruct l as [| | |[|q]| | |[| [|q]| |] k]; cbn in S; try contradiction; discriminate.
Qed.
Print Assumptions C74_restarted_timer_is_dead_refuted.
(** If no timer runs, it asks for the front of nothing. *)
Theorem C74_restart_of_the_only_timer_refuted : exists h, own_thread (trace h) /\ punctual (trace h) /\ In EBad (trace h).
Proof.
  set (h := [Post; Step 0; U (Start 0 10) 0; U Return 0; Step 0; Step 0; Tick 10; Step 0; Step 0; U (Restart 0) 0]). exists h.
  split; [intros r; apply (not_in_dec (fun e => match e with EForeign _ => true | _ => false end)); [vm_compute; reflexivity|reflexivity]|]. split; [apply calm_punctual; vm_compute; reflexivity|]. apply (in_dec_b (fun e => match e with EBad => true | _ => false end)); [intros []; cbn; intros Q; try discriminate Q; reflexivity|vm_compute; reflexivity].
Qed.
Print Assumptions C74_restart_of_the_only_timer_refuted.

(** ** C75: a timer started by its own callback: the callback is destroyed while it runs. *)
Theorem C75_started_by_its_callback_refuted : exists h, own_thread (trace h) /\ restarts_running (trace h) /\ punctual (trace h) /\ In (EDead 0) (trace h).
Proof.
  set (h := [Post; Step 0; U (Start 0 10) 0; U Return 0; Step 0; Step 0; Tick 10; Step 0; Step 0; U (Start 0 5) 0]). exists h. destruct (used_well_restarts (trace h)) as [A B]; [vm_compute; reflexivity|]. split; [exact A|]. split; [exact B|]. split; [apply calm_punctual; vm_compute; reflexivity|]. apply (in_dec_b (fun e => match e with EDead 0 => true | _ => false end)); [intros [| | | | | | | | |[|q]|]; cbn; intros Q; try discriminate Q; reflexivity|vm_compute; reflexivity].
Qed.
Print Assumptions C75_started_by_its_callback_refuted.
