(** AsyncProcessor: the steps as a relation; the invariants. *)
From Verif Require Import ListUtil AsyncModel AsyncSpec.

Lemma run_app s h1 h2 : run s (h1 ++ h2) = let (s1, e1) := run s h1 in let (s2, e2) := run s1 h2 in (s2, e1 ++ e2).
Proof.
  revert s. induction h1 as [|l h1 IH]; intro s; cbn [run app].
  - destruct (run s h2); reflexivity.
  - destruct (step s l) as [s1 e1]. rewrite IH. destruct (run s1 h1) as [s2 e2]. destruct (run s2 h2) as [s3 e3].
    rewrite app_assoc. reflexivity.
Qed.
Lemma final_snoc h l : final (h ++ [l]) = fst (step (final h) l).
Proof. unfold final. rewrite run_app. destruct (run st_new h) as [s e]. cbn [run fst]. destruct (step s l). reflexivity. Qed.
Lemma trace_snoc h l : trace (h ++ [l]) = trace h ++ snd (step (final h) l).
Proof.
  unfold trace, final. rewrite run_app. destruct (run st_new h) as [s e]. cbn [run fst snd]. destruct (step s l).
  cbn [snd]. rewrite app_nil_r. reflexivity.
Qed.
Lemma app_split {A} (tr ev l1 l2 : list A) e : tr ++ ev = l1 ++ e :: l2 ->
  (exists l2', tr = l1 ++ e :: l2') \/ (exists l3, l1 = tr ++ l3 /\ ev = l3 ++ e :: l2).
Proof.
  revert l1. induction tr as [|x tr IH]; intros l1 H; cbn in H.
  - right. exists l1. auto.
  - destruct l1 as [|y l1]; cbn in H; injection H as Hx H.
    + subst. left. exists tr. reflexivity.
    + subst y. apply IH in H as [[l2' ->]|[l3 [-> ->]]]; [left; exists l2'; reflexivity|right; exists l3; auto].
Qed.
Lemma one_eq {A} (y : A) l3 x l4 : [y] = l3 ++ x :: l4 -> l3 = [] /\ x = y.
Proof. destruct l3 as [|z l3]; cbn; intro H; inversion H; subst; [auto|destruct l3; discriminate]. Qed.
Lemma two_eq {A} (y z : A) l3 x l4 : [y; z] = l3 ++ x :: l4 -> (l3 = [] /\ x = y) \/ (l3 = [y] /\ x = z).
Proof.
  destruct l3 as [|u l3]; cbn; intro H; inversion H; subst; [auto|]. right. apply one_eq in H2 as [-> ->]. auto.
Qed.

(** What a worker does by itself. *)
Inductive wmove (w : nat) : bool -> wpc -> wpc -> list event -> Prop :=
| WInit c : wmove w c WStart WLook [EInit w]
| WTake : wmove w false WLook WBusy [ETake w]
| WEmpty : wmove w false WLook WPre []
| WStop : wmove w true WLook (WEnd false) [EDeinit w]
| WFall c : wmove w c WPre WSleep []
| WWake c : wmove w c WSleep WLook []
| WNext c : wmove w c WBusy WLook [EDone w false]
| WThrow c : wmove w c WBusy (WEnd true) [EDone w true; EDeinit w].
(** The call has nothing (more) to do. *)
Definition waits_untimed (c : call) (o : nat) : Prop := c = CWait o false \/ c = CStopWait o false \/ c = CDestroy o.
Definition waits (c : call) (o : nat) (dies : bool) : Prop :=
  if dies then c = CDestroy o else (exists b, c = CWait o b \/ c = CStopWait o b).
Inductive fin_ok (s : st) (a : agent) : result -> Prop :=
| FStop p : a_pc a = PStart -> a_call a = CStop p -> fin_ok s a RUnit
| FLaunch o : a_pc a = PStart -> a_call a = CLaunch o -> fin_ok s a RUnit
| FRunning o x : a_pc a = PStart -> a_call a = CRunning o -> nth_error (objs s) o = Some x ->
    fin_ok s a (RBool (match o_sig x with Some _ => true | None => false end))
| FWait o b x : a_pc a = PStart -> a_call a = CWait o b -> nth_error (objs s) o = Some x -> o_sig x = None -> fin_ok s a RUnit
| FTime o w : a_pc a = PBlock w -> a_call a = CWait o true \/ a_call a = CStopWait o true -> fin_ok s a RUnit
| FJoin o o2 w k threw : a_pc a = PJoin w -> a_call a = CAssign o o2 -> nth_error (workers s) w = Some k -> w_pc k = WEnd threw -> fin_ok s a RUnit.
Definition ag (s : st) (t : nat) (a : agent) (p : pc) : list agent := set_nth t (Ag (a_call a) (a_on a) p) (ags s).

Inductive pstep (s : st) : label -> st -> list event -> Prop :=
| XIdle l : pstep s l s []
| XProc : pstep s LProc (St (closed s ++ [false]) (workers s) (objs s) (ags s)) []
| XObj p : p < length (closed s) -> pstep s (LObj p) (St (closed s) (workers s) (objs s ++ [Ob (Some p) None false]) (ags s)) [EObj (length (objs s)) p]
| XCall c on : may_call s c on = true -> pstep s (LCall c on) (St (closed s) (workers s) (objs s) (ags s ++ [Ag c on PStart])) [ECall (length (ags s)) c]
| XFin t a r b : nth_error (ags s) t = Some a -> fin_ok s a r -> pstep s (LStep t b) (St (closed s) (workers s) (objs s) (ag s t a PDone)) [ERet t r]
| XReuse t a p b : nth_error (ags s) t = Some a -> a_pc a = PStart -> a_call a = CReuse p ->
    pstep s (LStep t b) (St (set_nth p false (closed s)) (workers s) (objs s) (ag s t a PDone)) [EReuse p; ERet t RUnit]
| XStop t a p b : nth_error (ags s) t = Some a -> a_pc a = PStart -> a_call a = CStop p -> nth_error (closed s) p = Some false ->
    pstep s (LStep t b) (St (set_nth p true (closed s)) (map (woken p) (workers s)) (objs s) (ag s t a PDone)) [EStop p; ERet t RUnit]
| XStopW t a o x w p d b : nth_error (ags s) t = Some a -> a_pc a = PStart -> waits (a_call a) o d -> nth_error (objs s) o = Some x ->
    o_sig x = Some w -> o_proc x = Some p -> nth_error (closed s) p = Some false ->
    pstep s (LStep t b) (St (set_nth p true (closed s)) (map (woken p) (workers s)) (objs s) (ag s t a (PBlock w))) [EStop p]
| XBlock t a o x w d b : nth_error (ags s) t = Some a -> a_pc a = PStart -> waits (a_call a) o d -> nth_error (objs s) o = Some x ->
    o_sig x = Some w -> pstep s (LStep t b) (St (closed s) (workers s) (objs s) (ag s t a (PBlock w))) []
| XNone t a o x d b : nth_error (ags s) t = Some a -> a_pc a = PStart -> waits (a_call a) o d -> nth_error (objs s) o = Some x ->
    o_sig x = None \/ o_proc x = None ->
    pstep s (LStep t b) (St (closed s) (workers s) (set_nth o (dead_now x d) (objs s)) (ag s t a PDone)) [ERet t RUnit]
| XLaunch t a o x p b : nth_error (ags s) t = Some a -> a_pc a = PStart -> a_call a = CLaunch o -> nth_error (objs s) o = Some x ->
    o_sig x = None -> o_proc x = Some p ->
    pstep s (LStep t b) (St (closed s) (workers s ++ [Wk p WStart]) (set_nth o (Ob (Some p) (Some (length (workers s))) (o_dead x)) (objs s)) (ag s t a PDone))
      [ELaunch t o (length (workers s)) p; ERet t RUnit]
| XCollect t a o x w k threw d b : nth_error (ags s) t = Some a -> a_pc a = PBlock w -> waits (a_call a) o d -> nth_error (objs s) o = Some x ->
    nth_error (workers s) w = Some k -> w_pc k = WEnd threw ->
    pstep s (LStep t b) (St (closed s) (workers s) (set_nth o (Ob (o_proc x) None d) (objs s)) (ag s t a PDone))
      [ECollect t o w; ERet t (if threw then RThrew else RUnit)]
| XTerm t a o w k b : nth_error (ags s) t = Some a -> a_pc a = PBlock w -> a_call a = CDestroy o -> nth_error (workers s) w = Some k ->
    w_pc k = WEnd true -> pstep s (LStep t b) s [ETerminate]
| XMove t a o o2 x y b : nth_error (ags s) t = Some a -> a_pc a = PStart -> a_call a = CAssign o o2 -> nth_error (objs s) o = Some x ->
    nth_error (objs s) o2 = Some y ->
    pstep s (LStep t b) (St (closed s) (workers s) (set_nth o2 (Ob None None false) (set_nth o (Ob (o_proc y) (o_sig y) false) (objs s)))
       (ag s t a (match o_sig x with Some w => PJoin w | None => PDone end)))
      (EMoved t o o2 :: match o_sig x with Some _ => [] | None => [ERet t RUnit] end)
| XWork l w p c q q' ev : nth_error (workers s) w = Some (Wk p q) -> (nth_error (closed s) p = Some c \/ q = WStart \/ q = WPre \/ q = WSleep \/ q = WBusy) ->
    wmove w c q q' ev -> (q = WBusy -> calls_on s w = false) -> (q = WSleep -> l = LWake w) -> (q' = WEnd true -> l = LDone w true) ->
    pstep s l (St (closed s) (set_nth w (Wk p q') (workers s)) (objs s) (ags s)) ev.

Lemma stop_wait_pstep s t a o x d b : nth_error (ags s) t = Some a -> a_pc a = PStart -> waits (a_call a) o d -> nth_error (objs s) o = Some x ->
  pstep s (LStep t b) (fst (stop_wait s t a o x d)) (snd (stop_wait s t a o x d)).
Proof.
  intros Ha Hp Hc Ho. unfold stop_wait. destruct (o_sig x) as [w|] eqn:S1.
  - destruct (o_proc x) as [p|] eqn:P; [|exact (XNone s t a o x d b Ha Hp Hc Ho (or_intror P))].
    unfold stop. destruct (nth_error (closed s) p) as [[]|] eqn:C; cbn [fst snd]; [exact (XBlock s t a o x w d b Ha Hp Hc Ho S1)|exact (XStopW s t a o x w p d b Ha Hp Hc Ho S1 P C)|exact (XBlock s t a o x w d b Ha Hp Hc Ho S1)].
  - exact (XNone s t a o x d b Ha Hp Hc Ho (or_introl S1)).
Qed.
Lemma wait_pstep s t a o w timed b d : nth_error (ags s) t = Some a -> a_pc a = PBlock w -> waits (a_call a) o d ->
  (timed = true -> a_call a = CWait o true \/ a_call a = CStopWait o true) ->
  pstep s (LStep t b) (fst (wait_step s t a o w timed b d)) (snd (wait_step s t a o w timed b d)).
Proof.
  intros Ha Hp Hc Ht. unfold wait_step. destruct (nth_error (workers s) w) as [k|] eqn:K; [|apply XIdle].
  destruct (nth_error (objs s) o) as [x|] eqn:O; [|apply XIdle].
  assert (T : pstep s (LStep t b) (fst (if timed && b then finish s t a RUnit else (s, []))) (snd (if timed && b then finish s t a RUnit else (s, [])))).
  { destruct (timed && b) eqn:B; [|apply XIdle]. apply andb_true_iff in B as [-> _]. apply XFin; [exact Ha|]. eapply FTime; eauto. }
  destruct (w_pc k) as [| | | | |threw] eqn:W; try exact T.
  destruct threw, d; cbn [andb fst snd].
  - eapply XTerm; eauto.
  - apply (XCollect s t a o x w k true false b); auto.
  - apply (XCollect s t a o x w k false true b); auto.
  - apply (XCollect s t a o x w k false false b); auto.
Qed.
Lemma step_pstep s l : pstep s l (fst (step s l)) (snd (step s l)).
Proof.
  destruct l as [|p|c on|t b|w|w|w|w|w|w|w threw]; cbn [step].
  - apply XProc.
  - destruct (Nat.ltb_spec p (length (closed s))); [apply XObj; assumption|apply XIdle].
  - destruct (may_call s c on) eqn:E; [apply XCall; exact E|apply XIdle].
  - destruct (nth_error (ags s) t) as [a|] eqn:Ha; [|apply XIdle].
    destruct (a_pc a) as [|w|w|] eqn:P; destruct (a_call a) as [o|o tm|o tm|o|o|o o2|p|p] eqn:C; try apply XIdle.
    + destruct (nth_error (objs s) o) as [x|] eqn:O; [|apply XIdle].
      destruct (o_proc x) as [p|] eqn:OP; [|apply XFin; [exact Ha|eapply FLaunch; eauto]].
      destruct (o_sig x) eqn:OS; [apply XFin; [exact Ha|eapply FLaunch; eauto]|]. exact (XLaunch s t a o x p b Ha P C O OS OP).
    + destruct (nth_error (objs s) o) as [x|] eqn:O; [|apply XIdle]. destruct (o_sig x) as [w|] eqn:OS.
      * assert (W : waits (a_call a) o false) by (cbn; eauto). exact (XBlock s t a o x w false b Ha P W O OS).
      * apply XFin; [exact Ha|]. eapply FWait; eauto.
    + destruct (nth_error (objs s) o) as [x|] eqn:O; [|apply XIdle]. apply stop_wait_pstep; auto. cbn. eauto.
    + destruct (nth_error (objs s) o) as [x|] eqn:O; [|apply XIdle]. apply stop_wait_pstep; auto.
    + destruct (nth_error (objs s) o) as [x|] eqn:O; [|apply XIdle]. apply XFin; [exact Ha|]. eapply FRunning; eauto.
    + destruct (nth_error (objs s) o) as [x|] eqn:O; [|apply XIdle]. destruct (nth_error (objs s) o2) as [y|] eqn:O2; [|apply XIdle].
      assert (K := XMove s t a o o2 x y b Ha P C O O2). destruct (o_sig x); exact K.
    + unfold stop. destruct (nth_error (closed s) p) as [[]|] eqn:K; cbn [fst snd app].
      * apply XFin; [exact Ha|eapply FStop; eauto].
      * exact (XStop s t a p b Ha P C K).
      * apply XFin; [exact Ha|eapply FStop; eauto].
    + exact (XReuse s t a p b Ha P C).
    + apply wait_pstep; auto; [cbn; eauto|]. intros ->; auto.
    + apply wait_pstep; auto; [cbn; eauto|]. intros ->; auto.
    + apply wait_pstep; auto; discriminate.
    + destruct (nth_error (workers s) w) as [[p q]|] eqn:K; [|apply XIdle]. destruct q; try apply XIdle.
      apply XFin; [exact Ha|]. eapply FJoin; eauto. reflexivity.
  - destruct (nth_error (workers s) w) as [[p []]|] eqn:K; try apply XIdle. apply (XWork s (LInit w) w p false WStart WLook); auto; try discriminate. constructor.
  - destruct (nth_error (workers s) w) as [[p []]|] eqn:K; try apply XIdle. destruct (nth_error (closed s) p) as [[]|] eqn:C; try apply XIdle.
    apply (XWork s (LTake w) w p false WLook WBusy); auto; try discriminate. constructor.
  - destruct (nth_error (workers s) w) as [[p []]|] eqn:K; try apply XIdle. destruct (nth_error (closed s) p) as [[]|] eqn:C; try apply XIdle.
    apply (XWork s (LEmpty w) w p false WLook WPre); auto; try discriminate. constructor.
  - destruct (nth_error (workers s) w) as [[p []]|] eqn:K; try apply XIdle. destruct (nth_error (closed s) p) as [[]|] eqn:C; try apply XIdle.
    apply (XWork s (LEnd w) w p true WLook (WEnd false)); auto; try discriminate. constructor.
  - destruct (nth_error (workers s) w) as [[p []]|] eqn:K; try apply XIdle. apply (XWork s (LSleep w) w p false WPre WSleep); auto; try discriminate. constructor.
  - destruct (nth_error (workers s) w) as [[p []]|] eqn:K; try apply XIdle. apply (XWork s (LWake w) w p false WSleep WLook); auto; try discriminate. constructor.
  - destruct (nth_error (workers s) w) as [[p []]|] eqn:K; try apply XIdle. destruct (calls_on s w) eqn:C; [apply XIdle|]. destruct threw.
    + apply (XWork s (LDone w true) w p false WBusy (WEnd true)); auto 6; try discriminate. constructor.
    + apply (XWork s (LDone w false) w p false WBusy WLook); auto 6; try discriminate. constructor.
Qed.

Lemma history_ind (P : st -> list event -> Prop) :
  P st_new [] ->
  (forall h l s' ev, P (final h) (trace h) -> pstep (final h) l s' ev -> P s' (trace h ++ ev)) ->
  forall h, P (final h) (trace h).
Proof.
  intros H0 HS h. induction h as [|l h IH] using rev_ind; [exact H0|].
  rewrite trace_snoc, final_snoc. eapply HS; [exact IH|apply step_pstep].
Qed.
Lemma hist_pos (P : list event -> event -> Prop) :
  (forall h l s' ev, pstep (final h) l s' ev -> forall l3 x l4, ev = l3 ++ x :: l4 -> P (trace h ++ l3) x) ->
  forall h l1 x l2, trace h = l1 ++ x :: l2 -> P l1 x.
Proof.
  intro H. apply (history_ind (fun _ tr => forall l1 x l2, tr = l1 ++ x :: l2 -> P l1 x)).
  - intros [|] ? ? E; discriminate.
  - intros h l s' ev IH Hp l1 x l2 E. apply app_split in E as [[l2' E]|[l3 [-> E]]]; [eauto|]. eapply H; eauto.
Qed.
