(** Properties of AsyncProcessor, the object that runs a processor on a thread of its own (C131, C132). *)
From Verif Require Import ListUtil AsyncModel AsyncSpec AsyncProofs AsyncProofs2 AsyncProofs3 AsyncProofs4 AsyncProofs5 AsyncProofs6 AsyncProofs7.

(** For literal traces. *)
Local Ltac is_in := cbn [In]; repeat (first [left; reflexivity | right]).
Local Ltac not_in := let H := fresh in intro H; cbn [In] in H; repeat (destruct H as [H|H]; [discriminate H|]); exact H.

(** ** C131 *)
(** Only launch() starts a thread, only for an object that does not hold one, and always a new one. *)
Theorem C131_launch h l t o w p l' : trace h = l ++ ELaunch t o w p :: l' ->
  called l t (CLaunch o) /\ holds o l = None /\ (forall t' o' p', ~ In (ELaunch t' o' w p') l).
Proof.
  intro E. destruct (before_ok _ _ _ _ E) as (H & K & Z). split; [exact H|]. split; [exact K|]. intros t' o' p' X.
  eapply (cnt_in (is_launch w)); [|exact Z|exact X]. cbn. apply Nat.eqb_refl.
Qed.
Print Assumptions C131_launch.
(** The thread calls threadInit first and threadDeinit last, each at most once, and runs executions only in between and only while its
    processor is open. *)
Theorem C131_run_order h l x l' w : trace h = l ++ x :: l' ->
  (x = EInit w -> (exists p, runs l w p) /\ ~ In (EInit w) l /\ ~ In (EDeinit w) l) /\
  (x = ETake w -> In (EInit w) l /\ ~ In (EDeinit w) l /\ exists p, runs l w p /\ stopped p l = false) /\
  (x = EDeinit w -> In (EInit w) l /\ ~ In (EDeinit w) l).
Proof.
  intro E. assert (B := before_ok _ _ _ _ E). destruct (inv_final h) as [_ _ W].
  assert (One : forall (f : event -> bool) y, f y = true -> x = y -> cnt f (trace h) <= 1 -> ~ In y l).
  { intros f y Hf Hx Hc X. subst x. rewrite E, cnt_app, cnt_cons, Hf in Hc. cbn [b2n] in Hc. revert X. apply (cnt_in f); [exact Hf|lia]. }
  assert (H1 : cnt (is_init w) (trace h) <= 1) by (rewrite (k_init _ _ W); unfold inits; destruct (nth_error _ w) as [[? []]|]; lia).
  assert (H2 : cnt (is_deinit w) (trace h) <= 1) by (rewrite (k_deinit _ _ W); unfold deinits; destruct (nth_error _ w) as [[? []]|]; lia).
  assert (O1 := One (is_init w) (EInit w) (Nat.eqb_refl w)). assert (O2 := One (is_deinit w) (EDeinit w) (Nat.eqb_refl w)).
  split; [|split]; intro X.
  - split; [subst x; apply B|]. split; [auto|subst x; apply B].
  - subst x. exact B.
  - split; [subst x; apply B|auto].
Qed.
Print Assumptions C131_run_order.
(** It ends only when it finds its processor stopped, or when an execution has just thrown. *)
Theorem C131_ends_only_if_stopped h l w l' : trace h = l ++ EDeinit w :: l' ->
  (exists p, runs l w p /\ stopped p l = true) \/ exists l0, l = l0 ++ [EDone w true].
Proof. intro E. apply (before_ok _ _ _ _ E). Qed.
Print Assumptions C131_ends_only_if_stopped.
(** running() says whether the object holds a thread whose outcome it has not collected. *)
Theorem C131_running_exact h l t o b l' : trace h = l ++ ERet t (RBool b) :: l' -> called l t (CRunning o) ->
  b = match holds o l with Some _ => true | None => false end.
Proof.
  intros E Hc. destruct (before_ok _ _ _ _ E) as (c & Hc' & _ & K).
  assert (c = CRunning o).
  { destruct (inv_final h) as [C _ _]. assert (G : forall c', called l t c' -> called (trace h) t c') by (intros c' X; rewrite E; apply called_more; exact X).
    apply G in Hc, Hc'. apply (g_call _ _ C) in Hc as (a1 & A1 & <-). apply (g_call _ _ C) in Hc' as (a2 & A2 & <-). congruence. }
  subst c. cbn in K. congruence.
Qed.
Print Assumptions C131_running_exact.
(** The outcome of a thread is collected by a wait on the object that holds it, and only after the thread has ended: threadDeinit has been called. *)
Theorem C131_wait_means_ended h l t o w l' : trace h = l ++ ECollect t o w :: l' ->
  holds o l = Some w /\ In (EDeinit w) l /\ exists d c, called l t c /\ waits c o d.
Proof. intro E. apply (before_ok _ _ _ _ E). Qed.
Print Assumptions C131_wait_means_ended.
(** When wait() or stopAndWait() without a duration, or the destructor, has returned, the object holds no thread. *)
Theorem C131_nothing_left h l t r o c l' : trace h = l ++ ERet t r :: l' -> called l t c -> waits_untimed c o -> holds o l = None.
Proof.
  intros E Hc Hw. destruct (before_ok _ _ _ _ E) as (c' & Hc' & _ & K).
  assert (c' = c).
  { destruct (inv_final h) as [C _ _]. assert (G : forall c', called l t c' -> called (trace h) t c') by (intros c0 X; rewrite E; apply called_more; exact X).
    apply G in Hc, Hc'. apply (g_call _ _ C) in Hc as (a1 & A1 & <-). apply (g_call _ _ C) in Hc' as (a2 & A2 & <-). congruence. }
  subst c'. destruct Hw as [->|[->| ->]]; exact K.
Qed.
Print Assumptions C131_nothing_left.
(** No thread is left behind: one that has not ended is held by an object, or by a move assignment that has replaced it and waits for it. *)
Theorem C131_no_stray h t o w p : In (ELaunch t o w p) (trace h) ->
  In (EDeinit w) (trace h) \/ (exists o', holds o' (trace h) = Some w) \/
  exists t' o1 o2, called (trace h) t' (CAssign o1 o2) /\ In (EMoved t' o1 o2) (trace h) /\ ~ returned (trace h) t'.
Proof.
  intro H. destruct (inv_final h) as [C O W]. assert (R : runs (trace h) w p) by (exists t, o; exact H).
  apply (k_runs _ _ W) in R as [q R]. destruct (left_final _ _ _ _ R) as [(p' & b & K)|[(o' & K)|(t' & a & o1 & o2 & K1 & K2 & K3)]].
  - left. apply deinit_in. rewrite (k_deinit _ _ W), K. cbn. lia.
  - right. left. exists o'. rewrite (h_sig _ _ O). exact K.
  - right. right. destruct (moved_join _ _ _ _ K1 K3) as (o1' & o2' & A & B). assert (o1' = o1 /\ o2' = o2) as [-> ->] by (split; congruence).
    exists t', o1, o2. split; [apply (g_call _ _ C); eauto|]. split; [exact B|].
    intro X. apply (g_done _ _ C) in X as (a' & X1 & X2). congruence.
Qed.
Print Assumptions C131_no_stray.
(** A move assignment returns only after the thread that it replaced has ended. *)
Theorem C131_assign_waits h l1 t o o2 l2 r l3 w : trace h = l1 ++ EMoved t o o2 :: l2 ++ ERet t r :: l3 -> holds o l1 = Some w ->
  In (EDeinit w) (l1 ++ EMoved t o o2 :: l2).
Proof.
  intros E Hh. assert (E' : trace h = (l1 ++ EMoved t o o2 :: l2) ++ ERet t r :: l3) by (rewrite E, <- app_assoc; reflexivity).
  eapply (waited_ok _ _ _ _ E'); eauto.
Qed.
Print Assumptions C131_assign_waits.
(** An exception comes out of a wait, or ends the program, only if an execution has thrown one. *)
Theorem C131_threw h l x l' : trace h = l ++ x :: l' -> x = ETerminate \/ (exists t, x = ERet t RThrew) -> exists w, In (EDone w true) l.
Proof.
  intros E [->|[t ->]]; assert (B := before_ok _ _ _ _ E); cbn in B; [exact B|]. destruct B as (c & _ & K & _). auto.
Qed.
Print Assumptions C131_threw.
(** A wait on a thread whose processor is stopped, and which is not within an execution, can always end by steps of the call and of that
    thread alone (for a destructor: end or, after an exception, end the program). *)
Theorem C131_stop_wait_returns h t c o d w p : called (trace h) t c -> waits c o d -> holds o (trace h) = Some w -> runs (trace h) w p ->
  stopped p (trace h) = true -> busy w (trace h) = false ->
  exists h2, (forall l, In l h2 -> own_step t w l) /\ (returned (trace (h ++ h2)) t \/ In ETerminate (trace (h ++ h2))).
Proof. apply wait_ends. Qed.
Print Assumptions C131_stop_wait_returns.
(** A call returns at most once. *)
Theorem C131_returns_once h t : cnt (rets t) (trace h) <= 1.
Proof. destruct (inv_final h) as [C _ _]. apply (g_once _ _ C). Qed.
Print Assumptions C131_returns_once.

(** Launch, one execution, stopAndWait, running, launch again. *)
Definition h131 : history := [LProc; LObj 0; LCall (CLaunch 0) None; LStep 0 false; LInit 0; LTake 0; LCall (CStopWait 0 false) None; LStep 1 false;
  LCall (CRunning 0) (Some 0); LDone 0 false; LEnd 0; LStep 1 false; LCall (CRunning 0) None; LStep 2 false; LCall (CReuse 0) None; LStep 3 false;
  LCall (CLaunch 0) None; LStep 4 false; LInit 1; LEmpty 1; LSleep 1; LCall (CDestroy 0) None; LStep 5 false].
Example C131_applies : trace h131 = [EObj 0 0; ECall 0 (CLaunch 0); ELaunch 0 0 0 0; ERet 0 RUnit; EInit 0; ETake 0; ECall 1 (CStopWait 0 false); EStop 0;
    EDone 0 false; EDeinit 0; ECollect 1 0 0; ERet 1 RUnit; ECall 2 (CRunning 0); ERet 2 (RBool false); ECall 3 (CReuse 0); EReuse 0; ERet 3 RUnit;
    ECall 4 (CLaunch 0); ELaunch 4 0 1 0; ERet 4 RUnit; EInit 1; ECall 5 (CDestroy 0); EStop 0] /\
  called (trace h131) 5 (CDestroy 0) /\ waits (CDestroy 0) 0 true /\ holds 0 (trace h131) = Some 1 /\ runs (trace h131) 1 0 /\
  stopped 0 (trace h131) = true /\ busy 1 (trace h131) = false /\ ~ returned (trace h131) 5.
Proof.
  assert (E : trace h131 = [EObj 0 0; ECall 0 (CLaunch 0); ELaunch 0 0 0 0; ERet 0 RUnit; EInit 0; ETake 0; ECall 1 (CStopWait 0 false); EStop 0;
    EDone 0 false; EDeinit 0; ECollect 1 0 0; ERet 1 RUnit; ECall 2 (CRunning 0); ERet 2 (RBool false); ECall 3 (CReuse 0); EReuse 0; ERet 3 RUnit;
    ECall 4 (CLaunch 0); ELaunch 4 0 1 0; ERet 4 RUnit; EInit 1; ECall 5 (CDestroy 0); EStop 0]) by (vm_compute; reflexivity).
  rewrite E. split; [reflexivity|]. split; [unfold called; is_in|]. split; [reflexivity|]. split; [reflexivity|].
  split; [exists 4, 0; is_in|]. split; [reflexivity|]. split; [reflexivity|]. intros [r H]. revert H. not_in.
Qed.
(** A move assignment that waits; an execution that throws. *)
Definition h131b : history := [LProc; LProc; LObj 0; LObj 1; LCall (CLaunch 0) None; LStep 0 false; LInit 0; LTake 0; LCall (CAssign 0 1) None; LStep 1 false].
Example C131_applies_move : trace h131b = [EObj 0 0; EObj 1 1; ECall 0 (CLaunch 0); ELaunch 0 0 0 0; ERet 0 RUnit; EInit 0; ETake 0; ECall 1 (CAssign 0 1); EMoved 1 0 1] /\
  holds 0 (trace h131b) = None /\ holds 1 (trace h131b) = None /\ ~ In (EDeinit 0) (trace h131b).
Proof.
  assert (E : trace h131b = [EObj 0 0; EObj 1 1; ECall 0 (CLaunch 0); ELaunch 0 0 0 0; ERet 0 RUnit; EInit 0; ETake 0; ECall 1 (CAssign 0 1); EMoved 1 0 1]) by (vm_compute; reflexivity).
  rewrite E. split; [reflexivity|]. split; [reflexivity|]. split; [reflexivity|]. not_in.
Qed.
Example C131_applies_assign : exists h l1 l2 l3, trace h = l1 ++ EMoved 1 0 1 :: l2 ++ ERet 1 RUnit :: l3 /\ holds 0 l1 = Some 0.
Proof.
  exists (h131b ++ [LCall (CStop 0) None; LStep 2 false; LDone 0 false; LEnd 0; LStep 1 false]), [EObj 0 0; EObj 1 1; ECall 0 (CLaunch 0); ELaunch 0 0 0 0; ERet 0 RUnit; EInit 0; ETake 0; ECall 1 (CAssign 0 1)],
    [ECall 2 (CStop 0); EStop 0; ERet 2 RUnit; EDone 0 false; EDeinit 0], [].
  split; [vm_compute; reflexivity|reflexivity].
Qed.
Example C131_applies_threw : exists h l l', trace h = l ++ ERet 1 RThrew :: l' /\ In (EDone 0 true) l /\ called l 1 (CWait 0 false).
Proof.
  exists [LProc; LObj 0; LCall (CLaunch 0) None; LStep 0 false; LInit 0; LTake 0; LDone 0 true; LCall (CWait 0 false) None; LStep 1 false; LStep 1 false].
  eexists [_; _; _; _; _; _; _; _; _; _], []. split; [vm_compute; reflexivity|]. split; [is_in|unfold called; is_in].
Qed.

(** ** C132 *)
(** (1) launch() on a processor whose thread has ended starts nothing if the outcome has not been collected by a wait: running() still says
    true, and no thread runs. *)
Theorem C132_launch_does_nothing_refuted : exists h t t2 l, trace h = l ++ [ECall t (CLaunch 0); ERet t RUnit; ECall t2 (CRunning 0); ERet t2 (RBool true)] /\
  stopped 0 l = false /\ (forall t' o w p, In (ELaunch t' o w p) (trace h) -> In (EDeinit w) (trace h)).
Proof.
  exists [LProc; LObj 0; LCall (CLaunch 0) None; LStep 0 false; LInit 0; LCall (CStop 0) None; LStep 1 false; LEnd 0; LCall (CReuse 0) None; LStep 2 false;
    LCall (CLaunch 0) None; LStep 3 false; LCall (CRunning 0) None; LStep 4 false], 3, 4.
  exists [EObj 0 0; ECall 0 (CLaunch 0); ELaunch 0 0 0 0; ERet 0 RUnit; EInit 0; ECall 1 (CStop 0); EStop 0; ERet 1 RUnit; EDeinit 0;
    ECall 2 (CReuse 0); EReuse 0; ERet 2 RUnit].
  match goal with |- trace ?h = _ /\ _ => assert (E : trace h = [EObj 0 0; ECall 0 (CLaunch 0); ELaunch 0 0 0 0; ERet 0 RUnit; EInit 0; ECall 1 (CStop 0); EStop 0; ERet 1 RUnit; EDeinit 0;
    ECall 2 (CReuse 0); EReuse 0; ERet 2 RUnit; ECall 3 (CLaunch 0); ERet 3 RUnit; ECall 4 (CRunning 0); ERet 4 (RBool true)]) by (vm_compute; reflexivity) end.
  rewrite E. split; [reflexivity|]. split; [reflexivity|]. intros t' o w p H. cbn [In] in H.
  repeat (destruct H as [H|H]; [first [discriminate H|inversion H; subst; is_in]|]). destruct H.
Qed.
Print Assumptions C132_launch_does_nothing_refuted.
(** (2) Move assignment to an object that holds a thread waits for that thread without having stopped its processor: it never returns unless
    somebody else stops the processor, or an execution throws. *)
Theorem C132_assign_blocks_refuted : exists h t o o2 w p, called (trace h) t (CAssign o o2) /\ runs (trace h) w p /\
  forall h2, (forall ev, trace (h ++ h2) = trace h ++ ev -> ~ In (EStop p) ev /\ ~ In (EDone w true) ev) -> ~ returned (trace (h ++ h2)) t.
Proof.
  exists h131b, 1, 0, 1, 0, 0. destruct C131_applies_move as (E & _ & _ & D).
  assert (R : runs (trace h131b) 0 0) by (rewrite E; exists 0, 0; is_in).
  split; [rewrite E; unfold called; is_in|]. split; [exact R|]. intros h2 H. apply blocked_run with (w := 0).
  - exists (Ag (CAssign 0 1) None (PJoin 0)). split; [vm_compute; reflexivity|right; reflexivity].
  - rewrite E. intros [r X]. revert X. not_in.
  - eapply no_stop_no_end; [exact R|rewrite E; reflexivity|exact D|exact H|]. rewrite E. not_in.
Qed.
Print Assumptions C132_assign_blocks_refuted.
(** (3) stopAndWait() called by an execution that runs on the thread itself waits for that thread, and never returns. *)
Theorem C132_self_wait_refuted : exists h t o, called (trace h) t (CStopWait o false) /\ forall h2, ~ returned (trace (h ++ h2)) t.
Proof.
  set (h := [LProc; LObj 0; LCall (CLaunch 0) None; LStep 0 false; LInit 0; LTake 0; LCall (CStopWait 0 false) (Some 0); LStep 1 false]).
  assert (E : trace h = [EObj 0 0; ECall 0 (CLaunch 0); ELaunch 0 0 0 0; ERet 0 RUnit; EInit 0; ETake 0; ECall 1 (CStopWait 0 false); EStop 0]) by (vm_compute; reflexivity).
  exists h, 1, 0. split; [rewrite E; unfold called; is_in|]. intro h2.
  assert (S0 : self_stuck 1 0 (final h)).
  { exists 0, (Ag (CStopWait 0 false) (Some 0) (PBlock 0)). split; [vm_compute; reflexivity|]. split; [vm_compute; reflexivity|]. split; [reflexivity|].
    split; [reflexivity|]. exists 0. right. left. reflexivity. }
  apply blocked_run with (w := 0).
  - destruct S0 as (p & a & _ & Ha & _ & Hp & Hw). exists a. split; [exact Ha|]. left. split; [exact Hp|exact Hw].
  - rewrite E. intros [r X]. revert X. not_in.
  - destruct (self_run h 1 0 h2 S0) as (p & a & Hk & _). destruct (inv_final (h ++ h2)) as [_ _ W].
    apply (cnt_in (is_deinit 0)); [reflexivity|]. rewrite (k_deinit _ _ W), Hk. reflexivity.
Qed.
Print Assumptions C132_self_wait_refuted.
(** (4) The thread sees an open and empty queue, stop() closes the queue and wakes nobody, the thread goes to sleep: stopAndWait() never returns
    unless the thread is woken for nothing or the processor is made reusable. *)
Theorem C132_lost_stop_refuted : exists h t o w p, called (trace h) t (CStopWait o false) /\ stopped p (trace h) = true /\
  forall h2, ~ In (LWake w) h2 -> (forall ev, trace (h ++ h2) = trace h ++ ev -> ~ In (EReuse p) ev) -> ~ returned (trace (h ++ h2)) t.
Proof.
  set (h := [LProc; LObj 0; LCall (CLaunch 0) None; LStep 0 false; LInit 0; LEmpty 0; LCall (CStopWait 0 false) None; LStep 1 false; LSleep 0]).
  assert (E : trace h = [EObj 0 0; ECall 0 (CLaunch 0); ELaunch 0 0 0 0; ERet 0 RUnit; EInit 0; ECall 1 (CStopWait 0 false); EStop 0]) by (vm_compute; reflexivity).
  exists h, 1, 0, 0, 0. split; [rewrite E; unfold called; is_in|]. split; [rewrite E; reflexivity|]. intros h2 Hw Hr.
  assert (O0 : overslept 1 0 0 (final h)) by (split; [vm_compute; reflexivity|right; vm_compute; reflexivity]).
  apply blocked_run with (w := 0).
  - exists (Ag (CStopWait 0 false) None (PBlock 0)). split; [vm_compute; reflexivity|]. left. split; [reflexivity|]. exists 0. right. left. reflexivity.
  - rewrite E. intros [r X]. revert X. not_in.
  - destruct (sleep_run h 1 0 0 h2 O0 Hw Hr) as [_ Hk]. destruct (inv_final (h ++ h2)) as [_ _ W].
    apply (cnt_in (is_deinit 0)); [reflexivity|]. rewrite (k_deinit _ _ W). destruct Hk as [-> | ->]; reflexivity.
Qed.
Print Assumptions C132_lost_stop_refuted.
(** (5) Reusing the processor before the thread has noticed the stop takes the stop back: stopAndWait() never returns unless the processor is
    stopped again, or an execution throws. *)
Theorem C132_reuse_overtakes_refuted : exists h t o w p, called (trace h) t (CStopWait o false) /\ In (EStop p) (trace h) /\ runs (trace h) w p /\
  forall h2, (forall ev, trace (h ++ h2) = trace h ++ ev -> ~ In (EStop p) ev /\ ~ In (EDone w true) ev) -> ~ returned (trace (h ++ h2)) t.
Proof.
  set (h := [LProc; LObj 0; LCall (CLaunch 0) None; LStep 0 false; LInit 0; LEmpty 0; LSleep 0; LCall (CStopWait 0 false) None; LStep 1 false;
    LCall (CReuse 0) None; LStep 2 false]).
  assert (E : trace h = [EObj 0 0; ECall 0 (CLaunch 0); ELaunch 0 0 0 0; ERet 0 RUnit; EInit 0; ECall 1 (CStopWait 0 false); EStop 0;
    ECall 2 (CReuse 0); EReuse 0; ERet 2 RUnit]) by (vm_compute; reflexivity).
  assert (R : runs (trace h) 0 0) by (rewrite E; exists 0, 0; is_in).
  exists h, 1, 0, 0, 0. split; [rewrite E; unfold called; is_in|]. split; [rewrite E; is_in|]. split; [exact R|]. intros h2 H.
  apply blocked_run with (w := 0).
  - exists (Ag (CStopWait 0 false) None (PBlock 0)). split; [vm_compute; reflexivity|]. left. split; [reflexivity|]. exists 0. right. left. reflexivity.
  - rewrite E. intros [r X]. revert X. not_in.
  - eapply no_stop_no_end; [exact R|rewrite E; reflexivity|rewrite E; not_in|exact H|]. rewrite E. not_in.
Qed.
Print Assumptions C132_reuse_overtakes_refuted.
(** (6) If an execution throws, the destructor of the object ends the program. *)
Theorem C132_terminate_refuted : exists h t o w, called (trace h) t (CDestroy o) /\ In (EDone w true) (trace h) /\ In ETerminate (trace h).
Proof.
  exists [LProc; LObj 0; LCall (CLaunch 0) None; LStep 0 false; LInit 0; LTake 0; LDone 0 true; LCall (CDestroy 0) None; LStep 1 false; LStep 1 false], 1, 0, 0.
  match goal with |- called (trace ?h) _ _ /\ _ => assert (E : trace h = [EObj 0 0; ECall 0 (CLaunch 0); ELaunch 0 0 0 0; ERet 0 RUnit; EInit 0; ETake 0; EDone 0 true; EDeinit 0;
    ECall 1 (CDestroy 0); EStop 0; ETerminate]) by (vm_compute; reflexivity) end.
  rewrite E. split; [unfold called; is_in|]. split; is_in.
Qed.
Print Assumptions C132_terminate_refuted.
