(** Properties of waitable connections (C127, C128). *)
From Verif Require Import ListUtil FutModel FutSpec FutProofs FutProofs2 FutProofs3 FutProofs4 FutProofs5 FutProofs6.

(** ** C127 *)
(** The user's slot is called by a wait on that connection, before that wait returns, with the value the signal was fired with; at
    most one call for each connection, which is called by the signal at most once; each call returns at most once. *)
Theorem C127_slot h l1 t w v l2 : trace h = l1 ++ ESlot t w v :: l2 -> waits l1 t w /\ fired l1 w v /\ ~ returned l1 t /\ ~ handled l1 w.
Proof. intro E. exact (before_ok _ _ _ _ E). Qed.
Print Assumptions C127_slot.
Theorem C127_once h w : cnt (slot_for w) (trace h) <= 1 /\ cnt (fires w) (trace h) <= 1.
Proof.
  destruct (inv_final h) as [B _ _]. destruct (nth_error (wts (final h)) w) as [x|] eqn:Hx.
  - destruct (b_ok _ _ B _ _ Hx) as (_ & _ & K). unfold no_slot in K. destruct (w_prom x).
    + destruct K as (_ & _ & -> & _ & -> & _). lia.
    + destruct K as (_ & -> & _ & _ & _ & K). unfold no_slot in K. destruct (w_fut x); rewrite K; lia.
    + destruct K as (_ & -> & _ & _ & ->). lia.
  - apply nth_error_None in Hx. rewrite !cnt_zero; [lia| |]; intros e He; assert (N := b_none _ _ B w e Hx He); destruct e; auto.
Qed.
Print Assumptions C127_once.
Theorem C127_returns_once h t : cnt (rets t) (trace h) <= 1.
Proof. destruct (inv_final h) as [_ G _]. apply (g_once _ _ G). Qed.
Print Assumptions C127_returns_once.

(** What a call returned is explained by what happened before it returned. *)
Theorem C127_results h l1 t r l2 : trace h = l1 ++ ERet t r :: l2 -> exists c, called l1 t c /\ result_ok l1 t c r.
Proof. intro E. exact (before_ok _ _ _ _ E). Qed.
Print Assumptions C127_results.

(** true is returned exactly by the wait that called the user's slot. *)
Theorem C127_true_iff_slot h t w r : waits (trace h) t w -> In (ERet t r) (trace h) ->
  (r = RBool true <-> exists v, In (ESlot t w v) (trace h)).
Proof.
  intros Hw Hr. destruct (inv_final h) as [_ G _]. split.
  - intros ->. apply in_before in Hr as (l1 & l2 & E & c & Hc & Hok).
    assert (Hc' : called (trace h) t c) by (eapply prefix_in; eauto).
    assert (Hcw : c = CWait w \/ c = CWaitFor w) by (destruct Hw as [Hw|Hw]; [left|right]; eapply call_unique; eauto).
    destruct Hcw; subst c; cbn in Hok; destruct Hok as [v Hs]; exists v; eapply prefix_in; eauto.
  - intros [v Hs]. destruct (g_said _ _ G _ _ _ Hs) as (a & Ha & _ & Hq).
    assert (Hd : returned (trace h) t) by (exists r; exact Hr). apply (g_done _ _ G) in Hd as (a' & Ha' & Hd).
    destruct Hq as [Hq|Hq]; [congruence|].
    destruct r as [|[|]|o]; auto; exfalso; assert (Hone := g_once _ _ G t);
      (apply in_split in Hq as (l1 & l2 & E); rewrite E in Hr, Hone; rewrite cnt_app, cnt_cons in Hone; cbn [rets] in Hone;
       rewrite Nat.eqb_refl in Hone; cbn [b2n] in Hone;
       apply in_app_iff in Hr as [Hr|[Hr|Hr]]; [|discriminate|];
       apply cnt_pos with (f := rets t) in Hr; try (cbn; apply Nat.eqb_refl); lia).
Qed.
Print Assumptions C127_true_iff_slot.

(** A notification that has ended reached every connection made before it ended, unless that was fired before, cancelled, or broken by
    disconnect() (or the destructor) of the signal. *)
Theorem C127_notify_reaches h l1 e l2 t w : trace h = l1 ++ EEnd e :: l2 -> In (EJoin t w) l1 ->
  (exists v, fired l1 w v) \/ In (EBroke w) l1 \/ In (ECancel w) l1.
Proof. intros E Hj. destruct (before_ok _ _ _ _ E) as [_ K]. eapply K; eauto. Qed.
Print Assumptions C127_notify_reaches.
(** It is fired with the value of the notification that calls it, and no notification ended between the connection and that: it is the
    first to end. *)
Theorem C127_first_notification h l1 t w l2 e v l3 : trace h = l1 ++ EJoin t w :: l2 ++ EFire e w v :: l3 ->
  In (EEmit e v) (l1 ++ EJoin t w :: l2) /\ forall e', ~ In (EEnd e') l2.
Proof.
  intro E. assert (E' : trace h = (l1 ++ EJoin t w :: l2) ++ EFire e w v :: l3) by (rewrite E, <- app_assoc; reflexivity).
  destruct (before_ok _ _ _ _ E') as (Hin & _ & Hf & Hc & Hb). split; [exact Hin|]. intros e' He.
  apply in_split in He as (a & b & ->).
  assert (E2 : trace h = (l1 ++ EJoin t w :: a) ++ EEnd e' :: b ++ EFire e w v :: l3).
  { rewrite E, <- !app_assoc. cbn. rewrite <- ?app_assoc. reflexivity. }
  assert (Hj : In (EJoin t w) (l1 ++ EJoin t w :: a)) by (apply in_or_app; right; now left).
  assert (Sub : forall x, In x (l1 ++ EJoin t w :: a) -> In x (l1 ++ EJoin t w :: a ++ EEnd e' :: b)).
  { intros x Hx. apply in_or_app. apply in_app_iff in Hx as [Hx|[Hx|Hx]]; [auto|right; now left|right; right; apply in_or_app; auto]. }
  destruct (C127_notify_reaches _ _ _ _ _ _ E2 Hj) as [[v' [e'' K]]|[K|K]].
  - apply (Hf v'). exists e''. apply Sub. exact K.
  - apply Hb, Sub, K.
  - apply Hc, Sub, K.
Qed.
Print Assumptions C127_first_notification.

(** A connection is cancelled only by cancel, and is then never fired; its slot is never called, and it is not broken either. *)
Theorem C127_cancelled h w : In (ECancel w) (trace h) ->
  (exists t, called (trace h) t (CCancel w)) /\ (forall v, ~ fired (trace h) w v) /\ ~ handled (trace h) w /\ ~ In (EBroke w) (trace h).
Proof.
  intro H. assert (H' := H). apply in_before in H' as (l1 & l2 & E & [t Ht] & _).
  split; [exists t; eapply prefix_in; eauto|]. destruct (inv_final h) as [B _ _].
  destruct (nth_error (wts (final h)) w) as [x|] eqn:Hx.
  - destruct (b_ok _ _ B _ _ Hx) as (_ & _ & K). destruct (w_prom x).
    + destruct K as (_ & _ & D & K & Ns & _). split; [apply not_fired; exact D|]. split; [|exact K]. intro Hs. exact (slotted _ _ Ns Hs).
    + destruct K as (_ & _ & _ & _ & K & _). contradiction.
    + destruct K as (_ & _ & _ & K & _). contradiction.
  - apply nth_error_None in Hx. assert (N := b_none _ _ B w _ Hx H). cbn in N. rewrite Nat.eqb_refl in N. discriminate.
Qed.
Print Assumptions C127_cancelled.
(** A connection is broken only by disconnect() of the signal (or its destructor), and then it is never fired. *)
Theorem C127_broken h w : In (EBroke w) (trace h) ->
  (exists t, called (trace h) t CClear) /\ (forall v, ~ fired (trace h) w v) /\ ~ handled (trace h) w.
Proof.
  intro H. assert (H' := H). apply in_before in H' as (l1 & l2 & E & [t Ht] & _).
  split; [exists t; eapply prefix_in; eauto|]. destruct (inv_final h) as [B _ _].
  destruct (nth_error (wts (final h)) w) as [x|] eqn:Hx.
  - destruct (b_ok _ _ B _ _ Hx) as (_ & _ & K). destruct (w_prom x).
    + destruct K as (_ & _ & _ & K & _). contradiction.
    + destruct K as (_ & _ & _ & K & _). contradiction.
    + destruct K as (_ & D & _ & _ & Ns). split; [apply not_fired; exact D|]. intro Hs. exact (slotted _ _ Ns Hs).
  - apply nth_error_None in Hx. assert (N := b_none _ _ B w _ Hx H). cbn in N. rewrite Nat.eqb_refl in N. discriminate.
Qed.
Print Assumptions C127_broken.

(** The connection that waitableConnect returned is the one it made, and nobody else made it. *)
Theorem C127_own_connection h t w : In (ERet t (RFut (Some w))) (trace h) ->
  In (EJoin t w) (trace h) /\ forall t', In (EJoin t' w) (trace h) -> t' = t.
Proof.
  intro H. apply in_before in H as (l1 & l2 & E & c & Hc & Hok).
  assert (Hj : In (EJoin t w) l1).
  { destruct c; cbn in Hok; try contradiction. apply Hok. }
  assert (Hj' : In (EJoin t w) (trace h)) by (eapply prefix_in; eauto). split; [exact Hj'|].
  intros t' Ht'. clear E. apply in_split in Hj' as (a & b & E). rewrite E in Ht'. apply in_app_iff in Ht' as [K|[K|K]].
  - destruct (before_ok _ _ _ _ E) as [_ No]. destruct No. eauto.
  - congruence.
  - apply in_split in K as (c1 & c2 & ->). assert (E2 : trace h = (a ++ EJoin t w :: c1) ++ EJoin t' w :: c2) by (rewrite E, <- app_assoc; reflexivity).
    destruct (before_ok _ _ _ _ E2) as [_ No]. destruct No. exists t. apply in_or_app. right. now left.
Qed.
Print Assumptions C127_own_connection.

(** A wait for a connection that was fired or broken returns after at most three steps of its own, whatever other calls do; if it was
    fired its slot has been called by then (by this wait or one before).  A wait with a time limit returns when the time is up. *)
Theorem C127_wait_returns h t w : waits (trace h) t w -> (exists v, fired (trace h) w v) \/ In (EBroke w) (trace h) ->
  exists n, n <= 3 /\ returned (trace (h ++ repeat (LStep t None false) n)) t.
Proof. intros Hw Hv. eapply ends3; [exact Hw|]. destruct Hv; auto. Qed.
Print Assumptions C127_wait_returns.
Theorem C127_time_up h t w : called (trace h) t (CWaitFor w) -> exists n, n <= 3 /\ returned (trace (h ++ repeat (LStep t None true) n)) t.
Proof. intro H. eapply ends3; [right; exact H|]. auto. Qed.
Print Assumptions C127_time_up.
(** When an untimed wait returned and the signal had fired, the slot was called. *)
Theorem C127_fired_is_handled h t w v : called (trace h) t (CWait w) -> returned (trace h) t -> fired (trace h) w v -> handled (trace h) w.
Proof.
  intros Hc [r Hr] Hf. apply in_before in Hr as (l1 & l2 & E & c & Hc' & Hok).
  assert (c = CWait w) by (eapply call_unique; [eapply prefix_in; eauto|exact Hc]). subst c.
  destruct r as [|[|]|o]; cbn in Hok; try contradiction.
  - destruct Hok as [v' Hs]. exists t, v'. eapply prefix_in; eauto.
  - destruct Hok as [K|(t' & v' & K)].
    + assert (Kb : In (EBroke w) (trace h)) by (eapply prefix_in; eauto). apply C127_broken in Kb as (_ & Kb & _). destruct (Kb _ Hf).
    + exists t', v'. eapply prefix_in; eauto.
Qed.
Print Assumptions C127_fired_is_handled.

(** Connect; a notification with 5 on another thread while the first waits; the slot is called with 5; a second wait returns false. *)
Definition st0 (t : nat) : label := LStep t None false.
Definition hw : history :=
  [LCall CConnect None; st0 0; st0 0; LCall (CWait 0) None; st0 1; st0 1; LCall (CEmit 5) None; st0 2; LStep 2 (Some 0) false; st0 2;
   LCall (CCancel 0) None; st0 3; st0 1; st0 1; LCall (CWaitFor 0) None; st0 4].
Example C127_applies : trace hw =
  [ECall 0 CConnect; EJoin 0 0; ERet 0 (RFut (Some 0)); ECall 1 (CWait 0); ECall 2 (CEmit 5); EEmit 2 5; EFire 2 0 5; EEnd 2; ERet 2 RUnit;
   ECall 3 (CCancel 0); ERet 3 RUnit; ESlot 1 0 5; ERet 1 (RBool true); ECall 4 (CWaitFor 0); ERet 4 (RBool false)].
Proof. vm_compute. reflexivity. Qed.
(** Two connections, one cancelled and one broken; a connection made by code that runs in a notification is reached by it. *)
Example C127_applies2 : trace
  [LCall CConnect None; st0 0; st0 0; LCall CConnect None; st0 1; st0 1; LCall (CCancel 0) None; st0 2; LCall CClear None; st0 3;
   LCall (CWait 1) None; st0 4; st0 4; LCall (CWaitFor 0) None; st0 5; LStep 5 None true; LCall (CEmit 7) None; st0 6; LCall CConnect (Some 6);
   st0 7; st0 6; st0 7; st0 6; LStep 6 (Some 2) false; st0 6] =
  [ECall 0 CConnect; EJoin 0 0; ERet 0 (RFut (Some 0)); ECall 1 CConnect; EJoin 1 1; ERet 1 (RFut (Some 1)); ECall 2 (CCancel 0); ECancel 0;
   ERet 2 RUnit; ECall 3 CClear; EBroke 1; ERet 3 RUnit; ECall 4 (CWait 1); ERet 4 (RBool false); ECall 5 (CWaitFor 0); ERet 5 (RBool false);
   ECall 6 (CEmit 7); EEmit 6 7; ECall 7 CConnect; EJoin 7 2; ERet 7 (RFut (Some 2)); EFire 6 2 7; EEnd 6; ERet 6 RUnit].
Proof. vm_compute. reflexivity. Qed.

(** ** C128 *)
(** A wait without a time limit on a connection that is cancelled before its signal fires never returns, whatever happens afterwards:
    the connection keeps the slot, and with it the promise, for a reconnect. *)
Theorem C128_wait_after_cancel_hangs_refuted h t w : In (ECancel w) (trace h) -> called (trace h) t (CWait w) -> ~ returned (trace h) t.
Proof.
  intros Hc Hw [r Hr]. destruct (C127_cancelled _ _ Hc) as (_ & _ & Hh & Hb).
  apply in_before in Hr as (l1 & l2 & E & c & Hc' & Hok).
  assert (c = CWait w) by (eapply call_unique; [eapply prefix_in; eauto|exact Hw]). subst c.
  destruct r as [|[|]|o]; cbn in Hok; try contradiction.
  - destruct Hok as [v' Hs]. apply Hh. exists t, v'. eapply prefix_in; eauto.
  - destruct Hok as [K|(t' & v' & K)]; [apply Hb; eapply prefix_in; eauto|apply Hh; exists t', v'; eapply prefix_in; eauto].
Qed.
Print Assumptions C128_wait_after_cancel_hangs_refuted.
(** One thread waits while another cancels. *)
Example C128_wait_after_cancel_applies : exists h, In (ECancel 0) (trace h) /\ called (trace h) 1 (CWait 0) /\
  forall h2, ~ returned (trace (h ++ h2)) 1.
Proof.
  exists [LCall CConnect None; st0 0; st0 0; LCall (CWait 0) None; st0 1; LCall (CCancel 0) None; st0 2].
  assert (A : In (ECancel 0) (trace [LCall CConnect None; st0 0; st0 0; LCall (CWait 0) None; st0 1; LCall (CCancel 0) None; st0 2])) by (vm_compute; tauto).
  assert (B : called (trace [LCall CConnect None; st0 0; st0 0; LCall (CWait 0) None; st0 1; LCall (CCancel 0) None; st0 2]) 1 (CWait 0)) by (vm_compute; tauto).
  split; [exact A|split; [exact B|]]. intro h2.
  destruct (trace_app [LCall CConnect None; st0 0; st0 0; LCall (CWait 0) None; st0 1; LCall (CCancel 0) None; st0 2] h2) as [ev Ev].
  apply (C128_wait_after_cancel_hangs_refuted _ 1 0); rewrite Ev; unfold called; apply in_or_app; left; [exact A|exact B].
Qed.
(** The notification comes between the connect and the check connected() in waitableConnect: its value is lost, the user gets an empty
    FutureInvocation as if nothing had been connected. *)
Theorem C128_missed_notification_refuted : exists h t w v, fired (trace h) w v /\ In (EJoin t w) (trace h) /\ In (ERet t (RFut None)) (trace h).
Proof.
  exists [LCall CConnect None; st0 0; LCall (CEmit 5) None; st0 1; LStep 1 (Some 0) false; st0 1; st0 0], 0, 0, 5.
  split; [exists 1|split]; vm_compute; tauto.
Qed.
Print Assumptions C128_missed_notification_refuted.
(** An empty one is returned only for that reason (or because all was disconnected). *)
Theorem C128_empty_only_if_lost h t : In (ERet t (RFut None)) (trace h) ->
  exists w, In (EJoin t w) (trace h) /\ ((exists v, fired (trace h) w v) \/ In (EBroke w) (trace h)).
Proof.
  intro H. apply in_before in H as (l1 & l2 & E & c & Hc & Hok). destruct c; cbn in Hok; try contradiction.
  destruct Hok as (w & Hj & K). exists w. split; [eapply prefix_in; eauto|].
  destruct K as [[v K]|K]; [left; exists v; eapply fired_prefix; eauto|right; eapply prefix_in; eauto].
Qed.
Print Assumptions C128_empty_only_if_lost.
(** cancel does not revoke a value that was delivered: the slot is called although cancel returned before. *)
Theorem C128_slot_after_cancel_refuted : exists h l1 l2 t t' w v, trace h = l1 ++ ESlot t w v :: l2 /\ called l1 t' (CCancel w) /\ returned l1 t'.
Proof.
  exists hw, (firstn 11 (trace hw)), (skipn 12 (trace hw)), 1, 3, 0, 5. split; [vm_compute; reflexivity|].
  split; [vm_compute; tauto|exists RUnit; vm_compute; tauto].
Qed.
Print Assumptions C128_slot_after_cancel_refuted.
(** The strongest true version: a cancel that returned before the signal fired prevents the slot from being called, for good. *)
Theorem C128_cancel_before_firing_partial h l1 t w l2 : trace h = l1 ++ ERet t RUnit :: l2 -> called l1 t (CCancel w) ->
  (forall v, ~ fired l1 w v) -> forall t' v, ~ In (ESlot t' w v) (trace h) /\ ~ fired (trace h) w v.
Proof.
  intros E Hc Hf t' v. destruct (before_ok _ _ _ _ E) as (c & Hc' & Hok).
  assert (c = CCancel w) by (eapply call_unique; eapply prefix_in; eauto). subst c. cbn in Hok.
  assert (K : ~ handled (trace h) w /\ forall v, ~ fired (trace h) w v).
  { destruct Hok as [K|[[v' K]|K]].
    - assert (K' : In (ECancel w) (trace h)) by (eapply prefix_in; eauto). apply C127_cancelled in K' as (_ & A & B & _). auto.
    - destruct (Hf _ K).
    - assert (K' : In (EBroke w) (trace h)) by (eapply prefix_in; eauto). apply C127_broken in K' as (_ & A & B). auto. }
  destruct K as [K1 K2]. split; [|apply K2]. intro Hs. apply K1. exists t', v. exact Hs.
Qed.
Print Assumptions C128_cancel_before_firing_partial.
