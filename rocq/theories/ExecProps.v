(** Properties of slots that are connected with an executor (C129, C130). *)
From Verif Require Import ListUtil ExecModel ExecSpec ExecProofs ExecProofs2 ExecProofs3 ExecProofs4 ExecProofs5.

(** For literal traces. *)
Local Ltac is_in := cbn [In]; repeat (first [left; reflexivity | right]).
Local Ltac not_in := let H := fresh in intro H; cbn [In] in H; repeat (destruct H as [H|H]; [discriminate H|]); exact H.

(** ** C129 *)
(** When a notification has ended it has handed its value to every slot that was connected when it began, once each and in the order in
    which they were connected, and to no other. *)
Theorem C129_every_slot_in_order h l e l' : trace h = l ++ EEnd e :: l' ->
  exists v l1 l2, l = l1 ++ EEmit e v :: l2 /\ sent e l1 = [] /\ sent e l2 = map (fun c => (c, v)) (connected l1).
Proof. intro E. apply (before_ok _ _ _ _ E). Qed.
Print Assumptions C129_every_slot_in_order.
(** ... where it is run by the notifying thread (no executor, direct executor, or the notifying code runs on the processor and the executor is
    not the asynchronous one), posted to the processor, or refused, which happens only if the processor was stopped or destroyed. *)
Theorem C129_who_runs_it h l e c v f l' : trace h = l ++ ESend e c v f :: l' ->
  In c (connected l) /\ exists k p, has_kind l c k /\ called l e (CNotify v) p /\
  match f with
  | Ran => k = Direct \/ (k <> Async /\ p = true)
  | Posted => k <> Direct /\ (p = true -> k = Async)
  | Lost => k <> Direct /\ (In EStop l \/ In EGone l)
  end.
Proof. intro E. destruct (before_ok _ _ _ _ E) as (H & _ & _ & K). auto. Qed.
Print Assumptions C129_who_runs_it.
(** What was posted is run by the processor, never while other code runs there, with the value of that notification. *)
Theorem C129_run_on_processor h l e c v l' : trace h = l ++ EProc e c v :: l' -> In (ESend e c v Posted) l /\ working l = false.
Proof. intro E. destruct (before_ok _ _ _ _ E) as (H & K & _). auto. Qed.
Print Assumptions C129_run_on_processor.
(** For one notification a slot is run at most once. *)
Theorem C129_at_most_once h e c : cnt (runs e c) (trace h) <= 1.
Proof. apply runs_once. Qed.
Print Assumptions C129_at_most_once.
(** The processor gets through the posted values in the order in which they were posted, of whatever notification and slot. *)
Theorem C129_in_order h : exists waiting, posted (trace h) = taken (trace h) ++ waiting.
Proof. destruct (inv_final h) as [_ _ _ Q]. eexists. apply (q_fifo _ _ Q). Qed.
Print Assumptions C129_in_order.
(** Nothing is lost unless the processor was stopped or destroyed. *)
Theorem C129_nothing_lost h e c v : never_stopped (trace h) -> ~ In (ESend e c v Lost) (trace h) /\ ~ In (EDrop e c v) (trace h).
Proof.
  intros [H1 H2]. split; intro H; apply in_before in H as (l1 & l2 & E & K); cbn in K.
  - destruct K as (_ & _ & _ & k & p & _ & _ & K). cbn in K. destruct K as [_ [K|K]]; [apply H1|apply H2]; eapply prefix_in; eauto.
  - destruct K as [_ [K|K]]; [apply H1|apply H2]; eapply prefix_in; eauto.
Qed.
Print Assumptions C129_nothing_lost.
(** With the blocking executor the notification waits until the slot has been run (or thrown away) before it goes on to the next slot, and
    before it returns. *)
Theorem C129_blocking_waits h l e c v x l' : trace h = l ++ x :: l' -> x = EEnd e \/ (exists c' v' f, x = ESend e c' v' f) ->
  has_kind l c Blocking -> In (ESend e c v Posted) l -> In (EProc e c v) l \/ In (EDrop e c v) l.
Proof.
  intros E Hx Hk Hs. assert (K := before_ok _ _ _ _ E). destruct Hx as [->|(c' & v' & f & ->)]; cbn in K.
  - apply K; auto.
  - destruct K as (_ & _ & K & _). apply K; auto.
Qed.
Print Assumptions C129_blocking_waits.
(** When no other code runs on the processor, running its queue deals with everything that was posted. *)
Theorem C129_posted_is_dealt_with h e c v : In (ESend e c v Posted) (trace h) -> working (trace h) = false ->
  exists n, In (EProc e c v) (trace (h ++ repeat LLoop n)) \/ In (EDrop e c v) (trace (h ++ repeat LLoop n)).
Proof.
  intros Hs Hw. destruct (inv_final h) as [_ _ _ Q]. apply in_posted in Hs. rewrite (q_fifo _ _ Q) in Hs. apply in_app_iff in Hs as [Hs|Hs].
  - exists 0. cbn [repeat]. rewrite app_nil_r. apply in_taken. exact Hs.
  - apply in_map_iff in Hs as (k & Ek & Hk). unfold id_of in Ek. inversion Ek; subst.
    rewrite <- (q_busy _ _ Q) in Hw. destruct (drains (final h) _ Hw eq_refl) as (evs & Ev & K).
    exists (length (queue (final h))). left. rewrite trace_run, Ev. apply in_or_app. right. apply K. exact Hk.
Qed.
Print Assumptions C129_posted_is_dealt_with.
(** A notification that has begun can always come to its end by its own steps and those of the processor, unless code that runs on the
    processor is waiting for the signal (C130). *)
Theorem C129_notify_returns h e v : In (EEmit e v) (trace h) ->
  (forall t c, called (trace h) t c true -> t = e \/ returned (trace h) t) ->
  exists h2, (forall l, In l h2 -> l = LStep e \/ l = LLoop \/ l = LFinish) /\ returned (trace (h ++ h2)) e.
Proof.
  intros He Ho. destruct (inv_final h) as [N C M Q]. assert (He' := He). apply in_before in He' as (l1 & l2 & E & p & Hc).
  assert (Hc' : called (trace h) e (CNotify v) p) by (eapply prefix_in; eauto). apply (g_call _ _ C) in Hc' as (a & Ha & Hca & _).
  assert (Ho' : others_idle (final h) e).
  { intros t b Hb Hp. destruct (Ho t (a_call b)) as [->|Hr]; [rewrite <- Hp; apply called_at; exact Hb|auto|].
    right. apply (g_done _ _ C) in Hr as (b' & Hb' & Hd). congruence. }
  destruct (a_pc a) as [|rest|d rest|] eqn:P.
  - exfalso. assert (K := e_ok _ _ M _ _ Ha). unfold em_ok in K. rewrite P in K. destruct K as [_ K].
    apply cnt_zero_inv with (x := EEmit e v) in K; [|exact He]. cbn in K. rewrite Nat.eqb_refl in K. discriminate.
  - eapply ends; eauto.
  - eapply ends; eauto.
  - exists []. split; [intros l []|]. rewrite app_nil_r. apply (g_done _ _ C). eauto.
Qed.
Print Assumptions C129_notify_returns.
(** The same of every call, also one that waits for the mutex: it returns by its own steps, those of the notification in progress and
    those of the processor, unless a call made by code on the processor has not returned. *)
Theorem C129_call_returns h t c p : called (trace h) t c p -> (forall u c', called (trace h) u c' true -> returned (trace h) u) ->
  exists e h2, (forall l, In l h2 -> l = LStep t \/ l = LStep e \/ l = LLoop \/ l = LFinish) /\ returned (trace (h ++ h2)) t.
Proof.
  intros Hc Hi. destruct (inv_final h) as [_ C _ _]. apply (g_call _ _ C) in Hc as (a & Ha & _ & _).
  destruct (any_returns h t a Ha) as (e & h2 & Q & R).
  - intros u b Hb Hp. destruct (proj1 (g_done _ _ C u)) as (b' & Hb' & Hd); [|congruence]. apply (Hi u (a_call b)). rewrite <- Hp. apply called_at. exact Hb.
  - exists e, h2. split; [|exact R]. intros l Hl. apply Q in Hl. unfold quiet_label in Hl. tauto.
Qed.
Print Assumptions C129_call_returns.
(** Each call returns at most once; a notification returns after it has ended, disconnect when the slot is not connected any more. *)
Theorem C129_returns h l t l' : trace h = l ++ ERet t :: l' -> cnt (rets t) (trace h) <= 1 /\ exists c p, called l t c p /\
  match c with CNotify _ => In (EEnd t) l | CCut d => ~ In d (connected l) | CConnect k => exists d, In (ECon t d k) l end.
Proof. intro E. split; [|exact (before_ok _ _ _ _ E)]. destruct (inv_final h) as [_ C _ _]. apply (g_once _ _ C). Qed.
Print Assumptions C129_returns.

(** Slots of all kinds; a notification by another thread and one by code on the processor. *)
Definition hx : history :=
  [LCall (CConnect Direct) false; LStep 0; LCall (CConnect Async) false; LStep 1; LCall (CConnect Default) false; LStep 2;
   LCall (CConnect Blocking) false; LStep 3; LCall (CNotify 7) false; LStep 4; LStep 4; LStep 4; LStep 4; LStep 4; LLoop; LStep 4; LLoop; LLoop;
   LStep 4; LStep 4; LBegin; LCall (CNotify 8) true; LStep 5; LStep 5; LStep 5; LStep 5; LStep 5; LStep 5; LFinish; LLoop].
Example C129_applies : trace hx =
  [ECall 0 (CConnect Direct) false; ECon 0 0 Direct; ERet 0; ECall 1 (CConnect Async) false; ECon 1 1 Async; ERet 1;
   ECall 2 (CConnect Default) false; ECon 2 2 Default; ERet 2; ECall 3 (CConnect Blocking) false; ECon 3 3 Blocking; ERet 3;
   ECall 4 (CNotify 7) false; EEmit 4 7; ESend 4 0 7 Ran; ESend 4 1 7 Posted; ESend 4 2 7 Posted; ESend 4 3 7 Posted;
   EProc 4 1 7; EProc 4 2 7; EProc 4 3 7; EEnd 4; ERet 4; EBegin; ECall 5 (CNotify 8) true; EEmit 5 8; ESend 5 0 8 Ran; ESend 5 1 8 Posted;
   ESend 5 2 8 Ran; ESend 5 3 8 Ran; EEnd 5; ERet 5; EFinish; EProc 5 1 8].
Proof. vm_compute. reflexivity. Qed.
(** The hypotheses of C129_notify_returns: a notification waits for the processor. *)
Example C129_notify_returns_applies : let h := firstn 14 hx in
  In (EEmit 4 7) (trace h) /\ ~ returned (trace h) 4 /\ forall t c, called (trace h) t c true -> t = 4 \/ returned (trace h) t.
Proof.
  cbv zeta. assert (E : trace (firstn 14 hx) = firstn 18 (trace hx)) by (vm_compute; reflexivity). rewrite E, C129_applies.
  unfold called, returned. cbn [firstn]. split; [is_in|split; [not_in|]].
  intros t c H. cbn [In] in H. repeat (destruct H as [H|H]; [discriminate H|]). destruct H.
Qed.

(** The hypotheses of C129_call_returns: a notification waits for the processor, a disconnect for the mutex. *)
Example C129_call_returns_applies : let h := firstn 14 hx ++ [LCall (CCut 0) false; LStep 5] in
  called (trace h) 5 (CCut 0) false /\ ~ returned (trace h) 5 /\ forall u c, called (trace h) u c true -> returned (trace h) u.
Proof.
  cbv zeta. assert (E : trace (firstn 14 hx ++ [LCall (CCut 0) false; LStep 5]) = firstn 18 (trace hx) ++ [ECall 5 (CCut 0) false]) by (vm_compute; reflexivity).
  rewrite E, C129_applies. unfold called, returned. cbn [firstn app]. split; [is_in|split; [not_in|]].
  intros u c H. cbn [In] in H. repeat (destruct H as [H|H]; [discriminate H|]). destruct H.
Qed.

(** ** C130 *)
(** A slot with an executor of the processor may be run after it was disconnected, and disconnect returned. *)
Theorem C130_run_after_disconnect_refuted : exists h l l' c e v t, trace h = l ++ EProc e c v :: l' /\ In (ECut c) l /\
  called l t (CCut c) false /\ returned l t.
Proof.
  exists [LCall (CConnect Async) false; LStep 0; LCall (CNotify 7) false; LStep 1; LStep 1; LStep 1; LCall (CCut 0) false; LStep 2; LLoop].
  exists [ECall 0 (CConnect Async) false; ECon 0 0 Async; ERet 0; ECall 1 (CNotify 7) false; EEmit 1 7; ESend 1 0 7 Posted; EEnd 1; ERet 1;
          ECall 2 (CCut 0) false; ECut 0; ERet 2], [], 0, 1, 7, 2.
  split; [vm_compute; reflexivity|]. unfold called, returned. split; [is_in|]. split; is_in.
Qed.
Print Assumptions C130_run_after_disconnect_refuted.
(** After the disconnect nothing is handed over any more: only what was posted before may still run; and with no executor, the direct or
    the blocking one, nothing runs. *)
Theorem C130_after_disconnect_partial h l c l' : trace h = l ++ ECut c :: l' ->
  (forall e v f, ~ In (ESend e c v f) l') /\
  (forall e v, In (EProc e c v) l' -> In (ESend e c v Posted) l) /\
  (has_kind (trace h) c Direct \/ has_kind (trace h) c Blocking -> forall e v, ~ In (EProc e c v) l').
Proof.
  intro E.
  assert (A : forall e v f, ~ In (ESend e c v f) l').
  { intros e v f H. apply in_split in H as (a & b & ->).
    assert (E' : trace h = (l ++ ECut c :: a) ++ ESend e c v f :: b) by (rewrite E, <- app_assoc; reflexivity).
    destruct (before_ok _ _ _ _ E') as (_ & K & _). apply K. apply in_or_app. right. now left. }
  assert (B : forall e v, In (EProc e c v) l' -> exists a b, l' = a ++ EProc e c v :: b /\ before (l ++ ECut c :: a) (EProc e c v)).
  { intros e v H. apply in_split in H as (a & b & ->). exists a, b. split; [reflexivity|].
    assert (E' : trace h = (l ++ ECut c :: a) ++ EProc e c v :: b) by (rewrite E, <- app_assoc; reflexivity). exact (before_ok _ _ _ _ E'). }
  split; [exact A|]. split.
  - intros e v H. destruct (B _ _ H) as (a & b & -> & K & _). apply in_app_iff in K as [K|[K|K]]; [exact K|discriminate|].
    destruct (A e v Posted). apply in_or_app. auto.
  - intros Hk e v H. destruct (B _ _ H) as (a & b & -> & K & _ & Kb). destruct Hk as [Hk|Hk].
    + assert (Ks : In (ESend e c v Posted) (trace h)).
      { rewrite E. apply in_or_app. apply in_app_iff in K as [K|[K|K]]; [auto|discriminate|right; right; apply in_or_app; auto]. }
      apply in_before in Ks as (m1 & m2 & Em & _ & _ & _ & k & p & Hkd & _ & Hf & _). apply Hf.
      eapply kind_unique; [eapply kind_prefix; eauto|exact Hk].
    + assert (Kc : has_kind (l ++ ECut c :: a) c Blocking).
      { assert (Hs : exists k, has_kind (l ++ ECut c :: a) c k).
        { assert (Kl : In (ESend e c v Posted) (l ++ ECut c :: a)) by exact K.
          apply in_split in Kl as (m1 & m2 & Em).
          assert (E' : trace h = m1 ++ ESend e c v Posted :: (m2 ++ EProc e c v :: b)).
          { rewrite E. change (l ++ ECut c :: a ++ EProc e c v :: b) with (l ++ (ECut c :: a) ++ EProc e c v :: b). rewrite app_assoc, Em, <- app_assoc. reflexivity. }
          destruct (before_ok _ _ _ _ E') as (_ & _ & _ & k & p & [t Hkd] & _). exists k, t. rewrite Em. apply in_or_app. auto. }
        destruct Hs as [k Hs]. assert (Eh : trace h = (l ++ ECut c :: a) ++ EProc e c v :: b) by (rewrite E, <- app_assoc; reflexivity).
        assert (k = Blocking) by (eapply kind_unique; [eapply kind_prefix; eauto|exact Hk]). subst k. exact Hs. }
      destruct (Kb Kc) as [Kx _]. apply Kx. apply in_or_app. right. now left.
Qed.
Print Assumptions C130_after_disconnect_partial.
(** notify returns as if all was well although a slot did not get the value. *)
Theorem C130_silently_lost_refuted : exists h e c v, In (ESend e c v Lost) (trace h) /\ returned (trace h) e.
Proof.
  exists [LCall (CConnect Default) false; LStep 0; LStop; LCall (CNotify 7) false; LStep 1; LStep 1; LStep 1], 1, 0, 7.
  match goal with |- context [trace ?h] => assert (E : trace h = [ECall 0 (CConnect Default) false; ECon 0 0 Default; ERet 0; EStop;
    ECall 1 (CNotify 7) false; EEmit 1 7; ESend 1 0 7 Lost; EEnd 1; ERet 1]) by (vm_compute; reflexivity) end.
  unfold returned. rewrite E. split; is_in.
Qed.
Print Assumptions C130_silently_lost_refuted.
(** With the default executor a slot may get the values in another order than they were notified: what code on the processor notifies
    overtakes what is in the queue. *)
Theorem C130_overtaken_refuted : exists h c, never_stopped (trace h) /\ has_kind (trace h) c Default /\ notified c (trace h) = [1; 2] /\ handled c (trace h) = [2; 1].
Proof.
  exists [LCall (CConnect Default) false; LStep 0; LCall (CNotify 1) false; LStep 1; LStep 1; LStep 1; LBegin; LCall (CNotify 2) true; LStep 2; LStep 2;
          LStep 2; LFinish; LLoop], 0.
  match goal with |- context [trace ?h] => assert (E : trace h = [ECall 0 (CConnect Default) false; ECon 0 0 Default; ERet 0;
    ECall 1 (CNotify 1) false; EEmit 1 1; ESend 1 0 1 Posted; EEnd 1; ERet 1; EBegin; ECall 2 (CNotify 2) true; EEmit 2 2; ESend 2 0 2 Ran;
    EEnd 2; ERet 2; EFinish; EProc 1 0 1]) by (vm_compute; reflexivity) end.
  rewrite E. split; [split; not_in|]. split; [exists 0; is_in|]. split; reflexivity.
Qed.
Print Assumptions C130_overtaken_refuted.
Lemma filter_async c tr : (forall e v f, In (ESend e c v f) tr -> f = Posted) -> (forall e v, ~ In (EDrop e c v) tr) ->
  notified c tr = map snd (filter (fun x => Nat.eqb c (snd (fst x))) (posted tr)) /\
  handled c tr = map snd (filter (fun x => Nat.eqb c (snd (fst x))) (taken tr)).
Proof.
  induction tr as [|x tr IH]; intros H1 H2; [split; reflexivity|].
  destruct IH as [IH1 IH2]; [intros; eapply H1; right; eauto|intros e v K; eapply H2; right; eauto|].
  change (x :: tr) with ([x] ++ tr). rewrite posted_app, taken_app, !filter_app, !map_app. unfold notified, handled in *. rewrite !flat_map_app, IH1, IH2.
  split; f_equal.
  - destruct x as [| | | | |e0 c0 v0 f0| | | | | | | |]; try reflexivity. cbn. destruct (Nat.eqb_spec c c0) as [<-|Hne].
    + rewrite (H1 e0 v0 f0 (or_introl eq_refl)). cbn. rewrite Nat.eqb_refl. reflexivity.
    + destruct f0; cbn; [reflexivity| |reflexivity]. apply Nat.eqb_neq in Hne. rewrite Hne. reflexivity.
  - destruct x as [| | | | |e0 c0 v0 f0| |e0 c0 v0|e0 c0 v0| | | | |]; try reflexivity; cbn.
    + destruct f0; try reflexivity. destruct (Nat.eqb_spec c c0) as [<-|Hne]; [|reflexivity].
      specialize (H1 e0 v0 Ran (or_introl eq_refl)). discriminate.
    + destruct (Nat.eqb c c0); reflexivity.
    + destruct (Nat.eqb_spec c c0) as [<-|Hne]; [|reflexivity]. destruct (H2 e0 v0). now left.
Qed.
(** With the asynchronous executor the order is kept: what the slot got is what was notified, in that order, up to what is still queued. *)
Theorem C130_async_in_order_partial h c : has_kind (trace h) c Async -> never_stopped (trace h) ->
  exists waiting, notified c (trace h) = handled c (trace h) ++ waiting.
Proof.
  intros Hk Hn. destruct (filter_async c (trace h)) as [-> ->].
  - intros e v f H. assert (H' := H). apply in_before in H as (l1 & l2 & E & _ & _ & _ & k & p & Hkd & _ & Hf).
    assert (k = Async) by (eapply kind_unique; [eapply kind_prefix; eauto|exact Hk]). subst k. destruct f; [| reflexivity|].
    + cbn in Hf. destruct Hf as [Hf|[Hf _]]; congruence.
    + destruct (C129_nothing_lost h e c v Hn) as [K _]. contradiction.
  - intros e v. apply C129_nothing_lost. exact Hn.
  - destruct (C129_in_order h) as [w ->]. rewrite filter_app, map_app. eauto.
Qed.
Print Assumptions C130_async_in_order_partial.
(** Deadlock: a notification with a slot on the blocking executor keeps the mutex of the signal while it waits for the processor; code
    that runs there and uses the signal (here: disconnects) waits for that mutex.  Neither call ever returns, whatever else happens, unless
    the processor is stopped. *)
Definition hd : history := [LCall (CConnect Blocking) false; LStep 0; LCall (CNotify 7) false; LStep 1; LBegin; LCall (CCut 0) true; LStep 1].
Lemma stuck_run h e p h2 : stuck e p (final h) -> ~ In LStop h2 -> ~ returned (trace h) e -> ~ returned (trace h) p ->
  ~ returned (trace (h ++ h2)) e /\ ~ returned (trace (h ++ h2)) p.
Proof.
  intros Hs Hn H1 H2. assert (K : stuck e p (final (h ++ h2)) /\ ~ returned (trace (h ++ h2)) e /\ ~ returned (trace (h ++ h2)) p); [|tauto].
  induction h2 as [|l h2 IH] using rev_ind; [rewrite app_nil_r; auto|].
  destruct IH as (S1 & R1 & R2); [intro X; apply Hn; apply in_or_app; auto|].
  rewrite app_assoc, final_snoc. unfold returned. rewrite trace_snoc. destruct (inv_final (h ++ h2)) as [_ C _ _].
  destruct (stuck_step e p _ l _ _ _ C S1 (step_pstep (final (h ++ h2)) l)) as (S2 & N1 & N2); [intros ->; apply Hn; apply in_or_app; right; now left|].
  split; [exact S2|]. split; intro X; apply in_app_iff in X as [X|X]; auto.
Qed.
Theorem C130_deadlock_refuted : exists h v c, called (trace h) 1 (CNotify v) false /\ called (trace h) 2 (CCut c) true /\
  forall h2, ~ In LStop h2 -> ~ returned (trace (h ++ h2)) 1 /\ ~ returned (trace (h ++ h2)) 2.
Proof.
  assert (E : trace hd = [ECall 0 (CConnect Blocking) false; ECon 0 0 Blocking; ERet 0; ECall 1 (CNotify 7) false; EEmit 1 7; EBegin;
    ECall 2 (CCut 0) true; ESend 1 0 7 Posted]) by (vm_compute; reflexivity).
  exists hd, 7, 0. unfold called. rewrite E. split; [is_in|]. split; [is_in|]. intros h2 Hn. apply stuck_run.
  - unfold stuck. split; [exists 7, 0, []; vm_compute; reflexivity|]. split; [exists (CCut 0); vm_compute; reflexivity|].
    split; [vm_compute; reflexivity|split; vm_compute; reflexivity].
  - exact Hn.
  - unfold returned. rewrite E. not_in.
  - unfold returned. rewrite E. not_in.
Qed.
Print Assumptions C130_deadlock_refuted.
