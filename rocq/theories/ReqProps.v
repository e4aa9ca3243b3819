(** Property theorems about the service requester: C28 - C35.
    A history [h] is any interleaving of the steps of any number of concurrent calls; [calls h]: the calls made, call
    number [t] is [call_of h t]; [trace h]: what was observed; [few h]: fewer than 2^64-1 calls. *)
From Verif Require Import ReqModel ReqSpec ReqProofs ReqInv ReqIds ReqOnce ReqDeliver ReqDeliver2 ReqGone ReqGone2 ReqAbort
  ReqSubs ReqSubs2 ReqSerSpec ReqSerial ReqSerial2 ReqCache ReqObsSpec ReqObs ReqSyncSpec ReqSync ReqSync2 ReqFail.
From Coq Require Import NArith Lia.

(** For the examples: an obliging world, one where sending fails, one where the timeout has elapsed. *)
Definition okw : oracle := Orc Success false (fun _ => false).
Definition badw : oracle := Orc ReceiverUnavailable false (fun _ => false).
Definition late : oracle := Orc Success true (fun _ => false).
Definition steps (t n : nat) : history := repeat (LRun t okw) n.
Definition up : history := LCall (CServiceStatus true Unavailable Available) :: steps 0 3.
Definition answer (code : opcode) (o : nat) (rid : N) (n : nat) : call := CIncoming true (Msg code o rid (Some (Data n)) 0).

Ltac intr := vm_compute; repeat (first [left; reflexivity|right]).

(** ** C28 *)
(** An accepted request is pending until something ends it; an answer for it runs its callback exactly once with the
    answer's payload, on whatever schedule. *)
Theorem C28_answer_runs_the_callback_once h0 o pl h2 h3 rid t m :
  let owner := length (calls h0) in let h1 := h0 ++ LCall (CSendAsync o pl true) :: h2 in let h := h1 ++ h3 in
  few h -> In (ESend owner (Msg OpRequest o rid pl 0)) (trace h1) ->
  (forall v, In (ERet owner v) (trace h) -> v = RVReg (Some (rid, o)) (Some Success)) ->
  length (calls h1) <= t -> call_of h t = Some (CIncoming true m) ->
  m_op m = o -> m_rid m = rid -> answer_code (m_code m) = true ->
  (forall t' c, call_of h t' = Some c -> ends o rid c = true -> t' = t \/ returned h0 t') ->
  returned h t -> runs_by h t owner = 1 /\ In (ECb t owner (m_pay m)) (trace h).
Proof. exact (delivered h0 o pl h2 h3 rid t m). Qed.
Print Assumptions C28_answer_runs_the_callback_once.

Theorem C28_at_most_one_final_answer h owner : final_runs h owner <= 1.
Proof. exact (final_once h owner). Qed.
Print Assumptions C28_at_most_one_final_answer.

(** A callback is run only by an answer carrying the operation and the id of its own request. *)
Theorem C28_only_its_own_answers h t owner p c o : call_of h owner = Some c -> request_op c = Some o -> In (ECb t owner p) (trace h) ->
  (exists m, call_of h t = Some (CIncoming true m) /\ answer_code (m_code m) = true /\ m_op m = o /\
     In (EAlloc owner (m_rid m)) (trace h) /\ p = m_pay m) \/ (t = owner /\ c = CGetAsync o).
Proof.
  intros C Q I. destruct (i_cb h (inv_final h) _ _ _ I) as [(m & e & Cm & -> & Eo & _ & Ok)|(-> & o' & [X|X])].
  - left. exists m. unfold run_ok in Ok. destruct (answer_code (m_code m)) eqn:Ac.
    + destruct Ok as [[(d & code & pl & b & D & L) Al] Ei]. rewrite Eo in D, Al. rewrite C in D. injection D as <-.
      pose proof (req_like_op _ _ _ _ _ _ L) as Q'. rewrite <- Ei. repeat split; auto; congruence.
    + destruct Ok as [(stt & D) _]. rewrite Eo, C in D. injection D as ->. discriminate.
  - rewrite C in X. injection X as ->. discriminate.
  - right. rewrite C in X. injection X as ->. injection Q as ->. auto.
Qed.
Print Assumptions C28_only_its_own_answers.

(** An answer whose id was given to no request of that operation runs nothing. *)
Theorem C28_unknown_id_runs_nothing h t m : call_of h t = Some (CIncoming true m) -> answer_code (m_code m) = true ->
  (forall owner c, call_of h owner = Some c -> request_op c = Some (m_op m) -> ~ In (EAlloc owner (m_rid m)) (trace h)) ->
  forall owner p, ~ In (ECb t owner p) (trace h).
Proof.
  intros C Ac No owner p I. destruct (i_cb h (inv_final h) _ _ _ I) as [(m' & e & Cm & -> & Eo & _ & Ok)|(-> & o' & [X|X])]; try congruence.
  rewrite C in Cm. injection Cm as <-. unfold run_ok in Ok. rewrite Ac in Ok.
  destruct Ok as [[(d & code & pl & b & D & L) Al] Ei]. rewrite Eo in D, Al. rewrite Ei in Al.
  exact (No owner d D (req_like_op _ _ _ _ _ _ L) Al).
Qed.
Print Assumptions C28_unknown_id_runs_nothing.

Definition h28 : history := up ++ LCall (CSendAsync 5 (Some (Data 1)) true) :: steps 1 5.
Definition h28b : history := LCall (answer PartialRequestUpdate 5 0 2) :: steps 2 4 ++ LCall (answer OpRequest 5 0 3) :: steps 3 4
  ++ LCall (answer OpRequest 5 0 4) :: steps 4 4.
Example C28_applies : few (h28 ++ h28b) /\ In (ESend 1 (Msg OpRequest 5 0 (Some (Data 1)) 0)) (trace h28) /\
  In (ERet 1 (RVReg (Some (0%N, 5)) (Some Success))) (trace h28) /\
  runs_by (h28 ++ h28b) 2 1 = 1 /\ runs_by (h28 ++ h28b) 3 1 = 1 /\ runs_by (h28 ++ h28b) 4 1 = 0.
Proof. split; [vm_compute; reflexivity|]. split; [intr|]. split; [intr|]. repeat split; vm_compute; reflexivity. Qed.

(** ** C29 *)
Theorem C29_aborted_request_is_never_answered h1 h2 h3 owner o pl hc rid a ta t p : few (h1 ++ h2) ->
  call_of h1 owner = Some (CSendAsync o pl hc) -> In (ERet owner (RVReg (Some (rid, o)) a)) (trace h1) ->
  length (calls h1) <= ta -> call_of (h1 ++ h2) ta = Some (CAbort rid o) -> returned (h1 ++ h2) ta ->
  length (calls (h1 ++ h2)) <= t -> ~ In (ECb t owner p) (trace ((h1 ++ h2) ++ h3)).
Proof.
  intros F C R L Ca Ra Lt. eapply gone_never; [|eapply aborted_gone; eauto|exact Lt].
  exists o, (CSendAsync o pl hc). split; [apply call_of_app; exact C|reflexivity].
Qed.
Print Assumptions C29_aborted_request_is_never_answered.

(** Requests whose message was handed over before the call reporting the loss was made. *)
Theorem C29_no_answer_after_service_lost h1 h2 h3 owner c o m u t p :
  call_of h1 owner = Some c -> request_op c = Some o -> In (ESend owner m) (trace h1) ->
  length (calls h1) <= u -> In (EStatus u Unavailable) (trace (h1 ++ h2)) -> returned (h1 ++ h2) u ->
  length (calls (h1 ++ h2)) <= t -> ~ In (ECb t owner p) (trace ((h1 ++ h2) ++ h3)).
Proof.
  intros C Q S L St Ru Lt. eapply gone_never; [|eapply lost_gone_gen; eauto; eapply send_stored; eauto|exact Lt].
  exists o, c. split; [apply call_of_app; exact C|exact Q].
Qed.
Print Assumptions C29_no_answer_after_service_lost.

Theorem C29_no_answer_after_deinit h1 h2 h3 owner o pl hc u t p :
  call_of h1 owner = Some (CSendAsync o pl hc) -> returned h1 owner ->
  length (calls h1) <= u -> call_of (h1 ++ h2) u = Some CDeinit -> returned (h1 ++ h2) u ->
  length (calls (h1 ++ h2)) <= t -> ~ In (ECb t owner p) (trace ((h1 ++ h2) ++ h3)).
Proof.
  intros C R L D Ru Lt. eapply gone_never; [|eapply deinit_gone; eauto|exact Lt].
  exists o, (CSendAsync o pl hc). split; [apply call_of_app; exact C|reflexivity].
Qed.
Print Assumptions C29_no_answer_after_deinit.

Theorem C29_abort_sent_at_most_once h o rid : few h -> cnt (is_abort o rid) (trace h) <= 1.
Proof. exact (abort_once h o rid). Qed.
Print Assumptions C29_abort_sent_at_most_once.

Theorem C29_abort_of_pending_request_is_sent h0 o pl h2 h3 rid t :
  let owner := length (calls h0) in let h1 := h0 ++ LCall (CSendAsync o pl true) :: h2 in let h := h1 ++ h3 in
  few h -> In (ERet owner (RVReg (Some (rid, o)) (Some Success))) (trace h1) ->
  length (calls h1) <= t -> call_of h t = Some (CAbort rid o) ->
  (forall t' c, call_of h t' = Some c -> ends o rid c = true -> t' = t \/ returned h0 t') ->
  returned h t -> In (ESend t (Msg Abort o rid None 0)) (trace h).
Proof. exact (abort_sent h0 o pl h2 h3 rid t). Qed.
Print Assumptions C29_abort_of_pending_request_is_sent.

Definition h29 : history := LCall (CAbort 0 5) :: steps 2 3.
Example C29_applies : returned (h28 ++ h29) 2 /\ cnt (is_abort 5 0) (trace (h28 ++ h29)) = 1 /\
  trace (h28 ++ h29 ++ LCall (answer OpRequest 5 0 3) :: steps 3 3) = trace (h28 ++ h29) ++ [ERet 3 (RVBool true)] /\
  In (EStatus 2 Unavailable) (trace (h28 ++ LCall (CServiceStatus true Available Unavailable) :: steps 2 5)) /\
  returned (h28 ++ LCall (CServiceStatus true Available Unavailable) :: steps 2 5) 2.
Proof.
  split; [exists (RVOut (Some Success)); intr|]. split; [vm_compute; reflexivity|]. split; [vm_compute; reflexivity|].
  split; [intr|exists RVUnit; intr].
Qed.

(** A request that passed the availability check before the loss and was stored after it stays pending. *)
Definition h29r : history := up ++ LCall (CSendAsync 5 None true) :: steps 1 1 ++
  LCall (CServiceStatus true Available Unavailable) :: steps 2 5 ++ steps 1 4 ++ LCall (answer OpRequest 5 0 3) :: steps 3 4.
Theorem C59_request_survives_loss_of_service_refuted :
  trace h29r = [EStatus 0 Available; ERet 0 RVUnit; EStatus 2 Unavailable; ERet 2 RVUnit; EAlloc 1 0; ESend 1 (Msg OpRequest 5 0 None 0);
    ERet 1 (RVReg (Some (0%N, 5)) (Some Success)); ECb 3 1 (Some (Data 3)); ERet 3 (RVBool true)] /\ svc h29r = Unavailable.
Proof. split; vm_compute; reflexivity. Qed.
Print Assumptions C59_request_survives_loss_of_service_refuted.

(** ** C30 *)
Theorem C30_failed_request_is_never_answered h h2 owner o pl hc a t p : few h -> call_of h owner = Some (CSendAsync o pl hc) ->
  In (ERet owner (RVReg None (Some a))) (trace h) -> a <> Success ->
  length (calls h) <= t -> ~ In (ECb t owner p) (trace (h ++ h2)).
Proof.
  intros F C R Ne Lt. pose proof (failed_gone h owner o pl hc F C) as G. unfold failed_phase in G. rewrite (cnt_ret_of _ _ _ R) in G.
  eapply gone_never; [|exact (G a R Ne)|exact Lt]. exists o, (CSendAsync o pl hc). split; [exact C|reflexivity].
Qed.
Print Assumptions C30_failed_request_is_never_answered.

Theorem C30_failed_registration_is_never_called h h2 owner st o a t p : few h -> call_of h owner = Some (CReg st o true) ->
  In (ERet owner (RVReg None (Some a))) (trace h) -> a <> Success ->
  length (calls h) <= t -> ~ In (ECb t owner p) (trace (h ++ h2)).
Proof.
  intros F C R Ne Lt. pose proof (reg_failed_gone h owner st o F C) as G. rewrite (cnt_ret_of _ _ _ R) in G.
  eapply rgone_never; [exact C|exact (G a R Ne)|exact Lt].
Qed.
Print Assumptions C30_failed_registration_is_never_called.

(** A failing call returns an invalid id and the error, and everything observable afterwards, on every later schedule, is
    what a requester does that merely used up one id ([skip_id]). *)
Theorem C30_failed_request_changes_nothing h o pl hc w1 w2 w3 w4 w5 w6 h2 : few h -> svc h = Available -> o_res w5 <> Success ->
  let t := length (calls h) in
  let h' := h ++ [LCall (CSendAsync o pl hc); LRun t w1; LRun t w2; LRun t w3; LRun t w4; LRun t w5; LRun t w6] in
  (exists rid, trace h' = trace h ++ [EAlloc t rid; ESend t (Msg OpRequest o rid pl 0); ERet t (RVReg None (Some (o_res w5)))]) /\
  snd (run (final h') h2) = snd (run (St (skip_id (sh (final h))) (thr (final h) ++ [PDone])) h2).
Proof.
  intros F S Ne t h'. split; [|exact (failed_invisible h o pl hc w1 w2 w3 w4 w5 w6 h2 F S Ne)].
  eexists. exact (proj1 (failed_call h o pl hc w1 w2 w3 w4 w5 w6 F S Ne)).
Qed.
Print Assumptions C30_failed_request_changes_nothing.

Definition h30 : history := up ++ LCall (CSendAsync 5 None true) :: steps 1 4 ++ [LRun 1 badw; LRun 1 okw].
Example C30_applies : svc up = Available /\ In (ERet 1 (RVReg None (Some ReceiverUnavailable))) (trace h30) /\
  trace (h30 ++ LCall (answer OpRequest 5 0 3) :: steps 2 3) = trace h30 ++ [ERet 2 (RVBool true)].
Proof. split; [vm_compute; reflexivity|]. split; [intr|vm_compute; reflexivity]. Qed.

(** ** C31 : (un)registrations and loss of service do not overlap; everything else may *)
Theorem C31_register_sent_for_first_subscriber_only h1 h2 stt o hc : o <> 0 ->
  let h := h1 ++ LCall (CReg stt o hc) :: h2 in let t := length (calls h1) in
  serial reg_call h -> returned h t ->
  if hc && avail_eqb (svc h1) Available && (match subs h1 o with [] => true | _ => false end)
  then exists rid, sends_by h t = [Msg (if stt then StatusRegister else SignalRegister) o rid None 0]
  else sends_by h t = [].
Proof. exact (reg_sends h1 h2 stt o hc). Qed.
Print Assumptions C31_register_sent_for_first_subscriber_only.

Theorem C31_unregister_sent_when_none_is_left h1 h2 rid o : regid_ok rid o = true ->
  let h := h1 ++ LCall (CUnregister rid o) :: h2 in let t := length (calls h1) in
  serial reg_call h -> returned h t ->
  sends_by h t = if avail_eqb (svc h1) Available && (match rem rid (subs h1 o) with [] => true | _ => false end)
                 then [Msg Unregister o rid_invalid None 0] else [].
Proof. exact (unreg_sends h1 h2 rid o). Qed.
Print Assumptions C31_unregister_sent_when_none_is_left.

Theorem C31_unregister_all_sends_one h1 h2 o : o <> 0 ->
  let h := h1 ++ LCall (CUnregisterAll o) :: h2 in let t := length (calls h1) in
  serial reg_call h -> returned h t ->
  sends_by h t = if avail_eqb (svc h1) Available then [Msg Unregister o rid_invalid None 0] else [].
Proof. exact (uall_sends h1 h2 o). Qed.
Print Assumptions C31_unregister_all_sends_one.

(** Deciding [serial] on concrete histories, for the examples. *)
Definition idleb (f : call -> bool) (h : history) : bool :=
  forallb (fun t => match call_of h t with Some c => negb (f c) || existsb (is_ret t) (trace h) | None => true end) (seq 0 (length (calls h))).
Fixpoint serialb (f : call -> bool) (pre rest : history) : bool :=
  match rest with
  | [] => true
  | l :: rest' => match l with LCall c => negb (f c) || idleb f pre | _ => true end && serialb f (pre ++ [l]) rest'
  end.
Lemma idleb_ok f h : idleb f h = true -> idle f h.
Proof.
  intros H t c C Fc. unfold idleb in H. rewrite forallb_forall in H. specialize (H t). rewrite C, Fc in H. cbn in H.
  assert (E : existsb (is_ret t) (trace h) = true) by (apply H; apply in_seq; split; [lia|cbn; eapply nth_lt; exact C]).
  apply existsb_exists in E as (x & I & E). destruct x; try discriminate. apply Nat.eqb_eq in E. subst. eexists. exact I.
Qed.
Lemma serialb_ok f rest : forall pre, serialb f pre rest = true ->
  forall h1 c h2, rest = h1 ++ LCall c :: h2 -> f c = true -> idle f (pre ++ h1).
Proof.
  induction rest as [|l rest IH]; intros pre H h1 c h2 E Fc; [destruct h1; discriminate|].
  cbn in H. apply Bool.andb_true_iff in H as [H1 H2]. destruct h1 as [|l' h1]; injection E as -> E.
  - rewrite Fc in H1. cbn in H1. rewrite app_nil_r. apply idleb_ok. exact H1.
  - specialize (IH _ H2 h1 c h2 E Fc). rewrite <- app_assoc in IH. exact IH.
Qed.
Lemma serial_check f h : serialb f [] h = true -> serial f h.
Proof. intros H h1 c h2 E Fc. exact (serialb_ok f h [] H h1 c h2 E Fc). Qed.

Definition h31 : history := up ++ LCall (CReg true 5 true) :: steps 1 5 ++ LCall (CReg true 5 true) :: steps 2 4.
Example C31_applies : serial reg_call (h31 ++ LCall (CUnregister 0 5) :: steps 3 2 ++ LCall (CUnregister 1 5) :: steps 4 5) /\
  subs h31 5 = [0%N; 1%N] /\ sends_by h31 1 = [Msg StatusRegister 5 0 None 0] /\ sends_by h31 2 = [] /\
  sends_by (h31 ++ LCall (CUnregister 0 5) :: steps 3 2) 3 = [] /\
  sends_by (h31 ++ LCall (CUnregister 0 5) :: steps 3 2 ++ LCall (CUnregister 1 5) :: steps 4 5) 4 = [Msg Unregister 5 rid_invalid None 0].
Proof. split; [apply serial_check; vm_compute; reflexivity|]. repeat split; vm_compute; reflexivity. Qed.

(** Unregistering an id that is not registered still sends Unregister when the operation has no subscriber. *)
Theorem C60_stale_unregister_is_sent_refuted :
  let h := up ++ LCall (CUnregister 7 5) :: steps 1 5 in
  subs h 5 = [] /\ trace h = trace up ++ [ESend 1 (Msg Unregister 5 rid_invalid None 0); ERet 1 (RVStatus Success)].
Proof. split; vm_compute; reflexivity. Qed.
Print Assumptions C60_stale_unregister_is_sent_refuted.

(** Racing registrations: the second subscriber is accepted although the server never got a Register message. *)
Theorem C60_racing_registration_without_register_refuted :
  let h := up ++ LCall (CReg true 5 true) :: steps 1 3 ++ LCall (CReg true 5 true) :: steps 2 4 ++ [LRun 1 okw; LRun 1 badw; LRun 1 okw] in
  In (ERet 2 (RVReg (Some (1%N, 5)) (Some Success))) (trace h) /\ In (ERet 1 (RVReg None (Some ReceiverUnavailable))) (trace h) /\
  map e_id (gl (sh (final h)) 5) = [1%N].
Proof. split; [intr|]. split; [intr|vm_compute; reflexivity]. Qed.
Print Assumptions C60_racing_registration_without_register_refuted.

(** ** C32 *)
Theorem C32_update_reaches_each_subscriber_once h0 st o h2 h3 rid a t m :
  let owner := length (calls h0) in let h1 := h0 ++ LCall (CReg st o true) :: h2 in let h := h1 ++ h3 in
  few h -> In (ERet owner (RVReg (Some (rid, o)) a)) (trace h1) ->
  (forall t' c, call_of h t' = Some c -> rends o rid c = true -> returned h0 t') ->
  length (calls h1) <= t -> call_of h t = Some (CIncoming true m) -> update_code (m_code m) = true -> m_op m = o ->
  returned h t -> runs_by h t owner = 1 /\ In (ECb t owner (m_pay m)) (trace h).
Proof. exact (update_reaches h0 st o h2 h3 rid a t m). Qed.
Print Assumptions C32_update_reaches_each_subscriber_once.

Theorem C32_never_more_than_once h t m owner stt o : call_of h t = Some (CIncoming true m) ->
  call_of h owner = Some (CReg stt o true) -> runs_by h t owner <= 1.
Proof. exact (update_once h t m owner stt o). Qed.
Print Assumptions C32_never_more_than_once.

(** A subscriber's callback is run only by updates of its operation, with their payload (or by its own registration). *)
Theorem C32_only_its_own_updates h owner stt o t p : call_of h owner = Some (CReg stt o true) -> In (ECb t owner p) (trace h) -> t <> owner ->
  exists m, call_of h t = Some (CIncoming true m) /\ update_code (m_code m) = true /\ m_op m = o /\ p = m_pay m.
Proof. exact (reg_not_other h owner stt o t p). Qed.
Print Assumptions C32_only_its_own_updates.

(** Of two subscribers the one whose registration had returned before the other one's began is called first. *)
Theorem C32_in_registration_order h1 h2 t m a b l1 l2 : returned h1 a -> length (calls h1) <= b ->
  call_of (h1 ++ h2) t = Some (CIncoming true m) -> update_code (m_code m) = true ->
  cbs_by (h1 ++ h2) t = l1 ++ b :: l2 -> ~ In a l2.
Proof. exact (update_order h1 h2 t m a b l1 l2). Qed.
Print Assumptions C32_in_registration_order.

Theorem C32_not_called_after_service_lost h1 h2 h3 owner st o rid a u t p : few (h1 ++ h2) -> call_of h1 owner = Some (CReg st o true) ->
  In (ERet owner (RVReg (Some (rid, o)) a)) (trace h1) -> length (calls h1) <= u ->
  In (EStatus u Unavailable) (trace (h1 ++ h2)) -> returned (h1 ++ h2) u ->
  length (calls (h1 ++ h2)) <= t -> ~ In (ECb t owner p) (trace ((h1 ++ h2) ++ h3)).
Proof.
  intros F C R L S Ru Lt. eapply rgone_never; [apply call_of_app; exact C|eapply lost_rgone; eauto|exact Lt].
Qed.
Print Assumptions C32_not_called_after_service_lost.

Theorem C32_not_called_after_unregister h1 h2 h3 owner st o rid a u t p : few (h1 ++ h2) -> call_of h1 owner = Some (CReg st o true) ->
  In (ERet owner (RVReg (Some (rid, o)) a)) (trace h1) -> length (calls h1) <= u ->
  call_of (h1 ++ h2) u = Some (CUnregister rid o) /\ returned (h1 ++ h2) u \/
  call_of (h1 ++ h2) u = Some (CUnregisterAll o) /\ In (ERet u (RVStatus Success)) (trace (h1 ++ h2)) ->
  length (calls (h1 ++ h2)) <= t -> ~ In (ECb t owner p) (trace ((h1 ++ h2) ++ h3)).
Proof.
  intros F C R L U Lt. eapply rgone_never; [apply call_of_app; exact C| |exact Lt].
  destruct U as [[U Ru]|[U Ru]]; [eapply unreg_rgone|eapply unregall_rgone]; eauto.
Qed.
Print Assumptions C32_not_called_after_unregister.

Definition h32 : history := h31 ++ LCall (answer StatusRegister 5 rid_invalid 7) :: steps 3 5.
Example C32_applies : few h32 /\ In (ERet 1 (RVReg (Some (0%N, 5)) (Some Success))) (trace h31) /\
  In (ERet 2 (RVReg (Some (1%N, 5)) (Some Success))) (trace h31) /\ cbs_by h32 3 = [1; 2] /\
  In (ECb 3 2 (Some (Data 7))) (trace h32) /\ returned h32 3 /\
  cbs_by (h32 ++ LCall (CUnregister 0 5) :: steps 4 2 ++ LCall (answer StatusRegister 5 rid_invalid 8) :: steps 5 4) 5 = [2].
Proof.
  split; [vm_compute; reflexivity|]. split; [intr|]. split; [intr|]. split; [vm_compute; reflexivity|].
  split; [intr|]. split; [exists (RVBool true); intr|reflexivity].
Qed.

(** ** C33 : status updates, status reads, (un)registrations and service status reports do not overlap *)
(** [evs h t]: everything call [t] did. *)
Theorem C33_known_status_is_answered_locally h1 h2 c o : o <> 0 -> (c = CGetAsync o \/ exists b, c = CGetSync o b) ->
  let h := h1 ++ LCall c :: h2 in let t := length (calls h1) in
  serial cache_call h -> returned h t -> (svc h1 = Available -> subs h1 o <> []) ->
  get_spec c o t (if avail_eqb (svc h1) Available then Success else ServiceUnavailable) (flat (latest h1 o)) (evs h t).
Proof. exact (get_known h1 h2 c o). Qed.
Print Assumptions C33_known_status_is_answered_locally.

Theorem C33_late_subscriber_gets_the_last_update h1 h2 o : o <> 0 ->
  let h := h1 ++ LCall (CReg true o true) :: h2 in let t := length (calls h1) in
  serial cache_call h -> returned h t -> svc h1 = Available -> subs h1 o <> [] ->
  exists rid, evs h t = EAlloc t rid :: (match flat (latest h1 o) with Some p => [ECb t t (Some p)] | None => [] end)
                        ++ [ERet t (RVReg (Some (rid, o)) (Some Success))].
Proof. exact (late_subscriber h1 h2 o). Qed.
Print Assumptions C33_late_subscriber_gets_the_last_update.

Definition h33 : history := h32 ++ LCall (answer StatusRegister 5 rid_invalid 8) :: steps 4 5 ++ LCall (CReg true 5 true) :: steps 5 5.
Example C33_applies : serial cache_call h33 /\ subs h33 5 = [0%N; 1%N; 2%N] /\ latest h33 5 = Some (Some (Data 8)) /\
  evs h33 5 = [EAlloc 5 2; ECb 5 5 (Some (Data 8)); ERet 5 (RVReg (Some (2%N, 5)) (Some Success))] /\
  latest (h33 ++ LCall (CUnregisterAll 5) :: steps 6 4) 5 = None.
Proof. split; [apply serial_check; vm_compute; reflexivity|]. repeat split; vm_compute; reflexivity. Qed.

(** The status known before the service went away is handed to a subscriber of the restarted service. *)
Definition h33r : history := h32 ++ LCall (CServiceStatus true Available Unavailable) :: steps 4 5 ++
  LCall (CServiceStatus true Unavailable Available) :: steps 5 3 ++ LCall (CReg true 5 true) :: steps 6 5 ++ LCall (CReg true 5 true) :: steps 7 5.
Theorem C61_status_survives_service_restart_refuted :
  In (EStatus 4 Unavailable) (trace h33r) /\ evs h33r 7 = [EAlloc 7 3; ECb 7 7 (Some (Data 7)); ERet 7 (RVReg (Some (3%N, 5)) (Some Success))] /\
  ~ In (ECb 7 7 (Some (Data 7))) (trace h32).
Proof. split; [intr|]. split; [vm_compute; reflexivity|]. vm_compute. intuition discriminate. Qed.
Print Assumptions C61_status_survives_service_restart_refuted.

(** A null update is cached and later dereferenced. *)
Theorem C61_null_status_update_refuted :
  ub (sh (final (h31 ++ LCall (CIncoming true (Msg StatusRegister 5 rid_invalid None 0)) :: steps 3 5 ++ LCall (CGetSync 5 true) :: steps 4 3))) = true.
Proof. vm_compute. reflexivity. Qed.
Print Assumptions C61_null_status_update_refuted.

(** ** C34 *)
(** On every schedule: an observer registered before a status report arrives and never removed is notified by that report
    exactly as often as the report changed the status (0 or 1 times). *)
Theorem C34_each_change_is_told_once h1 h2 ok old new x r :
  let h := h1 ++ LCall (CServiceStatus ok old new) :: h2 in let t := length (calls h1) in
  observes h1 h x r -> returned h t -> notified h t x = changed h t.
Proof. exact (told_once h1 h2 ok old new x r). Qed.
Print Assumptions C34_each_change_is_told_once.

(** Status reports not overlapping: the statuses form a chain of real changes ... *)
Theorem C34_statuses_change h : serial stat_call h -> alternates Unavailable (statuses (trace h)).
Proof. exact (statuses_alternate h). Qed.
Print Assumptions C34_statuses_change.
(** ... and an observer is told exactly these, in order. *)
Theorem C34_told_in_order h1 h2 x r tr : serial stat_call (h1 ++ h2) -> idle stat_call h1 -> idle stat_call (h1 ++ h2) ->
  observes h1 (h1 ++ h2) x r -> trace (h1 ++ h2) = trace h1 ++ tr -> told (h1 ++ h2) tr x = statuses tr.
Proof. exact (told_order h1 h2 x r tr). Qed.
Print Assumptions C34_told_in_order.

Theorem C34_new_observer_is_told_at_once h1 h2 x : let h := h1 ++ LCall (CObserve (Some x)) :: h2 in let t := length (calls h1) in
  serial obs_call h -> returned h t ->
  evs h t = if avail_eqb (svc h1) Available then [ENotify t x Unknown Available; ERet t RVUnit] else [ERet t RVUnit].
Proof. exact (observe_told h1 h2 x). Qed.
Print Assumptions C34_new_observer_is_told_at_once.

Definition h34 : history := LCall (CObserve (Some 9)) :: steps 0 2.
Definition h34b : history := LCall (CServiceStatus true Unavailable Available) :: steps 1 3 ++
  LCall (CServiceStatus true Available Unavailable) :: steps 2 5.
Example C34_applies : serial obs_call (h34 ++ h34b) /\ observes h34 (h34 ++ h34b) 9 0 /\
  trace (h34 ++ h34b) = trace h34 ++ [EStatus 1 Available; ENotify 1 9 Unavailable Available; ERet 1 RVUnit;
                                      EStatus 2 Unavailable; ENotify 2 9 Available Unavailable; ERet 2 RVUnit] /\
  trace (up ++ LCall (CObserve (Some 9)) :: steps 1 3) = trace up ++ [ENotify 1 9 Unknown Available; ERet 1 RVUnit].
Proof.
  split; [apply serial_check; vm_compute; reflexivity|]. split; [|split; vm_compute; reflexivity].
  split; [vm_compute; reflexivity|]. split; [exists RVUnit; intr|]. split; [|split].
  - intros r H. destruct r as [|[|[|r]]]; cbn in H; try discriminate; auto. destruct r; discriminate.
  - intros u H. destruct u as [|[|[|u]]]; cbn in H; try discriminate. destruct u; discriminate.
  - intros t w I. cbn in I. repeat destruct I as [I|I]; try discriminate; try (injection I as <- <-; reflexivity). destruct I.
Qed.

(** Overlapping reports: the same change told twice, and a stale "Available" told last although the service is gone. *)
Theorem C62_change_told_twice_refuted :
  let h := h34 ++ [LCall (CServiceStatus true Unavailable Available); LCall (CServiceStatus true Unavailable Available);
                   LRun 1 okw; LRun 2 okw] ++ steps 1 2 ++ steps 2 2 in
  told h (trace h) 9 = [Available; Available].
Proof. vm_compute. reflexivity. Qed.
Print Assumptions C62_change_told_twice_refuted.
Theorem C62_stale_status_told_last_refuted :
  let h := h34 ++ LCall (CServiceStatus true Unavailable Available) :: steps 1 2 ++
           LCall (CServiceStatus true Available Unavailable) :: steps 2 5 ++ steps 1 1 in
  told h (trace h) 9 = [Unavailable; Available] /\ svc h = Unavailable.
Proof. split; vm_compute; reflexivity. Qed.
Print Assumptions C62_stale_status_told_last_refuted.

(** ** C35 *)
Theorem C35_every_return_has_a_reason h t o pl b v : few h -> o <> 0 -> call_of h t = Some (CSendSync o pl b) -> In (ERet t v) (trace h) ->
  exists p a, v = RVPay p (Some a) /\ outcome h t o b p a.
Proof. exact (sync_result h t o pl b v). Qed.
Print Assumptions C35_every_return_has_a_reason.

Theorem C35_returns_once h t : cnt (is_ret t) (trace h) <= 1.
Proof. exact (ret_once h t). Qed.
Print Assumptions C35_returns_once.

Theorem C35_nothing_after_the_return h h2 t o pl b v u p : few h -> o <> 0 -> call_of h t = Some (CSendSync o pl b) -> In (ERet t v) (trace h) ->
  length (calls h) <= u -> ~ In (ECb u t p) (trace (h ++ h2)).
Proof. exact (sync_silent h h2 t o pl b v u p). Qed.
Print Assumptions C35_nothing_after_the_return.

Theorem C35_answered_call_returns h h2 t o pl b u p : few (h ++ h2) -> call_of h t = Some (CSendSync o pl b) -> In (ECb u t p) (trace h) ->
  8 <= steps_of t h2 -> returned (h ++ h2) t.
Proof. exact (sync_answered h h2 t o pl b u p). Qed.
Print Assumptions C35_answered_call_returns.

Theorem C35_bounded_call_returns h h2 t o pl : few (h ++ h2) -> call_of h t = Some (CSendSync o pl true) ->
  (forall w, In (LRun t w) h2 -> o_expired w = true) -> 8 <= steps_of t h2 -> returned (h ++ h2) t.
Proof. exact (sync_bounded h h2 t o pl). Qed.
Print Assumptions C35_bounded_call_returns.

Theorem C35_call_returns_when_service_lost h1 h2 h3 t o pl b m u : few (h1 ++ h2 ++ h3) -> call_of h1 t = Some (CSendSync o pl b) ->
  In (ESend t m) (trace h1) -> length (calls h1) <= u -> In (EStatus u Unavailable) (trace (h1 ++ h2)) -> returned (h1 ++ h2) u ->
  (forall v m', call_of (h1 ++ h2) v = Some (CIncoming true m') -> returned (h1 ++ h2) v) ->
  8 <= steps_of t h3 -> returned (h1 ++ h2 ++ h3) t.
Proof. exact (sync_lost h1 h2 h3 t o pl b m u). Qed.
Print Assumptions C35_call_returns_when_service_lost.

Definition h35 : history := up ++ LCall (CSendSync 5 (Some (Data 1)) true) :: steps 1 6.
Definition down2 : history := LCall (CServiceStatus true Available Unavailable) :: steps 2 5.
Example C35_applies : trace h35 = trace up ++ [EAlloc 1 0; ESend 1 (Msg OpRequest 5 0 (Some (Data 1)) 0)] /\
  trace (h35 ++ LCall (answer OpRequest 5 0 7) :: steps 2 4 ++ steps 1 1) =
    trace h35 ++ [ECb 2 1 (Some (Data 7)); ERet 2 (RVBool true); ERet 1 (RVPay (Some (Data 7)) (Some Success))] /\
  trace (h35 ++ repeat (LRun 1 late) 8) = trace h35 ++ [ESend 1 (Msg Abort 5 0 None 0); ERet 1 (RVPay None (Some Timeout))] /\
  trace (h35 ++ down2 ++ steps 1 8) = trace h35 ++ [EStatus 2 Unavailable; ERet 2 RVUnit; ERet 1 (RVPay None (Some ActionBroken))].
Proof. repeat split; vm_compute; reflexivity. Qed.

(** A partial update completes the call; the final answer then throws future_error out of the receiving thread. *)
Theorem C63_final_after_partial_throws_refuted :
  let h := h35 ++ LCall (answer PartialRequestUpdate 5 0 7) :: steps 2 4 ++ LCall (answer OpRequest 5 0 8) :: steps 3 4 ++ steps 1 1 in
  In (EThrow 3) (trace h) /\ In (ERet 1 (RVPay (Some (Data 7)) (Some Success))) (trace h).
Proof. split; [intr|intr]. Qed.
Print Assumptions C63_final_after_partial_throws_refuted.

(** A call that stored its request after the loss of the service was processed waits for ever (without timeout). *)
Definition h35r : history := up ++ LCall (CSendSync 5 None false) :: steps 1 1 ++ LCall (CServiceStatus true Available Unavailable) :: steps 2 5 ++ steps 1 4.
Theorem C63_unbounded_wait_after_loss_refuted n : ~ returned (h35r ++ steps 1 n) 1 /\ svc (h35r ++ steps 1 n) = Unavailable.
Proof.
  assert (H : final (h35r ++ steps 1 n) = final h35r /\ trace (h35r ++ steps 1 n) = trace h35r).
  { induction n as [|n [F T]]; [rewrite app_nil_r; auto|].
    assert (E : steps 1 (S n) = steps 1 n ++ [LRun 1 okw]) by (unfold steps; cbn; rewrite repeat_cons; reflexivity).
    rewrite E, app_assoc, final_snoc, trace_snoc, F, T. split; [vm_compute; reflexivity|]. apply app_nil_r. }
  destruct H as [F T]. split.
  - intros [v I]. apply cnt_ret_of in I. rewrite F in I. discriminate.
  - unfold svc. rewrite T. reflexivity.
Qed.
Print Assumptions C63_unbounded_wait_after_loss_refuted.
