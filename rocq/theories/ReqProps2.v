(** C112, C115: everything a call of the requester does; observers of the service status. *)
From Coq Require Import List Arith NArith Lia Bool.
From Verif Require Import Amap ListUtil CsTypes ReqModel ReqSpec ReqSerSpec ReqProofs ReqInv ReqCache ReqSpec2 ReqCourse ReqGone ReqProps.
Import ListNotations.

(** ** C112 *)
Theorem C112_course h t c : call_of h t = Some c -> returned h t \/ In (EThrow t) (trace h) -> course (seen h t) t c (doings h t).
Proof.
  intros C E. destruct (ended_done h t E) as (c' & C' & N). rewrite C in C'. injection C' as <-. exact (did_final _ _ _ _ N C).
Qed.
Print Assumptions C112_course.

Theorem C112_course_so_far h t c : call_of h t = Some c -> exists l, course (seen h t) t c (doings h t ++ l).
Proof.
  intros C. assert (L : t < length (thr (final h))) by (rewrite (i_len h (inv_final h)); unfold call_of in C; apply nth_lt in C; exact C).
  destruct (nth_error (thr (final h)) t) as [p|] eqn:N; [|apply nth_error_None in N; lia].
  pose proof (did_final _ _ _ _ N C) as D. destruct (i_fit h (inv_final h) _ _ N) as (c' & C' & F). rewrite C in C'. injection C' as <-.
  destruct (pdone_dec p) as [->|ND].
  - exists []. rewrite app_nil_r. exact D.
  - refine (did_prefix (seen h t) t c p _ (svc h) F _ D). exists h, []. rewrite app_nil_r. split; [reflexivity|]. split; [unfold call_of in C; apply nth_lt in C; exact C|]. split; [|reflexivity]. exact (not_done _ _ _ N ND).
Qed.
Print Assumptions C112_course_so_far.

Theorem C112_only_observers_are_told h t x old new : In (ENotify t x old new) (trace h) -> exists r, call_of h r = Some (CObserve (Some x)).
Proof. exact (proj2 (observer_source h x) t old new). Qed.
Print Assumptions C112_only_observers_are_told.

Theorem C112_unobserved_is_not_told h1 h2 h3 x tr t old new : let h := h1 ++ LCall (CUnobserve x) :: h2 in
  settled h1 x -> returned h (length (calls h1)) -> ~ In (LCall (CObserve (Some x))) (h2 ++ h3) ->
  trace (h ++ h3) = trace h ++ tr -> ~ In (ENotify t x old new) tr.
Proof.
  intros h S RT NI T. refine (proj2 (absent_app h h3 x _ _) tr t old new T).
  - apply unobserve_absent; [exact S| |exact RT]. intros I. apply NI, in_app_iff. auto.
  - intros I. apply NI, in_app_iff. auto.
Qed.
Print Assumptions C112_unobserved_is_not_told.

Theorem C112_thrown_observer_is_dropped h1 t w h2 x tr0 tr u old new u' old' new' : let h := h1 ++ [LRun t w] in
  settled h1 x -> trace h = trace h1 ++ tr0 -> In (ENotify u x old new) tr0 -> o_gone w x = true -> ~ In (LCall (CObserve (Some x))) h2 ->
  trace (h ++ h2) = trace h ++ tr -> ~ In (ENotify u' x old' new') tr.
Proof.
  intros h S T0 I G NI T. exact (proj2 (absent_app h h2 x (thrown_absent _ _ _ _ _ _ _ _ S T0 I G) NI) tr u' old' new' T).
Qed.
Print Assumptions C112_thrown_observer_is_dropped.

Definition h112 : history := up ++ LCall (CSendSync 5 (Some (Data 1)) true) :: steps 1 6 ++ repeat (LRun 1 late) 8.
Definition o112 : history := up ++ LCall (CObserve (Some 9)) :: steps 1 4.
Definition u112 : history := o112 ++ LCall (CUnobserve 9) :: steps 2 1.
Definition lost (n : nat) : history := LCall (CServiceStatus true Available Unavailable) :: steps n 5.
Definition gonew : oracle := Orc Success false (fun x => Nat.eqb x 9).
Example C112_applies :
  call_of h112 1 = Some (CSendSync 5 (Some (Data 1)) true) /\ returned h112 1 /\
  doings h112 1 = [EAlloc 1 0; ESend 1 (Msg OpRequest 5 0 (Some (Data 1)) 0); ESend 1 (Msg Abort 5 0 None 0); ERet 1 (RVPay None (Some Timeout))] /\
  doings o112 1 = [ENotify 1 9 Unknown Available; ERet 1 RVUnit] /\
  settled o112 9 /\ returned u112 (length (calls o112)) /\
  In (ENotify 2 9 Available Unavailable) (trace (o112 ++ lost 2)) /\
  ~ In (ENotify 3 9 Available Unavailable) (trace (u112 ++ lost 3)) /\
  let h := o112 ++ LCall (CServiceStatus true Available Unavailable) :: steps 2 4 in
  settled h 9 /\ trace (h ++ [LRun 2 gonew]) = trace h ++ [ENotify 2 9 Available Unavailable; ERet 2 RVUnit].
Proof.
  split; [vm_compute; reflexivity|]. split; [eexists; intr|]. split; [vm_compute; reflexivity|]. split; [vm_compute; reflexivity|].
  assert (S : settled o112 9).
  { intros [|[|r]] C; vm_compute in C; try discriminate C; [eexists; intr|destruct r; discriminate C]. }
  split; [exact S|]. split; [eexists; intr|]. split; [intr|]. split.
  - intros I. vm_compute in I. repeat (destruct I as [I|I]; [discriminate I|]). exact I.
  - intros h. split; [|vm_compute; reflexivity]. intros [|[|[|r]]] C; vm_compute in C; try discriminate C; [eexists; intr|destruct r; discriminate C].
Qed.

(** ** C115: does a call report its outcome? *)
(** The result carries an outcome. *)
Definition reports (v : retval) : Prop := match v with RVReg _ a | RVPay _ a | RVOut a => a <> None | _ => True end.
Theorem C115_reports_partial h t c v : call_of h t = Some c -> In (ERet t v) (trace h) ->
  match c with CReg false _ _ | CAbort _ _ => False | _ => True end -> reports v.
Proof.
  intros C I K. assert (RT : returned h t) by (exists v; exact I). pose proof (C112_course h t c C (or_introl RT)) as D.
  assert (J : In (ERet t v) (doings h t)) by (unfold doings; apply filter_In; split; [exact I|apply Nat.eqb_refl]).
  assert (NN : forall v', In (ERet t v) [ERet t v'] -> v = v') by (intros v' [X|[]]; congruence).
  destruct c; cbn in D; try contradiction.
  all: repeat match goal with
       | H : exists _, _ |- _ => destruct H
       | H : _ /\ _ |- _ => destruct H
       | H : _ \/ _ |- _ => destruct H
       | H : match ?x with _ => _ end |- _ => destruct x
       end; try contradiction; subst; try match goal with H : doings _ _ = _ |- _ => rewrite H in J end; cbn in J;
    repeat (destruct J as [J|J]; try discriminate J); try contradiction; try (inversion J; subst; cbn; congruence); try exact I.
  all: try (apply in_app_iff in J as [J|J]; [apply in_map_iff in J as (? & J & _); discriminate J|]); cbn in J;
    repeat (destruct J as [J|J]; try discriminate J); try contradiction; try (inversion J; subst; cbn; congruence).
Qed.
Print Assumptions C115_reports_partial.

(** The second subscriber of a signal is not told whether its registration succeeded. *)
Definition h115 : history := up ++ LCall (CReg false 5 true) :: steps 1 6 ++ LCall (CReg false 5 true) :: steps 2 6.
Theorem C115_second_subscription_refuted : call_of h115 2 = Some (CReg false 5 true) /\ In (ERet 2 (RVReg (Some (1%N, 5)) None)) (trace h115).
Proof. split; [vm_compute; reflexivity|intr]. Qed.
Print Assumptions C115_second_subscription_refuted.

(** Neither is who aborts a request that is not pending (any more). *)
Definition a115 : history := up ++ LCall (CAbort 7 5) :: steps 1 4.
Theorem C115_abort_refuted : call_of a115 1 = Some (CAbort 7 5) /\ In (ERet 1 (RVOut None)) (trace a115).
Proof. split; [vm_compute; reflexivity|intr]. Qed.
Print Assumptions C115_abort_refuted.

(** getStatus with a callback reports success although the request could not be sent, and the callback is never run. *)
Definition g115 : history := up ++ LCall (CGetAsync 5) :: steps 1 4 ++ [LRun 1 badw; LRun 1 badw; LRun 1 badw].
Theorem C115_get_status_refuted h2 t p : call_of g115 1 = Some (CGetAsync 5) /\
  In (ESend 1 (Msg StatusGet 5 0 None 0)) (trace g115) /\ In (ERet 1 (RVStatus Success)) (trace g115) /\ (* the transport refused the message *)
  ~ In (ECb t 1 p) (trace g115) /\ (length (calls g115) <= t -> ~ In (ECb t 1 p) (trace (g115 ++ h2))).
Proof.
  split; [vm_compute; reflexivity|]. split; [intr|]. split; [intr|]. split.
  - intros I. vm_compute in I. repeat (destruct I as [I|I]; [discriminate I|]). exact I.
  - intros L. eapply gone_never; [| |exact L].
    + exists 5, (CGetAsync 5). split; [vm_compute; reflexivity|reflexivity].
    + split; [exists PDone; split; [vm_compute; reflexivity|reflexivity]|]. intros o. replace (rl (sh (final g115)) o) with (@nil entry); [reflexivity|]. unfold rl. replace (requests (sh (final g115))) with (@nil (nat * list entry)) by (vm_compute; reflexivity). reflexivity.
Qed.
Print Assumptions C115_get_status_refuted.
