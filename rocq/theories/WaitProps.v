(** Properties of ServiceStatusSignal (C121, C122). *)
From Verif Require Import ListUtil CsTypes WaitModel WaitSpec WaitProofs.

(** * C121 *)
Theorem C121_ready h l1 t l2 : trace h = l1 ++ EReady t :: l2 ->
  exists exp timed, call_no h t = Some (CWait exp timed) /\ last_told l1 = exp /\ ~ was_stopped l1.
Proof. exact (all_good h l1 (EReady t) l2). Qed.
Print Assumptions C121_ready.

Theorem C121_interrupted h l1 t l2 : trace h = l1 ++ EInterrupted t :: l2 ->
  exists exp timed, call_no h t = Some (CWait exp timed) /\ was_stopped l1.
Proof. exact (all_good h l1 (EInterrupted t) l2). Qed.
Print Assumptions C121_interrupted.

Theorem C121_timeout h l1 t l2 : trace h = l1 ++ ETimeOut t :: l2 ->
  exists exp, call_no h t = Some (CWait exp true) /\ In (LExpire t) h /\ last_told l1 <> exp /\ ~ was_stopped l1.
Proof. exact (all_good h l1 (ETimeOut t) l2). Qed.
Print Assumptions C121_timeout.

Theorem C121_current h l1 t a l2 : trace h = l1 ++ ECurrent t a :: l2 -> call_no h t = Some CCurrent /\ a = last_told l1.
Proof. exact (all_good h l1 (ECurrent t a) l2). Qed.
Print Assumptions C121_current.

Theorem C121_told_and_stopped_by_calls h l1 t l2 :
  (forall a, trace h = l1 ++ EChange t a :: l2 -> call_no h t = Some (CChange a)) /\
  (trace h = l1 ++ EStop t :: l2 -> call_no h t = Some CStop).
Proof. split; [intros a; exact (all_good h l1 (EChange t a) l2)|exact (all_good h l1 (EStop t) l2)]. Qed.
Print Assumptions C121_told_and_stopped_by_calls.

Theorem C121_returns_once h t : cnt (returns t) (trace h) <= 1.
Proof. exact (returns_once h t). Qed.
Print Assumptions C121_returns_once.

(** A wait whose condition holds returns without help of the clock, of spurious wake-ups or of further calls. *)
Theorem C121_no_lost_wakeup h t exp timed : pending h t (CWait exp timed) ->
  last_told (trace h) = exp \/ was_stopped (trace h) ->
  exists k e, k <= 2 /\ trace (h ++ repeat (LStep t) k) = trace h ++ [e] /\ (e = EReady t \/ e = EInterrupted t).
Proof. exact (no_lost_wakeup h t exp timed). Qed.
Print Assumptions C121_no_lost_wakeup.

Theorem C121_timed_returns h t exp : pending h t (CWait exp true) ->
  exists k e, k <= 1 /\ trace (h ++ repeat (LStep t) k ++ [LExpire t; LStep t]) = trace h ++ [e] /\ returns t e = true.
Proof. exact (timed_returns h t exp). Qed.
Print Assumptions C121_timed_returns.

Theorem C121_others_never_block h t c : pending h t c -> (forall exp timed, c <> CWait exp timed) ->
  exists e, trace (h ++ [LStep t]) = trace h ++ [e] /\ returns t e = true.
Proof. intros P W. apply (others_return h t c P). destruct c; cbn; auto. exfalso; eapply W; eauto. Qed.
Print Assumptions C121_others_never_block.

(** Two waiters, a change, a stop: one is Ready, one Interrupted, a timed one times out. *)
Definition ex121 : history :=
  [LCall (CWait Available false); LCall (CWait Unknown false); LCall (CWait Unknown true); LStep 0; LStep 1; LStep 2;
   LExpire 2; LStep 2; LCall (CChange Available); LStep 3; LStep 0; LStep 0; LSpurious 1; LStep 1; LCall CCurrent; LStep 4;
   LCall CStop; LStep 5; LStep 1; LStep 1].
Example C121_applies :
  trace ex121 = [ETimeOut 2; EChange 3 Available; EReady 0; ECurrent 4 Available; EStop 5; EInterrupted 1] /\
  (let h := firstn 10 ex121 in pending h 0 (CWait Available false) /\ last_told (trace h) = Available) /\
  (let h := firstn 6 ex121 in pending h 2 (CWait Unknown true)) /\
  (let h := firstn 17 ex121 in pending h 5 CStop).
Proof.
  split; [reflexivity|]. split; [split; [split; [reflexivity|]|reflexivity]|split; (split; [reflexivity|])];
    intros (e & H & R); vm_compute in H; repeat (destruct H as [<-|H]; [discriminate|]); destruct H.
Qed.

(** * C122 *)

(** The signal was told the awaited status while the call was waiting, but the call does not return: the status had changed back before
    it could look. *)
Theorem C122_short_change_is_missed_refuted : exists h t,
  call_no h t = Some (CWait Available false) /\
  (exists h1 h2 u, h = h1 ++ h2 /\ call_no h1 t = Some (CWait Available false) /\ In (EChange u Available) (trace h) /\
     ~ In (EChange u Available) (trace h1)) /\
  ~ was_stopped (trace h) /\ forall k, ~ returned (h ++ repeat (LStep t) k) t.
Proof.
  exists ([LCall (CWait Available false); LStep 0] ++ [LCall (CChange Available); LStep 1; LCall (CChange Unavailable); LStep 2; LStep 0; LStep 0]), 0.
  split; [reflexivity|]. split.
  { eexists _, _, 1. split; [reflexivity|]. split; [reflexivity|]. split; [vm_compute; auto|intros []]. }
  split. { intros [t H]. vm_compute in H. repeat (destruct H as [H|H]; [discriminate|]). destruct H. }
  match goal with |- forall k, ~ returned (?x ++ _) _ => set (h := x) end.
  assert (E : forall k, final (h ++ repeat (LStep 0) k) = final h /\ trace (h ++ repeat (LStep 0) k) = trace h).
  { induction k as [|k [IH1 IH2]]; [rewrite app_nil_r; auto|].
    replace (repeat (LStep 0) (S k)) with (repeat (LStep 0) k ++ [LStep 0])
      by (clear; induction k; cbn; [reflexivity|now rewrite IHk]).
    rewrite app_assoc, final_snoc, trace_snoc, IH1, IH2. split; vm_compute; reflexivity. }
  intros k (e & H & R). rewrite (proj2 (E k)) in H. vm_compute in H.
  repeat (destruct H as [<-|H]; [discriminate|]). destruct H.
Qed.
Print Assumptions C122_short_change_is_missed_refuted.

(** A fresh signal takes a service it was never told about for unavailable. *)
Theorem C122_ready_without_news_refuted : exists h t,
  call_no h t = Some (CWait Unavailable false) /\ In (EReady t) (trace h) /\ forall u a, ~ In (EChange u a) (trace h).
Proof.
  exists [LCall (CWait Unavailable false); LStep 0], 0. split; [reflexivity|]. split; [vm_compute; auto|].
  intros u a H. vm_compute in H. destruct H as [H|[]]. discriminate.
Qed.
Print Assumptions C122_ready_without_news_refuted.
