(** Theorems C119 (typed callbacks and results of a proxy) and C120 (what a proxy loses). *)
From Verif Require Import CsTypes ListUtil ReqSpec ReqProofs ReqInv ReqProps ProxyModel ProxySpec ProxyProofs ProxyProofs2 ProxyProofs3 ProxyProofs4.

(** ** C119 *)
(** A proxy call that does not come back at once is a call of the requester, so that everything proved about the requester holds
    for the history underneath, with the same events. *)
Theorem C119_below : forall x0 h, requester_events (ptrace x0 h) = trace (below x0 h) /\ calls (below x0 h) = map origin_call (origins_from [x0] h).
Proof. intros x0 h. split; [exact (pi_ev _ _ (pi_all x0 h))|exact (pi_calls _ _ (pi_all x0 h))]. Qed.

(** The calls that come back at once, and what they answer. *)
Theorem C119_refused : forall x0 h i c, pnext x0 h (LProxy i c) =
  match nth_error (executors x0 h) i with
  | Some x => if needs_callback c && negb (usable x c)
              then [QRefused (match c with QRegVoid _ _ => RVReg None None | QGet _ _ _ => RVStatus InvalidParam | _ => RVReg None (Some InvalidParam) end)]
              else []
  | None => []
  end.
Proof.
  intros x0 h i c. unfold pnext. cbn [pstep]. rewrite (pi_ex _ _ (pi_all x0 h)). destruct (nth_error (executors x0 h) i) as [x|]; [|reflexivity].
  destruct c as [ty o p cb|ty o p b|ty o cb|ty o cb|o cb|ty o cb|ty o b|rid o|o|rid o|y|y]; try reflexivity; cbn; unfold wrap, usable; cbn; destruct cb, x; reflexivity.
Qed.

(** A user's callback is called only on the executor the proxy had when it was given, with what the requester got for that call. *)
Theorem C119_only_what_arrived : forall x0 h x t f a, In (QCall x t f a) (ptrace x0 h) ->
  exists c p t', origin_of x0 h t = Some (FromProxy (Some x) c) /\ callback c = Some f /\ a = meaning c p /\ In (ECb t' t p) (trace (below x0 h)).
Proof. exact call_only. Qed.
(** A callback is never used up, however often it runs (although running the wrapper moves the callback out of it). *)
Theorem C119_never_used_up : forall x0 h x t, ~ In (QBad x t) (ptrace x0 h).
Proof. exact never_bad. Qed.
(** Every run of the callback by the requester is a call on the executor, or one still to come, or one the executor refused or
    threw away - counted for any set of arguments. *)
Theorem C119_nothing_lost : forall x0 h t x c f, origin_of x0 h t = Some (FromProxy (Some x) c) -> callback c = Some f ->
  forall g, let gp := fun p => g (meaning c p) in
  cnt (called t g) (ptrace x0 h) + cnt (queued t gp) (queues (pfinal x0 h) x) + cnt (missed t gp) (ptrace x0 h) = cnt (ran t gp) (trace (below x0 h)).
Proof. intros x0 h t x c f O C g gp. exact (delivery x0 t x c f g C h O). Qed.
(** An executor that takes every task and runs them first come, first served calls the callbacks of all its calls in the order in
    which the requester got the messages; what is missing at the end is still queued. *)
Theorem C119_in_order : forall x0 h x, fifo x h ->
  exists rest, calls_on x (ptrace x0 h) ++ rest = flat_map (due x (origin_of x0 h)) (trace (below x0 h)) /\ length rest = length (queues (pfinal x0 h) x).
Proof. intros x0 h x F. exists (map task_call (queues (pfinal x0 h) x)). split; [exact (in_order x0 x h F)|apply map_length]. Qed.

(** What a call returns is made of what the requester returned, for every call. *)
Theorem C119_results : forall x0 h t v, In (QRet t v) (ptrace x0 h) <->
  exists o r, origin_of x0 h t = Some o /\ In (ERet t r) (trace (below x0 h)) /\ v = match o with FromProxy _ c => returns c r | FromElsewhere _ => PRaw r end.
Proof.
  intros x0 h t v. split.
  - intros J. apply ret_only in J as (o & r & A & B & C). exists o, r. destruct o; auto.
  - intros (o & r & A & B & ->). destruct (ret_all x0 h t r B) as (o' & A' & C). assert (o' = o) by congruence. subst o'. destruct o; exact C.
Qed.
(** In particular sendRequest reports the requester's verdict, and answers OperationFailed unless the request succeeded, else what
    the payload says: an error exactly if the service sent one. *)
Theorem C119_sync_response : forall x0 h t x ty o p b r a, origin_of x0 h t = Some (FromProxy x (QSendSync ty o p b)) ->
  In (QRet t (PResponse r a)) (ptrace x0 h) ->
  exists q, (In (ERet t (RVPay q (Some a))) (trace (below x0 h)) \/ (In (ERet t (RVPay q None)) (trace (below x0 h)) /\ a = FailedUnknown)) /\
    ((a = Success /\ r = response ty q) \/ (a <> Success /\ r = RError EOperationFailed)).
Proof.
  intros x0 h t x ty o p b r a O J. apply C119_results in J as (o' & r' & A & B & E). rewrite O in A. inversion A; subst o'. cbn in E.
  destruct r' as [| | | | |q a']; try discriminate. exists q. destruct a' as [a'|].
  - destruct a'; inversion E; subst; (split; [left; exact B|]); first [left; split; reflexivity|right; split; [discriminate|reflexivity]].
  - inversion E; subst. split; [right; auto|]. right. split; [discriminate|reflexivity].
Qed.
Theorem C119_error_means : forall x0 h t x ty o p b r a, origin_of x0 h t = Some (FromProxy x (QSendSync ty o p b)) ->
  In (QRet t (PResponse r a)) (ptrace x0 h) -> forall c, r = RError c ->
  (a <> Success /\ c = EOperationFailed) \/ (a = Success /\ In (ERet t (RVPay (Some (Err c)) (Some Success))) (trace (below x0 h))).
Proof.
  intros x0 h t x ty o p b r a O J c ->. apply C119_results in J as (o' & r' & A & B & E). rewrite O in A. inversion A; subst o'. cbn in E.
  destruct r' as [| | | | |q a']; try discriminate. destruct a' as [a'|].
  - destruct a'; inversion E; subst; try (left; split; [discriminate|reflexivity]; fail).
    right. split; [reflexivity|]. destruct q as [[n|e]|]; cbn in *; try discriminate; [destruct (enc ty); discriminate|]. match goal with H : RError _ = RError _ |- _ => inversion H; subst end. exact B.
  - inversion E; subst. left. split; [discriminate|reflexivity].
Qed.

(** The callback of an asynchronous request is called at most once, if the service sends no partial updates. *)
Lemma cnt_le {A} (p q : A -> bool) l : (forall x, In x l -> p x = true -> q x = true) -> cnt p l <= cnt q l.
Proof.
  induction l as [|x l IH]; intros H; [rewrite !cnt_nil; lia|]. rewrite !cnt_cons. assert (IH' : cnt p l <= cnt q l) by (apply IH; intros; apply H; [right|]; assumption).
  specialize (H x (or_introl eq_refl)). destruct (p x); [rewrite H by reflexivity|]; unfold b2n; destruct (q x); lia.
Qed.
Theorem C119_answered_at_most_once : forall x0 h t x ty o p cb, origin_of x0 h t = Some (FromProxy x (QSend ty o p cb)) ->
  (forall u ok m, call_of (below x0 h) u = Some (CIncoming ok m) -> m_code m <> PartialRequestUpdate) ->
  cnt (called t (fun _ => true)) (ptrace x0 h) <= 1.
Proof.
  intros x0 h t x ty o p cb O NP. pose proof (C28_at_most_one_final_answer (below x0 h) t) as F.
  assert (C : call_of (below x0 h) t = Some (CSendAsync o p (usable x (QSend ty o p cb)))).
  { unfold call_of. rewrite (pi_calls _ _ (pi_all x0 h)), nth_error_map. unfold origin_of in O. rewrite O. reflexivity. }
  assert (L : cnt (ran t (fun _ => true)) (trace (below x0 h)) <= final_runs (below x0 h) t).
  { unfold final_runs. apply cnt_le. intros e I. destruct e as [| |u w q| | | |]; try discriminate. cbn. destruct (Nat.eqb_spec w t) as [->|]; [|discriminate]. intros _. cbn.
    destruct (C28_only_its_own_answers (below x0 h) u t q _ o C eq_refl I) as [(m & Cm & A & _)|(_ & X)]; [|discriminate].
    unfold is_final. rewrite Cm. unfold answer_code in A. destruct (final_code (m_code m)); [reflexivity|]. cbn in A. pose proof (NP _ _ _ Cm) as N. destruct (m_code m); try discriminate. congruence. }
  destruct (cnt (called t (fun _ => true)) (ptrace x0 h)) eqn:Z; [lia|].
  assert (K : 1 <= cnt (called t (fun _ => true)) (ptrace x0 h)) by lia. apply cnt_pos_inv in K as (e & I & E). destruct e as [| | | |y u f a| |]; try discriminate.
  cbn in E. rewrite andb_true_r in E. apply Nat.eqb_eq in E. subst u. destruct (call_only _ _ _ _ _ _ I) as (c & q & t' & A & B & _). rewrite O in A. inversion A; subst.
  pose proof (C119_nothing_lost x0 h t y _ f O B (fun _ => true)) as D. cbv zeta in D. cbn beta in D. lia.
Qed.

(** Hypotheses met: two proxies on one requester with executors 1 and 2; a status with two updates, a request answered by an error,
    a synchronous request; executor 1 runs first come, first served. *)
Definition num : ptype := PT true (fun n => (Some (n + 100), Some TSuccess)).
Definition ok_w : oracle := Orc Success false (fun _ => false).
Definition steps (t n : nat) : phistory := repeat (LStep t ok_w (fun _ => true)) n.
Definition in_msg (c : opcode) (o : nat) (rid : N) (p : payload) : plabel := LRequester (CIncoming true (Msg c o rid (Some p) 0)).
Definition day : phistory :=
  LRequester (CServiceStatus true Unavailable Available) :: steps 0 3 ++
  LProxy 0 (QRegStatus num 5 (Some 7)) :: steps 1 5 ++
  LWith 0 2 :: LProxy 1 (QSend num 6 (Some (Data 1)) (Some 8)) :: steps 2 5 ++
  in_msg StatusRegister 5 0 (Data 3) :: steps 3 4 ++
  in_msg OpRequest 6 1 (Err ERequestRejected) :: steps 4 4 ++
  LSetExecutor 0 None :: in_msg StatusRegister 5 0 (Data 4) :: steps 5 4 ++
  LProxy 0 (QSendSync num 9 None false) :: steps 6 5 ++ in_msg OpRequest 9 2 (Data 5) :: steps 7 4 ++ steps 6 2 ++
  [LExec 1 0; LExec 2 0; LExec 1 0].
Example C119_applies : fifo 1 day /\ origin_of (Some 1) day 1 = Some (FromProxy (Some 1) (QRegStatus num 5 (Some 7))) /\
  calls_on 1 (ptrace (Some 1) day) = [(1, 7, AUpd (Some 103)); (1, 7, AUpd (Some 104))] /\
  calls_on 2 (ptrace (Some 1) day) = [(2, 8, AResp (RError ERequestRejected))] /\
  In (QRet 6 (PResponse (Output (Some 105)) Success)) (ptrace (Some 1) day) /\
  cnt (ran 1 (fun _ => true)) (trace (below (Some 1) day)) = 2.
Proof.
  split; [|split; [vm_compute; reflexivity|split; [vm_compute; reflexivity|split; [vm_compute; reflexivity|split; [vm_compute; repeat first [left; reflexivity|right]|vm_compute; reflexivity]]]]].
  intros l I. unfold day, steps in I. cbn in I. repeat (destruct I as [<-|I]; [cbn; auto; try discriminate|]). destruct I.
Qed.

(** ** C120 *)
(** The callback of an asynchronous request of a proxy without executor is never called, although the request is sent, reported as
    sent and answered. *)
Theorem C120_no_executor_no_answer_refuted :
  (forall x0 h t c, origin_of x0 h t = Some (FromProxy None c) -> forall y f a, ~ In (QCall y t f a) (ptrace x0 h)) /\
  let h := LRequester (CServiceStatus true Unavailable Available) :: steps 0 3 ++
           LProxy 0 (QSend num 6 (Some (Data 1)) (Some 8)) :: steps 1 5 ++ in_msg OpRequest 6 0 (Data 2) :: steps 2 5 in
  In (QRet 1 (PRaw (RVReg (Some (0%N, 6)) (Some Success)))) (ptrace None h) /\ In (QRet 2 (PRaw (RVBool true))) (ptrace None h) /\
  forall y f a, ~ In (QCall y 1 f a) (ptrace None h).
Proof.
  assert (G : forall x0 h t c, origin_of x0 h t = Some (FromProxy None c) -> forall y f a, ~ In (QCall y t f a) (ptrace x0 h)).
  { intros x0 h t c O y f a J. destruct (call_only _ _ _ _ _ _ J) as (c1 & p & t' & A & _). congruence. }
  split; [exact G|]. cbv zeta. split; [vm_compute; repeat first [left; reflexivity|right]|]. split; [vm_compute; repeat first [left; reflexivity|right]|].
  apply (G _ _ _ (QSend num 6 (Some (Data 1)) (Some 8))). vm_compute. reflexivity.
Qed.
(** registerSignal of a signal without attributes that is refused says nothing: callStatus is left as it was. *)
Theorem C120_refused_signal_unreported_refuted : forall x0 h i x o cb, nth_error (executors x0 h) i = Some x -> cb = None \/ x = None ->
  pnext x0 h (LProxy i (QRegVoid o cb)) = [QRefused (RVReg None None)].
Proof. intros x0 h i x o cb N [->| ->]; rewrite C119_refused, N; [|destruct cb]; reflexivity. Qed.
(** Content that was cut short is passed on like complete content: nothing tells the callback so. *)
Theorem C120_corrupted_content_passed_on_refuted : forall ty n v, enc ty = true -> dec ty n = (Some v, Some TCorrupted) ->
  response ty (Some (Data n)) = Output (Some v) /\ update ty (Some (Data n)) = Some v /\
  forall x0 h t x o p b, origin_of x0 h t = Some (FromProxy x (QSendSync ty o p b)) -> In (ERet t (RVPay (Some (Data n)) (Some Success))) (trace (below x0 h)) ->
    In (QRet t (PResponse (Output (Some v)) Success)) (ptrace x0 h).
Proof.
  intros ty n v E D. assert (R : response ty (Some (Data n)) = Output (Some v)) by (unfold response, content; rewrite E, D; reflexivity).
  split; [exact R|]. split; [unfold update, content; rewrite E, D; reflexivity|]. intros x0 h t x o p b O J.
  apply C119_results. exists (FromProxy x (QSendSync ty o p b)), (RVPay (Some (Data n)) (Some Success)). split; [exact O|split; [exact J|]]. cbn [returns]. rewrite R. reflexivity.
Qed.

Print Assumptions C119_below.
Print Assumptions C119_refused.
Print Assumptions C119_only_what_arrived.
Print Assumptions C119_never_used_up.
Print Assumptions C119_nothing_lost.
Print Assumptions C119_in_order.
Print Assumptions C119_results.
Print Assumptions C119_sync_response.
Print Assumptions C119_error_means.
Print Assumptions C119_answered_at_most_once.
Print Assumptions C120_no_executor_no_answer_refuted.
Print Assumptions C120_refused_signal_unreported_refuted.
Print Assumptions C120_corrupted_content_passed_on_refuted.
