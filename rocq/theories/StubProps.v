(** Theorems C116 (every request is answered) and C117 (a registered handler is never used up) about the typed server side. *)
From Verif Require Import CsTypes ListUtil ProvModel ProvSpec ProvProofs ProvProofs2 ProvProofs3.
From Verif Require Import StubModel StubSpec StubProofs StubProofs2 StubProofs3 StubProofs4 StubProofs5.

(** ** C116 *)
(** When the executor has nothing left to run and the user has let go of every request, every request received has exactly one
    final answer, or the client aborted it - whatever the handlers did, provided no request was lost (see the refutations). *)
Theorem C116_every_request_is_answered : forall h, NoDup (received h) -> ~ deinited h -> (forall e, In e (strace h) -> loses e = false) ->
  quiescent h -> forall k, In k (received h) -> (final_answers k h = 1 \/ aborted h k) /\ final_answers k h <= 1.
Proof. exact answered_lemma. Qed.

(** At any moment: a request that is still open waits in the executor, is held by the user, or was lost. *)
Theorem C116_open_request_is_somewhere : forall h r, NoDup (received h) -> valid (sfinal h) r = true ->
  (exists t, In t (tasks (sfinal h)) /\ t_req t = r) \/ (exists k, has_request h k r) \/ (exists e, In e (strace h) /\ lost r e = true).
Proof. exact open_request. Qed.

(** And it is in one place only: one task or one handle, so no two handles answer the same request. *)
Theorem C116_one_place : forall h r, cnt (waits r) (tasks (sfinal h)) + cnt (holds r) (handles (sfinal h)) <= 1.
Proof.
  intros h r. pose proof (accounting h r) as A. rewrite handed_once in A. unfold where_now, b2n in A. destruct (Nat.ltb _ _); lia.
Qed.

(** What the handle of a request does: as long as valid() says so, each reply - and destruction - sends exactly one message to
    the client that asked, with its operation and request id, and returns the transport's verdict; afterwards nothing is sent. *)
Definition reply_to (m : msg) (e : env) (b : bool) (p : option payload) : list sevent :=
  [PEv (ESend (m_src m) (Msg (if b then PartialRequestUpdate else OpRequest) (m_op m) (m_rid m) p (m_src m)) (first (e_net e) (m_src m)));
   PEv (EReturn (RStatus (first (e_net e) (m_src m))))].
Theorem C116_replies_through_handle : forall h1 e0 m h2 r k e, let h := h1 ++ (e0, SProv (OIn m)) :: h2 in
  made_for h1 e0 m r -> has_request h k r ->
  exists v, snext h e (HValid k) = [SRet v] /\
    snext h e (HDestroy k) = (if v then reply_to m e false (Some (Err EResponseIgnored)) else []) ++ [SDestroyed k r] /\
    (forall p, snext h e (HRespond k p) = if v then reply_to m e false p else [PEv (EReturn (RStatus InvalidCall))]) /\
    (forall p, snext h e (HUpdate k p) = if v then reply_to m e true p else [PEv (EReturn (RStatus InvalidCall))]) /\
    (forall x, snext h e (HError k x) = if v then reply_to m e false (Some (Err x)) else [PEv (EReturn (RStatus InvalidCall))]).
Proof. intros h1 e0 m h2 r k e h (Hm & c & HC) HK. exact (handle_lemma h1 e0 m h2 c r k Hm HC HK e). Qed.

(** valid(): not answered yet; and it turns false with the first final answer, not with a partial one. *)
Theorem C116_valid_means_unanswered : forall h1 e0 m h2 r k e, let h := h1 ++ (e0, SProv (OIn m)) :: h2 in
  made_for h1 e0 m r -> has_request h k r -> NoDup (received h) -> snext h e (HValid k) = [SRet true] -> final_answers (m_op m, m_rid m) h = 0.
Proof.
  intros h1 e0 m h2 r k e h (Hm & c & HC) HK ND V. destruct (origin_cell h1 e0 m h2 c r Hm HC) as (q & C & Q1 & Q2 & Q3). fold h in C.
  unfold snext in V. cbn [sstep] in V. unfold through in V. unfold has_request in HK. rewrite HK in V. cbn in V. inversion V as [V'].
  pose proof (valid_unanswered h r q ND C V') as A. unfold qkey in A. rewrite Q2, Q3 in A. exact A.
Qed.

(** Moving a request hands it over: nothing is sent, the new handle has it, the old one no longer. *)
Theorem C116_move : forall h e k r, has_request h k r -> let h' := h ++ [(e, HMove k)] in
  snext h e (HMove k) = [] /\ has_request h' (length (handles (sfinal h))) r /\ (forall r', ~ has_request h' k r') /\ sp (sfinal h') = sp (sfinal h).
Proof.
  intros h e k r H h'. destruct (move_lemma h e k r H) as (A & B & C & D). split; [exact A|]. split; [exact C|]. split; [|exact D].
  intros r' K. unfold has_request in K. unfold h' in K. rewrite B in K. discriminate.
Qed.

(** *** What goes wrong *)
Ltac notin := let H := fresh in intros H; repeat (destruct H as [H|H]; [discriminate|]); destruct H.
Ltac nodup := repeat (apply NoDup_cons; [cbn; notin|]); apply NoDup_nil.
Definition e_ok : env := Env (Net (fun _ => Success) (fun _ => Success)) true.
Definition e_full : env := Env (Net (fun _ => Success) (fun _ => Success)) false.
Definition ask (o : nat) (i : N) : sop := SProv (OIn (Msg OpRequest o i (Some (Data 5)) 3)).

(** A request whose task the executor refuses or throws away is never answered: execute()'s result is ignored, and the task
    holds the bare request, whose destruction answers nothing. *)
Theorem C116_refused_task_never_answered_refuted : forall lose, lose = [(e_full, ask 1 7%N)] \/ lose = [(e_ok, ask 1 7%N); (e_ok, SDiscard 0)] ->
  let h := (e_ok, SReg 1 (Some 0)) :: lose in
  NoDup (received h) /\ ~ deinited h /\ quiescent h /\ ~ aborted h (1, 7%N) /\ In (1, 7%N) (received h) /\ final_answers (1, 7%N) h = 0.
Proof.
  intros lose [-> | ->]; cbv zeta; (split; [vm_compute; nodup|]); (split; [vm_compute; notin|]);
    (split; [split; [reflexivity|intros [|k] r; vm_compute; discriminate]|]); (split; [|split; [left; reflexivity|reflexivity]]);
    intros (m & I & H & _); cbn in I; repeat (destruct I as [I|I]; [inversion I; subst; discriminate|]); destruct I.
Qed.

(** Assigning to a request variable that still holds an unanswered request drops that request without an answer (the move
    assignment is defaulted; only the destructor answers). *)
Theorem C116_overwritten_handle_refuted :
  let h := [(e_ok, SReg 1 (Some 0)); (e_ok, ask 1 7%N); (e_ok, ask 1 8%N); (e_ok, SRun 0); (e_ok, SRun 0); (e_ok, HAssign 0 1); (e_ok, HDestroy 0); (e_ok, HDestroy 1)] in
  NoDup (received h) /\ ~ deinited h /\ quiescent h /\ ~ aborted h (1, 7%N) /\ In (1, 7%N) (received h) /\
  final_answers (1, 7%N) h = 0 /\ final_answers (1, 8%N) h = 1.
Proof.
  cbv zeta; (split; [vm_compute; nodup|]); (split; [vm_compute; notin|]);
    (split; [split; [reflexivity|intros [|[|[|k]]] r; vm_compute; discriminate]|]); (split; [|split; [left; reflexivity|split; reflexivity]]);
    intros (m & I & H & _); cbn in I; repeat (destruct I as [I|I]; [inversion I; subst; discriminate|]); destruct I.
Qed.

(** The hypotheses of the first theorem are met by a day with answers of every kind: responded, forgotten, aborted, refused. *)
Definition a_day : shistory :=
  [(e_ok, SReg 1 (Some 0)); (e_ok, ask 1 7%N); (e_ok, ask 1 8%N); (e_ok, ask 1 9%N); (e_ok, ask 2 10%N); (e_ok, SRun 1); (e_ok, SRun 0);
   (e_ok, HUpdate 0 (Some (Data 1))); (e_ok, HMove 0); (e_ok, HRespond 2 (Some (Data 2))); (e_ok, SProv (OIn (Msg Abort 1 9%N None 3)));
   (e_ok, SRun 0); (e_ok, HDestroy 0); (e_ok, HDestroy 1); (e_ok, HDestroy 2); (e_ok, HDestroy 3)].
Example C116_applies : NoDup (received a_day) /\ ~ deinited a_day /\ (forall e, In e (strace a_day) -> loses e = false) /\ quiescent a_day /\
  received a_day = [(1, 7%N); (1, 8%N); (1, 9%N); (2, 10%N)] /\
  map (fun k => final_answers k a_day) (received a_day) = [1; 1; 0; 1] /\
  In (PEv (ESend 3 (Msg OpRequest 1 7%N (Some (Err EResponseIgnored)) 3) Success)) (strace a_day) /\
  In (PEv (ESend 3 (Msg OpRequest 1 8%N (Some (Data 2)) 3) Success)) (strace a_day).
Proof.
  split; [vm_compute; nodup|]. split; [vm_compute; notin|].
  assert (L : forallb (fun e => negb (loses e)) (strace a_day) = true) by (vm_compute; reflexivity).
  split; [intros e I; apply (proj1 (forallb_forall _ _) L) in I; destruct (loses e); [discriminate|reflexivity]|].
  split; [split; [vm_compute; reflexivity|intros [|[|[|[|[|k]]]]] r; vm_compute; discriminate]|].
  split; [vm_compute; reflexivity|]. split; [vm_compute; reflexivity|].
  split; vm_compute; repeat first [left; reflexivity|right].
Qed.

(** ** C117 *)
(** registerRequestHandler() succeeds exactly if no handler is in charge of the operation (the stub having an executor); without
    executor it is refused. *)
Theorem C117_register : forall h e o f, snext h e (SReg o f) = [PEv (EReturn (RBool (match user_handler h o with None => true | Some _ => false end)))].
Proof.
  intros h e o f. destruct (clo_lemma h) as (EX & C). specialize (C o). unfold snext. cbn [sstep]. rewrite EX. unfold call, step. cbn [sp set_closures].
  rewrite (sub_ub h). destruct (get o (handlers (sp (sfinal h)))) as [c|] eqn:G.
  - destruct C as (f0 & _ & ->). cbn. rewrite ?G. reflexivity.
  - rewrite C. cbn. rewrite ?G. reflexivity.
Qed.
Theorem C117_no_executor : forall e o f, sstep e (stub_new false) (SReg o f) = (stub_new false, [SRet false]).
Proof. reflexivity. Qed.

(** However many requests an operation has had, each next one is given to the executor together with the function in charge: the
    function is never used up (although calling the registered wrapper moves the function out of it). *)
Theorem C117_request_reaches_the_executor : forall h e m f, m_code m = OpRequest -> user_handler h (m_op m) = Some f ->
  exists r, made_for h e m r /\ In (SSubmit r (e_accept e)) (snext h e (SProv (OIn m))) /\
    tasks (sfinal (h ++ [(e, SProv (OIn m))])) = tasks (sfinal h) ++ (if e_accept e then [Task r f] else []).
Proof.
  intros h e m f Hm U. destruct (arrival_lemma h e m f Hm U) as (c & r & A & B & _). exists r. unfold made_for. rewrite A.
  split; [split; [exact Hm|exists c; left; reflexivity]|]. split; [right; left; reflexivity|exact B].
Qed.
(** Whenever the executor runs a task: it is the function that was in charge when the request came that is called, with a fresh
    handle that has the request - even if the handler was unregistered or replaced in the meantime. *)
Definition in_charge_on_arrival (h : shistory) (r : nat) (f : option nat) : Prop :=
  exists h1 e m h2, h = h1 ++ (e, SProv (OIn m)) :: h2 /\ made_for h1 e m r /\ user_handler h1 (m_op m) = Some f.
Lemma from_charge h r f : from h r f -> in_charge_on_arrival h r f.
Proof. intros (h1 & e & m & h2 & c & A & B & C & D). exists h1, e, m, h2. unfold made_for. eauto. Qed.
Theorem C117_task_calls_the_function : forall h e i t, nth_error (tasks (sfinal h)) i = Some t ->
  in_charge_on_arrival h (t_req t) (t_fn t) /\
  match t_fn t with
  | Some f => let k := length (handles (sfinal h)) in
      snext h e (SRun i) = [SCall f k (t_req t)] /\ has_request (h ++ [(e, SRun i)]) k (t_req t)
  | None => In (SBadCall (t_req t)) (snext h e (SRun i))
  end.
Proof.
  intros h e i t T. split; [apply from_charge, task_origin; eapply nth_error_In; exact T|]. unfold has_request. rewrite sfinal_snoc. unfold snext. cbn [sstep]. rewrite T.
  destruct (t_fn t) as [f|]; cbn [fst snd handles set_handles set_tasks].
  - split; [reflexivity|]. rewrite nth_error_app2, Nat.sub_diag by lia. reflexivity.
  - destruct (destroy_handle e _ (Some (t_req t))) as [s2 l]. left. reflexivity.
Qed.
(** And nothing else calls user functions, each request is given to one at most once. *)
Theorem C117_only_the_function : forall h f k r, In (SCall f k r) (strace h) -> in_charge_on_arrival h r (Some f).
Proof.
  intros h f k r. induction h as [|[e x] h IH] using rev_ind; [intros []|]. rewrite strace_snoc. intros J.
  assert (F : from h r (Some f) -> in_charge_on_arrival (h ++ [(e, x)]) r (Some f)) by (intros F; apply from_charge, from_snoc; exact F).
  apply in_app_or in J as [J|J].
  - destruct (IH J) as (h1 & e1 & m & h2 & -> & A). exists h1, e1, m, (h2 ++ [(e, x)]). split; [rewrite <- app_assoc; reflexivity|exact A].
  - destruct (proj1 (call_cause h e x) f k r J) as (i & -> & T & _). apply F. exact (task_origin h _ (nth_error_In _ _ T)).
Qed.
Theorem C117_at_most_once : forall h r, cnt (runs_for r) (strace h) <= 1.
Proof. exact runs_once. Qed.
(** Only a registered empty function throws. *)
Theorem C117_bad_call_only_if_empty : forall h r, In (SBadCall r) (strace h) -> in_charge_on_arrival h r None.
Proof.
  intros h r. induction h as [|[e x] h IH] using rev_ind; [intros []|]. rewrite strace_snoc. intros J. apply in_app_or in J as [J|J].
  - destruct (IH J) as (h1 & e1 & m & h2 & -> & A). exists h1, e1, m, (h2 ++ [(e, x)]). split; [rewrite <- app_assoc; reflexivity|exact A].
  - destruct (proj2 (call_cause h e x) r J) as (i & -> & T). apply from_charge, from_snoc. exact (task_origin h _ (nth_error_In _ _ T)).
Qed.
(** The stub, unlike the provider, accepts an empty function; each request then makes the executor's thread throw. *)
Theorem C117_empty_handler_accepted_refuted : forall e1 e2 m e3, m_code m = OpRequest -> e_accept e2 = true ->
  let h := [(e1, SReg (m_op m) None); (e2, SProv (OIn m))] in
  snext [] e1 (SReg (m_op m) None) = [PEv (EReturn (RBool true))] /\ exists r, In (SBadCall r) (snext h e3 (SRun 0)).
Proof.
  intros e1 e2 m e3 Hm A h. split; [reflexivity|]. assert (U : user_handler [(e1, SReg (m_op m) None)] (m_op m) = Some None) by (cbn; rewrite Nat.eqb_refl; reflexivity).
  destruct (C117_request_reaches_the_executor _ e2 m _ Hm U) as (r & _ & _ & T). rewrite A in T. cbn [app] in T. fold h in T.
  exists r. unfold snext. cbn [sstep]. change (tasks (sfinal [(e1, SReg (m_op m) None)])) with (@nil task) in T. rewrite T. cbn [app nth_error t_fn t_req].
  destruct (destroy_handle e3 _ (Some r)) as [s2 l]. left. reflexivity.
Qed.

(** Five requests, one handler: all five are served, also the one that came before the handler was replaced. *)
Example C117_applies :
  let h := [(e_ok, SReg 1 (Some 4)); (e_ok, ask 1 1%N); (e_ok, ask 1 2%N); (e_ok, SRun 0); (e_ok, ask 1 3%N);
            (e_ok, SProv (OUnregHandler 1)); (e_ok, SReg 1 (Some 6)); (e_ok, ask 1 4%N); (e_ok, SRun 2); (e_ok, SRun 1); (e_ok, SRun 0)] in
  filter (fun e => match e with SCall _ _ _ => true | _ => false end) (strace h) = [SCall 4 0 0; SCall 6 1 3; SCall 4 2 2; SCall 4 3 1] /\
  user_handler h 1 = Some (Some 6) /\ has_request h 3 1.
Proof. cbv zeta. split; [vm_compute; reflexivity|]. split; vm_compute; reflexivity. Qed.

Print Assumptions C116_every_request_is_answered.
Print Assumptions C116_open_request_is_somewhere.
Print Assumptions C116_one_place.
Print Assumptions C116_replies_through_handle.
Print Assumptions C116_valid_means_unanswered.
Print Assumptions C116_move.
Print Assumptions C116_refused_task_never_answered_refuted.
Print Assumptions C116_overwritten_handle_refuted.
Print Assumptions C117_register.
Print Assumptions C117_no_executor.
Print Assumptions C117_request_reaches_the_executor.
Print Assumptions C117_task_calls_the_function.
Print Assumptions C117_only_the_function.
Print Assumptions C117_at_most_once.
Print Assumptions C117_bad_call_only_if_empty.
Print Assumptions C117_empty_handler_accepted_refuted.
