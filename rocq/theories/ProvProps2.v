(** Theorem C111: the provider's remaining calls, and everything the provider sends. *)
From Verif Require Import ProvModel ProvSpec ProvProofs ProvProofs2 ProvProofs3 ProvProofs4 ProvProps.

(** Whether the provider serves: set by the last startServing() / stopServing(). *)
Definition serving_step (a : availability) (x : op) : availability := match x with OStart => Available | OStop => Unavailable | _ => a end.
Definition serving_after (h : history) : availability := fold_left serving_step (ops_of h) Unavailable.

(** A call leaves no trace: whatever is done afterwards shows the same events as without it. *)
Definition no_effect (h : history) (n : net) (x : op) : Prop := forall k, snd (run (final (h ++ [(n, x)])) k) = snd (run (final h) k).

(** registerRequestHandler() succeeds exactly if a handler is given and none is in charge of the operation. *)
Theorem C111_register_handler : forall h n o f, next h n (ORegHandler o f) =
  [EReturn (RBool (match f, handler_after h o with Some _, None => true | _, _ => false end))].
Proof.
  intros h n o f. unfold next, step. rewrite (inv_ub _ (final_inv h)). destruct (final_tables h) as (H1 & _ & _). rewrite H1.
  destruct f as [f|], (handler_after h o); reflexivity.
Qed.
Theorem C111_unregister_handler : forall h n o, next h n (OUnregHandler o) = [EReturn (RBool (match handler_after h o with Some _ => true | None => false end))].
Proof. intros h n o. unfold next, step. rewrite (inv_ub _ (final_inv h)). destruct (final_tables h) as (H1 & _ & _). rewrite H1. reflexivity. Qed.

(** startServing() and stopServing() announce the new availability to the server, nothing else does, and availability() tells it. *)
Theorem C111_start_announces : forall h n, next h n OStart = [EAvail Unavailable Available] /\ next h n OStop = [EAvail Available Unavailable].
Proof. intros h n. unfold next, step. rewrite (inv_ub _ (final_inv h)). auto. Qed.
Lemma listener_no_avail p l a b : ~ In (EAvail a b) (map (fun i => EListener i p) l).
Proof. intros I. apply in_map_iff in I as (? & X & _). discriminate. Qed.
Lemma try_send_no_avail f m l rg a b : ~ In (EAvail a b) (snd (try_send f m l rg)).
Proof. pose proof (try_send_eq f m l rg) as T. destruct (try_send f m l rg) as [[rg' bs] ev]. destruct T as (_ & _ & ->). intros I. apply in_map_iff in I as (? & X & _). discriminate. Qed.
Lemma broadcast_no_avail n s o c p a b : ~ In (EAvail a b) (snd (fst (broadcast n s o c p))).
Proof.
  unfold broadcast, broadcast_to_clients. destruct (addresses_of o (regs s)) as [|x l] eqn:A.
  - cbn. rewrite app_nil_r. apply listener_no_avail.
  - set (m := Msg c o rid_invalid p no_address). pose proof (try_send_no_avail (first n) m (x :: l) (regs s) a b) as T1.
    destruct (try_send (first n) m (x :: l) (regs s)) as [[rg1 b1] ev1]. destruct b1 as [|y b1].
    + cbn. rewrite app_nil_r. intros I. apply in_app_iff in I as [I|I]; [exact (listener_no_avail _ _ _ _ I)|exact (T1 I)].
    + pose proof (try_send_no_avail (second n) m (y :: b1) rg1 a b) as T2. destruct (try_send (second n) m (y :: b1) rg1) as [[rg2 b2] ev2]. cbn.
      intros I. apply in_app_iff in I as [I|I]; [exact (listener_no_avail _ _ _ _ I)|]. apply in_app_iff in I as [I|I]; auto.
Qed.
Theorem C111_only_start_and_stop_announce : forall h n x a b, In (EAvail a b) (next h n x) -> x = OStart \/ x = OStop.
Proof.
  intros h n x a b. unfold next, step. rewrite (inv_ub _ (final_inv h)). set (s := final h).
  destruct x as [m|r p pa|r cb|o p|o|o nt|o p|o f|o|o l|o l| | |]; auto; intros I; exfalso.
  - unfold on_incoming in I. destruct (m_code m); cbn in I; try (destruct I as [I|[]]; discriminate I).
    + apply in_app_iff in I as [I|[I|[]]]; [|discriminate]. unfold update_latest in I. destruct (get_status _ _); cbn in I; [destruct I as [I|[]]; discriminate I|contradiction].
    + destruct I as [I|[I|[]]]; discriminate.
    + unfold on_action_request in I. destruct (get (m_op m) (handlers s)); cbn in I; destruct I as [I|[I|[]]]; discriminate.
    + unfold on_request_aborted in I. destruct (find_req s m) as [r|]; cbn in I; [|destruct I as [I|[]]; discriminate I].
      unfold abort_event in I. destruct (nth_error _ r) as [q|]; cbn in I; [|destruct I as [I|[]]; discriminate I]. destruct (q_abort q); cbn in I; repeat (destruct I as [I|I]; try discriminate I); exact I.
  - destruct (nth_error (heap s) r) as [q|]; [|exact I]. rewrite ret_snd in I. apply in_app_iff in I as [I|[I|[]]]; [|discriminate I]. unfold reply, respond_to_request in I. destruct (q_valid q); [|exact I].
    destruct (opcode_eqb _ _); destruct (find_req s _); cbn in I; repeat (destruct I as [I|I]; try discriminate I); exact I.
  - destruct (nth_error (heap s) r) as [q|]; [|exact I]. destruct (q_valid q); cbn in I; [exact I|destruct I as [I|[]]; discriminate I].
  - rewrite ret_snd in I. apply in_app_iff in I as [I|[I|[]]]; [|discriminate I]. unfold set_status in I. destruct (differs _ _); [exact (broadcast_no_avail _ _ _ _ _ _ _ I)|exact I].
  - destruct I as [I|[]]; discriminate I.
  - destruct nt; rewrite ret_snd in I; apply in_app_iff in I as [I|[I|[]]]; try discriminate I; [exact (broadcast_no_avail _ _ _ _ _ _ _ I)|exact I].
  - rewrite ret_snd in I. apply in_app_iff in I as [I|[I|[]]]; [|discriminate I]. exact (broadcast_no_avail _ _ _ _ _ _ _ I).
  - destruct f as [f|]; [destruct (get o (handlers s))|]; destruct I as [I|[]]; discriminate I.
  - destruct I as [I|[]]; discriminate I.
  - exact I.
  - exact I.
  - rewrite deinit_eq in I. cbn in I. apply in_flat_map in I as (r & _ & I). unfold abort_of in I. destruct (cell s r) as [q|]; [|exact I]. destruct (q_abort q); [destruct I as [I|[]]; discriminate I|exact I].
Qed.
Theorem C111_availability : forall h, avail (final h) = serving_after h.
Proof.
  induction h as [|[n x] h IH] using rev_ind; [reflexivity|]. unfold serving_after in *. rewrite final_snoc, ops_snoc, fold_left_app. cbn [fold_left]. rewrite <- IH.
  pose proof (inv_ub _ (final_inv h)) as U. set (s := final h) in *. clear IH. unfold step. rewrite U.
  assert (B : forall s o c p, avail (fst (fst (broadcast n s o c p))) = avail s).
  { intros s0 o c p. unfold broadcast, broadcast_to_clients. destruct (addresses_of o (regs s0)) as [|y l]; [reflexivity|].
    destruct (try_send _ _ _ _) as [[rg1 b1] ev1]. destruct b1; [reflexivity|]. destruct (try_send _ _ _ _) as [[rg2 b2] ev2]. reflexivity. }
  destruct x as [m|r p pa|r cb|o p|o|o nt|o p|o f|o|o l|o l| | |]; try reflexivity; cbn [serving_step].
  - unfold on_incoming. destruct (m_code m); try reflexivity.
    + unfold on_action_request. destruct (get (m_op m) (handlers s)); reflexivity.
    + unfold on_request_aborted. destruct (find_req s m); reflexivity.
  - destruct (nth_error (heap s) r) as [q|]; [|reflexivity]. rewrite ret_fst. unfold reply, respond_to_request. destruct (q_valid q); [|reflexivity].
    destruct (opcode_eqb _ _); destruct (find_req s _); reflexivity.
  - destruct (nth_error (heap s) r) as [q|]; [|reflexivity]. destruct (q_valid q); reflexivity.
  - rewrite ret_fst. unfold set_status. destruct (differs _ _); [rewrite B; reflexivity|reflexivity].
  - destruct nt; rewrite ret_fst; [rewrite B|]; reflexivity.
  - rewrite ret_fst, B. reflexivity.
  - destruct f as [f|]; [destruct (get o (handlers s))|]; reflexivity.
  - rewrite deinit_eq. reflexivity.
Qed.

(** A message with a code that is no request to a provider is reported as not handled and has no effect. *)
Theorem C111_foreign_message : forall h n m,
  match m_code m with StatusRegister | SignalRegister | Unregister | UnregisterServiceStatus | OpRequest | StatusGet | Abort => False | _ => True end ->
  next h n (OIn m) = [EReturn (RBool false)] /\ no_effect h n (OIn m).
Proof.
  intros h n m C. unfold no_effect. rewrite final_snoc. unfold next, step. rewrite (inv_ub _ (final_inv h)). unfold on_incoming. destruct (m_code m); try contradiction; split; reflexivity.
Qed.

(** Unregistering sends nothing and is accepted, whether something was registered or not. *)
Theorem C111_unregister : forall h n m, m_code m = Unregister \/ m_code m = UnregisterServiceStatus -> next h n (OIn m) = [EReturn (RBool true)].
Proof. intros h n m [C|C]; unfold next, step; rewrite (inv_ub _ (final_inv h)); unfold on_incoming; rewrite C; reflexivity. Qed.

(** Removing a property without notification, connecting and disconnecting server side listeners are silent. *)
Theorem C111_silent : forall h n o l, next h n (ORemoveProperty o false) = [EReturn (RStatus Success)] /\ next h n (OListen o l) = [] /\ next h n (OUnlisten o l) = [].
Proof. intros h n o l. unfold next, step. rewrite (inv_ub _ (final_inv h)). auto. Qed.

(** onAborted() on an open request stores the callback; on one that is closed it runs the callback at once, and that has no other effect. *)
Theorem C111_on_aborted : forall h1 n m h2 f r, let h := h1 ++ (n, OIn m) :: h2 in
  NoDup (requests_received (ops_of h)) -> m_code m = OpRequest -> In (EHandler f r) (next h1 n (OIn m)) ->
  forall n' cb, if closed_by r m h2 then next h n' (OOnAborted r cb) = [EAbortCb cb] /\ no_effect h n' (OOnAborted r cb) else next h n' (OOnAborted r cb) = [].
Proof.
  intros h1 n m h2 f r h ND Hm HE n' cb. destruct (life h1 n m h2 f r ND Hm HE) as (ab & C & _). fold h in C. unfold no_effect. rewrite final_snoc. unfold next, step.
  rewrite (inv_ub _ (final_inv h)). unfold cell in C. rewrite C. cbn [q_valid]. destruct (closed_by r m h2); cbn [negb]; [split|]; reflexivity.
Qed.

(** ** Everything the provider sends *)
Lemma try_send_in f m l rg d m' r : In (ESend d m' r) (snd (try_send f m l rg)) -> m' = m /\ r = f d /\ In d l.
Proof. pose proof (try_send_eq f m l rg) as T. destruct (try_send f m l rg) as [[rg' bs] ev]. destruct T as (_ & _ & ->). cbn. intros I. apply in_map_iff in I as (? & X & I). injection X as <- <- <-. auto. Qed.
Lemma broadcast_in n s o c p d m r : In (ESend d m r) (snd (fst (broadcast n s o c p))) ->
  m = Msg c o rid_invalid p no_address /\ (r = first n d \/ first n d = ReceiverBusy /\ r = second n d).
Proof.
  assert (L : forall l, ~ In (ESend d m r) (map (fun i => EListener i p) l)) by (intros l I; apply in_map_iff in I as (? & X & _); discriminate).
  unfold broadcast, broadcast_to_clients. destruct (addresses_of o (regs s)) as [|x l] eqn:A.
  - cbn. rewrite app_nil_r. intros I. destruct (L _ I).
  - set (m0 := Msg c o rid_invalid p no_address). pose proof (try_send_in (first n) m0 (x :: l) (regs s) d m r) as T1. pose proof (try_send_eq (first n) m0 (x :: l) (regs s)) as T0.
    destruct (try_send (first n) m0 (x :: l) (regs s)) as [[rg1 b1] ev1]. destruct T0 as (_ & B & _). destruct b1 as [|y b1].
    + cbn. rewrite app_nil_r. intros I. apply in_app_iff in I as [I|I]; [destruct (L _ I)|]. destruct (T1 I) as (-> & -> & _). auto.
    + pose proof (try_send_in (second n) m0 (y :: b1) rg1 d m r) as T2. destruct (try_send (second n) m0 (y :: b1) rg1) as [[rg2 b2] ev2]. cbn.
      intros I. apply in_app_iff in I as [I|I]; [destruct (L _ I)|]. apply in_app_iff in I as [I|I]; [destruct (T1 I) as (-> & -> & _); auto|]. destruct (T2 I) as (-> & -> & J). split; [reflexivity|]. right. split; [|reflexivity].
      rewrite B in J. apply filter_In in J as [_ J]. destruct (first n d); try discriminate J. reflexivity.
Qed.

(** Each message the provider sends is an answer to the message it is handling, sent to the sender of that with its operation
    and request id, a reply of the user to a request, or a broadcast of a property or signal; and the result the transport gives
    for it is that of the first attempt, or of the second one after a busy first one. *)
Inductive sending (h : history) (n : net) : op -> nat -> msg -> acs -> Prop :=
| S_answer m p : m_code m = StatusRegister \/ m_code m = StatusGet -> p = value_after h (m_op m) -> sending h n (OIn m) (m_src m) (Msg (m_code m) (m_op m) (m_rid m) p (m_src m)) (first n (m_src m))
| S_unhandled m : m_code m = OpRequest -> handler_after h (m_op m) = None ->
    sending h n (OIn m) (m_src m) (Msg OpRequest (m_op m) (m_rid m) (Some (Err EHandlerUnavailable)) (m_src m)) (first n (m_src m))
| S_reply r p b q : cell (final h) r = Some q -> q_valid q = true ->
    sending h n (OReply r p b) (q_src q) (Msg (if b then PartialRequestUpdate else OpRequest) (q_op q) (q_rid q) p (q_src q)) (first n (q_src q))
| S_broadcast x c o p a r : broadcasts (value_after h) x = Some (c, o, p) -> subscribed h a o = true -> In r (attempts n a) ->
    sending h n x a (Msg c o rid_invalid p no_address) r.

Theorem C111_everything_sent : forall h n x d m r, In (ESend d m r) (next h n x) -> sending h n x d m r.
Proof.
  intros h n x d m r I.
  assert (BR : forall o c p s, broadcasts (value_after h) x = Some (c, o, p) -> c = StatusRegister \/ c = SignalRegister -> regs s = regs (final h) -> In (ESend d m r) (snd (fst (broadcast n s o c p))) -> sending h n x d m r).
  { intros o c p s B K RG J. destruct (broadcast_in _ _ _ _ _ _ _ _ J) as [-> R]. apply S_broadcast; [exact B| |].
    - pose proof (broadcast_lemma n s o c p) as X. destruct (broadcast n s o c p) as [[s' ev] a]. rewrite RG in X. destruct (X s' ev a (inv_regs _ (final_inv h)) K eq_refl) as (_ & _ & _ & _ & Y).
      apply Y in J. unfold reg in J. rewrite RG in J. rewrite <- final_subs. exact J.
    - unfold attempts. destruct R as [->|[F ->]]; [destruct (first n d); cbn; auto|rewrite F; cbn; auto]. }
  destruct (final_tables h) as (T1 & T2 & _). unfold next, step in I. rewrite (inv_ub _ (final_inv h)) in I. 
  destruct x as [m0|r0 p pa|r0 cb|o p|o|o nt|o p|o f|o|o l|o l| | |]; cbn [broadcasts] in BR.
  - unfold on_incoming in I. destruct (m_code m0) eqn:C; cbn in I; try (destruct I as [I|[]]; discriminate I).
    + apply in_app_iff in I as [I|[I|[]]]; [|discriminate]. unfold update_latest, get_status in I. change (props (save_register (final h) m0)) with (props (final h)) in I. rewrite T2 in I.
      destruct (value_after h (m_op m0)) as [v|] eqn:V; cbn in I; [|contradiction]. destruct I as [I|[]]. injection I as <- <- <-. unfold with_payload. apply S_answer; [auto|]. congruence.
    + destruct I as [I|[I|[]]]; [|discriminate]. injection I as <- <- <-. unfold with_payload, get_status. rewrite T2. apply S_answer; auto.
    + unfold on_action_request in I. rewrite T1 in I. destruct (handler_after h (m_op m0)) eqn:H; cbn in I; (destruct I as [I|[I|[]]]; [|discriminate]); [discriminate|].
      injection I as <- <- <-. unfold with_payload. rewrite C. apply S_unhandled; auto.
    + unfold on_request_aborted in I. destruct (find_req (final h) m0) as [r1|]; cbn in I; [|destruct I as [I|[]]; discriminate I].
      unfold abort_event in I. destruct (nth_error _ r1) as [q|]; cbn in I; [|destruct I as [I|[]]; discriminate I]. destruct (q_abort q); cbn in I; repeat (destruct I as [I|I]; try discriminate I); contradiction.
  - destruct (nth_error (heap (final h)) r0) as [q|] eqn:Q; [|contradiction]. rewrite ret_snd in I. apply in_app_iff in I as [I|[I|[]]]; [|discriminate I]. unfold reply in I. destruct (q_valid q) eqn:V; [|contradiction].
    assert (J : ESend d m r = ESend (q_src q) (Msg (if pa then PartialRequestUpdate else OpRequest) (q_op q) (q_rid q) p (q_src q)) (first n (q_src q))).
    { unfold respond_to_request in I. destruct pa; cbn [m_code opcode_eqb] in I; destruct (find_req (final h) _); cbn in I; try contradiction; destruct I as [I|[]]; symmetry; exact I. }
    injection J as -> -> ->. apply S_reply; auto.
  - destruct (nth_error (heap (final h)) r0) as [q|]; [|contradiction]. destruct (q_valid q); cbn in I; [contradiction|destruct I as [I|[]]; discriminate I].
  - rewrite ret_snd in I. apply in_app_iff in I as [I|[I|[]]]; [|discriminate I]. unfold set_status in I. rewrite T2 in I.
    destruct (differs (value_after h o) p) eqn:DF; [|contradiction]. refine (BR o StatusRegister p (set_props (final h) (put o p (props (final h)))) _ (or_introl eq_refl) eq_refl I).
    destruct (value_after h o) as [v|]; [|reflexivity]. destruct p as [v'|]; [|reflexivity]. cbn in DF. destruct (payload_eqb v v'); [discriminate|reflexivity].
  - destruct I as [I|[]]; discriminate I.
  - destruct nt; rewrite ret_snd in I; apply in_app_iff in I as [I|[I|[]]]; try discriminate I; [|contradiction]. exact (BR o StatusRegister None (set_props (final h) (del o (props (final h)))) eq_refl (or_introl eq_refl) eq_refl I).
  - rewrite ret_snd in I. apply in_app_iff in I as [I|[I|[]]]; [|discriminate I]. exact (BR o SignalRegister p (final h) eq_refl (or_intror eq_refl) eq_refl I).
  - destruct f as [f|]; [destruct (get o (handlers (final h)))|]; destruct I as [I|[]]; discriminate I.
  - destruct I as [I|[]]; discriminate I.
  - contradiction.
  - contradiction.
  - rewrite deinit_eq in I. cbn in I. apply in_flat_map in I as (r1 & _ & I). unfold abort_of in I. destruct (cell (final h) r1) as [q|]; [|contradiction]. destruct (q_abort q); [destruct I as [I|[]]; discriminate I|contradiction].
  - destruct I as [I|[]]; discriminate I.
  - destruct I as [I|[]]; discriminate I.
Qed.

(** Two handlers offered, one request answered with a partial update and a final response, a subscriber told, serving. *)
Definition h111 : history :=
  [(ok_net, OStart); (ok_net, ORegHandler 5 (Some 9)); (ok_net, ORegHandler 5 (Some 8)); (ok_net, OIn (Msg StatusRegister 4 1 None 3)); (ok_net, rq 1 5 0 7);
   (ok_net, OOnAborted 0 20); (ok_net, OReply 0 (Some (Data 1)) false); (ok_net, OOnAborted 0 21); (ok_net, OSetStatus 4 (Some (Data 6)));
   (ok_net, OIn (Msg ServiceStatusUpdate 4 2 None 3)); (ok_net, OUnregHandler 5); (ok_net, OUnregHandler 5); (ok_net, OIn (Msg Unregister 4 1 None 3))].
Example C111_applies : trace h111 =
  [EAvail Unavailable Available; EReturn (RBool true); EReturn (RBool false); EReturn (RBool true); EHandler 9 0; EReturn (RBool true);
   ESend 1 (Msg OpRequest 5 0 (Some (Data 1)) 1) Success; EReturn (RStatus Success); EAbortCb 21;
   ESend 3 (Msg StatusRegister 4 rid_invalid (Some (Data 6)) 0) Success; EReturn (RStatus ReceiverUnavailable);
   EReturn (RBool false); EReturn (RBool true); EReturn (RBool false); EReturn (RBool true)] /\ serving_after h111 = Available.
Proof. split; reflexivity. Qed.

Print Assumptions C111_register_handler.
Print Assumptions C111_unregister_handler.
Print Assumptions C111_start_announces.
Print Assumptions C111_only_start_and_stop_announce.
Print Assumptions C111_availability.
Print Assumptions C111_foreign_message.
Print Assumptions C111_unregister.
Print Assumptions C111_silent.
Print Assumptions C111_on_aborted.
Print Assumptions C111_everything_sent.
