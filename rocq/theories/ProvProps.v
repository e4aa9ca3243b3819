(** Property theorems about the service provider: C17 - C27, C58.
    [final h] / [trace h]: state and events after history [h]; [next h n x]: events of the further call [x]. *)
From Verif Require Import ProvModel ProvSpec ProvProofs ProvProofs2 ProvProofs3 ProvProofs4 ProvRace.

Definition ok_net : net := Net (fun _ => Success) (fun _ => Success).
Definition rq (src o : nat) (rid : N) (n : nat) : op := OIn (Msg OpRequest o rid (Some (Data n)) src).

(** ** C17 *)
Theorem C17_request_dispatch h n m : m_code m = OpRequest ->
  match handler_after h (m_op m) with
  | Some f => exists r, next h n (OIn m) = [EHandler f r; EReturn (RBool true)] /\ cell (final h) r = None /\
      cell (final (h ++ [(n, OIn m)])) r = Some (Rq (m_src m) (m_op m) (m_rid m) (m_pay m) true None)
  | None => next h n (OIn m) =
      [ESend (m_src m) (Msg OpRequest (m_op m) (m_rid m) (Some (Err EHandlerUnavailable)) (m_src m)) (first n (m_src m));
       EReturn (RBool true)] /\ final (h ++ [(n, OIn m)]) = final h
  end.
Proof. exact (request_lemma h n m). Qed.
Print Assumptions C17_request_dispatch.

Theorem C17_handlers_called_only_for_requests h n x f r : In (EHandler f r) (next h n x) ->
  exists m, x = OIn m /\ m_code m = OpRequest /\ handler_after h (m_op m) = Some f.
Proof. exact (handler_only_lemma h n x f r). Qed.
Print Assumptions C17_handlers_called_only_for_requests.

Definition h17 : history := [(ok_net, ORegHandler 5 (Some 9)); (ok_net, ORegHandler 5 (Some 8)); (ok_net, rq 1 5 0 7)].
Example C17_applies : handler_after h17 5 = Some 9 /\ handler_after h17 6 = None /\
  trace h17 = [EReturn (RBool true); EReturn (RBool false); EHandler 9 0; EReturn (RBool true)] /\
  next h17 ok_net (rq 1 6 3 7) =
    [ESend 1 (Msg OpRequest 6 3 (Some (Err EHandlerUnavailable)) 1) Success; EReturn (RBool true)].
Proof. repeat split. Qed.

(** ** C18 : every history *)
Theorem C18_at_most_one_final_per_request_message h k :
  final_responses k (trace h) <= countb (key_eqb k) (requests_received (ops_of h)).
Proof. pose proof (count_inv h k). unfold requests_for in *. lia. Qed.
Print Assumptions C18_at_most_one_final_per_request_message.

Theorem C18_at_most_one_final h k : NoDup (requests_received (ops_of h)) -> final_responses k (trace h) <= 1.
Proof.
  intros ND. etransitivity; [apply C18_at_most_one_final_per_request_message|apply nodup_count; exact ND].
Qed.
Print Assumptions C18_at_most_one_final.

(** Exact effect of replying to request object [r], given what happened to it since it arrived. *)
Theorem C18_replies_exact h1 n m h2 f r : let h := h1 ++ (n, OIn m) :: h2 in
  NoDup (requests_received (ops_of h)) -> m_code m = OpRequest -> In (EHandler f r) (next h1 n (OIn m)) ->
  forall n' p b, next h n' (OReply r p b) =
    if closed_by r m h2 then [EReturn (RStatus InvalidCall)]
    else [ESend (m_src m) (Msg (if b then PartialRequestUpdate else OpRequest) (m_op m) (m_rid m) p (m_src m)) (first n' (m_src m));
          EReturn (RStatus (first n' (m_src m)))].
Proof. exact (life_replies h1 n m h2 f r). Qed.
Print Assumptions C18_replies_exact.

(** No sequence of calls makes the provider dereference a null request. *)
Theorem C18_no_undefined_behaviour h : ub (final h) = false.
Proof. exact (inv_ub _ (final_inv h)). Qed.
Print Assumptions C18_no_undefined_behaviour.

Definition h18 : history :=
  [(ok_net, ORegHandler 5 (Some 9)); (ok_net, rq 1 5 0 7); (ok_net, OReply 0 (Some (Data 1)) true); (ok_net, OReply 0 (Some (Data 2)) false)].
Example C18_applies : NoDup (requests_received (ops_of h18)) /\ final_responses (5, 0%N) (trace h18) = 1 /\
  next h18 ok_net (OReply 0 None false) = [EReturn (RStatus InvalidCall)] /\
  In (EHandler 9 0) (next (firstn 1 h18) ok_net (rq 1 5 0 7)).
Proof. split; [repeat constructor; intros []|]. repeat split. left. reflexivity. Qed.

(** Two clients using the same request id for the same operation: one object is answered twice, the other refused. *)
Definition h18b : history :=
  [(ok_net, ORegHandler 5 (Some 9)); (ok_net, rq 1 5 0 7); (ok_net, rq 2 5 0 8); (ok_net, OReply 1 (Some (Data 1)) false)].
Theorem C18_colliding_ids_refuted :
  next h18b ok_net (OReply 1 (Some (Data 2)) false) = [ESend 2 (Msg OpRequest 5 0 (Some (Data 2)) 2) Success; EReturn (RStatus Success)] /\
  In (ESend 2 (Msg OpRequest 5 0 (Some (Data 1)) 2) Success) (trace h18b) /\
  next h18b ok_net (OReply 0 (Some (Data 3)) false) = [EReturn (RStatus InvalidCall)].
Proof. split; [reflexivity|split; [|reflexivity]]. cbn. tauto. Qed.
Print Assumptions C18_colliding_ids_refuted.

(** ** C19 *)
Theorem C19_partial_update_keeps_open h1 n m h2 f r n1 p1 : let h := h1 ++ (n, OIn m) :: h2 in
  NoDup (requests_received (ops_of h)) -> m_code m = OpRequest -> In (EHandler f r) (next h1 n (OIn m)) ->
  closed_by r m h2 = false ->
  next h n1 (OReply r p1 true) =
    [ESend (m_src m) (Msg PartialRequestUpdate (m_op m) (m_rid m) p1 (m_src m)) (first n1 (m_src m));
     EReturn (RStatus (first n1 (m_src m)))] /\
  (forall n' p b, next (h ++ [(n1, OReply r p1 true)]) n' (OReply r p b) =
    [ESend (m_src m) (Msg (if b then PartialRequestUpdate else OpRequest) (m_op m) (m_rid m) p (m_src m)) (first n' (m_src m));
     EReturn (RStatus (first n' (m_src m)))]).
Proof.
  intros h ND Hm HE CL. split.
  - unfold h. rewrite (life_replies h1 n m h2 f r ND Hm HE), CL. reflexivity.
  - intros n' p b. unfold h. rewrite <- app_assoc. cbn [app]. rewrite (life_replies h1 n m (h2 ++ [(n1, OReply r p1 true)]) f r); try assumption.
    + unfold closed_by in *. rewrite ops_snoc, existsb_app, CL. cbn. rewrite andb_false_r. reflexivity.
    + change (h1 ++ (n, OIn m) :: h2 ++ [(n1, OReply r p1 true)]) with (h1 ++ ((n, OIn m) :: h2) ++ [(n1, OReply r p1 true)]).
      rewrite app_assoc, ops_snoc, requests_app. cbn. rewrite app_nil_r. exact ND.
Qed.
Print Assumptions C19_partial_update_keeps_open.

(** Nothing but replying to a valid request of that key (or a missing handler) produces a reply. *)
Theorem C19_replies_only_from_replying h n x k e : In e (next h n x) -> any_reply k e = true ->
  (exists m, x = OIn m /\ m_code m = OpRequest /\ (m_op m, m_rid m) = k /\ handler_after h (m_op m) = None) \/
  (exists r p b q, x = OReply r p b /\ cell (final h) r = Some q /\ q_valid q = true /\ (q_op q, q_rid q) = k).
Proof. exact (reply_source_lemma h n x k e). Qed.
Print Assumptions C19_replies_only_from_replying.

Example C19_applies : closed_by 0 (Msg OpRequest 5 0 (Some (Data 7)) 1) [(ok_net, OReply 0 (Some (Data 1)) true)] = false /\
  next (firstn 3 h18) ok_net (OReply 0 (Some (Data 4)) true) =
    [ESend 1 (Msg PartialRequestUpdate 5 0 (Some (Data 4)) 1) Success; EReturn (RStatus Success)].
Proof. split; reflexivity. Qed.

(** With threads: an update found valid can overtake the final response. *)
Theorem C19_update_after_final_refuted : let s := race_run [KFinal; KPartial] [1; 1; 0; 0; 0; 0; 1] in
  finals s = 1 /\ last_is_partial s = true.
Proof. exact race_update_after_final. Qed.
Print Assumptions C19_update_after_final_refuted.

(** ** C20 *)
Theorem C20_abort_exact h1 n m h2 f r : let h := h1 ++ (n, OIn m) :: h2 in
  NoDup (requests_received (ops_of h)) -> m_code m = OpRequest -> In (EHandler f r) (next h1 n (OIn m)) ->
  closed_by r m h2 = false ->
  forall n' pay src, next h n' (OIn (Msg Abort (m_op m) (m_rid m) pay src)) =
    match installed_abort r h2 with Some cb => [EAbortCb cb] | None => [] end ++ [EReturn (RBool true)].
Proof. exact (life_abort h1 n m h2 f r). Qed.
Print Assumptions C20_abort_exact.

Theorem C20_abort_unknown h n m : m_code m = Abort ->
  (forall r q, cell (final h) r = Some q -> (q_op q, q_rid q) <> (m_op m, m_rid m)) ->
  next h n (OIn m) = [EReturn (RBool true)] /\ final (h ++ [(n, OIn m)]) = final h.
Proof. exact (abort_unknown_lemma h n m). Qed.
Print Assumptions C20_abort_unknown.

Theorem C20_callback_at_most_once_partial h cb : existsb is_deinit (ops_of h) = false ->
  abort_runs cb (trace h) <= abort_registrations cb (ops_of h).
Proof. intros D. pose proof (abort_pot_lemma h cb D). lia. Qed.
Print Assumptions C20_callback_at_most_once_partial.

(** In every interleaving of any number of responders, updaters, aborters with one onAborted. *)
Theorem C20_callback_race ks sched : length (filter (fun k => match k with KOnAborted => true | _ => false end) ks) = 1 ->
  let s := race_run ks sched in
  runs s <= 1 /\ (Forall (fun x => snd x = PDone) (threads s) -> aborts s = 1 -> runs s = 1).
Proof. exact (race_callback ks sched). Qed.
Print Assumptions C20_callback_race.

Definition h20 : history := [(ok_net, ORegHandler 5 (Some 9)); (ok_net, rq 1 5 0 7); (ok_net, OOnAborted 0 33)].
Example C20_applies : next h20 ok_net (OIn (Msg Abort 5 0 None 1)) = [EAbortCb 33; EReturn (RBool true)] /\
  next (h20 ++ [(ok_net, OIn (Msg Abort 5 0 None 1))]) ok_net (OIn (Msg Abort 5 0 None 1)) = [EReturn (RBool true)] /\
  (let s := race_run [KAbort; KOnAborted; KFinal] [2; 0; 0; 1; 0; 0; 1] in aborts s = 1 /\ runs s = 1).
Proof. repeat split. Qed.

(** After deinit the request is still in the table: an abort runs the callback again. *)
Theorem C20_callback_twice_after_deinit_refuted :
  abort_runs 33 (trace (h20 ++ [(ok_net, ODeinit); (ok_net, OIn (Msg Abort 5 0 None 1))])) = 2 /\
  abort_registrations 33 (ops_of (h20 ++ [(ok_net, ODeinit); (ok_net, OIn (Msg Abort 5 0 None 1))])) = 1.
Proof. split; reflexivity. Qed.
Print Assumptions C20_callback_twice_after_deinit_refuted.

(** A callback installed after the final response runs although nobody aborted. *)
Theorem C20_callback_without_abort_refuted :
  trace [(ok_net, ORegHandler 5 (Some 9)); (ok_net, rq 1 5 0 7); (ok_net, OReply 0 None false); (ok_net, OOnAborted 0 33)]
  = [EReturn (RBool true); EHandler 9 0; EReturn (RBool true);
     ESend 1 (Msg OpRequest 5 0 None 1) Success; EReturn (RStatus Success); EAbortCb 33].
Proof. reflexivity. Qed.
Print Assumptions C20_callback_without_abort_refuted.

(** ** C21 *)
(** What other requests' keys do never closes a request (consequence of [C18_replies_exact]: only [closes] counts). *)
Theorem C21_other_keys_do_not_interfere_partial h1 n m h2 f r n1 x : let h := h1 ++ (n, OIn m) :: h2 in
  NoDup (requests_received (ops_of (h ++ [(n1, x)]))) -> m_code m = OpRequest -> In (EHandler f r) (next h1 n (OIn m)) ->
  closes r m x = false ->
  forall n' p b, next (h ++ [(n1, x)]) n' (OReply r p b) = next h n' (OReply r p b).
Proof.
  intros h ND Hm HE CL n' p b.
  assert (ND0 : NoDup (requests_received (ops_of h))).
  { rewrite ops_snoc, requests_app in ND. eapply nodup_prefix. exact ND. }
  unfold h in *. rewrite (life_replies h1 n m h2 f r ND0 Hm HE). rewrite <- app_assoc in ND |- *. cbn [app] in ND |- *.
  rewrite (life_replies h1 n m (h2 ++ [(n1, x)]) f r ND Hm HE).
  unfold closed_by. rewrite ops_snoc, existsb_app. cbn. rewrite CL, !orb_false_r. reflexivity.
Qed.
Print Assumptions C21_other_keys_do_not_interfere_partial.

(** Client 2 aborts "its" request 0 of operation 5 and kills client 1's. *)
Theorem C21_abort_by_other_client_refuted :
  let h := [(ok_net, ORegHandler 5 (Some 9)); (ok_net, rq 1 5 0 7); (ok_net, rq 2 5 0 8); (ok_net, OIn (Msg Abort 5 0 None 2))] in
  next h ok_net (OReply 0 (Some (Data 1)) false) = [EReturn (RStatus InvalidCall)] /\
  next h ok_net (OReply 1 (Some (Data 2)) false) = [ESend 2 (Msg OpRequest 5 0 (Some (Data 2)) 2) Success; EReturn (RStatus Success)].
Proof. split; reflexivity. Qed.
Print Assumptions C21_abort_by_other_client_refuted.

Example C21_applies : closes 0 (Msg OpRequest 5 0 (Some (Data 7)) 1) (OIn (Msg Abort 5 1 None 2)) = false /\
  NoDup (requests_received (ops_of [(ok_net, rq 1 5 0 7); (ok_net, rq 2 5 1 8)])).
Proof. split; [reflexivity|]. repeat constructor; cbn; [intros [E|[]]; discriminate|intros []]. Qed.

(** ** C22 : any number of threads, any schedule *)
Theorem C22_one_outcome ks sched : finals (race_run ks sched) + aborts (race_run ks sched) <= 1.
Proof. exact (race_one_final ks sched). Qed.
Print Assumptions C22_one_outcome.

Theorem C22_safe_partial ks sched : length (filter answers_or_aborts ks) <= 1 -> nullref (race_run ks sched) = false.
Proof. exact (race_safe ks sched). Qed.
Print Assumptions C22_safe_partial.

Theorem C22_null_dereference_refuted :
  nullref (race_run [KFinal; KFinal] [0; 1; 0; 1]) = true /\ nullref (race_run [KFinal; KAbort] [0; 1; 0]) = true.
Proof. split; reflexivity. Qed.
Print Assumptions C22_null_dereference_refuted.

Example C22_applies : length (filter answers_or_aborts [KPartial; KFinal; KPartial]) <= 1 /\
  let s := race_run [KPartial; KFinal; KPartial] [0; 1; 1; 0; 0; 2; 1; 1; 2] in
  finals s = 1 /\ nullref s = false.
Proof. split; [cbn; lia|split; reflexivity]. Qed.

(** ** C23 *)
Theorem C23_get_status h n o : next h n (OGetStatus o) = [EReturn (RPayload (value_after h o))].
Proof. exact (get_status_lemma h n o). Qed.
Print Assumptions C23_get_status.

Theorem C23_status_get_request h n m : m_code m = StatusGet ->
  next h n (OIn m) = [ESend (m_src m) (Msg StatusGet (m_op m) (m_rid m) (value_after h (m_op m)) (m_src m)) (first n (m_src m));
                      EReturn (RBool true)].
Proof. exact (status_get_lemma h n m). Qed.
Print Assumptions C23_status_get_request.

Theorem C23_unchanged_is_silent h n o p : value_after h o = Some p ->
  next h n (OSetStatus o (Some p)) = [EReturn (RStatus NoAction)].
Proof. exact (set_unchanged_lemma h n o p). Qed.
Print Assumptions C23_unchanged_is_silent.

Theorem C23_change_notifies_subscribers h n o p a : value_after h o <> p -> subscribed h a o = true ->
  notes_to a (next h n (OSetStatus o p)) = map (fun r => (StatusRegister, o, p, r)) (attempts n a).
Proof.
  intros V S. rewrite notes_lemma. cbn. destruct (value_after h o) as [v|]; [destruct p as [x|]|destruct p]; rewrite ?S; try reflexivity.
  destruct (payload_eqb_spec v x); [subst; contradiction|]. rewrite S. reflexivity.
Qed.
Print Assumptions C23_change_notifies_subscribers.

(** Setting null over an unset property is announced although nothing changed. *)
Theorem C23_null_over_unset_notifies_refuted :
  let h := [(ok_net, OIn (Msg StatusRegister 4 0 None 2))] in
  value_after h 4 = None /\ notes_to 2 (next h ok_net (OSetStatus 4 None)) = [(StatusRegister, 4, None, Success)].
Proof. split; reflexivity. Qed.
Print Assumptions C23_null_over_unset_notifies_refuted.

Example C23_applies : let h := [(ok_net, OSetStatus 4 (Some (Data 1))); (ok_net, OSetStatus 4 (Some (Data 2)))] in
  value_after h 4 = Some (Data 2) /\ next h ok_net (OSetStatus 4 (Some (Data 2))) = [EReturn (RStatus NoAction)].
Proof. split; reflexivity. Qed.

(** ** C24 *)
(** Every notification of every call to every address, exactly. *)
Theorem C24_notifications_exact h a n x :
  notes_to a (next h n x) = expected_notes (value_after h) (subscribed h a) a n x.
Proof. exact (notes_lemma h a n x). Qed.
Print Assumptions C24_notifications_exact.

(** From registration on, a reachable subscriber is registered and its view equals the property. *)
Theorem C24_subscriber_in_step h1 n a o m h2 :
  m_code m = StatusRegister -> m_op m = o -> m_src m = a ->
  existsb (detaches a o) (ops_of h2) = false ->
  (forall n' x, In (n', x) h2 -> first n' a = Success) ->
  let h := (n, OIn m) :: h2 in
  subscribed (h1 ++ h) a o = true /\
  view_from None o (notes_to a (concat (snd (run (final h1) h)))) = value_after (h1 ++ h) o.
Proof. exact (in_step_lemma h1 n a o m h2). Qed.
Print Assumptions C24_subscriber_in_step.

Definition h24 : history := [(ok_net, OSetStatus 4 (Some (Data 1))); (ok_net, OIn (Msg StatusRegister 4 0 None 2));
  (ok_net, OSetStatus 4 (Some (Data 2))); (ok_net, OSetStatus 4 (Some (Data 2))); (ok_net, OSetStatus 4 (Some (Data 3)))].
Example C24_applies : map (fun x => snd (fst x)) (notes_to 2 (trace h24)) = [Some (Data 1); Some (Data 2); Some (Data 3)] /\
  subscribed h24 2 4 = true /\ subscribed h24 3 4 = false /\ existsb (detaches 2 4) (ops_of h24) = false.
Proof. repeat split. Qed.

(** ** C25 *)
Theorem C25_unreachable_dropped_busy_retried h n x c o p a o' : broadcasts (value_after h) x = Some (c, o, p) ->
  notes_to a (next h n x) = (if subscribed h a o then map (fun r => (c, o, p, r)) (attempts n a) else []) /\
  subscribed (h ++ [(n, x)]) a o' = (if subscribed h a o then stays n a && subscribed h a o' else subscribed h a o').
Proof.
  intros B. rewrite notes_lemma, subscribed_snoc. unfold expected_notes, sub_step.
  destruct x as [m|r p0 pa|r cb|o0 p0|o0|o0 nf|o0 p0|o0 h0|o0|o0 l|o0 l| | |]; try discriminate B; cbn [broadcasts] in B |- *; rewrite ?B; try (split; reflexivity).
  injection B as <- <- <-. split; reflexivity.
Qed.
Print Assumptions C25_unreachable_dropped_busy_retried.

Definition bad_net : net :=
  Net (fun a => match a with 1 => Success | 2 => ReceiverBusy | 3 => ReceiverBusy | _ => ReceiverUnavailable end)
      (fun a => match a with 2 => ReceiverBusy | _ => Success end).
Definition sub_all : history := map (fun a => (ok_net, OIn (Msg StatusRegister 4 0 None a))) [1; 2; 3; 4] ++
  [(ok_net, OIn (Msg SignalRegister 6 0 None 4))].
Example C25_applies : notes_to 2 (next sub_all bad_net (OSetStatus 4 (Some (Data 1)))) =
    [(StatusRegister, 4, Some (Data 1), ReceiverBusy); (StatusRegister, 4, Some (Data 1), ReceiverBusy)] /\
  (let h := sub_all ++ [(bad_net, OSetStatus 4 (Some (Data 1)))] in
   map (fun a => subscribed h a 4) [1; 2; 3; 4] = [true; true; true; false] /\ subscribed h 4 6 = false).
Proof. repeat split. Qed.

(** ** C26 : the returned status, exactly *)
Theorem C26_broadcast_result_partial h n x c o p : broadcasts (value_after h) x = Some (c, o, p) ->
  (returned_value (next h n x) = Some (RStatus Success) /\
     forall a, subscribed h a o = true -> attempts n a = [ReceiverBusy; ReceiverBusy]) \/
  (returned_value (next h n x) = Some (RStatus ReceiverUnavailable) /\
     exists a, subscribed h a o = true /\ attempts n a <> [ReceiverBusy; ReceiverBusy]).
Proof. exact (broadcast_result_lemma h n x c o p). Qed.
Print Assumptions C26_broadcast_result_partial.

(** Whenever a subscriber was reached the caller is told ReceiverUnavailable. *)
Theorem C26_inverted_refuted h n x c o p a : broadcasts (value_after h) x = Some (c, o, p) ->
  subscribed h a o = true -> In Success (attempts n a) ->
  returned_value (next h n x) = Some (RStatus ReceiverUnavailable).
Proof.
  intros B S J. destruct (broadcast_result_lemma h n x c o p B) as [[_ H]|[H _]]; [|exact H].
  rewrite (H a S) in J. destruct J as [J|[J|[]]]; discriminate.
Qed.
Print Assumptions C26_inverted_refuted.

Example C26_applies : returned_value (next sub_all bad_net (OSetStatus 4 (Some (Data 1)))) = Some (RStatus ReceiverUnavailable) /\
  In Success (attempts bad_net 1) /\ returned_value (next [] bad_net (OSetStatus 4 (Some (Data 1)))) = Some (RStatus Success).
Proof. repeat split. left. reflexivity. Qed.

(** ** C27 *)
Theorem C27_deinit_clears h n a o : subscribed (h ++ [(n, ODeinit)]) a o = false /\ value_after (h ++ [(n, ODeinit)]) o = None /\
  (forall n', next (h ++ [(n, ODeinit)]) n' (OGetStatus o) = [EReturn (RPayload None)]) /\
  (forall n' p, notes_to a (next (h ++ [(n, ODeinit)]) n' (OSetStatus o p)) = []).
Proof.
  assert (S : forall o, subscribed (h ++ [(n, ODeinit)]) a o = false) by (intros; rewrite subscribed_snoc; reflexivity).
  assert (V : value_after (h ++ [(n, ODeinit)]) o = None) by (rewrite value_after_snoc; reflexivity).
  split; [apply S|]. split; [exact V|]. split.
  - intros n'. rewrite get_status_lemma, V. reflexivity.
  - intros n' p. rewrite notes_lemma. cbn. rewrite V. rewrite S. destruct p; reflexivity.
Qed.
Print Assumptions C27_deinit_clears.

Theorem C27_deinit_refuses_replies h n n' r p b : cell (final h) r <> None ->
  next (h ++ [(n, ODeinit)]) n' (OReply r p b) = [EReturn (RStatus InvalidCall)].
Proof. exact (deinit_refuses_lemma h n n' r p b). Qed.
Print Assumptions C27_deinit_refuses_replies.

Theorem C27_deinit_runs_callbacks_once_partial h1 n m h2 f r cb n' : let h := h1 ++ (n, OIn m) :: h2 in
  NoDup (requests_received (ops_of h)) -> m_code m = OpRequest -> In (EHandler f r) (next h1 n (OIn m)) ->
  existsb is_deinit (ops_of h) = false -> closed_by r m h2 = false -> installed_abort r h2 = Some cb ->
  abort_registrations cb (ops_of h) = 1 ->
  abort_runs cb (trace h) = 0 /\ abort_runs cb (next h n' ODeinit) = 1.
Proof. exact (deinit_once_lemma h1 n m h2 f r cb n'). Qed.
Print Assumptions C27_deinit_runs_callbacks_once_partial.

Theorem C27_second_deinit_repeats_refuted :
  abort_runs 33 (trace (h20 ++ [(ok_net, ODeinit); (ok_net, ODeinit)])) = 2.
Proof. reflexivity. Qed.
Print Assumptions C27_second_deinit_repeats_refuted.

Example C27_applies : cell (final h20) 0 <> None /\ installed_abort 0 [(ok_net, OOnAborted 0 33)] = Some 33 /\
  abort_registrations 33 (ops_of h20) = 1 /\ next h20 ok_net ODeinit = [EAbortCb 33].
Proof. split; [discriminate|repeat split]. Qed.

(** ** C58 : listeners on the server side *)
Theorem C58_server_side_listeners h n x :
  listener_calls (next h n x) =
  match broadcasts (value_after h) x with Some (_, o, p) => map (fun l => (l, p)) (listening h o) | None => [] end.
Proof. exact (listeners_lemma h n x). Qed.
Print Assumptions C58_server_side_listeners.

Example C58_applies : let h := [(ok_net, OListen 4 1); (ok_net, OListen 4 2); (ok_net, OListen 5 3); (ok_net, OUnlisten 4 1)] in
  listener_calls (next h ok_net (OSignal 4 (Some (Data 1)))) = [(2, Some (Data 1))].
Proof. reflexivity. Qed.
