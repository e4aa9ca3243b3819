(** C106-C109: the remaining calls of a processor, and what run loops return.  Vocabulary in ProcSpec.v and ProcSpec2.v. *)
From Verif Require Import ListUtil Amap ProcModel ProcSpec ProcSpec2.
From Verif Require ProcProofs28 ProcProofs32 ProcProofs35 ProcProofs36 ProcProofs39 ProcProofs40 ProcProps.
From Verif Require QueueModel QueueSpec SigModel SigSpec.

(** ** C106: questions are answered truthfully, and each call has its effect *)
(** stopped() tells the state at some moment of the call. *)
Theorem C106_stopped h t n r p : called h t n (KStopped p) -> returned h n r -> exists h1, during h h1 t n (KStopped p) /\ r = RBool (is_stopped (final h1) p).
Proof. intros C R. exact (ProcProofs32.stopped_exact h t n r p (ProcProofs28.returned_by _ _ _ _ _ C R) C). Qed.
Print Assumptions C106_stopped.
(** Only stop() stops a processor and only reuse() makes it usable again, each while the call is under way. *)
Theorem C106_stopped_changes h l p : is_stopped (final (h ++ [l])) p = is_stopped (final h) p \/
  (is_stopped (final (h ++ [l])) p = false /\ exists n, during h h (fst l) n (KReuse p)) \/ (is_stopped (final (h ++ [l])) p = true /\ exists n, during h h (fst l) n (KStop p)).
Proof. exact (ProcProofs35.stopped_changes h l p). Qed.
Print Assumptions C106_stopped_changes.
Theorem C106_new_is_not_stopped p : is_stopped (final []) p = false.
Proof. reflexivity. Qed.
Print Assumptions C106_new_is_not_stopped.
(** stop() does not return without the processor having been stopped; when reuse() returns it is usable. *)
Theorem C106_stop h t n r p : called h t n (KStop p) -> returned h n r -> exists h1, during h h1 t n (KStop p) /\ is_stopped (final h1) p = true.
Proof. intros C R. exact (ProcProofs35.stop_stops h t n r p (ProcProofs28.returned_by _ _ _ _ _ C R) C). Qed.
Print Assumptions C106_stop.
Theorem C106_reuse h t n r p : called h t n (KReuse p) -> returned h n r -> exists h1 l, returning h n r h1 l /\ is_stopped (final (h1 ++ [l])) p = false.
Proof.
  intros C R. destruct (ProcProofs35.reuse_opens h t n r p (ProcProofs28.returned_by _ _ _ _ _ C R) C) as (h1 & l & h2 & E & A & B & X). exists h1, l. split; [split; [eauto|auto]|exact X].
Qed.
Print Assumptions C106_reuse.
(** pendingCount() is the number of executions pending at some moment of the call. *)
Theorem C106_pending h t n r p : called h t n (KPending p) -> returned h n r -> exists h1, during h h1 t n (KPending p) /\ r = RNum (length (pending h1 p)).
Proof. intros C R. exact (ProcProofs35.pending_exact h t n r p (ProcProofs28.returned_by _ _ _ _ _ C R) C). Qed.
Print Assumptions C106_pending.
(** connected(msgid) tells whether there is an entry for this type at some moment of the call. *)
Theorem C106_connected h t n r p m : called h t n (KKnows p m) -> returned h n r -> exists h1 b, during h h1 t n (KKnows p m) /\ r = RBool b /\ (b = true <-> table h1 p m <> None).
Proof. intros C R. exact (ProcProofs35.knows_exact h t n r p m (ProcProofs28.returned_by _ _ _ _ _ C R) C). Qed.
Print Assumptions C106_connected.
(** An entry is made by connect() of that type, with a signal that is in no table and has no handlers yet; it is removed by disconnect(msgid): that of this type,
    or, if no handler is left, of any type. *)
Theorem C106_table_changes h l p m : table (h ++ [l]) p m = table h p m \/
  (exists n g, during h h (fst l) n (KConnect p m) /\ table h p m = None /\ table (h ++ [l]) p m = Some g /\ handlers_of (h ++ [l]) g = [] /\ forall p' m', table h p' m' <> Some g) \/
  (exists n m', during h h (fst l) n (KForget p m') /\ table (h ++ [l]) p m = None /\ (m' = m \/ handlers h p m = [])).
Proof. exact (ProcProofs35.table_changes h l p m). Qed.
Print Assumptions C106_table_changes.
(** During disconnect(msgid) no handler of this type is left at some moment. *)
Theorem C106_disconnect_type h t n r p m : called h t n (KForget p m) -> returned h n r -> exists h1, during h h1 t n (KForget p m) /\ table h1 p m = None /\ handlers h1 p m = [].
Proof.
  intros C R. destruct (ProcProofs35.forget_forgets h t n r p m (ProcProofs28.returned_by _ _ _ _ _ C R) C) as (h1 & D & X). exists h1. split; [exact D|]. split; [exact X|]. unfold handlers. rewrite X. reflexivity.
Qed.
Print Assumptions C106_disconnect_type.
(** disconnect() of a MsgConnection removes this handler and no other; reconnect() puts it behind the others, unless it is still there. *)
Theorem C106_disconnect_one h t n r g s : called h t n (KCut g s) -> returned h n r -> exists h1 l, returning h n r h1 l /\
  handlers_of (h1 ++ [l]) g = filter (fun x => negb (Nat.eqb (snd x) s)) (handlers_of h1 g).
Proof.
  intros C R. destruct (ProcProofs36.cut_exact h t n r g s (ProcProofs28.returned_by _ _ _ _ _ C R) C) as (h1 & l & h2 & E & A & B & X). exists h1, l. split; [split; [eauto|auto]|exact X].
Qed.
Print Assumptions C106_disconnect_one.
Theorem C106_reconnect h0 h' t n r g s t' n' p m : called h0 t' n' (KConnect p m) -> returned h0 n' (RHandler g s) ->
  called (h0 ++ h') t n (KRestore g s) -> ~ called h0 t n (KRestore g s) -> returned (h0 ++ h') n r -> exists h1 l, returning (h0 ++ h') n r h1 l /\
  (In s (SigSpec.slots (handlers_of h1 g)) /\ handlers_of (h1 ++ [l]) g = handlers_of h1 g \/
   ~ In s (SigSpec.slots (handlers_of h1 g)) /\ exists k, handlers_of (h1 ++ [l]) g = handlers_of h1 g ++ [(k, s)]).
Proof.
  intros C' R' C NC R. destruct (ProcProofs36.restore_exact h0 h' t n r g s t' n' p m (ProcProofs28.returned_by _ _ _ _ _ C R) C NC C' R') as (h1 & l & h2 & E & A & B & X). exists h1, l. split; [split; [eauto|auto]|exact X].
Qed.
Print Assumptions C106_reconnect.
(** Nothing else changes the handlers of a signal: only these two, for a MsgConnection of the signal, and connect() for a type it is in charge of. *)
Theorem C106_handlers_change h l g : handlers_of (h ++ [l]) g = handlers_of h g \/ exists n c, during h h (fst l) n c /\
  ((exists s, c = KCut g s \/ c = KRestore g s) \/ exists p m, c = KConnect p m /\ table h p m = Some g).
Proof. exact (ProcProofs35.handlers_change h l g). Qed.
Print Assumptions C106_handlers_change.

Notation go := ProcProps.go.
Lemma not_called h n : forallb (fun x => negb (Nat.eqb (snd (fst x)) n)) (flat_map ProcProps.is_called (trace h)) = true -> forall t c, ~ called h t n c.
Proof. intros F t c C. pose proof (ProcProps.calls_dec (fun _ n' _ => negb (Nat.eqb n' n)) h F t n c C) as X. cbn in X. rewrite Nat.eqb_refl in X. discriminate. Qed.
(** Two handlers for type 7, one execution pending; the first handler is disconnected and connected again; all the questions; disconnect(7); stop; reuse. *)
Definition h106a : history := [(0, ACreate 5); (0, ACall (KConnect 0 7))] ++ go 0 3 ++ [(0, ACall (KConnect 0 7))] ++ go 0 3 ++ [(1, ACall (KPost 0 7))] ++ go 1 8.
Definition h106b : history := [(0, ACall (KCut 0 0))] ++ go 0 1 ++ [(0, ACall (KRestore 0 0))] ++ go 0 1.
Definition h106c : history := [(0, ACall (KPending 0))] ++ go 0 4 ++ [(0, ACall (KKnows 0 7))] ++ go 0 2 ++ [(0, ACall (KForget 0 7))] ++ go 0 3 ++
  [(0, ACall (KStop 0))] ++ go 0 8 ++ [(0, ACall (KStopped 0))] ++ go 0 1 ++ [(0, ACall (KReuse 0))] ++ go 0 2.
Definition h106 : history := h106a ++ h106b ++ h106c.
Definition is_ret (e : event) : list (nat * result) := match e with ERet _ n r => [(n, r)] | _ => [] end.
Example C106_applies : flat_map is_ret (trace h106) =
    [(0, RHandler 0 0); (1, RHandler 0 1); (2, RBool true); (3, RUnit); (4, RUnit); (5, RNum 1); (6, RBool true); (7, RUnit); (8, RUnit); (9, RBool true); (10, RUnit)] /\
  map snd (handlers_of h106a 0) = [0; 1] /\ map snd (handlers_of (h106a ++ [(0, ACall (KCut 0 0)); (0, AGo 0)]) 0) = [1] /\ map snd (handlers_of (h106a ++ h106b) 0) = [1; 0] /\
  is_stopped (final h106) 0 = false /\ table h106 0 7 = None.
Proof. do 5 (split; [vm_compute; reflexivity|]). vm_compute; reflexivity. Qed.

(** ** C107: connected(msgid) tells whether a message of this type would be handled *)
(** "No": at some moment of the call there is no handler for this type. *)
Theorem C107_not_connected_partial h t n p m : called h t n (KKnows p m) -> returned h n (RBool false) -> exists h1, during h h1 t n (KKnows p m) /\ handlers h1 p m = [].
Proof.
  intros C R. destruct (C106_connected h t n _ p m C R) as (h1 & b & D & E & X). injection E as <-. exists h1. split; [exact D|]. unfold handlers. destruct (table h1 p m); [|reflexivity].
  destruct X as [_ X]. discriminate X. discriminate.
Qed.
Print Assumptions C107_not_connected_partial.
(** "Yes" does not mean that there is a handler: none is left when the call starts, none joins, connected() says true, and the next post() is refused. *)
Definition h107a : history := [(0, ACreate 5); (0, ACall (KConnect 0 7))] ++ go 0 3 ++ [(0, ACall (KCut 0 0))] ++ go 0 1.
Definition h107b : history := [(0, ACall (KKnows 0 7))] ++ go 0 2.
Definition h107c : history := [(0, ACall (KPost 0 7))] ++ go 0 8.
Theorem C107_connected_refuted : exists h t n p m, called h t n (KKnows p m) /\ returned h n (RBool true) /\
  (forall h1, during h h1 t n (KKnows p m) -> handlers h1 p m = []) /\
  exists h' t' n', called (h ++ h') t' n' (KPost p m) /\ ~ called h t' n' (KPost p m) /\ returned (h ++ h') n' (RBool false) /\ is_stopped (final (h ++ h')) p = false.
Proof.
  exists (h107a ++ h107b), 0, 2, 0, 7. split; [vm_compute; tauto|]. split; [exists 0; vm_compute; tauto|]. split.
  - intros h1 ((h2 & E) & C & _). destruct (ProcProofs40.prefixes h107a h107b h1 h2 E) as [(e & ->)|(e & X)].
    + rewrite <- app_assoc in E. apply app_inv_head in E. unfold h107b in E. cbn in E.
      destruct e as [|x1 e]; [vm_compute; reflexivity|]. injection E as <- E. destruct e as [|x2 e]; [vm_compute; reflexivity|]. injection E as <- E. destruct e as [|x3 e]; [vm_compute; reflexivity|]. injection E as <- E. destruct e; [vm_compute; reflexivity|discriminate E].
    + exfalso. assert (C' : called h107a 0 2 (KKnows 0 7)) by (rewrite X; apply ProcProofs28.called_iff; apply ProcProofs11.calls_mono; apply ProcProofs28.called_iff; exact C). revert C'. apply not_called. vm_compute. reflexivity.
  - exists h107c, 0, 3. split; [vm_compute; tauto|]. split; [|split; [exists 0; vm_compute; tauto|vm_compute; reflexivity]].
    apply not_called. vm_compute. reflexivity.
Qed.
Print Assumptions C107_connected_refuted.
(** connected() for a type that was never connected. *)
Example C107_applies : let h := [(0, ACreate 5); (0, ACall (KConnect 0 7))] ++ go 0 3 ++ [(0, ACall (KKnows 0 8))] ++ go 0 2 in called h 0 1 (KKnows 0 8) /\ returned h 1 (RBool false).
Proof. split; [vm_compute; tauto|exists 0; vm_compute; tauto]. Qed.

(** ** C108: a handler that is connected again gets messages again *)
(** It does if disconnect(msgid) is never called on that processor: when reconnect() returns it is one of the handlers of its type. *)
Theorem C108_reconnected_partial h0 h' t n r g s t' n' p m : called h0 t' n' (KConnect p m) -> returned h0 n' (RHandler g s) ->
  called (h0 ++ h') t n (KRestore g s) -> ~ called h0 t n (KRestore g s) -> returned (h0 ++ h') n r -> never_called (h0 ++ h') (forgets p) ->
  exists h1 l, returning (h0 ++ h') n r h1 l /\ In s (SigSpec.slots (handlers (h1 ++ [l]) p m)).
Proof. intros C' R' C NC R NV. exact (ProcProofs40.reconnect_back h0 h' t n r g s t' n' p m R C NC C' R' NV). Qed.
Print Assumptions C108_reconnected_partial.
(** After disconnect(msgid) reconnect() returns as if it had worked, and no message posted afterwards ever gets to that handler, whatever anybody does. *)
Definition h108 : history := [(0, ACreate 5); (0, ACall (KConnect 0 7))] ++ go 0 3 ++ [(0, ACall (KForget 0 7))] ++ go 0 3 ++ [(0, ACall (KRestore 0 0))] ++ go 0 1.
Theorem C108_reconnected_refuted : exists h t n t' n' g s p m, called h t' n' (KConnect p m) /\ returned h n' (RHandler g s) /\ called h t n (KRestore g s) /\ returned h n RUnit /\
  In s (SigSpec.slots (handlers_of h g)) /\
  forall h' t1 n1 c, called (h ++ h') t1 n1 c -> ~ called h t1 n1 c -> posting p m c -> forall t2 k, ~ In (EHandle t2 n1 g k s) (trace (h ++ h')).
Proof.
  exists h108, 0, 2, 0, 0, 0, 0, 0, 7. split; [vm_compute; tauto|]. split; [exists 0; vm_compute; tauto|]. split; [vm_compute; tauto|]. split; [exists 0; vm_compute; tauto|]. split; [vm_compute; tauto|].
  intros h' t1 n1 c C NC P t2 k. refine (ProcProofs40.gone_unhandled h108 0 h' t1 n1 c 0 7 _ _ C NC P t2 k 0); [vm_compute; auto|].
  intros p m. destruct p as [|p]; vm_compute; discriminate.
Qed.
Print Assumptions C108_reconnected_refuted.
(** connect, disconnect, reconnect. *)
Example C108_applies : let h0 := [(0, ACreate 5); (0, ACall (KConnect 0 7))] ++ go 0 3 in let h' := [(0, ACall (KCut 0 0))] ++ go 0 1 ++ [(0, ACall (KRestore 0 0))] ++ go 0 1 in
  called h0 0 0 (KConnect 0 7) /\ returned h0 0 (RHandler 0 0) /\ called (h0 ++ h') 0 2 (KRestore 0 0) /\ ~ called h0 0 2 (KRestore 0 0) /\ returned (h0 ++ h') 2 RUnit /\ never_called (h0 ++ h') (forgets 0).
Proof.
  cbv zeta. split; [vm_compute; tauto|]. split; [exists 0; vm_compute; tauto|]. split; [vm_compute; tauto|]. split; [|split; [exists 0; vm_compute; tauto|apply ProcProps.never_dec; vm_compute; reflexivity]].
  apply not_called. vm_compute. reflexivity.
Qed.

(** ** C109: what a run loop does until it returns *)
(** Between its call and its return, what a run loop does is: take an execution, run it to its end, take the next one.  runOnceFor/runOnceUntil run at most one and say
    whether they did.  If a run loop returns without having been given its one execution, the processor was stopped at some moment of the call, or, if it has a deadline,
    nothing was pending. *)
Theorem C109_run_loop h t n r p k : called h t n (KRun p k) -> returned h n r -> exists a b c, trace h = a ++ ECall t n (KRun p k) :: b ++ ERet t n r :: c /\
  (exists x, rounds t p x (of_thread t b) /\ result_ok k x r) /\
  (r <> RBool true -> exists h1, during h h1 t n (KRun p k) /\ (is_stopped (final h1) p = true \/ k <> Forever /\ pending h1 p = [])).
Proof. intros C R. pose proof (ProcProofs28.returned_by _ _ _ _ _ C R) as I. apply ProcProofs28.called_iff in C. exact (ProcProofs39.loops_final h t n r p k I C). Qed.
Print Assumptions C109_run_loop.

(** A thread runs two executions, the first of which submits another one; then the processor is stopped; another thread finds nothing to do in time, a third one executes one. *)
Definition h109 : history := [(0, ACreate 5); (0, ACall (KAsync 0))] ++ go 0 5 ++ [(1, ACall (KRun 0 Once))] ++ go 1 5 ++ [(1, ACall (KAsync 0))] ++ go 1 5 ++ [(1, AReturn)] ++
  [(2, ACall (KRun 0 Forever))] ++ go 2 5 ++ [(2, AReturn); (0, ACall (KStop 0))] ++ go 0 8 ++ go 2 8 ++ [(0, ACall (KReuse 0))] ++ go 0 2 ++ [(0, ACall (KRun 0 Once))] ++ go 0 3 ++ [(0, ATimeout)] ++ go 0 3.
Example C109_applies : flat_map is_ret (trace h109) = [(0, RBool true); (2, RBool true); (1, RBool true); (4, RUnit); (3, RUnit); (5, RUnit); (6, RBool false)] /\
  called h109 1 1 (KRun 0 Once) /\ called h109 2 3 (KRun 0 Forever) /\ called h109 0 6 (KRun 0 Once).
Proof. split; [vm_compute; reflexivity|]. split; [vm_compute; tauto|]. split; [vm_compute; tauto|]. vm_compute; tauto. Qed.
