(** Invariants of the provider model and the request half of the properties (C17 - C22, C27). *)
From Verif Require Import ProvModel ProvSpec.

(** ** Generic lemmas *)
Lemma nth_upd {A} (f : A -> A) l i j :
  nth_error (upd i f l) j = if Nat.eqb i j then option_map f (nth_error l j) else nth_error l j.
Proof.
  revert i j. induction l as [|x l IH]; intros [|i] [|j]; cbn; try reflexivity.
  - destruct (Nat.eqb i j); reflexivity.
  - apply IH.
Qed.

Lemma length_upd {A} (f : A -> A) l i : length (upd i f l) = length l.
Proof. revert i. induction l as [|x l IH]; intros [|i]; cbn; congruence. Qed.

Lemma in_remove1 r x l : In x (remove1 r l) -> In x l.
Proof.
  induction l as [|y l IH]; cbn; [tauto|]. destruct (Nat.eqb_spec r y); [auto|]. cbn. intros [->|H]; auto.
Qed.

Lemma nodup_remove1 r l : NoDup l -> NoDup (remove1 r l).
Proof.
  induction l as [|y l IH]; cbn; intros H; [constructor|]. inversion H; subst.
  destruct (Nat.eqb_spec r y); [assumption|]. constructor; [|auto]. intros I. apply in_remove1 in I. contradiction.
Qed.

Lemma in_remove1_iff r x l : NoDup l -> (In x (remove1 r l) <-> In x l /\ x <> r).
Proof.
  induction l as [|y l IH]; cbn; intros H; [tauto|]. inversion H; subst.
  destruct (Nat.eqb_spec r y).
  - subst. split; [intros I; split; [auto|intros ->; contradiction]|intros [[->|I] N]; [contradiction|exact I]].
  - cbn. rewrite IH by assumption. split.
    + intros [->|[I N]]; [split; [auto|congruence]|auto].
    + intros [[->|I] N]; auto.
Qed.

Lemma find_some_first {A} (f : A -> bool) l x : find f l = Some x -> In x l /\ f x = true.
Proof. apply find_some. Qed.

Lemma countb_app {A} (f : A -> bool) l1 l2 : countb f (l1 ++ l2) = countb f l1 + countb f l2.
Proof. unfold countb. rewrite filter_app, app_length. reflexivity. Qed.

Lemma countb_cons {A} (f : A -> bool) x l : countb f (x :: l) = (if f x then 1 else 0) + countb f l.
Proof. unfold countb. cbn. destruct (f x); reflexivity. Qed.

Arguments countb : simpl never.

Lemma countb_nil {A} (f : A -> bool) : countb f [] = 0.
Proof. reflexivity. Qed.

Lemma countb_zero {A} (f : A -> bool) l : (forall x, In x l -> f x = false) -> countb f l = 0.
Proof.
  induction l as [|x l IH]; intros H; [reflexivity|]. rewrite countb_cons, (H x) by (left; reflexivity). cbn.
  apply IH. intros y I. apply H. right. exact I.
Qed.

Lemma key_eqb_spec a b : reflect (a = b) (key_eqb a b).
Proof.
  destruct a as [a1 a2], b as [b1 b2]. unfold key_eqb. cbn.
  destruct (Nat.eqb_spec a1 b1), (N.eqb_spec a2 b2); cbn; constructor; congruence.
Qed.

(** ** The invariant *)
Definition pending (s : prov) (o : nat) : list nat := get_or [] o (reqs s).
Definition cell (s : prov) (r : nat) : option request := nth_error (heap s) r.

Record Inv (s : prov) : Prop := {
  inv_cell : forall o r, In r (pending s o) -> exists q, cell s r = Some q /\ q_op q = o;
  inv_nodup : forall o, NoDup (pending s o);
  inv_valid : forall r q, cell s r = Some q -> q_valid q = true -> In r (pending s (q_op q));
  inv_regs : NoDup (keys (regs s));
  inv_reqs : NoDup (keys (reqs s));
  inv_ub : ub s = false }.

Lemma inv_new : Inv prov_new.
Proof.
  split; unfold cell, pending; cbn; try (intros; constructor).
  - intros o r [].
  - intros [|r] q H; discriminate.
Qed.

(** What the request table and the heap look like after one operation. *)
Definition same_core (s s' : prov) : Prop := heap s' = heap s /\ reqs s' = reqs s.
Definition no_replies (ev : list event) : Prop :=
  forall e, In e ev -> (forall k, any_reply k e = false) /\ (forall cb, e <> EAbortCb cb) /\ (forall f r, e <> EHandler f r).

(** [s'] is [s] with pending request [r] (operation [o]) taken out and invalidated. *)
Definition taken (s s' : prov) (o r : nat) : Prop :=
  reqs s' = put o (remove1 r (pending s o)) (reqs s) /\ heap s' = upd r invalidate_q (heap s).

Inductive core (s : prov) : op -> prov -> list event -> Prop :=
| CQuiet o s' ev : same_core s s' -> no_replies ev -> is_request o = None ->
    (forall r cb, o <> OOnAborted r cb) -> o <> ODeinit -> (forall r p b, o <> OReply r p b) ->
    (forall m, o = OIn m -> m_code m = Abort -> find_req s m = None) -> core s o s' ev
| CNoHandler m a s' : m_code m = OpRequest -> get (m_op m) (handlers s) = None -> same_core s s' ->
    core s (OIn m) s'
      [ESend (m_src m) (Msg OpRequest (m_op m) (m_rid m) (Some (Err EHandlerUnavailable)) (m_src m)) a; EReturn (RBool true)]
| CSave m f s' : m_code m = OpRequest -> get (m_op m) (handlers s) = Some f ->
    heap s' = heap s ++ [Rq (m_src m) (m_op m) (m_rid m) (m_pay m) true None] ->
    reqs s' = put (m_op m) (pending s (m_op m) ++ [length (heap s)]) (reqs s) ->
    core s (OIn m) s' [EHandler f (length (heap s)); EReturn (RBool true)]
| CRespond r0 q0 p r q a s' : cell s r0 = Some q0 -> q_valid q0 = true ->
    In r (pending s (q_op q0)) -> cell s r = Some q -> q_op q = q_op q0 -> q_rid q = q_rid q0 ->
    taken s s' (q_op q0) r ->
    core s (OReply r0 p false) s'
      [ESend (q_src q0) (Msg OpRequest (q_op q0) (q_rid q0) p (q_src q0)) a; EReturn (RStatus a)]
| CPartial r q p a s' : cell s r = Some q -> q_valid q = true -> same_core s s' ->
    core s (OReply r p true) s'
      [ESend (q_src q) (Msg PartialRequestUpdate (q_op q) (q_rid q) p (q_src q)) a; EReturn (RStatus a)]
| CAbort m r q s' : m_code m = Abort -> In r (pending s (m_op m)) -> cell s r = Some q -> q_op q = m_op m ->
    q_rid q = m_rid m -> taken s s' (m_op m) r ->
    core s (OIn m) s' ((match q_abort q with Some cb => [EAbortCb cb] | None => [] end) ++ [EReturn (RBool true)])
| COnAborted r q cb s' : cell s r = Some q -> q_valid q = true -> reqs s' = reqs s ->
    heap s' = upd r (fun q => Rq (q_src q) (q_op q) (q_rid q) (q_input q) (q_valid q) (Some cb)) (heap s) ->
    core s (OOnAborted r cb) s' []
| COnAbortedLate r q cb s' : cell s r = Some q -> q_valid q = false -> same_core s s' ->
    core s (OOnAborted r cb) s' [EAbortCb cb]
| COnAbortedNone r cb s' : cell s r = None -> same_core s s' -> core s (OOnAborted r cb) s' []
| CDeinit s' ev : deinit s = (s', ev) -> core s ODeinit s' ev.

Lemma no_replies_app a b : no_replies a -> no_replies b -> no_replies (a ++ b).
Proof. intros H1 H2 e I. apply in_app_or in I as [I|I]; auto. Qed.

Lemma no_replies_ret v : no_replies [EReturn v].
Proof. intros e [<-|[]]. repeat split; intros; discriminate. Qed.

Lemma no_replies_nil : no_replies [].
Proof. intros e []. Qed.

Lemma no_replies_send d m a : m_code m <> OpRequest -> m_code m <> PartialRequestUpdate -> no_replies [ESend d m a].
Proof.
  intros H1 H2 e [<-|[]]. repeat split; intros; try discriminate. unfold any_reply, reply_for.
  destruct (opcode_eqb_spec (m_code m) OpRequest); [contradiction|].
  destruct (opcode_eqb_spec (m_code m) PartialRequestUpdate); [contradiction|]. reflexivity.
Qed.

Lemma no_replies_try_send f m addrs rg : m_code m <> OpRequest -> m_code m <> PartialRequestUpdate ->
  no_replies (snd (try_send f m addrs rg)).
Proof.
  intros H1 H2. revert rg. induction addrs as [|a addrs IH]; intros rg; cbn; [apply no_replies_nil|].
  destruct (match f a with Success => (rg, []) | ReceiverBusy => (rg, [a]) | _ => (del a rg, []) end) as [rg' b].
  specialize (IH rg'). destruct (try_send f m addrs rg') as [[rg2 b2] ev]. cbn in *.
  change (ESend a m (f a) :: ev) with ([ESend a m (f a)] ++ ev). apply no_replies_app; [|exact IH].
  apply no_replies_send; assumption.
Qed.

Lemma no_replies_broadcast n s o c p s' ev a : c <> OpRequest -> c <> PartialRequestUpdate ->
  broadcast n s o c p = (s', ev, a) -> no_replies ev /\ same_core s s' /\ ub s' = ub s.
Proof.
  intros H1 H2. unfold broadcast. destruct (broadcast_to_clients n s o c p) as [[s1 ev1] a1] eqn:E.
  intros [= <- <- <-].
  assert (HL : no_replies (map (fun l => EListener l p) (get_or [] o (listeners s)))).
  { intros e I. apply in_map_iff in I as (l & <- & _). repeat split; intros; discriminate. }
  unfold broadcast_to_clients in E.
  destruct (addresses_of o (regs s)) as [|a0 addrs].
  { injection E as <- <- <-. split; [apply no_replies_app; [exact HL|apply no_replies_nil]|]. split; [split; reflexivity|reflexivity]. }
  pose proof (no_replies_try_send (first n) (Msg c o rid_invalid p no_address) (a0 :: addrs) (regs s) H1 H2) as N1.
  destruct (try_send (first n) (Msg c o rid_invalid p no_address) (a0 :: addrs) (regs s)) as [[rg1 b1] e1]. cbn [snd] in N1.
  pose proof (no_replies_try_send (second n) (Msg c o rid_invalid p no_address) b1 rg1 H1 H2) as N2.
  destruct b1 as [|b b1].
  - injection E as <- <- <-. split; [apply no_replies_app; [exact HL|rewrite app_nil_r; exact N1]|].
    split; [split; reflexivity|reflexivity].
  - destruct (try_send (second n) (Msg c o rid_invalid p no_address) (b :: b1) rg1) as [[rg2 b2] e2]. cbn [snd] in N2.
    injection E as <- <- <-. split; [apply no_replies_app; [exact HL|apply no_replies_app; assumption]|].
    split; [split; reflexivity|reflexivity].
Qed.

Lemma find_req_some s m r : Inv s -> find_req s m = Some r ->
  In r (pending s (m_op m)) /\ exists q, cell s r = Some q /\ q_op q = m_op m /\ q_rid q = m_rid m.
Proof.
  intros I F. apply find_some in F as [I1 H]. split; [exact I1|].
  destruct (inv_cell s I _ _ I1) as (q & Hq & Ho). exists q. split; [exact Hq|]. split; [exact Ho|].
  unfold has_rid in H. unfold cell in Hq. rewrite Hq in H. apply N.eqb_eq in H. exact H.
Qed.

Lemma find_req_none s m : find_req s m = None ->
  forall r q, In r (pending s (m_op m)) -> cell s r = Some q -> q_rid q <> m_rid m.
Proof.
  intros F r q I C E. pose proof (find_none _ _ F _ I) as H. unfold has_rid in H. unfold cell in C. rewrite C in H.
  apply N.eqb_neq in H. contradiction.
Qed.

Lemma step_core n s o s' ev : Inv s -> step n s o = (s', ev) ->
  (core s o s' ev \/ (exists r p b, o = OReply r p b /\ s' = s /\
     ((cell s r = None /\ ev = []) \/ (exists q, cell s r = Some q /\ q_valid q = false /\ ev = [EReturn (RStatus InvalidCall)])))) .
Proof.
  intros I. unfold step. rewrite (inv_ub s I).
  assert (SC : same_core s s) by (split; reflexivity).
  destruct o as [m|r p pa|r cb|o p|o|o nf|o p|o h|o|o l|o l| | |].
  - (* OIn *)
    unfold on_incoming. intros H. left. destruct (m_code m) eqn:C.
    + unfold update_latest in H.
      destruct (get_status (save_register s m) (m_op m)) as [p|]; injection H as <- <-;
        apply CQuiet; try (split; reflexivity); try (cbn; rewrite C; reflexivity); try discriminate; try (intros mm [= <-]; congruence).
      * change (no_replies ([ESend (m_src m) (with_payload m (Some p)) (first n (m_src m))] ++ [EReturn (RBool true)])).
        apply no_replies_app; [apply no_replies_send; cbn; rewrite C; discriminate|apply no_replies_ret].
      * apply no_replies_ret.
    + injection H as <- <-. apply CQuiet; try (split; reflexivity); try (cbn; rewrite C; reflexivity); try discriminate; try (intros mm [= <-]; congruence).
      apply no_replies_ret.
    + injection H as <- <-. apply CQuiet; try (split; reflexivity); try (cbn; rewrite C; reflexivity); try discriminate; try (intros mm [= <-]; congruence).
      apply no_replies_ret.
    + injection H as <- <-. apply CQuiet; try (split; reflexivity); try (cbn; rewrite C; reflexivity); try discriminate; try (intros mm [= <-]; congruence).
      change (no_replies ([ESend (m_src m) (with_payload m (get_status s (m_op m))) (first n (m_src m))] ++ [EReturn (RBool true)])).
      apply no_replies_app; [apply no_replies_send; cbn; rewrite C; discriminate|apply no_replies_ret].
    + unfold on_action_request in H. destruct (get (m_op m) (handlers s)) as [f|] eqn:G.
      * cbn in H. injection H as <- <-. apply CSave with (f := f); try assumption; reflexivity.
      * cbn in H. injection H as <- <-. unfold with_payload. rewrite C. apply CNoHandler; assumption.
    + injection H as <- <-. apply CQuiet; try (split; reflexivity); try (cbn; rewrite C; reflexivity); try discriminate; try (intros mm [= <-]; congruence).
      apply no_replies_ret.
    + unfold on_request_aborted in H. destruct (find_req s m) as [r|] eqn:F.
      * destruct (find_req_some s m r I F) as (Ip & q & Cq & Ho & Hr).
        injection H as <- <-.
        assert (E : abort_event (invalidate (pick_out s m r) r) r = match q_abort q with Some cb => [EAbortCb cb] | None => [] end).
        { unfold abort_event, invalidate. cbn. rewrite nth_upd, Nat.eqb_refl. unfold cell in Cq. rewrite Cq. reflexivity. }
        rewrite E. apply CAbort with (r := r); try assumption. split; reflexivity.
      * injection H as <- <-. apply CQuiet; try (split; reflexivity); try (cbn; rewrite C; reflexivity); try discriminate; try (intros mm [= <-]; congruence).
        apply no_replies_ret.
    + injection H as <- <-. apply CQuiet; try (split; reflexivity); try (cbn; rewrite C; reflexivity); try discriminate; try (intros mm [= <-]; congruence).
      apply no_replies_ret.
    + injection H as <- <-. apply CQuiet; try (split; reflexivity); try (cbn; rewrite C; reflexivity); try discriminate; try (intros mm [= <-]; congruence).
      apply no_replies_ret.
    + injection H as <- <-. apply CQuiet; try (split; reflexivity); try (cbn; rewrite C; reflexivity); try discriminate; try (intros mm [= <-]; congruence).
      apply no_replies_ret.
    + injection H as <- <-. apply CQuiet; try (split; reflexivity); try (cbn; rewrite C; reflexivity); try discriminate; try (intros mm [= <-]; congruence).
      apply no_replies_ret.
  - (* OReply *)
    destruct (nth_error (heap s) r) as [q|] eqn:Cq; intros H.
    2:{ right. exists r, p, pa. injection H as <- <-. repeat split. left. auto. }
    unfold reply in H. destruct (q_valid q) eqn:V.
    2:{ cbn in H. injection H as <- <-. right. exists r, p, pa. repeat split. right. exists q. auto. }
    left. pose proof (inv_valid s I r q Cq V) as Ip.
    assert (EX : forall c, find_req s (Msg c (q_op q) (q_rid q) p (q_src q)) <> None).
    { intros c F. exact (find_req_none s _ F r q Ip Cq eq_refl). }
    unfold respond_to_request in H. destruct pa; cbn [m_code opcode_eqb] in H.
    + destruct (find_req s (Msg PartialRequestUpdate (q_op q) (q_rid q) p (q_src q))) as [r1|] eqn:F.
      * cbn in H. injection H as <- <-. apply CPartial; assumption.
      * exfalso. exact (EX _ F).
    + destruct (find_req s (Msg OpRequest (q_op q) (q_rid q) p (q_src q))) as [r1|] eqn:F.
      * destruct (find_req_some s _ r1 I F) as (Ip1 & q1 & Cq1 & Ho1 & Hr1). cbn in Ip1, Ho1, Hr1.
        cbn in H. injection H as <- <-.
        eapply CRespond with (r := r1) (q := q1); try eassumption. split; reflexivity.
      * exfalso. exact (EX _ F).
  - (* OOnAborted *)
    destruct (nth_error (heap s) r) as [q|] eqn:Cq; intros H; left.
    + destruct (q_valid q) eqn:V; injection H as <- <-.
      * eapply COnAborted; try eassumption; reflexivity.
      * eapply COnAbortedLate; eassumption.
    + injection H as <- <-. apply COnAbortedNone; assumption.
  - (* OSetStatus *)
    intros H. left. unfold set_status in H. destruct (differs (get_or None o (props s)) p).
    + destruct (broadcast n (set_props s (put o p (props s))) o StatusRegister p) as [[s1 e1] a1] eqn:B.
      apply no_replies_broadcast in B as (N1 & [S1 S2] & _); [|discriminate|discriminate]. cbn in S1, S2, H. injection H as <- <-.
      apply CQuiet; [split; assumption|apply no_replies_app; [exact N1|apply no_replies_ret]|reflexivity|discriminate|discriminate|discriminate|discriminate].
    + cbn in H. injection H as <- <-. apply CQuiet; [split; reflexivity|apply no_replies_ret|reflexivity|discriminate|discriminate|discriminate|discriminate].
  - intros H. injection H as <- <-. left.
    apply CQuiet; [split; reflexivity|apply no_replies_ret|reflexivity|discriminate|discriminate|discriminate|discriminate].
  - (* ORemoveProperty *)
    intros H. left. destruct nf.
    + destruct (broadcast n (set_props s (del o (props s))) o StatusRegister None) as [[s1 e1] a1] eqn:B.
      apply no_replies_broadcast in B as (N1 & [S1 S2] & _); [|discriminate|discriminate]. cbn in S1, S2, H. injection H as <- <-.
      apply CQuiet; [split; assumption|apply no_replies_app; [exact N1|apply no_replies_ret]|reflexivity|discriminate|discriminate|discriminate|discriminate].
    + cbn in H. injection H as <- <-. apply CQuiet; [split; reflexivity|apply no_replies_ret|reflexivity|discriminate|discriminate|discriminate|discriminate].
  - intros H. left. destruct (broadcast n s o SignalRegister p) as [[s1 e1] a1] eqn:B.
    apply no_replies_broadcast in B as (N1 & [S1 S2] & _); [|discriminate|discriminate]. cbn in S1, S2, H. injection H as <- <-.
    apply CQuiet; [split; assumption|apply no_replies_app; [exact N1|apply no_replies_ret]|reflexivity|discriminate|discriminate|discriminate|discriminate].
  - intros H. left. destruct h as [h|]; [destruct (get o (handlers s))|]; injection H as <- <-;
      (apply CQuiet; [split; reflexivity|apply no_replies_ret|reflexivity|discriminate|discriminate|discriminate|discriminate]).
  - intros H. left. injection H as <- <-.
    apply CQuiet; [split; reflexivity|apply no_replies_ret|reflexivity|discriminate|discriminate|discriminate|discriminate].
  - intros H. left. injection H as <- <-.
    apply CQuiet; [split; reflexivity|apply no_replies_nil|reflexivity|discriminate|discriminate|discriminate|discriminate].
  - intros H. left. injection H as <- <-.
    apply CQuiet; [split; reflexivity|apply no_replies_nil|reflexivity|discriminate|discriminate|discriminate|discriminate].
  - intros H. left. apply CDeinit. exact H.
  - intros H. left. injection H as <- <-.
    apply CQuiet; [split; reflexivity| |reflexivity|discriminate|discriminate|discriminate|discriminate].
    intros e [<-|[]]. repeat split; intros; discriminate.
  - intros H. left. injection H as <- <-.
    apply CQuiet; [split; reflexivity| |reflexivity|discriminate|discriminate|discriminate|discriminate].
    intros e [<-|[]]. repeat split; intros; discriminate.
Qed.

(** ** deinit *)
Definition abort_of (s : prov) (r : nat) : list event :=
  match cell s r with Some q => match q_abort q with Some cb => [EAbortCb cb] | None => [] end | None => [] end.

Definition inval_list (l : list nat) (h : list request) : list request := fold_left (fun h r => upd r invalidate_q h) l h.

Lemma nth_inval_list l h r :
  nth_error (inval_list l h) r = if mem r l then option_map invalidate_q (nth_error h r) else nth_error h r.
Proof.
  unfold inval_list. revert h. induction l as [|x l IH]; intros h; cbn; [reflexivity|].
  rewrite IH, nth_upd. fold (mem r l). rewrite (Nat.eqb_sym r x).
  destruct (Nat.eqb x r); cbn; destruct (mem r l); cbn; try reflexivity.
  destruct (nth_error h r) as [q|]; reflexivity.
Qed.

Lemma length_inval_list l h : length (inval_list l h) = length h.
Proof. unfold inval_list. revert h. induction l as [|x l IH]; intros h; cbn; [reflexivity|]. rewrite IH. apply length_upd. Qed.

Lemma invalidate_all_fold l s ev :
  fold_left (fun '(s, ev) r => let s' := invalidate s r in (s', ev ++ abort_event s' r)) l (s, ev)
  = (set_heap s (inval_list l (heap s)), ev ++ flat_map (abort_of s) l).
Proof.
  revert s ev. induction l as [|x l IH]; intros s ev; cbn.
  - rewrite app_nil_r. destruct s; reflexivity.
  - rewrite IH. f_equal.
    assert (E1 : abort_event (invalidate s x) x = abort_of s x).
    { unfold abort_event, invalidate, abort_of, cell. cbn. rewrite nth_upd, Nat.eqb_refl. destruct (nth_error (heap s) x); reflexivity. }
    rewrite E1, <- app_assoc. f_equal. f_equal. apply flat_map_ext. intros r. unfold abort_of, cell, invalidate. cbn.
    rewrite nth_upd. destruct (Nat.eqb x r); [|reflexivity]. destruct (nth_error (heap s) r); reflexivity.
Qed.

Definition all_pending (s : prov) : list nat := flat_map snd (reqs s).

Lemma deinit_eq s : deinit s =
  (Prov [] (reqs s) [] (handlers s) (listeners s) (avail s) (inval_list (all_pending s) (heap s)) (ub s),
   flat_map (abort_of s) (all_pending s)).
Proof.
  unfold deinit, invalidate_all. rewrite invalidate_all_fold. cbn. reflexivity.
Qed.

Lemma in_all_pending s r : NoDup (keys (reqs s)) -> (In r (all_pending s) <-> exists o, In r (pending s o)).
Proof.
  intros ND. unfold all_pending. rewrite in_flat_map. split.
  - intros ([o l] & I & J). exists o. unfold pending, get_or. rewrite (in_get o l); assumption.
  - intros (o & J). unfold pending, get_or in J. destruct (get o (reqs s)) as [l|] eqn:G; [|contradiction].
    exists (o, l). split; [apply get_in; exact G|exact J].
Qed.

Lemma nodup_flat_map (m : amap (list nat)) (op : nat -> option nat) :
  NoDup (keys m) -> (forall k l, In (k, l) m -> NoDup l /\ forall x, In x l -> op x = Some k) -> NoDup (flat_map snd m).
Proof.
  induction m as [|[k l] m IH]; cbn; intros ND H; [constructor|]. inversion ND; subst.
  destruct (H k l (or_introl eq_refl)) as [N1 E1].
  assert (N2 : NoDup (flat_map snd m)) by (apply IH; [assumption|intros; apply H; right; assumption]).
  clear IH. induction l as [|x l IHl]; cbn; [exact N2|]. inversion N1; subst. constructor.
  - rewrite in_app_iff. intros [I|I]; [contradiction|]. apply in_flat_map in I as ([k2 l2] & I2 & J2).
    destruct (H k2 l2 (or_intror I2)) as [_ E2]. specialize (E2 x J2). rewrite (E1 x (or_introl eq_refl)) in E2.
    injection E2 as ->. apply H2. change k2 with (fst (k2, l2)). apply in_map. exact I2.
  - apply IHl; [|assumption|intros; apply E1; right; assumption].
    intros k0 l0 [E|I0]; [injection E as <- <-; split; [assumption|intros; apply E1; right; assumption]|apply H; right; exact I0].
Qed.

Lemma nodup_all_pending s : Inv s -> NoDup (all_pending s).
Proof.
  intros I. apply (nodup_flat_map (reqs s) (fun r => option_map q_op (cell s r))); [apply inv_reqs; exact I|].
  intros k l J. pose proof (in_get k l _ (inv_reqs s I) J) as G.
  assert (P : pending s k = l) by (unfold pending, get_or; rewrite G; reflexivity).
  split; [rewrite <- P; apply inv_nodup; exact I|]. intros x Hx. rewrite <- P in Hx.
  destruct (inv_cell s I k x Hx) as (q & -> & <-). reflexivity.
Qed.

(** ** Preservation *)
Lemma try_send_regs f m addrs rg : NoDup (keys rg) -> NoDup (keys (fst (fst (try_send f m addrs rg)))).
Proof.
  revert rg. induction addrs as [|a addrs IH]; intros rg ND; cbn; [exact ND|].
  destruct (match f a with Success => (rg, []) | ReceiverBusy => (rg, [a]) | _ => (del a rg, []) end) as [rg' b] eqn:E.
  assert (ND' : NoDup (keys rg')) by (destruct (f a); injection E as <- <-; try exact ND; apply nodup_del; exact ND).
  specialize (IH rg' ND'). destruct (try_send f m addrs rg') as [[rg2 b2] ev]. exact IH.
Qed.

Lemma broadcast_regs n s o c p : NoDup (keys (regs s)) -> NoDup (keys (regs (fst (fst (broadcast n s o c p))))).
Proof.
  intros ND. unfold broadcast.
  destruct (broadcast_to_clients n s o c p) as [[s1 e1] a1] eqn:E. cbn. unfold broadcast_to_clients in E.
  destruct (addresses_of o (regs s)) as [|a0 addrs]; [injection E as <- <- <-; exact ND|].
  pose proof (try_send_regs (first n) (Msg c o rid_invalid p no_address) (a0 :: addrs) (regs s) ND) as N1.
  destruct (try_send (first n) (Msg c o rid_invalid p no_address) (a0 :: addrs) (regs s)) as [[rg1 b1] ev1]. cbn [fst] in N1.
  destruct b1 as [|b b1]; [injection E as <- <- <-; exact N1|].
  pose proof (try_send_regs (second n) (Msg c o rid_invalid p no_address) (b :: b1) rg1 N1) as N2.
  destruct (try_send (second n) (Msg c o rid_invalid p no_address) (b :: b1) rg1) as [[rg2 b2] ev2].
  injection E as <- <- <-. exact N2.
Qed.

Lemma ret_fst x : fst (ret x) = fst (fst x).
Proof. destruct x as [[s e] a]. reflexivity. Qed.

Lemma step_regs n s o : Inv s -> NoDup (keys (regs (fst (step n s o)))).
Proof.
  intros I. pose proof (inv_regs s I) as ND. unfold step. rewrite (inv_ub s I).
  destruct o as [m|r p pa|r cb|o p|o|o nf|o p|o h|o|o l|o l| | |]; try exact ND.
  - unfold on_incoming. destruct (m_code m); try exact ND; cbn [fst].
    + cbn. apply nodup_put. exact ND.
    + cbn. apply nodup_put. exact ND.
    + cbn. apply nodup_put. exact ND.
    + unfold on_action_request. destruct (get (m_op m) (handlers s)); exact ND.
    + unfold on_request_aborted. destruct (find_req s m); exact ND.
    + cbn. apply nodup_del. exact ND.
  - destruct (nth_error (heap s) r) as [q|]; [|exact ND]. rewrite ret_fst. unfold reply.
    destruct (q_valid q); [|exact ND]. unfold respond_to_request.
    destruct pa; cbn [m_code opcode_eqb]; destruct (find_req s _); exact ND.
  - destruct (nth_error (heap s) r) as [q|]; [|exact ND]. destruct (q_valid q); exact ND.
  - rewrite ret_fst. unfold set_status. destruct (differs _ _); [|exact ND]. apply broadcast_regs. exact ND.
  - destruct nf; rewrite ret_fst; [apply broadcast_regs|]; exact ND.
  - rewrite ret_fst. apply broadcast_regs. exact ND.
  - destruct h as [h|]; [destruct (get o (handlers s))|]; exact ND.
  - rewrite deinit_eq. constructor.
Qed.

Lemma step_ub n s o : Inv s -> ub (fst (step n s o)) = false.
Proof.
  intros I. pose proof (inv_ub s I) as U. unfold step. rewrite U.
  destruct o as [m|r p pa|r cb|o p|o|o nf|o p|o h|o|o l|o l| | |]; try exact U.
  - unfold on_incoming. destruct (m_code m); try exact U; cbn [fst].
    + unfold on_action_request. destruct (get (m_op m) (handlers s)); exact U.
    + unfold on_request_aborted. destruct (find_req s m); exact U.
  - destruct (nth_error (heap s) r) as [q|] eqn:C; [|exact U]. rewrite ret_fst. unfold reply.
    destruct (q_valid q) eqn:V; [|exact U]. unfold respond_to_request.
    pose proof (inv_valid s I r q C V) as Ip.
    destruct pa; cbn [m_code opcode_eqb].
    + destruct (find_req s _); exact U.
    + destruct (find_req s (Msg OpRequest (q_op q) (q_rid q) p (q_src q))) eqn:F; [exact U|].
      exfalso. exact (find_req_none s _ F r q Ip C eq_refl).
  - destruct (nth_error (heap s) r) as [q|]; [|exact U]. destruct (q_valid q); exact U.
  - rewrite ret_fst. unfold set_status. destruct (differs _ _); [|exact U].
    destruct (broadcast _ _ _ _ _) as [[s1 e1] a1] eqn:B. apply no_replies_broadcast in B as (_ & _ & B); try discriminate; try (intros mm [= <-]; congruence).
    cbn. rewrite B. exact U.
  - destruct nf; rewrite ret_fst; [|exact U].
    destruct (broadcast _ _ _ _ _) as [[s1 e1] a1] eqn:B. apply no_replies_broadcast in B as (_ & _ & B); try discriminate; try (intros mm [= <-]; congruence).
    cbn. rewrite B. exact U.
  - rewrite ret_fst.
    destruct (broadcast _ _ _ _ _) as [[s1 e1] a1] eqn:B. apply no_replies_broadcast in B as (_ & _ & B); try discriminate; try (intros mm [= <-]; congruence).
    cbn. rewrite B. exact U.
  - destruct h as [h|]; [destruct (get o (handlers s))|]; exact U.
  - rewrite deinit_eq. exact U.
Qed.

Lemma pending_put s s' o o' l : reqs s' = put o l (reqs s) -> pending s' o' = if Nat.eqb o' o then l else pending s o'.
Proof. intros H. unfold pending. rewrite H. apply get_or_put. Qed.

Lemma inv_same_core s s' : Inv s -> same_core s s' -> NoDup (keys (regs s')) -> ub s' = false -> Inv s'.
Proof.
  intros I [H1 H2] N U. split; try assumption; unfold cell, pending; rewrite ?H1, ?H2; try apply I. 
Qed.

Lemma inv_taken s s' o r : Inv s -> In r (pending s o) -> taken s s' o r -> NoDup (keys (regs s')) -> ub s' = false -> Inv s'.
Proof.
  intros I Ir [T1 T2] N U.
  assert (C' : forall x, cell s' x = if Nat.eqb r x then option_map invalidate_q (cell s x) else cell s x).
  { intros x. unfold cell. rewrite T2. apply nth_upd. }
  split; try assumption.
  - intros o' x Hx. rewrite (pending_put s s' o o' _ T1) in Hx. rewrite C'.
    assert (J : In x (pending s o')).
    { destruct (Nat.eqb_spec o' o); [subst; apply in_remove1 in Hx; exact Hx|exact Hx]. }
    destruct (inv_cell s I _ _ J) as (q & Hq & Ho). rewrite Hq. destruct (Nat.eqb r x); cbn; eexists; split; try reflexivity; exact Ho.
  - intros o'. rewrite (pending_put s s' o o' _ T1). destruct (Nat.eqb_spec o' o); [apply nodup_remove1|]; apply inv_nodup; exact I.
  - intros x q Hx V. rewrite C' in Hx. destruct (Nat.eqb_spec r x).
    + destruct (cell s x); [|discriminate]. cbn in Hx. injection Hx as <-. discriminate.
    + rewrite (pending_put s s' o _ _ T1). pose proof (inv_valid s I x q Hx V) as J.
      destruct (Nat.eqb_spec (q_op q) o); [|exact J]. rewrite e in J. apply in_remove1_iff; [apply inv_nodup; exact I|].
      split; [exact J|congruence].
  - rewrite T1. apply nodup_put. apply inv_reqs. exact I.
Qed.

Lemma cell_lt s r q : cell s r = Some q -> r < length (heap s).
Proof. intros H. apply nth_error_Some. unfold cell in H. congruence. Qed.

Theorem step_inv n s o s' ev : Inv s -> step n s o = (s', ev) -> Inv s'.
Proof.
  intros I E. pose proof (step_regs n s o I) as N. pose proof (step_ub n s o I) as U. rewrite E in N, U. cbn [fst] in N, U.
  destruct (step_core n s o s' ev I E) as [C|(r & p & b & -> & -> & _)]; [|exact I].
  destruct C as [o s' ev SC|m a s' Hm G SC|m f s' Hm G Hh Hr|r0 q0 p r q a s' C0 V0 Ir Cr Ho Hr T|r q p a s' C V SC
                |m r q s' Hm Ir C Ho Hr T|r q cb s' C V Hr Hh|r q cb s' C V SC|r cb s' C SC|s' ev D].
  - eapply inv_same_core; eassumption.
  - eapply inv_same_core; eassumption.
  - (* save *)
    split; try assumption.
    + intros o' x Hx. rewrite (pending_put s s' _ o' _ Hr) in Hx.
      destruct (Nat.eqb_spec o' (m_op m)).
      * apply in_app_or in Hx as [Hx|[<-|[]]].
        -- destruct (inv_cell s I _ _ Hx) as (q & Hq & Ho). exists q. unfold cell. rewrite Hh, nth_error_app1; [|eapply cell_lt; exact Hq].
           split; [exact Hq|congruence].
        -- eexists. unfold cell. rewrite Hh, nth_error_app2, Nat.sub_diag by lia. split; [reflexivity|]. cbn. congruence.
      * destruct (inv_cell s I _ _ Hx) as (q & Hq & Ho). exists q. unfold cell. rewrite Hh, nth_error_app1; [|eapply cell_lt; exact Hq].
        split; [exact Hq|congruence].
    + intros o'. rewrite (pending_put s s' _ o' _ Hr). destruct (Nat.eqb_spec o' (m_op m)); [|apply inv_nodup; exact I].
      pose proof (inv_nodup s I (m_op m)) as Nd.
      assert (F : ~ In (length (heap s)) (pending s (m_op m))).
      { intros J. destruct (inv_cell s I _ _ J) as (q & Hq & _). apply cell_lt in Hq. lia. }
      clear - Nd F. induction (pending s (m_op m)) as [|y l IH]; cbn; [repeat constructor; intros []|].
      inversion Nd; subst. constructor; [|apply IH; [assumption|intros J; apply F; right; exact J]].
      rewrite in_app_iff. intros [J|[Ej|[]]]; [contradiction|]. apply F. left. congruence.
    + intros x q Hx V. unfold cell in Hx. rewrite Hh in Hx. rewrite (pending_put s s' _ _ _ Hr).
      destruct (Nat.lt_ge_cases x (length (heap s))) as [L|L].
      * rewrite nth_error_app1 in Hx by exact L. pose proof (inv_valid s I x q Hx V) as J.
        destruct (Nat.eqb_spec (q_op q) (m_op m)); [|exact J]. rewrite e in J. apply in_or_app. left. exact J.
      * rewrite nth_error_app2 in Hx by exact L.
        destruct (x - length (heap s)) as [|k] eqn:Ek; cbn in Hx; [|destruct k; discriminate].
        injection Hx as <-. cbn. rewrite Nat.eqb_refl. apply in_or_app. right. left. lia.
    + rewrite Hr. apply nodup_put. apply inv_reqs. exact I.
  - eapply inv_taken; eassumption.
  - eapply inv_same_core; eassumption.
  - eapply inv_taken; eassumption.
  - (* onAborted *)
    assert (C' : forall x, cell s' x = if Nat.eqb r x then option_map (fun q => Rq (q_src q) (q_op q) (q_rid q) (q_input q) (q_valid q) (Some cb)) (cell s x) else cell s x).
    { intros x. unfold cell. rewrite Hh. apply nth_upd. }
    split; try assumption.
    + intros o x Hx. unfold pending in Hx. rewrite Hr in Hx. destruct (inv_cell s I _ _ Hx) as (q1 & Hq & Ho). rewrite C', Hq.
      destruct (Nat.eqb r x); cbn; eexists; split; try reflexivity; exact Ho.
    + intros o. unfold pending. rewrite Hr. apply inv_nodup. exact I.
    + intros x q1 Hx V1. unfold pending. rewrite Hr. rewrite C' in Hx. destruct (Nat.eqb r x).
      * destruct (cell s x) as [q2|] eqn:E2; [|discriminate]. cbn in Hx. injection Hx as <-. cbn in V1 |- *.
        exact (inv_valid s I x q2 E2 V1).
      * exact (inv_valid s I x q1 Hx V1).
    + rewrite Hr. apply inv_reqs. exact I.
  - eapply inv_same_core; eassumption.
  - eapply inv_same_core; eassumption.
  - rewrite deinit_eq in D. injection D as <- <-. split; cbn; try assumption.
    + intros o x Hx. unfold pending in Hx. cbn in Hx. destruct (inv_cell s I _ _ Hx) as (q & Hq & Ho).
      unfold cell. cbn. rewrite nth_inval_list. unfold cell in Hq. rewrite Hq. destruct (mem _ _); cbn; eexists; split; try reflexivity; exact Ho.
    + intros o. exact (inv_nodup s I o).
    + intros x q Hx V. unfold cell in Hx. cbn in Hx. rewrite nth_inval_list in Hx. destruct (mem x (all_pending s)) eqn:M.
      * destruct (nth_error (heap s) x); [|discriminate]. cbn in Hx. injection Hx as <-. discriminate.
      * exact (inv_valid s I x q Hx V).
    + apply inv_reqs. exact I.
Qed.

(** ** Runs *)
Lemma run_app s h1 h2 : run s (h1 ++ h2) = (fst (run (fst (run s h1)) h2), snd (run s h1) ++ snd (run (fst (run s h1)) h2)).
Proof.
  revert s. induction h1 as [|[n o] h1 IH]; intros s; cbn.
  - destruct (run s h2); reflexivity.
  - destruct (step n s o) as [s1 e]. rewrite IH. destruct (run s1 h1) as [s2 es]. cbn. reflexivity.
Qed.

Lemma final_snoc h n o : final (h ++ [(n, o)]) = fst (step n (final h) o).
Proof. unfold final. rewrite run_app. cbn. destruct (step n (fst (run prov_new h)) o). reflexivity. Qed.

Lemma trace_snoc h n o : trace (h ++ [(n, o)]) = trace h ++ next h n o.
Proof.
  unfold trace, next, final. rewrite run_app. cbn. destruct (step n (fst (run prov_new h)) o) as [s e]. cbn.
  rewrite concat_app. cbn. rewrite app_nil_r. reflexivity.
Qed.

Lemma ops_snoc h n o : ops_of (h ++ [(n, o)]) = ops_of h ++ [o].
Proof. unfold ops_of. rewrite map_app. reflexivity. Qed.

Lemma final_inv h : Inv (final h).
Proof.
  induction h as [|[n o] h IH] using rev_ind; [apply inv_new|]. rewrite final_snoc.
  destruct (step n (final h) o) as [s' ev] eqn:E. eapply step_inv; eassumption.
Qed.

Lemma requests_app l1 l2 : requests_received (l1 ++ l2) = requests_received l1 ++ requests_received l2.
Proof. induction l1 as [|x l1 IH]; cbn; [reflexivity|]. destruct (is_request x); cbn; rewrite IH; reflexivity. Qed.
