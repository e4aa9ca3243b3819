(** Provider: handlers / values / listeners computed from the history; abort callbacks; deinit. *)
From Coq Require Import Permutation.
From Verif Require Import ProvModel ProvSpec ProvProofs ProvProofs2.

(** ** Handlers, values, listeners *)
Lemma broadcast_frame n s o c p :
  let s' := fst (fst (broadcast n s o c p)) in
  handlers s' = handlers s /\ props s' = props s /\ listeners s' = listeners s /\ avail s' = avail s.
Proof.
  unfold broadcast. destruct (broadcast_to_clients n s o c p) as [[s1 e1] a1] eqn:E. cbn. unfold broadcast_to_clients in E.
  destruct (addresses_of o (regs s)) as [|a0 addrs]; [injection E as <- <- <-; auto|].
  destruct (try_send (first n) _ (a0 :: addrs) (regs s)) as [[rg1 b1] ev1].
  destruct b1 as [|b b1]; [injection E as <- <- <-; cbn; auto|].
  destruct (try_send (second n) _ (b :: b1) rg1) as [[rg2 b2] ev2]. injection E as <- <- <-. cbn. auto.
Qed.

Lemma step_tables n s x : ub s = false ->
  (forall o, get o (handlers (fst (step n s x))) = handler_step o (get o (handlers s)) x) /\
  (forall o, get_or None o (props (fst (step n s x))) = value_step o (get_or None o (props s)) x) /\
  (forall o, get_or [] o (listeners (fst (step n s x))) = listen_step o (get_or [] o (listeners s)) x).
Proof.
  intros U. unfold step. rewrite U.
  destruct x as [m|r p pa|r cb|o p|o|o nf|o p|o h|o|o l|o l| | |]; cbn [handler_step value_step listen_step]; try (cbn; auto; fail).
  - unfold on_incoming. destruct (m_code m); cbn; auto.
    + unfold on_action_request. destruct (get (m_op m) (handlers s)); cbn; auto.
    + unfold on_request_aborted. destruct (find_req s m); cbn; auto.
  - destruct (nth_error (heap s) r) as [q|]; [|auto]. rewrite ret_fst. unfold reply. destruct (q_valid q); [|auto].
    unfold respond_to_request. destruct pa; cbn [m_code opcode_eqb]; destruct (find_req s _); cbn; auto.
  - destruct (nth_error (heap s) r) as [q|]; [|auto]. destruct (q_valid q); cbn; auto.
  - rewrite ret_fst. unfold set_status. destruct (differs (get_or None o (props s)) p) eqn:D.
    + destruct (broadcast_frame n (set_props s (put o p (props s))) o StatusRegister p) as (H1 & H2 & H3 & _).
      rewrite H1, H2, H3. cbn. repeat split; auto. intros o'. rewrite get_or_put. reflexivity.
    + cbn. repeat split; auto. intros o'. rewrite get_or_put. destruct (Nat.eqb_spec o' o); [|reflexivity]. subst.
      destruct (get_or None o (props s)) as [c|], p as [x|]; try discriminate. cbn in D. apply negb_false_iff in D.
      destruct (payload_eqb_spec c x); [congruence|discriminate].
  - destruct nf; rewrite ret_fst.
    + destruct (broadcast_frame n (set_props s (del o (props s))) o StatusRegister None) as (H1 & H2 & H3 & _).
      rewrite H1, H2, H3. cbn. repeat split; auto. intros o'. rewrite get_or_del. reflexivity.
    + cbn. repeat split; auto. intros o'. rewrite get_or_del. reflexivity.
  - rewrite ret_fst. destruct (broadcast_frame n s o SignalRegister p) as (H1 & H2 & H3 & _). rewrite H1, H2, H3. auto.
  - destruct h as [h|]; [|auto]. destruct (get o (handlers s)) eqn:G; cbn.
    + repeat split; auto. intros o'. destruct (Nat.eqb_spec o' o); [subst; rewrite G|]; reflexivity.
    + repeat split; auto. intros o'. rewrite get_put. destruct (Nat.eqb_spec o' o); [subst; rewrite G|]; reflexivity.
  - cbn. repeat split; auto. intros o'. rewrite get_del. reflexivity.
  - cbn. repeat split; auto. intros o'. rewrite get_or_put. destruct (Nat.eqb_spec o' o); [subst|]; reflexivity.
  - cbn. repeat split; auto. intros o'. rewrite get_or_put. destruct (Nat.eqb_spec o' o); [subst|]; reflexivity.
  - rewrite deinit_eq. cbn. auto.
Qed.

Lemma final_tables h :
  (forall o, get o (handlers (final h)) = handler_after h o) /\
  (forall o, get_or None o (props (final h)) = value_after h o) /\
  (forall o, get_or [] o (listeners (final h)) = listening h o).
Proof.
  induction h as [|[n x] h IH] using rev_ind; [split; [|split]; reflexivity|].
  destruct IH as (H1 & H2 & H3). rewrite final_snoc.
  destruct (step_tables n (final h) x (inv_ub _ (final_inv h))) as (S1 & S2 & S3).
  unfold handler_after, value_after, listening in *. rewrite ops_snoc.
  split; [|split]; intros o; rewrite ?S1, ?S2, ?S3, fold_left_app; cbn; rewrite ?H1, ?H2, ?H3; reflexivity.
Qed.

(** ** C17 *)
Lemma request_lemma h n m : m_code m = OpRequest ->
  match handler_after h (m_op m) with
  | Some f => exists r, next h n (OIn m) = [EHandler f r; EReturn (RBool true)] /\ cell (final h) r = None /\
      cell (final (h ++ [(n, OIn m)])) r = Some (Rq (m_src m) (m_op m) (m_rid m) (m_pay m) true None)
  | None => next h n (OIn m) =
      [ESend (m_src m) (Msg OpRequest (m_op m) (m_rid m) (Some (Err EHandlerUnavailable)) (m_src m)) (first n (m_src m));
       EReturn (RBool true)] /\ final (h ++ [(n, OIn m)]) = final h
  end.
Proof.
  intros Hm. destruct (final_tables h) as (H1 & _ & _). rewrite <- H1. rewrite final_snoc. unfold next, step.
  rewrite (inv_ub _ (final_inv h)). unfold on_incoming. rewrite Hm. unfold on_action_request.
  destruct (get (m_op m) (handlers (final h))) as [f|]; cbn.
  - exists (length (heap (final h))). split; [reflexivity|]. unfold cell. cbn. split; [apply nth_error_None; lia|].
    rewrite nth_error_app2, Nat.sub_diag by lia. reflexivity.
  - unfold with_payload. rewrite Hm. auto.
Qed.

Lemma handler_only_lemma h n x f r : In (EHandler f r) (next h n x) ->
  exists m, x = OIn m /\ m_code m = OpRequest /\ handler_after h (m_op m) = Some f.
Proof.
  unfold next. pose proof (final_inv h) as I. destruct (step n (final h) x) as [s' ev] eqn:E. cbn [snd]. intros J.
  destruct (final_tables h) as (H1 & _ & _).
  destruct (step_core n (final h) x s' ev I E) as [C|(r1 & p & b & -> & -> & D)].
  2:{ destruct D as [[_ ->]|(q & _ & _ & ->)]; cbn in J; [contradiction|]. destruct J as [J|[]]. discriminate. }
  destruct C as [o s' ev SC NR IR _ _ _ _|m a s' Hm G SC|m g s' Hm G Hh Hr|r0 q0 p r2 q a s' C0 V0 Ir Cr Ho Hr T|r2 q p a s' C V SC
                |m r2 q s' Hm Ir C Ho Hr T|r2 q cb s' C V Hr Hh|r2 q cb s' C V SC|r2 cb s' C SC|s' ev D].
  - destruct (NR _ J) as (_ & _ & X). exfalso. eapply X. reflexivity.
  - destruct J as [J|[J|[]]]; discriminate.
  - destruct J as [J|[J|[]]]; [|discriminate]. injection J as <- <-. exists m. rewrite <- H1. auto.
  - destruct J as [J|[J|[]]]; discriminate.
  - destruct J as [J|[J|[]]]; discriminate.
  - apply in_app_or in J as [J|[J|[]]]; [|discriminate]. destruct (q_abort q); [|destruct J]. destruct J as [J|[]]; discriminate.
  - destruct J.
  - destruct J as [J|[]]; discriminate.
  - destruct J.
  - rewrite deinit_eq in D. injection D as <- <-. apply in_flat_map in J as (r1 & _ & J). unfold abort_of in J.
    destruct (cell (final h) r1) as [q|]; [|destruct J]. destruct (q_abort q); [|destruct J]. destruct J as [J|[]]; discriminate.
Qed.

(** ** Replies only come from replying (or from a missing handler) *)
Lemma reply_source_lemma h n x k e : In e (next h n x) -> any_reply k e = true ->
  (exists m, x = OIn m /\ m_code m = OpRequest /\ (m_op m, m_rid m) = k /\ handler_after h (m_op m) = None) \/
  (exists r p b q, x = OReply r p b /\ cell (final h) r = Some q /\ q_valid q = true /\ (q_op q, q_rid q) = k).
Proof.
  unfold next. pose proof (final_inv h) as I. destruct (step n (final h) x) as [s' ev] eqn:E. cbn [snd]. intros J A.
  destruct (final_tables h) as (H1 & _ & _).
  assert (KE : forall c d a m2, c = OpRequest \/ c = PartialRequestUpdate -> m_code m2 = c -> any_reply k (ESend d m2 a) = true -> (m_op m2, m_rid m2) = k).
  { intros c d a m2 _ _ X. unfold any_reply, reply_for in X. destruct (key_eqb_spec (m_op m2, m_rid m2) k); [assumption|].
    rewrite !andb_false_r in X. discriminate. }
  destruct (step_core n (final h) x s' ev I E) as [C|(r1 & p & b & -> & -> & D)].
  2:{ destruct D as [[_ ->]|(q & _ & _ & ->)]; cbn in J; [contradiction|]. destruct J as [<-|[]]. discriminate. }
  destruct C as [o s' ev SC NR IR _ _ _ _|m a s' Hm G SC|m g s' Hm G Hh Hr|r0 q0 p r2 q a s' C0 V0 Ir Cr Ho Hr T|r2 q p a s' C V SC
                |m r2 q s' Hm Ir C Ho Hr T|r2 q cb s' C V Hr Hh|r2 q cb s' C V SC|r2 cb s' C SC|s' ev D].
  - destruct (NR _ J) as (X & _ & _). rewrite X in A. discriminate.
  - destruct J as [<-|[<-|[]]]; [|discriminate]. left. exists m. rewrite <- H1. repeat split; auto.
    apply (KE OpRequest) in A; auto.
  - destruct J as [<-|[<-|[]]]; discriminate.
  - destruct J as [<-|[<-|[]]]; [|discriminate]. right. exists r0, p, false, q0. repeat split; auto. apply (KE OpRequest) in A; auto.
  - destruct J as [<-|[<-|[]]]; [|discriminate]. right. exists r2, p, true, q. repeat split; auto. apply (KE PartialRequestUpdate) in A; auto.
  - apply in_app_or in J as [J|[<-|[]]]; [|discriminate]. destruct (q_abort q); [|destruct J]. destruct J as [<-|[]]; discriminate.
  - destruct J.
  - destruct J as [<-|[]]; discriminate.
  - destruct J.
  - rewrite deinit_eq in D. injection D as <- <-. apply in_flat_map in J as (r1 & _ & J). unfold abort_of in J.
    destruct (cell (final h) r1) as [q|]; [|destruct J]. destruct (q_abort q); [|destruct J]. destruct J as [<-|[]]; discriminate.
Qed.

(** ** Exact answers given the state of the request *)
Lemma reply_open h r q n p (b : bool) : cell (final h) r = Some q -> q_valid q = true ->
  next h n (OReply r p b) =
    [ESend (q_src q) (Msg (if b then PartialRequestUpdate else OpRequest) (q_op q) (q_rid q) p (q_src q)) (first n (q_src q));
     EReturn (RStatus (first n (q_src q)))].
Proof.
  intros C V. unfold next, step. pose proof (final_inv h) as I. rewrite (inv_ub _ I). unfold cell in C. rewrite C.
  unfold reply. rewrite V. unfold respond_to_request. pose proof (inv_valid _ I r q C V) as IP.
  destruct b; cbn [m_code opcode_eqb];
  (match goal with |- context [find_req ?s ?m] => destruct (find_req s m) eqn:F end;
   [reflexivity|exfalso; exact (find_req_none _ _ F r q IP C eq_refl)]).
Qed.

Lemma reply_closed h r q n p b : cell (final h) r = Some q -> q_valid q = false ->
  next h n (OReply r p b) = [EReturn (RStatus InvalidCall)].
Proof.
  intros C V. unfold next, step. rewrite (inv_ub _ (final_inv h)). unfold cell in C. rewrite C. unfold reply. rewrite V. reflexivity.
Qed.

Lemma life_replies h1 n m h2 f r : let h := h1 ++ (n, OIn m) :: h2 in
  NoDup (requests_received (ops_of h)) -> m_code m = OpRequest -> In (EHandler f r) (next h1 n (OIn m)) ->
  forall n' p b, next h n' (OReply r p b) =
    if closed_by r m h2 then [EReturn (RStatus InvalidCall)]
    else [ESend (m_src m) (Msg (if b then PartialRequestUpdate else OpRequest) (m_op m) (m_rid m) p (m_src m)) (first n' (m_src m));
          EReturn (RStatus (first n' (m_src m)))].
Proof.
  intros h ND Hm HE n' p b. destruct (life h1 n m h2 f r ND Hm HE) as (ab & C & _). fold h in C.
  destruct (closed_by r m h2).
  - eapply reply_closed; [exact C|reflexivity].
  - rewrite (reply_open h r _ n' p b C eq_refl). reflexivity.
Qed.

Lemma life_abort h1 n m h2 f r : let h := h1 ++ (n, OIn m) :: h2 in
  NoDup (requests_received (ops_of h)) -> m_code m = OpRequest -> In (EHandler f r) (next h1 n (OIn m)) ->
  closed_by r m h2 = false ->
  forall n' pay src, next h n' (OIn (Msg Abort (m_op m) (m_rid m) pay src)) =
    match installed_abort r h2 with Some cb => [EAbortCb cb] | None => [] end ++ [EReturn (RBool true)].
Proof.
  intros h ND Hm HE CL n' pay src. destruct (life h1 n m h2 f r ND Hm HE) as (ab & C & Hab). fold h in C. rewrite CL in C.
  rewrite <- (Hab CL). unfold next, step. pose proof (final_inv h) as I. rewrite (inv_ub _ I). unfold on_incoming. cbn [m_code].
  unfold on_request_aborted. pose proof (inv_valid _ I r _ C eq_refl) as IP. cbn in IP.
  destruct (find_req (final h) (Msg Abort (m_op m) (m_rid m) pay src)) as [r2|] eqn:F.
  - destruct (find_req_some _ _ _ I F) as (_ & q2 & C2 & O2 & R2). cbn in O2, R2.
    assert (r2 = r) by (eapply same_key_same_cell; [exact ND|exact C2|exact C|unfold qkey; cbn; congruence]). subst r2.
    cbn. unfold abort_event, invalidate. cbn. rewrite nth_upd, Nat.eqb_refl. unfold cell in C. rewrite C. reflexivity.
  - exfalso. exact (find_req_none _ _ F r _ IP C eq_refl).
Qed.

Lemma abort_unknown_lemma h n m : m_code m = Abort ->
  (forall r q, cell (final h) r = Some q -> (q_op q, q_rid q) <> (m_op m, m_rid m)) ->
  next h n (OIn m) = [EReturn (RBool true)] /\ final (h ++ [(n, OIn m)]) = final h.
Proof.
  intros Hm N. rewrite final_snoc. unfold next, step. pose proof (final_inv h) as I. rewrite (inv_ub _ I). unfold on_incoming. rewrite Hm.
  unfold on_request_aborted. destruct (find_req (final h) m) as [r|] eqn:F; [|auto].
  destruct (find_req_some _ _ _ I F) as (_ & q & C & O & R). exfalso. apply (N r q C). congruence.
Qed.

(** ** Abort callbacks run at most once *)
Definition armed (cb : nat) (q : request) : bool :=
  q_valid q && match q_abort q with Some c => Nat.eqb c cb | None => false end.
Definition pot (cb : nat) (s : prov) : nat := countb (armed cb) (heap s).

Lemma countb_upd {A} (f : A -> bool) (g : A -> A) l r q : nth_error l r = Some q ->
  countb f (upd r g l) + (if f q then 1 else 0) = countb f l + (if f (g q) then 1 else 0).
Proof.
  revert r. induction l as [|x l IH]; intros [|r] H; try discriminate; cbn in H |- *.
  - injection H as ->. rewrite !countb_cons. lia.
  - rewrite !countb_cons. specialize (IH r H). lia.
Qed.

Lemma no_deinit_pending_valid h : existsb is_deinit (ops_of h) = false ->
  forall o r q, In r (pending (final h) o) -> cell (final h) r = Some q -> q_valid q = true.
Proof.
  induction h as [|[n x] h IH] using rev_ind; [intros _ o r q []|].
  rewrite ops_snoc, existsb_app. intros D. apply orb_false_iff in D as [D0 D1]. cbn in D1. rewrite orb_false_r in D1.
  specialize (IH D0). rewrite final_snoc. pose proof (final_inv h) as I. destruct (step n (final h) x) as [s' ev] eqn:E. cbn [fst].
  assert (SAME : forall s2, same_core (final h) s2 -> forall o r q, In r (pending s2 o) -> cell s2 r = Some q -> q_valid q = true).
  { intros s2 [S1 S2] o r q. unfold pending, cell. rewrite S1, S2. apply IH. }
  assert (TAKE : forall o r, taken (final h) s' o r -> In r (pending (final h) o) ->
     forall o' r' q, In r' (pending s' o') -> cell s' r' = Some q -> q_valid q = true).
  { intros o r [T1 T2] Ir o' r' q J C. rewrite (pending_put _ _ _ _ _ T1) in J. unfold cell in C. rewrite T2, nth_upd in C.
    destruct (Nat.eqb_spec r r').
    - subst r'. exfalso. destruct (Nat.eqb_spec o' o).
      + apply in_remove1_iff in J as [_ J]; [contradiction|]. apply inv_nodup. exact I.
      + destruct (inv_cell _ I _ _ J) as (q1 & C1 & O1). destruct (inv_cell _ I _ _ Ir) as (q2 & C2 & O2). congruence.
    - destruct (Nat.eqb_spec o' o); [subst; apply in_remove1 in J|]; eapply IH; eassumption. }
  destruct (step_core n (final h) x s' ev I E) as [C|(r1 & p & b & -> & -> & D)]; [|exact IH].
  destruct C as [o s' ev SC NR IR _ _ _ _|m a s' Hm G SC|m g s' Hm G Hh Hr|r0 q0 p r2 q a s' C0 V0 Ir Cr Ho Hr T|r2 q p a s' C V SC
                |m r2 q s' Hm Ir C Ho Hr T|r2 q cb s' C V Hr Hh|r2 q cb s' C V SC|r2 cb s' C SC|s' ev D];
    try (eapply SAME; assumption); try (eapply TAKE; eassumption).
  - intros o r q J C. rewrite (pending_put _ _ _ _ _ Hr) in J. unfold cell in C. rewrite Hh in C.
    destruct (Nat.lt_ge_cases r (length (heap (final h)))) as [L|L].
    + rewrite nth_error_app1 in C by exact L. destruct (Nat.eqb_spec o (m_op m)).
      * apply in_app_or in J as [J|[J|[]]]; [|lia]. eapply IH; eassumption.
      * eapply IH; eassumption.
    + rewrite nth_error_app2 in C by exact L. destruct (r - length (heap (final h))) as [|k]; cbn in C; [|destruct k; discriminate].
      injection C as <-. reflexivity.
  - intros o r q1 J C1. unfold pending in J. rewrite Hr in J. unfold cell in C1. rewrite Hh, nth_upd in C1. destruct (Nat.eqb r2 r).
    + destruct (nth_error (heap (final h)) r) as [q3|] eqn:C3; [|discriminate]. cbn in C1. injection C1 as <-. cbn. eapply IH; eassumption.
    + eapply IH; eassumption.
  - discriminate.
Qed.

Lemma abort_pot_lemma h cb : existsb is_deinit (ops_of h) = false ->
  abort_runs cb (trace h) + pot cb (final h) <= abort_registrations cb (ops_of h).
Proof.
  induction h as [|[n x] h IH] using rev_ind; [intros _; change (0 + 0 <= 0); lia|].
  rewrite ops_snoc, existsb_app. intros D. apply orb_false_iff in D as [D0 D1]. cbn in D1. rewrite orb_false_r in D1.
  specialize (IH D0). pose proof (no_deinit_pending_valid h D0) as PV. rewrite final_snoc, trace_snoc.
  unfold abort_runs, abort_registrations in *. rewrite !countb_app, countb_cons, countb_nil.
  unfold next. pose proof (final_inv h) as I. destruct (step n (final h) x) as [s' ev] eqn:E. cbn [fst snd].
  fold (abort_runs cb ev).
  assert (SAME : forall s2, same_core (final h) s2 -> pot cb s2 = pot cb (final h)) by (intros s2 [S1 S2]; unfold pot; rewrite S1; reflexivity).
  destruct (step_core n (final h) x s' ev I E) as [C|(r1 & p & b & -> & -> & D)].
  2:{ assert (abort_runs cb ev = 0) by (destruct D as [[_ ->]|(q & _ & _ & ->)]; reflexivity). lia. }
  destruct C as [o s' ev SC NR IR _ _ _ _|m a s' Hm G SC|m g s' Hm G Hh Hr|r0 q0 p r2 q a s' C0 V0 Ir Cr Ho Hr [T1 T2]|r2 q p a s' C V SC
                |m r2 q s' Hm Ir C Ho Hr [T1 T2]|r2 q c s' C V Hr Hh|r2 q c s' C V SC|r2 c s' C SC|s' ev D].
  - rewrite (no_replies_abort cb ev NR), (SAME s' SC). lia.
  - rewrite (SAME s' SC). change (abort_runs cb _) with 0. lia.
  - change (abort_runs cb _) with 0. unfold pot. rewrite Hh, countb_app, countb_cons, countb_nil. cbn [armed q_valid q_abort andb]. unfold pot in IH. lia.
  - change (abort_runs cb _) with 0. unfold pot in *. rewrite T2.
    pose proof (countb_upd (armed cb) invalidate_q (heap (final h)) r2 q Cr) as X. change (armed cb (invalidate_q q)) with false in X. destruct (armed cb q); lia.
  - change (abort_runs cb _) with 0. rewrite (SAME s' SC). lia.
  - assert (V : q_valid q = true) by (eapply PV; eassumption).
    unfold pot in *. rewrite T2.
    pose proof (countb_upd (armed cb) invalidate_q (heap (final h)) r2 q C) as X. change (armed cb (invalidate_q q)) with false in X.
    assert (A : armed cb q = match q_abort q with Some c => Nat.eqb c cb | None => false end) by (unfold armed; rewrite V; reflexivity).
    rewrite A in X. clear A.
    unfold abort_runs. rewrite countb_app. destruct (q_abort q) as [c|]; rewrite ?countb_cons, ?countb_nil; [|lia].
    destruct (Nat.eqb c cb); lia.
  - change (abort_runs cb []) with 0. unfold pot in *. rewrite Hh.
    match goal with |- context [upd r2 ?g _] => pose proof (countb_upd (armed cb) g (heap (final h)) r2 q C) as X end. cbv beta in X.
    match type of X with context [armed cb (Rq ?a1 ?a2 ?a3 ?a4 ?a5 ?a6)] => assert (A : armed cb (Rq a1 a2 a3 a4 a5 a6) = Nat.eqb c cb) by (unfold armed; cbn; rewrite V; reflexivity); rewrite A in X end.
    destruct (armed cb q); destruct (Nat.eqb c cb); lia.
  - rewrite (SAME s' SC). unfold abort_runs. rewrite countb_cons, countb_nil. lia.
  - rewrite (SAME s' SC). change (abort_runs cb []) with 0. lia.
  - discriminate.
Qed.

(** ** deinit runs the callback of every open request *)
Lemma countb_perm {A} (f : A -> bool) l1 l2 : Permutation l1 l2 -> countb f l1 = countb f l2.
Proof.
  induction 1; rewrite ?countb_cons; lia.
Qed.

Definition armed_at (cb : nat) (s : prov) (r : nat) : bool :=
  match cell s r with Some q => match q_abort q with Some c => Nat.eqb c cb | None => false end | None => false end.

Lemma abort_runs_flat cb s l : abort_runs cb (flat_map (abort_of s) l) = countb (armed_at cb s) l.
Proof.
  unfold abort_runs. induction l as [|r l IH]; [reflexivity|]. cbn [flat_map]. rewrite countb_app, countb_cons, IH. f_equal.
  unfold abort_of, armed_at. destruct (cell s r) as [q|]; [|reflexivity]. destruct (q_abort q) as [c|]; [|reflexivity].
  rewrite countb_cons, countb_nil. destruct (Nat.eqb c cb); reflexivity.
Qed.

Lemma countb_seq (f : request -> bool) l : forall k,
  countb (fun i => match nth_error l (i - k) with Some q => f q | None => false end) (seq k (length l)) = countb f l.
Proof.
  induction l as [|x l IH]; intros k; [reflexivity|]. cbn [length seq]. rewrite !countb_cons, Nat.sub_diag. cbn [nth_error]. f_equal.
  rewrite <- (IH (S k)). apply countb_ext. intros i J. apply in_seq in J.
  replace (i - k) with (S (i - S k)) by lia. reflexivity.
Qed.

Lemma deinit_runs h n cb : existsb is_deinit (ops_of h) = false ->
  abort_runs cb (next h n ODeinit) = pot cb (final h).
Proof.
  intros D. unfold next, step. pose proof (final_inv h) as I. rewrite (inv_ub _ I), deinit_eq. cbn [snd].
  rewrite abort_runs_flat. set (s := final h) in *.
  assert (PV : forall r, In r (all_pending s) <-> exists q, cell s r = Some q /\ q_valid q = true).
  { intros r. rewrite in_all_pending by (apply inv_reqs; exact I). split.
    - intros (o & J). destruct (inv_cell _ I _ _ J) as (q & C & _). exists q. split; [exact C|].
      eapply (no_deinit_pending_valid h D); eassumption.
    - intros (q & C & V). exists (q_op q). apply (inv_valid _ I); assumption. }
  set (vl := filter (fun r => match cell s r with Some q => q_valid q | None => false end) (seq 0 (length (heap s)))).
  assert (P : Permutation (all_pending s) vl).
  { apply NoDup_Permutation; [apply nodup_all_pending; exact I|apply NoDup_filter; apply seq_NoDup|].
    intros r. rewrite PV. unfold vl. rewrite filter_In, in_seq. split.
    - intros (q & C & V). rewrite C. split; [|exact V]. apply cell_lt in C. lia.
    - intros [_ H]. destruct (cell s r) as [q|]; [|discriminate]. exists q. auto. }
  rewrite (countb_perm _ _ _ P). unfold pot. rewrite <- (countb_seq (armed cb) (heap s) 0). unfold vl, countb.
  f_equal.
  assert (FF : forall (l : list nat) (f g : nat -> bool), filter f (filter g l) = filter (fun x => g x && f x) l).
  { intros l f g. induction l as [|x l IH]; [reflexivity|]. cbn. destruct (g x); cbn; [destruct (f x); rewrite IH; reflexivity|exact IH]. }
  rewrite FF. apply filter_ext. intros r. rewrite Nat.sub_0_r. unfold armed_at, cell, armed.
  destruct (nth_error (heap s) r) as [q|]; [|reflexivity]. reflexivity.
Qed.

Lemma deinit_once_lemma h1 n m h2 f r cb n' : let h := h1 ++ (n, OIn m) :: h2 in
  NoDup (requests_received (ops_of h)) -> m_code m = OpRequest -> In (EHandler f r) (next h1 n (OIn m)) ->
  existsb is_deinit (ops_of h) = false -> closed_by r m h2 = false -> installed_abort r h2 = Some cb ->
  abort_registrations cb (ops_of h) = 1 ->
  abort_runs cb (trace h) = 0 /\ abort_runs cb (next h n' ODeinit) = 1.
Proof.
  intros h ND Hm HE D CL IA RG. destruct (life h1 n m h2 f r ND Hm HE) as (ab & C & Hab). fold h in C. rewrite CL in C.
  rewrite (Hab CL), IA in C. pose proof (abort_pot_lemma h cb D) as B. rewrite (deinit_runs h n' cb D).
  assert (1 <= pot cb (final h)); [|rewrite RG in B; lia].
  unfold pot, cell in *. destruct (nth_error_split _ _ C) as (l1 & l2 & -> & _). rewrite countb_app, countb_cons. cbn [armed q_valid q_abort negb andb].
  rewrite Nat.eqb_refl. lia.
Qed.

Lemma deinit_refuses_lemma h n n' r p b : cell (final h) r <> None ->
  next (h ++ [(n, ODeinit)]) n' (OReply r p b) = [EReturn (RStatus InvalidCall)].
Proof.
  intros C. destruct (cell (final h) r) as [q|] eqn:Cq; [|contradiction].
  pose proof (final_inv h) as I.
  assert (X : exists q', cell (final (h ++ [(n, ODeinit)])) r = Some q' /\ q_valid q' = false).
  { rewrite final_snoc. unfold step. rewrite (inv_ub _ I), deinit_eq. unfold cell. cbn. rewrite nth_inval_list. unfold cell in Cq. rewrite Cq.
    destruct (mem r (all_pending (final h))) eqn:M; [eexists; split; reflexivity|]. exists q. split; [reflexivity|].
    destruct (q_valid q) eqn:V; [|reflexivity]. exfalso.
    assert (J : In r (all_pending (final h))) by (apply in_all_pending; [apply inv_reqs; exact I|exists (q_op q); apply (inv_valid _ I); assumption]).
    apply mem_in in J. congruence. }
  destruct X as (q' & C' & V'). eapply reply_closed; eassumption.
Qed.
