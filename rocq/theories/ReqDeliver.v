(** A pending request's callback is run by the arrival of its answer. *)
From Verif Require Import ReqModel ReqSpec ReqProofs ReqInv ReqIds ReqOnce.
From Coq Require Import NArith.

(** Calls that (may) end request [rid] on operation [o]. *)
Definition ends (o : nat) (rid : N) (c : call) : bool :=
  match c with
  | CAbort r o' => N.eqb r rid && Nat.eqb o' o
  | CDeinit => true
  | CServiceStatus true _ Unavailable => true
  | CIncoming true m => final_code (m_code m) && Nat.eqb (m_op m) o && N.eqb (m_rid m) rid
  | _ => false
  end.

Lemma in_remove_other rid rid' l e : In e l -> e_id e = rid -> rid' <> rid -> In e (remove_id rid' l).
Proof.
  intros I E Hne. induction l as [|x l IH]; [destruct I|]. cbn. destruct (N.eqb_spec (e_id x) rid').
  - destruct I as [->|I]; [congruence|exact I].
  - destruct I as [->|I]; [left; reflexivity|right; auto].
Qed.

(** An entry whose owner is done stays in the table when a call that does not end it makes a step. *)
Lemma entry_stays h t w p s' p' ev c o e : few h -> nth_error (thr (final h)) t = Some p -> call_of h t = Some c ->
  fits c p -> run1 w (alive (final h) t) (sh (final h)) t p = (s', p', ev) ->
  In e (rl (sh (final h)) o) -> ends o (e_id e) c = false ->
  (t = e_owner e -> match p with PUndo _ _ _ _ _ | PExpErase _ _ => False | _ => True end) ->
  In e (rl s' o).
Proof.
  intros Fw N C F R I K D.
  pose proof (run1_requests _ _ _ _ _ _ _ _ _ F R) as E.
  destruct (i_req h (inv_final h) _ _ I) as [_ Al].
  assert (Own : forall rid o', pc_id p = Some rid -> match p with PUndo _ _ _ _ _ | PExpErase _ _ => False | _ => True end = False ->
     teff (rl (sh (final h))) (rl s') (TRemove o' rid) -> In e (rl s' o)).
  { intros rid o' P Q E'. cbn in E'. rewrite E'. destruct (Nat.eqb_spec o o'); [|exact I]. subst o'.
    eapply in_remove_other; [exact I|reflexivity|]. intros X. subst rid.
    pose proof (i_id h (inv_final h) _ _ _ N P) as Al'. pose proof (ids_unique h _ _ _ Fw Al Al') as Y.
    symmetry in Y. apply D in Y. rewrite Q in Y. destruct Y. }
  destruct p; cbn [req_effect] in E; try (rewrite E; exact I); cbn in F.
  - destruct c0; try (rewrite E; exact I). subst c. discriminate.
  - rewrite E. destruct (Nat.eqb_spec o o0); [subst; apply in_or_app; auto|exact I].
  - eapply Own; [reflexivity|reflexivity|exact E].
  - eapply Own; [reflexivity|reflexivity|exact E].
  - subst c. rewrite E. destruct (Nat.eqb_spec o o0); [|exact I]. subst o0.
    eapply in_remove_other; [exact I|reflexivity|]. intros X. subst rid. cbn in K. rewrite N.eqb_refl, Nat.eqb_refl in K. discriminate.
  - destruct F as [-> F]. cbn in K. destruct (final_code (m_code m)) eqn:FC; [|rewrite E; exact I].
    rewrite E. destruct (Nat.eqb_spec o (m_op m)); [|exact I]. subst o.
    eapply in_remove_other; [exact I|reflexivity|]. intros X. rewrite X, Nat.eqb_refl, N.eqb_refl in K. discriminate.
  - destruct F as [-> ->]. discriminate.
Qed.

(** In the request list of an operation, an id identifies the entry. *)
Lemma find_own h o rid owner k e : few h -> In (Ent rid owner k) (rl (sh (final h)) o) ->
  find_id rid (rl (sh (final h)) o) = Some e -> e_owner e = owner /\ e_id e = rid /\ e_kind e = k.
Proof.
  intros Fw I F. apply find_id_some in F as [J E].
  destruct (i_req h (inv_final h) _ _ I) as [(c & code & pl & b & C1 & L1) A1].
  destruct (i_req h (inv_final h) _ _ J) as [(c' & code' & pl' & b' & C2 & L2) A2]. cbn [e_owner e_id e_kind] in *.
  rewrite E in A2. pose proof (ids_unique h _ _ _ Fw A1 A2) as X. split; [auto|split; [exact E|]].
  rewrite <- X, C1 in C2. injection C2 as <-. destruct c; cbn in L1, L2; try contradiction; intuition congruence.
Qed.

Lemma find_exists rid l e : In e l -> e_id e = rid -> exists x, find_id rid l = Some x.
Proof.
  intros I E. unfold find_id. destruct (find _ l) as [x|] eqn:F; [eauto|].
  pose proof (find_none _ _ F e I) as X. cbn in X. rewrite E, N.eqb_refl in X. discriminate.
Qed.

(** Progress of the arrival [t] of message [m] for the user callback of call [owner]. *)
Definition deliv (h : history) (o : nat) (rid : N) (owner t : nat) (m : msg) : Prop :=
  match nth_error (thr (final h)) t with
  | None => In (Ent rid owner KUser) (rl (sh (final h)) o) /\ runs_by h t owner = 0
  | Some (PStart c) => c = CIncoming true m /\ In (Ent rid owner KUser) (rl (sh (final h)) o) /\ runs_by h t owner = 0
  | Some (PInTake m') => m' = m /\ In (Ent rid owner KUser) (rl (sh (final h)) o) /\ runs_by h t owner = 0
  | Some (PInRun m' [e] false) => m' = m /\ e_owner e = owner /\ e_kind e = KUser /\ runs_by h t owner = 0
  | Some (PInRun m' [] false) => m' = m /\ runs_by h t owner = 1
  | Some PDone => runs_by h t owner = 1
  | Some _ => False
  end.

Lemma runs_by_app h l ev t owner : trace (h ++ [l]) = trace h ++ ev ->
  runs_by (h ++ [l]) t owner = runs_by h t owner +
    cnt (fun e => match e with ECb t' o _ => Nat.eqb t' t && Nat.eqb o owner | _ => false end) ev.
Proof. intros T. unfold runs_by. rewrite T, cnt_app. reflexivity. Qed.

Lemma no_cb_by_other w al s t p s' p' e t' owner c : fits c p -> run1 w al s t p = (s', p', e) -> t <> t' ->
  cnt (fun e => match e with ECb u o _ => Nat.eqb u t' && Nat.eqb o owner | _ => false end) e = 0.
Proof.
  intros F R H. apply cnt_zero. intros x I. destruct x; try reflexivity.
  destruct (run1_cb _ _ _ _ _ _ _ _ _ _ _ _ F R I) as [-> _]. destruct (Nat.eqb_spec t t'); [contradiction|reflexivity].
Qed.

Lemma done_stays h l t : nth_error (thr (final h)) t = Some PDone -> nth_error (thr (final (h ++ [l]))) t = Some PDone.
Proof.
  intros N. rewrite final_snoc. destruct l as [c|t' w]; cbn.
  - rewrite nth_error_app1; [exact N|eapply nth_lt; exact N].
  - destruct (nth_error (thr (final h)) t') as [p|] eqn:N'; [|exact N].
    destruct (run1 w (alive (final h) t') (sh (final h)) t' p) as [[s' p'] e] eqn:R. cbn.
    rewrite (nth_set _ _ _ _ _ N'). destruct (Nat.eqb_spec t' t); [|exact N]. subst.
    rewrite N in N'. injection N' as <-. cbn in R. injection R as _ <- _. reflexivity.
Qed.
Lemma done_stays_app h h2 t : nth_error (thr (final h)) t = Some PDone -> nth_error (thr (final (h ++ h2))) t = Some PDone.
Proof.
  intros N. induction h2 as [|l h2 IH] using rev_ind; [rewrite app_nil_r; exact N|].
  rewrite app_assoc. apply done_stays. exact IH.
Qed.

Lemma few_app h h2 : few (h ++ h2) -> few h.
Proof. unfold few. rewrite calls_app, app_length. lia. Qed.

Section Deliver.
  Variables (h1 : history) (o : nat) (rid : N) (owner t : nat) (m : msg).
  Hypothesis Hpend : In (Ent rid owner KUser) (rl (sh (final h1)) o).
  Hypothesis Howner : exists pl, call_of h1 owner = Some (CSendAsync o pl true).
  Hypothesis Ht : length (calls h1) <= t.
  Hypothesis Hm : m_op m = o /\ m_rid m = rid /\ answer_code (m_code m) = true.

  Lemma deliver h2 : few (h1 ++ h2) ->
    (forall v, In (ERet owner v) (trace (h1 ++ h2)) -> v = RVReg (Some (rid, o)) (Some Success)) ->
    (forall t' c, call_of (h1 ++ h2) t' = Some c -> length (calls h1) <= t' -> t' <> t -> ends o rid c = false) ->
    (forall t' p, nth_error (thr (final h1)) t' = Some p -> p <> PDone -> exists c, call_of h1 t' = Some c /\ ends o rid c = false) ->
    (forall c, call_of (h1 ++ h2) t = Some c -> c = CIncoming true m) ->
    deliv (h1 ++ h2) o rid owner t m /\
    (forall t' p, nth_error (thr (final (h1 ++ h2))) t' = Some p -> p <> PDone -> t' <> t ->
        exists c, call_of (h1 ++ h2) t' = Some c /\ ends o rid c = false).
  Proof.
    destruct Hm as (Ho & Hr & Ha).
    induction h2 as [|l h2 IH] using rev_ind; intros Fw Kr K K1 Kt.
    - rewrite app_nil_r in *. pose proof (i_len h1 (inv_final h1)) as Len. split; [|intros; eauto].
      unfold deliv. rewrite (proj2 (nth_error_None _ _)) by lia. split; [exact Hpend|].
      unfold runs_by. apply cnt_zero. intros x I. destruct x; try reflexivity.
      destruct (cb_called _ _ _ _ I) as (c & C). apply nth_lt in C. destruct (Nat.eqb_spec t0 t); [lia|reflexivity].
    - rewrite app_assoc in *. set (h := h1 ++ h2) in *.
      assert (Fw' : few h) by (eapply few_app; exact Fw).
      destruct IH as [D Oth]; [exact Fw'|intros v V; apply Kr; apply in_trace_app; exact V|intros t' c C; apply (K t' c); apply call_of_app; exact C|exact K1|
                               intros c C; apply Kt; apply call_of_app; exact C|].
      destruct l as [c|t' w].
      + split.
        * unfold deliv in *. rewrite snoc_call. cbn [sh thr]. rewrite nth_snoc.
          assert (Rn : runs_by (h ++ [LCall c]) t owner = runs_by h t owner) by (unfold runs_by; rewrite trace_call; reflexivity).
          rewrite Rn. destruct (Nat.eqb_spec t (length (thr (final h)))) as [E|]; [|exact D].
          rewrite E in D. rewrite (proj2 (nth_error_None _ _) (le_n _)) in D. rewrite <- E in D. split; [|exact D].
          apply Kt. rewrite call_of_call, <- (i_len h (inv_final h)), E, Nat.eqb_refl. reflexivity.
        * intros t' p N P Hne. rewrite snoc_call in N. cbn [thr] in N. rewrite nth_snoc in N.
          destruct (Nat.eqb_spec t' (length (thr (final h)))) as [E|].
          -- exists c. assert (C : call_of (h ++ [LCall c]) t' = Some c).
             { rewrite call_of_call, <- (i_len h (inv_final h)), E, Nat.eqb_refl. reflexivity. }
             split; [exact C|]. apply (K t' c C); [|exact Hne]. rewrite E, (i_len h (inv_final h)). unfold h. rewrite calls_app, app_length. lia.
          -- destruct (Oth t' p N P Hne) as (c' & C & Q). exists c'. split; [apply call_of_app; exact C|exact Q].
      + destruct (nth_error (thr (final h)) t') as [p|] eqn:N.
        2:{ assert (F : final (h ++ [LRun t' w]) = final h) by (rewrite final_snoc; cbn; rewrite N; reflexivity).
            assert (T : trace (h ++ [LRun t' w]) = trace h) by (rewrite trace_snoc; cbn; rewrite N; apply app_nil_r).
            split; [|rewrite F; intros t2 p2 N2 P2 H2; rewrite call_of_run; eauto].
            unfold deliv, runs_by in *. rewrite F, T. exact D. }
        destruct (run1 w (alive (final h) t') (sh (final h)) t' p) as [[s' p'] e] eqn:R.
        assert (F : final (h ++ [LRun t' w]) = St s' (set_nth t' p' (thr (final h)))) by (rewrite final_snoc; cbn; rewrite N, R; reflexivity).
        assert (T : trace (h ++ [LRun t' w]) = trace h ++ e) by (rewrite trace_snoc; cbn; rewrite N, R; reflexivity).
        destruct (i_fit h (inv_final h) _ _ N) as (c & C & Fc).
        assert (Stay : In (Ent rid owner KUser) (rl (sh (final h)) o) -> ends o rid c = false -> In (Ent rid owner KUser) (rl s' o)).
        { intros I En. apply (entry_stays h t' w p s' p' e c o _ Fw' N C Fc R I En). cbn. intros ->.
          destruct Howner as (pl & Co). pose proof (call_of_app h1 h2 _ _ Co) as Co'. fold h in Co'. rewrite C in Co'. injection Co' as ->.
          destruct p; try exact Logic.I; cbn in Fc.
          - destruct Fc as [(pl' & b' & Fc) Na]. destruct Fc as (-> & -> & -> & -> & ->). cbn in R. injection R as <- <- <-.
            assert (X : RVReg None (Some a) = RVReg (Some (rid, o)) (Some Success)); [|discriminate].
            apply Kr. rewrite T. apply in_or_app. right. left. reflexivity.
          - destruct Fc as (? & ? & ? & ? & ? & ? & ?). discriminate. }
        split.
        * unfold deliv in *. rewrite F. cbn [sh thr]. rewrite (runs_by_app _ _ _ _ _ T), (nth_set _ _ _ _ _ N).
          destruct (Nat.eqb_spec t' t) as [->|Hne].
          -- (* the arrival itself *)
             rewrite N in D. specialize (Kt c). rewrite call_of_run in Kt. specialize (Kt C). subst c.
             destruct p; try contradiction; cbn in R, Fc.
             ++ destruct D as (D1 & D2 & D3). subst c.
                destruct (m_code m) eqn:M; try discriminate Ha; injection R as <- <- <-; rewrite cnt_nil; (split; [reflexivity|split; [|lia]]); exact D2.
             ++ destruct D as (-> & D2 & D3).
                pose proof (take_request_found (requests (sh (final h))) (m_op m) (m_rid m) (is_partial (m_code m))) as L.
                destruct (take_request (requests (sh (final h))) (m_op m) (m_rid m) (is_partial (m_code m))) as [r q]. cbn in L.
                assert (Q : exists x, q = Some x /\ e_owner x = owner /\ e_kind x = KUser).
                { rewrite Ho, Hr in L. destruct (find_exists rid _ _ D2 eq_refl) as (x & Fx).
                  exists x. split; [rewrite L; exact Fx|]. destruct (find_own _ _ _ _ _ _ Fw' D2 Fx) as (A & _ & B). auto. }
                destruct Q as (x & -> & Q1 & Q2).
                destruct (m_code m) eqn:M; try discriminate Ha; injection R as <- <- <-; rewrite cnt_nil; repeat split; auto; lia.
             ++ destruct todo as [|x [|y todo]]; [| |destruct keep; contradiction].
                ** destruct keep; [contradiction|]. injection R as <- <- <-. destruct D as (-> & D). rewrite cnt_cons, cnt_nil. cbn. lia.
                ** destruct keep; [contradiction|]. destruct D as (-> & D1 & D2 & D3). rewrite D2 in R. injection R as <- <- <-.
                   rewrite cnt_cons, cnt_nil, D1, !Nat.eqb_refl. cbn. split; [reflexivity|]. lia.
             ++ injection R as <- <- <-. rewrite cnt_nil. lia.
          -- rewrite (no_cb_by_other _ _ _ _ _ _ _ _ t owner _ Fc R Hne), Nat.add_0_r.
             assert (St : In (Ent rid owner KUser) (rl (sh (final h)) o) -> In (Ent rid owner KUser) (rl s' o)).
             { intros I. assert (p = PDone \/ p <> PDone) as [P|P] by (destruct p; ((left; reflexivity) || (right; discriminate))).
               - subst p. cbn in R. injection R as <- <- <-. exact I.
               - apply Stay; [exact I|]. destruct (Oth _ _ N P Hne) as (c' & C' & En). congruence. }
             destruct (nth_error (thr (final h)) t) as [q|]; [|tauto].
             destruct q; try tauto; destruct todo as [|x [|y l]], keep; tauto.
        * intros t2 p2 N2 P2 H2. rewrite F in N2. cbn [thr] in N2. rewrite (nth_set _ _ _ _ _ N) in N2.
          rewrite call_of_run. destruct (Nat.eqb_spec t' t2) as [->|]; [|eauto].
          injection N2 as <-. assert (P : p <> PDone).
          { intros ->. cbn in R. injection R as _ <- _. congruence. }
          exact (Oth _ _ N P H2).
  Qed.
End Deliver.

Lemma cnt_ret_of h t v : In (ERet t v) (trace h) -> nth_error (thr (final h)) t = Some PDone.
Proof.
  induction h as [|h c IH|h t0 w IH N F T|h t0 w p s' p' e IH N R F T] using hist_ind; rewrite ?trace_call, ?T.
  - intros [].
  - intros H. apply done_stays. auto.
  - intros H. apply done_stays. auto.
  - rewrite in_app_iff. intros [H|H]; [apply done_stays; auto|].
    rewrite F. cbn [thr]. rewrite (nth_set _ _ _ _ _ N).
    assert (X : t0 = t /\ p' = PDone).
    { clear - R H. destruct p; cbn in R; break_run; cbn in H; try solve [intuition congruence].
      apply in_app_iff in H as [H|[H|[]]]; [apply in_map_iff in H as (? & ? & _); discriminate|split; congruence]. }
    destruct X as [-> ->]. rewrite Nat.eqb_refl. reflexivity.
Qed.

(** From the request being made to its message being handed over. *)
Section Stored.
  Variables (h0 : history) (o : nat) (pl : option payload) (rid : N).
  Let owner := length (calls h0).
  Let c0 := CSendAsync o pl true.

  Definition phase (h : history) : Prop :=
    match nth_error (thr (final h)) owner with
    | Some (PSend _ _ _ _ _ r) | Some (PSent _ _ _ _ r) | Some (PUndo _ _ _ r _) => r = rid -> In (Ent rid owner KUser) (rl (sh (final h)) o)
    | Some PDone => In (ERet owner (RVReg (Some (rid, o)) (Some Success))) (trace h) -> In (Ent rid owner KUser) (rl (sh (final h)) o)
    | _ => True
    end.

  Lemma stored h2 : let h := h0 ++ LCall c0 :: h2 in few h ->
    (forall t' c, call_of h t' = Some c -> owner <= t' -> ends o rid c = false) ->
    (forall t' p, nth_error (thr (final h0)) t' = Some p -> p <> PDone -> exists c, call_of h0 t' = Some c /\ ends o rid c = false) ->
    phase h /\
    (forall t' p, nth_error (thr (final h)) t' = Some p -> p <> PDone ->
        exists c, call_of h t' = Some c /\ ends o rid c = false).
  Proof.
    induction h2 as [|l h2 IH] using rev_ind; intros h Fw K K1.
    - subst h. split.
      + unfold phase. rewrite snoc_call. cbn [thr]. rewrite nth_snoc, (i_len h0 (inv_final h0)). unfold owner. rewrite Nat.eqb_refl. exact I.
      + intros t' p N P. rewrite snoc_call in N. cbn [thr] in N. rewrite nth_snoc in N. rewrite call_of_call.
        rewrite (i_len h0 (inv_final h0)) in N. destruct (Nat.eqb t' (length (calls h0))); [|eauto].
        exists c0. split; reflexivity.
    - subst h. rewrite app_comm_cons, app_assoc in *. set (h := h0 ++ LCall c0 :: h2) in *. cbn zeta in IH.
      assert (Fw' : few h) by (eapply few_app; exact Fw).
      destruct IH as [D Oth]; [exact Fw'|intros t' c C; apply (K t' c); apply call_of_app; exact C|exact K1|].
      assert (Oc : call_of h owner = Some c0).
      { unfold h, call_of. rewrite calls_app. cbn [calls]. rewrite nth_error_app2 by (unfold owner; lia). unfold owner. rewrite Nat.sub_diag. reflexivity. }
      assert (Ol : owner < length (thr (final h))) by (rewrite (i_len h (inv_final h)); eapply nth_lt; exact Oc).
      destruct l as [c|t' w].
      + split.
        * unfold phase in *. rewrite snoc_call, trace_call. cbn [sh thr]. rewrite nth_error_app1 by exact Ol. exact D.
        * intros t' p N P. rewrite snoc_call in N. cbn [thr] in N. rewrite nth_snoc in N.
          destruct (Nat.eqb_spec t' (length (thr (final h)))) as [E|].
          -- exists c. assert (C : call_of (h ++ [LCall c]) t' = Some c).
             { rewrite call_of_call, <- (i_len h (inv_final h)), E, Nat.eqb_refl. reflexivity. }
             split; [exact C|]. apply (K t' c C). lia.
          -- destruct (Oth t' p N P) as (c' & C & Q). exists c'. split; [apply call_of_app; exact C|exact Q].
      + destruct (nth_error (thr (final h)) t') as [p|] eqn:N.
        2:{ assert (F : final (h ++ [LRun t' w]) = final h) by (rewrite final_snoc; cbn; rewrite N; reflexivity).
            assert (T : trace (h ++ [LRun t' w]) = trace h) by (rewrite trace_snoc; cbn; rewrite N; apply app_nil_r).
            split; [|rewrite F; intros t2 p2 N2 P2; rewrite call_of_run; eauto].
            unfold phase in *. rewrite F, T. exact D. }
        destruct (run1 w (alive (final h) t') (sh (final h)) t' p) as [[s' p'] e] eqn:R.
        assert (F : final (h ++ [LRun t' w]) = St s' (set_nth t' p' (thr (final h)))) by (rewrite final_snoc; cbn; rewrite N, R; reflexivity).
        assert (T : trace (h ++ [LRun t' w]) = trace h ++ e) by (rewrite trace_snoc; cbn; rewrite N, R; reflexivity).
        destruct (i_fit h (inv_final h) _ _ N) as (c & C & Fc).
        split.
        * unfold phase in *. rewrite F, T. cbn [sh thr]. rewrite (nth_set _ _ _ _ _ N).
          destruct (Nat.eqb_spec t' owner) as [->|Hne].
          -- rewrite Oc in C. injection C as <-. rewrite N in D.
             destruct p; cbn in Fc; try contradiction;
               try solve [exfalso; clear - Fc; try unfold c0 in Fc;
                 repeat match goal with H : exists _, _ |- _ => destruct H | H : _ /\ _ |- _ => destruct H
                                      | H : context [match ?b with true => _ | false => _ end] |- _ => destruct b end;
                 cbn in *; intuition discriminate];
               cbn in R.
             ++ subst. unfold c0 in R. break_run; try exact Logic.I. intros H. exfalso.
                apply in_app_iff in H as [H|[H|[]]]; [|discriminate]. apply cnt_ret_of in H. congruence.
             ++ break_run; exact Logic.I.
             ++ destruct Fc as (_ & -> & _ & -> & _). injection R as <- <- <-. intros ->.
                unfold rl. cbn. rewrite get_or_put, Nat.eqb_refl. apply in_or_app. right. left. reflexivity.
             ++ injection R as <- <- <-. exact D.
             ++ destruct Fc as (pl' & Hc & Ho & Hp & Hk & Hb). subst.
                destruct (regid_ok rid0 o) eqn:Ok; break_run; try exact D; intros H;
                  (apply in_app_iff in H as [H|[H|[]]]; [exfalso; apply cnt_ret_of in H; congruence|]);
                  try discriminate; injection H as H; apply D; congruence.
             ++ destruct Fc as [(pl' & b' & Hc & Ho & Hp & Hk & Hb) Na]. subst. injection R as <- <- <-. intros H.
                exfalso. apply in_app_iff in H as [H|[H|[]]]; [apply cnt_ret_of in H; congruence|discriminate].
             ++ injection R as <- <- <-. rewrite app_nil_r. exact D.
          -- assert (St : In (Ent rid owner KUser) (rl (sh (final h)) o) -> In (Ent rid owner KUser) (rl s' o)).
             { intros I. assert (p = PDone \/ p <> PDone) as [P|P] by (destruct p; ((left; reflexivity) || (right; discriminate))).
               - subst p. cbn in R. injection R as <- <- <-. exact I.
               - destruct (Oth _ _ N P) as (c' & C' & En). rewrite C in C'. injection C' as <-.
                 apply (entry_stays h t' w p s' p' e c o _ Fw' N C Fc R I En). cbn. intros X. contradiction. }
             assert (Re : In (ERet owner (RVReg (Some (rid, o)) (Some Success))) (trace h ++ e) ->
                          In (ERet owner (RVReg (Some (rid, o)) (Some Success))) (trace h)).
             { intros H. apply in_app_iff in H as [H|H]; [exact H|]. exfalso.
               assert (X : t' = owner); [|contradiction].
               clear - R H. destruct p; cbn in R; break_run; cbn in H; try solve [intuition congruence].
               apply in_app_iff in H as [H|[H|[]]]; [apply in_map_iff in H as (? & ? & _); discriminate|congruence]. }
             destruct (nth_error (thr (final h)) owner) as [q|]; [|exact Logic.I].
             destruct q; try exact Logic.I; auto.
        * intros t2 p2 N2 P2. rewrite F in N2. cbn [thr] in N2. rewrite (nth_set _ _ _ _ _ N) in N2.
          rewrite call_of_run. destruct (Nat.eqb_spec t' t2) as [->|]; [|eauto].
          injection N2 as <-. assert (P : p <> PDone).
          { intros ->. cbn in R. injection R as _ <- _. congruence. }
          exact (Oth _ _ N P).
  Qed.
End Stored.
