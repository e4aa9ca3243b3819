(** Abort messages: at most one per request, and one if the request was pending. *)
From Verif Require Import ReqModel ReqSpec ReqProofs ReqInv ReqIds ReqOnce ReqDeliver ReqDeliver2 ReqGone ReqGone2.
From Coq Require Import NArith.

Definition is_abort (o : nat) (rid : N) (x : event) : bool :=
  match x with ESend _ (Msg Abort o' r _ _) => Nat.eqb o' o && N.eqb r rid | _ => false end.
Definition is_alloc (rid : N) (x : event) : bool := match x with EAlloc _ r => N.eqb r rid | _ => false end.
Definition has_id (rid : N) (e : entry) : bool := N.eqb (e_id e) rid.
Definition abw (o : nat) (rid : N) (p : pc) : nat :=
  match p with
  | PAbortSend o' r | PExpSend o' r | PStore _ o' _ _ _ r => b2n (Nat.eqb o' o && N.eqb r rid)
  | _ => 0
  end.

Lemma cnt_notify {t old new l} f : (forall x, f (ENotify t x old new) = false) -> f (ERet t RVUnit) = false ->
  cnt f (map (fun x => ENotify t x old new) l ++ [ERet t RVUnit]) = 0.
Proof.
  intros H1 H2. apply cnt_zero. intros x I. apply in_app_iff in I as [I|[<-|[]]]; [|exact H2].
  apply in_map_iff in I as (y & <- & _). apply H1.
Qed.

Lemma run1_abort o rid c w al s t p s' p' e : fits c p -> run1 w al s t p = (s', p', e) ->
  cnt (is_abort o rid) e + abw o rid p' + cnt (has_id rid) (rl s' o) <=
  abw o rid p + cnt (has_id rid) (rl s o) + cnt (is_alloc rid) e.
Proof.
  intros F R.
  pose proof (run1_requests _ _ _ _ _ _ _ _ _ F R) as E.
  destruct p.
  all: match type of R with run1 _ _ _ _ ?q = _ => match q with
    | PStore _ _ _ _ _ _ => idtac
    | PExpErase _ _ => idtac
    | PAbortErase _ _ => idtac
    | _ => apply (teff_cnt _ _ _ (has_id rid) o) in E
    end end.
  all: match type of R with run1 _ _ _ _ ?q = _ => match q with
    | PStart ?cc => cbn [req_effect] in E; assert (X : cnt (has_id rid) (rl s' o) <= cnt (has_id rid) (rl s o)) by (destruct cc; exact E);
                    cbn in R; break_run; cbn [abw]; rewrite ?cnt_cons, ?cnt_nil; cbn [is_abort is_alloc b2n]; lia
    | PAlloc _ _ _ _ _ => idtac
    | PStore _ _ _ _ _ _ => idtac
    | PExpErase _ _ => idtac
    | PAbortErase _ _ => idtac
    | PInTake _ => idtac
    | PInRun _ _ _ => idtac
    | PSend _ _ _ _ _ _ => idtac
    | PRegSend _ _ _ => idtac
    | PRegAlloc _ _ => idtac
    | PSvcSet _ ?n => cbn [req_effect] in E; cbn in R; break_run; destruct n; cbn [abw]; rewrite ?cnt_cons, ?cnt_nil; cbn [is_abort is_alloc b2n]; lia
    | PSvcForward _ _ => cbn [req_effect] in E; cbn in R; break_run; cbn [abw]; rewrite !cnt_notify by reflexivity; lia
    | _ => cbn [req_effect] in E; cbn in R; break_run; cbn [abw]; rewrite ?cnt_cons, ?cnt_nil; cbn [is_abort is_alloc b2n]; lia
    end end.
  - cbn [req_effect] in E. cbn in R. break_run; cbn [abw]; rewrite ?cnt_cons, ?cnt_nil; cbn [is_abort is_alloc b2n]; [lia|].
    destruct (N.eqb (counter s) rid), (Nat.eqb o0 o); cbn; lia.
  - apply (teff_cnt _ _ _ (has_id rid) o) in E. cbn [req_effect] in E. cbn in R. break_run. cbn [abw]. rewrite E, !cnt_nil.
    unfold has_id at 2. cbn [e_id]. rewrite (Nat.eqb_sym o0 o). destruct (Nat.eqb o o0), (N.eqb rid0 rid); cbn; lia.
  - cbn [req_effect] in E. cbn in R. break_run. cbn [abw]. rewrite cnt_cons, !cnt_nil. cbn [is_abort].
    assert (is_abort o rid (ESend t (Msg code o0 rid0 p 0)) = false) as X.
    { cbn in F. destruct c; cbn in F; try contradiction; destruct F as (-> & _); reflexivity. }
    cbn [is_abort] in X. rewrite X. cbn. lia.
  - cbn [req_effect] in E. cbn in E. specialize (E o). cbn in R.
    pose proof (erase_request_found (requests s) o0 rid0) as Fd. destruct (erase_request (requests s) o0 rid0) as [m fd]. cbn in Fd.
    assert (X : cnt (has_id rid) (rl s' o) + (if Nat.eqb o0 o && N.eqb rid0 rid then b2n fd else 0) <= cnt (has_id rid) (rl s o)).
    { rewrite E, (Nat.eqb_sym o o0). destruct (Nat.eqb_spec o0 o) as [->|]; [|cbn; lia]. cbn [andb].
      pose proof (cnt_remove_id (has_id rid) rid0 (rl s o)) as K. unfold rl in K |- *. rewrite Fd.
      destruct (find_id rid0 (get_or [] o (requests s))) as [y|] eqn:Fy; cbn [b2n].
      - apply find_id_some in Fy as [_ Iy]. unfold has_id in K at 2. rewrite Iy in K. destruct (N.eqb rid0 rid); cbn [b2n] in K |- *; lia.
      - destruct (N.eqb rid0 rid); lia. }
    destruct fd; break_run; cbn [abw]; rewrite ?cnt_cons, !cnt_nil; cbn [is_abort is_alloc b2n] in *;
      destruct (Nat.eqb o0 o && N.eqb rid0 rid); cbn [b2n] in *; lia.
  - cbn [req_effect] in E. cbn in E. specialize (E o). cbn in R.
    pose proof (erase_request_found (requests s) o0 rid0) as Fd. destruct (erase_request (requests s) o0 rid0) as [m fd]. cbn in Fd.
    assert (X : cnt (has_id rid) (rl s' o) + (if Nat.eqb o0 o && N.eqb rid0 rid then b2n fd else 0) <= cnt (has_id rid) (rl s o)).
    { rewrite E, (Nat.eqb_sym o o0). destruct (Nat.eqb_spec o0 o) as [->|]; [|cbn; lia]. cbn [andb].
      pose proof (cnt_remove_id (has_id rid) rid0 (rl s o)) as K. unfold rl in K |- *. rewrite Fd.
      destruct (find_id rid0 (get_or [] o (requests s))) as [y|] eqn:Fy; cbn [b2n].
      - apply find_id_some in Fy as [_ Iy]. unfold has_id in K at 2. rewrite Iy in K. destruct (N.eqb rid0 rid); cbn [b2n] in K |- *; lia.
      - destruct (N.eqb rid0 rid); lia. }
    destruct fd; break_run; cbn [abw]; rewrite ?cnt_cons, !cnt_nil; cbn [is_abort is_alloc b2n] in *;
      destruct (Nat.eqb o0 o && N.eqb rid0 rid); cbn [b2n] in *; lia.
  - cbn [req_effect] in E. cbn in R. break_run; cbn [abw]; rewrite ?cnt_cons, ?cnt_nil; cbn [is_abort is_alloc b2n]; lia.
  - cbn [req_effect] in E. cbn in R. break_run. cbn [abw]. rewrite cnt_cons, !cnt_nil. destruct st; cbn; lia.
  - cbn [req_effect] in E. assert (X : cnt (has_id rid) (rl s' o) <= cnt (has_id rid) (rl s o)) by (destruct (final_code (m_code m)); exact E).
    cbn in R. destruct (take_request (requests s) (m_op m) (m_rid m) (is_partial (m_code m))) as [r q].
    destruct (m_code m); break_run; cbn [abw]; rewrite ?cnt_nil; lia.
  - cbn [req_effect] in E. cbn in R. destruct todo as [|y todo].
    + break_run; cbn [abw]; rewrite ?cnt_cons, ?cnt_nil; cbn [is_abort is_alloc b2n]; lia.
    + destruct (e_kind y); [| |destruct (get (e_owner y) (promises s))]; break_run; cbn [abw]; rewrite ?cnt_cons, ?cnt_nil; cbn [is_abort is_alloc b2n]; lia.
Qed.

Lemma abort_inv h o rid :
  cnt (is_abort o rid) (trace h) + wsum (abw o rid) (thr (final h)) + cnt (has_id rid) (rl (sh (final h)) o) <=
  cnt (is_alloc rid) (trace h).
Proof.
  induction h as [|h c IH|h t w IH N F T|h t w p s' p' e IH N R F T] using hist_ind.
  - reflexivity.
  - rewrite snoc_call, trace_call. cbn [sh thr]. rewrite wsum_app. cbn [wsum abw]. lia.
  - rewrite F, T. exact IH.
  - rewrite F, T. cbn [sh thr]. rewrite !cnt_app. destruct (i_fit h (inv_final h) _ _ N) as (c & C & Fc).
    pose proof (run1_abort o rid c _ _ _ _ _ _ _ _ Fc R) as K. pose proof (wsum_set (abw o rid) (thr (final h)) t p' p N) as Ws. lia.
Qed.

Lemma alloc_once h rid : few h -> cnt (is_alloc rid) (trace h) <= 1.
Proof.
  intros Fw.
  assert (E : forall l, cnt (is_alloc rid) l = cnt (fun x => N.eqb x rid) (map snd (allocs l))).
  { induction l as [|x l IH]; [reflexivity|]. rewrite cnt_cons, IH. destruct x; cbn; try reflexivity. rewrite cnt_cons. reflexivity. }
  rewrite E. destruct (a_cnt h (ainv h) Fw) as [_ ->].
  assert (ND : NoDup (map N.of_nat (seq 0 (length (allocs (trace h)))))) by (apply nodup_map_inj; [apply Nnat.Nat2N.inj|apply seq_NoDup]).
  revert ND. generalize (map N.of_nat (seq 0 (length (allocs (trace h))))). clear. intros l ND.
  induction ND as [|x l Hn Hd IH]; [rewrite cnt_nil; lia|]. rewrite cnt_cons. destruct (N.eqb_spec x rid) as [->|]; [|cbn; exact IH].
  cbn. rewrite (cnt_zero _ l); [lia|]. intros y I. destruct (N.eqb_spec y rid); [congruence|reflexivity].
Qed.

Lemma abort_once h o rid : few h -> cnt (is_abort o rid) (trace h) <= 1.
Proof. intros Fw. pose proof (abort_inv h o rid). pose proof (alloc_once h rid Fw). lia. Qed.

(** ** A pending request that is aborted: the abort is sent. *)
Definition pend_ok (early : pc -> bool) (e : entry) (o t : nat) (h : history) : Prop :=
  match nth_error (thr (final h)) t with None => True | Some p => early p = true end -> In e (rl (sh (final h)) o).

Section Pending.
  Variables (h1 : history) (o : nat) (rid : N) (owner : nat) (k : cbkind) (t : nat) (early : pc -> bool).
  Hypothesis Hpend : In (Ent rid owner k) (rl (sh (final h1)) o).
  Hypothesis Hdone : nth_error (thr (final h1)) owner = Some PDone.
  Hypothesis Ht : length (calls h1) <= t.
  Hypothesis Hearly : forall w al s p s' p' e c, fits c p -> run1 w al s t p = (s', p', e) -> early p' = true -> early p = true /\ req_effect t p = TSame.

  Lemma pending h2 : few (h1 ++ h2) ->
    (forall t' c, call_of (h1 ++ h2) t' = Some c -> length (calls h1) <= t' -> t' <> t -> ends o rid c = false) ->
    (forall t' p, nth_error (thr (final h1)) t' = Some p -> p <> PDone -> exists c, call_of h1 t' = Some c /\ ends o rid c = false) ->
    pend_ok early (Ent rid owner k) o t (h1 ++ h2) /\
    (forall t' p, nth_error (thr (final (h1 ++ h2))) t' = Some p -> p <> PDone -> t' <> t ->
        exists c, call_of (h1 ++ h2) t' = Some c /\ ends o rid c = false).
  Proof.
    induction h2 as [|l h2 IH] using rev_ind; intros Fw K K1.
    - rewrite app_nil_r in *. split; [intros _; exact Hpend|intros; eauto].
    - rewrite app_assoc in *. set (h := h1 ++ h2) in *.
      assert (Fw' : few h) by (eapply few_app; exact Fw).
      destruct IH as [D Oth]; [exact Fw'|intros t' c C; apply (K t' c); apply call_of_app; exact C|exact K1|].
      destruct l as [c|t' w].
      + split.
        * unfold pend_ok in *. rewrite snoc_call. cbn [sh thr]. rewrite nth_snoc.
          destruct (Nat.eqb_spec t (length (thr (final h)))) as [E|]; [|exact D].
          rewrite E in D. rewrite (proj2 (nth_error_None _ _) (le_n _)) in D. intros _. apply D. exact I.
        * intros t' p N P Hne. rewrite snoc_call in N. cbn [thr] in N. rewrite nth_snoc in N.
          destruct (Nat.eqb_spec t' (length (thr (final h)))) as [E|].
          -- exists c. assert (C : call_of (h ++ [LCall c]) t' = Some c).
             { rewrite call_of_call, <- (i_len h (inv_final h)), E, Nat.eqb_refl. reflexivity. }
             split; [exact C|]. apply (K t' c C); [|exact Hne]. rewrite E, (i_len h (inv_final h)). unfold h. rewrite calls_app, app_length. lia.
          -- destruct (Oth t' p N P Hne) as (c' & C & Q). exists c'. split; [apply call_of_app; exact C|exact Q].
      + destruct (step_cases h t' w) as [(_ & F & T)|(p & s' & p' & e & N & R & F & T)].
        { split; [|rewrite F; intros t2 p2 N2 P2 H2; rewrite call_of_run; eauto]. unfold pend_ok in *. rewrite F. exact D. }
        destruct (i_fit h (inv_final h) _ _ N) as (c & C & Fc).
        split.
        * unfold pend_ok in *. rewrite F. cbn [sh thr]. rewrite (nth_set _ _ _ _ _ N).
          destruct (Nat.eqb_spec t' t) as [->|Hne].
          -- rewrite N in D. intros Ea. destruct (Hearly _ _ _ _ _ _ _ _ Fc R Ea) as [Ep Ef].
             pose proof (run1_requests _ _ _ _ _ _ _ _ _ Fc R) as X. rewrite Ef in X. cbn in X. rewrite X. auto.
          -- intros Ea. specialize (D Ea). assert (p = PDone \/ p <> PDone) as [P|P] by (destruct p; ((left; reflexivity) || (right; discriminate))).
             ++ subst p. cbn in R. injection R as <- <- <-. exact D.
             ++ destruct (Oth _ _ N P Hne) as (c' & C' & En). rewrite C in C'. injection C' as <-.
                apply (entry_stays h t' w p s' p' e c o _ Fw' N C Fc R D En). cbn. intros ->.
                pose proof (done_stays_app h1 h2 _ Hdone) as Y. fold h in Y. congruence.
        * intros t2 p2 N2 P2 H2. rewrite F in N2. cbn [thr] in N2. rewrite (nth_set _ _ _ _ _ N) in N2.
          rewrite call_of_run. destruct (Nat.eqb_spec t' t2) as [->|]; [|eauto].
          injection N2 as <-. assert (P : p <> PDone).
          { intros ->. cbn in R. injection R as _ <- _. congruence. }
          exact (Oth _ _ N P H2).
  Qed.
End Pending.


(** The hypotheses [delivered] and [abort_sent] share: request accepted in [h1], nothing else that could end it. *)
Lemma accepted_pending h0 o pl h2 h3 rid t :
  let owner := length (calls h0) in let h1 := h0 ++ LCall (CSendAsync o pl true) :: h2 in let h := h1 ++ h3 in
  few h -> In (ERet owner (RVReg (Some (rid, o)) (Some Success))) (trace h1) ->
  length (calls h1) <= t ->
  (forall t' c, call_of h t' = Some c -> ends o rid c = true -> t' = t \/ returned h0 t') ->
  In (Ent rid owner KUser) (rl (sh (final h1)) o) /\
  (forall t' c, call_of h t' = Some c -> length (calls h1) <= t' -> t' <> t -> ends o rid c = false) /\
  (forall t' p, nth_error (thr (final h1)) t' = Some p -> p <> PDone -> exists c, call_of h1 t' = Some c /\ ends o rid c = false).
Proof.
  intros owner h1 h Fw Rt Ht K.
  assert (Fw1 : few h1) by (eapply few_app; exact Fw).
  assert (Oc : call_of h1 owner = Some (CSendAsync o pl true)).
  { unfold h1, call_of. rewrite calls_app. cbn [calls]. rewrite nth_error_app2 by (unfold owner; lia). unfold owner. rewrite Nat.sub_diag. reflexivity. }
  assert (Ol : owner < length (calls h1)) by (eapply nth_lt; exact Oc).
  assert (E0 : forall t' p, nth_error (thr (final h0)) t' = Some p -> p <> PDone -> exists c, call_of h0 t' = Some c /\ ends o rid c = false).
  { intros t' p N P. destruct (i_fit h0 (inv_final h0) _ _ N) as (c & C & _). exists c. split; [exact C|].
    destruct (ends o rid c) eqn:En; [exfalso|reflexivity].
    assert (C' : call_of h t' = Some c) by (unfold h, h1; rewrite <- app_assoc; apply call_of_app; exact C).
    destruct (K t' c C' En) as [->|[v' Rv']]; [|apply cnt_ret_of in Rv'; congruence].
    apply nth_lt in C. unfold h1 in Ht. rewrite calls_app, app_length in Ht. lia. }
  assert (E1 : forall t' c, call_of h1 t' = Some c -> owner <= t' -> ends o rid c = false).
  { intros t' c C Hge. destruct (ends o rid c) eqn:En; [exfalso|reflexivity].
    destruct (K t' c (call_of_app _ _ _ _ C) En) as [->|[v' Rv']].
    - apply nth_lt in C. unfold calls in *. lia.
    - apply cnt_ret_of in Rv'. apply nth_lt in Rv'. rewrite (i_len h0 (inv_final h0)) in Rv'. unfold owner in Hge. lia. }
  destruct (stored h0 o pl rid h2 Fw1 E1 E0) as [Ph Oth]. fold h1 owner in Ph, Oth.
  assert (Dn : nth_error (thr (final h1)) owner = Some PDone) by (eapply cnt_ret_of; exact Rt).
  split; [|split; [|exact Oth]].
  - unfold phase in Ph. fold owner h1 in Ph. rewrite Dn in Ph. auto.
  - intros t' c C Hge Hne. destruct (ends o rid c) eqn:En; [exfalso|reflexivity].
    destruct (K t' c C En) as [->|[v' Rv']]; [contradiction|].
    apply cnt_ret_of in Rv'. apply nth_lt in Rv'. rewrite (i_len h0 (inv_final h0)) in Rv'. unfold owner in Ol. lia.
Qed.

Definition ab_early (p : pc) : bool := match p with PStart _ | PAbortErase _ _ => true | _ => false end.

Lemma abort_sent h0 o pl h2 h3 rid t :
  let owner := length (calls h0) in let h1 := h0 ++ LCall (CSendAsync o pl true) :: h2 in let h := h1 ++ h3 in
  few h -> In (ERet owner (RVReg (Some (rid, o)) (Some Success))) (trace h1) ->
  length (calls h1) <= t -> call_of h t = Some (CAbort rid o) ->
  (forall t' c, call_of h t' = Some c -> ends o rid c = true -> t' = t \/ returned h0 t') ->
  returned h t -> In (ESend t (Msg Abort o rid None 0)) (trace h).
Proof.
  intros owner h1 h Fw Rt Ht Ct K [v Rv].
  destruct (accepted_pending h0 o pl h2 h3 rid t Fw Rt Ht K) as (Pend & K2 & Oth). fold owner h1 h in Pend, K2, Oth.
  assert (Oc : call_of h1 owner = Some (CSendAsync o pl true)).
  { unfold h1, call_of. rewrite calls_app. cbn [calls]. rewrite nth_error_app2 by (unfold owner; lia). unfold owner. rewrite Nat.sub_diag. reflexivity. }
  destruct (ret_alloc h1 owner o pl true rid o _ Oc Rt) as (_ & Al & Ok).
  assert (Dn : nth_error (thr (final h1)) owner = Some PDone) by (eapply cnt_ret_of; exact Rt).
  assert (HE : forall w al s p s' p' e c, fits c p -> run1 w al s t p = (s', p', e) -> ab_early p' = true ->
             ab_early p = true /\ req_effect t p = TSame).
  { intros w al s p s' p' e c F R Ea. destruct p; cbn in R; break_run; try discriminate Ea; try (split; reflexivity). destruct new; discriminate. }
  assert (J : match nth_error (thr (final h)) t with
              | None => True
              | Some PDone => In (ESend t (Msg Abort o rid None 0)) (trace h)
              | Some (PStart c) => True
              | Some (PAbortErase o' r) | Some (PAbortSend o' r) => o' = o /\ r = rid
              | _ => False end).
  2:{ rewrite (cnt_ret_of _ _ _ Rv) in J. exact J. }
  clear v Rv K. subst h. revert Fw Ct K2. induction h3 as [|l h3 IH] using rev_ind; intros Fw Ct K2.
  { rewrite app_nil_r. rewrite (proj2 (nth_error_None _ _)); [exact I|]. rewrite (i_len h1 (inv_final h1)). exact Ht. }
  rewrite app_assoc in *.
  assert (Fw' : few (h1 ++ h3)) by (eapply few_app; exact Fw).
  assert (K2' : forall t' c, call_of (h1 ++ h3) t' = Some c -> length (calls h1) <= t' -> t' <> t -> ends o rid c = false)
    by (intros t' c C; apply (K2 t' c); apply call_of_app; exact C).
  destruct (pending h1 o rid owner KUser t ab_early Pend Dn Ht HE h3 Fw' K2' Oth) as [P _].
  set (h := h1 ++ h3) in *.
  destruct (call_of h t) as [c|] eqn:Cta.
  2:{ destruct l as [c|t' w]; [|rewrite call_of_run in Ct; congruence].
      rewrite snoc_call. cbn [thr]. rewrite nth_snoc. destruct (Nat.eqb _ _); [exact I|].
      destruct (nth_error (thr (final h)) t) as [q|] eqn:Nq; [|exact I]. destruct (i_fit h (inv_final h) _ _ Nq) as (? & ? & _). congruence. }
  assert (c = CAbort rid o) as -> by (pose proof (call_of_app h [l] _ _ Cta); congruence).
  specialize (IH Fw' eq_refl K2').
  destruct l as [c|t' w].
  - rewrite snoc_call, trace_call. cbn [thr]. rewrite nth_error_app1; [exact IH|]. rewrite (i_len h (inv_final h)). eapply nth_lt; exact Cta.
  - destruct (step_cases h t' w) as [(_ & F & T)|(p & s' & p' & e & N & R & F & T)]; rewrite F, T; [exact IH|]. cbn [thr].
    rewrite (nth_set _ _ _ _ _ N). destruct (Nat.eqb_spec t' t) as [->|].
    2:{ destruct (nth_error (thr (final h)) t) as [q|]; [|exact I]. destruct q; try exact IH. apply in_or_app. auto. }
    rewrite N in IH. destruct (i_fit h (inv_final h) _ _ N) as (c & Cc & Fc). rewrite Cta in Cc. injection Cc as <-.
    destruct p; try contradiction.
    + cbn in Fc. subst c. cbn in R. rewrite Ok in R. injection R as <- <- <-. auto.
    + destruct IH as [-> ->]. cbn in R. pose proof (erase_request_found (requests (sh (final h))) o rid) as Fd.
      unfold pend_ok in P. rewrite N in P. specialize (P eq_refl).
      destruct (find_exists rid _ _ P eq_refl) as (x & Fx). unfold rl in Fx. rewrite Fx in Fd.
      destruct (erase_request (requests (sh (final h))) o rid) as [m fd]. cbn in Fd. subst fd. injection R as <- <- <-. auto.
    + destruct IH as [-> ->]. cbn in R. injection R as <- <- <-. apply in_or_app. right. left. reflexivity.
    + cbn in R. injection R as <- <- <-. rewrite app_nil_r. exact IH.
Qed.
