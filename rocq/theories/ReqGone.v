(** Once a request is gone from the table its callback is never run by a message that arrives later. *)
From Verif Require Import ReqModel ReqSpec ReqProofs ReqInv ReqIds ReqOnce ReqDeliver ReqDeliver2.
From Coq Require Import NArith.

(** No entry of [owner] is left and none will be added. *)
Definition gone (h : history) (owner : nat) : Prop :=
  (exists p, nth_error (thr (final h)) owner = Some p /\ stores p = false) /\
  (forall o, cnt (own owner) (rl (sh (final h)) o) = 0).

Lemma gone_snoc h l owner : gone h owner -> gone (h ++ [l]) owner.
Proof.
  intros [(p & N & S) C]. destruct l as [c|t w].
  - split; rewrite snoc_call; cbn [sh thr]; [|exact C]. exists p. split; [|exact S].
    rewrite nth_error_app1; [exact N|eapply nth_lt; exact N].
  - unfold gone. rewrite final_snoc. cbn. destruct (nth_error (thr (final h)) t) as [q|] eqn:Nq; [|cbn; split; [eauto|exact C]].
    destruct (run1 w (alive (final h) t) (sh (final h)) t q) as [[s' q'] e] eqn:R. cbn [fst sh thr].
    destruct (i_fit h (inv_final h) _ _ Nq) as (c & Cc & Fc). split.
    + rewrite (nth_set _ _ _ _ _ Nq). destruct (Nat.eqb_spec t owner) as [->|]; [|eauto].
      rewrite N in Nq. injection Nq as <-. exists q'. split; [reflexivity|].
      pose proof (run1_stores _ _ _ _ _ _ _ _ R) as X. rewrite S in X. destruct (stores q'); cbn in X; [lia|reflexivity].
    + intros o. pose proof (run1_requests _ _ _ _ _ _ _ _ _ Fc R) as E. apply (teff_cnt _ _ _ (own owner) o) in E.
      specialize (C o). destruct q; cbn [req_effect] in E; try lia.
      * destruct c0; lia.
      * rewrite E, C. unfold own. cbn [e_owner]. destruct (Nat.eqb_spec t owner) as [->|]; [|destruct (Nat.eqb o o0); reflexivity].
        rewrite N in Nq. injection Nq as ->. discriminate.
      * destruct (final_code (m_code m)); lia.
Qed.
Lemma gone_app h h2 owner : gone h owner -> gone (h ++ h2) owner.
Proof.
  intros G. induction h2 as [|l h2 IH] using rev_ind; [rewrite app_nil_r; exact G|]. rewrite app_assoc. apply gone_snoc. exact IH.
Qed.

Definition own_request (h : history) (owner : nat) : Prop :=
  exists o, exists c, call_of h owner = Some c /\ request_op c = Some o.

(** No call numbered [n] or more holds a callback of [owner]. *)
Definition unheld (h : history) (owner n : nat) : Prop :=
  (forall t m l k, n <= t -> nth_error (thr (final h)) t = Some (PInRun m l k) -> cnt (own owner) l = 0) /\
  (forall t p, n <= t -> t <> owner -> ~ In (ECb t owner p) (trace h)).

Lemma unheld_here h owner : unheld h owner (length (calls h)).
Proof.
  split.
  - intros t m l k Hn N. apply nth_lt in N. rewrite (i_len h (inv_final h)) in N. lia.
  - intros t p Hn _ I. destruct (cb_called _ _ _ _ I) as (c & C). apply nth_lt in C. unfold calls in *. lia.
Qed.

Lemma unheld_snoc h l owner n : own_request h owner -> gone h owner -> unheld h owner n -> unheld (h ++ [l]) owner n.
Proof.
  intros (oo & cc & Cow & Oow) G [U1 U2]. destruct l as [c|t w].
  - split.
    + intros t m l k Hn N. rewrite snoc_call in N. cbn [thr] in N. rewrite nth_snoc in N.
      destruct (Nat.eqb _ _); [discriminate|]. eauto.
    + intros t p Hn Hne. rewrite trace_call. auto.
  - destruct (nth_error (thr (final h)) t) as [q|] eqn:Nq.
    2:{ assert (F : final (h ++ [LRun t w]) = final h) by (rewrite final_snoc; cbn; rewrite Nq; reflexivity).
        assert (T : trace (h ++ [LRun t w]) = trace h) by (rewrite trace_snoc; cbn; rewrite Nq; apply app_nil_r).
        unfold unheld. rewrite F, T. split; assumption. }
    destruct (run1 w (alive (final h) t) (sh (final h)) t q) as [[s' q'] e] eqn:R.
    assert (F : final (h ++ [LRun t w]) = St s' (set_nth t q' (thr (final h)))) by (rewrite final_snoc; cbn; rewrite Nq, R; reflexivity).
    assert (T : trace (h ++ [LRun t w]) = trace h ++ e) by (rewrite trace_snoc; cbn; rewrite Nq, R; reflexivity).
    destruct (i_fit h (inv_final h) _ _ Nq) as (c & Cc & Fc).
    split.
    + rewrite F. cbn [thr]. intros t2 m l k Hn N. rewrite (nth_set _ _ _ _ _ Nq) in N.
      destruct (Nat.eqb_spec t t2) as [->|]; [|eauto]. injection N as ->.
      apply cnt_zero. intros x I. destruct (own owner x) eqn:Ox; [exfalso|reflexivity].
      unfold own in Ox. apply Nat.eqb_eq in Ox.
      destruct (run1_inrun _ _ _ _ _ _ _ _ _ _ _ _ R eq_refl I) as [(l0 & k0 & -> & J)|[-> J]].
      * pose proof (cnt_zero_inv _ _ _ (U1 _ _ _ _ Hn Nq) J) as X. unfold own in X. rewrite Ox, Nat.eqb_refl in X. discriminate.
      * assert (Z : In x (rl (sh (final h)) (m_op m)) -> False).
        { intros J'. destruct G as [_ G]. pose proof (cnt_zero_inv _ _ _ (G (m_op m)) J') as X. unfold own in X. rewrite Ox, Nat.eqb_refl in X. discriminate. }
        destruct (answer_code (m_code m)); [apply Z; apply J|]. destruct J as [J|[J _]]; [|auto].
        destruct (i_reg h (inv_final h) _ _ J) as [(stt & X) _]. rewrite Ox, Cow in X. injection X as ->. discriminate.
    + rewrite T. intros t2 p Hn Hne I. apply in_app_iff in I as [I|I]; [eapply U2; eauto|].
      destruct (run1_cb _ _ _ _ _ _ _ _ _ _ _ _ Fc R I) as [-> [(m & x & l & k & -> & _ & Ox & _)|[Y _]]]; [|congruence].
      pose proof (U1 _ _ _ _ Hn Nq) as Z. rewrite cnt_cons in Z. unfold own in Z at 1. rewrite Ox, Nat.eqb_refl in Z. discriminate.
Qed.

Lemma gone_never h h2 owner t p : own_request h owner -> gone h owner -> length (calls h) <= t ->
  ~ In (ECb t owner p) (trace (h ++ h2)).
Proof.
  intros O G Hn.
  assert (U : unheld (h ++ h2) owner (length (calls h))).
  { induction h2 as [|l h2 IH] using rev_ind; [rewrite app_nil_r; apply unheld_here|].
    rewrite app_assoc. apply unheld_snoc; [|apply gone_app; exact G|exact IH].
    destruct O as (o & c & C & Q). exists o, c. split; [apply call_of_app; exact C|exact Q]. }
  apply U; [exact Hn|]. intros ->. destruct G as [(q & N & _) _]. apply nth_lt in N. rewrite (i_len h (inv_final h)) in N. lia.
Qed.

(** The owner's entries carry its id and operation. *)
Lemma own_entry h o owner e : In e (rl (sh (final h)) o) -> e_owner e = owner -> own_request h owner ->
  forall c o' rid, call_of h owner = Some c -> request_op c = Some o' -> In (EAlloc owner rid) (trace h) -> o = o' /\ e_id e = rid.
Proof.
  intros I E _ c o' rid C Q Al. destruct (i_req h (inv_final h) _ _ I) as [(c1 & code & pl & b & C1 & L) A1].
  rewrite E in *. rewrite C in C1. injection C1 as <-. apply req_like_op in L. split; [congruence|]. eapply one_id; eauto.
Qed.

(** Removing the id of a request from the list of its operation leaves no entry of it. *)
Lemma removed h owner c o rid : few h -> call_of h owner = Some c -> request_op c = Some o -> In (EAlloc owner rid) (trace h) ->
  stores (nth owner (thr (final h)) PDone) = false ->
  cnt (own owner) (remove_id rid (rl (sh (final h)) o)) = 0.
Proof.
  intros Fw C Q Al S.
  pose proof (weight_inv h owner o) as W.
  assert (Le : cnt (own owner) (rl (sh (final h)) o) <= 1) by lia.
  pose proof (cnt_remove_id (own owner) rid (rl (sh (final h)) o)) as K.
  destruct (cnt (own owner) (rl (sh (final h)) o)) as [|n] eqn:E; [lia|].
  assert (n = 0) by lia. subst n.
  assert (P : 1 <= cnt (own owner) (rl (sh (final h)) o)) by lia. apply cnt_pos_inv in P as (x & I & X).
  unfold own in X. apply Nat.eqb_eq in X.
  assert (Id : e_id x = rid) by (eapply (own_entry h o owner x I X); [exists o, c; auto|eauto|eauto|eauto]).
  destruct (find_exists rid _ _ I Id) as (y & Fy). rewrite Fy in K.
  apply find_id_some in Fy as [J Iy]. destruct (i_req h (inv_final h) _ _ J) as [_ Aly]. rewrite Iy in Aly.
  pose proof (ids_unique h _ _ _ Fw Aly Al) as Z. unfold own in K at 2. rewrite Z, Nat.eqb_refl in K. cbn in K. lia.
Qed.

Lemma own_elsewhere h owner c o o' : call_of h owner = Some c -> request_op c = Some o -> o' <> o ->
  cnt (own owner) (rl (sh (final h)) o') = 0.
Proof.
  intros C Q Hne. apply cnt_zero. intros x I. destruct (own owner x) eqn:X; [exfalso|reflexivity].
  unfold own in X. apply Nat.eqb_eq in X. destruct (i_req h (inv_final h) _ _ I) as [(c1 & code & pl & b & C1 & L) _].
  rewrite X, C in C1. injection C1 as <-. apply req_like_op in L. congruence.
Qed.

Lemma done_stores h t : nth_error (thr (final h)) t = Some PDone -> stores (nth t (thr (final h)) PDone) = false.
Proof. intros N. rewrite (nth_error_nth _ _ _ N). reflexivity. Qed.

(** What a step at [p] that removes [rid] from operation [o]'s list leaves. *)
Lemma removing_step h t w p s' p' e c owner o rid : few h -> nth_error (thr (final h)) t = Some p ->
  call_of h t = Some c -> fits c p -> run1 w (alive (final h) t) (sh (final h)) t p = (s', p', e) ->
  req_effect t p = TRemove o rid -> (exists co, call_of h owner = Some co /\ request_op co = Some o) ->
  In (EAlloc owner rid) (trace h) -> (exists q, nth_error (thr (final h)) owner = Some q /\ stores q = false) ->
  gone (h ++ [LRun t w]) owner.
Proof.
  intros Fw N C F R Ef (co & Cc & Q) Al (q & Nq & Sq).
  pose proof (run1_requests _ _ _ _ _ _ _ _ _ F R) as E. rewrite Ef in E. cbn in E.
  unfold gone. rewrite final_snoc. cbn. rewrite N, R. cbn [fst sh thr]. split.
  - rewrite (nth_set _ _ _ _ _ N). destruct (Nat.eqb_spec t owner) as [->|]; [|eauto].
    rewrite N in Nq. injection Nq as <-. exists p'. split; [reflexivity|].
    pose proof (run1_stores _ _ _ _ _ _ _ _ R) as X. rewrite Sq in X. destruct (stores p'); cbn in X; [lia|reflexivity].
  - intros o'. rewrite E. destruct (Nat.eqb_spec o' o) as [->|Hne].
    + eapply removed; eauto. rewrite (nth_error_nth _ _ _ Nq). exact Sq.
    + eapply own_elsewhere; eauto.
Qed.

(** ** Abort *)
Lemma ret_alloc h t o pl hc rid o' a : call_of h t = Some (CSendAsync o pl hc) ->
  In (ERet t (RVReg (Some (rid, o')) a)) (trace h) -> o' = o /\ In (EAlloc t rid) (trace h) /\ regid_ok rid o = true.
Proof.
  induction h as [|h c IH|h t0 w IH N F T|h t0 w p s' p' e IH N R F T] using hist_ind.
  - intros _ [].
  - rewrite trace_call. intros C H.
    assert (X : call_of h t = Some (CSendAsync o pl hc)); [|auto].
    rewrite call_of_call in C. destruct (Nat.eqb_spec t (length (calls h))) as [E|]; [|exact C]. exfalso.
    apply cnt_ret_of in H. apply nth_lt in H. rewrite (i_len h (inv_final h)) in H. lia.
  - rewrite T, call_of_run. exact IH.
  - rewrite T, call_of_run, !in_app_iff. intros C [H|H]; [destruct (IH C H) as (A & B & D); auto|].
    destruct (i_fit h (inv_final h) _ _ N) as (c & Ct & Fc).
    assert (X : t0 = t).
    { clear - R H. destruct p; cbn in R; break_run; cbn in H; try solve [intuition congruence].
      apply in_app_iff in H as [H|[H|[]]]; [apply in_map_iff in H as (? & ? & _); discriminate|congruence]. }
    subst t0. rewrite C in Ct. injection Ct as <-.
    destruct p; cbn in Fc; try contradiction; try discriminate; try solve [exfalso; clear - Fc;
                 repeat match goal with H : exists _, _ |- _ => destruct H | H : _ /\ _ |- _ => destruct H
                                      | H : context [match ?b with true => _ | false => _ end] |- _ => destruct b end;
                 cbn in *; intuition discriminate]; cbn in R.
    all: try solve [subst; break_run; cbn in H; intuition discriminate].
    all: try solve [exfalso; repeat match goal with H : exists _, _ |- _ => destruct H | H : _ /\ _ |- _ => destruct H end; destruct hc; discriminate].
    + destruct Fc as (pl' & -> & -> & _ & -> & _).
      assert (Al : In (EAlloc t rid0) (trace h)) by (eapply (i_id h (inv_final h)); [exact N|reflexivity]).
      destruct (regid_ok rid0 o) eqn:Ok; destruct hc; break_run; cbn in H; try contradiction; destruct H as [H|[]]; try discriminate;
        injection H as <- <- _; auto.
    + destruct Fc as [(pl' & b' & -> & -> & _ & -> & _) _]. destruct hc; break_run; cbn in H; intuition discriminate.
Qed.

Lemma aborted_gone h1 h2 owner o pl hc rid a ta : few (h1 ++ h2) -> call_of h1 owner = Some (CSendAsync o pl hc) ->
  In (ERet owner (RVReg (Some (rid, o)) a)) (trace h1) ->
  length (calls h1) <= ta -> call_of (h1 ++ h2) ta = Some (CAbort rid o) -> returned (h1 ++ h2) ta -> gone (h1 ++ h2) owner.
Proof.
  intros Fw C Rt Hn Ca [v Rv].
  destruct (ret_alloc h1 owner o pl hc rid o a C Rt) as (_ & Al & Ok).
  assert (Dn : nth_error (thr (final h1)) owner = Some PDone) by (eapply cnt_ret_of; exact Rt).
  assert (J : match nth_error (thr (final (h1 ++ h2))) ta with
              | None | Some (PStart _) | Some (PAbortErase _ _) => True
              | _ => gone (h1 ++ h2) owner end).
  { clear v Rv. revert Fw Ca. induction h2 as [|l h2 IH] using rev_ind; intros Fw Ca.
    - rewrite app_nil_r in *. rewrite (proj2 (nth_error_None _ _)); [exact I|]. rewrite (i_len h1 (inv_final h1)). exact Hn.
    - rewrite app_assoc in *. set (h := h1 ++ h2) in *.
      assert (Fw' : few h) by (eapply few_app; exact Fw).
      destruct (call_of h ta) as [c|] eqn:Cta.
      2:{ destruct (nth_error (thr (final (h ++ [l]))) ta) as [p|] eqn:N; [|exact I].
          destruct l as [c|t w].
          - rewrite snoc_call in N. cbn [thr] in N. rewrite nth_snoc in N. destruct (Nat.eqb _ _); [injection N as <-; exact I|].
            destruct (i_fit h (inv_final h) _ _ N) as (? & ? & _). congruence.
          - rewrite call_of_run in Ca. congruence. }
      assert (c = CAbort rid o) as -> by (pose proof (call_of_app h [l] _ _ Cta); congruence).
      specialize (IH Fw' eq_refl).
      destruct l as [c|t w].
      + rewrite snoc_call. cbn [thr]. rewrite nth_error_app1.
        2:{ rewrite (i_len h (inv_final h)). eapply nth_lt; exact Cta. }
        destruct (nth_error (thr (final h)) ta) as [q|]; [|exact I]. destruct q; try exact I; apply gone_snoc; exact IH.
      + destruct (nth_error (thr (final h)) t) as [q|] eqn:Nq.
        2:{ assert (F : final (h ++ [LRun t w]) = final h) by (rewrite final_snoc; cbn; rewrite Nq; reflexivity).
            rewrite F. destruct (nth_error (thr (final h)) ta) as [q|]; [|exact I]. destruct q; try exact I; apply gone_snoc; exact IH. }
        destruct (run1 w (alive (final h) t) (sh (final h)) t q) as [[s' q'] e] eqn:R.
        assert (F : final (h ++ [LRun t w]) = St s' (set_nth t q' (thr (final h)))) by (rewrite final_snoc; cbn; rewrite Nq, R; reflexivity).
        rewrite F. cbn [thr]. rewrite (nth_set _ _ _ _ _ Nq).
        destruct (Nat.eqb_spec t ta) as [->|].
        2:{ destruct (nth_error (thr (final h)) ta) as [p|]; [|exact I]. destruct p; try exact I; apply gone_snoc; exact IH. }
        rewrite Nq in IH. destruct (i_fit h (inv_final h) _ _ Nq) as (c & Cc & Fc). rewrite Cta in Cc. injection Cc as <-.
        destruct q; cbn in Fc; try discriminate; try solve [exfalso; clear - Fc;
                 repeat match goal with H : exists _, _ |- _ => destruct H | H : _ /\ _ |- _ => destruct H
                                      | H : context [match ?b with true => _ | false => _ end] |- _ => destruct b end;
                 cbn in *; intuition discriminate].
        * subst. cbn in R. rewrite Ok in R. injection R as <- <- <-. exact I.
        * injection Fc as <- <-.
          assert (G : gone (h ++ [LRun ta w]) owner).
          { eapply removing_step; eauto.
            - exact (eq_refl (CAbort rid o)).
            - reflexivity.
            - exists (CSendAsync o pl hc). split; [apply call_of_app; exact C|reflexivity].
            - apply in_trace_app. exact Al.
            - exists PDone. split; [apply done_stays_app; exact Dn|reflexivity]. }
          cbn in R. destruct (erase_request (requests (sh (final h))) o rid) as [r f]. destruct f; injection R as <- <- <-; exact G.
        * cbn in R. injection R as <- <- <-. apply gone_snoc. exact IH.
        * cbn in R. injection R as <- <- <-. apply gone_snoc. exact IH. }
  rewrite (cnt_ret_of _ _ _ Rv) in J. exact J.
Qed.
