(** Requests that are gone: after a failed send, after the loss of the service, after deinit, after a final answer. *)
From Verif Require Import ReqModel ReqSpec ReqProofs ReqInv ReqIds ReqOnce ReqDeliver ReqDeliver2 ReqGone.
From Coq Require Import NArith.

(** A request whose call finished without success left no entry. *)
Definition failed_phase (h : history) (owner : nat) : Prop :=
  match nth_error (thr (final h)) owner with
  | Some PDone => forall a, In (ERet owner (RVReg None (Some a))) (trace h) -> a <> Success -> gone h owner
  | _ => True
  end.

Lemma step_cases h t w : (nth_error (thr (final h)) t = None /\ final (h ++ [LRun t w]) = final h /\ trace (h ++ [LRun t w]) = trace h) \/
  exists p s' p' e, nth_error (thr (final h)) t = Some p /\ run1 w (alive (final h) t) (sh (final h)) t p = (s', p', e) /\
    final (h ++ [LRun t w]) = St s' (set_nth t p' (thr (final h))) /\ trace (h ++ [LRun t w]) = trace h ++ e.
Proof.
  destruct (nth_error (thr (final h)) t) as [p|] eqn:N.
  - right. destruct (run1 w (alive (final h) t) (sh (final h)) t p) as [[s' p'] e] eqn:R. exists p, s', p', e.
    rewrite final_snoc, trace_snoc. cbn. rewrite N, R. auto.
  - left. rewrite final_snoc, trace_snoc. cbn. rewrite N. rewrite app_nil_r. auto.
Qed.

Lemma ret_thread w al s t p s' p' e t' v : run1 w al s t p = (s', p', e) -> In (ERet t' v) e -> t' = t.
Proof.
  intros R H. destruct p; cbn in R; break_run; cbn in H; try solve [intuition congruence].
  apply in_app_iff in H as [H|[H|[]]]; [apply in_map_iff in H as (? & ? & _); discriminate|congruence].
Qed.

Lemma failed_gone h owner o pl hc : few h -> call_of h owner = Some (CSendAsync o pl hc) -> failed_phase h owner.
Proof.
  induction h as [|h c IH|h t w IH N F T|h t w p s' p' e IH N R F T] using hist_ind; intros Fw C.
  - destruct owner; discriminate.
  - unfold failed_phase. rewrite snoc_call, trace_call. cbn [thr]. rewrite nth_snoc.
    destruct (Nat.eqb_spec owner (length (thr (final h)))) as [E|E]; [exact I|].
    rewrite call_of_call in C. rewrite (i_len h (inv_final h)) in E. destruct (Nat.eqb_spec owner (length (calls h))); [contradiction|].
    specialize (IH (few_snoc _ _ Fw) C). unfold failed_phase in IH.
    destruct (nth_error (thr (final h)) owner) as [[]|]; try exact I. intros a H Ha. apply gone_snoc. eauto.
  - unfold failed_phase. rewrite F, T. rewrite call_of_run in C. specialize (IH (few_snoc _ _ Fw) C). unfold failed_phase in IH.
    destruct (nth_error (thr (final h)) owner) as [[]|]; try exact I. intros a H Ha. apply gone_snoc. eauto.
  - rewrite call_of_run in C. specialize (IH (few_snoc _ _ Fw) C). unfold failed_phase in *. rewrite F, T. cbn [thr].
    rewrite (nth_set _ _ _ _ _ N). destruct (Nat.eqb_spec t owner) as [->|Ht].
    2:{ destruct (nth_error (thr (final h)) owner) as [[]|]; try exact I. intros a H Ha. apply gone_snoc.
        apply in_app_iff in H as [H|H]; [eauto|]. apply (ret_thread _ _ _ _ _ _ _ _ _ _ R) in H. congruence. }
    rewrite N in IH. remember p' as q' eqn:Ep in |- *. destruct q'; try exact I. intros a H Ha. apply in_app_iff in H as [H|H].
    { pose proof (cnt_ret_of _ _ _ H) as Y. rewrite Y in N. injection N as <-. apply gone_snoc. eauto. }
    destruct (i_fit h (inv_final h) _ _ N) as (c & Ct & Fc). rewrite C in Ct. injection Ct as <-.
    destruct p; cbn in Fc; try contradiction; try discriminate; try solve [exfalso; clear - Fc;
                 repeat match goal with H : exists _, _ |- _ => destruct H | H : _ /\ _ |- _ => destruct H
                                      | H : context [match ?b with true => _ | false => _ end] |- _ => destruct b end;
                 cbn in *; intuition discriminate].
    all: try solve [exfalso; repeat match goal with H : exists _, _ |- _ => destruct H | H : _ /\ _ |- _ => destruct H end; destruct hc; discriminate].
    all: match type of R with run1 _ _ _ _ ?q = _ =>
      match q with
      | PStart _ => idtac
      | PSent _ _ _ _ _ => idtac
      | PUndo _ _ _ _ _ => idtac
      | _ => exfalso; cbn in R; break_run; cbn in H; intuition discriminate
      end end.
    + (* refused *)
      assert (W : forall o', cnt (own owner) (rl (sh (final h)) o') = 0).
      { intros o'. pose proof (weight_inv h owner o') as W. unfold pstores in W. rewrite N in W. cbn in W. lia. }
      subst c. cbn in R. destruct (available (sh (final h))); [break_run; discriminate|]. assert (Es : s' = sh (final h)) by congruence. subst s'.
      split; rewrite F; cbn [sh thr]; [|exact W]. exists p'. rewrite (nth_set _ _ _ _ _ N), Nat.eqb_refl, <- Ep. split; reflexivity.
    + exfalso. destruct Fc as (? & -> & _ & _ & -> & _). cbn in R. destruct (o_res w); destruct hc; break_run; try discriminate; cbn in H; destruct H as [H|[]]; injection H as H; congruence.
    + destruct Fc as [(pl' & b' & -> & -> & _ & Ek & _) Na]. eapply removing_step; eauto.
      * exact (few_snoc _ _ Fw).
      * cbn. split; [|exact Na]. exists pl, false. repeat split. exact Ek.
      * reflexivity.
      * eexists; split; [exact C|reflexivity].
      * eapply (i_id h (inv_final h)); [exact N|reflexivity].
Qed.

Lemma cleared_step h t w s' p' e c p owner : nth_error (thr (final h)) t = Some p -> fits c p ->
  run1 w (alive (final h) t) (sh (final h)) t p = (s', p', e) -> req_effect t p = TClear ->
  final (h ++ [LRun t w]) = St s' (set_nth t p' (thr (final h))) ->
  (exists q, nth_error (thr (final h)) owner = Some q /\ stores q = false) ->
  gone (h ++ [LRun t w]) owner.
Proof.
  intros N F R E Fi (q & Nq & Sq). pose proof (run1_requests _ _ _ _ _ _ _ _ _ F R) as X. rewrite E in X. cbn in X.
  split; rewrite Fi; cbn [sh thr]; [|intros o; rewrite X; reflexivity].
  rewrite (nth_set _ _ _ _ _ N). destruct (Nat.eqb_spec t owner) as [->|]; [|eauto]. exists p'. split; [reflexivity|].
  rewrite N in Nq. injection Nq as <-. pose proof (run1_stores _ _ _ _ _ _ _ _ R) as Y. rewrite Sq in Y. destruct (stores p'); cbn in Y; [lia|reflexivity].
Qed.

Lemma status_thread w al s t p s' p' e t' a : run1 w al s t p = (s', p', e) -> In (EStatus t' a) e -> t' = t /\ exists old, p = PSvcSet old a.
Proof.
  intros R H. destruct p; cbn in R; break_run; cbn in H; try solve [intuition congruence].
  - destruct H as [H|[]]. injection H as -> ->. eauto.
  - apply in_app_iff in H as [H|[H|[]]]; [apply in_map_iff in H as (? & ? & _); discriminate|discriminate].
Qed.

(** The service became unavailable (call [t] said so and returned) after the request call was over. *)
Lemma status_lt h t a : In (EStatus t a) (trace h) -> t < length (thr (final h)).
Proof.
  induction h as [|h c IH|h t0 w IH N F T|h t0 w p s' p' e IH N R F T] using hist_ind; rewrite ?trace_call, ?T, ?F; auto.
  - intros [].
  - intros H0. rewrite snoc_call. cbn [thr]. rewrite app_length. specialize (IH H0). lia.
  - cbn [thr]. rewrite length_set_nth, in_app_iff. intros [H0|H0]; [auto|]. destruct (status_thread _ _ _ _ _ _ _ _ _ _ R H0) as [-> _].
    eapply nth_lt; exact N.
Qed.

Lemma no_store_app h1 h2 owner : (exists q, nth_error (thr (final h1)) owner = Some q /\ stores q = false) ->
  exists q, nth_error (thr (final (h1 ++ h2))) owner = Some q /\ stores q = false.
Proof.
  intros Hown.
  induction h2 as [|l h2 IH] using rev_ind; [rewrite app_nil_r; exact Hown|]. rewrite app_assoc. set (h := h1 ++ h2) in *.
  destruct IH as (q & N & S). destruct l as [c|t' w].
  - exists q. split; [|exact S]. rewrite snoc_call. cbn [thr]. rewrite nth_error_app1; [exact N|eapply nth_lt; exact N].
  - destruct (step_cases h t' w) as [(_ & F & _)|(p & s' & p' & e & Np & R & F & _)]; rewrite F; [eauto|]. cbn [thr].
    rewrite (nth_set _ _ _ _ _ Np). destruct (Nat.eqb_spec t' owner) as [->|]; [|eauto]. exists p'. split; [reflexivity|].
    rewrite N in Np. injection Np as <-. pose proof (run1_stores _ _ _ _ _ _ _ _ R) as X. rewrite S in X. destruct (stores p'); cbn in X; [lia|reflexivity].
Qed.

Lemma lost_gone_gen h1 h2 owner t : (exists q, nth_error (thr (final h1)) owner = Some q /\ stores q = false) -> length (calls h1) <= t ->
  In (EStatus t Unavailable) (trace (h1 ++ h2)) -> returned (h1 ++ h2) t -> gone (h1 ++ h2) owner.
Proof.
  intros NS Hl Hs [v' Rt].
  assert (J : (exists old new, nth_error (thr (final (h1 ++ h2))) t = Some (PSvcClearReq old new)) \/ gone (h1 ++ h2) owner).
  2:{ destruct J as [(old & new & J)|J]; [rewrite (cnt_ret_of _ _ _ Rt) in J; discriminate|exact J]. }
  clear Rt. induction h2 as [|l h2 IH] using rev_ind.
  - rewrite app_nil_r in Hs. apply status_lt in Hs. rewrite (i_len h1 (inv_final h1)) in Hs. lia.
  - rewrite app_assoc in *. pose proof (no_store_app h1 h2 owner NS) as NS2. set (h := h1 ++ h2) in *.
    destruct l as [c|t' w].
    + rewrite trace_call in Hs. specialize (IH Hs). destruct IH as [(old & new & IH)|IH]; [|right; apply gone_snoc; exact IH].
      left. exists old, new. rewrite snoc_call. cbn [thr]. rewrite nth_error_app1; [exact IH|eapply nth_lt; exact IH].
    + destruct (step_cases h t' w) as [(_ & F & T)|(q & s' & p' & e & Np & R & F & T)]; rewrite T in Hs.
      { specialize (IH Hs). rewrite F. destruct IH as [IH|IH]; [left; exact IH|right; apply gone_snoc; exact IH]. }
      destruct (i_fit h (inv_final h) _ _ Np) as (c & Cc & Fc).
      apply in_app_iff in Hs as [Hs|Hs].
      * specialize (IH Hs). destruct IH as [(old & new & IH)|IH]; [|right; apply gone_snoc; exact IH].
        destruct (Nat.eqb_spec t' t) as [->|].
        -- right. rewrite IH in Np. injection Np as <-. eapply cleared_step; eauto.
        -- left. exists old, new. rewrite F. cbn [thr]. rewrite nth_set_other by auto. exact IH.
      * destruct (status_thread _ _ _ _ _ _ _ _ _ _ R Hs) as [-> (old & ->)]. left. exists old, Unavailable.
        cbn in R. injection R as <- <- <-. rewrite F. cbn [thr]. rewrite (nth_set _ _ _ _ _ Np), Nat.eqb_refl. reflexivity.
Qed.

Lemma lost_gone h1 h2 owner t : returned h1 owner -> length (calls h1) <= t ->
  In (EStatus t Unavailable) (trace (h1 ++ h2)) -> returned (h1 ++ h2) t -> gone (h1 ++ h2) owner.
Proof.
  intros [v Rv]. apply lost_gone_gen. exists PDone. split; [eapply cnt_ret_of; exact Rv|reflexivity].
Qed.

Lemma deinit_gone h1 h2 owner t : returned h1 owner -> length (calls h1) <= t ->
  call_of (h1 ++ h2) t = Some CDeinit -> returned (h1 ++ h2) t -> gone (h1 ++ h2) owner.
Proof.
  intros [v Rv] Hl Hc [v' Rt].
  assert (NS : exists q, nth_error (thr (final h1)) owner = Some q /\ stores q = false).
  { exists PDone. split; [eapply cnt_ret_of; exact Rv|reflexivity]. }
  assert (J : nth_error (thr (final (h1 ++ h2))) t = Some (PStart CDeinit) \/ gone (h1 ++ h2) owner).
  2:{ destruct J as [J|J]; [rewrite (cnt_ret_of _ _ _ Rt) in J; discriminate|exact J]. }
  clear Rt. induction h2 as [|l h2 IH] using rev_ind.
  - rewrite app_nil_r in Hc. apply nth_lt in Hc. lia.
  - rewrite app_assoc in *. pose proof (no_store_app h1 h2 owner NS) as NS2. set (h := h1 ++ h2) in *.
    destruct l as [c|t' w].
    + rewrite call_of_call in Hc. rewrite snoc_call. cbn [thr]. rewrite nth_snoc, (i_len h (inv_final h)).
      destruct (Nat.eqb t (length (calls h))); [injection Hc as ->; auto|].
      specialize (IH Hc). destruct IH as [IH|IH]; [auto|right; apply gone_snoc; exact IH].
    + rewrite call_of_run in Hc. specialize (IH Hc).
      destruct IH as [IH|IH]; [|right; apply gone_snoc; exact IH].
      destruct (step_cases h t' w) as [(_ & F & T)|(q & s' & p' & e & Np & R & F & T)]; [rewrite F; auto|].
      destruct (Nat.eqb_spec t' t) as [->|].
      * right. rewrite IH in Np. injection Np as <-. eapply (cleared_step h t w _ _ _ CDeinit (PStart CDeinit)); eauto. reflexivity.
      * left. rewrite F. cbn [thr]. rewrite nth_set_other by auto. exact IH.
Qed.
