(** Subscriptions: gone after unregistering, losing the service or a failed registration; present otherwise. *)
From Verif Require Import ReqModel ReqSpec ReqProofs ReqInv ReqIds ReqOnce ReqDeliver ReqDeliver2 ReqGone ReqGone2 ReqSubs.
From Coq Require Import NArith.

(** What a registering call returns. *)
Lemma reg_ret_alloc h t st o rid o' a : call_of h t = Some (CReg st o true) ->
  In (ERet t (RVReg (Some (rid, o')) a)) (trace h) -> o' = o /\ In (EAlloc t rid) (trace h) /\ regid_ok rid o = true.
Proof.
  induction h as [|h c IH|h t0 w IH N F T|h t0 w p s' p' e IH N R F T] using hist_ind.
  - intros _ [].
  - rewrite trace_call. intros C H.
    assert (X : call_of h t = Some (CReg st o true)); [|auto].
    rewrite call_of_call in C. destruct (Nat.eqb_spec t (length (calls h))) as [E|]; [|exact C]. exfalso.
    apply cnt_ret_of in H. apply nth_lt in H. rewrite (i_len h (inv_final h)) in H. lia.
  - rewrite T, call_of_run. exact IH.
  - rewrite T, call_of_run, !in_app_iff. intros C [H|H]; [destruct (IH C H) as (A & B & D); auto|].
    destruct (i_fit h (inv_final h) _ _ N) as (c & Ct & Fc).
    pose proof (ret_thread _ _ _ _ _ _ _ _ _ _ R H) as X. subst t0. rewrite C in Ct. injection Ct as <-.
    destruct p; cbn in Fc; try contradiction; try discriminate; try solve [exfalso; clear - Fc;
                 repeat match goal with H : exists _, _ |- _ => destruct H | H : _ /\ _ |- _ => destruct H
                                      | H : context [match ?b with true => _ | false => _ end] |- _ => destruct b end;
                 cbn in *; intuition discriminate].
    all: match type of R with run1 _ _ _ _ ?q = _ => let x := eval cbn in (pc_id q) in match x with
       | Some ?r => assert (Al : In (EAlloc t r) (trace h)) by (eapply (i_id h (inv_final h)); [exact N|reflexivity]) | _ => idtac end end.
    all: cbn in R.
    all: repeat match goal with H : exists _, _ |- _ => destruct H | H : _ /\ _ |- _ => destruct H end.
    all: try (match goal with H : CReg _ _ _ = CReg _ _ _ |- _ => injection H as ? ?; subst end).
    all: try (match goal with Al : In (EAlloc _ ?r) _ |- _ => destruct (regid_ok r o) eqn:Ok end).
    all: break_run; cbn in H; try contradiction;
      repeat match goal with H : _ \/ _ |- _ => destruct H as [H|H] | H : False |- _ => destruct H end; try discriminate;
      try (injection H as <- <- <-); auto.
    all: match type of H with context [regid_ok ?r ?q] => destruct (regid_ok r q) eqn:Okk end; try discriminate; injection H as <- <- _; auto.
Qed.

(** Step that takes the entry of [owner] out. *)
Lemma rremoved h owner st o rid : few h -> call_of h owner = Some (CReg st o true) -> In (EAlloc owner rid) (trace h) ->
  (exists q, nth_error (thr (final h)) owner = Some q /\ rstores q = false) ->
  cnt (own owner) (remove_id rid (gl (sh (final h)) o)) = 0.
Proof.
  intros Fw C Al NS.
  pose proof (sub_weight h owner o) as W.
  pose proof (cnt_remove_id (own owner) rid (gl (sh (final h)) o)) as K.
  destruct (cnt (own owner) (gl (sh (final h)) o)) as [|n] eqn:E; [lia|].
  assert (n = 0) by lia. subst n.
  assert (P : 1 <= cnt (own owner) (gl (sh (final h)) o)) by lia. apply cnt_pos_inv in P as (x & I & X).
  unfold own in X. apply Nat.eqb_eq in X.
  destruct (i_reg h (inv_final h) _ _ I) as [_ [_ Ax]]. rewrite X in Ax.
  assert (Id : e_id x = rid) by (eapply one_id; eauto).
  destruct (find_exists rid _ _ I Id) as (y & Fy). rewrite Fy in K.
  apply find_id_some in Fy as [J Iy]. destruct (i_reg h (inv_final h) _ _ J) as [_ [_ Aly]]. rewrite Iy in Aly.
  pose proof (ids_unique h _ _ _ Fw Aly Al) as Z. unfold own in K at 2. rewrite Z, Nat.eqb_refl in K. cbn in K. lia.
Qed.
Lemma reg_elsewhere h owner st o o' : call_of h owner = Some (CReg st o true) -> o' <> o ->
  cnt (own owner) (gl (sh (final h)) o') = 0.
Proof.
  intros C Hne. apply cnt_zero. intros x I. destruct (own owner x) eqn:X; [exfalso|reflexivity].
  unfold own in X. apply Nat.eqb_eq in X. destruct (i_reg h (inv_final h) _ _ I) as [(stt & C1) _].
  rewrite X, C in C1. congruence.
Qed.

Lemma rgone_step h t w p s' p' e owner st o rid : few h -> nth_error (thr (final h)) t = Some p ->
  run1 w (alive (final h) t) (sh (final h)) t p = (s', p', e) ->
  (reg_effect t p = TRemove o rid \/ reg_effect t p = TDrop o \/ reg_effect t p = TClear) ->
  call_of h owner = Some (CReg st o true) -> In (EAlloc owner rid) (trace h) ->
  (exists q, nth_error (thr (final h)) owner = Some q /\ rstores q = false) ->
  rgone (h ++ [LRun t w]) owner.
Proof.
  intros Fw N R Ef C Al NS. split; [apply no_rstore_snoc; exact NS|].
  pose proof (run1_registers _ _ _ _ _ _ _ _ R) as E. rewrite final_snoc. cbn. rewrite N, R. cbn [fst sh]. intros o'.
  destruct Ef as [Ef|[Ef|Ef]]; rewrite Ef in E; cbn in E; rewrite E.
  - destruct (Nat.eqb_spec o' o) as [->|Hne]; [eapply rremoved; eauto|eapply reg_elsewhere; eauto].
  - destruct (Nat.eqb_spec o' o) as [->|Hne]; [reflexivity|eapply reg_elsewhere; eauto].
  - reflexivity.
Qed.

(** Failed registration. *)
Lemma reg_failed_gone h owner st o : few h -> call_of h owner = Some (CReg st o true) ->
  match nth_error (thr (final h)) owner with
  | Some PDone => forall a, In (ERet owner (RVReg None (Some a))) (trace h) -> a <> Success -> rgone h owner
  | _ => True
  end.
Proof.
  induction h as [|h c IH|h t w IH N F T|h t w p s' p' e IH N R F T] using hist_ind; intros Fw C.
  - destruct owner; discriminate.
  - rewrite snoc_call, trace_call. cbn [thr]. rewrite nth_snoc.
    destruct (Nat.eqb_spec owner (length (thr (final h)))) as [E|E]; [exact I|].
    rewrite call_of_call in C. rewrite (i_len h (inv_final h)) in E. destruct (Nat.eqb_spec owner (length (calls h))); [contradiction|].
    specialize (IH (few_snoc _ _ Fw) C).
    destruct (nth_error (thr (final h)) owner) as [[]|]; try exact I. intros a H Ha. apply rgone_snoc. eauto.
  - rewrite F, T. rewrite call_of_run in C. specialize (IH (few_snoc _ _ Fw) C).
    destruct (nth_error (thr (final h)) owner) as [[]|]; try exact I. intros a H Ha. apply rgone_snoc. eauto.
  - rewrite call_of_run in C. specialize (IH (few_snoc _ _ Fw) C). rewrite F, T. cbn [thr].
    rewrite (nth_set _ _ _ _ _ N). destruct (Nat.eqb_spec t owner) as [->|Ht].
    2:{ destruct (nth_error (thr (final h)) owner) as [[]|]; try exact I. intros a H Ha. apply rgone_snoc.
        apply in_app_iff in H as [H|H]; [eauto|]. apply (ret_thread _ _ _ _ _ _ _ _ _ _ R) in H. congruence. }
    rewrite N in IH. remember p' as q' eqn:Ep in |- *. destruct q'; try exact I. intros a H Ha. apply in_app_iff in H as [H|H].
    { pose proof (cnt_ret_of _ _ _ H) as Y. rewrite Y in N. injection N as <-. apply rgone_snoc. eauto. }
    destruct (i_fit h (inv_final h) _ _ N) as (c & Ct & Fc). rewrite C in Ct. injection Ct as <-.
    destruct p; cbn in Fc; try contradiction; try discriminate; try solve [exfalso; clear - Fc;
                 repeat match goal with H : exists _, _ |- _ => destruct H | H : _ /\ _ |- _ => destruct H
                                      | H : context [match ?b with true => _ | false => _ end] |- _ => destruct b end;
                 cbn in *; intuition discriminate].
    all: match type of R with run1 _ _ _ _ ?q = _ =>
      match q with
      | PStart _ => idtac
      | PRegUndo _ _ _ => idtac
      | _ => exfalso; cbn in R; break_run; try discriminate; cbn in H;
             repeat match goal with H : _ \/ _ |- _ => destruct H as [H|H] | H : False |- _ => destruct H end; try discriminate; injection H; intros; congruence
      end end.
    + assert (W : forall o', cnt (own owner) (gl (sh (final h)) o') = 0).
      { intros o'. pose proof (sub_weight h owner o') as W. unfold prst in W. rewrite N in W. cbn in W. lia. }
      subst c. cbn in R. destruct (available (sh (final h))); [break_run; discriminate|]. assert (Es : s' = sh (final h)) by congruence. subst s'.
      split; rewrite F; cbn [sh thr]; [|exact W]. exists p'. rewrite (nth_set _ _ _ _ _ N), Nat.eqb_refl, <- Ep. split; reflexivity.
    + destruct Fc as [(st' & Fc) Na]. injection Fc as <- <-. eapply rgone_step; eauto.
      * exact (few_snoc _ _ Fw).
      * left. reflexivity.
      * eapply (i_id h (inv_final h)); [exact N|reflexivity].
Qed.

(** Loss of the service. *)
Lemma lost_rgone h1 h2 owner st o rid a t : few (h1 ++ h2) -> call_of h1 owner = Some (CReg st o true) ->
  In (ERet owner (RVReg (Some (rid, o)) a)) (trace h1) -> length (calls h1) <= t ->
  In (EStatus t Unavailable) (trace (h1 ++ h2)) -> returned (h1 ++ h2) t -> rgone (h1 ++ h2) owner.
Proof.
  intros Fw C Rv Hl Hs [v' Rt].
  destruct (reg_ret_alloc _ _ _ _ _ _ _ C Rv) as (_ & Al & _).
  assert (NS : exists q, nth_error (thr (final h1)) owner = Some q /\ rstores q = false).
  { exists PDone. split; [eapply cnt_ret_of; exact Rv|reflexivity]. }
  assert (J : (exists old new, nth_error (thr (final (h1 ++ h2))) t = Some (PSvcClearReq old new) \/
                               nth_error (thr (final (h1 ++ h2))) t = Some (PSvcClearReg old new)) \/ rgone (h1 ++ h2) owner).
  2:{ destruct J as [(old & new & J)|J]; [rewrite (cnt_ret_of _ _ _ Rt) in J; destruct J; discriminate|exact J]. }
  clear Rt. induction h2 as [|l h2 IH] using rev_ind.
  - rewrite app_nil_r in Hs. apply status_lt in Hs. rewrite (i_len h1 (inv_final h1)) in Hs. lia.
  - rewrite app_assoc in *. pose proof (no_rstore_app h1 h2 owner NS) as NS2.
    pose proof (call_of_app h1 h2 _ _ C) as C'. pose proof (in_trace_app h1 h2 _ Al) as Al'. set (h := h1 ++ h2) in *.
    assert (Fw' : few h) by (eapply few_app; exact Fw). specialize (IH Fw').
    destruct l as [c|t' w].
    + rewrite trace_call in Hs. specialize (IH Hs). destruct IH as [(old & new & IH)|IH]; [|right; apply rgone_snoc; exact IH].
      left. exists old, new. rewrite snoc_call. cbn [thr]. destruct IH as [IH|IH]; rewrite nth_error_app1; auto; eapply nth_lt; exact IH.
    + destruct (step_cases h t' w) as [(_ & F & T)|(q & s' & p' & e & Np & R & F & T)]; rewrite T in Hs.
      { specialize (IH Hs). rewrite F. destruct IH as [IH|IH]; [left; exact IH|right; apply rgone_snoc; exact IH]. }
      apply in_app_iff in Hs as [Hs|Hs].
      * specialize (IH Hs). destruct IH as [(old & new & IH)|IH]; [|right; apply rgone_snoc; exact IH].
        destruct (Nat.eqb_spec t' t) as [->|].
        -- destruct IH as [IH|IH]; rewrite IH in Np; injection Np as <-.
           ++ left. exists old, new. right. cbn in R. injection R as <- <- <-. rewrite F. cbn [thr]. rewrite (nth_set _ _ _ _ _ IH), Nat.eqb_refl. reflexivity.
           ++ right. eapply rgone_step; eauto.
        -- left. exists old, new. rewrite F. cbn [thr]. rewrite nth_set_other by auto. exact IH.
      * destruct (status_thread _ _ _ _ _ _ _ _ _ _ R Hs) as [-> (old & ->)]. left. exists old, Unavailable. left.
        cbn in R. injection R as <- <- <-. rewrite F. cbn [thr]. rewrite (nth_set _ _ _ _ _ Np), Nat.eqb_refl. reflexivity.
Qed.

(** unregister, unregisterAll *)
Section Unreg.
  Variables (h1 : history) (owner : nat) (st : bool) (o : nat) (rid : N) (a : option acs) (t : nat).
  Hypothesis C : call_of h1 owner = Some (CReg st o true).
  Hypothesis Rv : In (ERet owner (RVReg (Some (rid, o)) a)) (trace h1).
  Hypothesis Hl : length (calls h1) <= t.

  Lemma unreg_phase h2 c : few (h1 ++ h2) -> (c = CUnregister rid o \/ c = CUnregisterAll o) -> call_of (h1 ++ h2) t = Some c ->
    match nth_error (thr (final (h1 ++ h2))) t with
    | None | Some (PStart _) | Some (PUnregErase _ _) | Some (PUallErase _) => True
    | Some PDone => c = CUnregisterAll o -> In (ERet t (RVStatus Success)) (trace (h1 ++ h2)) -> rgone (h1 ++ h2) owner
    | _ => rgone (h1 ++ h2) owner
    end /\ (c = CUnregister rid o -> nth_error (thr (final (h1 ++ h2))) t = Some PDone -> rgone (h1 ++ h2) owner).
  Proof.
    destruct (reg_ret_alloc _ _ _ _ _ _ _ C Rv) as (_ & Al & Ok).
    assert (NS : exists q, nth_error (thr (final h1)) owner = Some q /\ rstores q = false).
    { exists PDone. split; [eapply cnt_ret_of; exact Rv|reflexivity]. }
    intros Fw Hc. revert Fw. induction h2 as [|l h2 IH] using rev_ind; intros Fw Ct.
    { rewrite app_nil_r in *. apply nth_lt in Ct. unfold calls in *. lia. }
    rewrite app_assoc in *. pose proof (no_rstore_app h1 h2 owner NS) as NS2.
    pose proof (call_of_app h1 h2 _ _ C) as C'. pose proof (in_trace_app h1 h2 _ Al) as Al'. set (h := h1 ++ h2) in *.
    assert (Fw' : few h) by (eapply few_app; exact Fw). specialize (IH Fw').
    destruct l as [c'|t' w].
    - rewrite call_of_call in Ct. rewrite snoc_call, trace_call. cbn [thr]. rewrite nth_snoc, (i_len h (inv_final h)).
      destruct (Nat.eqb_spec t (length (calls h))) as [E|E]; [split; [exact I|discriminate]|].
      specialize (IH Ct). destruct IH as [I1 I2]. split.
      + destruct (nth_error (thr (final h)) t) as [q|]; [|exact I]. destruct q; try exact I; try (apply rgone_snoc; exact I1).
        intros X Y. apply rgone_snoc. auto.
      + intros X Y. apply rgone_snoc. auto.
    - rewrite call_of_run in Ct. specialize (IH Ct). destruct IH as [I1 I2].
      destruct (step_cases h t' w) as [(_ & F & T)|(p & s' & p' & e & N & R & F & T)]; rewrite F, T.
      { split.
        + destruct (nth_error (thr (final h)) t) as [q|]; [|exact I]. destruct q; try exact I; try (apply rgone_snoc; exact I1).
          intros X Y. apply rgone_snoc. auto.
        + intros X Y. apply rgone_snoc. auto. }
      cbn [thr]. rewrite (nth_set _ _ _ _ _ N). destruct (Nat.eqb_spec t' t) as [->|Hne].
      2:{ split.
        + destruct (nth_error (thr (final h)) t) as [q|]; [|exact I]. destruct q; try exact I; try (apply rgone_snoc; exact I1).
          intros X Y. apply rgone_snoc. apply in_app_iff in Y as [Y|Y]; [auto|]. apply (ret_thread _ _ _ _ _ _ _ _ _ _ R) in Y. congruence.
        + intros X Y. apply rgone_snoc. auto. }
      rewrite N in I1, I2. destruct (i_fit h (inv_final h) _ _ N) as (c' & Cc & Fc). rewrite Ct in Cc. injection Cc as <-.
      assert (Ste : reg_effect t p = TRemove o rid \/ reg_effect t p = TDrop o -> rgone (h ++ [LRun t w]) owner).
      { intros Ef. eapply rgone_step; eauto. destruct Ef; auto. }
      destruct Hc as [-> | ->].
      + split.
        * destruct p; cbn in Fc; try discriminate; try solve [exfalso; clear - Fc;
                 repeat match goal with H : exists _, _ |- _ => destruct H | H : _ /\ _ |- _ => destruct H
                                      | H : context [match ?b with true => _ | false => _ end] |- _ => destruct b end;
                 cbn in *; intuition discriminate].
          -- subst c. cbn in R. rewrite Ok in R. break_run; exact I.
          -- injection Fc as <- <-. specialize (Ste (or_introl eq_refl)). cbn in R. destruct (remove_entry (registers (sh (final h))) o rid) as [m n].
             break_run; [exact Ste|intros; exact Ste].
          -- cbn in R. break_run. apply rgone_snoc. exact I1.
          -- cbn in R. break_run; [|intros _ _]; apply rgone_snoc; exact I1.
          -- cbn in R. break_run. intros _ _. apply rgone_snoc. exact I1.
          -- cbn in R. break_run. discriminate.
        * intros _ Y. injection Y as Y. destruct p; cbn in Fc; try discriminate; try solve [exfalso; clear - Fc;
                 repeat match goal with H : exists _, _ |- _ => destruct H | H : _ /\ _ |- _ => destruct H
                                      | H : context [match ?b with true => _ | false => _ end] |- _ => destruct b end;
                 cbn in *; intuition discriminate].
          -- subst c. cbn in R. rewrite Ok in R. break_run; discriminate.
          -- injection Fc as <- <-. exact (Ste (or_introl eq_refl)).
          -- apply rgone_snoc. exact I1.
          -- apply rgone_snoc. exact I1.
          -- apply rgone_snoc. exact I1.
          -- apply rgone_snoc. apply I2; reflexivity.
      + split; [|discriminate].
        destruct p; cbn in Fc; try discriminate; try solve [exfalso; clear - Fc;
                 repeat match goal with H : exists _, _ |- _ => destruct H | H : _ /\ _ |- _ => destruct H
                                      | H : context [match ?b with true => _ | false => _ end] |- _ => destruct b end;
                 cbn in *; intuition discriminate].
        * subst c. cbn in R. break_run; [exact I|]. intros _ Y. exfalso. apply in_app_iff in Y as [Y|[Y|[]]]; [|discriminate].
          apply cnt_ret_of in Y. congruence.
        * injection Fc as <-. specialize (Ste (or_intror eq_refl)). cbn in R. break_run. exact Ste.
        * cbn in R. break_run. apply rgone_snoc. exact I1.
        * cbn in R. break_run. intros _ _. apply rgone_snoc. exact I1.
        * cbn in R. break_run. rewrite app_nil_r. intros X Y. apply rgone_snoc. auto.
  Qed.

  Lemma unreg_rgone h2 : few (h1 ++ h2) -> call_of (h1 ++ h2) t = Some (CUnregister rid o) -> returned (h1 ++ h2) t -> rgone (h1 ++ h2) owner.
  Proof. intros Fw Ct [v Rt]. destruct (unreg_phase h2 _ Fw (or_introl eq_refl) Ct) as [_ H]. apply H; [reflexivity|eapply cnt_ret_of; exact Rt]. Qed.
  Lemma unregall_rgone h2 : few (h1 ++ h2) -> call_of (h1 ++ h2) t = Some (CUnregisterAll o) ->
    In (ERet t (RVStatus Success)) (trace (h1 ++ h2)) -> rgone (h1 ++ h2) owner.
  Proof.
    intros Fw Ct Rt. destruct (unreg_phase h2 _ Fw (or_intror eq_refl) Ct) as [H _].
    rewrite (cnt_ret_of _ _ _ Rt) in H. auto.
  Qed.
End Unreg.

(** ** Presence *)
Definition rends (o : nat) (rid : N) (c : call) : bool :=
  match c with
  | CUnregister r o' => N.eqb r rid && Nat.eqb o' o
  | CUnregisterAll o' => Nat.eqb o' o
  | CServiceStatus true _ Unavailable => true
  | _ => false
  end.

Lemma sub_stays h t w p s' p' ev c o e : few h -> nth_error (thr (final h)) t = Some p -> call_of h t = Some c ->
  fits c p -> run1 w (alive (final h) t) (sh (final h)) t p = (s', p', ev) ->
  In e (gl (sh (final h)) o) -> rends o (e_id e) c = false ->
  (t = e_owner e -> match p with PRegUndo _ _ _ => False | _ => True end) -> In e (gl s' o).
Proof.
  intros Fw N C F R I K D.
  pose proof (run1_registers _ _ _ _ _ _ _ _ R) as E.
  destruct (i_reg h (inv_final h) _ _ I) as [_ [_ Al]].
  destruct p; cbn [reg_effect teff] in E; try (rewrite E; exact I); cbn in F.
  - rewrite E. destruct (Nat.eqb_spec o o0); [subst; apply in_or_app; auto|exact I].
  - rewrite E. destruct (Nat.eqb_spec o o0); [|exact I]. subst o0.
    eapply in_remove_other; [exact I|reflexivity|]. intros X. subst rid.
    pose proof (i_id h (inv_final h) _ _ _ N eq_refl) as Al'. pose proof (ids_unique h _ _ _ Fw Al Al') as Y.
    symmetry in Y. apply D in Y. destruct Y.
  - subst c. rewrite E. destruct (Nat.eqb_spec o o0); [|exact I]. subst o0.
    eapply in_remove_other; [exact I|reflexivity|]. intros X. subst rid. cbn in K. rewrite N.eqb_refl, Nat.eqb_refl in K. discriminate.
  - subst c. rewrite E. destruct (Nat.eqb_spec o o0); [|exact I]. subst. cbn in K. rewrite Nat.eqb_refl in K. discriminate.
  - destruct F as [-> ->]. discriminate.
Qed.

Section Present.
  Variables (h0 : history) (st : bool) (o : nat) (rid : N).
  Let owner := length (calls h0).
  Let c0 := CReg st o true.
  Definition rphase (h : history) : Prop :=
    match nth_error (thr (final h)) owner with
    | Some (PRegSend _ _ r) | Some (PRegSent _ r) | Some (PRegCached _ r) | Some (PRegCall _ r _) => r = rid -> In (Ent rid owner KUser) (gl (sh (final h)) o)
    | Some PDone => forall a, In (ERet owner (RVReg (Some (rid, o)) a)) (trace h) -> In (Ent rid owner KUser) (gl (sh (final h)) o)
    | _ => True
    end.

  Lemma present h2 : let h := h0 ++ LCall c0 :: h2 in few h ->
    (forall t' c, call_of h t' = Some c -> owner <= t' -> rends o rid c = false) ->
    (forall t' p, nth_error (thr (final h0)) t' = Some p -> p <> PDone -> exists c, call_of h0 t' = Some c /\ rends o rid c = false) ->
    rphase h /\
    (forall t' p, nth_error (thr (final h)) t' = Some p -> p <> PDone ->
        exists c, call_of h t' = Some c /\ rends o rid c = false).
  Proof.
    induction h2 as [|l h2 IH] using rev_ind; intros h Fw K K1.
    - subst h. split.
      + unfold rphase. rewrite snoc_call. cbn [thr]. rewrite nth_snoc, (i_len h0 (inv_final h0)). unfold owner. rewrite Nat.eqb_refl. exact I.
      + intros t' p N P. rewrite snoc_call in N. cbn [thr] in N. rewrite nth_snoc in N. rewrite call_of_call.
        rewrite (i_len h0 (inv_final h0)) in N. destruct (Nat.eqb t' (length (calls h0))); [|eauto].
        exists c0. split; reflexivity.
    - subst h. rewrite app_comm_cons, app_assoc in *. set (h := h0 ++ LCall c0 :: h2) in *. cbn zeta in IH.
      assert (Fw' : few h) by (eapply few_app; exact Fw).
      destruct IH as [D Oth]; [exact Fw'|intros t' c C; apply (K t' c); apply call_of_app; exact C|exact K1|].
      assert (Oc : call_of h owner = Some c0).
      { unfold h, call_of. rewrite calls_app. cbn [calls]. rewrite nth_error_app2 by (unfold owner; lia). unfold owner. rewrite Nat.sub_diag. reflexivity. }
      assert (Ol : owner < length (thr (final h))) by (rewrite (i_len h (inv_final h)); eapply nth_lt; exact Oc).
      destruct l as [c|t' w].
      + split.
        * unfold rphase in *. rewrite snoc_call, trace_call. cbn [sh thr]. rewrite nth_error_app1 by exact Ol. exact D.
        * intros t' p N P. rewrite snoc_call in N. cbn [thr] in N. rewrite nth_snoc in N.
          destruct (Nat.eqb_spec t' (length (thr (final h)))) as [E|].
          -- exists c. assert (C : call_of (h ++ [LCall c]) t' = Some c).
             { rewrite call_of_call, <- (i_len h (inv_final h)), E, Nat.eqb_refl. reflexivity. }
             split; [exact C|]. apply (K t' c C). lia.
          -- destruct (Oth t' p N P) as (c' & C & Q). exists c'. split; [apply call_of_app; exact C|exact Q].
      + destruct (step_cases h t' w) as [(_ & F & T)|(p & s' & p' & e & N & R & F & T)].
        { split; [|rewrite F; intros t2 p2 N2 P2; rewrite call_of_run; eauto]. unfold rphase in *. rewrite F, T. exact D. }
        destruct (i_fit h (inv_final h) _ _ N) as (c & C & Fc).
        split.
        * unfold rphase in *. rewrite F, T. cbn [sh thr]. rewrite (nth_set _ _ _ _ _ N).
          destruct (Nat.eqb_spec t' owner) as [->|Hne].
          -- rewrite Oc in C. injection C as <-. rewrite N in D.
             assert (NoR : forall v, ~ In (ERet owner v) (trace h) \/ p = PDone).
             { intros v. assert (p = PDone \/ p <> PDone) as [P|P] by (destruct p; ((left; reflexivity) || (right; discriminate))); [auto|left].
               intros H. apply cnt_ret_of in H. congruence. }
             destruct p; cbn in Fc; try contradiction;
               try solve [exfalso; clear - Fc; try unfold c0 in Fc;
                 repeat match goal with H : exists _, _ |- _ => destruct H | H : _ /\ _ |- _ => destruct H
                                      | H : context [match ?b with true => _ | false => _ end] |- _ => destruct b end;
                 cbn in *; intuition discriminate];
               cbn in R.
             ++ subst. unfold c0 in R. break_run; try exact Logic.I. intros a H. exfalso.
                apply in_app_iff in H as [H|[H|[]]]; [|discriminate]. destruct (NoR (RVReg (Some (rid, o)) a)) as [X|X]; [auto|discriminate].
             ++ break_run; exact Logic.I.
             ++ injection Fc as <- <-.
                assert (X : rid0 = rid -> In (Ent rid owner KUser) (gl s' o)).
                { intros ->. pose proof (run1_registers _ _ _ _ _ _ _ _ (eq_trans (eq_refl _) R : run1 w (alive (final h) owner) (sh (final h)) owner (PRegStore st o rid) = _)) as E.
                  cbn in E. rewrite E, Nat.eqb_refl. apply in_or_app. right. left. reflexivity. }
                destruct (Nat.eqb (length (get_or [] o (registers (sh (final h))) ++ [Ent rid0 owner KUser])) 1); [break_run; exact X|].
                destruct st; [break_run; exact X|]. injection R as Es Ep Ee. subst p' e. rewrite <- Es in *. intros a H.
                apply in_app_iff in H as [H|[H|[]]]; [destruct (NoR (RVReg (Some (rid, o)) a)) as [Y|Y]; [contradiction|discriminate]|].
                apply X. destruct (regid_ok rid0 o); congruence.
             ++ injection R as <- <- <-. exact D.
             ++ destruct (regid_ok rid0 o0) eqn:Ok; break_run; try exact D; try exact Logic.I; intros a0 H;
                  (apply in_app_iff in H as [H|[H|[]]]; [destruct (NoR (RVReg (Some (rid, o)) a0)) as [Y|Y]; [contradiction|discriminate]|]);
                  try discriminate; injection H as H; intros; apply D; congruence.
             ++ break_run. intros a0 H. exfalso. apply in_app_iff in H as [H|[H|[]]]; [destruct (NoR (RVReg (Some (rid, o)) a0)) as [Y|Y]; [contradiction|discriminate]|discriminate].
             ++ assert (G : gl s' = gl (sh (final h))).
                { destruct (cached (sh (final h)) o0) as [s1 [q|]] eqn:Cq; apply cached_tables in Cq; break_run; unfold gl; destruct Cq as (-> & _); reflexivity. }
                rewrite G. destruct (cached (sh (final h)) o0) as [s1 [q|]] eqn:Cq; [break_run; exact D|].
                destruct (regid_ok rid0 o0); break_run; intros a0 H;
                (apply in_app_iff in H as [H|[H|[]]]; [destruct (NoR (RVReg (Some (rid, o)) a0)) as [Y|Y]; [contradiction|discriminate]|]);
                try discriminate; apply D; congruence.
             ++ destruct (regid_ok rid0 o0); break_run; intros a0 H;
                (apply in_app_iff in H as [H|[H|[H|[]]]]; [destruct (NoR (RVReg (Some (rid, o)) a0)) as [Y|Y]; [contradiction|discriminate]| |]);
                try discriminate; apply D; congruence.
             ++ injection R as <- <- <-. rewrite app_nil_r. exact D.
          -- assert (St : In (Ent rid owner KUser) (gl (sh (final h)) o) -> In (Ent rid owner KUser) (gl s' o)).
             { intros I. assert (p = PDone \/ p <> PDone) as [P|P] by (destruct p; ((left; reflexivity) || (right; discriminate))).
               - subst p. cbn in R. injection R as <- <- <-. exact I.
               - destruct (Oth _ _ N P) as (c' & C' & En). rewrite C in C'. injection C' as <-.
                 apply (sub_stays h t' w p s' p' e c o _ Fw' N C Fc R I En). cbn. intros X. contradiction. }
             destruct (nth_error (thr (final h)) owner) as [q|]; [|exact Logic.I].
             destruct q; try exact Logic.I; auto.
             intros a H. apply St. apply (D a). apply in_app_iff in H as [H|H]; [exact H|]. apply (ret_thread _ _ _ _ _ _ _ _ _ _ R) in H. congruence.
        * intros t2 p2 N2 P2. rewrite F in N2. cbn [thr] in N2. rewrite (nth_set _ _ _ _ _ N) in N2.
          rewrite call_of_run. destruct (Nat.eqb_spec t' t2) as [->|]; [|eauto].
          injection N2 as <-. assert (P : p <> PDone).
          { intros ->. cbn in R. injection R as _ <- _. congruence. }
          exact (Oth _ _ N P).
  Qed.
End Present.

(** A subscriber registered before the update arrived, and not unregistered, is run exactly once, with the payload. *)
Lemma update_reaches h0 st o h2 h3 rid a t m :
  let owner := length (calls h0) in let h1 := h0 ++ LCall (CReg st o true) :: h2 in let h := h1 ++ h3 in
  few h -> In (ERet owner (RVReg (Some (rid, o)) a)) (trace h1) ->
  (forall t' c, call_of h t' = Some c -> rends o rid c = true -> returned h0 t') ->
  length (calls h1) <= t -> call_of h t = Some (CIncoming true m) -> update_code (m_code m) = true -> m_op m = o ->
  returned h t -> runs_by h t owner = 1 /\ In (ECb t owner (m_pay m)) (trace h).
Proof.
  intros owner h1 h Fw Rt K Ht Cm U Ho [v Rv].
  assert (Oc : call_of h1 owner = Some (CReg st o true)).
  { unfold h1, call_of. rewrite calls_app. cbn [calls]. rewrite nth_error_app2 by (unfold owner; lia). unfold owner. rewrite Nat.sub_diag. reflexivity. }
  pose proof (snapshot h t m Cm U) as S. rewrite (cnt_ret_of _ _ _ Rv) in S.
  destruct (snap_late h1 h3 t m [] Ht S) as (x & y & E3 & Nx & Sx). rewrite app_nil_r in Sx. fold h in Sx.
  assert (Pr : In (Ent rid owner KUser) (gl (sh (final (h1 ++ x))) o)).
  { assert (Eh : h1 ++ x = h0 ++ LCall (CReg st o true) :: (h2 ++ x)) by (unfold h1; rewrite <- app_assoc; reflexivity).
    assert (Eall : h = (h1 ++ x) ++ y) by (unfold h; rewrite E3, app_assoc; reflexivity).
    assert (P : rphase h0 o rid (h1 ++ x)).
    { rewrite Eh. apply (present h0 st o rid (h2 ++ x)).
      - rewrite <- Eh. apply (few_app _ y). rewrite <- Eall. exact Fw.
      - intros t' c C Hge. destruct (rends o rid c) eqn:En; [exfalso|reflexivity].
        assert (C2 : call_of h t' = Some c) by (rewrite Eall, Eh; apply call_of_app; exact C).
        destruct (K _ _ C2 En) as [v' Rv']. apply cnt_ret_of in Rv'. apply nth_lt in Rv'. rewrite (i_len h0 (inv_final h0)) in Rv'. lia.
      - intros t' p N P. destruct (i_fit h0 (inv_final h0) _ _ N) as (c & C & _). exists c. split; [exact C|].
        destruct (rends o rid c) eqn:En; [exfalso|reflexivity].
        assert (C2 : call_of h t' = Some c) by (rewrite Eall, Eh, <- app_assoc; apply call_of_app; exact C).
        destruct (K _ _ C2 En) as [v' Rv']. apply cnt_ret_of in Rv'. congruence. }
    unfold rphase in P. fold owner in P. rewrite (done_stays_app h1 x owner (cnt_ret_of _ _ _ Rt)) in P. eapply P. apply in_trace_app. exact Rt. }
  assert (In owner (cbs_by h t)) as Ic.
  { rewrite Sx, Ho. change owner with (e_owner (Ent rid owner KUser)). apply in_map. exact Pr. }
  destruct (cbs_in_cb _ _ _ Ic) as (p & Ip).
  assert (Hne : t <> owner) by (intros ->; apply nth_lt in Oc; unfold calls in *; lia).
  destruct (reg_not_other h owner st o t p (call_of_app _ _ _ _ Oc) Ip Hne) as (m' & Cm' & _ & _ & Ep). rewrite Cm in Cm'. injection Cm' as <-. subst p.
  split; [|exact Ip].
  pose proof (update_once h t m owner st o Cm (call_of_app _ _ _ _ Oc)) as Le.
  assert (Ge : 1 <= runs_by h t owner) by (rewrite runs_cbs; eapply cnt_pos; [exact Ic|apply Nat.eqb_refl]). lia.
Qed.
