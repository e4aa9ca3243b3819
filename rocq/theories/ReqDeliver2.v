(** The answer to a pending request runs its callback: statement in terms of history and trace. *)
From Verif Require Import ReqModel ReqSpec ReqProofs ReqInv ReqIds ReqOnce ReqDeliver.
From Coq Require Import NArith.

Lemma run1_send w al s t p s' p' e t' m c : fits c p -> run1 w al s t p = (s', p', e) -> In (ESend t' m) e ->
  t' = t /\
  match p with
  | PSend code o pl k b rid => m = Msg code o rid pl 0 /\ p' = PSent code o k b rid
  | PExpSend o rid | PAbortSend o rid => m = Msg Abort o rid None 0 /\ p' = PDone
  | PRegSend st o rid => m = Msg (if st then StatusRegister else SignalRegister) o rid None 0 /\ p' = PRegSent o rid
  | PUnregSend o | PUallSend o => m = Msg Unregister o rid_invalid None 0
  | _ => False
  end.
Proof.
  intros F R H. destruct p; cbn in R; try solve [break_run; cbn in H; intuition discriminate].
  all: try solve [break_run; cbn in H; destruct H as [H|H]; [injection H as <- <-; auto|cbn in H; intuition discriminate]].
  break_run. apply in_app_iff in H as [H|[H|[]]]; [|discriminate]. apply in_map_iff in H as (? & ? & _). discriminate.
Qed.

Definition sent_phase (rid : N) (p : pc) : Prop :=
  match p with
  | PSent _ _ _ _ r | PUndo _ _ _ r _ => r = rid
  | PDone => True
  | _ => False
  end.
Lemma sent h t m o pl : In (ESend t m) (trace h) -> call_of h t = Some (CSendAsync o pl true) ->
  m = Msg OpRequest o (m_rid m) pl 0 /\ In (EAlloc t (m_rid m)) (trace h) /\
  exists p, nth_error (thr (final h)) t = Some p /\ sent_phase (m_rid m) p.
Proof.
  induction h as [|h c IH|h t0 w IH N F T|h t0 w p s' p' e IH N R F T] using hist_ind.
  - intros [].
  - rewrite trace_call. intros H C.
    assert (C' : call_of h t = Some (CSendAsync o pl true)).
    { rewrite call_of_call in C. destruct (Nat.eqb_spec t (length (calls h))) as [E|]; [|exact C]. exfalso.
      clear IH C. revert H. rewrite E. clear E.
      assert (G : forall h' u mm, In (ESend u mm) (trace h') -> u < length (thr (final h'))).
      { clear. intros h' u mm. induction h' as [|h c IH|h t0 w IH N F T|h t0 w p s' p' e IH N R F T] using hist_ind.
        - intros [].
        - rewrite trace_call, snoc_call. cbn [thr]. rewrite app_length. intros H. specialize (IH H). lia.
        - rewrite F, T. exact IH.
        - rewrite F, T. cbn [thr]. rewrite length_set_nth, in_app_iff. intros [H|H]; [auto|].
          destruct (i_fit h (inv_final h) _ _ N) as (c & _ & Fc).
          destruct (run1_send _ _ _ _ _ _ _ _ _ _ _ Fc R H) as [-> _]. eapply nth_lt; eauto. }
      intros H. apply G in H. rewrite (i_len h (inv_final h)) in H. lia. }
    destruct (IH H C') as (A & B & p & P & Q). split; [exact A|split; [exact B|]].
    exists p. split; [|exact Q]. rewrite snoc_call. cbn [thr]. rewrite nth_error_app1; [exact P|eapply nth_lt; exact P].
  - rewrite F, T, call_of_run. exact IH.
  - rewrite F, T, call_of_run. cbn [thr]. intros H C. rewrite in_app_iff in H.
    destruct (i_fit h (inv_final h) _ _ N) as (c & Ct & Fc).
    destruct H as [H|H].
    + destruct (IH H C) as (A & B & q & P & Q). split; [exact A|split; [apply in_or_app; auto|]].
      rewrite (nth_set _ _ _ _ _ N). destruct (Nat.eqb_spec t0 t) as [->|]; [|eauto].
      rewrite N in P. injection P as <-. exists p'. split; [reflexivity|].
      rewrite C in Ct. injection Ct as <-.
      destruct p; try contradiction; cbn in Q, R, Fc.
      * destruct Fc as (pl' & Hc & Ho & Hp & Hk & Hb). subst. break_run; cbn; auto.
      * injection R as <- <- <-. exact I.
      * injection R as <- <- <-. exact I.
    + destruct (run1_send _ _ _ _ _ _ _ _ _ _ _ Fc R H) as [-> X].
      rewrite C in Ct. injection Ct as <-. destruct p; try contradiction; cbn in Fc; try discriminate.
      * destruct X as [-> ->]. destruct Fc as (-> & -> & -> & -> & ->). cbn [m_rid]. split; [reflexivity|]. split.
        -- apply in_or_app. left. eapply (i_id h (inv_final h)); [exact N|reflexivity].
        -- exists (PSent OpRequest o KUser false rid). split; [|reflexivity]. apply nth_set_same. eapply nth_lt; exact N.
      * destruct Fc as (? & ? & ? & ? & ? & ? & ?). discriminate.
      * destruct Fc as (? & ?). discriminate.
Qed.

Lemma done_ret h t : nth_error (thr (final h)) t = Some PDone -> In (EThrow t) (trace h) \/ returned h t.
Proof.
  unfold returned.
  induction h as [|h c IH|h t0 w IH N F T|h t0 w p s' p' e IH N R F T] using hist_ind.
  - destruct t; discriminate.
  - rewrite snoc_call, trace_call. cbn [thr]. rewrite nth_snoc. destruct (Nat.eqb _ _); [discriminate|exact IH].
  - rewrite F, T. exact IH.
  - rewrite F, T. cbn [thr]. rewrite (nth_set _ _ _ _ _ N). intros H.
    assert (G : In (EThrow t) (trace h) \/ (exists v, In (ERet t v) (trace h)) -> In (EThrow t) (trace h ++ e) \/ (exists v, In (ERet t v) (trace h ++ e))).
    { intros [X|[v X]]; [left; apply in_or_app; auto|right; exists v; apply in_or_app; auto]. }
    destruct (Nat.eqb_spec t0 t) as [->|]; [|auto]. injection H as Hp.
    destruct p; cbn in R; break_run; try discriminate; try (destruct new; discriminate);
      try (left; apply in_or_app; right; left; reflexivity);
      try (right; eexists; apply in_or_app; right; (left; reflexivity) || (right; left; reflexivity)); auto.
    right. exists RVUnit. apply in_or_app. right. apply in_or_app. right. left. reflexivity.
Qed.
Lemma throw_in h t : In (EThrow t) (trace h) -> exists m, call_of h t = Some (CIncoming true m).
Proof.
  induction h as [|h c IH|h t0 w IH N F T|h t0 w p s' p' e IH N R F T] using hist_ind.
  - intros [].
  - rewrite trace_call. intros H. destruct (IH H) as (m & C). exists m. apply call_of_app. exact C.
  - rewrite T, call_of_run. exact IH.
  - rewrite T, call_of_run, in_app_iff. intros [H|H]; [auto|].
    destruct (i_fit h (inv_final h) _ _ N) as (c & Ct & Fc).
    destruct p; cbn in R; break_run; cbn in H; try solve [intuition discriminate].
    + destruct H as [H|[]]. injection H as <-. cbn in Fc. subst c. eauto.
    + apply in_app_iff in H as [H|[H|[]]]; [|discriminate]. apply in_map_iff in H as (? & ? & _). discriminate.
Qed.

Lemma delivered h0 o pl h2 h3 rid t m :
  let owner := length (calls h0) in let h1 := h0 ++ LCall (CSendAsync o pl true) :: h2 in let h := h1 ++ h3 in
  few h -> In (ESend owner (Msg OpRequest o rid pl 0)) (trace h1) ->
  (forall v, In (ERet owner v) (trace h) -> v = RVReg (Some (rid, o)) (Some Success)) ->
  length (calls h1) <= t -> call_of h t = Some (CIncoming true m) ->
  m_op m = o -> m_rid m = rid -> answer_code (m_code m) = true ->
  (forall t' c, call_of h t' = Some c -> ends o rid c = true -> t' = t \/ returned h0 t') ->
  returned h t -> runs_by h t owner = 1 /\ In (ECb t owner (m_pay m)) (trace h).
Proof.
  intros owner h1 h Fw Sd Rt Ht Ct Ho Hr Ha K [v Rv].
  assert (Fw1 : few h1) by (eapply few_app; exact Fw).
  assert (Oc : call_of h1 owner = Some (CSendAsync o pl true)).
  { unfold h1, call_of. rewrite calls_app. cbn [calls]. rewrite nth_error_app2 by (unfold owner; lia). unfold owner. rewrite Nat.sub_diag. reflexivity. }
  assert (Ol : owner < length (calls h1)) by (eapply nth_lt; exact Oc).
  assert (E0 : forall t' p, nth_error (thr (final h0)) t' = Some p -> p <> PDone -> exists c, call_of h0 t' = Some c /\ ends o rid c = false).
  { intros t' p N P. destruct (i_fit h0 (inv_final h0) _ _ N) as (c & C & _). exists c. split; [exact C|].
    destruct (ends o rid c) eqn:En; [exfalso|reflexivity].
    assert (C' : call_of h t' = Some c) by (unfold h, h1; rewrite <- app_assoc; apply call_of_app; exact C).
    destruct (K t' c C' En) as [->|[v' Rv']]; [|apply cnt_ret_of in Rv'; congruence].
    apply nth_lt in C. unfold h1 in Ht. rewrite calls_app, app_length in Ht. lia. }
  assert (E1 : forall t' c, call_of h1 t' = Some c -> owner <= t' -> ends o rid c = false).
  { intros t' c C Hge. destruct (ends o rid c) eqn:En; [exfalso|reflexivity].
    destruct (K t' c (call_of_app _ _ _ _ C) En) as [->|[v' Rv']].
    - apply nth_lt in C. unfold calls in *. lia.
    - apply cnt_ret_of in Rv'. apply nth_lt in Rv'. rewrite (i_len h0 (inv_final h0)) in Rv'. unfold owner in Hge. lia. }
  destruct (stored h0 o pl rid h2 Fw1 E1 E0) as [Ph Oth]. fold h1 owner in Ph, Oth.
  destruct (sent h1 owner _ o pl Sd Oc) as (_ & Al & p & Np & Q). cbn [m_rid] in *.
  assert (Pend : In (Ent rid owner KUser) (rl (sh (final h1)) o)).
  { unfold phase in Ph. fold owner h1 in Ph. rewrite Np in Ph. destruct p; try contradiction; auto.
    apply Ph. destruct (done_ret h1 owner Np) as [X|[v' X]].
    - apply throw_in in X as (m' & X). congruence.
    - rewrite (Rt v') in X; [exact X|]. apply in_trace_app. exact X. }
  assert (D : deliv h o rid owner t m).
  { apply (deliver h1 o rid owner t m Pend (ex_intro _ pl Oc) Ht (conj Ho (conj Hr Ha)) h3 Fw Rt).
    - intros t' c C Hge Hne. destruct (ends o rid c) eqn:En; [exfalso|reflexivity].
      destruct (K t' c C En) as [->|[v' Rv']]; [contradiction|].
      apply cnt_ret_of in Rv'. apply nth_lt in Rv'. rewrite (i_len h0 (inv_final h0)) in Rv'. unfold owner in Ol. lia.
    - exact Oth.
    - intros c C. fold h in C. congruence. }
  unfold deliv in D. pose proof (cnt_ret_of _ _ _ Rv) as Nt. rewrite Nt in D. split; [exact D|].
  assert (P : 1 <= runs_by h t owner) by lia. unfold runs_by in P. apply cnt_pos_inv in P as (x & I & X).
  destruct x; try discriminate. apply andb_true_iff in X as [X1 X2]. apply Nat.eqb_eq in X1, X2. subst.
  destruct (i_cb h (inv_final h) _ _ _ I) as [(m' & e & A & B & _)|[-> (o' & [A|A])]]; rewrite Ct in A; try discriminate.
  injection A as <-. rewrite <- B. exact I.
Qed.
