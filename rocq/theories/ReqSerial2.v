(** What a registering call sends, when registering calls do not overlap. *)
From Verif Require Import ReqModel ReqSpec ReqProofs ReqInv ReqIds ReqOnce ReqDeliver ReqDeliver2 ReqGone ReqGone2 ReqSubs ReqSerSpec ReqSerial.
From Coq Require Import NArith.

Definition sends_of (t : nat) (e : list event) : list msg :=
  flat_map (fun e => match e with ESend t' m => if Nat.eqb t' t then [m] else [] | _ => [] end) e.
Definition svc_of (e : list event) (a : availability) : availability :=
  fold_left (fun a e => match e with EStatus _ a' => a' | _ => a end) e a.

Lemma run1_status w al s t p s' p' e : run1 w al s t p = (s', p', e) -> status s' = svc_of e (status s).
Proof.
  intros R. unfold svc_of. destruct p; cbn in R; try solve [break_run; reflexivity].
  - unfold cached in R; destruct (get o (cache s)) as [[?|]|]; break_run; reflexivity.
  - unfold cached in R; destruct (get o (cache s)) as [[?|]|]; break_run; reflexivity.
  - break_run; try reflexivity. destruct keep; reflexivity.
  - break_run. rewrite fold_left_app. cbn. induction (observers s) as [|x l IH]; [reflexivity|exact IH].
Qed.

Lemma svc_status h : status (sh (final h)) = svc h.
Proof.
  induction h as [|h c IH|h t w IH N F T|h t w p s' p' e IH N R F T] using hist_ind; [reflexivity| | |].
  - rewrite snoc_call. unfold svc. rewrite trace_call. exact IH.
  - rewrite F. unfold svc. rewrite T. exact IH.
  - rewrite F. cbn [sh]. rewrite (run1_status _ _ _ _ _ _ _ _ R), IH. unfold svc, svc_of. rewrite T, fold_left_app. reflexivity.
Qed.

Lemma sends_other w al s t p s' p' e t' : run1 w al s t p = (s', p', e) -> t' <> t -> sends_of t' e = [].
Proof.
  intros R H. assert (G := fun x => ev_thread _ _ _ _ _ _ _ _ x R). clear R. induction e as [|x e IH]; [reflexivity|].
  unfold sends_of in *. cbn. rewrite IH by (intros y I; apply G; right; exact I).
  specialize (G x (or_introl eq_refl)). destruct x; try reflexivity. subst. destruct (Nat.eqb_spec t t'); [congruence|reflexivity].
Qed.

Lemma sends_fresh h t : length (calls h) <= t -> sends_by h t = [].
Proof.
  induction h as [|h c IH|h u w IH N F T|h u w p s' p' e IH N R F T] using hist_ind; intros H.
  - reflexivity.
  - unfold sends_by. rewrite trace_call. apply IH. rewrite calls_call, app_length in H. cbn in H. lia.
  - unfold sends_by. rewrite T. apply IH. rewrite calls_run in H. exact H.
  - rewrite calls_run in H. unfold sends_by. rewrite T, flat_map_app. change (flat_map _ (trace h)) with (sends_by h t). rewrite (IH H).
    apply (sends_other _ _ _ _ _ _ _ _ t R). apply nth_lt in N. rewrite (i_len h (inv_final h)) in N. lia.
Qed.

Lemma sinv_quiet h t p c : SInv h -> nth_error (thr (final h)) t = Some p -> call_of h t = Some c -> reg_call c = true -> p <> PDone ->
  quiet h t /\ forall o, o <> 0 -> G o c p (map e_id (gl (sh (final h)) o)) (subs h o).
Proof.
  intros [(u & q & c' & A & B & Q & D & U & IH)|[A IH]] N C R P.
  - destruct (Nat.eq_dec u t) as [->|].
    + rewrite A in N. injection N as <-. rewrite B in C. injection C as <-. auto.
    + exfalso. apply P. eapply U; eauto.
  - exfalso. apply P. eapply A; eauto.
Qed.

Lemma svc_neutral w al s t p s' p' e c a : fits c p -> run1 w al s t p = (s', p', e) -> reg_call c = false -> svc_of e a = a.
Proof.
  intros F R G. assert (H : forall x, In x e -> match x with EStatus _ _ => False | _ => True end).
  { intros x I. destruct x; try exact Logic.I. destruct (status_thread _ _ _ _ _ _ _ _ _ _ R I) as [_ (old & ->)]. cbn in F. subst c. discriminate. }
  clear R. unfold svc_of. revert a. induction e as [|x e IH]; intros a; [reflexivity|]. cbn.
  rewrite IH by (intros y I; apply H; right; exact I). specialize (H x (or_introl eq_refl)). destruct x; try reflexivity. contradiction.
Qed.

Lemma phase_gen (Q : pc -> list msg -> list N -> availability -> Prop) c o h1 :
  o <> 0 -> reg_call c = true -> Q (PStart c) [] (subs h1 o) (svc h1) ->
  (forall h t w al s p s' p' e L S, G o c p (map e_id (gl s o)) S -> fits c p -> run1 w al s t p = (s', p', e) ->
     call_of h t = Some c -> p <> PDone ->
     (forall rid, pc_id p = Some rid -> rid <> rid_invalid) ->
     Q p L S (status s) -> Q p' (L ++ sends_of t e) (fold_left (sub_ev h o) e S) (svc_of e (status s))) ->
  (forall L S a S' a', Q PDone L S a -> Q PDone L S' a') ->
  forall h2, serial reg_call (h1 ++ LCall c :: h2) ->
  exists p, nth_error (thr (final (h1 ++ LCall c :: h2))) (length (calls h1)) = Some p /\
    Q p (sends_by (h1 ++ LCall c :: h2) (length (calls h1))) (subs (h1 ++ LCall c :: h2) o) (svc (h1 ++ LCall c :: h2)).
Proof.
  intros Ho Rc Q0 Qs Qd h2. set (t := length (calls h1)).
  induction h2 as [|l h2 IH] using rev_ind; intros S.
  - exists (PStart c). split.
    + rewrite snoc_call. cbn [thr]. rewrite nth_snoc, (i_len h1 (inv_final h1)), Nat.eqb_refl. reflexivity.
    + rewrite subs_call. unfold svc. rewrite trace_call. unfold sends_by. rewrite trace_call.
      change (flat_map _ (trace h1)) with (sends_by h1 t). rewrite sends_fresh by (subst t; lia). exact Q0.
  - change (h1 ++ LCall c :: h2 ++ [l]) with (h1 ++ (LCall c :: h2) ++ [l]) in *. rewrite app_assoc in *.
    set (h := h1 ++ LCall c :: h2) in *. specialize (IH (serial_snoc _ _ _ S)). destruct IH as (p & N & IH).
    assert (Ct : call_of h t = Some c).
    { unfold h, t, call_of. rewrite calls_app, nth_error_app2 by lia. rewrite Nat.sub_diag. reflexivity. }
    assert (SI := serial_sinv h (serial_snoc _ _ _ S)).
    destruct l as [c'|u w].
    + exists p. split.
      * rewrite snoc_call. cbn [thr]. rewrite nth_error_app1; [exact N|eapply nth_lt; exact N].
      * rewrite subs_call. unfold svc, sends_by. rewrite trace_call. exact IH.
    + destruct (nth_error (thr (final h)) u) as [q|] eqn:Nu.
      2:{ assert (Tr : trace (h ++ [LRun u w]) = trace h ++ []) by (rewrite trace_snoc; cbn; rewrite Nu; reflexivity).
          exists p. split; [rewrite final_snoc; cbn; rewrite Nu; exact N|].
          rewrite (subs_snoc _ _ o [] Tr). unfold svc, sends_by. rewrite Tr, app_nil_r. exact IH. }
      destruct (run1 w (alive (final h) u) (sh (final h)) u q) as [[s' q'] e] eqn:R.
      assert (Tr : trace (h ++ [LRun u w]) = trace h ++ e) by (rewrite trace_snoc; cbn; rewrite Nu, R; reflexivity).
      assert (Fi : final (h ++ [LRun u w]) = St s' (set_nth u q' (thr (final h)))) by (rewrite final_snoc; cbn; rewrite Nu, R; reflexivity).
      destruct (i_fit h (inv_final h) _ _ Nu) as (cu & Cu & Fu).
      rewrite Fi, (subs_snoc _ _ o e Tr). cbn [thr]. rewrite (nth_set _ _ _ _ _ Nu).
      assert (Sv : svc (h ++ [LRun u w]) = svc_of e (svc h)) by (unfold svc, svc_of; rewrite Tr, fold_left_app; reflexivity).
      assert (Se : sends_by (h ++ [LRun u w]) t = sends_by h t ++ sends_of t e) by (unfold sends_by; rewrite Tr; apply flat_map_app).
      rewrite Sv, Se.
      destruct (match p with PDone => true | _ => false end) eqn:Dp.
      { destruct p; try discriminate. destruct (Nat.eqb_spec u t) as [->|Hu].
        - rewrite N in Nu. injection Nu as <-. cbn in R. injection R as <- <- <-. exists PDone. split; [reflexivity|].
          cbn. rewrite app_nil_r. exact IH.
        - exists PDone. split; [exact N|]. rewrite (sends_other _ _ _ _ _ _ _ _ t R) by congruence. rewrite app_nil_r. eapply Qd; exact IH. }
      assert (Pd : p <> PDone) by (intros ->; discriminate).
      destruct (sinv_quiet _ _ _ _ SI N Ct Rc Pd) as [Qt Gt].
      destruct (Nat.eqb_spec u t) as [->|Hu].
      * rewrite N in Nu. injection Nu as <-. rewrite Ct in Cu. injection Cu as <-. exists q'. split; [reflexivity|].
        rewrite <- (svc_status h) in IH |- *. eapply Qs; eauto.
        -- rewrite call_of_run. exact Ct.
        -- intros rid E. eapply id_valid. eapply (i_id h (inv_final h)); eauto.
      * exists p. split; [exact N|]. rewrite (sends_other _ _ _ _ _ _ _ _ t R) by congruence. rewrite app_nil_r.
        destruct (reg_call cu) eqn:Ru.
        -- assert (q = PDone) as -> by (eapply Qt; eauto). cbn in R. injection R as <- <- <-. exact IH.
        -- rewrite (sub_neutral (h ++ [LRun u w]) o cu _ _ _ _ _ _ _ _ _ ltac:(rewrite call_of_run; exact Cu) Fu R Ru).
           rewrite (svc_neutral _ _ _ _ _ _ _ _ _ _ Fu R Ru). exact IH.
Qed.

Lemma done_of_ret h t v : In (ERet t v) (trace h) -> nth_error (thr (final h)) t = Some PDone.
Proof. apply cnt_ret_of. Qed.

(** Registering: one Register message if nobody was subscribed, none otherwise. *)
Lemma reg_sends h1 h2 stt o hc : o <> 0 -> let h := h1 ++ LCall (CReg stt o hc) :: h2 in let t := length (calls h1) in
  serial reg_call h -> returned h t ->
  if hc && avail_eqb (svc h1) Available && (match subs h1 o with [] => true | _ => false end)
  then exists rid, sends_by h t = [Msg (if stt then StatusRegister else SignalRegister) o rid None 0]
  else sends_by h t = [].
Proof.
  intros Ho h t S (v & V).
  set (cond := hc && avail_eqb (svc h1) Available && (match subs h1 o with [] => true | _ => false end)).
  set (Q := fun p L (sb : list N) (a : availability) =>
    match p with
    | PStart _ => L = [] /\ sb = subs h1 o /\ a = svc h1
    | PRegAlloc _ _ | PRegStore _ _ _ => L = [] /\ sb = subs h1 o /\ hc = true /\ svc h1 = Available
    | PRegSend _ _ _ => L = [] /\ cond = true
    | PRegSent _ rid | PRegUndo _ rid _ => cond = true /\ L = [Msg (if stt then StatusRegister else SignalRegister) o rid None 0]
    | PRegCached _ _ | PRegCall _ _ _ => L = [] /\ cond = false
    | PDone => if cond then exists rid, L = [Msg (if stt then StatusRegister else SignalRegister) o rid None 0] else L = []
    | _ => False
    end).
  destruct (phase_gen Q (CReg stt o hc) o h1 Ho eq_refl) with (h2 := h2) as (p & N & H).
  - cbn. auto.
  - intros h' t' w al s p s' p' e L sb HG F R C P V' HQ. unfold Q in HQ. destruct p; try contradiction; cbn in F; try congruence;
      cbn in R.
    + subst c. destruct HQ as (-> & -> & Ha). unfold available in R. break_run; cbn in *; unfold cond; rewrite <- ?Ha; rewrite ?Heqa; cbn; auto; try discriminate.
      all: try (destruct (status s); try discriminate; cbn; rewrite ?andb_false_r; auto; reflexivity).
    + destruct HQ as (-> & -> & A & B). break_run; cbn; auto.
    + injection F as E1 E2 E3; subst st o0; clear E3. destruct HQ as (-> & -> & A & B). cbn in HG. assert (Ec : cond = match subs h1 o with [] => true | _ => false end) by (unfold cond; rewrite A, B; reflexivity).
      assert (X : get_or [] o (registers s) = gl s o) by reflexivity.
      rewrite X in R. assert (Y : length (gl s o ++ [Ent rid t' KUser]) = 1 + length (subs h1 o)).
      { rewrite app_length, <- (map_length e_id (gl s o)), HG. cbn. lia. }
      rewrite Y in R. clearbody cond. destruct (subs h1 o) as [|x l] eqn:Sx; cbn in R.
      * break_run. cbn; rewrite ?Ec; auto.
      * destruct stt; break_run; cbn; rewrite ?Ec; auto.
    + injection F as <- <- ->. destruct HQ as (-> & A). break_run. cbn. rewrite Nat.eqb_refl. auto.
    + destruct F as (? & F). injection F as <- <- ->. destruct HQ as (A & ->). break_run; cbn; auto. rewrite A. eauto.
    + destruct F as ((? & F) & _). injection F as <- <- ->. destruct HQ as (A & ->). break_run; cbn; auto. rewrite A. eauto.
    + destruct HQ as (-> & A). destruct (cached s o0) as [s1 [q|]]; break_run; cbn; auto. rewrite A. reflexivity.
    + destruct HQ as (-> & A). break_run; cbn; rewrite A; reflexivity.
  - cbn. auto.
  - exact S.
  - fold h in N. fold t in N. rewrite (done_of_ret _ _ _ V) in N. injection N as <-. exact H.
Qed.

(** Unregistering: one Unregister message if this leaves no subscriber and the service is available. *)
Lemma unreg_sends h1 h2 rid o : regid_ok rid o = true -> let h := h1 ++ LCall (CUnregister rid o) :: h2 in let t := length (calls h1) in
  serial reg_call h -> returned h t ->
  sends_by h t = if avail_eqb (svc h1) Available && (match rem rid (subs h1 o) with [] => true | _ => false end)
                 then [Msg Unregister o rid_invalid None 0] else [].
Proof.
  intros Ok h t S (v & V).
  assert (Ho : o <> 0) by (intros ->; unfold regid_ok in Ok; rewrite andb_false_r in Ok; discriminate).
  set (lst := match rem rid (subs h1 o) with [] => true | _ => false end).
  set (Q := fun p L (sb : list N) (a : availability) =>
    match p with
    | PStart _ | PUnregErase _ _ => L = [] /\ sb = subs h1 o /\ a = svc h1
    | PUnregUncache _ | PUnregCheck _ => L = [] /\ a = svc h1 /\ lst = true
    | PUnregSend _ => L = [] /\ svc h1 = Available /\ lst = true
    | PDone => L = if avail_eqb (svc h1) Available && lst then [Msg Unregister o rid_invalid None 0] else []
    | _ => False
    end).
  destruct (phase_gen Q (CUnregister rid o) o h1 Ho eq_refl) with (h2 := h2) as (p & N & H).
  - cbn. auto.
  - intros h' t' w al s p s' p' e L sb HG F R C P V' HQ. unfold Q in HQ. destruct p; try contradiction; cbn in F; try congruence;
      cbn in R.
    + subst c. rewrite Ok in R. break_run; cbn. destruct HQ as (-> & -> & ->). auto.
    + injection F as <- <-. destruct HQ as (-> & -> & Ha). cbn in HG. destruct HG as [HG _].
      assert (X : snd (remove_entry (registers s) o rid) = length (rem rid (subs h1 o))).
      { rewrite <- HG, <- map_remove, map_length. unfold remove_entry, gl, get_or. destruct (get o (registers s)) as [l|]; [|reflexivity].
        destruct (remove_id rid l); reflexivity. }
      destruct (remove_entry (registers s) o rid) as [m n]. cbn in X. subst n.
      destruct (rem rid (subs h1 o)) as [|x l] eqn:E; cbn in R; break_run; cbn; auto.
      unfold lst. rewrite ?andb_false_r. reflexivity.
    + destruct HQ as (-> & A & B). break_run. cbn. auto.
    + destruct HQ as (-> & A & B). unfold available in R. break_run; cbn; rewrite <- A.
      all: destruct (status s); try discriminate; cbn; rewrite ?B; auto.
    + destruct HQ as (-> & A & B). destruct F as (? & F). injection F as <- <-. break_run. cbn. rewrite Nat.eqb_refl, A, B. reflexivity.
  - cbn. auto.
  - exact S.
  - fold h in N. fold t in N. rewrite (done_of_ret _ _ _ V) in N. injection N as <-. exact H.
Qed.

Lemma uall_sends h1 h2 o : o <> 0 -> let h := h1 ++ LCall (CUnregisterAll o) :: h2 in let t := length (calls h1) in
  serial reg_call h -> returned h t ->
  sends_by h t = if avail_eqb (svc h1) Available then [Msg Unregister o rid_invalid None 0] else [].
Proof.
  intros Ho h t S (v & V).
  set (Q := fun p L (sb : list N) (a : availability) =>
    match p with
    | PStart _ => L = [] /\ a = svc h1
    | PUallErase _ | PUallSend _ => L = [] /\ svc h1 = Available
    | PUallUncache _ => L = [Msg Unregister o rid_invalid None 0] /\ svc h1 = Available
    | PDone => L = if avail_eqb (svc h1) Available then [Msg Unregister o rid_invalid None 0] else []
    | _ => False
    end).
  destruct (phase_gen Q (CUnregisterAll o) o h1 Ho eq_refl) with (h2 := h2) as (p & N & H).
  - cbn. auto.
  - intros h' t' w al s p s' p' e L sb HG F R C P V' HQ. unfold Q in HQ. destruct p; try contradiction; cbn in F; try congruence;
      cbn in R.
    + subst c. destruct HQ as (-> & A). unfold available in R. break_run; cbn; rewrite <- A; destruct (status s); try discriminate; auto.
    + destruct HQ as (-> & A). break_run. cbn. auto.
    + injection F as <-. destruct HQ as (-> & A). break_run. cbn. rewrite Nat.eqb_refl. auto.
    + destruct HQ as (-> & A). break_run. cbn. rewrite A. reflexivity.
  - cbn. auto.
  - exact S.
  - fold h in N. fold t in N. rewrite (done_of_ret _ _ _ V) in N. injection N as <-. exact H.
Qed.
