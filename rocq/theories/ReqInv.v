(** The main invariant of the requester: who owns which entry, which callback an arriving message may run. *)
From Verif Require Import ReqModel ReqSpec ReqProofs.
From Coq Require Import NArith.

Lemma snoc_call h c : final (h ++ [LCall c]) = St (sh (final h)) (thr (final h) ++ [PStart c]).
Proof. rewrite final_snoc. reflexivity. Qed.
Lemma trace_call h c : trace (h ++ [LCall c]) = trace h.
Proof. rewrite trace_snoc. apply app_nil_r. Qed.
Lemma calls_call h c : calls (h ++ [LCall c]) = calls h ++ [c].
Proof. apply calls_app. Qed.
Lemma calls_run h t w : calls (h ++ [LRun t w]) = calls h.
Proof. rewrite calls_app. apply app_nil_r. Qed.
Lemma call_of_call h c t : call_of (h ++ [LCall c]) t = if Nat.eqb t (length (calls h)) then Some c else call_of h t.
Proof. unfold call_of. rewrite calls_call. apply nth_snoc. Qed.
Lemma call_of_run h t w t' : call_of (h ++ [LRun t w]) t' = call_of h t'.
Proof. unfold call_of. rewrite calls_run. reflexivity. Qed.

Lemma hist_ind (P : history -> Prop) :
  P [] ->
  (forall h c, P h -> P (h ++ [LCall c])) ->
  (forall h t w, P h -> nth_error (thr (final h)) t = None ->
     final (h ++ [LRun t w]) = final h -> trace (h ++ [LRun t w]) = trace h -> P (h ++ [LRun t w])) ->
  (forall h t w p s' p' e, P h -> nth_error (thr (final h)) t = Some p ->
     run1 w (alive (final h) t) (sh (final h)) t p = (s', p', e) ->
     final (h ++ [LRun t w]) = St s' (set_nth t p' (thr (final h))) ->
     trace (h ++ [LRun t w]) = trace h ++ e -> P (h ++ [LRun t w])) ->
  forall h, P h.
Proof.
  intros H0 Hc Hi Hr h. induction h as [|[c|t w] h IH] using rev_ind; [exact H0|apply Hc; exact IH|].
  destruct (nth_error (thr (final h)) t) as [p|] eqn:N.
  - destruct (run1 w (alive (final h) t) (sh (final h)) t p) as [[s' p'] e] eqn:R.
    apply (Hr h t w p s' p' e IH N R).
    + rewrite final_snoc. cbn. rewrite N, R. reflexivity.
    + rewrite trace_snoc. cbn. rewrite N, R. reflexivity.
  - apply (Hi h t w IH N).
    + rewrite final_snoc. cbn. rewrite N. reflexivity.
    + rewrite trace_snoc. cbn. rewrite N. apply app_nil_r.
Qed.

Definition ent_ok (h : history) (o : nat) (e : entry) : Prop :=
  (exists c code pl b, call_of h (e_owner e) = Some c /\ req_like c code o pl (e_kind e) b) /\
  In (EAlloc (e_owner e) (e_id e)) (trace h).
Definition reg_ok (h : history) (o : nat) (e : entry) : Prop :=
  (exists stt, call_of h (e_owner e) = Some (CReg stt o true)) /\ e_kind e = KUser /\
  In (EAlloc (e_owner e) (e_id e)) (trace h).
Definition run_ok (h : history) (m : msg) (e : entry) : Prop :=
  if answer_code (m_code m) then ent_ok h (m_op m) e /\ e_id e = m_rid m else reg_ok h (m_op m) e.
Definition cb_ok (h : history) (t owner : nat) (p : option payload) : Prop :=
  (exists m e, call_of h t = Some (CIncoming true m) /\ p = m_pay m /\ e_owner e = owner /\ e_kind e <> KNull /\
     run_ok h m e) \/
  (t = owner /\ exists o, call_of h t = Some (CReg true o true) \/ call_of h t = Some (CGetAsync o)).

(** The id a running call holds. *)
Definition pc_id (p : pc) : option N :=
  match p with
  | PStore _ _ _ _ _ rid | PSend _ _ _ _ _ rid | PSent _ _ _ _ rid | PUndo _ _ _ rid _ | PWait _ rid _ | PExpErase _ rid | PExpSend _ rid
  | PRegStore _ _ rid | PRegSend _ _ rid | PRegSent _ rid | PRegUndo _ rid _ | PRegCached _ rid | PRegCall _ rid _ => Some rid
  | _ => None
  end.

Record Inv (h : history) : Prop := MkInv
  { i_len : length (thr (final h)) = length (calls h);
    i_fit : forall t p, nth_error (thr (final h)) t = Some p -> exists c, call_of h t = Some c /\ fits c p;
    i_id : forall t p rid, nth_error (thr (final h)) t = Some p -> pc_id p = Some rid -> In (EAlloc t rid) (trace h);
    i_req : forall o e, In e (rl (sh (final h)) o) -> ent_ok h o e;
    i_reg : forall o e, In e (gl (sh (final h)) o) -> reg_ok h o e;
    i_run : forall t m l k e, nth_error (thr (final h)) t = Some (PInRun m l k) -> In e l -> run_ok h m e;
    i_cb : forall t owner p, In (ECb t owner p) (trace h) -> cb_ok h t owner p }.

(** Monotonicity *)
Definition ext (h h' : history) : Prop :=
  (forall t c, call_of h t = Some c -> call_of h' t = Some c) /\ (forall e, In e (trace h) -> In e (trace h')).
Lemma ext_ent h h' o e : ext h h' -> ent_ok h o e -> ent_ok h' o e.
Proof. intros [X Y] [(c & code & pl & b & A & B) C]. split; [|auto]. exists c, code, pl, b. auto. Qed.
Lemma ext_reg h h' o e : ext h h' -> reg_ok h o e -> reg_ok h' o e.
Proof. intros [X Y] [(stt & A) [B C]]. split; [|split; auto]. exists stt. auto. Qed.
Lemma ext_run h h' m e : ext h h' -> run_ok h m e -> run_ok h' m e.
Proof.
  intros X. unfold run_ok. destruct (answer_code (m_code m)); [intros [A B]; split; [eapply ext_ent; eauto|exact B]|].
  apply ext_reg. exact X.
Qed.
Lemma ext_cb h h' t owner p : ext h h' -> cb_ok h t owner p -> cb_ok h' t owner p.
Proof.
  intros X [(m & e & A & B & C & D & E)|[A (o & B)]].
  - left. exists m, e. repeat split; auto; [apply X; exact A|eapply ext_run; eauto].
  - right. split; [exact A|]. exists o. destruct B as [B|B]; [left|right]; apply X; exact B.
Qed.
Lemma ext_app h h' : ext h (h ++ h').
Proof. split; [intros t c; apply call_of_app|intros e; apply in_trace_app]. Qed.

Lemma teff_in f f' x o e : teff f f' x -> In e (f' o) -> In e (f o) \/ x = TStore o e.
Proof.
  assert (Rm : forall rid l, In e (remove_id rid l) -> In e l).
  { intros rid l. induction l as [|a l IH]; cbn; [tauto|]. destruct (N.eqb (e_id a) rid); cbn; [auto|]. intros [->|H]; auto. }
  destruct x; cbn; intros H I; rewrite H in I.
  - auto.
  - destruct (Nat.eqb_spec o o0); [|auto]. subst. apply in_app_iff in I as [I|[<-|[]]]; auto.
  - destruct (Nat.eqb_spec o o0); [|auto]. subst. left. eapply Rm. exact I.
  - destruct (Nat.eqb_spec o o0); [|auto]. destruct I.
  - destruct I.
Qed.

Lemma find_id_some rid l e : find_id rid l = Some e -> In e l /\ e_id e = rid.
Proof. intros H. apply find_some in H as [H E]. apply N.eqb_eq in E. auto. Qed.

(** What a step by call [t] at [p] may put at its place. *)
Lemma run1_id w al s t p s' p' e rid : run1 w al s t p = (s', p', e) -> pc_id p' = Some rid ->
  pc_id p = Some rid \/ In (EAlloc t rid) e.
Proof.
  intros R H. destruct p; cbn in R; break_run; cbn in H |- *; try discriminate; auto;
    try (injection H as <-; auto).
  destruct new; discriminate.
Qed.

Lemma run1_inrun w al s t p s' p' m l k e x : run1 w al s t p = (s', p', e) -> p' = PInRun m l k -> In x l ->
  (exists l0 k0, p = PInRun m l0 k0 /\ In x l0) \/
  (p = PInTake m /\ (if answer_code (m_code m) then In x (rl s (m_op m)) /\ e_id x = m_rid m
                     else In x (gl s (m_op m)) \/ In x (rl s (m_op m)) /\ m_code m <> SignalRegister /\ m_code m <> StatusRegister)).
Proof.
  intros R P H. destruct p; cbn in R; try (break_run; discriminate).
  - right.
    pose proof (take_request_found (requests s) (m_op m0) (m_rid m0) (is_partial (m_code m0))) as L.
    destruct (take_request (requests s) (m_op m0) (m_rid m0) (is_partial (m_code m0))) as [r q] eqn:T. cbn in L. subst q.
    assert (Z : forall q, In x match find_id (m_rid m0) (get_or [] (m_op m0) (requests s)) with Some z => [z] | None => [] end ->
                 q = m0 -> In x (rl s (m_op m0)) /\ e_id x = m_rid m0).
    { intros q J _. destruct (find_id (m_rid m0) (get_or [] (m_op m0) (requests s))) as [z|] eqn:Fz; [|destruct J].
      destruct J as [<-|[]]. exact (find_id_some _ _ _ Fz). }
    destruct (m_code m0) eqn:M; injection R as <- <- <-; injection P as <- <- <-; rewrite ?M; cbn; (split; [reflexivity|]);
      try (left; exact H); try (exact (Z _ H eq_refl)); right; (split; [apply (Z _ H eq_refl)|split; congruence]).
  - left. destruct todo as [|y todo]; [break_run; discriminate|].
    destruct (e_kind y); break_run; try discriminate; injection P as <- <- <-; eexists; eexists; (split; [reflexivity|right; assumption]).
  - break_run; destruct new; discriminate.
Qed.

Lemma run1_cb w al s t p s' p' e t' owner q c : fits c p -> run1 w al s t p = (s', p', e) -> In (ECb t' owner q) e ->
  t' = t /\
  ((exists m x l k, p = PInRun m (x :: l) k /\ q = m_pay m /\ e_owner x = owner /\ e_kind x <> KNull) \/
   (owner = t /\ exists o, c = CReg true o true \/ c = CGetAsync o)).
Proof.
  intros F R H. destruct p; cbn in R; try solve [break_run; cbn in H; intuition discriminate].
  all: cbn in F.
  - break_run. cbn in H. destruct H as [H|[H|[]]]; [|discriminate]. injection H as <- <- <-. split; [reflexivity|].
    right. eauto.
  - break_run. cbn in H. destruct H as [H|[H|[]]]; [|discriminate]. injection H as <- <- <-. split; [reflexivity|].
    right. destruct F as [o ->]. eauto.
  - destruct todo as [|y todo]; [break_run; cbn in H; intuition discriminate|].
    destruct (e_kind y) eqn:K; break_run; cbn in H; try contradiction; try (intuition discriminate);
      destruct H as [H|[]]; injection H as <- <- <-; (split; [reflexivity|]); left; do 4 eexists; repeat split; rewrite K; discriminate.
  - break_run. apply in_app_iff in H as [H|[H|[]]]; [|discriminate]. apply in_map_iff in H as (? & ? & _). discriminate.
Qed.

Lemma inv_new : Inv [].
Proof.
  split; cbn; try tauto.
  - intros [|t] p H; discriminate.
  - intros [|t] p rid H; discriminate.
  - intros [|t] m l k e H; discriminate.
Qed.

Lemma inv_final h : Inv h.
Proof.
  induction h as [|h c IH|h t w IH N F T|h t w p s' p' e IH N R F T] using hist_ind; [exact inv_new| | |].
  - assert (X : ext h (h ++ [LCall c])) by apply ext_app.
    destruct IH as [I1 I2 I3 I4 I5 I6 I7].
    split; rewrite ?snoc_call, ?trace_call; cbn [sh thr].
    + rewrite app_length, calls_call, app_length, I1. reflexivity.
    + intros t p H. rewrite nth_snoc in H. rewrite call_of_call, <- I1.
      destruct (Nat.eqb_spec t (length (thr (final h)))); [injection H as <-; exists c; cbn; auto|]. apply I2. exact H.
    + intros t p rid H J. rewrite nth_snoc in H. destruct (Nat.eqb t _); [injection H as <-; discriminate|]. eapply I3; eauto.
    + intros o e H. eapply ext_ent; eauto.
    + intros o e H. eapply ext_reg; eauto.
    + intros t m l k e H J. rewrite nth_snoc in H. destruct (Nat.eqb t _); [discriminate|]. eapply ext_run; eauto.
    + intros t o p H. eapply ext_cb; eauto.
  - assert (X : ext h (h ++ [LRun t w])) by apply ext_app.
    destruct IH as [I1 I2 I3 I4 I5 I6 I7].
    split; rewrite ?F, ?T, ?calls_run; auto.
    + intros t' p H. rewrite call_of_run. auto.
    + intros o e H. eapply ext_ent; eauto.
    + intros o e H. eapply ext_reg; eauto.
    + intros t' m l k e H J. eapply ext_run; eauto.
    + intros t' o p H. eapply ext_cb; eauto.
  - assert (X : ext h (h ++ [LRun t w])) by apply ext_app.
    destruct IH as [I1 I2 I3 I4 I5 I6 I7].
    destruct (I2 _ _ N) as (c & C & Fc).
    assert (Al : forall rid, pc_id p' = Some rid -> In (EAlloc t rid) (trace h ++ e)).
    { intros rid Hr. apply in_or_app. destruct (run1_id _ _ _ _ _ _ _ _ _ R Hr) as [Y|Y]; [left; eapply I3; eauto|auto]. }
    assert (Ent_ok : forall o x, In x (rl s' o) -> ent_ok (h ++ [LRun t w]) o x).
    { intros o x H. pose proof (run1_requests _ _ _ _ _ _ _ _ _ Fc R) as E.
      destruct (teff_in _ _ _ _ _ E H) as [Y|Y]; [eapply ext_ent; eauto|].
      destruct p; cbn in Y; try discriminate.
      - destruct c0; discriminate.
      - injection Y as <- <-. split; cbn [e_owner e_id e_kind].
        + exists c, code, p, b. split; [rewrite call_of_run; exact C|exact Fc].
        + apply in_trace_app. eapply I3; [exact N|reflexivity].
      - destruct (final_code (m_code m)); discriminate. }
    assert (Reg_ok : forall o x, In x (gl s' o) -> reg_ok (h ++ [LRun t w]) o x).
    { intros o x H. pose proof (run1_registers _ _ _ _ _ _ _ _ R) as E.
      destruct (teff_in _ _ _ _ _ E H) as [Y|Y]; [eapply ext_reg; eauto|].
      destruct p; cbn in Y; try discriminate.
      injection Y as <- <-. split; [|split; [reflexivity|]]; cbn [e_owner e_id e_kind].
      + exists st. rewrite call_of_run, C, Fc. reflexivity.
      + apply in_trace_app. eapply I3; [exact N|reflexivity]. }
    split; rewrite ?F, ?T, ?calls_run; cbn [sh thr]; auto.
    + rewrite length_set_nth. exact I1.
    + intros t' q H. rewrite (nth_set _ _ _ _ _ N) in H. rewrite call_of_run.
      destruct (Nat.eqb_spec t t'); [|auto]. injection H as <-. subst. exists c. split; [exact C|].
      eapply fits_step; eauto.
    + intros t' q rid H J. rewrite (nth_set _ _ _ _ _ N) in H.
      destruct (Nat.eqb_spec t t'); [injection H as <-; subst; auto|]. apply in_or_app. left. eauto.
    + intros t' m l k x H J. rewrite (nth_set _ _ _ _ _ N) in H.
      destruct (Nat.eqb_spec t t'); [|eapply ext_run; eauto]. injection H as ->. subst t'.
      destruct (run1_inrun _ _ _ _ _ _ _ _ _ _ _ _ R eq_refl J) as [(l0 & k0 & -> & Y)|[-> Y]].
      * eapply ext_run; [exact X|]. eapply I6; eauto.
      * cbn in Fc. destruct Fc as [-> Fc]. unfold run_ok.
        destruct (answer_code (m_code m)) eqn:A.
        { destruct Y as [Y1 Y2]. split; [|exact Y2]. eapply ext_ent; [exact X|]. apply I4. exact Y1. }
        { destruct Y as [Y|(Y & Z1 & Z2)]; [eapply ext_reg; [exact X|apply I5; exact Y]|].
          destruct Fc as [Fc|[Fc|Fc]]; congruence. }
    + intros t' owner q H. apply in_app_iff in H as [H|H]; [eapply ext_cb; eauto|].
      destruct (run1_cb _ _ _ _ _ _ _ _ _ _ _ _ Fc R H) as [-> [(m & x & l & k & -> & -> & <- & K)|[-> (o & Y)]]].
      * left. exists m, x. rewrite call_of_run. cbn in Fc. subst c. repeat split; auto.
        eapply ext_run; [exact X|]. eapply I6; [exact N|left; reflexivity].
      * right. split; [reflexivity|]. exists o. rewrite call_of_run, C. destruct Y as [->| ->]; auto.
Qed.
