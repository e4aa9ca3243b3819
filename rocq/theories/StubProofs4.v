(** Stub: what a handle does, given the request message it was made for. *)
From Verif Require Import CsTypes ListUtil ProvModel ProvSpec ProvProofs ProvProofs2 ProvProofs3 StubModel StubSpec StubProofs StubProofs2 StubProofs3.

Lemma sfinal_app_cell h1 h2 r q : cell (sp (sfinal h1)) r = Some q ->
  exists q', cell (sp (sfinal (h1 ++ h2))) r = Some q' /\ qkey q' = qkey q /\ q_src q' = q_src q.
Proof.
  induction h2 as [|[e x] h2 IH] using rev_ind; intros C; [rewrite app_nil_r; eauto|]. destruct (IH C) as (q1 & C1 & K1 & S1).
  rewrite app_assoc, sfinal_snoc. pose proof (sstep_prov e (sfinal (h1 ++ h2)) x) as P. destruct (under_exists (h1 ++ h2)) as (l & U1 & _).
  destruct (sstep e (sfinal (h1 ++ h2)) x) as [s' ev]. cbn [fst]. destruct P as [(P1 & _)|(y & P1 & _)].
  - exists q1. rewrite P1. auto.
  - rewrite P1. destruct (step (e_net e) (sp (sfinal (h1 ++ h2))) y) as [p' ev'] eqn:E.
    assert (I : Inv (sp (sfinal (h1 ++ h2)))) by (rewrite U1; apply final_inv).
    destruct (step_heap _ _ _ _ _ I E) as (HK & _ & _). destruct (HK r q1 C1) as (q' & C' & (K' & S') & _).
    exists q'. split; [exact C'|split; congruence].
Qed.

Lemma arrival_cell h1 e m c r : m_code m = OpRequest -> In (PEv (EHandler c r)) (snext h1 e (SProv (OIn m))) ->
  cell (sp (sfinal (h1 ++ [(e, SProv (OIn m))]))) r = Some (Rq (m_src m) (m_op m) (m_rid m) (m_pay m) true None).
Proof.
  intros Hm J. apply pev_in in J. unfold snext in J. cbn [sstep forwarded] in J. pose proof (call_called e (sfinal h1) (OIn m)) as C.
  rewrite (ca_ev _ _ _ _ _ C) in J. rewrite sfinal_snoc. cbn [sstep forwarded]. rewrite (ca_sp _ _ _ _ _ C). clear C.
  destruct (under_exists h1) as (l & U1 & _). rewrite U1 in *. pose proof (request_lemma l (e_net e) m Hm) as R.
  destruct (handler_after l (m_op m)) as [f|].
  - destruct R as (r0 & R1 & _ & R3). unfold next in R1. rewrite R1 in J. destruct J as [J|[J|[]]]; [|discriminate]. inversion J; subst.
    rewrite final_snoc in R3. exact R3.
  - destruct R as (R1 & _). unfold next in R1. rewrite R1 in J. destruct J as [J|[J|[]]]; discriminate.
Qed.

Lemma origin_cell h1 e m h2 c r : m_code m = OpRequest -> In (PEv (EHandler c r)) (snext h1 e (SProv (OIn m))) ->
  exists q, cell (sp (sfinal (h1 ++ (e, SProv (OIn m)) :: h2))) r = Some q /\ q_src q = m_src m /\ q_op q = m_op m /\ q_rid q = m_rid m.
Proof.
  intros Hm J. pose proof (arrival_cell h1 e m c r Hm J) as C. destruct (sfinal_app_cell _ h2 r _ C) as (q & C' & K & S).
  rewrite <- app_assoc in C'. exists q. split; [exact C'|]. unfold qkey in K. inversion K. auto.
Qed.

(** A reply through the provider. *)
Lemma call_reply h s e r p b q : sp s = sp (sfinal h) -> cell (sp s) r = Some q ->
  snd (call e s (OReply r p b)) =
    if q_valid q then
      [PEv (ESend (q_src q) (Msg (if b then PartialRequestUpdate else OpRequest) (q_op q) (q_rid q) p (q_src q)) (first (e_net e) (q_src q)));
       PEv (EReturn (RStatus (first (e_net e) (q_src q))))]
    else [PEv (EReturn (RStatus InvalidCall))].
Proof.
  intros S C. destruct (under_exists h) as (l & U1 & _). rewrite S, U1 in C. unfold call. rewrite S, U1.
  destruct (q_valid q) eqn:V.
  - pose proof (reply_open l r q (e_net e) p b C V) as R. unfold next in R. destruct (step (e_net e) (final l) _) as [p' ev]. cbn in R. subst ev. reflexivity.
  - pose proof (reply_closed l r q (e_net e) p b C V) as R. unfold next in R. destruct (step (e_net e) (final l) _) as [p' ev]. cbn in R. subst ev. reflexivity.
Qed.

Section Handle.
Context (h1 : shistory) (e0 : env) (m : msg) (h2 : shistory) (c r k : nat).
Let h := h1 ++ (e0, SProv (OIn m)) :: h2.
Hypothesis Hm : m_code m = OpRequest.
Hypothesis HC : In (PEv (EHandler c r)) (snext h1 e0 (SProv (OIn m))).
Hypothesis HK : nth_error (handles (sfinal h)) k = Some (Some (Some r)).

Definition reply_of (e : env) (b : bool) (p : option payload) : list sevent :=
  [PEv (ESend (m_src m) (Msg (if b then PartialRequestUpdate else OpRequest) (m_op m) (m_rid m) p (m_src m)) (first (e_net e) (m_src m)));
   PEv (EReturn (RStatus (first (e_net e) (m_src m))))].
Definition refused : list sevent := [PEv (EReturn (RStatus InvalidCall))].

Lemma handle_lemma e : exists v, snext h e (HValid k) = [SRet v] /\
  snext h e (HDestroy k) = (if v then reply_of e false (Some (Err EResponseIgnored)) else []) ++ [SDestroyed k r] /\
  (forall p, snext h e (HRespond k p) = if v then reply_of e false p else refused) /\
  (forall p, snext h e (HUpdate k p) = if v then reply_of e true p else refused) /\
  (forall x, snext h e (HError k x) = if v then reply_of e false (Some (Err x)) else refused).
Proof.
  destruct (origin_cell h1 e0 m h2 c r Hm HC) as (q & C & Q1 & Q2 & Q3). fold h in C.
  assert (V : valid (sfinal h) r = q_valid q) by (apply cell_valid; exact C).
  assert (R : forall s p b, sp s = sp (sfinal h) -> snd (call e s (OReply r p b)) = if q_valid q then reply_of e b p else refused).
  { intros s p b S. rewrite (call_reply h s e r p b q S) by (rewrite S; exact C). rewrite Q1, Q2, Q3. reflexivity. }
  exists (q_valid q). unfold snext. cbn [sstep]. unfold through. rewrite HK. split; [rewrite V; reflexivity|].
  split; [|split; [|split]; intros; apply R; reflexivity].
  unfold destroy_handle. replace (valid (set_handles (sfinal h) (set_nth k None (handles (sfinal h)))) r) with (q_valid q) by (symmetry; exact V).
  destruct (q_valid q); [|reflexivity].
  pose proof (R (set_handles (sfinal h) (set_nth k None (handles (sfinal h)))) (Some (Err EResponseIgnored)) false eq_refl) as R1.
  destruct (call e (set_handles (sfinal h) (set_nth k None (handles (sfinal h)))) (OReply r (Some (Err EResponseIgnored)) false)) as [s1 l].
  cbn [snd] in *. rewrite R1. reflexivity.
Qed.
End Handle.

(** A handle that is still valid has not been answered. *)
Lemma valid_unanswered h r q : NoDup (received h) -> cell (sp (sfinal h)) r = Some q -> valid (sfinal h) r = true -> final_answers (qkey q) h = 0.
Proof.
  intros ND C V. destruct (under_exists h) as (l & U). pose proof U as (U1 & U2 & _). unfold final_answers. rewrite U2.
  rewrite (under_received h l U) in ND. rewrite (cell_valid _ r q C) in V. rewrite U1 in C.
  pose proof (count_inv l (qkey q)) as CI. unfold requests_for in CI. pose proof (nodup_count (qkey q) _ ND) as N.
  assert (P : 1 <= pend (final l) (qkey q)).
  { pose proof (inv_valid _ (final_inv l) r q C V) as I. unfold pend. apply cnt_pos with (x := r); [exact I|]. unfold cell_has. rewrite C.
    destruct (key_eqb_spec (qkey q) (qkey q)); congruence. }
  lia.
Qed.

(** Moving a handle. *)
Lemma move_lemma h e k r : nth_error (handles (sfinal h)) k = Some (Some (Some r)) ->
  let h' := h ++ [(e, HMove k)] in
  snext h e (HMove k) = [] /\ nth_error (handles (sfinal h')) k = Some (Some None) /\
  nth_error (handles (sfinal h')) (length (handles (sfinal h))) = Some (Some (Some r)) /\ sp (sfinal h') = sp (sfinal h).
Proof.
  intros H h'. unfold h'. rewrite sfinal_snoc. unfold snext. cbn [sstep]. rewrite H. cbn. split; [reflexivity|].
  pose proof (nth_lt _ _ _ H) as L. split; [|split; [|reflexivity]].
  - rewrite nth_error_app1 by (rewrite length_set_nth; exact L). apply nth_set_same. exact L.
  - unfold handle in *. rewrite nth_error_app2 by (rewrite length_set_nth; lia). rewrite length_set_nth, Nat.sub_diag. reflexivity.
Qed.
