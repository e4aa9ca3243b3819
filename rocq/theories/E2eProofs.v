(** Lemmas for the end to end theorems. *)
From Verif Require Import CsTypes ListUtil E2eSpec.
From Verif Require ReqModel ReqSpec ReqProofs ReqInv ReqIds ReqProps ProvModel ProvSpec ProvProofs ProvProofs3.
From Coq Require Import NArith.

(** ** Requester: who sent what *)
Section Requester.
Import ReqModel ReqSpec ReqProofs ReqInv.
Definition sent_ok (h : history) (t : nat) (m : msg) : Prop :=
  final_code (m_code m) = true ->
  In (EAlloc t (m_rid m)) (trace h) /\ exists c k b, call_of h t = Some c /\ req_like c (m_code m) (m_op m) (m_pay m) k b.

Lemma run1_send w al s t p s' p' e t' m : run1 w al s t p = (s', p', e) -> In (ESend t' m) e -> final_code (m_code m) = true ->
  t' = t /\ exists k b, p = PSend (m_code m) (m_op m) (m_pay m) k b (m_rid m).
Proof.
  intros R H F. destruct p; cbn in R; try solve [break_run; cbn in H; intuition discriminate].
  all: try solve [break_run; cbn in H; repeat destruct H as [H|H]; try contradiction; try discriminate; injection H as <- <-; cbn in F; try destruct st; discriminate].
  - injection R as <- <- <-. destruct H as [H|[]]. injection H as <- <-. split; [reflexivity|]. eauto.
  - break_run. apply in_app_iff in H as [H|[H|[]]]; [|discriminate]. apply in_map_iff in H as (? & ? & _). discriminate.
Qed.

Lemma sent_lemma h t m : In (ESend t m) (trace h) -> sent_ok h t m.
Proof.
  revert t m. apply (hist_ind (fun h => forall t m, In (ESend t m) (trace h) -> sent_ok h t m)).
  - intros t m [].
  - intros h' c IH t m I F. rewrite trace_call in I. destruct (IH t m I F) as (A & c' & k & b & C & L).
    split; [rewrite trace_call; exact A|]. exists c', k, b. split; [|exact L].
    destruct (ext_app h' [LCall c]) as [X _]. apply X. exact C.
  - intros h' t0 w IH N F0 T t m I F. rewrite T in I. destruct (IH t m I F) as (A & c' & k & b & C & L).
    split; [rewrite T; exact A|]. exists c', k, b. split; [|exact L]. rewrite call_of_run. exact C.
  - intros h' t0 w p s' p' e IH N R F0 T t m I F. rewrite T in I. apply in_app_iff in I as [I|I].
    + destruct (IH t m I F) as (A & c' & k & b & C & L). split; [rewrite T; apply in_or_app; left; exact A|].
      exists c', k, b. split; [|exact L]. rewrite call_of_run. exact C.
    + destruct (run1_send _ _ _ _ _ _ _ _ _ _ R I F) as (-> & k & b & ->).
      pose proof (inv_final h') as V. destruct (i_fit h' V _ _ N) as (c & C & L). cbn in L.
      split; [rewrite T; apply in_or_app; left; exact (i_id h' V _ _ _ N eq_refl)|].
      exists c, k, b. rewrite call_of_run. auto.
Qed.
End Requester.

(** ** Provider: where a message to a client comes from *)
Section Provider.
Import ProvModel ProvSpec ProvProofs.

Lemma in_trace_split h e : In e (trace h) -> exists h1 n x h2, h = h1 ++ (n, x) :: h2 /\ In e (next h1 n x).
Proof.
  induction h as [|[n x] h IH] using rev_ind; [intros []|]. rewrite trace_snoc. intros I. apply in_app_iff in I as [I|I].
  - destruct (IH I) as (h1 & n1 & x1 & h2 & -> & J). exists h1, n1, x1, (h2 ++ [(n, x)]). rewrite <- app_assoc. auto.
  - exists h, n, x, []. auto.
Qed.

Definition born (h : history) (r : nat) (q : request) : Prop :=
  exists h0 n m h1 f, h = h0 ++ (n, OIn m) :: h1 /\ m_code m = OpRequest /\ q_src q = m_src m /\ q_op q = m_op m /\
    q_rid q = m_rid m /\ q_input q = m_pay m /\ In (EHandler f r) (next h0 n (OIn m)).
Lemma born_app h r q x : born h r q -> born (h ++ [x]) r q.
Proof.
  intros (h0 & n & m & h1 & f & -> & B). exists h0, n, m, (h1 ++ [x]), f. split; [rewrite <- app_assoc; reflexivity|exact B].
Qed.
Definition same_q (q q' : request) : Prop := q_src q' = q_src q /\ q_op q' = q_op q /\ q_rid q' = q_rid q /\ q_input q' = q_input q.
Lemma born_same h r q q' : same_q q q' -> born h r q -> born h r q'.
Proof.
  intros (A & B & C & D) (h0 & n & m & h1 & f & E & F & G & H & I & J & K). exists h0, n, m, h1, f.
  rewrite A, B, C, D. repeat (apply conj; [assumption|]). exact K.
Qed.

Lemma upd_cell (l : list request) i f r q : (forall q, same_q q (f q)) -> nth_error (upd i f l) r = Some q ->
  exists q0, nth_error l r = Some q0 /\ same_q q0 q.
Proof.
  intros F. rewrite nth_upd. destruct (Nat.eqb i r).
  - destruct (nth_error l r) as [q0|]; [|discriminate]. cbn. intros [= <-]. exists q0. auto.
  - intros H. exists q. split; [exact H|]. repeat split.
Qed.
Lemma inv_same q : same_q q (invalidate_q q).
Proof. repeat split. Qed.

Lemma invalidate_all_cells l : forall s ev r q,
  cell (fst (fold_left (fun '(s, ev) r => let s' := invalidate s r in (s', ev ++ abort_event s' r)) l (s, ev))) r = Some q ->
  exists q0, cell s r = Some q0 /\ same_q q0 q.
Proof.
  induction l as [|i l IH]; intros s ev r q H; [exists q; split; [exact H|repeat split]|].
  cbn [fold_left] in H. destruct (IH _ _ _ _ H) as (q1 & C & S). unfold cell, invalidate in C. cbn in C.
  destruct (upd_cell _ _ _ _ _ inv_same C) as (q0 & C0 & S0). exists q0. split; [exact C0|].
  destruct S as (? & ? & ? & ?), S0 as (? & ? & ? & ?). repeat split; congruence.
Qed.
Lemma deinit_cells s s' ev r q : deinit s = (s', ev) -> cell s' r = Some q -> exists q0, cell s r = Some q0 /\ same_q q0 q.
Proof.
  unfold deinit, invalidate_all. intros D C.
  pose proof (invalidate_all_cells (flat_map snd (reqs (set_regs s []))) (set_regs s []) [] r q) as X.
  destruct (fold_left _ _ _) as [s1 ev1]. injection D as <- <-. exact (X C).
Qed.

Lemma born_lemma h r q : cell (final h) r = Some q -> born h r q.
Proof.
  revert r q. induction h as [|[n x] h IH] using rev_ind; intros r q C; [destruct r; discriminate|].
  pose proof (final_inv h) as V. rewrite final_snoc in C.
  destruct (step n (final h) x) as [s' ev] eqn:E. cbn in C.
  assert (OLD : forall q0, cell (final h) r = Some q0 -> same_q q0 q -> born (h ++ [(n, x)]) r q).
  { intros q0 C0 S. apply born_app. eapply born_same; [exact S|]. apply IH. exact C0. }
  assert (RF : same_q q q) by (repeat split).
  destruct (step_core n (final h) x s' ev V E) as [K|(r1 & p & b & -> & -> & _)]; [|exact (OLD q C RF)].
  inversion K; subst; clear K.
  - destruct H as [Hh _]. unfold cell in C. rewrite Hh in C. exact (OLD q C RF).
  - destruct H1 as [Hh _]. unfold cell in C. rewrite Hh in C. exact (OLD q C RF).
  - unfold cell in C. rewrite H1 in C. rewrite nth_snoc in C. destruct (Nat.eqb_spec r (length (heap (final h)))) as [EQ|NE].
    + injection C as <-. exists h, n, m, [], f. cbn. repeat (apply conj; [first [reflexivity|assumption]|]).
      unfold next. rewrite E. left. subst r. reflexivity.
    + exact (OLD q C RF).
  - destruct H5 as [_ Hh]. unfold cell in C. rewrite Hh in C. destruct (upd_cell _ _ _ _ _ inv_same C) as (q9 & C9 & S9). exact (OLD q9 C9 S9).
  - destruct H1 as [Hh _]. unfold cell in C. rewrite Hh in C. exact (OLD q C RF).
  - destruct H4 as [_ Hh]. unfold cell in C. rewrite Hh in C. destruct (upd_cell _ _ _ _ _ inv_same C) as (q9 & C9 & S9). exact (OLD q9 C9 S9).
  - unfold cell in C. rewrite H2 in C.
    destruct (upd_cell (heap (final h)) r0 (fun q => Rq (q_src q) (q_op q) (q_rid q) (q_input q) (q_valid q) (Some cb)) r q) as (q9 & C9 & S9);
      [intros q1; repeat split|exact C|]. exact (OLD q9 C9 S9).
  - destruct H1 as [Hh _]. unfold cell in C. rewrite Hh in C. exact (OLD q C RF).
  - destruct H0 as [Hh _]. unfold cell in C. rewrite Hh in C. exact (OLD q C RF).
  - destruct (deinit_cells _ _ _ _ _ H C) as (q9 & C9 & S9). exact (OLD q9 C9 S9).
Qed.

(** Answers and partial updates. *)
Lemma answer_source h a m res : In (ESend a m res) (trace h) -> m_code m = OpRequest \/ m_code m = PartialRequestUpdate ->
  exists pl, app_answered h a (m_op m) (m_rid m) pl (m_pay m) \/
             (m_pay m = Some (Err EHandlerUnavailable) /\ refused h a (m_op m) (m_rid m) pl).
Proof.
  intros I Cd. destruct (in_trace_split _ _ I) as (h1 & n & x & h2 & -> & J).
  unfold next in J. destruct (step n (final h1) x) as [s' ev] eqn:E. cbn in J.
  assert (B : forall r q p b ms c, x = OReply r p b -> cell (final h1) r = Some q -> ESend (q_src q) ms c = ESend a m res ->
            m_op ms = q_op q -> m_rid ms = q_rid q -> m_pay ms = p ->
            exists pl, app_answered (h1 ++ (n, x) :: h2) a (m_op m) (m_rid m) pl (m_pay m)).
  { intros r q p b ms c -> C Q Mo Mr Mp. injection Q as Qa <- _.
    destruct (born_lemma _ _ _ C) as (h0 & n0 & m0 & h1' & f & -> & M1 & M2 & M3 & M4 & M5 & M6).
    exists (m_pay m0). assert (M : m0 = Msg OpRequest (m_op ms) (m_rid ms) (m_pay m0) a)
      by (destruct m0; cbn in *; congruence).
    rewrite M in M6. exists h0, n0, f, r, h1', n, b, h2. rewrite <- M, Mp. split; [reflexivity|]. rewrite M. exact M6. }
  destruct (step_core n (final h1) x s' ev (final_inv h1) E) as [K|(r1 & p & b & -> & -> & K)].
  2:{ destruct K as [[_ ->]|(q & _ & _ & ->)]; [destruct J|]. destruct J as [J|[]]. discriminate. }
  inversion K; subst; clear K.
  - destruct (H0 _ J) as (Z & _). specialize (Z (m_op m, m_rid m)). exfalso. unfold any_reply, reply_for, key_eqb in Z.
    cbn [fst snd] in Z. rewrite Nat.eqb_refl, N.eqb_refl in Z. destruct Cd as [Cd|Cd]; rewrite Cd in Z; discriminate.
  - destruct J as [J|[J|[]]]; [|discriminate]. injection J as <- <- <-. cbn. exists (m_pay m0). right. split; [reflexivity|].
    exists h1, n, h2. destruct (ProvProofs3.final_tables h1) as (T & _). rewrite <- T. split; [|exact H0]. destruct m0. cbn in *. subst. reflexivity.
  - destruct J as [J|[J|[]]]; discriminate.
  - destruct J as [J|[J|[]]]; [|discriminate].
    destruct (B r0 q0 p false _ _ eq_refl H J eq_refl eq_refl eq_refl) as (pl & X). exists pl. left. exact X.
  - destruct J as [J|[J|[]]]; [|discriminate].
    destruct (B r q p true _ _ eq_refl H J eq_refl eq_refl eq_refl) as (pl & X). exists pl. left. exact X.
  - apply in_app_iff in J as [J|[J|[]]]; [|discriminate]. destruct (q_abort q); [destruct J as [J|[]]; discriminate|destruct J].
  - destruct J.
  - destruct J as [J|[]]. discriminate.
  - destruct J.
  - exfalso. clear B. unfold deinit, invalidate_all in H. revert H J.
    assert (X : forall l s ev0, ~ In (ESend a m res) ev0 ->
      ~ In (ESend a m res) (snd (fold_left (fun '(s, ev) r => let s' := invalidate s r in (s', ev ++ abort_event s' r)) l (s, ev0)))).
    { induction l as [|i l IH]; intros s ev0 N; [exact N|]. cbn [fold_left]. apply IH. intros Q. apply in_app_iff in Q as [Q|Q]; [exact (N Q)|].
      unfold abort_event in Q. destruct (nth_error _ _) as [q|]; [|destruct Q]. destruct (q_abort q); [destruct Q as [Q|[]]; discriminate|destruct Q]. }
    specialize (X (flat_map snd (reqs (set_regs (final h1) []))) (set_regs (final h1) []) [] (fun x => x)).
    destruct (fold_left _ _ _) as [s1 ev1]. intros H J. injection H as <- <-. exact (X J).
Qed.

Lemma bcast_codes n s o c p s' ev a0 a m res : broadcast n s o c p = (s', ev, a0) -> In (ESend a m res) ev -> m_code m = c /\ m_op m = o /\ m_pay m = p.
Proof.
  unfold broadcast. destruct (broadcast_to_clients n s o c p) as [[s1 ev1] a1] eqn:E. intros [= <- <- <-] I.
  apply in_app_iff in I as [I|I]; [apply in_map_iff in I as (l & Q & _); discriminate|].
  assert (TS : forall f addrs rg, In (ESend a m res) (snd (try_send f (Msg c o rid_invalid p no_address) addrs rg)) -> m = Msg c o rid_invalid p no_address).
  { intros f. induction addrs as [|x addrs IH]; intros rg J; [destruct J|]. cbn in J.
    destruct (match f x with Success => (rg, []) | ReceiverBusy => (rg, [x]) | _ => (del x rg, []) end) as [rg' b].
    specialize (IH rg'). destruct (try_send f _ addrs rg') as [[rg2 b2] ev2]. cbn in J, IH. destruct J as [J|J]; [inversion J; reflexivity|exact (IH J)]. }
  assert (M : m = Msg c o rid_invalid p no_address); [|subst m; auto].
  unfold broadcast_to_clients in E. destruct (addresses_of o (regs s)) as [|x l]; [injection E as <- <- <-; destruct I|].
  pose proof (TS (first n) (x :: l) (regs s)) as T1.
  destruct (try_send (first n) _ (x :: l) (regs s)) as [[rg1 b1] e1]. cbn [snd] in T1.
  pose proof (TS (second n) b1 rg1) as T2.
  destruct b1 as [|y b1].
  - injection E as <- <- <-. rewrite app_nil_r in I. auto.
  - destruct (try_send (second n) _ (y :: b1) rg1) as [[rg2 b2] e2]. cbn [snd] in T2. injection E as <- <- <-.
    apply in_app_iff in I as [I|I]; auto.
Qed.

(** Answers to a get. *)
Lemma get_source h a m res : In (ESend a m res) (trace h) -> m_code m = StatusGet ->
  exists h1 n1 pl h2, h = h1 ++ (n1, OIn (Msg StatusGet (m_op m) (m_rid m) pl a)) :: h2 /\ value_after h1 (m_op m) = m_pay m.
Proof.
  intros I Cd. destruct (in_trace_split _ _ I) as (h1 & n & x & h2 & -> & J).
  unfold next, step in J. rewrite (inv_ub _ (final_inv h1)) in J.
  assert (NB : forall s o c p s' ev a0, c <> StatusGet -> broadcast n s o c p = (s', ev, a0) -> ~ In (ESend a m res) (ev ++ [EReturn (RStatus a0)])).
  { intros s o c p s' ev a0 NC B Q. apply in_app_iff in Q as [Q|[Q|[]]]; [|discriminate].
    destruct (bcast_codes _ _ _ _ _ _ _ _ _ _ _ B Q) as (Z & _). congruence. }
  destruct x; cbn in J; try solve [destruct J as [J|[]]; discriminate]; try solve [destruct J].
  - unfold on_incoming in J. destruct (m_code m0) eqn:C0.
    all: try solve [cbn in J; destruct J as [J|[]]; discriminate].
    + unfold update_latest in J. destruct (get_status _ _); cbn in J.
      * destruct J as [J|[J|[]]]; [|discriminate]. injection J as <- <- <-. cbn in Cd. congruence.
      * destruct J as [J|[]]. discriminate.
    + cbn in J. destruct J as [J|[J|[]]]; [|discriminate]. injection J as <- <- <-. cbn. exists h1, n, (m_pay m0), h2.
      destruct (ProvProofs3.final_tables h1) as (_ & T & _). unfold get_status. rewrite T. split; [|reflexivity].
      rewrite <- C0. destruct m0. reflexivity.
    + unfold on_action_request in J. destruct (get _ _); cbn in J.
      * destruct J as [J|[J|[]]]; discriminate.
      * destruct J as [J|[J|[]]]; [|discriminate]. injection J as <- <- <-. cbn in Cd. congruence.
    + unfold on_request_aborted in J. destruct (find_req _ _).
      * cbn in J. apply in_app_iff in J as [J|[J|[]]]; [|discriminate]. unfold abort_event in J. destruct (nth_error _ _) as [q|]; [|destruct J].
        destruct (q_abort q); [destruct J as [J|[]]; discriminate|destruct J].
      * destruct J as [J|[]]. discriminate.
  - destruct (nth_error _ _) as [q|]; [|destruct J]. exfalso.
    unfold reply, respond_to_request in J. destruct (q_valid q); cbn in J; [|destruct J as [J|[]]; discriminate].
    destruct partial; cbn in J.
    + destruct (find_req _ _); cbn in J; [|destruct J as [J|[]]; discriminate]. destruct J as [J|[J|[]]]; [|discriminate].
      injection J as <- <- <-. discriminate.
    + destruct (find_req _ _); cbn in J; [|destruct J as [J|[]]; discriminate]. destruct J as [J|[J|[]]]; [|discriminate].
      injection J as <- <- <-. discriminate.
  - destruct (nth_error _ _) as [q|]; [|destruct J]. destruct (q_valid q); [destruct J|destruct J as [J|[]]; discriminate].
  - exfalso. unfold set_status in J. destruct (differs _ _).
    + destruct (broadcast n _ o StatusRegister p) as [[s1 ev1] a1] eqn:B. cbn in J. refine (NB _ _ _ _ _ _ _ _ B J). discriminate.
    + cbn in J. destruct J as [J|[]]. discriminate.
  - exfalso. destruct notify.
    + destruct (broadcast n _ o StatusRegister None) as [[s1 ev1] a1] eqn:B. cbn in J. refine (NB _ _ _ _ _ _ _ _ B J). discriminate.
    + cbn in J. destruct J as [J|[]]. discriminate.
  - exfalso. destruct (broadcast n _ o SignalRegister p) as [[s1 ev1] a1] eqn:B. cbn in J. refine (NB _ _ _ _ _ _ _ _ B J). discriminate.
  - destruct h; [destruct (get _ _)|]; destruct J as [J|[]]; discriminate.
  - exfalso. destruct (step n (final h1) ODeinit) as [s' ev] eqn:E. unfold deinit, invalidate_all in J. revert J. clear.
    assert (X : forall l s ev0, ~ In (ESend a m res) ev0 ->
      ~ In (ESend a m res) (snd (fold_left (fun '(s, ev) r => let s' := invalidate s r in (s', ev ++ abort_event s' r)) l (s, ev0)))).
    { induction l as [|i l IH]; intros s ev0 N; [exact N|]. cbn [fold_left]. apply IH. intros Q. apply in_app_iff in Q as [Q|Q]; [exact (N Q)|].
      unfold abort_event in Q. destruct (nth_error _ _) as [q|]; [|destruct Q]. destruct (q_abort q); [destruct Q as [Q|[]]; discriminate|destruct Q]. }
    specialize (X (flat_map snd (reqs (set_regs (final h1) []))) (set_regs (final h1) []) [] (fun x => x)).
    destruct (fold_left _ _ _) as [s1 ev1]. cbn. exact X.
Qed.
End Provider.
