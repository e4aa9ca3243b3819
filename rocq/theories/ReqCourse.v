(** Requester: everything a call does, and observers that were removed. *)
From Verif Require Import ReqModel ReqSpec ReqSpec2 ReqProofs ReqInv ReqIds ReqSerSpec ReqSerial ReqSerial2 ReqCache ReqObsSpec ReqObs ReqSync.
From Coq Require Import NArith Lia.

Notation up was := (was Available).
Notation down was := (exists a, a <> Available /\ was a).

(** What a call that stands at [p] has done so far. *)
Definition did (was : availability -> Prop) (t : nat) (c : call) (p : pc) (l : list event) : Prop :=
  match p with
  | PStart _ => l = []
  | PAlloc _ _ _ _ _ => l = [] /\ up was
  | PStore _ _ _ _ _ rid | PSend _ _ _ _ _ rid => l = [EAlloc t rid] /\ up was
  | PSent code o k b rid => (exists pl, req_like c code o pl k b /\ l = [EAlloc t rid; ESend t (Msg code o rid pl 0)]) /\ up was
  | PUndo code o k rid _ => (exists pl b, req_like c code o pl k b /\ l = [EAlloc t rid; ESend t (Msg code o rid pl 0)]) /\ up was
  | PWait o rid b => (exists code pl, req_like c code o pl KPromise b /\ l = [EAlloc t rid; ESend t (Msg code o rid pl 0)]) /\ up was
  | PExpErase o rid | PExpSend o rid => (exists code pl, req_like c code o pl KPromise true /\ l = [EAlloc t rid; ESend t (Msg code o rid pl 0)]) /\ up was
  | PAbortErase o rid | PAbortSend o rid => l = [] /\ regid_ok rid o = true
  | PRegAlloc _ _ => l = [] /\ up was
  | PRegStore _ _ rid | PRegSend _ _ rid | PRegCached _ rid | PRegCall _ rid _ => l = [EAlloc t rid] /\ up was
  | PRegSent o rid | PRegUndo o rid _ =>
      (exists st, c = CReg st o true /\ l = [EAlloc t rid; ESend t (Msg (if st then StatusRegister else SignalRegister) o rid None 0)]) /\ up was
  | PUnregErase o rid => l = [] /\ regid_ok rid o = true
  | PUnregUncache o | PUnregCheck o => l = [] /\ exists rid, c = CUnregister rid o /\ regid_ok rid o = true
  | PUnregSend o => l = [] /\ up was /\ exists rid, c = CUnregister rid o /\ regid_ok rid o = true
  | PUallErase _ | PUallSend _ => l = [] /\ up was
  | PUallUncache o => l = [ESend t (Msg Unregister o rid_invalid None 0)] /\ up was
  | PGetSub _ _ _ | PGetCheck _ _ => l = [] /\ up was
  | PGetCached _ a _ | PGetCall a _ => l = [] /\ (a = Success /\ up was \/ a = ServiceUnavailable /\ down was)
  | PInTake m => l = [] /\ handled (m_code m) = true
  | PInRun m _ _ => handled (m_code m) = true /\ exists os, l = map (fun o => ECb t o (m_pay m)) os
  | PSvcSet _ new => l = [] /\ exists a, a <> new /\ was a
  | PSvcClearReq _ new | PSvcClearReg _ new | PSvcForward _ new => l = [EStatus t new] /\ exists a, a <> new /\ was a
  | PObsPush _ => l = []
  | PObsCall _ => l = [] /\ up was
  | PDone => course was t c l
  end.

Lemma status_cases s : (available s = true /\ status s = Available) \/ (available s = false /\ status s <> Available).
Proof. unfold available. destruct (status s); [right|left|right]; split; try reflexivity; discriminate. Qed.

Lemma did_step (was : availability -> Prop) w al s t c p s' p' e l : fits c p -> was (status s) -> run1 w al s t p = (s', p', e) -> did was t c p l -> did was t c p' (l ++ e).
Proof.
  intros F W R D.
  assert (UP : available s = true -> up was) by (intros A; destruct (status_cases s) as [[_ E]|[E _]]; [rewrite E in W; exact W|congruence]).
  assert (DN : available s = false -> down was) by (intros A; destruct (status_cases s) as [[E _]|[_ E]]; [congruence|exists (status s); auto]).
  destruct p; cbn in F; cbn in R.
  - subst c0. cbn in D. subst l. cbn [app].
    destruct c as [o pl hc|o pl b|o|o b|rid o|stt o hc|rid o|o|ok m|ok old new|[x|]|x|]; cbn in R.
    + destruct (available s); break_run; cbn; auto.
    + destruct (available s); break_run; cbn; auto.
    + destruct (available s); break_run; cbn; auto.
    + destruct (available s); break_run; cbn; auto.
    + destruct (regid_ok rid o) eqn:E; break_run; cbn; rewrite ?E; auto.
    + destruct (available s); [destruct hc|]; break_run; cbn; auto.
    + destruct (regid_ok rid o) eqn:E; break_run; cbn; rewrite ?E; auto.
    + destruct (available s); break_run; cbn; auto.
    + destruct ok; [|break_run; reflexivity]. destruct (m_code m) eqn:E; break_run; cbn; rewrite ?E; cbn; auto.
    + destruct ok; cbn in R; [|break_run; cbn; left; auto]. destruct (avail_eqb new (status s)) eqn:E; cbn in R; break_run; cbn.
      * left. split; [|reflexivity]. right. destruct new, (status s); try discriminate E; exact W.
      * split; [reflexivity|]. exists (status s). split; [|exact W]. intros Q. rewrite Q in E. destruct new; discriminate.
    + break_run. reflexivity.
    + break_run. reflexivity.
    + break_run. reflexivity.
    + break_run. reflexivity.
  - cbn in D. destruct D as [-> U]. break_run; cbn; auto.
  - cbn in D. destruct D as [-> U]. break_run; cbn; auto.
  - cbn in D. destruct D as [-> U]. break_run; cbn. split; [|exact U]. eauto.
  - cbn in D. destruct D as [(pl & Q & ->) U].
    destruct (match o_res w with Success => true | _ => false end) eqn:O.
    + destruct (o_res w); try discriminate O.
      destruct c; cbn in Q; try contradiction; destruct Q as (-> & -> & -> & -> & ->).
      * destruct has_cb; break_run; cbn; right; (split; [exact U|]); exists rid; left; reflexivity.
      * destruct (regid_ok rid o0); break_run; cbn; [split; [|exact U]; do 2 eexists; split; [|reflexivity]; cbn; auto 10|].
        right. split; [exact U|]. do 2 eexists. split; [reflexivity|]. left. eauto.
      * break_run. cbn. right. split; [exact U|]. eauto.
      * destruct (regid_ok rid o0); break_run; cbn; [split; [|exact U]; do 2 eexists; split; [|reflexivity]; cbn; auto 10|].
        right. split; [exact U|]. do 2 eexists. split; [reflexivity|]. left. eauto.
    + assert (X : (s, PUndo code o k rid (o_res w), []) = (s', p', e)) by (destruct (o_res w); try discriminate O; exact R). injection X as <- <- <-. cbn. split; [|exact U]. eauto.
  - cbn in D. destruct D as [(pl & b & Q & ->) U]. destruct F as [_ NS]. break_run.
    destruct c; cbn in Q; try contradiction; destruct Q as (-> & -> & -> & -> & ->); cbn.
    + right. split; [exact U|]. exists rid. right. exists a. destruct has_cb; auto.
    + right. split; [exact U|]. do 2 eexists. split; [reflexivity|]. left. eauto.
    + right. split; [exact U|]. eauto.
    + right. split; [exact U|]. do 2 eexists. split; [reflexivity|]. left. eauto.
  - cbn in D. destruct D as [(code & pl & Q & ->) U].
    assert (FIN : forall x a, did was t c PDone ([EAlloc t rid; ESend t (Msg code o rid pl 0)] ++ [ERet t (RVPay x (Some a))])).
    { intros x a. destruct c; cbn in Q; try contradiction; destruct Q as (-> & -> & -> & Q & ->); try discriminate Q; try (destruct has_cb; discriminate Q); cbn; right; (split; [exact U|]); do 2 eexists; (split; [reflexivity|]); left; eauto. }
    destruct (get t (promises s)); [break_run; apply FIN|]. destruct (negb al); [break_run; apply FIN|]. destruct (b && o_expired w) eqn:B; break_run; cbn; (split; [|exact U]).
    + destruct b; [|discriminate B]. eauto.
    + eauto.
  - cbn in D. destruct D as [(code & pl & Q & ->) U]. destruct (erase_request (requests s) o rid) as [m []]; break_run; cbn [did].
    + split; [|exact U]. eauto.
    + destruct c; cbn in Q; try contradiction; destruct Q as (-> & -> & -> & Q & B); try discriminate Q; try (destruct has_cb; discriminate Q); cbn; right; (split; [exact U|]); do 2 eexists; (split; [reflexivity|]); left; eauto.
  - cbn in D. destruct D as [(code & pl & Q & ->) U]. break_run.
    destruct c; cbn in Q; try contradiction; destruct Q as (-> & -> & -> & Q & B); try discriminate Q; try (destruct has_cb; discriminate Q); cbn; right; (split; [exact U|]); do 2 eexists; (split; [reflexivity|]); right; reflexivity.
  - cbn in D. destruct D as [-> V]. subst c. destruct (erase_request (requests s) o rid) as [m []]; break_run; cbn; [auto|]. rewrite V. auto.
  - cbn in D. destruct D as [-> V]. subst c. break_run. cbn. rewrite V. eauto.
  - cbn in D. destruct D as [-> U]. destruct (N.eqb (counter s) rid_invalid); break_run; cbn; auto.
  - cbn in D. destruct D as [-> U]. subst c. destruct st; break_run; try discriminate; cbn; auto;
    right; right; (split; [exact U|]); (split; [reflexivity|]); do 2 eexists; (split; [reflexivity|]); left; reflexivity.
  - cbn in D. destruct D as [-> U]. subst c. break_run. cbn. split; [|exact U]. eexists. split; reflexivity.
  - cbn in D. destruct D as [(st & -> & ->) U].
    destruct (match o_res w with Success => true | _ => false end) eqn:O.
    + destruct (o_res w) eqn:OW; try discriminate O. break_run. cbn. right. right. split; [exact U|]. split; [reflexivity|]. do 2 eexists. split; [reflexivity|]. right. right. exists Success. reflexivity.
    + assert (X : (s, PRegUndo o rid (o_res w), []) = (s', p', e)) by (destruct (o_res w); try discriminate O; exact R). injection X as <- <- <-. cbn. split; [|exact U]. eauto.
  - cbn in D. destruct D as [(st & -> & ->) U]. destruct F as [_ NS]. break_run. cbn. right. right. split; [exact U|]. split; [reflexivity|]. do 2 eexists. split; [reflexivity|]. right. right. exists a. destruct a; try contradiction; reflexivity.
  - cbn in D. destruct D as [-> U]. subst c. destruct (cached s o) as [s1 [p|]]; break_run; cbn; [auto|].
    right. right. split; [exact U|]. split; [reflexivity|]. do 2 eexists. split; [reflexivity|]. left. reflexivity.
  - cbn in D. destruct D as [-> U]. subst c. break_run. cbn. right. right. split; [exact U|]. split; [reflexivity|]. do 2 eexists. split; [reflexivity|]. right. left. eauto.
  - cbn in D. destruct D as [-> V]. subst c. destruct (remove_entry (registers s) o rid) as [m n]. destruct (Nat.eqb n 0); break_run; cbn; [eauto|]. rewrite V. auto.
  - cbn in D. destruct D as [-> V]. break_run. cbn. auto.
  - cbn in D. destruct D as [-> (rid & -> & V)]. destruct (available s); break_run; cbn; [eauto 6|]. rewrite V. auto.
  - cbn in D. destruct D as [-> (U & rid & -> & V)]. break_run. cbn. rewrite V. auto.
  - cbn in D. destruct D as [-> U]. break_run. cbn. auto.
  - cbn in D. destruct D as [-> U]. break_run. cbn. auto.
  - cbn in D. destruct D as [-> U]. subst c. break_run. cbn. right. auto.
  - cbn in D. destruct D as [-> U]. destruct (subscribing s o); [break_run; cbn; auto|]. destruct sync; break_run; cbn; auto.
  - cbn in D. destruct D as [-> U]. subst c. destruct (available s); break_run; cbn; [auto|]. left. eauto.
  - cbn in D. destruct D as [-> A]. destruct (cached s o) as [s1 p]. destruct sync; break_run; cbn; [|auto]. destruct F as [b ->]. cbn. left. exists p. destruct A as [[-> U]|[-> U]]; auto.
  - cbn in D. destruct D as [-> A]. destruct F as [o ->]. break_run. cbn. left. exists p. destruct A as [[-> U]|[-> U]]; auto.
  - cbn in D. destruct D as [-> V]. destruct (match m_code m with StatusRegister | SignalRegister => true | _ => false end) eqn:K.
    + destruct (m_code m) eqn:E; try discriminate K; break_run; cbn; rewrite E; (split; [reflexivity|]); exists []; reflexivity.
    + assert (X : exists s1 l1, (s1, PInRun m l1 false, []) = (s', p', e)).
      { destruct (m_code m); try discriminate K; destruct (take_request (requests s) (m_op m) (m_rid m) _) as [r x]; eauto. }
      destruct X as (s1 & l1 & X). injection X as <- <- <-. cbn. split; [exact V|]. exists []. reflexivity.
  - cbn in D. destruct D as [V [os ->]]. subst c. destruct todo as [|x todo].
    + break_run. cbn. rewrite V. eauto 6.
    + assert (ONE : forall x, map (fun o => ECb t o (m_pay m)) os ++ [ECb t x (m_pay m)] = map (fun o => ECb t o (m_pay m)) (os ++ [x])) by (intros y; rewrite map_app; reflexivity).
      destruct (e_kind x); [| |destruct (get (e_owner x) (promises s))]; break_run; cbn; rewrite ?V.
      * split; [reflexivity|]. exists os. apply app_nil_r.
      * split; [reflexivity|]. rewrite ONE. eauto.
      * exists os, (EThrow t). auto.
      * split; [reflexivity|]. rewrite ONE. eauto.
  - cbn in D. destruct D as [-> A]. break_run. destruct new; cbn; auto.
  - cbn in D. destruct D as [-> A]. break_run. cbn. auto.
  - cbn in D. destruct D as [-> A]. break_run. cbn. auto.
  - cbn in D. destruct D as [-> A]. subst c. break_run. cbn. right. split; [reflexivity|]. split; [exact A|]. eauto.
  - cbn in D. subst l c. destruct (available s); break_run; cbn; [auto|]. left. auto.
  - cbn in D. destruct D as [-> U]. subst c. break_run. cbn. right. auto.
  - cbn in D. break_run. rewrite app_nil_r. exact D.
Qed.

(** ** Monotonicity: what was seen during a call only grows. *)
Lemma course_mono (was was' : availability -> Prop) t c l : (forall a, was a -> was' a) -> course was t c l -> course was' t c l.
Proof.
  intros M. assert (DM : (exists a, a <> Available /\ was a) -> exists a, a <> Available /\ was' a) by (intros (a & A & B); eauto).
  destruct c as [o pl hc|o pl b|o|o b|rid o|stt o hc|rid o|o|ok m|ok old new|[x|]|x|]; cbn; try tauto.
  - intros [[D H]|[U H]]; [left|right]; auto.
  - intros [[D H]|[U H]]; [left|right]; auto.
  - intros [(p & [[U H]|[U H]])|[U H]]; [left; exists p; auto|left; exists p; auto|right; auto].
  - intros [(p & [[U H]|[U H]])|[U H]]; [left; exists p; auto|left; exists p; auto|right; auto].
  - intros [[D H]|[[U H]|[U H]]]; [left|right; left|right; right]; auto.
  - destruct (regid_ok rid o); [|auto]. intros [H|[[D H]|[U H]]]; auto.
  - intros [[D H]|[U H]]; [left|right]; auto.
  - intros [[[A|A] H]|(A & (a & B & C) & H)]; [left; auto|left; auto|]. right. split; [exact A|]. split; [eauto|exact H].
  - intros [[D H]|[U H]]; [left|right]; auto.
Qed.
Lemma did_mono (was was' : availability -> Prop) t c p l : (forall a, was a -> was' a) -> did was t c p l -> did was' t c p l.
Proof.
  intros M. assert (DM : (exists a, a <> Available /\ was a) -> exists a, a <> Available /\ was' a) by (intros (a & A & B); eauto).
  destruct p; cbn; try tauto; try (intros [H U]; split; [exact H|auto]; fail).
  - intros [H (U & V)]. auto.
  - intros [H [[A B]|[A B]]]; auto.
  - intros [H [[A B]|[A B]]]; auto.
  - intros [H (a & A & B)]. eauto.
  - intros [H (a & A & B)]. eauto.
  - intros [H (a & A & B)]. eauto.
  - intros [H (a & A & B)]. eauto.
  - apply course_mono. exact M.
Qed.
Lemma seen_more h l t a : seen h t a -> seen (h ++ l) t a.
Proof. intros (h1 & h2 & -> & A & B & C). exists h1, (h2 ++ l). rewrite app_assoc. auto. Qed.

Lemma not_done h t p : nth_error (thr (final h)) t = Some p -> p <> PDone -> ~ returned h t.
Proof.
  revert t p. induction h as [|h c IH|h t0 w IH N F T|h t0 w p0 s' p' e IH N R F T] using hist_ind; intros t p H NP [v V].
  - destruct V.
  - rewrite trace_call in V. rewrite snoc_call in H. cbn [thr] in H. rewrite nth_snoc in H. destruct (Nat.eqb_spec t (length (thr (final h)))).
    + subst. destruct (ret_called _ _ _ V) as [c' C]. apply call_lt in C. rewrite (i_len h (inv_final h)) in C. lia.
    + eapply IH; eauto. exists v. exact V.
  - rewrite F in H. rewrite T in V. eapply IH; eauto. exists v. exact V.
  - rewrite F in H. cbn [thr] in H. rewrite T in V. rewrite (nth_set _ _ _ _ _ N) in H. apply in_app_iff in V as [V|V].
    + destruct (Nat.eqb_spec t0 t) as [->|X]; [|eapply IH; eauto; exists v; exact V]. injection H as ->.
      destruct (pdone_dec p0) as [->|Q]; [cbn in R; injection R as <- <- <-; congruence|]. eapply IH; eauto. exists v. exact V.
    + pose proof (ev_thread _ _ _ _ _ _ _ _ _ R V) as X. cbn in X. subst t0. rewrite Nat.eqb_refl in H. injection H as ->.
      destruct (run1_ret _ _ _ _ _ _ _ _ R) as (A & B & _). apply NP, B. apply (cnt_pos (is_ret t)) in V; [lia|]. cbn. apply Nat.eqb_refl.
Qed.

Lemma did_final h t p c : nth_error (thr (final h)) t = Some p -> call_of h t = Some c -> did (seen h t) t c p (doings h t).
Proof.
  revert t p c. induction h as [|h c0 IH|h t0 w IH N F T|h t0 w p0 s' p' e IH N R F T] using hist_ind; intros t p c H C.
  - destruct t; discriminate.
  - unfold doings. rewrite trace_call. rewrite snoc_call in H. cbn [thr] in H. rewrite nth_snoc in H. rewrite call_of_call in C. rewrite (i_len h (inv_final h)) in H.
    destruct (Nat.eqb_spec t (length (calls h))).
    + subst. injection H as <-. cbn. apply (evs_fresh h (length (calls h))). lia.
    + eapply did_mono; [intros a; apply seen_more|]. exact (IH _ _ _ H C).
  - unfold doings. rewrite T. rewrite F in H. rewrite call_of_run in C. eapply did_mono; [intros a; apply seen_more|]. exact (IH _ _ _ H C).
  - unfold doings. rewrite T, filter_app. rewrite F in H. cbn [thr] in H. rewrite (nth_set _ _ _ _ _ N) in H. rewrite call_of_run in C.
    destruct (Nat.eqb_spec t0 t) as [->|X].
    + injection H as <-. pose proof (evs_own _ _ _ _ _ _ _ _ R) as O. change (filter (fun e0 => Nat.eqb (doer e0) t) e = e) in O. rewrite O.
      destruct (i_fit h (inv_final h) _ _ N) as (c' & C' & FT). rewrite C in C'. injection C' as <-.
      destruct (pdone_dec p0) as [->|NP].
      * cbn in R. injection R as <- <- <-. rewrite app_nil_r. eapply did_mono; [intros a; apply seen_more|]. exact (IH _ _ _ N C).
      * eapply did_step; [exact FT| |exact R|eapply did_mono; [intros a; apply seen_more|exact (IH _ _ _ N C)]].
        exists h, [LRun t w]. split; [reflexivity|]. split; [eapply call_lt; exact C|]. split; [eapply not_done; eauto|]. symmetry. apply svc_status.
    + pose proof (evs_other _ _ _ _ _ _ _ _ t R (not_eq_sym X)) as O. change (filter (fun e0 => Nat.eqb (doer e0) t) e = []) in O. rewrite O, app_nil_r.
      eapply did_mono; [intros a; apply seen_more|]. exact (IH _ _ _ H C).
Qed.

(** A call that returned or threw. *)
Lemma ended_done h t : (returned h t \/ In (EThrow t) (trace h)) -> exists c, call_of h t = Some c /\ nth_error (thr (final h)) t = Some PDone.
Proof.
  intros E. assert (X : exists c, call_of h t = Some c) by (destruct E as [[v V]|V]; [exact (ret_called _ _ _ V)|exact (ev_called _ _ V)]).
  destruct X as [c C]. exists c. split; [exact C|]. pose proof (call_lt _ _ _ C) as L. rewrite <- (i_len h (inv_final h)) in L. apply nth_error_Some in L.
  destruct (nth_error (thr (final h)) t) as [p|] eqn:N; [|congruence]. destruct (pdone_dec p) as [->|NP]; [reflexivity|]. exfalso.
  destruct E as [V|V]; [exact (not_done _ _ _ N NP V)|].
  clear L C c. revert t p N NP V. induction h as [|h c IH|h t0 w IH N F T|h t0 w p0 s' p' e IH N R F T] using hist_ind; intros t p H NP V.
  - destruct V.
  - rewrite trace_call in V. rewrite snoc_call in H. cbn [thr] in H. rewrite nth_snoc in H. destruct (Nat.eqb_spec t (length (thr (final h)))).
    + subst. destruct (ev_called _ _ V) as [c' C]. apply call_lt in C. cbn in C. rewrite (i_len h (inv_final h)) in C. lia.
    + eapply IH; eauto.
  - rewrite F in H. rewrite T in V. eapply IH; eauto.
  - rewrite F in H. cbn [thr] in H. rewrite T in V. rewrite (nth_set _ _ _ _ _ N) in H. apply in_app_iff in V as [V|V].
    + destruct (Nat.eqb_spec t0 t) as [->|X]; [|eapply IH; eauto]. injection H as ->.
      destruct (pdone_dec p0) as [->|Q]; [cbn in R; injection R as <- <- <-; congruence|]. eapply IH; eauto.
    + pose proof (ev_thread _ _ _ _ _ _ _ _ _ R V) as X. cbn in X. subst t0. rewrite Nat.eqb_refl in H. injection H as ->.
      apply NP. clear - R V. destruct p0; cbn in R; break_run; cbn in V; try solve [repeat (destruct V as [V|V]; try discriminate V); try contradiction; reflexivity].
Qed.

(** A running call can still end in a regular way: what it did so far is the beginning of a course. *)
Lemma did_prefix (was : availability -> Prop) t c p l a : fits c p -> was a -> did was t c p l -> exists l', course was t c (l ++ l').
Proof.
  intros F W D.
  assert (UD : up was \/ down was) by (destruct a; [right; exists Unavailable; split; [discriminate|exact W]|left; exact W|right; exists Unknown; split; [discriminate|exact W]]).
  assert (REQ : forall code o pl k b rid, req_like c code o pl k b -> up was -> exists l', course was t c ([EAlloc t rid; ESend t (Msg code o rid pl 0)] ++ l')).
  { intros code o pl k b rid Q U. destruct c; cbn in Q; try contradiction; destruct Q as (-> & -> & -> & Q & ->); eexists; cbn; right; (split; [exact U|]).
    - exists rid. left. reflexivity.
    - exists rid. eexists. split; [reflexivity|]. left. exists None, Success. reflexivity.
    - exists rid. reflexivity.
    - exists rid. eexists. split; [reflexivity|]. left. exists None, Success. reflexivity. }
  assert (REG : forall st o rid, c = CReg st o true -> up was -> exists l', course was t c (EAlloc t rid :: l')).
  { intros st o rid -> U. eexists. cbn. right. right. split; [exact U|]. split; [reflexivity|]. do 2 eexists. split; [reflexivity|]. left. reflexivity. }
  assert (LOAD : forall l0 l1, (exists l', course was t c ((l0 ++ l1) ++ l')) -> exists l', course was t c (l0 ++ l')) by (intros l0 l1 [l' H]; exists (l1 ++ l'); rewrite app_assoc; exact H).
  destruct p; cbn in F; cbn [did] in D.
  - subst c0 l. cbn [app]. destruct c as [o pl hc|o pl b|o|o b|rid o|stt o hc|rid o|o|ok m|ok old new|[x|]|x|].
    + destruct UD as [U|U]; [destruct (REQ OpRequest o pl (if hc then KUser else KNull) false 0%N) as [l' H]; cbn; auto; exists ([EAlloc t 0%N; ESend t (Msg OpRequest o 0%N pl 0)] ++ l'); exact H|eexists; left; split; [exact U|reflexivity]].
    + destruct UD as [U|U]; [destruct (REQ OpRequest o pl KPromise b 0%N) as [l' H]; cbn; auto 6; exists ([EAlloc t 0%N; ESend t (Msg OpRequest o 0%N pl 0)] ++ l'); exact H|eexists; left; split; [exact U|reflexivity]].
    + destruct UD as [U|U]; eexists; left; exists None; [left|right]; split; try exact U; reflexivity.
    + destruct UD as [U|U]; eexists; left; exists None; [left|right]; split; try exact U; reflexivity.
    + cbn. destruct (regid_ok rid o); eexists; [left|]; reflexivity.
    + destruct UD as [U|U]; [|eexists; left; split; [exact U|reflexivity]]. destruct hc; [destruct (REG stt o 0%N eq_refl U) as [l' H]; exists (EAlloc t 0%N :: l'); exact H|].
      eexists. right. left. split; [exact U|]. split; reflexivity.
    + cbn. destruct (regid_ok rid o); eexists; [left|]; reflexivity.
    + destruct UD as [U|U]; eexists; [right|left]; (split; [exact U|]); reflexivity.
    + cbn. destruct ok; [destruct (handled (m_code m))|]; eexists; [exists [], (ERet t (RVBool true)); split; [reflexivity|auto]|reflexivity|reflexivity].
    + cbn. destruct ok; [|eexists; left; split; [left|]; reflexivity].
      assert (X : {a = new} + {a <> new}) by (destruct a, new; try (left; reflexivity); right; discriminate). destruct X as [->|X].
      * eexists. left. split; [right; exact W|reflexivity].
      * eexists. right. split; [reflexivity|]. split; [exists a; auto|]. exists []. reflexivity.
    + destruct UD as [U|U]; eexists; [right|left]; (split; [exact U|]); reflexivity.
    + eexists. reflexivity.
    + eexists. reflexivity.
    + eexists. reflexivity.
  - destruct D as [-> U]. destruct (REQ code o p k b 0%N F U) as [l' H]. eexists. exact H.
  - destruct D as [-> U]. apply (LOAD _ [ESend t (Msg code o rid p 0)]). exact (REQ _ _ _ _ _ _ F U).
  - destruct D as [-> U]. apply (LOAD _ [ESend t (Msg code o rid p 0)]). exact (REQ _ _ _ _ _ _ F U).
  - destruct D as [(pl & Q & ->) U]. eapply REQ; eauto.
  - destruct D as [(pl & b & Q & ->) U]. eapply REQ; eauto.
  - destruct D as [(code & pl & Q & ->) U]. eapply REQ; eauto.
  - destruct D as [(code & pl & Q & ->) U]. eapply REQ; eauto.
  - destruct D as [(code & pl & Q & ->) U]. eapply REQ; eauto.
  - destruct D as [-> V]. subst c. cbn. rewrite V. eexists. left. reflexivity.
  - destruct D as [-> V]. subst c. cbn. rewrite V. eexists. left. reflexivity.
  - destruct D as [-> U]. destruct (REG _ _ 0%N F U) as [l' H]. eexists. exact H.
  - destruct D as [-> U]. exact (REG _ _ rid F U).
  - destruct D as [-> U]. exact (REG _ _ rid F U).
  - destruct D as [(st & -> & ->) U]. eexists. right. right. split; [exact U|]. split; [reflexivity|]. do 2 eexists. split; [reflexivity|]. right. right. exists Success. reflexivity.
  - destruct D as [(st & -> & ->) U]. eexists. right. right. split; [exact U|]. split; [reflexivity|]. do 2 eexists. split; [reflexivity|]. right. right. exists Success. reflexivity.
  - destruct D as [-> U]. exact (REG _ _ rid F U).
  - destruct D as [-> U]. exact (REG _ _ rid F U).
  - destruct D as [-> V]. subst c. cbn. rewrite V. eexists. left. reflexivity.
  - destruct D as [-> (rid & -> & V)]. cbn. rewrite V. eexists. left. reflexivity.
  - destruct D as [-> (rid & -> & V)]. cbn. rewrite V. eexists. left. reflexivity.
  - destruct D as [-> (U & rid & -> & V)]. cbn. rewrite V. eexists. left. reflexivity.
  - destruct D as [-> U]. subst c. eexists. right. split; [exact U|]. reflexivity.
  - destruct D as [-> U]. subst c. eexists. right. split; [exact U|]. reflexivity.
  - destruct D as [-> U]. subst c. eexists. right. split; [exact U|]. reflexivity.
  - destruct D as [-> U]. destruct F as [-> _]. destruct sync; eexists; left; exists None; left; (split; [exact U|]); reflexivity.
  - destruct D as [-> U]. subst c. eexists; left; exists None; left; (split; [exact U|]); reflexivity.
  - destruct D as [-> A]. destruct sync; [destruct F as [b F]|]; subst c; destruct A as [[-> U]|[-> U]]; eexists; left; exists None; [left|right|left|right]; (split; [exact U|]); reflexivity.
  - destruct D as [-> A]. destruct F as [o ->]. destruct A as [[-> U]|[-> U]]; eexists; left; exists None; [left|right]; (split; [exact U|]); reflexivity.
  - destruct D as [-> V]. destruct F as [-> _]. cbn. rewrite V. eexists. exists [], (ERet t (RVBool true)). split; [reflexivity|auto].
  - destruct D as [V [os ->]]. subst c. cbn. rewrite V. exists [ERet t (RVBool true)], os, (ERet t (RVBool true)). auto.
  - destruct D as [-> A]. subst c. eexists. right. split; [reflexivity|]. split; [exact A|]. exists []. reflexivity.
  - destruct D as [-> A]. destruct F as [-> _]. eexists. right. split; [reflexivity|]. split; [exact A|]. exists []. reflexivity.
  - destruct D as [-> A]. destruct F as [-> _]. eexists. right. split; [reflexivity|]. split; [exact A|]. exists []. reflexivity.
  - destruct D as [-> A]. subst c. eexists. right. split; [reflexivity|]. split; [exact A|]. exists []. reflexivity.
  - subst l c. destruct UD as [U|U]; eexists; [right|left]; (split; [exact U|]); reflexivity.
  - destruct D as [-> U]. subst c. eexists. right. split; [exact U|]. reflexivity.
  - exists []. rewrite app_nil_r. exact D.
Qed.

(** ** Observers *)
Definition obs_pc (x : nat) (p : pc) : bool :=
  match p with PStart (CObserve (Some y)) | PObsPush y | PObsCall y => Nat.eqb y x | _ => false end.
Definition absent (h : history) (x : nat) : Prop :=
  ~ In x (observers (sh (final h))) /\ forall t p, nth_error (thr (final h)) t = Some p -> obs_pc x p = false.

Lemma run1_obs w al s t p s' p' e x : run1 w al s t p = (s', p', e) -> obs_pc x p = false ->
  obs_pc x p' = false /\ (In x (observers s') -> In x (observers s)) /\ (forall u old new, In (ENotify u x old new) e -> In x (observers s)).
Proof.
  intros R P. destruct p; cbn in P;
    try solve [cbn in R; break_run; cbn; (split; [reflexivity|]); split; auto; intros u old0 new0 I; repeat (destruct I as [I|I]; try discriminate I); contradiction].
  - destruct c as [o pl hc|o pl b|o|o b|rid o|stt o hc|rid o|o|ok m|ok old new|[y|]|y|];
      try solve [cbn in R; break_run; cbn; (split; [reflexivity|]); split; auto; intros u old0 new0 I; repeat (destruct I as [I|I]; try discriminate I); contradiction].
    + cbn in R. break_run. cbn. split; [exact P|]. split; auto. intros u old0 new0 [].
    + cbn in R. break_run. cbn. split; [reflexivity|]. split; [intros I; apply filter_In in I; tauto|]. intros u old0 new0 [I|[]]. discriminate.
  - cbn in R. destruct (cached s o) as [s1 q] eqn:C. assert (O : observers s1 = observers s) by (unfold cached in C; destruct (get o (cache s)) as [[|]|]; injection C as <- <-; reflexivity).
    destruct q; break_run; cbn; rewrite O; (split; [reflexivity|]); split; auto; intros u old0 new0 I; repeat (destruct I as [I|I]; try discriminate I); contradiction.
  - cbn in R. destruct (cached s o) as [s1 q] eqn:C. assert (O : observers s1 = observers s) by (unfold cached in C; destruct (get o (cache s)) as [[|]|]; injection C as <- <-; reflexivity).
    destruct sync; break_run; cbn; rewrite O; (split; [reflexivity|]); split; auto; intros u old0 new0 I; repeat (destruct I as [I|I]; try discriminate I); contradiction.
  - cbn in R. break_run; cbn; destruct keep; (split; [reflexivity|]); split; auto; intros u old0 new0 I; repeat (destruct I as [I|I]; try discriminate I); contradiction.
  - cbn in R. break_run. destruct new; cbn; (split; [reflexivity|]); split; auto; intros u old0 new0 I; repeat (destruct I as [I|I]; try discriminate I); contradiction.
  - cbn in R. break_run. cbn. split; [reflexivity|]. split; [intros I; apply filter_In in I; tauto|]. intros u old0 new0 I. apply in_app_iff in I as [I|[I|[]]]; [|discriminate].
    apply in_map_iff in I as (y & Y & I). injection Y as _ -> _ _. exact I.
  - cbn in R. apply Nat.eqb_neq in P. assert (O : In x (observers s ++ [x0]) -> In x (observers s)) by (intros I; apply in_app_iff in I as [I|[I|[]]]; [exact I|congruence]).
    break_run; cbn; (split; [try (apply Nat.eqb_neq; exact P); reflexivity|]); split; auto; intros u old0 new0 I; repeat (destruct I as [I|I]; try discriminate I); contradiction.
  - cbn in R. apply Nat.eqb_neq in P. break_run. cbn. split; [reflexivity|]. split; [auto|]. intros u old0 new0 [I|[I|[]]]; [congruence|discriminate].
Qed.

Lemma absent_step h l x : absent h x -> l <> LCall (CObserve (Some x)) ->
  absent (h ++ [l]) x /\ forall tr u old new, trace (h ++ [l]) = trace h ++ tr -> ~ In (ENotify u x old new) tr.
Proof.
  intros [A B] NL. destruct l as [c|t w].
  - rewrite trace_call. split.
    + unfold absent. rewrite snoc_call. cbn [sh thr]. split; [exact A|]. intros t p N. rewrite nth_snoc in N. destruct (Nat.eqb_spec t (length (thr (final h)))); [|eapply B; eauto].
      injection N as <-. destruct c; try reflexivity. destruct x0; [|reflexivity]. cbn. apply Nat.eqb_neq. congruence.
    + intros tr u old new T. rewrite <- (app_nil_r (trace h)) in T at 1. apply app_inv_head in T as <-. auto.
  - destruct (nth_error (thr (final h)) t) as [p|] eqn:N.
    + destruct (run1 w (alive (final h) t) (sh (final h)) t p) as [[s' p'] e] eqn:R. destruct (run1_obs _ _ _ _ _ _ _ _ x R (B _ _ N)) as (P' & O & E).
      assert (F : final (h ++ [LRun t w]) = St s' (set_nth t p' (thr (final h)))) by (rewrite final_snoc; cbn; rewrite N, R; reflexivity).
      assert (T : trace (h ++ [LRun t w]) = trace h ++ e) by (rewrite trace_snoc; cbn; rewrite N, R; reflexivity).
      split.
      * unfold absent. rewrite F. cbn [sh thr]. split; [auto|]. intros t' q N'. rewrite (nth_set _ _ _ _ _ N) in N'. destruct (Nat.eqb_spec t t'); [injection N' as <-; exact P'|eapply B; eauto].
      * intros tr u old new T'. rewrite T in T'. apply app_inv_head in T' as <-. intros I. exact (A (E _ _ _ I)).
    + assert (F : final (h ++ [LRun t w]) = final h) by (rewrite final_snoc; cbn; rewrite N; reflexivity).
      assert (T : trace (h ++ [LRun t w]) = trace h) by (rewrite trace_snoc; cbn; rewrite N; apply app_nil_r).
      split; [unfold absent; rewrite F; split; assumption|]. intros tr u old new T'. rewrite T in T'. rewrite <- (app_nil_r (trace h)) in T' at 1. apply app_inv_head in T' as <-. auto.
Qed.
Lemma absent_app h k x : absent h x -> ~ In (LCall (CObserve (Some x))) k ->
  absent (h ++ k) x /\ forall tr u old new, trace (h ++ k) = trace h ++ tr -> ~ In (ENotify u x old new) tr.
Proof.
  intros A. induction k as [|l k IH] using rev_ind; intros NI.
  - rewrite app_nil_r. split; [exact A|]. intros tr u old new T. rewrite <- (app_nil_r (trace h)) in T at 1. apply app_inv_head in T as <-. auto.
  - destruct IH as [A1 B1]; [intros I; apply NI, in_app_iff; auto|]. destruct (absent_step (h ++ k) l x A1) as [A2 B2]; [intros ->; apply NI, in_app_iff; cbn; auto|].
    rewrite app_assoc. split; [exact A2|]. intros tr u old new T.
    pose proof (trace_app h k) as T1. pose proof (trace_app (h ++ k) [l]) as T2. set (e1 := snd (run (final h) k)) in *. set (e2 := snd (run (final (h ++ k)) [l])) in *. clearbody e1 e2.
    assert (TT : tr = e1 ++ e2). { apply (app_inv_head (trace h)). rewrite app_assoc, <- T1, <- T2. symmetry. exact T. }
    subst tr. intros I. apply in_app_iff in I as [I|I]; [exact (B1 _ _ _ _ T1 I)|exact (B2 _ _ _ _ T2 I)].
Qed.

Lemma settled_pcs h x : settled h x -> forall t p, nth_error (thr (final h)) t = Some p -> obs_pc x p = false.
Proof.
  intros S t p N. destruct (obs_pc x p) eqn:O; [|reflexivity]. exfalso. destruct (i_fit h (inv_final h) _ _ N) as (c & C & F).
  assert (c = CObserve (Some x) /\ p <> PDone) as [-> ND].
  { destruct p; try discriminate O; cbn in O, F.
    - subst c0. destruct c; try discriminate O. destruct x0; [|discriminate O]. apply Nat.eqb_eq in O. subst. split; [reflexivity|discriminate].
    - apply Nat.eqb_eq in O. subst. split; [reflexivity|discriminate].
    - apply Nat.eqb_eq in O. subst. split; [reflexivity|discriminate]. }
  exact (not_done _ _ _ N ND (S _ C)).
Qed.

(** After unregistering, from the moment it takes effect. *)
Lemma unobserve_absent h1 h2 x : settled h1 x -> ~ In (LCall (CObserve (Some x))) h2 -> returned (h1 ++ LCall (CUnobserve x) :: h2) (length (calls h1)) ->
  absent (h1 ++ LCall (CUnobserve x) :: h2) x.
Proof.
  intros S NI RT. set (u := length (calls h1)) in *.
  assert (X : forall k, ~ In (LCall (CObserve (Some x))) k -> let h := h1 ++ LCall (CUnobserve x) :: k in
    (forall t p, nth_error (thr (final h)) t = Some p -> obs_pc x p = false) /\ (nth_error (thr (final h)) u = Some (PStart (CUnobserve x)) \/ absent h x)).
  { induction k as [|l k IH] using rev_ind; intros NK h.
    - subst h. rewrite snoc_call. cbn [thr]. split.
      + intros t p N. rewrite nth_snoc in N. destruct (Nat.eqb_spec t (length (thr (final h1)))); [injection N as <-; reflexivity|eapply settled_pcs; eauto].
      + left. rewrite nth_snoc, (i_len h1 (inv_final h1)). unfold u. rewrite Nat.eqb_refl. reflexivity.
    - destruct IH as [B C]; [intros I; apply NK, in_app_iff; auto|]. set (h0 := h1 ++ LCall (CUnobserve x) :: k) in *.
      assert (HH : h = h0 ++ [l]) by (unfold h, h0; rewrite <- app_assoc; reflexivity). clearbody h. subst h.
      assert (NL : l <> LCall (CObserve (Some x))) by (intros ->; apply NK, in_app_iff; cbn; auto).
      destruct C as [C|C].
      2:{ destruct (absent_step h0 l x C NL) as [D _]. split; [exact (proj2 D)|right; exact D]. }
      destruct l as [c|t w].
      + rewrite snoc_call. cbn [thr]. split.
        * intros t p N. rewrite nth_snoc in N. destruct (Nat.eqb_spec t (length (thr (final h0)))); [|eapply B; eauto].
          injection N as <-. destruct c; try reflexivity. destruct x0; [|reflexivity]. cbn. apply Nat.eqb_neq. congruence.
        * left. rewrite nth_snoc. destruct (Nat.eqb_spec u (length (thr (final h0)))); [|exact C]. apply nth_lt in C. lia.
      + destruct (nth_error (thr (final h0)) t) as [p|] eqn:N.
        * destruct (run1 w (alive (final h0) t) (sh (final h0)) t p) as [[s' p'] e] eqn:R. destruct (run1_obs _ _ _ _ _ _ _ _ x R (B _ _ N)) as (P' & O & E).
          assert (F : final (h0 ++ [LRun t w]) = St s' (set_nth t p' (thr (final h0)))) by (rewrite final_snoc; cbn; rewrite N, R; reflexivity).
          assert (PC : forall t' q, nth_error (thr (final (h0 ++ [LRun t w]))) t' = Some q -> obs_pc x q = false).
          { rewrite F. cbn [thr]. intros t' q N'. rewrite (nth_set _ _ _ _ _ N) in N'. destruct (Nat.eqb_spec t t'); [injection N' as <-; exact P'|eapply B; eauto]. }
          split; [exact PC|]. destruct (Nat.eq_dec t u) as [->|NE].
          -- right. split; [|exact PC]. rewrite F. cbn [sh]. rewrite C in N. injection N as <-. cbn in R. break_run. cbn. intros I. apply filter_In in I as [_ I]. rewrite Nat.eqb_refl in I. discriminate.
          -- left. rewrite F. cbn [thr]. rewrite (nth_set _ _ _ _ _ N). destruct (Nat.eqb_spec t u); [congruence|exact C].
        * assert (F : final (h0 ++ [LRun t w]) = final h0) by (rewrite final_snoc; cbn; rewrite N; reflexivity). rewrite F. auto. }
  destruct (X h2 NI) as [_ [C|C]]; [|exact C]. exfalso. exact (not_done _ _ _ C ltac:(discriminate) RT).
Qed.

(** An observer that threw. *)
Lemma thrown_absent h t w x u old new tr : settled h x -> trace (h ++ [LRun t w]) = trace h ++ tr -> In (ENotify u x old new) tr -> o_gone w x = true -> absent (h ++ [LRun t w]) x.
Proof.
  intros S T I G. pose proof (settled_pcs _ _ S) as B. destruct (nth_error (thr (final h)) t) as [p|] eqn:N.
  - destruct (run1 w (alive (final h) t) (sh (final h)) t p) as [[s' p'] e] eqn:R. destruct (run1_obs _ _ _ _ _ _ _ _ x R (B _ _ N)) as (P' & O & E).
    assert (F : final (h ++ [LRun t w]) = St s' (set_nth t p' (thr (final h)))) by (rewrite final_snoc; cbn; rewrite N, R; reflexivity).
    assert (T0 : trace (h ++ [LRun t w]) = trace h ++ e) by (rewrite trace_snoc; cbn; rewrite N, R; reflexivity). rewrite T0 in T. apply app_inv_head in T. subst tr.
    split.
    + rewrite F. cbn [sh]. destruct p; cbn in R; try (break_run; cbn in I; repeat (destruct I as [I|I]; try discriminate I); contradiction).
      * break_run. cbn. intros J. apply filter_In in J as [_ J]. rewrite G in J. discriminate.
      * exfalso. break_run. pose proof (B _ _ N) as Z. cbn in Z. destruct I as [I|[I|[]]]; [|discriminate]. injection I as _ I _ _. subst. rewrite Nat.eqb_refl in Z. discriminate.
    + rewrite F. cbn [thr]. intros t' q N'. rewrite (nth_set _ _ _ _ _ N) in N'. destruct (Nat.eqb_spec t t'); [injection N' as <-; exact P'|eapply B; eauto].
  - exfalso. rewrite trace_snoc in T. cbn in T. rewrite N in T. cbn in T. apply app_inv_head in T. subst tr. destruct I.
Qed.

(** Only observers are told. *)
Lemma observer_source h x : (In x (observers (sh (final h))) -> exists r, call_of h r = Some (CObserve (Some x))) /\
  (forall t old new, In (ENotify t x old new) (trace h) -> exists r, call_of h r = Some (CObserve (Some x))).
Proof.
  destruct (existsb (fun c => match c with CObserve (Some y) => Nat.eqb y x | _ => false end) (calls h)) eqn:E.
  - apply existsb_exists in E as (c & I & C). destruct c; try discriminate C. destruct x0; [|discriminate C]. apply Nat.eqb_eq in C. subst. apply In_nth_error in I as [r I]. split; intros; exists r; exact I.
  - assert (NI : ~ In (LCall (CObserve (Some x))) h).
    { intros I. apply in_split in I as (a & b & ->). rewrite calls_app, existsb_app in E. apply orb_false_iff in E as [_ E]. cbn in E. rewrite Nat.eqb_refl in E. discriminate. }
    assert (A0 : absent [] x) by (split; [intros []|intros [|t] p N; discriminate]).
    destruct (absent_app [] h x A0 NI) as [[A _] B]. cbn [app] in A, B. split; [intros I; contradiction|]. intros t old new I. destruct (B (trace h) t old new eq_refl I).
Qed.
