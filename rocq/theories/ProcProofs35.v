(** What the calls of a processor that submit nothing do and answer. *)
From Verif Require Import ListUtil Amap ProcModel ProcSpec ProcProofs ProcProofs2 ProcProofs3 ProcProofs4 ProcProofs5 ProcProofs6 ProcProofs7 ProcProofs9 ProcProofs11 ProcProofs14 ProcProofs16 ProcProofs17 ProcProofs18 ProcProofs19 ProcProofs20 ProcProofs21 ProcProofs22 ProcProofs23 ProcProofs24 ProcProofs25 ProcProofs26 ProcProofs28 ProcProofs31 ProcProofs32 ProcProofs33 ProcProofs34.
From Verif Require QueueModel QueueSpec SigModel SigSpec SigProofs2 SigProofs3 SigProofs7 ProcProofs20.

(** The result a step of a call produced is the result of the call. *)
Ltac got R E := match goal with |- ?r = ?x => symmetry; apply R; unfold trace; rewrite E; cbn; apply in_or_app; right; first [left; reflexivity|right; left; reflexivity] end.
Ltac noret RR NR E := exfalso; apply NR; let t' := fresh in destruct RR as (t' & RR); unfold trace in RR; rewrite E in RR; exists t'; exact RR.

(** ** stopped(), stop(), reuse() *)
Lemma stopped_changes h l p : is_stopped (final (h ++ [l])) p = is_stopped (final h) p \/
  (is_stopped (final (h ++ [l])) p = false /\ exists n, during h h (fst l) n (KReuse p)) \/ (is_stopped (final (h ++ [l])) p = true /\ exists n, during h h (fst l) n (KStop p)).
Proof.
  destruct (core_closed _ _ _ p (good_final h) (qinv_final h) (final_step h l)) as [X|[(X & n & r & S & C)|(X & n & i & r & S & _ & C)]]; [auto| |].
  - right. left. split; [exact X|]. exists n. eapply during_now; [rewrite S; left; reflexivity|exact C].
  - right. right. split; [exact X|]. exists n. eapply during_now; [rewrite S; left; reflexivity|exact C].
Qed.

Lemma reuse_opens h t n r p : In (ERet t n r) (trace h) -> called h t n (KReuse p) -> exists h1 l h2, h = h1 ++ l :: h2 /\ ~ returned h1 n r /\ returned (h1 ++ [l]) n r /\ is_stopped (final (h1 ++ [l])) p = false.
Proof.
  intros I CA. destruct (ret_plain _ _ _ _ _ I CA eq_refl) as (h1 & ch & h2 & k & r0 & -> & D & DD & NR & RR & C & S & FT & E & R). exists h1, (t, AGo ch), h2. do 3 (split; [solve [auto]|]).
  destruct k; try discriminate FT. rewrite E. unfold is_stopped. cbn. unfold queue, proc_at. cbn. rewrite ?upd_same. cbn. rewrite ?upd_same. cbn. change (p_q (procs (final h1) p)) with (queue (final h1) p). replace (queue (q_call (final h1) p QueueModel.OReOpen) p) with (queue (final h1) p ++ [QueueModel.LCall QueueModel.OReOpen]) by (unfold queue, proc_at; cbn; rewrite upd_same; reflexivity). apply q_reopen.
Qed.

(** Before stop() returns, the processor is stopped. *)
Lemma stop_seen h : forall t n k r p, stk (final h) t = FCall n k :: r -> nth_error (calls (final h)) n = Some (t, KStop p) ->
  (exists i, k = PClear i \/ k = PClose i /\ qtask (queue (final h) p) i <> Some (QueueModel.OClose, QueueModel.PStart)) -> exists h1, during h h1 t n (KStop p) /\ is_stopped (final h1) p = true.
Proof.
  induction h as [|lb h IH] using rev_ind; [intros; discriminate|]. intros t n k r p S C K0.
  pose proof (final_step h lb) as K. pose proof (core_qview _ _ _ (good_final h) (qinv_final h) K) as V. pose proof (good_final h) as G. pose proof (qinv_final h) as QI.
  assert (CB : forall k0 r0, stk (final h) t = FCall n k0 :: r0 -> nth_error (calls (final h)) n = Some (t, KStop p)).
  { intros k0 r0 S0. destruct (g_call _ _ _ (G t) n k0) as (c' & C' & _); [rewrite S0; left; reflexivity|]. pose proof (calls_mono h [lb] _ _ C'). congruence. }
  assert (UP : (exists h1, during h h1 t n (KStop p) /\ is_stopped (final h1) p = true) -> exists h1, during (h ++ [lb]) h1 t n (KStop p) /\ is_stopped (final h1) p = true).
  { intros (h1 & D & X). exists h1. split; [apply during_app; exact D|exact X]. }
  destruct (Nat.eq_dec t (fst lb)) as [->|NT].
  - assert (S0 : exists k0 r0, stk (final h) (fst lb) = FCall n k0 :: r0).
    { destruct (core_frames _ _ _ n k K) as [OLD|[X|(k0 & r0 & S0 & OR)]]; [rewrite S; left; reflexivity| | |eauto].
      - apply (call_top _ _ _ _ _ (G (fst lb))) in OLD as (r1 & S0); [eauto|]. destruct K0 as (i & [->|[-> _]]); discriminate.
      - destruct K0 as (i & [->|[-> _]]); discriminate. }
    destruct S0 as (k0 & r0 & S0). specialize (CB _ _ S0). assert (D0 : during h h (fst lb) n (KStop p)) by (eapply during_now; [rewrite S0; left; reflexivity|exact CB]).
    destruct (final_act h lb) as [E|E]; [rewrite E in S, C, K0; apply UP; exact (IH _ _ _ _ _ S C K0)|].
    assert (F0 : fit (KStop p) k0 = true) by (destruct (g_call _ _ _ (G (fst lb)) n k0) as (c' & C' & F); [rewrite S0; left; reflexivity|]; rewrite CB in C'; injection C' as <-; exact F).
    assert (SAME : act (final h) (fst lb) (snd lb) = final h -> exists h1, during (h ++ [lb]) h1 (fst lb) n (KStop p) /\ is_stopped (final h1) p = true) by (intros X; rewrite X in E; rewrite E in S, C, K0; apply UP; exact (IH _ _ _ _ _ S C K0)).
    destruct (snd lb) as [id|c1|ch| | |] eqn:A; try (apply SAME; unfold act; rewrite S0; reflexivity).
    unfold act in E. rewrite S0, CB in E. destruct k0; try discriminate F0.
    + cbn in E. destruct (is_stopped (final h) p) eqn:ST; [apply UP; exists h; auto|]. exfalso. rewrite E in S. cbn in S. rewrite upd_same in S. injection S as <- <-. destruct K0 as (i & [X|[X N]]); [discriminate|]. injection X as <-. apply N.
      replace (queue (final (h ++ [lb])) p) with (queue (final h) p ++ [QueueModel.LCall QueueModel.OClose]) by (rewrite E; unfold queue, proc_at; cbn; rewrite upd_same; reflexivity). rewrite q_call_task, Nat.eqb_refl. reflexivity.
    + destruct (qi_want _ QI (fst lb) _ _ p q S0) as (o & ph & TK & W1 & W2); [cbn; rewrite CB; reflexivity|]. subst o. cbn in E.
      assert (QR : queue (q_run (final h) p q ch) p = queue (final h) p ++ [QueueModel.LRun q ch]) by (unfold queue, proc_at; cbn; rewrite upd_same; reflexivity).
      destruct (q_close_step _ _ ch _ TK W2) as (_ & [[-> Y]|[-> Y]] & Z).
      * destruct (q_result (queue (q_run (final h) p q ch) p) q) eqn:RS.
        -- apply UP. exists h. split; [exact D0|]. rewrite QR in RS. unfold is_stopped, q_closed. destruct (QueueModel.closed (q_state (queue (final h) p))) eqn:CL; [reflexivity|exfalso].
           unfold q_result in RS. rewrite q_snoc in RS. cbn in RS. rewrite TK in RS. cbn in RS. rewrite CL in RS. cbn in RS. rewrite nth_set_same in RS by (eapply nth_lt; exact TK). discriminate.
        -- exists (h ++ [lb]). split; [eapply during_now; [rewrite S; left; reflexivity|exact C]|]. rewrite E. unfold is_stopped. rewrite QR. exact Y.
      * apply UP. eapply IH; [exact S0|exact CB|]. exists q. right. split; [reflexivity|]. rewrite TK. discriminate.
    + apply UP. eapply IH; [exact S0|exact CB|]. eauto.
  - rewrite (qv_stk _ _ _ V) in S by exact NT. specialize (CB _ _ S). apply UP. eapply IH; [exact S|exact CB|]. destruct K0 as (i & [->|[-> N]]); exists i; [auto|]. right. split; [reflexivity|]. intros TK. apply N.
    destruct (qv_others _ _ _ V) as (p0 & i0 & O & OP & OC). destruct (Nat.eq_dec p p0) as [<-|NP]; [|rewrite OP by exact NP; exact TK].
    assert (CL : calling (final h) t p i) by (do 2 eexists; split; [exact S|cbn; rewrite CB; reflexivity]).
    assert (NI : i <> i0).
    { intros ->. destruct OC as [OC|OC]; [apply NT; eapply (qi_diff _ QI); eauto|]. apply nth_lt in TK. unfold q_next in OC. lia. }
    destruct (O _ _ _ NI TK) as (ph' & X & [->|[Y _]]); [exact X|discriminate].
Qed.

Lemma stop_stops h t n r p : In (ERet t n r) (trace h) -> called h t n (KStop p) -> exists h1, during h h1 t n (KStop p) /\ is_stopped (final h1) p = true.
Proof.
  intros I CA. destruct (ret_plain _ _ _ _ _ I CA eq_refl) as (h1 & ch & h2 & k & r0 & -> & D & DD & NR & RR & C & S & FT & E & R).
  destruct k; try discriminate FT.
  - exists h1. split; [exact D|]. cbn in E. destruct (is_stopped (final h1) p); [reflexivity|]. noret RR NR E.
  - cbn in E. destruct (q_result _ _); noret RR NR E.
  - destruct (stop_seen h1 _ _ _ _ _ S C) as (h0 & D0 & X); [eauto|]. exists h0. split; [apply (during_app h1 h0 ((t, AGo ch) :: h2)); exact D0|exact X].
Qed.

(** ** pendingCount() *)
Lemma pending_exact h t n r p : In (ERet t n r) (trace h) -> called h t n (KPending p) -> exists h1, during h h1 t n (KPending p) /\ r = RNum (length (pending h1 p)).
Proof.
  intros I CA. destruct (ret_plain _ _ _ _ _ I CA eq_refl) as (h1 & ch & h2 & k & r0 & -> & D & DD & NR & RR & C & S & FT & E & R). exists h1. split; [exact D|].
  destruct k; try discriminate FT; [cbn in E; noret RR NR E|]. cbn in E.
  destruct (qi_want _ (qinv_final h1) t _ _ p q S) as (o & ph & TK & W1 & W2); [cbn; rewrite C; reflexivity|]. subst o ph.
  assert (QR : queue (q_run (final h1) p q ch) p = queue (final h1) p ++ [QueueModel.LRun q ch]) by (unfold queue, proc_at; cbn; rewrite upd_same; reflexivity). rewrite QR in E.
  destruct (q_size_step _ _ ch TK) as (_ & _ & [[_ X]|X]); rewrite X in E; [noret RR NR E|]. got R E.
Qed.

(** ** connected(), disconnect(msgid) *)
Lemma knows_exact h t n r p m : In (ERet t n r) (trace h) -> called h t n (KKnows p m) -> exists h1 b, during h h1 t n (KKnows p m) /\ r = RBool b /\ (b = true <-> table h1 p m <> None).
Proof.
  intros I CA. destruct (ret_plain _ _ _ _ _ I CA eq_refl) as (h1 & ch & h2 & k & r0 & -> & D & DD & NR & RR & C & S & FT & E & R).
  exists h1, (match table h1 p m with Some _ => true | None => false end). split; [exact D|]. split; [|destruct (table h1 p m); split; congruence].
  destruct k; try discriminate FT; [cbn in E; noret RR NR E|]. cbn in E. destruct (lock_free _ _); [|noret RR NR E]. got R E.
Qed.
Lemma forget_forgets h t n r p m : In (ERet t n r) (trace h) -> called h t n (KForget p m) -> exists h1, during h h1 t n (KForget p m) /\ table h1 p m = None.
Proof.
  intros I CA. destruct (ret_plain _ _ _ _ _ I CA eq_refl) as (h1 & ch & h2 & k & r0 & -> & D & DD & NR & RR & C & S & FT & E & R).
  exists h1. split; [exact D|]. destruct k; try discriminate FT; [cbn in E; noret RR NR E|cbn in E; destruct (lock_free _ _); noret RR NR E|]. exact (forgot_final h1 _ _ _ _ _ _ S C).
Qed.

Lemma no_handlers_yet h g : ns (final h) <= g -> handlers_of h g = [].
Proof. intros L. unfold handlers_of. unfold sig_at. rewrite (sn_new _ (SN_final h) _ L). reflexivity. Qed.

(** How the table of handlers changes. *)
Lemma table_changes h l p m : table (h ++ [l]) p m = table h p m \/
  (exists n g, during h h (fst l) n (KConnect p m) /\ table h p m = None /\ table (h ++ [l]) p m = Some g /\ handlers_of (h ++ [l]) g = [] /\ forall p' m', table h p' m' <> Some g) \/
  (exists n m', during h h (fst l) n (KForget p m') /\ table (h ++ [l]) p m = None /\ (m' = m \/ handlers h p m = [])).
Proof.
  pose proof (good_final h) as G. assert (OWN : forall n k r t0 c, stk (final h) (fst l) = FCall n k :: r -> nth_error (calls (final h)) n = Some (t0, c) -> during h h (fst l) n c).
  { intros n k r t0 c S C. destruct (g_call _ _ _ (G (fst l)) n k) as (c' & C' & F); [rewrite S; left; reflexivity|]. rewrite C in C'. injection C' as -> <-. eapply during_now; [rewrite S; left; reflexivity|exact C]. }
  assert (TE : table (h ++ [l]) p m = get m (mapat (final (h ++ [l])) p)) by reflexivity. rewrite TE. change (table h p m) with (get m (mapat (final h) p)).
  destruct (next_mp h l) as [MK|n0 t0 p0 m0 r0 S0 C0 GN MK S1 SG NN|n0 t0 p0 m0 r0 S0 C0 MK S1 _|n0 t0 p0 m0 m' g0 l0 r0 S0 C0 GM SA MK S1 _]; rewrite MK; [left; reflexivity| | |];
    unfold upd; (destruct (Nat.eqb_spec p0 p) as [->|_]; [|left; reflexivity]).
  - rewrite get_put. destruct (Nat.eqb_spec m m0) as [->|_]; [|left; reflexivity]. right. left. exists n0, (ns (final h)). split; [eapply OWN; eauto|]. split; [exact GN|]. split; [reflexivity|]. split.
    + unfold handlers_of, sig_at. rewrite SG, (sn_new _ (SN_final h)) by apply Nat.le_refl. reflexivity.
    + intros p' m' X. pose proof (sn_map _ (SN_final h) h [] p' m' _ (eq_sym (app_nil_r h)) X). lia.
  - rewrite get_del. destruct (Nat.eqb_spec m m0) as [->|_]; [|left; reflexivity]. right. right. exists n0, m0. split; [eapply OWN; eauto|]. auto.
  - rewrite get_del. destruct (Nat.eqb_spec m m') as [->|_]; [|left; reflexivity]. right. right. exists n0, m0. split; [eapply OWN; eauto|]. split; [reflexivity|]. right.
    unfold handlers. change (table h p m') with (get m' (mapat (final h) p)). rewrite GM, live_now, (any_none _ _ SA). reflexivity.
Qed.

(** ** The handlers of a signal *)
Lemma emission_plain st l : PI st -> match snd l with SigModel.AEmit _ | SigModel.AStep | SigModel.AReturn => True | _ => False end -> SigProofs2.somes (SigModel.entries (SigModel.next SigModel.Multi st l)) = SigProofs2.somes (SigModel.entries st).
Proof.
  intros H X. unfold SigModel.next. destruct (SigModel.crashed st); [reflexivity|]. destruct (ProcProofs20.watch_keeps st (SigModel.act SigModel.Multi st (fst l) (snd l))) as (_ & _ & _ & _ & -> & _).
  destruct l as [t a]. cbn [fst snd] in *. destruct a; try contradiction.
  - cbn. destruct (SigModel.free st t); [|reflexivity]. rewrite (pl_hub _ H). destruct (SigModel.entries st) eqn:EN; [|destruct (SigModel.notif st)]; cbn; rewrite ?EN; reflexivity.
  - cbn. destruct (SigModel.em st) as [e|]; [|reflexivity]. destruct (Nat.eqb (SigModel.e_thread e) t); [|reflexivity]. destruct (SigModel.e_run e); [reflexivity|]. unfold SigModel.step. destruct (nth_error (SigModel.entries st) (SigModel.e_cur e)) as [[[k s]|]|] eqn:N.
    + destruct (kind_plain st s H) as [-> | -> ]; reflexivity.
    + cbn. apply SigProofs2.somes_drop. exact N.
    + reflexivity.
  - cbn. destruct (SigModel.em st) as [e|]; [|reflexivity]. destruct (Nat.eqb (SigModel.e_thread e) t); [|reflexivity]. destruct (SigModel.e_run e) as [[k s]|]; [|reflexivity]. unfold SigModel.slot_return. destruct (kind_plain st s H) as [-> | -> ]; reflexivity.
Qed.

Lemma act_emission st t a p e m x r g : stk st t = FEmit p e m x :: r -> sigs (act st t a) g = sigs st g \/
  exists b, match b with SigModel.AEmit _ | SigModel.AStep | SigModel.AReturn => True | _ => False end /\ sigs (act st t a) g = sigs st g ++ [(t, b)].
Proof.
  intros S. assert (FIN : forall st1 p e r, sigs (finish st1 t p e r) g = sigs st1 g) by (intros; apply (finish_sig st1 t p0 e0 r0)).
  assert (UPD : forall g0 b, match b with SigModel.AEmit _ | SigModel.AStep | SigModel.AReturn => True | _ => False end -> upd (sigs st) g0 (sig_at st g0 ++ [(t, b)]) g = sigs st g \/
    exists b, match b with SigModel.AEmit _ | SigModel.AStep | SigModel.AReturn => True | _ => False end /\ upd (sigs st) g0 (sig_at st g0 ++ [(t, b)]) g = sigs st g ++ [(t, b)]).
  { intros g0 b Z. unfold upd. destruct (Nat.eqb_spec g0 g) as [->|_]; [right; exists b; auto|left; reflexivity]. }
  assert (U2 : forall g0 b X, match b with SigModel.AEmit _ | SigModel.AStep | SigModel.AReturn => True | _ => False end -> sigs X g = upd (sigs st) g0 (sig_at st g0 ++ [(t, b)]) g -> sigs X g = sigs st g \/
    exists b, match b with SigModel.AEmit _ | SigModel.AStep | SigModel.AReturn => True | _ => False end /\ sigs X g = sigs st g ++ [(t, b)]).
  { intros g0 b X Z ->. unfold upd. destruct (Nat.eqb_spec g0 g) as [->|_]; [right; exists b; auto|left; reflexivity]. }
  unfold act. rewrite S. destruct a as [id|c|ch| | |]; try (left; reflexivity).
  - destruct (user _); left; reflexivity.
  - destruct (user _ && valid st c); [|left; reflexivity]. cbv zeta. destruct c; left; try reflexivity. destruct (tl st t); reflexivity.
  - unfold go_emit. cbv zeta. destruct x as [|g0|g0|g0 s0].
    + destruct (lock_free st p); [|left; reflexivity]. destruct (get m _); left; [reflexivity|etransitivity; [apply FIN|reflexivity]].
    + destruct (s_free _ _); [|left; reflexivity]. apply (U2 g0 (SigModel.AEmit e)); [exact Logic.I|]. destruct (SigModel.crashed _); [reflexivity|]. destruct (SigModel.em _); [reflexivity|]. etransitivity; [apply FIN|reflexivity].
    + apply (U2 g0 SigModel.AStep); [exact Logic.I|]. destruct (SigModel.em _) as [em|]; [|etransitivity; [apply FIN|reflexivity]]. destruct (SigModel.e_run em) as [[]|]; reflexivity.
    + left; reflexivity.
  - destruct x as [|g0|g0|g0 s0]; try (left; reflexivity). apply (U2 g0 SigModel.AReturn); [exact Logic.I|reflexivity].
Qed.

Lemma handlers_change h l g : handlers_of (h ++ [l]) g = handlers_of h g \/ exists n c, during h h (fst l) n c /\
  ((exists s, c = KCut g s \/ c = KRestore g s) \/ exists p m, c = KConnect p m /\ table h p m = Some g).
Proof.
  rewrite !live_now. destruct (final_act h l) as [->|E]; [left; reflexivity|]. destruct (act_touch (final h) (fst l) (snd l) g) as [X|(f & r & S & X)].
  { left. rewrite E. unfold sg_at, sig_at. rewrite X. reflexivity. }
  pose proof (good_final h) as G. assert (OWN : forall n k t0 c, f = FCall n k -> nth_error (calls (final h)) n = Some (t0, c) -> during h h (fst l) n c).
  { intros n k t0 c -> C. destruct (g_call _ _ _ (G (fst l)) n k) as (c' & C' & F); [rewrite S; left; reflexivity|]. rewrite C in C'. injection C' as -> <-. eapply during_now; [rewrite S; left; reflexivity|exact C]. }
  destruct f as [n []|n p j k []|p e|p e m x]; try contradiction.
  - right. destruct X as (t0 & s & [C|C]); exists n; eexists; (split; [eapply OWN; eauto|]); left; eauto.
  - subst g0. right. destruct (g_call _ _ _ (G (fst l)) n (PConn g)) as (c & C & F); [rewrite S; left; reflexivity|]. destruct c; try discriminate F. exists n. eexists. split; [eapply OWN; eauto|]. right. exists p, m. split; [reflexivity|]. exact (li_conn _ (lockinv_final h) _ _ _ _ _ _ S C).
  - left. rewrite E. unfold sg_at, sig_at. destruct (act_emission _ _ (snd l) p e m x r g S) as [->|(b & Z & ->)]; [reflexivity|]. unfold s_state, SigModel.final. rewrite fold_left_app. cbn [fold_left]. apply (emission_plain _ (fst l, b)); [apply (PI_at h g)|exact Z].
Qed.
