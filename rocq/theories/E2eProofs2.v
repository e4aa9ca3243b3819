(** Lemmas for the end to end theorems: notifications. *)
From Verif Require Import CsTypes Amap ListUtil E2eSpec E2eProofs.
From Verif Require ReqModel ReqSpec ReqProofs ReqInv ReqIds ReqCache ReqSerial ReqProps ProvModel ProvSpec ProvProofs ProvProofs3.
From Coq Require Import NArith.

(** ** Requester: cached values were received *)
Section Requester.
Import ReqModel ReqSpec ReqProofs ReqInv.
Definition received (h : history) (o : nat) (p : option payload) : Prop :=
  exists t m, call_of h t = Some (CIncoming true m) /\ m_code m = StatusRegister /\ m_op m = o /\ m_pay m = p.
Definition pc_src (h : history) (c : call) (p : pc) : Prop :=
  match p with
  | PRegCall o _ q => received h o (Some q)
  | PGetCall _ (Some q) => exists o, c = CGetAsync o /\ received h o (Some q)
  | _ => True
  end.
Record Src (h : history) : Prop := MkSrc
  { s_cache : forall o p, get o (cache (sh (final h))) = Some p -> received h o p;
    s_pc : forall t p c, nth_error (thr (final h)) t = Some p -> call_of h t = Some c -> pc_src h c p;
    s_cb : forall t q, In (ECb t t q) (trace h) -> q = None \/
             exists o, (call_of h t = Some (CReg true o true) \/ call_of h t = Some (CGetAsync o)) /\ received h o q;
    s_ret : forall t o b q a, call_of h t = Some (CGetSync o b) -> In (ERet t (RVPay (Some q) a)) (trace h) ->
             received h o (Some q) \/ exists u, In (ECb u t (Some q)) (trace h) }.

Lemma received_ext h h' o p : ext h h' -> received h o p -> received h' o p.
Proof. intros [X _] (t & m & C & R). exists t, m. split; [apply X; exact C|exact R]. Qed.
Lemma pc_src_ext h h' c p : ext h h' -> pc_src h c p -> pc_src h' c p.
Proof.
  intros X. destruct p; cbn; try trivial; [apply received_ext; exact X|].
  destruct p; [|trivial]. intros (o & C & R). exists o. split; [exact C|]. eapply received_ext; eassumption.
Qed.

Lemma cached_spec s o s' q : cached s o = (s', q) -> cache s' = cache s /\ (forall p, q = Some p -> get o (cache s) = Some (Some p)).
Proof.
  unfold cached. destruct (get o (cache s)) as [[p|]|]; intros [= <- <-]; split; try reflexivity; try discriminate.
  intros p' [= ->]. reflexivity.
Qed.

(** Promise values come from callbacks. *)
Lemma promise_src h t p : get t (promises (sh (final h))) = Some p -> exists u, In (ECb u t p) (trace h).
Proof.
  revert t p. apply (hist_ind (fun h => forall t p, get t (promises (sh (final h))) = Some p -> exists u, In (ECb u t p) (trace h))).
  - intros t p H. discriminate.
  - intros h0 c IH t p. rewrite snoc_call, trace_call. apply IH.
  - intros h0 t0 w IH N F T t p. rewrite F, T. apply IH.
  - intros h0 t0 w p0 s' p' e IH N R F T t p. rewrite F, T. cbn [sh]. intros G.
    assert (X : get t (promises (sh (final h0))) = Some p \/ exists u, In (ECb u t p) e).
    { destruct p0; cbn in R; try solve [break_run; auto].
      - left. destruct (cached (sh (final h0)) o) as [s1 q] eqn:K.
        assert (P : promises s1 = promises (sh (final h0))) by (revert K; unfold cached; destruct (get o (cache (sh (final h0)))) as [[?|]|]; intros [= <- <-]; reflexivity).
        destruct q; break_run; rewrite P in G; exact G.
      - left. destruct (cached (sh (final h0)) o) as [s1 q] eqn:K.
        assert (P : promises s1 = promises (sh (final h0))) by (revert K; unfold cached; destruct (get o (cache (sh (final h0)))) as [[?|]|]; intros [= <- <-]; reflexivity).
        destruct sync; break_run; rewrite P in G; exact G.
      - destruct todo as [|y todo].
        + destruct keep; break_run; left; exact G.
        + destruct (e_kind y); break_run; auto. cbn in G.
          destruct (Nat.eqb_spec t (e_owner y)) as [EQ|NE].
          * subst t. rewrite get_put_same in G. injection G as <-. right. exists t0. left. reflexivity.
          * rewrite get_put_other in G by exact NE. left. exact G. }
    destruct X as [X|(u & X)].
    + destruct (IH _ _ X) as (u & I). exists u. apply in_or_app. left. exact I.
    + exists u. apply in_or_app. right. exact X.
Qed.

Lemma run1_pay w al s t p s' p' e v q a : run1 w al s t p = (s', p', e) -> In (ERet v (RVPay (Some q) a)) e ->
  v = t /\ ((exists o rid b, p = PWait o rid b /\ get t (promises s) = Some (Some q)) \/
            (exists x o, p = PGetCached true x o /\ get o (cache s) = Some (Some q))).
Proof.
  intros R H. destruct p; cbn in R; try solve [break_run; cbn in H; intuition discriminate].
  - destruct (o_res w); break_run; cbn in H; unfold out in H; try contradiction; destruct H as [H|[]]; try discriminate; destruct code; discriminate.
  - injection R as <- <- <-. destruct H as [H|[]]. unfold out in H. destruct k; try discriminate; destruct code; discriminate.
  - break_run; cbn in H; try contradiction; try (destruct H as [H|[]]; discriminate).
    destruct H as [H|[]]. injection H as <- -> <-. split; [reflexivity|]. left. eauto 6.
  - destruct (cached s o) as [s1 x] eqn:K. destruct (cached_spec _ _ _ _ K) as (_ & V). destruct sync; break_run; cbn in H; [|contradiction].
    destruct H as [H|[]]. injection H as <- -> <-. split; [reflexivity|]. right. eauto.
  - break_run. apply in_app_iff in H as [H|[H|[]]]; [|discriminate]. apply in_map_iff in H as (? & ? & _). discriminate.
Qed.

Lemma run1_own_cb w al s t p s' p' e q c : fits c p -> run1 w al s t p = (s', p', e) -> In (ECb t t q) e ->
  (exists o rid x, p = PRegCall o rid x /\ q = Some x) \/ (exists a, p = PGetCall a q) \/ (exists m l k, p = PInRun m l k).
Proof.
  intros F R H. destruct p; cbn in R; try solve [break_run; cbn in H; intuition discriminate].
  - break_run. destruct H as [H|[H|[]]]; [|discriminate]. injection H as <-. left. eauto.
  - break_run. destruct H as [H|[H|[]]]; [|discriminate]. injection H as <-. right. left. eauto.
  - right. right. eauto.
  - break_run. apply in_app_iff in H as [H|[H|[]]]; [|discriminate]. apply in_map_iff in H as (? & ? & _). discriminate.
Qed.

Lemma run1_pc w al s t p s' p' e c : fits c p -> run1 w al s t p = (s', p', e) ->
  (forall o rid x, p' = PRegCall o rid x -> get o (cache s) = Some (Some x)) /\
  (forall a x, p' = PGetCall a (Some x) -> exists o, c = CGetAsync o /\ get o (cache s) = Some (Some x)).
Proof.
  intros F R. destruct p; cbn in R.
  all: try solve [break_run; split; intros; try discriminate].
  - destruct (cached s o) as [s1 [x|]] eqn:K; destruct (cached_spec _ _ _ _ K) as (_ & V); break_run; split; intros; try discriminate.
    injection H as <- <- <-. auto.
  - destruct (cached s o) as [s1 x] eqn:K. destruct (cached_spec _ _ _ _ K) as (_ & V). destruct sync; break_run; split; intros; try discriminate.
    injection H as <- ->. cbn in F. exists o. auto.
  - break_run. split; intros; destruct new; discriminate.
Qed.

Lemma run1_cache w al s t p s' p' e o q : run1 w al s t p = (s', p', e) -> get o (cache s') = Some q ->
  get o (cache s) = Some q \/ exists m, p = PInRun m [] true /\ m_op m = o /\ m_pay m = q.
Proof.
  intros R G. destruct p; cbn in R; try solve [break_run; auto].
  - destruct (cached s o0) as [s1 [x|]] eqn:K; destruct (cached_spec _ _ _ _ K) as (V & _); break_run; rewrite V in G; auto.
  - break_run. cbn in G. rewrite get_del in G. destruct (Nat.eqb _ _); [discriminate|auto].
  - break_run. cbn in G. rewrite get_del in G. destruct (Nat.eqb _ _); [discriminate|auto].
  - destruct (cached s o0) as [s1 x] eqn:K. destruct (cached_spec _ _ _ _ K) as (V & _). destruct sync; break_run; rewrite V in G; auto.
  - destruct todo as [|y todo]; [|destruct (e_kind y); break_run; auto].
    destruct keep; break_run; auto. cbn in G. rewrite get_put in G. destruct (Nat.eqb_spec o (m_op m)) as [EQ|NE]; [|auto].
    injection G as <-. right. exists m. auto.
Qed.

Lemma src_final h : Src h.
Proof.
  apply (hist_ind Src).
  - constructor; cbn; try discriminate; try contradiction. intros t p c H. destruct t; discriminate.
  - intros h0 c I. pose proof (ext_app h0 [LCall c]) as X. constructor.
    + intros o p G. rewrite snoc_call in G. cbn in G. eapply received_ext; [exact X|]. exact (s_cache _ I _ _ G).
    + intros t p c' N C. rewrite snoc_call in N. cbn in N. rewrite nth_snoc in N.
      destruct (Nat.eqb t (length (thr (final h0)))) eqn:Q; [injection N as <-; exact Logic.I|].
      eapply pc_src_ext; [exact X|]. eapply (s_pc _ I); [exact N|].
      rewrite call_of_call, <- (i_len _ (inv_final h0)), Q in C. exact C.
    + intros t q J. rewrite trace_call in J. destruct (s_cb _ I _ _ J) as [->|(o & K & R)]; [auto|]. right. exists o.
      split; [destruct K; [left|right]; apply X; assumption|eapply received_ext; eassumption].
    + intros t o b q a C J. rewrite trace_call in J. 
      destruct (i_len _ (inv_final h0)).
      assert (C0 : call_of h0 t = Some (CGetSync o b)).
      { rewrite call_of_call in C. destruct (Nat.eqb_spec t (length (calls h0))) as [EQ|NE]; [|exact C].
        exfalso. pose proof (ReqCache.evs_fresh h0 t ltac:(lia)) as Z. unfold ReqSpec.trace in *.
        assert (Y : In (ERet t (RVPay (Some q) a)) (ReqCache.evs h0 t)).
        { unfold ReqCache.evs. apply filter_In. split; [exact J|]. cbn. apply Nat.eqb_refl. }
        rewrite Z in Y. destruct Y. }
      destruct (s_ret _ I _ _ _ _ _ C0 J) as [R|(u & R)]; [left; eapply received_ext; eassumption|right; exists u; apply X; exact R].
  - intros h0 t0 w I N F T. pose proof (ext_app h0 [LRun t0 w]) as X. constructor.
    + intros o p G. rewrite F in G. eapply received_ext; [exact X|]. exact (s_cache _ I _ _ G).
    + intros t p c' N' C. rewrite F in N'. rewrite call_of_run in C. eapply pc_src_ext; [exact X|]. exact (s_pc _ I _ _ _ N' C).
    + intros t q J. rewrite T in J. destruct (s_cb _ I _ _ J) as [->|(o & K & R)]; [auto|]. right. exists o.
      split; [destruct K; [left|right]; apply X; assumption|eapply received_ext; eassumption].
    + intros t o b q a C J. rewrite T in J. rewrite call_of_run in C.
      destruct (s_ret _ I _ _ _ _ _ C J) as [R|(u & R)]; [left; eapply received_ext; eassumption|right; exists u; apply X; exact R].
  - intros h0 t0 w p s' p' e I N R F T. pose proof (ext_app h0 [LRun t0 w]) as X. pose proof (inv_final h0) as V.
    destruct (i_fit _ V _ _ N) as (c & C & L).
    assert (Hc : forall o p, get o (cache (sh (final h0))) = Some p -> received (h0 ++ [LRun t0 w]) o p).
    { intros o q G. eapply received_ext; [exact X|]. exact (s_cache _ I _ _ G). }
    constructor.
    + intros o q G. rewrite F in G. cbn [sh] in G. destruct (run1_cache _ _ _ _ _ _ _ _ _ _ R G) as [G'|(m & -> & <- & <-)]; [auto|].
      cbn in L. subst c. exists t0, m. rewrite call_of_run. split; [exact C|]. split; [|auto].
      destruct (opcode_eqb_spec (m_code m) StatusRegister) as [E|NE]; [exact E|].
      pose proof (ReqCache.keep_false _ _ _ _ _ N NE). discriminate.
    + intros t p1 c1 N1 C1. rewrite F in N1. cbn [thr] in N1. rewrite call_of_run in C1.
      destruct (Nat.eq_dec t t0) as [EQ|NE].
      * subst t. rewrite (nth_set _ _ _ _ _ N), Nat.eqb_refl in N1.
        injection N1 as <-. rewrite C in C1. injection C1 as <-. destruct (run1_pc _ _ _ _ _ _ _ _ _ L R) as (A & B).
        destruct p'; cbn; try trivial; [apply Hc; eauto|]. destruct p0; [|trivial]. destruct (B _ _ eq_refl) as (o & E & G). exists o. auto.
      * rewrite nth_set_other in N1 by congruence. eapply pc_src_ext; [exact X|]. exact (s_pc _ I _ _ _ N1 C1).
    + intros t q J. rewrite T in J. apply in_app_iff in J as [J|J].
      * destruct (s_cb _ I _ _ J) as [->|(o & K & Rc)]; [auto|]. right. exists o.
        split; [destruct K; [left|right]; apply X; assumption|eapply received_ext; eassumption].
      * assert (t = t0) as -> by exact (ReqSerial.ev_thread _ _ _ _ _ _ _ _ _ R J). rewrite call_of_run.
        pose proof (s_pc _ I _ _ _ N C) as S.
        destruct (run1_own_cb _ _ _ _ _ _ _ _ _ _ L R J) as [(o & rid & x & -> & ->)|[(a & ->)|(m & l & k & ->)]].
        -- cbn in S, L. subst c. right. exists o. split; [auto|]. eapply received_ext; eassumption.
        -- destruct q as [x|]; [|auto]. cbn in S. destruct S as (o & -> & Rc). right. exists o. split; [auto|]. eapply received_ext; eassumption.
        -- exfalso. cbn in L. subst c.
           pose proof (i_cb _ (inv_final (h0 ++ [LRun t0 w]))) as Z. rewrite T in Z.
           destruct (Z t0 t0 q (in_or_app _ _ _ (or_intror J))) as [(m' & y & Cm & _ & Ey & _ & Ok)|(_ & o & [K|K])];
             try (rewrite call_of_run, C in K; discriminate).
           unfold run_ok in Ok. destruct (answer_code (m_code m')).
           ++ destruct Ok as [[(d & code & pl & b & D & Lk) _] _]. rewrite Ey, call_of_run, C in D. injection D as <-. exact Lk.
           ++ destruct Ok as [(stt & D) _]. rewrite Ey, call_of_run, C in D. discriminate.
    + intros t o b q a Ct J. rewrite call_of_run in Ct. rewrite T in J |- *. apply in_app_iff in J as [J|J].
      * destruct (s_ret _ I _ _ _ _ _ Ct J) as [Rc|(u & Rc)]; [left; eapply received_ext; eassumption|right; exists u; apply in_or_app; left; exact Rc].
      * destruct (run1_pay _ _ _ _ _ _ _ _ _ _ _ R J) as (-> & [(o' & rid & b' & -> & P)|(x & o' & -> & G)]).
        -- right. destruct (promise_src _ _ _ P) as (u & U). exists u. apply in_or_app. left. exact U.
        -- left. cbn in L. destruct L as (b' & ->). rewrite C in Ct. injection Ct as <- <-. apply Hc. exact G.
Qed.
End Requester.

(** ** Provider: what notifications carry *)
Section Provider.
Import ProvModel ProvSpec ProvProofs.

Lemma note_source h a m res : In (ESend a m res) (trace h) -> m_code m = StatusRegister \/ m_code m = SignalRegister ->
  (m_code m = StatusRegister /\ exists h1 h2, h = h1 ++ h2 /\ value_after h1 (m_op m) = m_pay m) \/
  (m_code m = SignalRegister /\ In (OSignal (m_op m) (m_pay m)) (ops_of h)).
Proof.
  intros I Cd. destruct (in_trace_split _ _ I) as (h1 & n & x & h2 & -> & J).
  unfold next, step in J. rewrite (inv_ub _ (final_inv h1)) in J.
  assert (NB : forall s o c p s' ev a0, broadcast n s o c p = (s', ev, a0) -> In (ESend a m res) (ev ++ [EReturn (RStatus a0)]) ->
             m_code m = c /\ m_op m = o /\ m_pay m = p).
  { intros s o c p s' ev a0 B Q. apply in_app_iff in Q as [Q|[Q|[]]]; [|discriminate]. exact (bcast_codes _ _ _ _ _ _ _ _ _ _ _ B Q). }
  destruct x; cbn in J; try solve [destruct J as [J|[]]; discriminate]; try solve [destruct J].
  - unfold on_incoming in J. destruct (m_code m0) eqn:C0.
    all: try solve [cbn in J; destruct J as [J|[]]; discriminate].
    + unfold update_latest in J. destruct (get_status _ _) as [p|] eqn:G; cbn in J.
      * destruct J as [J|[J|[]]]; [|discriminate]. injection J as <- <- <-. left. cbn. split; [exact C0|].
        exists h1, ((n, OIn m0) :: h2). split; [reflexivity|]. destruct (ProvProofs3.final_tables h1) as (_ & T & _). rewrite <- T. exact G.
      * destruct J as [J|[]]. discriminate.
    + exfalso. cbn in J. destruct J as [J|[J|[]]]; [|discriminate]. injection J as <- <- <-. cbn in Cd. rewrite C0 in Cd. destruct Cd; discriminate.
    + exfalso. unfold on_action_request in J. destruct (get _ _); cbn in J.
      * destruct J as [J|[J|[]]]; discriminate.
      * destruct J as [J|[J|[]]]; [|discriminate]. injection J as <- <- <-. cbn in Cd. rewrite C0 in Cd. destruct Cd; discriminate.
    + unfold on_request_aborted in J. destruct (find_req _ _).
      * cbn in J. apply in_app_iff in J as [J|[J|[]]]; [|discriminate]. unfold abort_event in J. destruct (nth_error _ _) as [q|]; [|destruct J].
        destruct (q_abort q); [destruct J as [J|[]]; discriminate|destruct J].
      * destruct J as [J|[]]. discriminate.
  - destruct (nth_error _ _) as [q|]; [|destruct J]. exfalso.
    unfold reply, respond_to_request in J. destruct (q_valid q); cbn in J; [|destruct J as [J|[]]; discriminate].
    destruct partial; cbn in J.
    + destruct (find_req _ _); cbn in J; [|destruct J as [J|[]]; discriminate]. destruct J as [J|[J|[]]]; [|discriminate].
      injection J as <- <- <-. cbn in Cd. destruct Cd; discriminate.
    + destruct (find_req _ _); cbn in J; [|destruct J as [J|[]]; discriminate]. destruct J as [J|[J|[]]]; [|discriminate].
      injection J as <- <- <-. cbn in Cd. destruct Cd; discriminate.
  - destruct (nth_error _ _) as [q|]; [|destruct J]. destruct (q_valid q); [destruct J|destruct J as [J|[]]; discriminate].
  - unfold set_status in J. destruct (differs _ _).
    + destruct (broadcast n _ o StatusRegister p) as [[s1 ev1] a1] eqn:B. cbn in J. destruct (NB _ _ _ _ _ _ _ B J) as (-> & -> & ->).
      left. split; [reflexivity|]. exists (h1 ++ [(n, OSetStatus o p)]), h2. rewrite <- app_assoc. split; [reflexivity|].
      unfold value_after, ops_of. rewrite map_app, fold_left_app. cbn. rewrite Nat.eqb_refl. reflexivity.
    + cbn in J. destruct J as [J|[]]. discriminate.
  - destruct notify.
    + destruct (broadcast n _ o StatusRegister None) as [[s1 ev1] a1] eqn:B. cbn in J. destruct (NB _ _ _ _ _ _ _ B J) as (-> & -> & ->).
      left. split; [reflexivity|]. exists (h1 ++ [(n, ORemoveProperty o true)]), h2. rewrite <- app_assoc. split; [reflexivity|].
      unfold value_after, ops_of. rewrite map_app, fold_left_app. cbn. rewrite Nat.eqb_refl. reflexivity.
    + cbn in J. destruct J as [J|[]]. discriminate.
  - destruct (broadcast n _ o SignalRegister p) as [[s1 ev1] a1] eqn:B. cbn in J. destruct (NB _ _ _ _ _ _ _ B J) as (-> & -> & ->).
    right. split; [reflexivity|]. unfold ops_of. rewrite map_app. apply in_or_app. right. left. reflexivity.
  - destruct h; [destruct (get _ _)|]; destruct J as [J|[]]; discriminate.
  - exfalso. unfold deinit, invalidate_all in J. revert J. clear.
    assert (X : forall l s ev0, ~ In (ESend a m res) ev0 ->
      ~ In (ESend a m res) (snd (fold_left (fun '(s, ev) r => let s' := invalidate s r in (s', ev ++ abort_event s' r)) l (s, ev0)))).
    { induction l as [|i l IH]; intros s ev0 N; [exact N|]. cbn [fold_left]. apply IH. intros Q. apply in_app_iff in Q as [Q|Q]; [exact (N Q)|].
      unfold abort_event in Q. destruct (nth_error _ _) as [q|]; [|destruct Q]. destruct (q_abort q); [destruct Q as [Q|[]]; discriminate|destruct Q]. }
    specialize (X (flat_map snd (reqs (set_regs (final h1) []))) (set_regs (final h1) []) [] (fun x => x)).
    destruct (fold_left _ _ _) as [s1 ev1]. cbn. exact X.
Qed.
End Provider.
