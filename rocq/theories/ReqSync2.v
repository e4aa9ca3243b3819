(** Synchronous requests: nothing happens after the return, and the call does return. *)
From Verif Require Import ReqModel ReqSpec ReqProofs ReqInv ReqIds ReqOnce ReqDeliver ReqDeliver2 ReqGone ReqGone2 ReqSerial ReqCache ReqObs ReqSyncSpec ReqSync.
From Coq Require Import NArith Lia.

Lemma sync_result h t o pl b v : few h -> o <> 0 -> call_of h t = Some (CSendSync o pl b) -> In (ERet t v) (trace h) ->
  exists p a, v = RVPay p (Some a) /\ outcome h t o b p a.
Proof.
  intros Fw Ho C I. pose proof (sync_outcome h t o pl b Fw Ho C) as H. unfold sync_phase in H.
  rewrite (cnt_ret_of _ _ _ I) in H. destruct H as (p & a & I' & O & _). exists p, a. split; [eapply ret_unique; eauto|exact O].
Qed.

Lemma sync_cb_once h t o pl b : call_of h t = Some (CSendSync o pl b) -> cnt (is_cb t) (trace h) <= 1.
Proof. intros C. pose proof (promise_inv h t _ C eq_refl) as P. destruct (get t (promises (sh (final h)))); lia. Qed.

Lemma sync_silent h h2 t o pl b v u p : few h -> o <> 0 -> call_of h t = Some (CSendSync o pl b) -> In (ERet t v) (trace h) ->
  length (calls h) <= u -> ~ In (ECb u t p) (trace (h ++ h2)).
Proof.
  intros Fw Ho C I Lu Iu. pose proof (sync_outcome h t o pl b Fw Ho C) as H. unfold sync_phase in H.
  pose proof (cnt_ret_of _ _ _ I) as Nd. rewrite Nd in H. destruct H as (q & a & I' & O & G).
  assert (Da : a = Success \/ a <> Success) by (destruct a; (left; reflexivity) || (right; discriminate)).
  destruct Da as [->|Ne].
  - inversion O as [u' rid q' Al An Ic| |w' a' _ _ Ne|w' rid E1 E2 E3 E4|]; subst; [|congruence].
    pose proof (sync_cb_once (h ++ h2) t o pl b (call_of_app _ _ _ _ C)) as On.
    rewrite trace_app, cnt_app in On. rewrite trace_app in Iu.
    pose proof (cnt_pos (is_cb t) _ _ Ic (Nat.eqb_refl t)) as P1.
    apply in_app_iff in Iu as [Iu|Iu].
    + destruct (ev_called _ _ Iu) as (c & Cu). cbn in Cu. unfold call_of in Cu. apply nth_lt in Cu. lia.
    + pose proof (cnt_pos (is_cb t) _ _ Iu (Nat.eqb_refl t)). lia.
  - destruct (G Ne) as [_ Gn]. eapply gone_never; [|exact Gn|exact Lu|exact Iu].
    exists o, (CSendSync o pl b). split; [exact C|reflexivity].
Qed.

(** ** Progress *)
Definition rank (p : pc) : nat :=
  match p with
  | PStart _ => 8 | PAlloc _ _ _ _ _ => 7 | PStore _ _ _ _ _ _ => 6 | PSend _ _ _ _ _ _ => 5 | PSent _ _ _ _ _ => 4
  | PWait _ _ _ => 3 | PExpErase _ _ => 2 | PExpSend _ _ => 1 | PUndo _ _ _ _ _ => 1 | _ => 0
  end.

Lemma few_counter h : few h -> counter (sh (final h)) <> rid_invalid.
Proof.
  intros F. destruct (a_cnt h (ainv h) F) as [-> _]. pose proof (alloc_le h (ainv h)) as L. unfold few in F.
  unfold rid_invalid. lia.
Qed.

Lemma rank_step o pl b w al s t p s' p' e : fits (CSendSync o pl b) p -> run1 w al s t p = (s', p', e) -> counter s <> rid_invalid ->
  (forall rid, p = PWait o rid b -> p' <> p) -> rank p' <= pred (rank p).
Proof.
  intros F R Hc Hw. destruct p; cbn in F; try solve [exfalso; clear - F; repeat match goal with H : exists _, _ |- _ => destruct H | H : _ /\ _ |- _ => destruct H | H : context [match ?b with true => _ | false => _ end] |- _ => destruct b end; cbn in *; intuition discriminate]; cbn [run1] in R.
  - subst c. break_run; cbn; lia.
  - destruct (N.eqb_spec (counter s) rid_invalid); [congruence|]. injection R as <- <- <-. cbn. lia.
  - break_run; cbn; lia.
  - break_run; cbn; lia.
  - break_run; cbn; lia.
  - break_run; cbn; lia.
  - destruct F as (code & pl' & F). cbn in F. destruct F as (_ & -> & _ & _ & ->).
    break_run; cbn; try lia. exfalso. eapply Hw; reflexivity.
  - destruct (erase_request (requests s) o0 rid) as [m f]. destruct f; injection R as <- <- <-; cbn; lia.
  - injection R as <- <- <-. cbn. lia.
  - injection R as <- <- <-. cbn. lia.
Qed.

(** After eight steps of its own a synchronous call has returned, unless one of them found it waiting for nothing. *)
Lemma sync_progress h h2 t o pl b : few (h ++ h2) -> call_of h t = Some (CSendSync o pl b) ->
  (forall h3 w h4 rid, h2 = h3 ++ LRun t w :: h4 -> nth_error (thr (final (h ++ h3))) t = Some (PWait o rid b) ->
     nth_error (thr (final (h ++ h3 ++ [LRun t w]))) t <> Some (PWait o rid b)) ->
  8 <= steps_of t h2 -> returned (h ++ h2) t.
Proof.
  intros Fw C Hw Hs.
  assert (X : exists p, nth_error (thr (final (h ++ h2))) t = Some p /\ rank p + steps_of t h2 <= 8 \/ nth_error (thr (final (h ++ h2))) t = Some p /\ rank p = 0).
  { clear Hs. revert Fw Hw. induction h2 as [|l h2 IH] using rev_ind; intros Fw Hw.
    - rewrite app_nil_r. assert (L : t < length (thr (final h))) by (rewrite (i_len h (inv_final h)); eapply nth_lt; exact C).
      apply nth_error_Some in L. destruct (nth_error (thr (final h)) t) as [p|]; [|congruence]. exists p. left. split; [reflexivity|].
      unfold steps_of. rewrite cnt_nil. destruct p; cbn; lia.
    - rewrite app_assoc in Fw. destruct IH as (p & IH); [eapply few_snoc; exact Fw| |].
      { intros h3 w h4 rid -> N. apply (Hw h3 w (h4 ++ [l]) rid); [rewrite <- app_assoc; reflexivity|exact N]. }
      assert (N : nth_error (thr (final (h ++ h2))) t = Some p) by (destruct IH as [[N _]|[N _]]; exact N).
      rewrite app_assoc. unfold steps_of in IH |- *. rewrite cnt_app, cnt_cons, cnt_nil, Nat.add_0_r.
      assert (Keep : nth_error (thr (final ((h ++ h2) ++ [l]))) t = Some p -> match l with LRun u _ => u <> t | _ => True end ->
        exists p, nth_error (thr (final ((h ++ h2) ++ [l]))) t = Some p /\ rank p + (cnt (fun l => match l with LRun u _ => Nat.eqb u t | _ => false end) h2 + b2n (match l with LRun u _ => Nat.eqb u t | _ => false end)) <= 8 \/
          nth_error (thr (final ((h ++ h2) ++ [l]))) t = Some p /\ rank p = 0).
      { intros N' Hl. exists p. assert (Z : b2n (match l with LRun u _ => Nat.eqb u t | _ => false end) = 0).
        { destruct l; [reflexivity|]. apply Nat.eqb_neq in Hl. rewrite Hl. reflexivity. }
        rewrite Z, Nat.add_0_r. destruct IH as [[_ IH]|[_ IH]]; [left|right]; split; auto. }
      destruct l as [c|u w].
      + apply Keep; [|exact I]. rewrite snoc_call. cbn [thr]. rewrite nth_snoc. destruct (Nat.eqb_spec t (length (thr (final (h ++ h2))))); [|exact N].
        apply nth_lt in N. lia.
      + destruct (Nat.eq_dec u t) as [->|Nu].
        * destruct (step_cases (h ++ h2) t w) as [(A & _)|(p1 & s' & p' & e & A & R & F & _)]; [congruence|].
          rewrite N in A. injection A as <-. rewrite F. cbn [thr]. rewrite (nth_set _ _ _ _ _ N), Nat.eqb_refl. cbn [b2n].
          destruct (i_fit _ (inv_final (h ++ h2)) _ _ N) as (c & Cc & Fc).
          rewrite (call_of_app _ h2 _ _ C) in Cc. injection Cc as <-.
          assert (Rk : rank p' <= pred (rank p)).
          { eapply rank_step; [exact Fc|exact R|apply few_counter; eapply few_snoc; exact Fw|].
            intros rid -> ->. eapply (Hw h2 w [] rid); [reflexivity|exact N|]. rewrite app_assoc, F. cbn [thr].
            rewrite (nth_set _ _ _ _ _ N), Nat.eqb_refl. reflexivity. }
          exists p'. destruct (rank p') eqn:E; [right; auto|left; split; [reflexivity|]]. destruct IH as [[_ IH]|[_ IH]]; lia.
        * apply Keep; [|exact Nu]. destruct (step_cases (h ++ h2) u w) as [(_ & F & _)|(p1 & s' & p' & e & A & _ & F & _)]; rewrite F; [exact N|].
          cbn [thr]. rewrite nth_set_other; auto. }
  assert (Y : exists p, nth_error (thr (final (h ++ h2))) t = Some p /\ rank p = 0).
  { destruct X as (p & [[A B]|[A B]]); exists p; split; auto; lia. }
  destruct Y as (p & N & Rk). destruct (i_fit _ (inv_final (h ++ h2)) _ _ N) as (c & Cc & Fc).
  rewrite (call_of_app _ h2 _ _ C) in Cc. injection Cc as <-.
  assert (p = PDone) as ->.
  { destruct p; try discriminate Rk; try reflexivity; exfalso; clear - Fc; cbn in Fc;
      repeat match goal with H : exists _, _ |- _ => destruct H | H : _ /\ _ |- _ => destruct H | H : context [match ?b with true => _ | false => _ end] |- _ => destruct b end; cbn in *; intuition discriminate. }
  destruct (done_ret _ _ N) as [Th|Rt]; [|exact Rt]. destruct (throw_in _ _ Th) as (m & M).
  rewrite (call_of_app _ h2 _ _ C) in M. discriminate.
Qed.

Lemma wait_step h t w o rid b : nth_error (thr (final h)) t = Some (PWait o rid b) ->
  nth_error (thr (final (h ++ [LRun t w]))) t = Some (PWait o rid b) ->
  get t (promises (sh (final h))) = None /\ alive (final h) t = true /\ b && o_expired w = false.
Proof.
  intros N N'. destruct (step_cases h t w) as [(A & _)|(p1 & s' & p' & e & A & R & F & _)]; [congruence|].
  rewrite N in A. injection A as <-. rewrite F in N'. cbn [thr] in N'. rewrite (nth_set _ _ _ _ _ N), Nat.eqb_refl in N'. injection N' as ->.
  cbn in R. destruct (get t (promises (sh (final h)))); [discriminate|]. destruct (alive (final h) t); [|discriminate]. cbn in R.
  destruct (b && o_expired w) eqn:E; [discriminate|]. auto.
Qed.

Lemma promise_app h h2 t q : get t (promises (sh (final h))) = Some q -> exists q', get t (promises (sh (final (h ++ h2)))) = Some q'.
Proof.
  intros G. induction h2 as [|l h2 IH] using rev_ind; [rewrite app_nil_r; eauto|]. destruct IH as (q' & IH). rewrite app_assoc.
  destruct l as [c|u w]; [rewrite snoc_call; cbn; eauto|].
  destruct (step_cases (h ++ h2) u w) as [(_ & F & _)|(p & s' & p' & e & _ & R & F & _)]; rewrite F; eauto. cbn [sh].
  assert (Hp : (exists m x l k, p = PInRun m (x :: l) k) \/ (forall m x l k, p <> PInRun m (x :: l) k)).
  { destruct p; try (right; congruence). destruct todo; [right; congruence|left; eauto 6]. }
  destruct Hp as [(m & x & l & k & ->)|Hp].
  - cbn in R. destruct (e_kind x); break_run; cbn; eauto. rewrite get_put. destruct (Nat.eqb t (e_owner x)); eauto.
  - rewrite (promise_neutral _ _ _ _ _ _ _ _ R Hp). eauto.
Qed.

(** An answered call returns. *)
Lemma sync_answered h h2 t o pl b u p : few (h ++ h2) -> call_of h t = Some (CSendSync o pl b) -> In (ECb u t p) (trace h) ->
  8 <= steps_of t h2 -> returned (h ++ h2) t.
Proof.
  intros Fw C I. apply (sync_progress h h2 t o pl b Fw C). intros h3 w h4 rid E N N'.
  rewrite app_assoc in N'. destruct (wait_step _ _ _ _ _ _ N N') as (G & _).
  pose proof (promise_inv h t _ C eq_refl) as P. destruct (get t (promises (sh (final h)))) as [q|] eqn:Gq.
  - destruct (promise_app h h3 t q Gq) as (q' & Q). congruence.
  - pose proof (cnt_pos (is_cb t) _ _ I (Nat.eqb_refl t)). lia.
Qed.

(** A call with a timeout returns once the time has elapsed. *)
Lemma sync_bounded h h2 t o pl : few (h ++ h2) -> call_of h t = Some (CSendSync o pl true) ->
  (forall w, In (LRun t w) h2 -> o_expired w = true) -> 8 <= steps_of t h2 -> returned (h ++ h2) t.
Proof.
  intros Fw C Ex. apply (sync_progress h h2 t o pl true Fw C). intros h3 w h4 rid E N N'.
  rewrite app_assoc in N'. destruct (wait_step _ _ _ _ _ _ N N') as (_ & _ & X). cbn in X.
  rewrite Ex in X; [discriminate|]. rewrite E. apply in_or_app. right. left. reflexivity.
Qed.

(** A call whose message was sent has stored its entry. *)
Lemma send_stored h t m : In (ESend t m) (trace h) -> exists q, nth_error (thr (final h)) t = Some q /\ stores q = false.
Proof.
  induction h as [|h c IH|h u w IH N F T|h u w p s' p' e IH N R F T] using hist_ind; intros I.
  - destruct I.
  - rewrite trace_call in I. apply (no_store_app h [LCall c] t (IH I)).
  - rewrite T in I. rewrite F. auto.
  - rewrite T in I. apply in_app_iff in I as [I|I]; [apply (no_store_app h [LRun u w] t (IH I))|].
    destruct (i_fit h (inv_final h) _ _ N) as (cu & Cu & Fu).
    destruct (run1_send _ _ _ _ _ _ _ _ _ _ _ Fu R I) as (-> & H). exists p'. rewrite F. cbn [thr].
    rewrite (nth_set _ _ _ _ _ N), Nat.eqb_refl. split; [reflexivity|].
    destruct p; try contradiction; try (destruct H as [_ ->]; reflexivity); cbn in R; injection R as <- <- <-; reflexivity.
Qed.

Lemma run1_nodup w al s u p s' p' e : run1 w al s u p = (s', p', e) -> NoDup (keys (requests s)) -> NoDup (keys (requests s')).
Proof.
  intros R IH.
    assert (Rm : forall o rid, NoDup (keys (fst (remove_entry (requests s) o rid)))).
    { intros o rid. unfold remove_entry. destruct (get o (requests s)); [|exact IH]. destruct (remove_id rid l); cbn; [apply nodup_del|apply nodup_put]; exact IH. }
    assert (Er : forall o rid, NoDup (keys (fst (erase_request (requests s) o rid)))).
    { intros o rid. unfold erase_request. destruct (get o (requests s)); [|exact IH]. destruct (find_id rid l); cbn; [apply nodup_put|]; exact IH. }
    assert (Tk : forall o rid b, NoDup (keys (fst (take_request (requests s) o rid b)))).
    { intros o rid b. unfold take_request. destruct (get o (requests s)) as [l|]; [|exact IH]. cbn.
      destruct (match find_id rid l with Some _ => if b then l else remove_id rid l | None => l end); [apply nodup_del|apply nodup_put]; exact IH. }
    destruct p; cbn in R; try solve [break_run; cbn; try exact IH; try constructor; try apply nodup_put; try exact IH; try apply Rm;
      repeat match goal with C : cached _ _ = _ |- _ => apply cached_tables in C; destruct C as (_ & C & _); rewrite C end; exact IH].
    + specialize (Er o rid). destruct (erase_request (requests s) o rid) as [m f]. cbn in Er. destruct f; injection R as <- <- <-; exact Er.
    + specialize (Er o rid). destruct (erase_request (requests s) o rid) as [m f]. cbn in Er. destruct f; injection R as <- <- <-; exact Er.
    + specialize (Tk (m_op m) (m_rid m) (is_partial (m_code m))). destruct (take_request (requests s) (m_op m) (m_rid m) (is_partial (m_code m))) as [r x].
      cbn in Tk. destruct (m_code m); injection R as <- <- <-; first [exact Tk|exact IH].
    + destruct todo as [|y todo]; [injection R as <- <- <-; destruct keep; exact IH|]. destruct (e_kind y); break_run; exact IH.
Qed.

Lemma requests_nodup h : NoDup (keys (requests (sh (final h)))).
Proof.
  induction h as [|h c IH|h u w IH N F T|h u w p s' p' e IH N R F T] using hist_ind.
  - constructor.
  - rewrite snoc_call. exact IH.
  - rewrite F. exact IH.
  - rewrite F. eapply run1_nodup; [exact R|exact IH].
Qed.

Lemma gone_unheld h h2 owner : own_request h owner -> gone h owner -> unheld (h ++ h2) owner (length (calls h)).
Proof.
  intros O G. induction h2 as [|l h2 IH] using rev_ind; [rewrite app_nil_r; apply unheld_here|].
  rewrite app_assoc. apply unheld_snoc; [|apply gone_app; exact G|exact IH].
  destruct O as (o & c & C & Q). exists o, c. split; [apply call_of_app; exact C|exact Q].
Qed.

Lemma no_promise l t : cnt (own t) l = 0 -> has_promise t l = false.
Proof.
  intros Z. unfold has_promise. destruct (existsb _ l) eqn:E; [|reflexivity]. apply existsb_exists in E as (x & I & H).
  apply Bool.andb_true_iff in H as [H _]. apply (cnt_pos (own t)) in I; [lia|exact H].
Qed.

(** A waiting call returns after the loss of the service. *)
Lemma sync_lost h1 h2 h3 t o pl b m u : few (h1 ++ h2 ++ h3) -> call_of h1 t = Some (CSendSync o pl b) ->
  In (ESend t m) (trace h1) -> length (calls h1) <= u -> In (EStatus u Unavailable) (trace (h1 ++ h2)) -> returned (h1 ++ h2) u ->
  (forall v m', call_of (h1 ++ h2) v = Some (CIncoming true m') -> returned (h1 ++ h2) v) ->
  8 <= steps_of t h3 -> returned (h1 ++ h2 ++ h3) t.
Proof.
  intros Fw C Sd Lu St Ru Done. rewrite app_assoc in Fw |- *. set (h := h1 ++ h2) in *.
  assert (Ch : call_of h t = Some (CSendSync o pl b)) by (apply call_of_app; exact C).
  assert (G : gone h t) by (apply (lost_gone_gen h1 h2 t u); auto; eapply send_stored; exact Sd).
  assert (Ow : own_request h t) by (exists o, (CSendSync o pl b); split; [exact Ch|reflexivity]).
  apply (sync_progress h h3 t o pl b Fw Ch). intros h4 w h5 rid E N N'.
  rewrite app_assoc in N'. destruct (wait_step _ _ _ _ _ _ N N') as (_ & Al & _).
  unfold alive in Al. apply Bool.orb_true_iff in Al as [Al|Al]; apply existsb_exists in Al as (x & I & H).
  - destruct x as [k l]. change (has_promise t l = true) in H. apply (in_get _ _ _ (requests_nodup _)) in I.
    destruct (gone_app h h4 t G) as [_ Z]. specialize (Z k). unfold rl, get_or in Z. rewrite I in Z. pose proof (no_promise _ _ Z) as Y. rewrite Y in H. discriminate.
  - assert (Hx : exists m' l k, x = PInRun m' l k) by (destruct x; try discriminate H; eauto). destruct Hx as (m' & l & k & ->).
    apply In_nth_error in I as (v & Nv). destruct (le_lt_dec (length (calls h)) v) as [Lv|Lv].
    + destruct (gone_unheld h h4 t Ow G) as [Z _]. pose proof (no_promise _ _ (Z v m' l k Lv Nv)) as Y.  rewrite Y in H. discriminate.
    + destruct (i_fit _ (inv_final _) _ _ Nv) as (cv & Cv & Fv). cbn in Fv. subst cv.
      assert (Cv' : call_of h v = Some (CIncoming true m')).
      { unfold call_of in Cv |- *. rewrite calls_app, nth_error_app1 in Cv; [exact Cv|exact Lv]. }
      destruct (Done v m' Cv') as [x Rx]. apply cnt_ret_of in Rx. rewrite (done_stays_app h h4 v Rx) in Nv. discriminate.
Qed.
