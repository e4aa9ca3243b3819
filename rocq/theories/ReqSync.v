(** Synchronous requests. *)
From Verif Require Import ReqModel ReqSpec ReqProofs ReqInv ReqIds ReqOnce ReqDeliver ReqDeliver2 ReqGone ReqGone2 ReqSerial ReqCache ReqObs ReqSyncSpec.
From Coq Require Import NArith Lia.

Definition is_ret (t : nat) (x : event) : bool := match x with ERet u _ => Nat.eqb u t | _ => false end.

Lemma run1_ret w al s t p s' p' e : run1 w al s t p = (s', p', e) ->
  cnt (is_ret t) e <= 1 /\ (cnt (is_ret t) e = 1 -> p' = PDone) /\ (p = PDone -> e = []).
Proof.
  intros R. destruct p; cbn in R; break_run; rewrite ?cnt_app, ?cnt_cons, ?cnt_nil; cbn [is_ret b2n]; rewrite ?Nat.eqb_refl; cbn [b2n];
    try solve [repeat split; try lia; try discriminate].
  assert (Z : cnt (is_ret t) (map (fun x : nat => ENotify t x old new) (observers s)) = 0).
  { apply cnt_zero. intros x I. apply in_map_iff in I as (? & <- & _). reflexivity. }
  rewrite Z. repeat split; try lia. discriminate.
Qed.

(** A call returns at most once. *)
Lemma ret_once h t : cnt (is_ret t) (trace h) <= 1.
Proof.
  assert (X : match nth_error (thr (final h)) t with Some PDone => cnt (is_ret t) (trace h) <= 1 | _ => cnt (is_ret t) (trace h) = 0 end).
  { induction h as [|h c IH|h u w IH N F T|h u w p s' p' e IH N R F T] using hist_ind.
    - destruct t; reflexivity.
    - rewrite trace_call, snoc_call. cbn. rewrite nth_snoc. destruct (Nat.eqb_spec t (length (thr (final h)))); [|exact IH].
      subst. assert (Z : nth_error (thr (final h)) (length (thr (final h))) = None) by (apply nth_error_None; lia). rewrite Z in IH. exact IH.
    - rewrite F, T. exact IH.
    - rewrite F, T, cnt_app. cbn [thr]. rewrite (nth_set _ _ _ _ _ N). destruct (Nat.eqb_spec u t).
      + subst u. rewrite N in IH. destruct (run1_ret _ _ _ _ _ _ _ _ R) as (A & B & C).
        assert (Hp : p = PDone \/ p <> PDone) by apply pdone_dec.
        destruct Hp as [->|Hp].
        * rewrite (C eq_refl), cnt_nil. cbn in R. injection R as <- <- <-. lia.
        * assert (IH' : cnt (is_ret t) (trace h) = 0) by (destruct p; try exact IH; congruence).
          rewrite IH'. assert (Hp' : p' = PDone \/ p' <> PDone) by apply pdone_dec.
          destruct Hp' as [->|Hp']; [lia|]. assert (cnt (is_ret t) e <> 1) by auto.
          destruct p'; try congruence; lia.
      + assert (Z : cnt (is_ret t) e = 0).
        { apply cnt_zero. intros x I. pose proof (ev_thread _ _ _ _ _ _ _ _ x R I) as Y. destruct x; try reflexivity. cbn. apply Nat.eqb_neq. congruence. }
        rewrite Z, Nat.add_0_r. exact IH. }
  destruct (nth_error (thr (final h)) t) as [[]|]; lia.
Qed.

Lemma ret_unique h t v v' : In (ERet t v) (trace h) -> In (ERet t v') (trace h) -> v = v'.
Proof.
  intros A B. pose proof (ret_once h t) as O. apply in_split in A as (l1 & l2 & E). rewrite E in O, B.
  rewrite cnt_app, cnt_cons in O. cbn [is_ret] in O. rewrite Nat.eqb_refl in O. cbn [b2n] in O.
  apply in_app_iff in B as [B|[B|B]]; [|congruence|]; apply (cnt_pos (is_ret t)) in B; cbn; try apply Nat.eqb_refl; lia.
Qed.

(** ** The promise *)
Definition sync_of (c : call) : bool := match c with CSendSync _ _ _ | CGetSync _ _ => true | _ => false end.
Lemma req_like_sync c code o pl k b : req_like c code o pl k b -> sync_of c = true -> k = KPromise.
Proof. destruct c; cbn; intros H; try discriminate; destruct H as (_ & _ & _ & H & _); auto. Qed.

Lemma promise_neutral w al s t p s' p' e : run1 w al s t p = (s', p', e) -> (forall m x l k, p <> PInRun m (x :: l) k) ->
  promises s' = promises s.
Proof.
  intros R H. destruct p; cbn in R; try solve [break_run; try reflexivity;
    repeat match goal with C : cached _ _ = _ |- _ => apply cached_tables in C; destruct C as (_ & _ & _ & _ & _ & _ & C) end; try assumption; try reflexivity].
  destruct todo; [|exfalso; eapply H; reflexivity]. break_run. destruct keep; reflexivity.
Qed.

Lemma promise_inv h t c : call_of h t = Some c -> sync_of c = true ->
  match get t (promises (sh (final h))) with
  | Some p => cnt (is_cb t) (trace h) = 1 /\ exists u, In (ECb u t p) (trace h)
  | None => cnt (is_cb t) (trace h) = 0
  end.
Proof.
  intros C S. assert (X : sync_of c = true -> forall c', call_of h t = Some c' -> c' = c) by (intros _ c' C'; congruence). clear C.
  revert X. induction h as [|h c' IH|h u w IH N F T|h u w p s' p' e IH N R F T] using hist_ind; intros X.
  - reflexivity.
  - rewrite trace_call, snoc_call. cbn. apply IH. intros _ d D. apply X; [exact S|]. apply call_of_app. exact D.
  - rewrite F, T. apply IH. intros _ d D. apply X; [exact S|]. apply call_of_app. exact D.
  - assert (X' : forall d, call_of h t = Some d -> d = c). { intros d D. apply X; [exact S|]. apply call_of_app. exact D. }
    specialize (IH (fun _ => X')). rewrite F, T, cnt_app. cbn [sh].
    destruct (i_fit h (inv_final h) _ _ N) as (cu & Cu & Fu).
    assert (Cbs : (forall m x l k, p <> PInRun m (x :: l) k) -> cnt (is_cb t) e = 0).
    { intros H. apply cnt_zero. intros y I. destruct y; try reflexivity. cbn.
      destruct (run1_cb _ _ _ _ _ _ _ _ _ _ _ _ Fu R I) as (-> & [(m & x & l & k & -> & _)|(-> & o' & Q)]).
      - exfalso. eapply H. reflexivity.
      - apply Nat.eqb_neq. intros ->. apply X' in Cu. subst cu. destruct Q; subst c; discriminate. }
    assert (Hp : (exists m x l k, p = PInRun m (x :: l) k) \/ (forall m x l k, p <> PInRun m (x :: l) k)).
    { destruct p; try (right; congruence). destruct todo; [right; congruence|left; eauto 6]. }
    destruct Hp as [(m & x & l & k & ->)|Hp].
    + assert (Ok : run_ok h m x) by (eapply (i_run h (inv_final h)); [exact N|left; reflexivity]).
      assert (Kx : e_owner x = t -> e_kind x = KPromise).
      { intros E. unfold run_ok in Ok. destruct (answer_code (m_code m)).
        - destruct Ok as [[(d & code & pl & b & D & L) _] _]. rewrite E in D. apply X' in D. subst d. eapply req_like_sync; eauto.
        - destruct Ok as [(stt & D) _]. rewrite E in D. apply X' in D. subst c. discriminate. }
      cbn in R. destruct (Nat.eq_dec (e_owner x) t) as [E|E].
      * rewrite (Kx E), E in R. destruct (get t (promises (sh (final h)))) as [q|] eqn:G; break_run; cbn [promises set_promises];
          rewrite ?cnt_cons, ?cnt_nil; cbn [is_cb b2n].
        -- rewrite G. destruct IH as (A & v & B). split; [lia|]. exists v. apply in_or_app. auto.
        -- rewrite get_put_same, Nat.eqb_refl. cbn [b2n]. split; [lia|]. exists u. apply in_or_app. right. left. reflexivity.
      * assert (Z : get t (promises s') = get t (promises (sh (final h))) /\ cnt (is_cb t) e = 0).
        { assert (En : Nat.eqb (e_owner x) t = false) by (apply Nat.eqb_neq; exact E).
          destruct (e_kind x); break_run; cbn [promises set_promises]; rewrite ?cnt_cons, ?cnt_nil; cbn [is_cb]; rewrite ?En; cbn [b2n]; auto.
          split; [|reflexivity]. apply get_put_other. congruence. }
        destruct Z as [-> ->]. destruct (get t (promises (sh (final h)))); rewrite Nat.add_0_r; [|exact IH].
        destruct IH as (A & v & B). split; [exact A|]. exists v. apply in_or_app. auto.
    + rewrite (promise_neutral _ _ _ _ _ _ _ _ R Hp), (Cbs Hp), Nat.add_0_r.
      destruct (get t (promises (sh (final h)))); [|exact IH]. destruct IH as (A & v & B). split; [exact A|]. exists v. apply in_or_app. auto.
Qed.

(** ** Where the entry of a waiting call is *)
Definition held (s : st) (o : nat) (e : entry) : Prop :=
  In e (rl (sh s) o) \/ exists u m k, nth_error (thr s) u = Some (PInRun m [e] k) /\ answer_code (m_code m) = true /\ m_op m = o /\ m_rid m = e_id e.

Definition open_pc (p : pc) : bool :=
  match p with PSend _ _ _ _ _ _ | PSent _ _ _ _ _ | PWait _ _ _ | PExpErase _ _ => true | _ => false end.

Lemma pc_op_request c p o rid : fits c p -> open_pc p = true -> pc_id p = Some rid -> request_op c = Some o ->
  exists code pl k b, req_like c code o pl k b.
Proof.
  intros F O I Q. destruct p; try discriminate; cbn in F.
  - pose proof (req_like_op _ _ _ _ _ _ F). replace o with o0 by congruence. eauto.
  - destruct F as [pl F]. pose proof (req_like_op _ _ _ _ _ _ F). replace o with o0 by congruence. eauto.
  - destruct F as (code & pl & F). pose proof (req_like_op _ _ _ _ _ _ F). replace o with o0 by congruence. eauto.
  - destruct F as (code & pl & F). pose proof (req_like_op _ _ _ _ _ _ F). replace o with o0 by congruence. eauto.
Qed.

Lemma run1_open w al s t p s' p' e c rid : fits c p -> run1 w al s t p = (s', p', e) -> open_pc p' = true -> pc_id p' = Some rid ->
  (open_pc p = true /\ pc_id p = Some rid /\ req_effect t p = (if match p with PExpErase _ _ => true | _ => false end then req_effect t p else TSame)
    /\ match p with PExpErase _ _ => False | _ => True end) \/
  (exists code o pl k b, p = PStore code o pl k b rid).
Proof.
  intros F R O I. destruct p; cbn in R; break_run; cbn in O, I; try discriminate; try (destruct new; discriminate); auto.
  right. injection I as <-. eauto 8.
Qed.

Lemma ends_cases o rid c : ends o rid c = true -> forgets o rid c \/
  exists m, c = CIncoming true m /\ final_code (m_code m) = true /\ m_op m = o /\ m_rid m = rid.
Proof.
  destruct c as [| | | |r o'| | | |[] m|[] old []| | |]; cbn; intros H; try discriminate.
  - apply Bool.andb_true_iff in H as [A B]. apply N.eqb_eq in A. apply Nat.eqb_eq in B. subst. left. left. reflexivity.
  - apply Bool.andb_true_iff in H as [A B]. apply Bool.andb_true_iff in A as [A C]. apply N.eqb_eq in B. apply Nat.eqb_eq in C. subst. right. eauto 6.
  - left. right. right. eauto.
  - left. right. left. reflexivity.
Qed.

Lemma held_inv h t c o p rid : few h -> call_of h t = Some c -> sync_of c = true -> request_op c = Some o ->
  nth_error (thr (final h)) t = Some p -> open_pc p = true -> pc_id p = Some rid ->
  held (final h) o (Ent rid t KPromise) \/ (exists q, get t (promises (sh (final h))) = Some q) \/
  exists u d, call_of h u = Some d /\ forgets o rid d.
Proof.
  intros Fw Ct Sy Ro Nt Op Id. revert p rid Fw Ct Nt Op Id.
  induction h as [|h d IH|h u w IH N F T|h u w p0 s' p0' e IH N R F T] using hist_ind; intros p rid Fw Ct Nt Op Id.
  - destruct t; discriminate.
  - rewrite snoc_call in Nt |- *. cbn [thr sh] in Nt |- *. rewrite nth_snoc in Nt.
    destruct (Nat.eqb t (length (thr (final h)))) eqn:E; [injection Nt as <-; discriminate|].
    rewrite call_of_call in Ct.
    assert (El : Nat.eqb t (length (calls h)) = false) by (rewrite <- (i_len h (inv_final h)); exact E).
    rewrite El in Ct. destruct (IH p rid (few_snoc _ _ Fw) Ct Nt Op Id) as [[H|(v & m & k & H & H2)]|[H|(v & d' & D & H)]].
    + left. left. exact H.
    + left. right. exists v, m, k. split; [|exact H2]. cbn [thr]. rewrite nth_snoc.
      destruct (Nat.eqb_spec v (length (thr (final h)))); [|exact H]. apply nth_lt in H. lia.
    + right. left. exact H.
    + right. right. exists v, d'. split; [apply call_of_app; exact D|exact H].
  - rewrite F in *. rewrite call_of_run in Ct. destruct (IH p rid (few_snoc _ _ Fw) Ct Nt Op Id) as [H|[H|(v & d' & D & H)]]; auto.
    right. right. exists v, d'. split; [apply call_of_app; exact D|exact H].
  - rewrite call_of_run in Ct. apply few_snoc in Fw.
    destruct (i_fit h (inv_final h) _ _ N) as (cu & Cu & Fu).
    rewrite F in Nt |- *. cbn [thr sh] in Nt |- *. rewrite (nth_set _ _ _ _ _ N) in Nt.
    set (E := Ent rid t KPromise).
    assert (Stay : forall q, nth_error (thr (final h)) t = Some q -> open_pc q = true -> pc_id q = Some rid ->
      (u = t -> match p0 with PUndo _ _ _ _ _ | PExpErase _ _ => False | _ => True end) ->
      (u = t -> forall m l k, p0 <> PInRun m l k) ->
      held (St s' (set_nth u p0' (thr (final h)))) o E \/
      (exists q0, get t (promises s') = Some q0) \/ (exists v d, call_of (h ++ [LRun u w]) v = Some d /\ forgets o rid d)).
    { intros q Nq Oq Iq Not Nin. destruct (IH q rid Fw Ct Nq Oq Iq) as [[H|(v & m & k & Hv & Ac & Mo & Mr)]|[(q0 & H)|(v & d' & D & H)]].
      - destruct (ends o rid cu) eqn:Ee.
        + destruct (ends_cases _ _ _ Ee) as [Fg|(m & -> & Fc & Mo & Mr)].
          * right. right. exists u, cu. split; [apply call_of_app; exact Cu|exact Fg].
          * assert (Hm : (exists m', p0 = PInTake m') \/ (forall m', p0 <> PInTake m')) by (destruct p0; try (right; congruence); left; eauto).
            destruct Hm as [(m' & ->)|Hm].
            -- cbn in Fu. destruct Fu as [Fu _]. injection Fu as <-.
               destruct (find_exists rid _ _ H eq_refl) as (x & Fx).
               destruct (find_own h o rid t KPromise x Fw H Fx) as (A1 & A2 & A3).
               assert (x = E) as -> by (destruct x; cbn in *; subst; reflexivity).
               left. right. exists u, m, false. cbn [thr]. rewrite (nth_set _ _ _ _ _ N), Nat.eqb_refl.
               assert (Ac : answer_code (m_code m) = true) by (unfold answer_code; rewrite Fc; reflexivity).
               repeat split; auto. cbn in R.
               pose proof (take_request_found (requests (sh (final h))) (m_op m) (m_rid m) (is_partial (m_code m))) as L.
               destruct (take_request (requests (sh (final h))) (m_op m) (m_rid m) (is_partial (m_code m))) as [r z].
               cbn in L. rewrite Mo, Mr in L. unfold rl in Fx. rewrite Fx in L. subst z.
               destruct (m_code m); try discriminate; injection R as <- <- <-; reflexivity.
            -- left. left. pose proof (run1_requests _ _ _ _ _ _ _ _ _ Fu R) as Te.
               destruct p0; cbn in Fu; try (exfalso; clear - Fu; repeat match goal with H : exists _, _ |- _ => destruct H | H : _ /\ _ |- _ => destruct H | H : context [match ?b with true => _ | false => _ end] |- _ => destruct b end; cbn in *; intuition discriminate);
                 try (cbn in Te; unfold rl in *; cbn [sh]; rewrite Te; exact H).
               ++ subst. cbn in Te. cbn [sh]. rewrite Te. exact H.
               ++ exfalso. eapply Hm. reflexivity.
        + left. left. cbn [sh]. apply (entry_stays h u w p0 s' p0' e cu o E Fw N Cu Fu R H Ee). exact Not.
      - destruct (Nat.eq_dec v u) as [->|Nv].
        + rewrite N in Hv. injection Hv as ->. cbn in R. right. left.
          destruct (get t (promises (sh (final h)))) as [q0|] eqn:G.
          * break_run. eauto.
          * injection R as <- <- <-. cbn. rewrite get_put_same. eauto.
        + left. right. exists v, m, k. repeat split; auto. cbn [thr]. rewrite nth_set_other; [exact Hv|congruence].
      - right. left. assert (Hp : (exists m x l k, p0 = PInRun m (x :: l) k) \/ (forall m x l k, p0 <> PInRun m (x :: l) k)).
        { destruct p0; try (right; congruence). destruct todo; [right; congruence|left; eauto 6]. }
        destruct Hp as [(m & x & l & k & ->)|Hp].
        + cbn in R. destruct (e_kind x); break_run; cbn; eauto. rewrite get_put. destruct (Nat.eqb t (e_owner x)); eauto.
        + rewrite (promise_neutral _ _ _ _ _ _ _ _ R Hp). eauto.
      - right. right. exists v, d'. split; [apply call_of_app; exact D|exact H]. }
    destruct (Nat.eqb_spec u t).
    + subst u. injection Nt as ->. rewrite Ct in Cu. injection Cu as <-.
      destruct (run1_open _ _ _ _ _ _ _ _ _ _ Fu R Op Id) as [(A & B & _ & D)|(code & o' & pl & k & b & ->)].
      * apply (Stay p0 N A B); intros _; destruct p0; try discriminate A; auto; congruence.
      * left. left. cbn in Fu. pose proof (req_like_op _ _ _ _ _ _ Fu) as Q. assert (o' = o) as -> by congruence.
        pose proof (req_like_sync _ _ _ _ _ _ Fu Sy) as ->.
        pose proof (run1_requests _ _ _ _ _ _ _ _ _ (Fu : fits c (PStore code o pl KPromise b rid)) R) as Te. cbn in Te. cbn [sh]. rewrite Te, Nat.eqb_refl.
        apply in_or_app. right. left. reflexivity.
    + apply (Stay p Nt Op Id); intros; congruence.
Qed.

Lemma outcome_mono h h2 t o b p a : (forall m, In (ESend t m) (trace (h ++ h2)) -> In (ESend t m) (trace h)) ->
  outcome h t o b p a -> outcome (h ++ h2) t o b p a.
Proof.
  intros Sd H.
  assert (Ab : forall u rid q, answer_by h u o rid q -> answer_by (h ++ h2) u o rid q)
    by (intros u rid q (m & A & B); exists m; split; [apply call_of_app; exact A|exact B]).
  destruct H as [u rid p I A Ic|Ns|w a I E Ne|w rid B I E Al [X|[(u & c & C & X)|(u & q & X)]]|u c rid Al C X].
  - eapply OAnswered; [apply in_trace_app; exact I|apply Ab; exact A|apply in_trace_app; exact Ic].
  - apply ORefused. intros m I. eapply Ns. apply Sd. exact I.
  - eapply OSendFailed; eauto. apply in_or_app. auto.
  - eapply OTimeout; eauto; [apply in_or_app; auto|apply in_trace_app; exact Al|left; apply in_trace_app; exact X].
  - eapply OTimeout; eauto; [apply in_or_app; auto|apply in_trace_app; exact Al|right; left; exists u, c; split; [apply call_of_app; exact C|exact X]].
  - eapply OTimeout; eauto; [apply in_or_app; auto|apply in_trace_app; exact Al|right; right; exists u, q; apply Ab; exact X].
  - eapply OBroken; [apply in_trace_app; exact Al|apply call_of_app; exact C|exact X].
Qed.

Definition sync_phase (h : history) (t o : nat) (b : bool) : Prop :=
  match nth_error (thr (final h)) t with
  | None | Some (PStart _) | Some (PAlloc _ _ _ _ _) | Some (PStore _ _ _ _ _ _) | Some (PSend _ _ _ _ _ _) => forall m, ~ In (ESend t m) (trace h)
  | Some (PUndo _ _ _ _ a) => a <> Success /\ exists w, In (LRun t w) h /\ o_res w = a
  | Some (PExpErase _ _) => b = true /\ exists w, In (LRun t w) h /\ o_expired w = true
  | Some (PExpSend _ _) => (b = true /\ gone h t) /\ exists w, In (LRun t w) h /\ o_expired w = true
  | Some PDone => exists p a, In (ERet t (RVPay p (Some a))) (trace h) /\ outcome h t o b p a /\ (a <> Success -> p = None /\ gone h t)
  | _ => True
  end.

Lemma in_LRun_app t w h h2 : In (LRun t w) h -> In (LRun t w) (h ++ h2).
Proof. intros I. apply in_or_app. auto. Qed.

Lemma phase_keep h l t o b : sync_phase h t o b -> nth_error (thr (final (h ++ [l]))) t = nth_error (thr (final h)) t ->
  (forall x, In x (trace (h ++ [l])) -> thread_of x = t -> In x (trace h)) -> sync_phase (h ++ [l]) t o b.
Proof.
  unfold sync_phase. intros H E X. rewrite E.
  assert (Sd : forall m, In (ESend t m) (trace (h ++ [l])) -> In (ESend t m) (trace h)) by (intros m I; apply X; [exact I|reflexivity]).
  destruct (nth_error (thr (final h)) t) as [[]|]; auto;
    try (intros m I; eapply H; apply Sd; exact I);
    try (destruct H as (A & w & B & C); split; [first [exact A|split; [apply A|apply gone_snoc; apply A]]|]; exists w; split; [apply in_LRun_app; exact B|exact C]).
  destruct H as (p & a & I & O & G). exists p, a. split; [apply in_trace_app; exact I|]. split; [apply outcome_mono; auto|].
  intros Ne. split; [apply (G Ne)|]. apply gone_snoc. apply (G Ne).
Qed.

Lemma start_free h t : nth_error (thr (final h)) t <> None -> stores (nth t (thr (final h)) PDone) = true -> forall o, cnt (own t) (rl (sh (final h)) o) = 0.
Proof.
  intros N S o. pose proof (weight_inv h t o) as W. unfold pstores in W.
  rewrite (nth_error_nth' _ PDone) in W; [rewrite S in W; cbn in W; lia|]. apply nth_error_Some. exact N.
Qed.

Lemma dead_gone h t c : call_of h t = Some c -> sync_of c = true -> (exists p, nth_error (thr (final h)) t = Some p /\ stores p = false) ->
  alive (final h) t = false -> gone h t.
Proof.
  intros C S P A. split; [exact P|]. intros o. apply cnt_zero. intros x I. unfold own.
  destruct (Nat.eqb_spec (e_owner x) t) as [E|]; [|reflexivity]. exfalso.
  destruct (i_req h (inv_final h) o x I) as [(c' & code & pl & b & C' & L) _]. rewrite E, C in C'. injection C' as <-.
  pose proof (req_like_sync _ _ _ _ _ _ L S) as K.
  unfold alive in A. apply Bool.orb_false_iff in A as [A _].
  unfold rl, get_or in I. destruct (get o (requests (sh (final h)))) as [l|] eqn:G; [|destruct I]. apply get_in in G.
  assert (X : existsb (fun kv => has_promise t (snd kv)) (requests (sh (final h))) = true).
  { apply existsb_exists. exists (o, l). split; [exact G|]. cbn. apply existsb_exists. exists x. split; [exact I|].
    rewrite E, Nat.eqb_refl, K. reflexivity. }
  congruence.
Qed.

Lemma held_alive h t o rid : held (final h) o (Ent rid t KPromise) -> alive (final h) t = true.
Proof.
  unfold alive. intros [I|(u & m & k & N & _)]; apply Bool.orb_true_iff.
  - left. unfold rl, get_or in I. destruct (get o (requests (sh (final h)))) as [l|] eqn:G; [|destruct I]. apply get_in in G.
    apply existsb_exists. exists (o, l). split; [exact G|]. cbn. apply existsb_exists. eexists. split; [exact I|].
    cbn. rewrite Nat.eqb_refl. reflexivity.
  - right. apply existsb_exists. eexists. split; [eapply nth_error_In; exact N|]. cbn. rewrite Nat.eqb_refl. reflexivity.
Qed.

Lemma cb_answer h t o pl b u p : call_of h t = Some (CSendSync o pl b) -> In (ECb u t p) (trace h) ->
  exists rid, In (EAlloc t rid) (trace h) /\ answer_by h u o rid p.
Proof.
  intros C I. destruct (i_cb h (inv_final h) _ _ _ I) as [(m & e & Cm & -> & Eo & _ & Ok)|(-> & o' & [X|X])]; try congruence.
  unfold run_ok in Ok. destruct (answer_code (m_code m)) eqn:Ac.
  - destruct Ok as [[(c & code & pl' & b' & D & L) Al] Ei]. rewrite Eo in *. rewrite C in D. injection D as <-.
    cbn in L. destruct L as (_ & Mo & _). exists (m_rid m). rewrite <- Ei at 1. split; [exact Al|]. exists m. repeat split; auto.
  - destruct Ok as [(stt & D) _]. rewrite Eo in D. congruence.
Qed.

Lemma sync_outcome h t o pl b : few h -> o <> 0 -> call_of h t = Some (CSendSync o pl b) -> sync_phase h t o b.
Proof.
  intros Fw Ho. revert Fw.
  induction h as [|h d IH|h u w IH N F T|h u w p s' p' e IH N R F T] using hist_ind; intros Fw Ct.
  - unfold call_of in Ct. destruct t; discriminate.
  - rewrite call_of_call in Ct. destruct (Nat.eqb_spec t (length (calls h))) as [->|Nt].
    + injection Ct as ->. unfold sync_phase. rewrite snoc_call. cbn [thr]. rewrite nth_snoc, <- (i_len h (inv_final h)), Nat.eqb_refl.
      rewrite trace_call. intros m I. destruct (ev_called _ _ I) as (c & C). cbn in C. unfold call_of in C. apply nth_lt in C. rewrite (i_len h (inv_final h)) in C. lia.
    + apply phase_keep.
      * apply IH; [eapply few_snoc; exact Fw|exact Ct].
      * rewrite snoc_call. cbn [thr]. rewrite nth_snoc, (i_len h (inv_final h)). apply Nat.eqb_neq in Nt. rewrite Nt. reflexivity.
      * rewrite trace_call. auto.
  - rewrite call_of_run in Ct. apply phase_keep; [apply IH; [eapply few_snoc; exact Fw|exact Ct]|rewrite F; reflexivity|rewrite T; auto].
  - rewrite call_of_run in Ct. pose proof (few_snoc _ _ Fw) as Fh. specialize (IH Fh Ct).
    destruct (Nat.eq_dec u t) as [->|Nu].
    2:{ apply phase_keep; [exact IH|rewrite F; cbn [thr]; apply nth_set_other; exact Nu|].
        intros x I E. rewrite T in I. apply in_app_iff in I as [I|I]; [exact I|]. exfalso.
        pose proof (ev_thread _ _ _ _ _ _ _ _ x R I). destruct x; cbn in *; congruence. }
    destruct (i_fit h (inv_final h) _ _ N) as (cu & Cu & Fu). rewrite Ct in Cu. injection Cu as <-.
    pose proof (held_inv h t (CSendSync o pl b) o p) as Hd. pose proof (promise_inv h t _ Ct eq_refl) as Pr.
    assert (Inw : In (LRun t w) (h ++ [LRun t w])) by (apply in_or_app; right; left; reflexivity).
    assert (Mono : forall x, In x (trace h) -> In x (trace (h ++ [LRun t w]))) by (intros x; apply in_trace_app).
    assert (Mc : forall u c, call_of h u = Some c -> call_of (h ++ [LRun t w]) u = Some c) by (intros; apply call_of_app; assumption).
    assert (Iid : forall rid, pc_id p = Some rid -> In (EAlloc t rid) (trace h)) by (intros rid Q; eapply (i_id h (inv_final h)); eauto).
    assert (Done' : nth_error (thr (final h)) t <> None) by congruence.
    unfold sync_phase in IH |- *. rewrite F, T. cbn [thr]. rewrite (nth_set _ _ _ _ _ N), Nat.eqb_refl. rewrite N in IH.
    destruct p; cbn in Fu; try solve [exfalso; clear - Fu; repeat match goal with H : exists _, _ |- _ => destruct H | H : _ /\ _ |- _ => destruct H | H : context [match ?b with true => _ | false => _ end] |- _ => destruct b end; cbn in *; intuition discriminate]; cbn in R.
    + (* start *) subst c. destruct (available (sh (final h))).
      * injection R as <- <- <-. intros m I. rewrite app_nil_r in I. exact (IH m I).
      * injection R as <- <- <-. exists None, ServiceUnavailable. split; [apply in_or_app; right; left; reflexivity|]. split.
        -- apply ORefused. rewrite T. intros m I. apply in_app_iff in I as [I|[I|[]]]; [exact (IH m I)|discriminate].
        -- intros _. split; [reflexivity|]. split.
           ++ rewrite F. cbn [thr]. rewrite (nth_set _ _ _ _ _ N), Nat.eqb_refl. exists PDone. split; reflexivity.
           ++ rewrite F. cbn [sh]. apply start_free; [congruence|]. erewrite nth_error_nth; [|exact N]. reflexivity.
    + (* alloc *) break_run; intros m I; first [rewrite app_nil_r in I; exact (IH m I)|apply in_app_iff in I as [I|[I|[]]]; [exact (IH m I)|discriminate]].
    + injection R as <- <- <-. rewrite app_nil_r. exact IH.
    + injection R as <- <- <-. exact I.
    + (* sent *) destruct Fu as (pl' & _ & -> & -> & -> & ->).
      destruct (o_res w) eqn:Rw; try (break_run; split; [congruence|exists w; split; [exact Inw|exact Rw]]).
      destruct (regid_ok rid o) eqn:Ro; injection R as <- <- <-; [exact I|].
      exfalso. unfold regid_ok in Ro. rewrite (proj2 (Nat.eqb_neq _ _) Ho), Bool.andb_true_r in Ro.
      apply Bool.negb_false_iff, N.eqb_eq in Ro. apply (id_valid h t rid); [apply Iid; reflexivity|exact Ro].
    + (* undo *) destruct IH as (Ne & w0 & Iw & Ew). destruct Fu as [(pl' & b' & -> & -> & _ & -> & _) _].
      injection R as <- <- <-. exists None, a. split; [apply in_or_app; right; left; reflexivity|]. split.
      * eapply OSendFailed; [apply in_LRun_app; exact Iw|exact Ew|exact Ne].
      * intros _. split; [reflexivity|].
        eapply (removing_step h t w (PUndo OpRequest o KPromise rid a) _ _ _ (CSendSync o pl b) t o rid Fh N Ct);
          [cbn; split; [exists pl, b; repeat split|exact Ne]|reflexivity|reflexivity|exists (CSendSync o pl b); auto|apply Iid; reflexivity|].
        eexists. split; [exact N|reflexivity].
    + (* wait *) destruct Fu as (code & pl' & _ & -> & _ & _ & ->).
      destruct (get t (promises (sh (final h)))) as [q|] eqn:G.
      * injection R as <- <- <-. destruct Pr as (_ & v & Iv). destruct (cb_answer _ _ _ _ _ _ _ Ct Iv) as (r & Al & An).
        exists q, Success. split; [apply in_or_app; right; left; reflexivity|]. split; [|congruence].
        eapply OAnswered; [apply Mono; exact Al| |apply Mono; exact Iv]. destruct An as (m & A1 & A2). exists m. split; [apply Mc; exact A1|exact A2].
      * destruct (alive (final h) t) eqn:Al; cbn in R.
        -- destruct b; cbn in R; [|injection R as <- <- <-; exact I]. destruct (o_expired w) eqn:Ew; injection R as <- <- <-; [|exact I].
           split; [reflexivity|]. exists w. auto.
        -- injection R as <- <- <-. exists None, ActionBroken. split; [apply in_or_app; right; left; reflexivity|].
           destruct (Hd rid Fh Ct eq_refl eq_refl N eq_refl eq_refl) as [H|[(q & H)|(v & d & D & H)]]; [|congruence|].
           { apply held_alive in H. congruence. }
           split; [eapply OBroken; [apply Mono; apply Iid; reflexivity|apply Mc; exact D|exact H]|].
           intros _. split; [reflexivity|]. apply gone_snoc. apply (dead_gone h t _ Ct eq_refl); [|exact Al].
           eexists. split; [exact N|reflexivity].
    + (* expired *) destruct IH as (-> & w0 & Iw & Ew). destruct Fu as (code & pl' & _ & -> & _ & _ & _).
      pose proof (erase_request_found (requests (sh (final h))) o rid) as Ef.
      destruct (erase_request (requests (sh (final h))) o rid) as [mm found] eqn:Er. cbn in Ef.
      destruct found; injection R as <- <- <-.
      * split; [|exists w0; split; [apply in_LRun_app; exact Iw|exact Ew]]. split; [reflexivity|].
        eapply (removing_step h t w (PExpErase o rid) _ _ _ (CSendSync o pl true) t o rid Fh N Ct);
          [cbn; exists OpRequest, pl; repeat split|cbn; rewrite Er; reflexivity|reflexivity|eexists; split; [exact Ct|reflexivity]|apply Iid; reflexivity|].
        eexists. split; [exact N|reflexivity].
      * exists None, Timeout. split; [apply in_or_app; right; left; reflexivity|]. split.
        -- eapply OTimeout; [reflexivity|apply in_LRun_app; exact Iw|exact Ew|apply Mono; apply (Iid rid); reflexivity|]. right.
           destruct (Hd rid Fh Ct eq_refl eq_refl N eq_refl eq_refl) as [[H|(v & m & k & Nv & Ac & Mo & Mr)]|[(q & H)|(v & d & D & H)]].
           ++ destruct (find_exists rid _ _ H eq_refl) as (x & Fx). unfold rl in Fx. rewrite Fx in Ef. discriminate.
           ++ right. exists v, (m_pay m). destruct (i_fit h (inv_final h) _ _ Nv) as (cv & Cv & Fv). cbn in Fv. subst cv.
              exists m. repeat split; auto.
           ++ right. rewrite H in Pr. destruct Pr as (_ & v & Iv). destruct (cb_answer _ _ _ _ _ _ _ Ct Iv) as (r & Al & An).
              assert (r = rid) as -> by (eapply one_id; [exact Al|apply Iid; reflexivity]).
              exists v, q. destruct An as (m & A1 & A2). exists m. split; [apply Mc; exact A1|exact A2].
           ++ left. exists v, d. split; [apply Mc; exact D|exact H].
        -- intros _. split; [reflexivity|].
           eapply (removing_step h t w (PExpErase o rid) _ _ _ (CSendSync o pl true) t o rid Fh N Ct);
             [cbn; exists OpRequest, pl; repeat split|cbn; rewrite Er; reflexivity|reflexivity|eexists; split; [exact Ct|reflexivity]|apply Iid; reflexivity|].
           eexists. split; [exact N|reflexivity].
    + (* expired, aborting *) destruct IH as ((-> & Gn) & w0 & Iw & Ew). destruct Fu as (code & pl' & _ & -> & _ & _ & _). injection R as <- <- <-.
      exists None, Timeout. split; [apply in_or_app; right; right; left; reflexivity|]. split.
      * eapply OTimeout; [reflexivity|apply in_LRun_app; exact Iw|exact Ew|apply Mono; apply (Iid rid); reflexivity|]. left. rewrite T. apply in_or_app. right. left. reflexivity.
      * intros _. split; [reflexivity|]. apply gone_snoc. exact Gn.
    + injection R as <- <- <-. rewrite app_nil_r. destruct IH as (q & a & I & O & G). exists q, a. split; [exact I|]. split.
      * apply outcome_mono; [|exact O]. rewrite T, app_nil_r. auto.
      * intros Ne. split; [apply (G Ne)|apply gone_snoc; apply (G Ne)].
Qed.
