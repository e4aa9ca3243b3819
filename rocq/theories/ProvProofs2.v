(** Request theorems of the provider: counting, life cycle, aborts, deinit. *)
From Verif Require Import ProvModel ProvSpec ProvProofs.

Definition qkey (q : request) : key := (q_op q, q_rid q).
Definition cell_has (s : prov) (k : key) (r : nat) : bool :=
  match cell s r with Some q => key_eqb (qkey q) k | None => false end.
Definition pend (s : prov) (k : key) : nat := countb (cell_has s k) (pending s (fst k)).

Lemma countb_ext {A} (f g : A -> bool) l : (forall x, In x l -> f x = g x) -> countb f l = countb g l.
Proof.
  intros H. unfold countb. f_equal. apply filter_ext_in. exact H.
Qed.

Lemma countb_remove1 f r l : NoDup l -> In r l ->
  countb f l = (if f r then 1 else 0) + countb f (remove1 r l).
Proof.
  induction l as [|y l IH]; intros ND I; [destruct I|]. inversion ND; subst. cbn [remove1].
  destruct (Nat.eqb_spec r y).
  - subst. apply countb_cons.
  - destruct I as [->|I]; [contradiction|]. rewrite !countb_cons, IH by assumption. lia.
Qed.

Lemma no_replies_count k c ev : no_replies ev -> c = OpRequest \/ c = PartialRequestUpdate -> countb (reply_for c k) ev = 0.
Proof.
  intros H D. apply countb_zero. intros e I. destruct (H e I) as (A & _ & _). specialize (A k). unfold any_reply in A.
  apply orb_false_iff in A as [A1 A2]. destruct D; subst; assumption.
Qed.

Lemma no_replies_abort cb ev : no_replies ev -> abort_runs cb ev = 0.
Proof.
  intros H. apply countb_zero. intros e I. destruct (H e I) as (_ & A & _).
  destruct e; try reflexivity. exfalso. eapply A. reflexivity.
Qed.

Lemma pend_same s s' k : same_core s s' -> pend s' k = pend s k.
Proof. intros [H1 H2]. unfold pend, pending, cell_has, cell. rewrite H1, H2. reflexivity. Qed.

Lemma pend_taken s s' o r q k : Inv s -> In r (pending s o) -> cell s r = Some q -> q_op q = o -> taken s s' o r ->
  pend s k = (if key_eqb (qkey q) k then 1 else 0) + pend s' k.
Proof.
  intros I Ir C Ho [T1 T2]. unfold pend.
  assert (E : forall x, cell_has s' k x = cell_has s k x).
  { intros x. unfold cell_has, cell. rewrite T2, nth_upd. destruct (Nat.eqb r x); [|reflexivity].
    destruct (nth_error (heap s) x); reflexivity. }
  rewrite (countb_ext (cell_has s' k) (cell_has s k)) by (intros; apply E).
  rewrite (pending_put s s' _ _ _ T1). destruct (Nat.eqb_spec (fst k) o) as [E2|E2].
  - rewrite <- E2, (countb_remove1 _ r) by (try apply inv_nodup; try assumption; congruence).
    unfold cell_has at 1. rewrite C. rewrite E2. reflexivity.
  - destruct (key_eqb_spec (qkey q) k) as [E3|E3]; [|reflexivity]. exfalso. subst k. cbn in E2. contradiction.
Qed.

Definition requests_for (k : key) (h : history) : nat := countb (key_eqb k) (requests_received (ops_of h)).

Lemma key_eqb_sym a b : key_eqb a b = key_eqb b a.
Proof. destruct (key_eqb_spec a b), (key_eqb_spec b a); congruence. Qed.

(** Every final response consumes a pending request. *)
Lemma count_inv h k : final_responses k (trace h) + pend (final h) k <= requests_for k h.
Proof.
  unfold requests_for. induction h as [|[n o] h IH] using rev_ind; [change (0 + 0 <= 0); lia|].
  rewrite trace_snoc, final_snoc, ops_snoc, requests_app, countb_app. unfold final_responses in *. rewrite countb_app.
  unfold next. pose proof (final_inv h) as I. destruct (step n (final h) o) as [s' ev] eqn:E. cbn [fst snd].
  cbn [requests_received].
  destruct (step_core n (final h) o s' ev I E) as [C|(r & p & b & -> & -> & D)].
  2:{ cbn. assert (countb (reply_for OpRequest k) ev = 0).
      { destruct D as [[_ ->]|(q & _ & _ & ->)]; reflexivity. } rewrite ?countb_nil in *; lia. }
  destruct C as [o s' ev SC NR IR _ _ _ _|m a s' Hm G SC|m f s' Hm G Hh Hr|r0 q0 p r q a s' C0 V0 Ir Cr Ho Hr T|r q p a s' C V SC
                |m r q s' Hm Ir C Ho Hr T|r q cb s' C V Hr Hh|r q cb s' C V SC|r cb s' C SC|s' ev D].
  - rewrite IR, (no_replies_count k OpRequest ev NR) by auto. rewrite (pend_same _ _ k SC). rewrite ?countb_nil in *; lia.
  - cbn [is_request]. rewrite Hm. rewrite !countb_cons, !countb_nil. cbn [reply_for m_code m_op m_rid opcode_eqb andb].
    rewrite (key_eqb_sym k). rewrite (pend_same _ _ k SC). destruct (key_eqb _ k); rewrite ?countb_nil in *; lia.
  - cbn [is_request]. rewrite Hm. rewrite !countb_cons, !countb_nil. cbn [reply_for andb].
    rewrite (key_eqb_sym k).
    assert (P : pend s' k <= (if key_eqb (m_op m, m_rid m) k then 1 else 0) + pend (final h) k).
    { unfold pend. rewrite (pending_put _ _ _ _ _ Hr).
      assert (X : forall x, In x (pending (final h) (fst k)) -> cell_has s' k x = cell_has (final h) k x).
      { intros x J. destruct (inv_cell _ I _ _ J) as (q & Cq & _). unfold cell_has, cell. rewrite Hh, nth_error_app1; [reflexivity|].
        eapply cell_lt. exact Cq. }
      destruct (Nat.eqb_spec (fst k) (m_op m)) as [E2|E2].
      - rewrite countb_app, countb_cons, countb_nil. rewrite <- E2 at 1.
        rewrite (countb_ext _ (cell_has (final h) k)) by exact X.
        unfold cell_has at 2, cell. rewrite Hh, nth_error_app2, Nat.sub_diag by lia. cbn [nth_error qkey q_op q_rid].
        change (qkey _) with (m_op m, m_rid m). rewrite ?countb_nil in *; lia.
      - rewrite (countb_ext _ (cell_has (final h) k)) by exact X. rewrite ?countb_nil in *; lia. }
    rewrite ?countb_nil in *; lia.
  - cbn [is_request]. rewrite !countb_cons, !countb_nil. cbn [reply_for m_code m_op m_rid opcode_eqb andb].
    assert (EK : qkey q = (q_op q0, q_rid q0)) by (unfold qkey; congruence).
    pose proof (pend_taken _ s' _ r q k I Ir Cr Ho T) as P. rewrite EK in P. rewrite ?countb_nil in *; lia.
  - cbn. rewrite !countb_cons, !countb_nil. cbn. rewrite (pend_same _ _ k SC). rewrite ?countb_nil in *; lia.
  - cbn [is_request]. rewrite Hm. pose proof (pend_taken _ s' _ r q k I Ir C Ho T) as P.
    rewrite countb_app. destruct (q_abort q); rewrite ?countb_cons, ?countb_nil; cbn; destruct (key_eqb (qkey q) k); rewrite ?countb_nil in *; lia.
  - cbn. assert (P : pend s' k = pend (final h) k); [|rewrite ?countb_nil in *; lia]. unfold pend, pending. rewrite Hr. apply countb_ext.
    intros x _. unfold cell_has, cell. rewrite Hh, nth_upd. destruct (Nat.eqb r x); [|reflexivity]. destruct (nth_error _ x); reflexivity.
  - cbn. rewrite (pend_same _ _ k SC). rewrite !countb_cons, !countb_nil. cbn. rewrite ?countb_nil in *; lia.
  - cbn. rewrite (pend_same _ _ k SC). rewrite ?countb_nil in *; lia.
  - cbn. rewrite deinit_eq in D. injection D as <- <-.
    assert (Z : countb (reply_for OpRequest k) (flat_map (abort_of (final h)) (all_pending (final h))) = 0).
    { apply countb_zero. intros e J. apply in_flat_map in J as (r & _ & J). unfold abort_of in J.
      destruct (cell (final h) r) as [q|]; [|destruct J]. destruct (q_abort q); [|destruct J]. destruct J as [<-|[]]. reflexivity. }
    rewrite Z. match goal with |- _ + 0 + ?x <= _ => assert (P : x = pend (final h) k) end; [|rewrite ?countb_nil in *; lia].
    unfold pend, pending. cbn [reqs]. apply countb_ext.
    intros x _. unfold cell_has, cell. cbn. rewrite nth_inval_list. destruct (mem _ _); [|reflexivity]. destruct (nth_error _ x); reflexivity.
Qed.

Lemma nodup_count k l : NoDup l -> countb (key_eqb k) l <= 1.
Proof.
  induction l as [|x l IH]; intros ND; [change (0 <= 1); lia|]. inversion ND; subst. rewrite countb_cons.
  destruct (key_eqb_spec k x); [|apply IH; assumption]. subst. rewrite countb_zero; [lia|].
  intros y J. destruct (key_eqb_spec x y); [subst; contradiction|reflexivity].
Qed.

(** ** Distinct keys *)
Lemma heap_keys h : NoDup (requests_received (ops_of h)) ->
  NoDup (map qkey (heap (final h))) /\ (forall k, In k (map qkey (heap (final h))) -> In k (requests_received (ops_of h))).
Proof.
  induction h as [|[n o] h IH] using rev_ind; [intros _; split; [constructor|intros k []]|].
  rewrite ops_snoc, requests_app, final_snoc. intros ND.
  assert (ND0 : NoDup (requests_received (ops_of h))).
  { clear - ND. induction (requests_received (ops_of h)) as [|x l IHl]; [constructor|]. cbn in ND. inversion ND; subst.
    constructor; [|apply IHl; assumption]. intros J. apply H1. apply in_or_app. left. exact J. }
  destruct (IH ND0) as [N1 N2]. pose proof (final_inv h) as I. destruct (step n (final h) o) as [s' ev] eqn:E. cbn [fst].
  assert (U : forall f r hp, (forall q, qkey (f q) = qkey q) -> map qkey (upd r f hp) = map qkey hp).
  { intros f r hp Hf. revert r. induction hp as [|x hp IHh]; intros [|r]; cbn; try reflexivity; [rewrite Hf; reflexivity|rewrite IHh; reflexivity]. }
  assert (K : forall s2, map qkey (heap s2) = map qkey (heap (final h)) ->
     NoDup (map qkey (heap s2)) /\ (forall k, In k (map qkey (heap s2)) -> In k (requests_received (ops_of h) ++ requests_received [o]))).
  { intros s2 Hs. rewrite Hs. split; [exact N1|]. intros k J. apply in_or_app. left. apply N2. exact J. }
  destruct (step_core n (final h) o s' ev I E) as [C|(r & p & b & -> & -> & D)]; [|apply K; reflexivity].
  destruct C as [o s' ev [SC _] NR IR _ _ _ _|m a s' Hm G [SC _]|m f s' Hm G Hh Hr|r0 q0 p r q a s' C0 V0 Ir Cr Ho Hr [_ T]|r q p a s' C V [SC _]
                |m r q s' Hm Ir C Ho Hr [_ T]|r q cb s' C V Hr Hh|r q cb s' C V [SC _]|r cb s' C [SC _]|s' ev D];
    try (apply K; rewrite SC; reflexivity); try (apply K; rewrite T; apply U; reflexivity).
  - rewrite Hh, map_app. cbn [map]. change (qkey _) with (m_op m, m_rid m).
    cbn [requests_received is_request] in ND |- *. rewrite Hm in ND |- *. split.
    + apply NoDup_remove_1 with (a := (m_op m, m_rid m)) in ND as ND1.
      assert (F : ~ In (m_op m, m_rid m) (map qkey (heap (final h)))).
      { intros J. apply N2 in J. apply NoDup_remove_2 in ND. rewrite app_nil_r in ND. contradiction. }
      clear - N1 F. induction (map qkey (heap (final h))) as [|x l IHl]; [repeat constructor; intros []|]. cbn. inversion N1; subst.
      constructor; [|apply IHl; [assumption|intros J; apply F; right; exact J]].
      rewrite in_app_iff. intros [J|[J|[]]]; [contradiction|]. apply F. left. congruence.
    + intros k J. apply in_app_or in J as [J|[<-|[]]]; [apply in_or_app; left; apply N2; exact J|].
      apply in_or_app. right. left. reflexivity.
  - apply K. rewrite Hh. apply U. reflexivity.
  - apply K. rewrite deinit_eq in D. injection D as <- <-. cbn. unfold inval_list.
    generalize (all_pending (final h)) (heap (final h)). intros l. induction l as [|x l IHl]; intros hp; [reflexivity|].
    cbn. rewrite IHl. apply U. reflexivity.
Qed.

Lemma same_key_same_cell h r1 r2 q1 q2 : NoDup (requests_received (ops_of h)) ->
  cell (final h) r1 = Some q1 -> cell (final h) r2 = Some q2 -> qkey q1 = qkey q2 -> r1 = r2.
Proof.
  intros ND C1 C2 E. destruct (heap_keys h ND) as [N1 _]. apply (proj1 (NoDup_nth_error _) N1).
  - rewrite map_length. eapply cell_lt. exact C1.
  - unfold cell in C1, C2. rewrite !nth_error_map, C1, C2. cbn. congruence.
Qed.

Lemma nodup_prefix {A} (l1 l2 : list A) : NoDup (l1 ++ l2) -> NoDup l1.
Proof.
  induction l1 as [|x l1 IH]; cbn; intros H; [constructor|]. inversion H; subst. constructor; [|auto].
  intros I. apply H2. apply in_or_app. left. exact I.
Qed.

(** ** Life of one request *)
Lemma life h1 n m h2 f r : NoDup (requests_received (ops_of (h1 ++ (n, OIn m) :: h2))) ->
  m_code m = OpRequest -> In (EHandler f r) (next h1 n (OIn m)) ->
  let s := final (h1 ++ (n, OIn m) :: h2) in
  exists ab, cell s r = Some (Rq (m_src m) (m_op m) (m_rid m) (m_pay m) (negb (closed_by r m h2)) ab) /\
             (closed_by r m h2 = false -> ab = installed_abort r h2).
Proof.
  intros ND Hm HE. cbn zeta. induction h2 as [|[n2 o] h2 IH] using rev_ind.
  - change (h1 ++ [(n, OIn m)]) with (h1 ++ [(n, OIn m)]). rewrite final_snoc. unfold next in HE.
    pose proof (final_inv h1) as I. destruct (step n (final h1) (OIn m)) as [s' ev] eqn:E. cbn [fst snd] in *.
    exists None. split; [|reflexivity].
    unfold step in E. rewrite (inv_ub _ I) in E. unfold on_incoming in E. rewrite Hm in E. unfold on_action_request in E.
    destruct (get (m_op m) (handlers (final h1))) as [g|]; cbn in E; injection E as <- <-; cbn in HE.
    + destruct HE as [HE|[HE|[]]]; [|discriminate]. injection HE as <- <-. unfold cell. cbn.
      rewrite nth_error_app2, Nat.sub_diag by lia. reflexivity.
    + destruct HE as [HE|[HE|[]]]; discriminate.
  - set (h := h1 ++ (n, OIn m) :: h2) in *.
    assert (EH : h1 ++ (n, OIn m) :: h2 ++ [(n2, o)] = h ++ [(n2, o)]) by (unfold h; rewrite <- app_assoc; reflexivity).
    rewrite EH in *. rewrite ops_snoc, requests_app in ND. pose proof (nodup_prefix _ _ ND) as ND0.
    destruct (IH ND0) as (ab & Hc & Hab). clear IH.
    rewrite final_snoc. pose proof (final_inv h) as I. destruct (step n2 (final h) o) as [s' ev] eqn:E. cbn [fst].
    unfold closed_by, installed_abort in *. rewrite !ops_snoc, existsb_app, fold_left_app. cbn [existsb fold_left].
    rewrite orb_false_r.
    set (q := Rq (m_src m) (m_op m) (m_rid m) (m_pay m) (negb (existsb (closes r m) (ops_of h2))) ab) in *.
    assert (KEEP : forall s2, cell s2 r = cell (final h) r -> closes r m o = false -> (abort_step r (fold_left (abort_step r) (ops_of h2) None) o = fold_left (abort_step r) (ops_of h2) None) ->
       exists ab0, cell s2 r = Some (Rq (m_src m) (m_op m) (m_rid m) (m_pay m) (negb (existsb (closes r m) (ops_of h2) || closes r m o)) ab0) /\
         (existsb (closes r m) (ops_of h2) || closes r m o = false -> ab0 = abort_step r (fold_left (abort_step r) (ops_of h2) None) o)).
    { intros s2 H1 H2 H3. rewrite H1, H2, orb_false_r, H3. exists ab. split; assumption. }
    destruct (step_core n2 (final h) o s' ev I E) as [C|(r1 & p & b & -> & -> & D)].
    2:{ destruct (closes r m (OReply r1 p b)) eqn:CL; [|apply KEEP; auto].
        cbn in CL. apply andb_prop in CL as [CL _]. apply Nat.eqb_eq in CL. subst r1.
        destruct D as [[D _]|(q1 & D & V & _)]; [congruence|]. rewrite Hc in D. injection D as <-. cbn in V.
        exists ab. rewrite orb_true_r. split; [|discriminate]. rewrite Hc. unfold q. rewrite V. reflexivity. }
    assert (UNI : forall r2 q2, cell (final h) r2 = Some q2 -> qkey q2 = (m_op m, m_rid m) -> r2 = r).
    { intros r2 q2 C2 K2. eapply same_key_same_cell; [exact ND0|exact C2|exact Hc|]. rewrite K2. reflexivity. }
    assert (TAKE : forall r2 q2 o2, cell (final h) r2 = Some q2 -> taken (final h) s' o2 r2 -> (closes r m o = true <-> qkey q2 = (m_op m, m_rid m)) ->
       (forall r3 cb, o <> OOnAborted r3 cb) ->
       exists ab0, cell s' r = Some (Rq (m_src m) (m_op m) (m_rid m) (m_pay m) (negb (existsb (closes r m) (ops_of h2) || closes r m o)) ab0) /\
         (existsb (closes r m) (ops_of h2) || closes r m o = false -> ab0 = abort_step r (fold_left (abort_step r) (ops_of h2) None) o)).
    { intros r2 q2 o2 C2 [_ T2] CL NA. destruct (closes r m o) eqn:CLo.
      - assert (r2 = r) by (eapply UNI; [exact C2|apply CL; reflexivity]). subst r2. exists ab. rewrite orb_true_r. split; [|discriminate].
        unfold cell. rewrite T2, nth_upd, Nat.eqb_refl. unfold cell in Hc. rewrite Hc. reflexivity.
      - assert (r2 <> r). { intros ->. rewrite Hc in C2. injection C2 as <-. destruct CL as [_ CL]. discriminate CL; reflexivity. }
        exists ab. rewrite orb_false_r. split.
        + unfold cell. rewrite T2, nth_upd. destruct (Nat.eqb_spec r2 r); [contradiction|]. exact Hc.
        + intros F. rewrite (Hab F). destruct o; try reflexivity. exfalso. eapply NA. reflexivity. }
    destruct C as [o s' ev [SC _] NR IR NA ND1 NRp NAb|m2 a s' Hm2 G [SC _]|m2 f2 s' Hm2 G Hh Hr|r0 q0 p r2 q2 a s' C0 V0 Ir Cr Ho Hr T|r2 q2 p a s' C V [SC _]
                |m2 r2 q2 s' Hm2 Ir C Ho Hr T|r2 q2 cb s' C V Hr Hh|r2 q2 cb s' C V [SC _]|r2 cb s' C [SC _]|s' ev D].
    + (* quiet: an abort that finds nothing closes an already closed request *)
      assert (CE : cell s' r = cell (final h) r) by (unfold cell; rewrite SC; reflexivity).
      assert (AE : abort_step r (fold_left (abort_step r) (ops_of h2) None) o = fold_left (abort_step r) (ops_of h2) None).
      { destruct o; try reflexivity. exfalso. eapply NA. reflexivity. }
      destruct (closes r m o) eqn:CL.
      2:{ exists ab. rewrite orb_false_r, AE. split; [rewrite CE; exact Hc|exact Hab]. }
      assert (V : q_valid q = false).
      { destruct o as [m2|r2 p2 b2|r2 cb2|o2 p2|o2|o2 b2|o2 p2|o2 h0|o2|o2 l2|o2 l2| | |]; try discriminate CL.
        - cbn in CL. apply andb_prop in CL as [CA CK]. destruct (opcode_eqb_spec (m_code m2) Abort) as [CA2|]; [|discriminate].
          destruct (key_eqb_spec (m_op m2, m_rid m2) (m_op m, m_rid m)) as [CK2|]; [|discriminate]. injection CK2 as K1 K2.
          destruct (q_valid q) eqn:V; [|reflexivity]. exfalso.
          pose proof (inv_valid _ I r q Hc V) as IP. cbn in IP.
          rewrite <- K1 in IP. apply (find_req_none _ _ (NAb m2 eq_refl CA2) r q IP Hc). cbn. congruence.
        - exfalso. eapply NRp. reflexivity.
        - contradiction. }
      exists ab. rewrite orb_true_r. split; [|discriminate]. rewrite CE, Hc. unfold q in V |- *. cbn in V. rewrite V. reflexivity.
    + apply KEEP; [unfold cell; rewrite SC; reflexivity| |reflexivity]. cbn. rewrite Hm2. reflexivity.
    + apply KEEP; [| |reflexivity].
      * unfold cell. rewrite Hh, nth_error_app1; [reflexivity|]. eapply cell_lt. exact Hc.
      * cbn. rewrite Hm2. reflexivity.
    + assert (K2 : r2 = r0). { eapply same_key_same_cell; [exact ND0|exact Cr|exact C0|]. unfold qkey. congruence. }
      subst r2. eapply TAKE; [exact C0|exact T| |discriminate]. cbn. rewrite andb_true_r. rewrite Nat.eqb_eq. split.
      * intros ->. rewrite Hc in C0. injection C0 as <-. reflexivity.
      * intros K. eapply UNI; [exact C0|exact K].
    + apply KEEP; [unfold cell; rewrite SC; reflexivity| |reflexivity]. cbn. apply andb_false_r.
    + eapply TAKE; [exact C|exact T| |discriminate]. cbn. rewrite Hm2. cbn [opcode_eqb andb].
      assert (KK : qkey q2 = (m_op m2, m_rid m2)) by (unfold qkey; congruence). rewrite KK.
      destruct (key_eqb_spec (m_op m2, m_rid m2) (m_op m, m_rid m)); split; congruence.
    + destruct (Nat.eqb_spec r2 r).
      * subst r2. rewrite Hc in C. injection C as <-. cbn in V. apply negb_true_iff in V.
        exists (Some cb). cbn [closes abort_step]. rewrite orb_false_r, Nat.eqb_refl. split; [|reflexivity].
        unfold cell. rewrite Hh, nth_upd, Nat.eqb_refl. unfold cell in Hc. rewrite Hc. reflexivity.
      * apply KEEP; [|reflexivity|].
        -- unfold cell. rewrite Hh, nth_upd. destruct (Nat.eqb_spec r2 r); [contradiction|reflexivity].
        -- cbn. destruct (Nat.eqb_spec r2 r); [contradiction|reflexivity].
    + destruct (Nat.eqb_spec r2 r).
      * subst r2. rewrite Hc in C. injection C as <-. cbn in V. apply negb_false_iff in V.
        exists ab. rewrite V. cbn [orb]. split; [|discriminate]. unfold cell. rewrite SC. unfold cell in Hc. rewrite Hc. unfold q. rewrite V. reflexivity.
      * apply KEEP; [unfold cell; rewrite SC; reflexivity|reflexivity|].
        cbn. destruct (Nat.eqb_spec r2 r); [contradiction|reflexivity].
    + apply KEEP; [unfold cell; rewrite SC; reflexivity|reflexivity|].
      cbn. destruct (Nat.eqb_spec r2 r); [congruence|reflexivity].
    + rewrite deinit_eq in D. injection D as <- <-. exists ab. cbn [closes]. rewrite orb_true_r. split; [|discriminate].
      unfold cell. cbn. rewrite nth_inval_list. unfold cell in Hc. rewrite Hc.
      destruct (mem r (all_pending (final h))) eqn:M; [reflexivity|].
      destruct (q_valid q) eqn:V; [|unfold q in V |- *; cbn in V; rewrite V; reflexivity].
      exfalso. pose proof (inv_valid _ I r q Hc V) as IP.
      assert (J : In r (all_pending (final h))) by (apply in_all_pending; [apply inv_reqs; exact I|exists (q_op q); exact IP]).
      apply mem_in in J. congruence.
Qed.
