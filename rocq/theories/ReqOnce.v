(** The callback of a request is run by at most one final answer. *)
From Verif Require Import ReqModel ReqSpec ReqProofs ReqInv.
From Coq Require Import NArith.

Definition own (owner : nat) (e : entry) : bool := Nat.eqb (e_owner e) owner.
Definition stores (p : pc) : bool :=
  match p with
  | PStart _ | PAlloc _ _ _ _ _ | PStore _ _ _ _ _ _ | PGetSub _ _ _ | PGetCheck _ _ => true
  | _ => false
  end.
Definition fin (o : nat) (m : msg) : bool := final_code (m_code m) && Nat.eqb (m_op m) o.
Definition runw (owner o : nat) (p : pc) : nat :=
  match p with PInRun m l _ => if fin o m then cnt (own owner) l else 0 | _ => 0 end.
Definition is_cb (owner : nat) (x : event) : bool := match x with ECb _ o _ => Nat.eqb o owner | _ => false end.
Definition cbs (owner o : nat) (c : call) (e : list event) : nat :=
  match c with
  | CIncoming true m => if fin o m then cnt (is_cb owner) e else 0
  | _ => 0
  end.

Lemma cnt_remove_id f rid l :
  cnt f (remove_id rid l) + match find_id rid l with Some e => b2n (f e) | None => 0 end = cnt f l.
Proof.
  unfold find_id. induction l as [|e l IH]; [reflexivity|]. cbn [remove_id find].
  destruct (N.eqb (e_id e) rid); rewrite !cnt_cons; lia.
Qed.
Lemma cnt_remove_le f rid l : cnt f (remove_id rid l) <= cnt f l.
Proof. pose proof (cnt_remove_id f rid l). lia. Qed.

Lemma teff_cnt f f' x g o : teff f f' x ->
  match x with TStore o' e => cnt g (f' o) = cnt g (f o) + (if Nat.eqb o o' then b2n (g e) else 0)
             | _ => cnt g (f' o) <= cnt g (f o) end.
Proof.
  destruct x; cbn; intros H; rewrite H.
  - lia.
  - destruct (Nat.eqb_spec o o0); [subst; rewrite cnt_app, cnt_cons, cnt_nil; lia|lia].
  - destruct (Nat.eqb_spec o o0); [subst; apply cnt_remove_le|lia].
  - destruct (Nat.eqb o o0); [rewrite cnt_nil|]; lia.
  - rewrite cnt_nil. lia.
Qed.

Lemma run1_stores w al s t p s' p' e : run1 w al s t p = (s', p', e) -> b2n (stores p') <= b2n (stores p).
Proof.
  intros R. destruct p; cbn in R; break_run; cbn; auto. destruct new; cbn; auto.
Qed.

Lemma runw_other owner o w al s t p s' p' e : run1 w al s t p = (s', p', e) ->
  (forall m l k, p <> PInRun m l k) -> (forall m, p <> PInTake m) -> runw owner o p' = 0.
Proof.
  intros R H1 H2. destruct p; cbn in R; break_run; cbn; auto; try congruence; try (exfalso; eapply H1; reflexivity);
    try (exfalso; eapply H2; reflexivity). destruct new; reflexivity.
Qed.

(** Steps of a call that is not an arrival run no callback counted here. *)
Lemma cbs_other owner o c w al s t p s' p' e : fits c p -> run1 w al s t p = (s', p', e) ->
  (forall m l k, p <> PInRun m l k) -> cbs owner o c e = 0.
Proof.
  intros F R H. unfold cbs. destruct c as [| | | | | | | |ok m| | | |]; try reflexivity. destruct ok; [|reflexivity].
  destruct (fin o m); [|reflexivity].
  apply cnt_zero. intros x I. destruct x; try reflexivity. exfalso.
  destruct (run1_cb _ _ _ _ _ _ _ _ _ _ _ _ F R I) as [_ [(m' & x & l & k & -> & _)|[_ (o' & [Y|Y])]]]; try discriminate.
  eapply H. reflexivity.
Qed.

Lemma run1_weight owner o c w al s t p s' p' e : fits c p -> run1 w al s t p = (s', p', e) ->
  (if Nat.eqb t owner then b2n (stores p') else 0) + cnt (own owner) (rl s' o) + runw owner o p' + cbs owner o c e <=
  (if Nat.eqb t owner then b2n (stores p) else 0) + cnt (own owner) (rl s o) + runw owner o p.
Proof.
  intros F R.
  pose proof (run1_requests _ _ _ _ _ _ _ _ _ F R) as E. apply (teff_cnt _ _ _ (own owner) o) in E.
  pose proof (run1_stores _ _ _ _ _ _ _ _ R) as St.
  destruct p; try (rewrite (runw_other _ _ _ _ _ _ _ _ _ _ R), (cbs_other _ _ _ _ _ _ _ _ _ _ _ F R) by discriminate;
    cbn [runw req_effect] in *; destruct (Nat.eqb t owner); lia).
  - rewrite (runw_other _ _ _ _ _ _ _ _ _ _ R), (cbs_other _ _ _ _ _ _ _ _ _ _ _ F R) by discriminate.
    destruct c0; cbn [runw req_effect] in *; destruct (Nat.eqb t owner); lia.
  - rewrite (runw_other _ _ _ _ _ _ _ _ _ _ R), (cbs_other _ _ _ _ _ _ _ _ _ _ _ F R) by discriminate.
    cbn [runw req_effect] in *. rewrite E. cbn in R. injection R as <- <- <-. cbn [stores b2n own e_owner].
    unfold own at 2. cbn [e_owner]. destruct (Nat.eqb t owner), (Nat.eqb o o0); cbn; lia.
  - rewrite (cbs_other _ _ _ _ _ _ _ _ _ _ _ F R) by discriminate. cbn [req_effect] in E.
    destruct (fin o m) eqn:Fi.
    2:{ assert (Z : runw owner o p' = 0).
        { cbn in R. destruct (take_request (requests s) (m_op m) (m_rid m) (is_partial (m_code m))) as [r q].
          destruct (m_code m); injection R as <- <- <-; cbn [runw]; rewrite Fi; reflexivity. }
        rewrite Z. cbn [runw]. destruct (final_code (m_code m)), (Nat.eqb t owner); lia. }
    unfold fin in Fi. apply andb_true_iff in Fi as [FC Eo]. apply Nat.eqb_eq in Eo.
    cbn in R. pose proof (take_request_look (requests s) (m_op m) (m_rid m) (is_partial (m_code m)) o) as L.
    pose proof (take_request_found (requests s) (m_op m) (m_rid m) (is_partial (m_code m))) as Fd.
    destruct (take_request (requests s) (m_op m) (m_rid m) (is_partial (m_code m))) as [r q]. cbn in L, Fd.
    assert (X : s' = set_requests s r /\ p' = PInRun m match q with Some x => [x] | None => [] end false /\ e = []).
    { destruct (m_code m); try discriminate FC; injection R as <- <- <-; auto. }
    destruct X as (-> & -> & ->). cbn [runw]. unfold fin. rewrite FC, Eo, Nat.eqb_refl. cbn [andb].
    unfold rl in *. cbn [requests set_requests] in *. rewrite L, Eo, Nat.eqb_refl.
    assert (Pa : is_partial (m_code m) = false) by (destruct (m_code m); try discriminate FC; reflexivity).
    rewrite Pa. rewrite Eo in *.
    pose proof (cnt_remove_id (own owner) (m_rid m) (get_or [] o (requests s))) as K. subst q.
    destruct (find_id (m_rid m) (get_or [] o (requests s))) as [x|]; rewrite ?cnt_cons, ?cnt_nil; destruct (Nat.eqb t owner); cbn; lia.
  - cbn [req_effect] in E. cbn in F. subst c. cbn [cbs].
    destruct (fin o m) eqn:Fi.
    2:{ assert (Z : runw owner o p' = 0).
        { destruct todo as [|y todo]; [|cbn in R; destruct (e_kind y)]; cbn in R; break_run; cbn [runw]; rewrite ?Fi; reflexivity. }
        rewrite Z. cbn [runw]. rewrite Fi. destruct (Nat.eqb t owner); lia. }
    cbn [runw]. rewrite Fi.
    destruct todo as [|y todo].
    + cbn in R. injection R as <- <- <-. cbn [runw]. rewrite !cnt_nil. cbn. rewrite cnt_cons, cnt_nil. cbn. destruct (Nat.eqb t owner); cbn in St; lia.
    + rewrite cnt_cons. cbn in R.
      destruct (e_kind y).
      * injection R as <- <- <-. cbn [runw]. rewrite Fi, cnt_nil. destruct (Nat.eqb t owner); cbn; lia.
      * injection R as <- <- <-. cbn [runw]. rewrite Fi, cnt_cons, cnt_nil. cbn [is_cb]. change (own owner y) with (Nat.eqb (e_owner y) owner).
        destruct (Nat.eqb t owner), (Nat.eqb (e_owner y) owner); cbn; lia.
      * destruct (get (e_owner y) (promises s)); injection R as <- <- <-; cbn [runw]; rewrite ?Fi, ?cnt_cons, ?cnt_nil;
          cbn [is_cb]; change (own owner y) with (Nat.eqb (e_owner y) owner); destruct (Nat.eqb t owner), (Nat.eqb (e_owner y) owner); cbn in *; lia.
Qed.

Definition pstores (s : st) (owner : nat) : nat :=
  match nth_error (thr s) owner with Some p => b2n (stores p) | None => 1 end.
Definition fruns (h : history) (owner o : nat) : nat :=
  cnt (fun e => match e with
                | ECb t w _ => Nat.eqb w owner && match call_of h t with Some (CIncoming true m) => fin o m | _ => false end
                | _ => false end) (trace h).

Lemma cb_called h t w p : In (ECb t w p) (trace h) -> exists c, call_of h t = Some c.
Proof. intros H. destruct (i_cb h (inv_final h) _ _ _ H) as [(m & e & A & _)|[_ (o & [A|A])]]; eauto. Qed.

Lemma weight_inv h owner o :
  pstores (final h) owner + cnt (own owner) (rl (sh (final h)) o) + wsum (runw owner o) (thr (final h)) + fruns h owner o <= 1.
Proof.
  induction h as [|h c IH|h t w IH N F T|h t w p s' p' e IH N R F T] using hist_ind.
  - unfold pstores, fruns, cnt. cbn. destruct owner; cbn; lia.
  - rewrite snoc_call. cbn [sh thr]. rewrite wsum_app. cbn [wsum runw].
    assert (E1 : pstores (St (sh (final h)) (thr (final h) ++ [PStart c])) owner = pstores (final h) owner).
    { unfold pstores. cbn [thr]. rewrite nth_snoc. destruct (Nat.eqb_spec owner (length (thr (final h)))); [|reflexivity].
      subst. rewrite (proj2 (nth_error_None _ _) (le_n _)). reflexivity. }
    assert (E2 : fruns (h ++ [LCall c]) owner o = fruns h owner o).
    { unfold fruns. rewrite trace_call. apply cnt_ext. intros x I. destruct x; try reflexivity.
      destruct (cb_called _ _ _ _ I) as (c' & C). rewrite (call_of_app _ _ _ _ C), C. reflexivity. }
    rewrite E1, E2. lia.
  - rewrite F. unfold fruns in *. rewrite T.
    rewrite (cnt_ext _ (fun e => match e with
                | ECb t w _ => Nat.eqb w owner && match call_of h t with Some (CIncoming true m) => fin o m | _ => false end
                | _ => false end)); [exact IH|]. intros [] _; try reflexivity. rewrite call_of_run. reflexivity.
  - rewrite F. cbn [sh thr]. destruct (i_fit h (inv_final h) _ _ N) as (c & C & Fc).
    pose proof (run1_weight owner o c _ _ _ _ _ _ _ _ Fc R) as Wt.
    pose proof (wsum_set (runw owner o) (thr (final h)) t p' p N) as Ws.
    assert (E2 : fruns (h ++ [LRun t w]) owner o = fruns h owner o + cbs owner o c e).
    { unfold fruns. rewrite T, cnt_app. f_equal.
      - apply cnt_ext. intros [] _; try reflexivity. rewrite call_of_run. reflexivity.
      - unfold cbs. transitivity (match c with CIncoming true m => cnt (fun x => is_cb owner x && fin o m) e | _ => 0 end).
        + assert (G : forall x, In x e -> match x with ECb t' _ _ => t' = t | _ => True end).
          { intros x I. destruct x; try exact Logic.I. eapply run1_cb; eauto. }
          transitivity (cnt (fun x => is_cb owner x && match c with CIncoming true m => fin o m | _ => false end) e).
          { apply cnt_ext. intros x I. specialize (G x I). destruct x; try reflexivity. rewrite G, call_of_run, C. reflexivity. }
          assert (Z : cnt (fun x => is_cb owner x && false) e = 0) by (apply cnt_zero; intros x _; apply andb_false_r).
          destruct c as [| | | | | | | |[] m| | | |]; try exact Z. reflexivity.
        + destruct c as [| | | | | | | |ok m| | | |]; try reflexivity. destruct ok; [|reflexivity].
          destruct (fin o m); [apply cnt_ext; intros x _; apply andb_true_r|apply cnt_zero; intros x _; apply andb_false_r]. }
    rewrite E2.
    assert (E1 : pstores (St s' (set_nth t p' (thr (final h)))) owner + (if Nat.eqb t owner then b2n (stores p) else 0) =
                 pstores (final h) owner + (if Nat.eqb t owner then b2n (stores p') else 0)).
    { unfold pstores. cbn [thr]. rewrite (nth_set _ _ _ _ _ N). destruct (Nat.eqb_spec t owner); [subst; rewrite N|]; lia. }
    lia.
Qed.

Lemma final_once h owner : final_runs h owner <= 1.
Proof.
  destruct (final_runs h owner) as [|n] eqn:E; [lia|].
  assert (H : 1 <= final_runs h owner) by lia. unfold final_runs in H.
  apply cnt_pos_inv in H as (x & I & H). destruct x as [| |t ow q| | | |]; try discriminate.
  apply andb_true_iff in H as [H1 H2]. apply Nat.eqb_eq in H1. subst ow.
  destruct (i_cb h (inv_final h) _ _ _ I) as [(m & en & A & B & C & D & G)|[-> (o & [A|A])]];
    [|unfold is_final in H2; rewrite A in H2; discriminate|unfold is_final in H2; rewrite A in H2; discriminate].
  unfold is_final in H2. rewrite A in H2. unfold run_ok, answer_code in G. rewrite H2 in G. cbn in G.
  destruct G as [[(c & code & pl & b & G1 & G2) G3] G4]. apply req_like_op in G2. subst owner.
  rewrite <- E. etransitivity; [|apply (weight_inv h (e_owner en) (m_op m))].
  assert (X : final_runs h (e_owner en) <= fruns h (e_owner en) (m_op m)); [|lia].
  unfold final_runs, fruns.
  rewrite (cnt_ext _ (fun e => match e with
                | ECb t w _ => Nat.eqb w (e_owner en) && match call_of h t with Some (CIncoming true m0) => fin (m_op m) m0 | _ => false end
                | _ => false end)); [reflexivity|].
  intros y J. destruct y as [| |t' ow' q'| | | |]; try reflexivity.
  destruct (Nat.eqb_spec ow' (e_owner en)); [|reflexivity]. cbn [andb]. subst ow'. unfold is_final.
  destruct (i_cb h (inv_final h) _ _ _ J) as [(m' & en' & A' & B' & C' & D' & G')|[-> (o & [A'|A'])]]; rewrite A'; try reflexivity.
  unfold fin. destruct (final_code (m_code m')) eqn:FC; [|reflexivity]. cbn.
  unfold run_ok, answer_code in G'. rewrite FC in G'. cbn in G'.
  destruct G' as [[(c' & code' & pl' & b' & G1' & G2') G3'] G4']. apply req_like_op in G2'.
  rewrite C' in G1'. rewrite G1 in G1'. injection G1' as <-. rewrite G2 in G2'. injection G2' as ->. rewrite Nat.eqb_refl. reflexivity.
Qed.
