(** Lemmas about ServiceStatusSignal. *)
From Verif Require Import ListUtil CsTypes WaitModel WaitSpec.

Lemma run_app s h1 h2 : run s (h1 ++ h2) =
  (fst (run (fst (run s h1)) h2), snd (run s h1) ++ snd (run (fst (run s h1)) h2)).
Proof.
  revert s; induction h1 as [|l h1 IH]; intros s; cbn; [destruct (run s h2); reflexivity|].
  destruct (step s l) as [s1 e1]. rewrite IH. destruct (run s1 h1) as [s2 e2]. cbn.
  destruct (run s2 h2). cbn. now rewrite app_assoc.
Qed.
Lemma final_snoc h l : final (h ++ [l]) = fst (step (final h) l).
Proof. unfold final. rewrite run_app. cbn. destruct (step _ l). reflexivity. Qed.
Lemma trace_snoc h l : trace (h ++ [l]) = trace h ++ snd (step (final h) l).
Proof. unfold trace, final. rewrite run_app. cbn. destruct (step _ l). cbn. now rewrite app_nil_r. Qed.
Lemma calls_of_app h1 h2 : calls_of (h1 ++ h2) = calls_of h1 ++ calls_of h2.
Proof. induction h1 as [|[] h1 IH]; cbn; congruence. Qed.

Lemma avail_eqb_iff a b : avail_eqb a b = true <-> a = b.
Proof. destruct a, b; cbn; split; congruence. Qed.

Definition done_b (p : pc) : bool := match p with PDone => true | _ => false end.
Definition is_wait (c : call) : bool := match c with CWait _ _ => true | _ => false end.

Record inv (h : history) (s : sgn) (tr : list event) : Prop := Inv
  { i_cur : cur s = last_told tr;
    i_stop : stopped s = true <-> was_stopped tr;
    i_calls : map fst (calls s) = calls_of h;
    i_ret : forall t c p, nth_error (calls s) t = Some (c, p) -> cnt (returns t) tr = b2n (done_b p);
    i_ret2 : forall t, length (calls s) <= t -> cnt (returns t) tr = 0;
    i_blk : forall t exp timed, nth_error (calls s) t = Some (CWait exp timed, PBlocked false) -> pred s exp = false;
    i_kind : forall t c p, nth_error (calls s) t = Some (c, p) -> is_wait c = false -> p = PStart \/ p = PDone;
    i_exp : forall t c, nth_error (calls s) t = Some (c, PAwake true) -> (exists e, c = CWait e true) /\ In (LExpire t) h }.

Lemma last_told_snoc tr e : last_told (tr ++ [e]) = match e with EChange _ b => b | _ => last_told tr end.
Proof. unfold last_told. rewrite fold_left_app. reflexivity. Qed.
Lemma stopped_snoc tr e : was_stopped (tr ++ [e]) <-> was_stopped tr \/ (exists t, e = EStop t).
Proof.
  unfold was_stopped. split.
  - intros [t H]. apply in_app_or in H as [H|[->|[]]]; eauto.
  - intros [[t H]|[t ->]]; exists t; apply in_or_app; cbn; auto.
Qed.

Lemma nth_map_wake l t c p : nth_error (map wake l) t = Some (c, p) ->
  exists p0, nth_error l t = Some (c, p0) /\ (p = p0 \/ (p = PBlocked true /\ exists b, p0 = PBlocked b)).
Proof.
  intros H. destruct (nth_error l t) as [[c0 p0]|] eqn:E.
  - rewrite (map_nth_error wake _ _ E) in H. exists p0.
    destruct p0; cbn in H; inversion H; subst; eauto.
  - apply nth_error_None in E. assert (nth_error (map wake l) t <> None) by congruence.
    apply nth_error_Some in H0. rewrite map_length in H0. lia.
Qed.
Lemma map_fst_wake l : map fst (map wake l) = map fst l.
Proof. rewrite map_map. apply map_ext. intros [c []]; reflexivity. Qed.
Lemma map_fst_set l t c p q : nth_error l t = Some (c, p) -> map fst (set_nth t (c, q) l) = @map (call * pc) call fst l.
Proof.
  revert t; induction l as [|x l IH]; intros [|t] H; cbn in *; try discriminate; try congruence.
  - inversion H; subst. reflexivity.
  - f_equal. eauto.
Qed.

(** The state after a step of call [t] that leaves the shared data alone. *)
Lemma keep_inv h l s tr t c p q es :
  inv h s tr -> nth_error (calls s) t = Some (c, p) -> done_b p = false -> calls_of [l] = [] ->
  (es = [] /\ done_b q = false \/ (exists e, es = [e] /\ done_b q = true /\ (forall u, returns u e = Nat.eqb u t) /\
      (forall u b, e <> EChange u b) /\ (forall u, e <> EStop u))) ->
  (forall exp timed, c = CWait exp timed -> q = PBlocked false -> pred s exp = false) ->
  (is_wait c = false -> q = PStart \/ q = PDone) ->
  (q = PAwake true -> (exists e, c = CWait e true) /\ In (LExpire t) (h ++ [l])) ->
  inv (h ++ [l]) (at_pc s t c q) (tr ++ es).
Proof.
  intros I N Dp Cl Es Bl Kd Ex. destruct I as [i1 i2 i3 i4 i5 i6 i7 i8].
  assert (Hl : t < length (calls s)) by (eapply nth_lt; eauto).
  assert (Lt : last_told (tr ++ es) = last_told tr).
  { destruct Es as [[-> _]|(e & -> & _ & _ & Hc & _)]; [now rewrite app_nil_r|].
    rewrite last_told_snoc. destruct e; try reflexivity. exfalso; eapply Hc; eauto. }
  assert (St : was_stopped (tr ++ es) <-> was_stopped tr).
  { destruct Es as [[-> _]|(e & -> & _ & _ & _ & Hc)]; [rewrite app_nil_r; tauto|].
    rewrite stopped_snoc. split; [intros [?|[u ->]]; auto; exfalso; eapply Hc; eauto|auto]. }
  assert (Cn : forall u, cnt (returns u) (tr ++ es) = cnt (returns u) tr + (if Nat.eqb u t then b2n (done_b q) else 0)).
  { intros u. rewrite cnt_app. f_equal. destruct Es as [[-> Hd]|(e & -> & Hd & He & _)].
    - rewrite cnt_nil, Hd. destruct (Nat.eqb u t); reflexivity.
    - rewrite cnt_cons, cnt_nil, He, Hd. destruct (Nat.eqb u t); reflexivity. }
  assert (Hnt : forall u c' p', nth_error (calls (at_pc s t c q)) u = Some (c', p') ->
     (u = t /\ c' = c /\ p' = q) \/ (u <> t /\ nth_error (calls s) u = Some (c', p'))).
  { intros u c' p' H. cbn in H. destruct (Nat.eq_dec u t) as [->|Ne].
    - rewrite nth_set_same in H by auto. inversion H; auto.
    - rewrite nth_set_other in H by auto. auto. }
  constructor.
  - cbn. rewrite Lt; auto.
  - cbn. rewrite St; auto.
  - cbn. rewrite (map_fst_set _ _ _ _ _ N), calls_of_app, Cl, app_nil_r. auto.
  - intros u c' p' H. rewrite Cn. apply Hnt in H as [(-> & -> & ->)|[Ne H]].
    + rewrite (i4 _ _ _ N), Dp, Nat.eqb_refl. reflexivity.
    + rewrite (i4 _ _ _ H). rewrite (proj2 (Nat.eqb_neq u t) Ne). lia.
  - intros u Hu. cbn in Hu. rewrite length_set_nth in Hu. rewrite Cn, i5 by auto.
    rewrite (proj2 (Nat.eqb_neq u t)) by lia. reflexivity.
  - intros u exp timed H. apply Hnt in H as [(-> & E & E2)|[Ne H]].
    + change (pred s exp = false). eapply Bl; symmetry; eauto.
    + change (pred s exp = false). eapply i6; eauto.
  - intros u c' p' H W. apply Hnt in H as [(-> & -> & ->)|[Ne H]]; eauto.
  - intros u c' H. apply Hnt in H as [(-> & -> & E)|[Ne H]]; [auto|].
    destruct (i8 _ _ H) as [? Hin]. split; auto. apply in_or_app; auto.
Qed.

(** The state after stop() or onServiceStatusChanged. *)
Lemma tell_inv h s tr t c e cu st :
  inv h s tr -> nth_error (calls s) t = Some (c, PStart) -> is_wait c = false ->
  (forall u, returns u e = Nat.eqb u t) ->
  cu = last_told (tr ++ [e]) -> (st = true <-> was_stopped (tr ++ [e])) ->
  inv (h ++ [LStep t]) (Sgn cu st (set_nth t (c, PDone) (map wake (calls s)))) (tr ++ [e]).
Proof.
  intros I N W He Hcu Hst. destruct I as [i1 i2 i3 i4 i5 i6 i7 i8].
  assert (Hl : t < length (calls s)) by (eapply nth_lt; eauto).
  assert (Nw : nth_error (map wake (calls s)) t = Some (c, PStart)) by (rewrite (map_nth_error wake _ _ N); reflexivity).
  assert (Hnt : forall u c' p', nth_error (set_nth t (c, PDone) (map wake (calls s))) u = Some (c', p') ->
     (u = t /\ c' = c /\ p' = PDone) \/ (u <> t /\ exists p0, nth_error (calls s) u = Some (c', p0) /\
         (p' = p0 \/ (p' = PBlocked true /\ exists b, p0 = PBlocked b)) /\ p' <> PBlocked false)).
  { intros u c' p' H. destruct (Nat.eq_dec u t) as [->|Ne].
    - rewrite nth_set_same in H by (rewrite map_length; auto). inversion H; auto.
    - rewrite nth_set_other in H by auto. right. split; auto.
      destruct (nth_map_wake _ _ _ _ H) as (p0 & H0 & H1). exists p0. do 2 (split; auto).
      intros ->. rewrite (map_nth_error wake _ _ H0) in H. destruct p0; cbn in H; congruence. }
  assert (Cn : forall u, cnt (returns u) (tr ++ [e]) = cnt (returns u) tr + (if Nat.eqb u t then 1 else 0)).
  { intros u. rewrite cnt_app, cnt_cons, cnt_nil, He. destruct (Nat.eqb u t); cbn; lia. }
  constructor.
  - auto.
  - auto.
  - cbn [calls]. rewrite (map_fst_set _ _ _ _ _ Nw), map_fst_wake, calls_of_app, i3. cbn. now rewrite app_nil_r.
  - intros u c' p' H. rewrite Cn. apply Hnt in H as [(-> & -> & ->)|(Ne & p0 & H & Hp & _)].
    + rewrite (i4 _ _ _ N), Nat.eqb_refl. reflexivity.
    + rewrite (i4 _ _ _ H), (proj2 (Nat.eqb_neq u t) Ne).
      destruct Hp as [->|[-> [b ->]]]; cbn; lia.
  - intros u Hu. cbn [calls] in Hu. rewrite length_set_nth, map_length in Hu. rewrite Cn, i5 by auto.
    rewrite (proj2 (Nat.eqb_neq u t)) by lia. reflexivity.
  - intros u exp timed H. apply Hnt in H as [(_ & _ & ?)|(_ & p0 & _ & _ & Hn)]; [discriminate|now destruct Hn].
  - intros u c' p' H Wc. apply Hnt in H as [(-> & -> & ->)|(Ne & p0 & H & Hp & _)]; [auto|].
    destruct (i7 _ _ _ H Wc) as [E|E]; destruct Hp as [->|[-> [b Eb]]]; subst; auto; discriminate.
  - intros u c' H. apply Hnt in H as [(-> & -> & E)|(Ne & p0 & H & Hp & _)]; [discriminate|].
    destruct Hp as [<-|[? _]]; [|discriminate].
    destruct (i8 _ _ H) as [? Hin]. split; auto. apply in_or_app; auto.
Qed.

Lemma check_inv h s tr t exp timed p x :
  inv h s tr -> nth_error (calls s) t = Some (CWait exp timed, p) -> done_b p = false ->
  inv (h ++ [LStep t]) (fst (check s t exp timed x)) (tr ++ snd (check s t exp timed x)).
Proof.
  intros I N D. unfold check, verdict. destruct (pred s exp) eqn:P; [|destruct x]; cbn [fst snd].
  - eapply keep_inv; try eassumption; try (intros; discriminate); try reflexivity; auto.
    right. eexists. split; [reflexivity|]. split; [reflexivity|].
    destruct (stopped s); cbn; repeat (split; [reflexivity || (intros; discriminate)|]); intros; discriminate.
  - eapply keep_inv; try eassumption; try (intros; discriminate); try reflexivity; auto.
    right. eexists. split; [reflexivity|]. split; [reflexivity|].
    cbn; repeat (split; [reflexivity || (intros; discriminate)|]); intros; discriminate.
  - eapply keep_inv; try eassumption; try (intros; discriminate); try reflexivity; auto.
    intros e0 t0 E _. inversion E; subst; auto.
Qed.

Lemma idle_inv h l s tr : inv h s tr -> calls_of [l] = [] -> inv (h ++ [l]) s (tr ++ []).
Proof.
  intros [i1 i2 i3 i4 i5 i6 i7 i8] C. rewrite app_nil_r. constructor; auto.
  - rewrite calls_of_app, C, app_nil_r; auto.
  - intros t c H. destruct (i8 _ _ H). split; auto. apply in_or_app; auto.
Qed.

Lemma step_inv h s tr l : inv h s tr -> inv (h ++ [l]) (fst (step s l)) (tr ++ snd (step s l)).
Proof.
  intros I. destruct l as [c|t|t|t]; cbn [step].
  - (* call *)
    destruct I as [i1 i2 i3 i4 i5 i6 i7 i8]. cbn [fst snd]. rewrite app_nil_r.
    assert (Hnt : forall u c' p', nth_error (calls s ++ [(c, PStart)]) u = Some (c', p') ->
       nth_error (calls s) u = Some (c', p') \/ (u = length (calls s) /\ c' = c /\ p' = PStart)).
    { intros u c' p' H. rewrite nth_snoc in H. destruct (Nat.eqb_spec u (length (calls s))) as [->|Ne]; auto.
      inversion H; auto. }
    constructor; cbn [calls cur stopped]; auto.
    + rewrite map_app, calls_of_app, i3. reflexivity.
    + intros u c' p' H. apply Hnt in H as [H|(-> & -> & ->)]; eauto.
    + intros u Hu. rewrite app_length in Hu. cbn in Hu. apply i5. lia.
    + intros u e m H. apply Hnt in H as [H|(_ & _ & ?)]; [|discriminate]. exact (i6 _ _ _ H).
    + intros u c' p' H W. apply Hnt in H as [H|(-> & -> & ->)]; eauto.
    + intros u c' H. apply Hnt in H as [H|(_ & _ & ?)]; [|discriminate].
      destruct (i8 _ _ H). split; auto. apply in_or_app; auto.
  - destruct (nth_error (calls s) t) as [[c p]|] eqn:N; [|apply idle_inv; auto].
    destruct c as [exp timed| |a| ]; destruct p as [|[|]|x|];
      try (apply idle_inv; [exact I|reflexivity]); cbn [fst snd].
    + eapply check_inv; eauto.
    + eapply keep_inv; try eassumption; try reflexivity; auto; try (intros; discriminate).
    + eapply check_inv; eauto.
    + eapply tell_inv; try eassumption; try reflexivity.
      * rewrite last_told_snoc. apply (i_cur _ _ _ I).
      * rewrite stopped_snoc. split; eauto.
    + eapply tell_inv; try eassumption; try reflexivity.
      * rewrite last_told_snoc. reflexivity.
      * rewrite stopped_snoc. rewrite (i_stop _ _ _ I). split; auto. intros [?|[u ?]]; auto; discriminate.
    + eapply keep_inv; try eassumption; try reflexivity; auto; try (intros; discriminate).
      right. eexists. split; [reflexivity|]. split; [reflexivity|].
      repeat (split; [reflexivity || (intros; discriminate)|]); intros; discriminate.
  - destruct (nth_error (calls s) t) as [[c p]|] eqn:N; [|apply idle_inv; auto].
    destruct c as [exp timed| |a| ]; destruct p as [|b|x|];
      try (apply idle_inv; [exact I|reflexivity]); cbn [fst snd].
    eapply keep_inv; try eassumption; try reflexivity; auto; try (intros; discriminate).
  - destruct (nth_error (calls s) t) as [[c p]|] eqn:N; [|apply idle_inv; auto].
    destruct c as [exp [|]| |a| ]; destruct p as [|b|x|];
      try (apply idle_inv; [exact I|reflexivity]); cbn [fst snd].
    eapply keep_inv; try eassumption; try reflexivity; auto; try (intros; discriminate).
    intros _. split; eauto. apply in_or_app; cbn; auto.
Qed.

Lemma inv_all h : inv h (final h) (trace h).
Proof.
  induction h as [|l h IH] using rev_ind.
  - constructor; try reflexivity; cbn; intros; try (destruct t; discriminate).
    + split; [discriminate|intros [t []]].
  - rewrite final_snoc, trace_snoc. now apply step_inv.
Qed.

Lemma calls_final h t c : call_no h t = Some c -> exists p, nth_error (calls (final h)) t = Some (c, p).
Proof.
  unfold call_no. rewrite <- (i_calls _ _ _ (inv_all h)). intros H.
  destruct (nth_error (calls (final h)) t) as [[c' p]|] eqn:E.
  - rewrite (map_nth_error fst _ _ E) in H. inversion H; subst. eauto.
  - apply nth_error_None in E. assert (t < length (map fst (calls (final h)))) by (apply nth_error_Some; congruence).
    rewrite map_length in H0. lia.
Qed.
Lemma calls_final' h t c p : nth_error (calls (final h)) t = Some (c, p) -> call_no h t = Some c.
Proof. intros H. unfold call_no. rewrite <- (i_calls _ _ _ (inv_all h)). now rewrite (map_nth_error fst _ _ H). Qed.

Lemma returned_cnt h t : returned h t <-> 1 <= cnt (returns t) (trace h).
Proof.
  split.
  - intros (e & H1 & H2). eapply cnt_pos; eauto.
  - intros H. apply cnt_pos_inv in H as (e & ? & ?). exists e; auto.
Qed.

(** What an event says about what happened before it. *)
Definition good (h : history) (l1 : list event) (e : event) : Prop :=
  match e with
  | EReady t => exists exp timed, call_no h t = Some (CWait exp timed) /\ last_told l1 = exp /\ ~ was_stopped l1
  | EInterrupted t => exists exp timed, call_no h t = Some (CWait exp timed) /\ was_stopped l1
  | ETimeOut t => exists exp, call_no h t = Some (CWait exp true) /\ In (LExpire t) h /\ last_told l1 <> exp /\ ~ was_stopped l1
  | EStop t => call_no h t = Some CStop
  | EChange t a => call_no h t = Some (CChange a)
  | ECurrent t a => call_no h t = Some CCurrent /\ a = last_told l1
  end.

Lemma call_no_mono h l t c : call_no h t = Some c -> call_no (h ++ [l]) t = Some c.
Proof. unfold call_no. rewrite calls_of_app. intros H. rewrite nth_error_app1; auto. eapply nth_lt; eauto. Qed.
Lemma good_mono h l l1 e : good h l1 e -> good (h ++ [l]) l1 e.
Proof.
  destruct e; cbn.
  - intros (x & y & ? & ?). exists x, y. split; auto. now apply call_no_mono.
  - intros (x & y & ? & ?). exists x, y. split; auto. now apply call_no_mono.
  - intros (x & ? & ? & ?). exists x. split; [now apply call_no_mono|]. split; auto. apply in_or_app; auto.
  - apply call_no_mono.
  - apply call_no_mono.
  - intros [? ?]. split; auto. now apply call_no_mono.
Qed.

Lemma check_good h t exp timed p x : nth_error (calls (final h)) t = Some (CWait exp timed, p) ->
  (x = true -> timed = true /\ In (LExpire t) h) ->
  snd (check (final h) t exp timed x) = [] \/
  exists e, snd (check (final h) t exp timed x) = [e] /\ good h (trace h) e.
Proof.
  intros N Hx. pose proof (inv_all h) as I. pose proof (calls_final' _ _ _ _ N) as C.
  unfold check, verdict, pred. destruct (avail_eqb exp (cur (final h))) eqn:A; cbn [orb].
  - right. eexists. split; [reflexivity|]. apply avail_eqb_iff in A. destruct (stopped (final h)) eqn:S; cbn.
    + exists exp, timed. split; auto. now apply (i_stop _ _ _ I).
    + exists exp, timed. split; auto. rewrite <- (i_cur _ _ _ I). split; auto.
      rewrite <- (i_stop _ _ _ I). congruence.
  - destruct (stopped (final h)) eqn:S.
    + right. eexists. split; [reflexivity|]. cbn. exists exp, timed. split; auto. now apply (i_stop _ _ _ I).
    + destruct x; cbn; [|auto]. right. eexists. split; [reflexivity|]. cbn.
      destruct (Hx eq_refl) as [-> Hin]. exists exp. repeat (split; auto).
      * rewrite <- (i_cur _ _ _ I). intros E. symmetry in E. apply avail_eqb_iff in E. congruence.
      * rewrite <- (i_stop _ _ _ I). congruence.
Qed.

Lemma step_good h l : snd (step (final h) l) = [] \/ exists e, snd (step (final h) l) = [e] /\ good h (trace h) e.
Proof.
  pose proof (inv_all h) as I.
  destruct l as [c|t|t|t]; cbn [step]; [auto| | |].
  - destruct (nth_error (calls (final h)) t) as [[c p]|] eqn:N; [|auto].
    pose proof (calls_final' _ _ _ _ N) as C.
    destruct c as [exp timed| |a| ]; destruct p as [|[|]|x|]; auto.
    + eapply check_good; eauto. discriminate.
    + eapply check_good; eauto. intros ->. destruct (i_exp _ _ _ I _ _ N) as [[e E] Hin]. inversion E; auto.
    + right. eexists. split; [reflexivity|]. exact C.
    + right. eexists. split; [reflexivity|]. exact C.
    + right. eexists. split; [reflexivity|]. split; [exact C|]. apply (i_cur _ _ _ I).
  - destruct (nth_error (calls (final h)) t) as [[c p]|]; [|auto]. destruct c, p; auto.
  - destruct (nth_error (calls (final h)) t) as [[c p]|]; [|auto]. destruct c as [? []| | |], p; auto.
Qed.

Lemma all_good h l1 e l2 : trace h = l1 ++ e :: l2 -> good h l1 e.
Proof.
  revert l1 e l2. induction h as [|l h IH] using rev_ind; intros l1 e l2 E.
  - destruct l1; discriminate.
  - rewrite trace_snoc in E. apply good_mono.
    destruct (step_good h l) as [Hn|(e' & Hn & G)]; rewrite Hn in E.
    + rewrite app_nil_r in E. eauto.
    + destruct l2 as [|y l2 _] using rev_ind.
      * apply app_inj_tail in E as [<- <-]. exact G.
      * change (e :: l2 ++ [y]) with ((e :: l2) ++ [y]) in E. rewrite app_assoc in E.
        apply app_inj_tail in E as [E ->]. eauto.
Qed.

Lemma returns_once h t : cnt (returns t) (trace h) <= 1.
Proof.
  pose proof (inv_all h) as I. destruct (nth_error (calls (final h)) t) as [[c p]|] eqn:N.
  - rewrite (i_ret _ _ _ I _ _ _ N). destruct p; cbn; lia.
  - rewrite (i_ret2 _ _ _ I); [lia|]. now apply nth_error_None.
Qed.

Lemma pending_pc h t c : pending h t c -> exists p, nth_error (calls (final h)) t = Some (c, p) /\ done_b p = false.
Proof.
  intros [C R]. destruct (calls_final _ _ _ C) as [p N]. exists p. split; auto.
  destruct (done_b p) eqn:D; auto. exfalso. apply R, returned_cnt.
  rewrite (i_ret _ _ _ (inv_all h) _ _ _ N), D. cbn. lia.
Qed.

Lemma check_true h t exp timed x :
  (last_told (trace h) = exp \/ was_stopped (trace h)) ->
  exists e, snd (check (final h) t exp timed x) = [e] /\ (e = EReady t \/ e = EInterrupted t).
Proof.
  intros H. pose proof (inv_all h) as I. unfold check.
  replace (pred (final h) exp) with true.
  - unfold verdict. eexists. split; [reflexivity|]. destruct (stopped (final h)); auto.
  - symmetry. unfold pred. apply orb_true_iff. destruct H as [H|H].
    + left. apply avail_eqb_iff. rewrite (i_cur _ _ _ I). auto.
    + right. now apply (i_stop _ _ _ I).
Qed.

(** No wake-up gets lost: a wait whose condition holds returns by itself. *)
Lemma no_lost_wakeup h t exp timed : pending h t (CWait exp timed) ->
  last_told (trace h) = exp \/ was_stopped (trace h) ->
  exists k e, k <= 2 /\ trace (h ++ repeat (LStep t) k) = trace h ++ [e] /\ (e = EReady t \/ e = EInterrupted t).
Proof.
  intros P H. destruct (pending_pc _ _ _ P) as (p & N & D). pose proof (inv_all h) as I.
  destruct p as [|[|]|x|]; try discriminate.
  - destruct (check_true h t exp timed false H) as (e & E & V). exists 1, e. split; [lia|]. cbn [repeat].
    rewrite trace_snoc. cbn [step]. rewrite N, E. auto.
  - assert (N2 : nth_error (calls (final (h ++ [LStep t]))) t = Some (CWait exp timed, PAwake false)).
    { rewrite final_snoc. cbn [step]. rewrite N. cbn. apply nth_set_same. eapply nth_lt; eauto. }
    assert (T2 : trace (h ++ [LStep t]) = trace h).
    { rewrite trace_snoc. cbn [step]. rewrite N. cbn. apply app_nil_r. }
    rewrite <- T2 in H. destruct (check_true _ t exp timed false H) as (e & E & V). exists 2, e. split; [lia|].
    change (repeat (LStep t) 2) with ([LStep t] ++ [LStep t]). rewrite app_assoc, trace_snoc.
    cbn [step]. rewrite N2, E, T2. auto.
  - exfalso. pose proof (i_blk _ _ _ I _ _ _ N) as F. unfold pred in F. apply orb_false_iff in F as [F1 F2].
    destruct H as [H|H].
    + rewrite <- (i_cur _ _ _ I) in H. symmetry in H. apply avail_eqb_iff in H. congruence.
    + apply (i_stop _ _ _ I) in H. congruence.
  - destruct (check_true h t exp timed x H) as (e & E & V). exists 1, e. split; [lia|]. cbn [repeat].
    rewrite trace_snoc. cbn [step]. rewrite N, E. auto.
Qed.

(** A timed wait returns once its interval has elapsed. *)
Lemma check_expired s t exp timed : exists e, snd (check s t exp timed true) = [e] /\ returns t e = true.
Proof.
  unfold check, verdict. destruct (pred s exp); [|exists (ETimeOut t)]; cbn; rewrite ?Nat.eqb_refl; auto.
  destruct (stopped s); eexists; (split; [reflexivity|]); cbn; apply Nat.eqb_refl.
Qed.
Lemma timed_returns h t exp : pending h t (CWait exp true) ->
  exists k e, k <= 1 /\ trace (h ++ repeat (LStep t) k ++ [LExpire t; LStep t]) = trace h ++ [e] /\ returns t e = true.
Proof.
  intros P. destruct (pending_pc _ _ _ P) as (p & N & D).
  assert (Blk : forall h' b, nth_error (calls (final h')) t = Some (CWait exp true, PBlocked b) ->
     exists e, trace (h' ++ [LExpire t; LStep t]) = trace h' ++ [e] /\ returns t e = true).
  { intros h' b N'. change [LExpire t; LStep t] with ([LExpire t] ++ [LStep t]). rewrite app_assoc, trace_snoc.
    assert (N2 : nth_error (calls (final (h' ++ [LExpire t]))) t = Some (CWait exp true, PAwake true)).
    { rewrite final_snoc. cbn [step]. rewrite N'. cbn. apply nth_set_same. eapply nth_lt; eauto. }
    destruct (check_expired (final (h' ++ [LExpire t])) t exp true) as (e & E & R). exists e. split; auto.
    cbn [step]. rewrite N2, E. rewrite trace_snoc. cbn [step]. rewrite N'. cbn. now rewrite app_nil_r. }
  assert (Chk : forall x, step (final h) (LStep t) = check (final h) t exp true x ->
     exists e, trace (h ++ [LStep t] ++ [LExpire t; LStep t]) = trace h ++ [e] /\ returns t e = true).
  { intros x E. rewrite app_assoc.
    assert (F : final (h ++ [LStep t]) = fst (check (final h) t exp true x)) by (rewrite final_snoc, E; reflexivity).
    assert (T : trace (h ++ [LStep t]) = trace h ++ snd (check (final h) t exp true x)) by (rewrite trace_snoc, E; reflexivity).
    assert (L : t < length (calls (final h))) by (eapply nth_lt; eauto).
    unfold check in F, T. destruct (pred (final h) exp); [|destruct x].
    - assert (N2 : nth_error (calls (final (h ++ [LStep t]))) t = Some (CWait exp true, PDone)) by (rewrite F; cbn; apply nth_set_same; auto).
      exists (verdict (final h) t). split; [|unfold verdict; destruct (stopped (final h)); cbn; apply Nat.eqb_refl].
      change [LExpire t; LStep t] with ([LExpire t] ++ [LStep t]). rewrite app_assoc, (trace_snoc (_ ++ [LExpire t])), (trace_snoc (h ++ [LStep t])), (final_snoc (h ++ [LStep t])).
      cbn [step]. rewrite N2. cbn [fst snd]. rewrite N2. cbn [fst snd]. rewrite !app_nil_r. exact T.
    - assert (N2 : nth_error (calls (final (h ++ [LStep t]))) t = Some (CWait exp true, PDone)) by (rewrite F; cbn; apply nth_set_same; auto).
      exists (ETimeOut t). split; [|cbn; apply Nat.eqb_refl].
      change [LExpire t; LStep t] with ([LExpire t] ++ [LStep t]). rewrite app_assoc, (trace_snoc (_ ++ [LExpire t])), (trace_snoc (h ++ [LStep t])), (final_snoc (h ++ [LStep t])).
      cbn [step]. rewrite N2. cbn [fst snd]. rewrite N2. cbn [fst snd]. rewrite !app_nil_r. exact T.
    - assert (N2 : nth_error (calls (final (h ++ [LStep t]))) t = Some (CWait exp true, PBlocked false)) by (rewrite F; cbn; apply nth_set_same; auto).
      destruct (Blk _ _ N2) as (e & E2 & R). exists e. split; auto. rewrite E2, T. cbn. now rewrite app_nil_r. }
  destruct p as [|b|x|]; try discriminate.
  - destruct (Chk false) as (e & ? & ?); [cbn [step]; now rewrite N|]. exists 1, e. auto.
  - destruct (Blk _ _ N) as (e & ? & ?). exists 0, e. auto.
  - destruct (Chk x) as (e & ? & ?); [cbn [step]; now rewrite N|]. exists 1, e. auto.
Qed.

(** The other calls never block. *)
Lemma others_return h t c : pending h t c -> is_wait c = false ->
  exists e, trace (h ++ [LStep t]) = trace h ++ [e] /\ returns t e = true.
Proof.
  intros P W. destruct (pending_pc _ _ _ P) as (p & N & D).
  destruct (i_kind _ _ _ (inv_all h) _ _ _ N W) as [->| ->]; [|discriminate].
  destruct c; try discriminate; eexists; (split; [rewrite trace_snoc; cbn [step]; rewrite N; reflexivity|cbn; apply Nat.eqb_refl]).
Qed.
