(** Subscriptions: what an update runs. *)
From Verif Require Import ReqModel ReqSpec ReqProofs ReqInv ReqIds ReqOnce ReqDeliver ReqDeliver2 ReqGone ReqGone2.
From Coq Require Import NArith.

(** Owners of the callbacks call [t] ran, in order. *)
Definition cbs_by (h : history) (t : nat) : list nat :=
  flat_map (fun e => match e with ECb t' o _ => if Nat.eqb t' t then [o] else [] | _ => [] end) (trace h).

Lemma cbs_of_other w al s t p s' p' e c t' : fits c p -> run1 w al s t p = (s', p', e) -> t' <> t ->
  flat_map (fun e => match e with ECb u o _ => if Nat.eqb u t' then [o] else [] | _ => [] end) e = [].
Proof.
  intros F R H. 
  assert (G : forall x, In x e -> match x with ECb u _ _ => u = t | _ => True end).
  { intros x I. destruct x; try exact Logic.I. eapply run1_cb; eauto. }
  clear R. induction e as [|x e IH]; [reflexivity|]. cbn. rewrite IH by (intros y I; apply G; right; exact I).
  specialize (G x (or_introl eq_refl)). destruct x; try reflexivity. subst. destruct (Nat.eqb_spec t t'); [congruence|reflexivity].
Qed.

Definition update_code (c : opcode) : bool := match c with SignalRegister | StatusRegister => true | _ => false end.

(** The update [t] works on the list of subscribers found at one point of the history, at which it was running. *)
Definition snap (h : history) (t : nat) (m : msg) (todo : list nat) : Prop :=
  exists h' h'', h = h' ++ h'' /\ nth_error (thr (final h')) t = Some (PInTake m) /\
    cbs_by h t ++ todo = map e_owner (gl (sh (final h')) (m_op m)).

Lemma snapshot h t m : call_of h t = Some (CIncoming true m) -> update_code (m_code m) = true ->
  match nth_error (thr (final h)) t with
  | Some (PStart _) | Some (PInTake _) => cbs_by h t = []
  | Some (PInRun _ todo _) => snap h t m (map e_owner todo) /\ (forall e, In e todo -> e_kind e = KUser)
  | Some PDone => snap h t m []
  | _ => False
  end.
Proof.
  intros C U. revert C.
  induction h as [|h c IH|h t0 w IH N F T|h t0 w p s' p' e IH N R F T] using hist_ind; intros C.
  - destruct t; discriminate.
  - assert (Cb : cbs_by (h ++ [LCall c]) t = cbs_by h t) by (unfold cbs_by; rewrite trace_call; reflexivity).
    rewrite snoc_call. cbn [thr]. rewrite nth_snoc. rewrite call_of_call in C. rewrite (i_len h (inv_final h)).
    destruct (Nat.eqb_spec t (length (calls h))) as [->|].
    + rewrite Cb. unfold cbs_by.
      assert (G : forall x, In x (trace h) -> match x with ECb u _ _ => u < length (calls h) | _ => True end).
      { intros x I. destruct x; try exact Logic.I. destruct (cb_called _ _ _ _ I) as (c' & C'). eapply nth_lt; exact C'. }
      induction (trace h) as [|x l IHl]; [reflexivity|]. cbn.
      assert (X := G x (or_introl eq_refl)). rewrite IHl by (intros y I; apply G; right; exact I).
      destruct x; try reflexivity. destruct (Nat.eqb_spec t (length (calls h))); [lia|reflexivity].
    + specialize (IH C). assert (Sn : forall l, snap h t m l -> snap (h ++ [LCall c]) t m l).
      { intros l (a & b & -> & A & B). exists a, (b ++ [LCall c]). rewrite app_assoc. split; [reflexivity|]. split; [exact A|]. rewrite Cb. exact B. }
      rewrite Cb. destruct (nth_error (thr (final h)) t) as [q|]; [|exact IH]. destruct q; try exact IH; [|apply Sn; exact IH].
      destruct IH as [I1 I2]. split; [apply Sn; exact I1|exact I2].
  - rewrite call_of_run in C. specialize (IH C). rewrite F.
    assert (Cb : cbs_by (h ++ [LRun t0 w]) t = cbs_by h t) by (unfold cbs_by; rewrite T; reflexivity).
    assert (Sn : forall l, snap h t m l -> snap (h ++ [LRun t0 w]) t m l).
    { intros l (a & b & -> & A & B). exists a, (b ++ [LRun t0 w]). rewrite app_assoc. split; [reflexivity|]. split; [exact A|]. rewrite Cb. exact B. }
    rewrite Cb. destruct (nth_error (thr (final h)) t) as [q|]; [|exact IH]. destruct q; try exact IH; [|apply Sn; exact IH].
    destruct IH as [I1 I2]. split; [apply Sn; exact I1|exact I2].
  - rewrite call_of_run in C. specialize (IH C). rewrite F. cbn [thr]. rewrite (nth_set _ _ _ _ _ N).
    destruct (i_fit h (inv_final h) _ _ N) as (c & Ct & Fc).
    assert (CB : cbs_by (h ++ [LRun t0 w]) t = cbs_by h t ++
      flat_map (fun e => match e with ECb u o _ => if Nat.eqb u t then [o] else [] | _ => [] end) e).
    { unfold cbs_by. rewrite T. apply flat_map_app. }
    destruct (Nat.eqb_spec t0 t) as [->|Hne].
    2:{ rewrite (cbs_of_other _ _ _ _ _ _ _ _ _ t Fc R), app_nil_r in CB by congruence.
        assert (Sn : forall l, snap h t m l -> snap (h ++ [LRun t0 w]) t m l).
        { intros l (a & b & -> & A & B). exists a, (b ++ [LRun t0 w]). rewrite app_assoc. split; [reflexivity|]. split; [exact A|]. rewrite CB. exact B. }
        rewrite CB. destruct (nth_error (thr (final h)) t) as [q|]; [|exact IH]. destruct q; try exact IH; [|apply Sn; exact IH].
        destruct IH as [I1 I2]. split; [apply Sn; exact I1|exact I2]. }
    rewrite N in IH. rewrite C in Ct. injection Ct as <-.
    assert (Sn : forall l l', snap h t m l ->
       flat_map (fun e => match e with ECb u o _ => if Nat.eqb u t then [o] else [] | _ => [] end) e ++ l' = l ->
       snap (h ++ [LRun t w]) t m l').
    { intros l l' (a & b & Eh & A & B) E. exists a, (b ++ [LRun t w]). rewrite app_assoc, Eh. split; [reflexivity|]. split; [exact A|].
      rewrite <- Eh, CB, <- app_assoc, E. exact B. }
    destruct p; try contradiction.
    + cbn in Fc. subst c. cbn in R. destruct (m_code m) eqn:M; try discriminate U; injection R as <- <- <-; rewrite CB, IH; reflexivity.
    + cbn in Fc. destruct Fc as [Fc _]. injection Fc as <-. cbn in R.
      assert (X : exists k, p' = PInRun m (get_or [] (m_op m) (registers (sh (final h)))) k /\ e = []).
      { destruct (m_code m) eqn:M; try discriminate U; injection R as <- <- <-; eauto. }
      destruct X as (k & -> & ->). split.
      * exists h, [LRun t w]. split; [reflexivity|]. split; [exact N|]. rewrite CB, IH. reflexivity.
      * intros x I. exact (proj1 (proj2 (i_reg h (inv_final h) _ _ I))).
    + cbn in Fc. injection Fc as <-. destruct IH as [I1 I2]. destruct todo as [|y todo].
      * cbn in R. injection R as <- <- <-. eapply Sn; [exact I1|reflexivity].
      * cbn in R. rewrite (I2 y (or_introl eq_refl)) in R. injection R as <- <- <-. split.
        -- eapply Sn; [exact I1|]. cbn. rewrite Nat.eqb_refl. reflexivity.
        -- intros x I. apply I2. right. exact I.
    + cbn in R. injection R as <- <- <-. eapply Sn; [exact IH|reflexivity].
Qed.

(** ** At most one entry per subscriber *)
Definition rstores (p : pc) : bool :=
  match p with PStart _ | PRegAlloc _ _ | PRegStore _ _ _ => true | _ => false end.
Lemma run1_rstores w al s t p s' p' e : run1 w al s t p = (s', p', e) -> b2n (rstores p') <= b2n (rstores p).
Proof. intros R. destruct p; cbn in R; break_run; cbn; auto. destruct new; cbn; auto. Qed.
Definition prst (s : st) (owner : nat) : nat :=
  match nth_error (thr s) owner with Some p => b2n (rstores p) | None => 1 end.

Lemma sub_weight h owner o : prst (final h) owner + cnt (own owner) (gl (sh (final h)) o) <= 1.
Proof.
  induction h as [|h c IH|h t w IH N F T|h t w p s' p' e IH N R F T] using hist_ind.
  - unfold prst, cnt. cbn. destruct owner; cbn; lia.
  - rewrite snoc_call. cbn [sh thr]. unfold prst in *. cbn [thr]. rewrite nth_snoc.
    destruct (Nat.eqb_spec owner (length (thr (final h)))); [|exact IH].
    subst. rewrite (proj2 (nth_error_None _ _) (le_n _)) in IH. cbn. exact IH.
  - rewrite F. exact IH.
  - rewrite F. cbn [sh thr]. unfold prst in *. cbn [thr]. rewrite (nth_set _ _ _ _ _ N).
    pose proof (run1_registers _ _ _ _ _ _ _ _ R) as E. apply (teff_cnt _ _ _ (own owner) o) in E.
    pose proof (run1_rstores _ _ _ _ _ _ _ _ R) as S.
    assert (G : cnt (own owner) (gl s' o) <= cnt (own owner) (gl (sh (final h)) o) \/
                (t = owner /\ rstores p = true /\ rstores p' = false /\ cnt (own owner) (gl s' o) <= cnt (own owner) (gl (sh (final h)) o) + 1)).
    { destruct p; cbn [reg_effect] in E; try (left; exact E). change (own owner (Ent rid t KUser)) with (Nat.eqb t owner) in E.
      destruct (Nat.eqb_spec t owner) as [->|].
      - right. split; [reflexivity|]. split; [reflexivity|]. split; [cbn in R; break_run; reflexivity|].
        destruct (Nat.eqb o o0); cbn in E; lia.
      - left. destruct (Nat.eqb o o0); cbn in E; lia. }
    destruct (Nat.eqb_spec t owner) as [->|]; [rewrite N in IH|].
    + destruct G as [G|(_ & A & B & G)]; [lia|]. rewrite A in *. rewrite B. cbn in *. lia.
    + destruct G as [G|(A & _)]; [lia|contradiction].
Qed.

(** ** Absence after removal *)
Definition rgone (h : history) (owner : nat) : Prop :=
  (exists p, nth_error (thr (final h)) owner = Some p /\ rstores p = false) /\
  (forall o, cnt (own owner) (gl (sh (final h)) o) = 0).

Lemma no_rstore_snoc h l owner : (exists p, nth_error (thr (final h)) owner = Some p /\ rstores p = false) ->
  exists p, nth_error (thr (final (h ++ [l]))) owner = Some p /\ rstores p = false.
Proof.
  intros (q & N & S). destruct l as [c|t' w].
  - exists q. split; [|exact S]. rewrite snoc_call. cbn [thr]. rewrite nth_error_app1; [exact N|eapply nth_lt; exact N].
  - destruct (step_cases h t' w) as [(_ & F & _)|(p & s' & p' & e & Np & R & F & _)]; rewrite F; [eauto|]. cbn [thr].
    rewrite (nth_set _ _ _ _ _ Np). destruct (Nat.eqb_spec t' owner) as [->|]; [|eauto]. exists p'. split; [reflexivity|].
    rewrite N in Np. injection Np as <-. pose proof (run1_rstores _ _ _ _ _ _ _ _ R) as X. rewrite S in X. destruct (rstores p'); cbn in X; [lia|reflexivity].
Qed.
Lemma no_rstore_app h h2 owner : (exists p, nth_error (thr (final h)) owner = Some p /\ rstores p = false) ->
  exists p, nth_error (thr (final (h ++ h2))) owner = Some p /\ rstores p = false.
Proof.
  intros H. induction h2 as [|l h2 IH] using rev_ind; [rewrite app_nil_r; exact H|]. rewrite app_assoc. apply no_rstore_snoc. exact IH.
Qed.

Lemma rgone_snoc h l owner : rgone h owner -> rgone (h ++ [l]) owner.
Proof.
  intros [P C]. split; [apply no_rstore_snoc; exact P|]. destruct l as [c|t w].
  - rewrite snoc_call. exact C.
  - destruct (step_cases h t w) as [(_ & F & _)|(p & s' & p' & e & Np & R & F & _)]; rewrite F; [exact C|]. cbn [sh]. intros o.
    pose proof (run1_registers _ _ _ _ _ _ _ _ R) as E. apply (teff_cnt _ _ _ (own owner) o) in E. specialize (C o).
    destruct p; cbn [reg_effect] in E; try lia.
    rewrite E, C. unfold own. cbn [e_owner]. destruct (Nat.eqb_spec t owner) as [->|]; [|destruct (Nat.eqb o o0); reflexivity].
    destruct P as (q & Nq & Sq). rewrite Np in Nq. injection Nq as <-. discriminate.
Qed.
Lemma rgone_app h h2 owner : rgone h owner -> rgone (h ++ h2) owner.
Proof.
  intros G. induction h2 as [|l h2 IH] using rev_ind; [rewrite app_nil_r; exact G|]. rewrite app_assoc. apply rgone_snoc. exact IH.
Qed.

Lemma app_prefix {A} (a b c d : list A) : a ++ b = c ++ d -> (exists x, c = a ++ x /\ b = x ++ d) \/ (exists x, a = c ++ x /\ d = x ++ b).
Proof.
  revert c. induction a as [|y a IH]; intros c H.
  - left. exists c. auto.
  - destruct c as [|z c]; [right; exists (y :: a); auto|]. injection H as -> H.
    destruct (IH c H) as [(x & -> & ->)|(x & -> & ->)]; [left|right]; exists x; auto.
Qed.

(** The point at which a late update looked is after [h]. *)
Lemma snap_late h h2 t m todo : length (calls h) <= t -> snap (h ++ h2) t m todo ->
  exists x y, h2 = x ++ y /\ nth_error (thr (final (h ++ x))) t = Some (PInTake m) /\ cbs_by (h ++ h2) t ++ todo = map e_owner (gl (sh (final (h ++ x))) (m_op m)).
Proof.
  intros Hl (a & b & E & N & S). destruct (app_prefix h h2 a b E) as [(x & -> & ->)|(x & -> & ->)].
  - exists x, b. auto.
  - exfalso. apply nth_lt in N. rewrite (i_len a (inv_final a)) in N. rewrite calls_app, app_length in Hl. lia.
Qed.

Lemma cb_in_cbs h t owner p : In (ECb t owner p) (trace h) -> In owner (cbs_by h t).
Proof. intros H. unfold cbs_by. apply in_flat_map. exists (ECb t owner p). split; [exact H|]. rewrite Nat.eqb_refl. left. reflexivity. Qed.
Lemma cbs_in_cb h t owner : In owner (cbs_by h t) -> exists p, In (ECb t owner p) (trace h).
Proof.
  unfold cbs_by. intros H. apply in_flat_map in H as (x & I & H). destruct x; try contradiction.
  destruct (Nat.eqb_spec t0 t); [|contradiction]. destruct H as [<-|[]]. subst. eauto.
Qed.
Lemma runs_cbs h t owner : runs_by h t owner = cnt (Nat.eqb owner) (cbs_by h t).
Proof.
  unfold runs_by, cbs_by. induction (trace h) as [|x l IH]; [reflexivity|]. cbn [flat_map]. rewrite cnt_cons, cnt_app, IH. f_equal.
  destruct x; try reflexivity. destruct (Nat.eqb t0 t); cbn; [|reflexivity]. rewrite cnt_cons, cnt_nil, (Nat.eqb_sym owner). destruct (Nat.eqb owner0 owner); reflexivity.
Qed.
Lemma cnt_map_own owner l : cnt (Nat.eqb owner) (map e_owner l) = cnt (own owner) l.
Proof. induction l as [|x l IH]; [reflexivity|]. cbn [map]. rewrite !cnt_cons, IH. unfold own. rewrite (Nat.eqb_sym owner). reflexivity. Qed.


Lemma inrun_code h t m l k : nth_error (thr (final h)) t = Some (PInRun m l k) -> answer_code (m_code m) || update_code (m_code m) = true.
Proof.
  revert l k. induction h as [|h c IH|h t0 w IH N F T|h t0 w p s' p' e IH N R F T] using hist_ind; intros l k H.
  - destruct t; discriminate.
  - rewrite snoc_call in H. cbn [thr] in H. rewrite nth_snoc in H. destruct (Nat.eqb _ _); [discriminate|eauto].
  - rewrite F in H. eauto.
  - rewrite F in H. cbn [thr] in H. rewrite (nth_set _ _ _ _ _ N) in H. destruct (Nat.eqb_spec t0 t) as [->|]; [|eauto].
    injection H as ->. destruct (i_fit h (inv_final h) _ _ N) as (c & Cc & Fc).
    destruct p; cbn in R; break_run; try discriminate; cbn in Fc.
    all: try (match goal with H : PInRun _ _ _ = PInRun _ _ _ |- _ => injection H as -> -> -> end).
    all: try (destruct Fc as [_ [Fc|[Fc|Fc]]]; rewrite Fc; reflexivity).
    all: try (destruct Fc as [_ Fc]; rewrite ?Heqo in *; cbn in Fc |- *; destruct Fc as [Fc|[Fc|Fc]]; (rewrite Fc || discriminate || idtac); reflexivity).
    all: eauto.
    all: try (destruct new; discriminate).
Qed.

Lemma cb_code h t owner p m : In (ECb t owner p) (trace h) -> call_of h t = Some (CIncoming true m) -> answer_code (m_code m) || update_code (m_code m) = true.
Proof.
  induction h as [|h c IH|h t0 w IH N F T|h t0 w q s' q' e IH N R F T] using hist_ind; intros I C.
  - destruct I.
  - rewrite trace_call in I. apply IH; [exact I|]. rewrite call_of_call in C. destruct (Nat.eqb_spec t (length (calls h))); [|exact C].
    destruct (cb_called _ _ _ _ I) as (? & X). apply nth_lt in X. lia.
  - rewrite T in I. rewrite call_of_run in C. auto.
  - rewrite T in I. rewrite call_of_run in C. apply in_app_iff in I as [I|I]; [auto|].
    destruct (i_fit h (inv_final h) _ _ N) as (c & Cc & Fc).
    destruct (run1_cb _ _ _ _ _ _ _ _ _ _ _ _ Fc R I) as [-> [(m' & x & l & k & -> & _)|[_ (o & Y)]]]; rewrite C in Cc; injection Cc as <-.
    + cbn in Fc. injection Fc as ->. eapply inrun_code; exact N.
    + destruct Y as [Y|Y]; discriminate.
Qed.

Lemma reg_not_other h owner stt o t p : call_of h owner = Some (CReg stt o true) -> In (ECb t owner p) (trace h) -> t <> owner ->
  exists m, call_of h t = Some (CIncoming true m) /\ update_code (m_code m) = true /\ m_op m = o /\ p = m_pay m.
Proof.
  intros C I Hne. destruct (i_cb h (inv_final h) _ _ _ I) as [(m & e & A & B & D & E & G)|[X _]]; [|contradiction].
  exists m. split; [exact A|]. unfold run_ok in G. pose proof (cb_code _ _ _ _ _ I A) as U. destruct (answer_code (m_code m)) eqn:An.
  - destruct G as [[(c & code & pl & b & G & L) _] _]. rewrite D, C in G. injection G as <-. destruct L.
  - destruct G as [(stt' & G) _]. rewrite D, C in G. injection G as _ ->. auto.
Qed.

(** No later update runs the callback of a removed subscriber. *)
Lemma rgone_never h h2 owner stt o t p : call_of h owner = Some (CReg stt o true) -> rgone h owner -> length (calls h) <= t ->
  ~ In (ECb t owner p) (trace (h ++ h2)).
Proof.
  intros C G Hl I.
  assert (Hne : t <> owner) by (intros ->; apply nth_lt in C; unfold calls in *; lia).
  destruct (reg_not_other _ _ _ _ _ _ (call_of_app h h2 _ _ C) I Hne) as (m & Cm & U & Ho & _).
  pose proof (snapshot _ _ _ Cm U) as S.
  assert (K : forall todo, snap (h ++ h2) t m todo -> False).
  { intros todo Sn. destruct (snap_late _ _ _ _ _ Hl Sn) as (x & y & -> & _ & E).
    pose proof (proj2 (rgone_app h x owner G) (m_op m)) as Z. rewrite <- cnt_map_own, <- E, cnt_app in Z.
    apply cb_in_cbs in I. assert (P : 1 <= cnt (Nat.eqb owner) (cbs_by (h ++ x ++ y) t)) by (eapply cnt_pos; [exact I|apply Nat.eqb_refl]). lia. }
  destruct (nth_error (thr (final (h ++ h2))) t) as [q|]; [|exact S]. apply cb_in_cbs in I. destruct q; try contradiction; try (rewrite S in I; destruct I).
  - destruct S as [S _]. eapply K; exact S.
  - eapply K; exact S.
Qed.

(** An update runs each subscriber at most once. *)
Lemma update_once h t m owner stt o : call_of h t = Some (CIncoming true m) -> call_of h owner = Some (CReg stt o true) -> runs_by h t owner <= 1.
Proof.
  intros Cm Co. destruct (runs_by h t owner) as [|n] eqn:E; [lia|]. rewrite <- E.
  assert (P : 1 <= runs_by h t owner) by lia. rewrite runs_cbs in *. apply cnt_pos_inv in P as (x & I & X). apply Nat.eqb_eq in X. subst x.
  destruct (cbs_in_cb _ _ _ I) as (p & Ip).
  assert (Hne : t <> owner) by (intros ->; congruence).
  destruct (reg_not_other _ _ _ _ _ _ Co Ip Hne) as (m' & Cm' & U & _). rewrite Cm in Cm'. injection Cm' as <-.
  pose proof (snapshot _ _ _ Cm U) as S.
  assert (K : forall todo, snap h t m todo -> cnt (Nat.eqb owner) (cbs_by h t) <= 1).
  { intros todo (a & b & -> & _ & Sn). pose proof (sub_weight a owner (m_op m)) as W. rewrite <- cnt_map_own, <- Sn, cnt_app in W. lia. }
  destruct (nth_error (thr (final h)) t) as [q|]; [|contradiction]. destruct q; try contradiction; try (rewrite S; rewrite cnt_nil; lia).
  - destruct S as [S _]. eapply K; exact S.
  - eapply K; exact S.
Qed.

(** ** Order *)
Fixpoint in_order (a n : nat) (l : list nat) : Prop :=
  match l with [] => True | x :: l' => (n <= x -> ~ In a l') /\ in_order a n l' end.
Lemma in_order_app a n l x : in_order a n l -> x <> a -> in_order a n (l ++ [x]).
Proof.
  induction l as [|y l IH]; cbn; [intros _ _; split; [tauto|exact I]|]. intros [H1 H2] Hx. split; [|auto].
  intros Hy. rewrite in_app_iff. intros [H|[->|[]]]; [apply (H1 Hy H)|congruence].
Qed.
Lemma in_order_remove a n rid l : in_order a n (map e_owner l) -> in_order a n (map e_owner (remove_id rid l)).
Proof.
  induction l as [|y l IH]; cbn; [auto|]. intros [H1 H2]. destruct (N.eqb (e_id y) rid); [exact H2|]. cbn. split; [|auto].
  intros Hy H. apply (H1 Hy). clear - H. induction l as [|z l IH]; cbn in *; [exact H|]. destruct (N.eqb (e_id z) rid); cbn in *; [auto|]. destruct H; auto.
Qed.
Lemma in_order_small a n l : (forall x, In x l -> x < n) -> in_order a n l.
Proof. induction l as [|y l IH]; cbn; [auto|]. intros H. split; [intros Hy; specialize (H y (or_introl eq_refl)); lia|apply IH; auto]. Qed.
Lemma in_order_split a n l l1 b l2 : in_order a n l -> l = l1 ++ b :: l2 -> n <= b -> ~ In a l2.
Proof.
  intros H -> Hb. induction l1 as [|y l1 IH]; cbn in H; [apply (proj1 H Hb)|apply IH; apply (proj2 H)].
Qed.
Lemma in_order_sub a n l l' : in_order a n (l ++ l') -> in_order a n l.
Proof.
  induction l as [|y l IH]; cbn; [auto|]. intros [H1 H2]. split; [|auto]. intros Hy H. apply (H1 Hy). apply in_or_app. auto.
Qed.

Lemma reg_ordered h1 h2 a o : (exists p, nth_error (thr (final h1)) a = Some p /\ rstores p = false) ->
  in_order a (length (calls h1)) (map e_owner (gl (sh (final (h1 ++ h2))) o)).
Proof.
  intros NS. induction h2 as [|l h2 IH] using rev_ind.
  - rewrite app_nil_r. apply in_order_small. intros x I. apply in_map_iff in I as (e & <- & I).
    destruct (i_reg h1 (inv_final h1) _ _ I) as [(stt & C) _]. eapply nth_lt; exact C.
  - rewrite app_assoc. pose proof (no_rstore_app h1 h2 a NS) as NS2. set (h := h1 ++ h2) in *. destruct l as [c|t w].
    + rewrite snoc_call. exact IH.
    + destruct (step_cases h t w) as [(_ & F & _)|(p & s' & p' & e & Np & R & F & _)]; rewrite F; [exact IH|]. cbn [sh].
      pose proof (run1_registers _ _ _ _ _ _ _ _ R) as E. destruct p; cbn [reg_effect teff] in E; try (rewrite E; exact IH).
      * rewrite E. destruct (Nat.eqb_spec o o0) as [->|]; [|exact IH]. rewrite map_app. cbn. apply in_order_app; [exact IH|].
        intros ->. destruct NS2 as (q & Nq & Sq). rewrite Np in Nq. injection Nq as <-. discriminate.
      * rewrite E. destruct (Nat.eqb_spec o o0) as [->|]; [|exact IH]. apply in_order_remove. exact IH.
      * rewrite E. destruct (Nat.eqb_spec o o0) as [->|]; [|exact IH]. apply in_order_remove. exact IH.
      * rewrite E. destruct (Nat.eqb_spec o o0) as [->|]; [|exact IH]. exact I.
      * rewrite E. exact I.
Qed.

(** If subscriber [a]'s registration returned before [b]'s began, an update arriving later runs [a] before [b]. *)
Lemma update_order h1 h2 t m a b l1 l2 : returned h1 a -> length (calls h1) <= b ->
  call_of (h1 ++ h2) t = Some (CIncoming true m) -> update_code (m_code m) = true ->
  cbs_by (h1 ++ h2) t = l1 ++ b :: l2 -> ~ In a l2.
Proof.
  intros [v Rv] Hb Cm U E.
  assert (NS : exists p, nth_error (thr (final h1)) a = Some p /\ rstores p = false).
  { exists PDone. split; [eapply cnt_ret_of; exact Rv|reflexivity]. }
  pose proof (snapshot _ _ _ Cm U) as S.
  assert (K : forall todo, snap (h1 ++ h2) t m todo -> ~ In a l2).
  { intros todo (x & y & Eh & _ & Sn).
    assert (O : in_order a (length (calls h1)) (cbs_by (h1 ++ h2) t)).
    { apply in_order_sub with (l' := todo). rewrite Sn. destruct (app_prefix h1 h2 x y Eh) as [(z & -> & _)|(z & -> & _)].
      - apply reg_ordered. exact NS.
      - apply in_order_small. intros q I. apply in_map_iff in I as (e & <- & I). destruct (i_reg x (inv_final x) _ _ I) as [(stt & C) _].
        apply nth_lt in C. rewrite calls_app, app_length. unfold calls in *. lia. }
    eapply in_order_split; [exact O|exact E|exact Hb]. }
  destruct (nth_error (thr (final (h1 ++ h2))) t) as [q|]; [|contradiction]. destruct q; try contradiction; try (rewrite S in E; destruct l1; discriminate).
  - destruct S as [S _]. eapply K; exact S.
  - eapply K; exact S.
Qed.
