(** Lemmas about SyncTimer: stop() ends a start that is alone; timers whose cyclicity is not changed. *)
From Verif Require Import ListUtil SyncModel SyncSpec SyncProofs SyncProofs2.

Lemma set_set {A} (l : list A) u x y : set_nth u x (set_nth u y l) = set_nth u x l.
Proof. revert u. induction l as [|z l IH]; intros [|u]; cbn; auto. now rewrite IH. Qed.

Lemma set_nth_id {A} (l : list A) u x : nth_error l u = Some x -> set_nth u x l = l.
Proof. revert u. induction l as [|z l IH]; intros [|u] H; cbn in *; try discriminate; [congruence|]. now rewrite IH. Qed.

Lemma first_waiting_none i l : (forall st, In st l -> is_waiting st = false) -> first_waiting i l = None.
Proof.
  revert i. induction l as [|x l IH]; intros i H; cbn; auto. rewrite (H x (or_introl eq_refl)). apply IH. intros; apply H; right; auto.
Qed.
Lemma first_waiting_one i l u : (forall v, v <> u -> is_waiting (nth v l []) = false) -> is_waiting (nth u l []) = true ->
  first_waiting i l = Some (i + u).
Proof.
  revert i u. induction l as [|x l IH]; intros i u H W; [destruct u; discriminate|].
  cbn. destruct u as [|u].
  - cbn in W. rewrite W. now rewrite Nat.add_0_r.
  - pose proof (H 0 ltac:(lia)) as X. cbn in X. rewrite X. rewrite (IH (S i) u).
    + f_equal. lia.
    + intros v Hv. apply (H (S v)). lia.
    + exact W.
Qed.

Lemma stop_notifies s w u f st d :
  nth_error (stacks s) u = Some (f :: st) -> f_pc f = PWait d false ->
  (forall v, v <> u -> is_waiting (nth v (stacks s) []) = false) ->
  notify_one s w = with_stack s u (set_pc f (PWait d true) :: st).
Proof.
  intros N P O.
  assert (W : is_waiting (nth u (stacks s) []) = true) by (rewrite (nth_stack _ _ _ N); cbn; now rewrite P).
  assert (Pk : pick s w = Some u).
  { unfold pick. destruct (is_waiting (nth w (stacks s) [])) eqn:Ww.
    - destruct (Nat.eq_dec w u) as [->|Ne]; auto. rewrite O in Ww by auto. discriminate.
    - now rewrite (first_waiting_one 0 _ u). }
  unfold notify_one. rewrite Pk, (nth_stack _ _ _ N), P. reflexivity.
Qed.

(** A start() that waits has taken effect. *)
Lemma waiting_active c N h v st f : nth_error (stacks (final c N h)) v = Some st -> In f st ->
  (exists d b, f_pc f = PWait d b \/ f_pc f = PAwake d b) \/ in_call f = true -> active (trace c N h) (f_id f).
Proof.
  intros Nv Hf H. pose proof (inv_all c N h) as I.
  pose proof (v_ok _ _ I _ _ f Nv Hf) as [_ B].
  assert (S : exists c0, In (ESet (f_id f) c0) (trace c N h)).
  { destruct H as [(d & b & [P|P])|H].
    - rewrite P in B. destruct B as (c0 & ? & _). eauto.
    - rewrite P in B. destruct B as [(c0 & ? & _) _]. eauto.
    - unfold in_call in H. destruct (f_pc f); try discriminate. destruct B as [_ (c0 & ? & _)]. eauto. }
  destruct S as [c0 S]. split.
  - pose proof (sets_le c N h (f_id f)). pose proof (cnt_pos (sets (f_id f)) _ _ S). cbn in H1. rewrite Nat.eqb_refl in H1.
    specialize (H1 eq_refl). lia.
  - pose proof (v_count _ _ I (f_id f)) as A. pose proof (set_starts _ _ _ _ _ S) as E. rewrite E in A.
    assert (1 <= weight (f_id f) (final c N h)).
    { unfold weight. pose proof (wsum_nth (cnt (fid (f_id f))) _ _ _ Nv). pose proof (in_cnt _ _ _ Hf eq_refl). lia. }
    lia.
Qed.

Lemma stop_ends c N h t w n :
  trace c N (h ++ [LStop t w]) = trace c N h ++ [EStop t] ->
  armed (trace c N h) = true -> no_callback (final c N h) ->
  active (trace c N h) n -> (forall m, active (trace c N h) m -> m = n) ->
  exists u hs, length hs <= 2 /\ Forall (only_steps u) hs /\
    trace c N ((h ++ [LStop t w]) ++ hs) = trace c N h ++ [EStop t; EEnd n].
Proof.
  intros T A NC Ac On. set (s := final c N h) in *. pose proof (inv_all c N h) as I. fold s in I.
  assert (R : running s = true) by (rewrite (v_run _ _ I); exact A).
  destruct Ac as [Ac1 Ac2].
  assert (S : exists c0, In (ESet n c0) (trace c N h)).
  { destruct (cnt_pos_inv (sets n) (trace c N h)) as (e & He & Fe); [lia|]. destruct e; try discriminate.
    cbn in Fe. apply Nat.eqb_eq in Fe. subst. eauto. }
  destruct S as [c0 S].
  destruct (find_frame _ _ _ I (set_starts _ _ _ _ _ S) Ac2) as (u & st & f & Nu & Hf & Ef).
  destruct (top_frame _ _ _ _ _ I NC Nu Hf) as (st' & -> & C).
  pose proof (v_ok _ _ I _ _ f Nu Hf) as [_ B3].
  assert (St : step s (LStop t w) = (do_stop s w, [EStop t])).
  { rewrite trace_snoc in T. apply app_inv_head in T. fold s in T. cbn [step] in *.
    destruct (in_user s t && can_lock s t); [reflexivity|discriminate]. }
  assert (O : forall v, v <> u -> is_waiting (nth v (stacks s) []) = false).
  { intros v Ne. destruct (nth_error (stacks s) v) as [[|g sg]|] eqn:Nv.
    - now rewrite (nth_stack _ _ _ Nv).
    - rewrite (nth_stack _ _ _ Nv). cbn. destruct (f_pc g) as [| | |d b|d b|] eqn:P; auto. exfalso.
      assert (f_id g = n).
      { apply On. eapply waiting_active; [exact Nv|left; reflexivity|]. left. eauto. }
      destruct (other_id _ _ _ _ _ I Nu) as [_ Ot]. apply (Ot v (g :: sg) g); auto; [left; auto|congruence].
    - rewrite nth_overflow; auto. now apply nth_error_None. }
  unfold do_stop in St. rewrite R in St.
  assert (End : forall h' d x, final c N h' = with_stack (set_running s false) u (set_pc f (PAwake d x) :: st') ->
     trace c N h' = trace c N h ++ [EStop t] -> trace c N (h' ++ [LStep u 0]) = trace c N h ++ [EStop t; EEnd n]).
  { intros h' d x F T'. rewrite trace_snoc, T', <- app_assoc. f_equal. cbn [app]. f_equal. rewrite F. cbn [step with_stack stacks].
    rewrite nth_set_same by (eapply nth_lt; eauto). unfold start_step. cbn [set_pc f_pc].
    rewrite can_lock_free by (eapply no_callback_stack; eauto). cbn. now rewrite Ef. }
  assert (Same : forall p, f_pc f = p -> set_running s false = with_stack (set_running s false) u (set_pc f p :: st')).
  { intros p <-. replace (set_pc f (f_pc f)) with f by (destruct f; reflexivity). unfold with_stack. cbn [set_running stacks].
    rewrite set_nth_id by exact Nu. destruct s; reflexivity. }
  assert (Two : final c N (h ++ [LStop t w]) = with_stack (set_running s false) u (set_pc f (PWait (match f_pc f with PWait d _ => d | _ => 0 end) true) :: st') ->
     exists hs, length hs <= 2 /\ Forall (only_steps u) hs /\ trace c N ((h ++ [LStop t w]) ++ hs) = trace c N h ++ [EStop t; EEnd n]).
  { intros F. exists ([LStep u 0] ++ [LStep u 0]). split; [cbn; lia|]. split; [repeat (apply Forall_cons; [eexists; reflexivity|]); apply Forall_nil|].
    rewrite app_assoc.
    assert (S2 : step (final c N (h ++ [LStop t w])) (LStep u 0) =
       (with_stack (set_running s false) u (set_pc f (PAwake (match f_pc f with PWait d _ => d | _ => 0 end) false) :: st'), [])).
    { rewrite F. cbn [step with_stack stacks]. rewrite nth_set_same by (eapply nth_lt; eauto). unfold start_step. cbn [set_pc f_pc].
      unfold with_stack. cbn [stacks now running cyclic made set_running]. now rewrite set_set. }
    eapply End.
    - rewrite final_snoc, S2. reflexivity.
    - rewrite trace_snoc, S2, T. apply app_nil_r. }
  exists u. destruct (f_pc f) as [| | |d b|d x|] eqn:P; try (destruct B3; rewrite Ef in *; lia).
  - destruct b.
    + apply Two. rewrite final_snoc. fold s. rewrite St. cbn [fst].
      replace (notify_one (set_running s false) w) with (set_running s false); [now apply Same|].
      unfold notify_one, pick. cbn [set_running stacks].
      assert (Z : forall v, is_waiting (nth v (stacks s) []) = false).
      { intros v. destruct (Nat.eq_dec v u) as [->|]; auto. rewrite (nth_stack _ _ _ Nu). cbn. now rewrite P. }
      rewrite Z, first_waiting_none; auto. intros st0 H0. apply (In_nth _ _ []) in H0 as (v & _ & <-). apply Z.
    + apply Two. rewrite final_snoc. fold s. rewrite St. cbn [fst].
      apply stop_notifies; auto.
  - exists [LStep u 0]. split; [cbn; lia|]. split; [apply Forall_cons; [eexists; reflexivity|apply Forall_nil]|].
    eapply (End _ d x); auto. rewrite final_snoc. fold s. rewrite St. cbn [fst].
    replace (notify_one (set_running s false) w) with (set_running s false); [now apply Same|].
    unfold notify_one, pick. cbn [set_running stacks].
    assert (Z : forall v, is_waiting (nth v (stacks s) []) = false).
    { intros v. destruct (Nat.eq_dec v u) as [->|]; auto. rewrite (nth_stack _ _ _ Nu). cbn. now rewrite P. }
    rewrite Z, first_waiting_none; auto. intros st0 H0. apply (In_nth _ _ []) in H0 as (v & _ & <-). apply Z.
  - unfold in_call in C. rewrite P in C. discriminate.
Qed.

(** * Timers whose cyclicity stays what it was *)

Definition calm (c : bool) (tr : list event) (f : frame) : Prop :=
  f_moved f = (f_ex f && negb c && in_call f) /\
  (c = false -> cnt (fires (f_id f)) tr = b2n (in_call f)).
Record cinv (c : bool) (s : tstate) (tr : list event) : Prop := CInv
  { w_cyc : cyclic s = c;
    w_fr : forall t st f, nth_error (stacks s) t = Some st -> In f st -> calm c tr f;
    w_one : c = false -> forall n, cnt (fires n) tr <= 1;
    w_ok : forall n k b, In (EFire n k b) tr -> b = true }.

Lemma cinv_upd c s tr t f st f' b es : inv s tr -> cinv c s tr ->
  nth_error (stacks s) t = Some (f :: st) -> f_id f' = f_id f -> small (f_id f) es ->
  calm c (tr ++ es) f' -> (c = false -> cnt (fires (f_id f)) (tr ++ es) <= 1) ->
  (forall n k ok, In (EFire n k ok) es -> ok = true) ->
  cinv c (with_stack (set_running s b) t (f' :: st)) (tr ++ es).
Proof.
  intros I [w1 w2 w3 w4] N E Sm F On Ok. destruct (other_id _ _ _ _ _ I N) as [O1 O2].
  assert (L : t < length (stacks s)) by (eapply nth_lt; eauto).
  assert (K : forall g, calm c tr g -> f_id g <> f_id f -> calm c (tr ++ es) g).
  { intros g [A B] Ne. split; auto. intros Hc. rewrite cnt_app, B by auto.
    destruct (Sm (f_id g)) as (_ & _ & Z). apply about_zero in Z as (_ & _ & -> & _); auto. }
  constructor; cbn [with_stack set_running cyclic stacks]; auto.
  - intros u st' g Nu Hg. destruct (Nat.eq_dec u t) as [->|Ne].
    + rewrite nth_set_same in Nu by auto. inversion Nu; subst st'. destruct Hg as [<-|Hg]; [exact F|].
      apply K; [eapply w2; [exact N|right; exact Hg]|eauto].
    + rewrite nth_set_other in Nu by auto. apply K; eauto.
  - intros Hc n. destruct (Nat.eq_dec n (f_id f)) as [->|Ne]; [auto|].
    rewrite cnt_app. destruct (Sm n) as (_ & _ & Z). apply about_zero in Z as (_ & _ & -> & _); auto.
    specialize (w3 Hc n). lia.
  - intros n k ok H. apply in_app_or in H as [H|H]; eauto.
Qed.
Lemma cinv_upd0 c s tr t f st f' : inv s tr -> cinv c s tr ->
  nth_error (stacks s) t = Some (f :: st) -> f_id f' = f_id f -> calm c tr f' -> cinv c (with_stack s t (f' :: st)) tr.
Proof.
  intros I W N E F. rewrite <- (app_nil_r tr). rewrite <- (set_running_same s) at 1.
  eapply cinv_upd; eauto using small_nil; rewrite ?app_nil_r; auto;
    try (intros Hc; apply (w_one _ _ _ W Hc)); intros n k ok [].
Qed.
Lemma cinv_notify c s tr w : inv s tr -> cinv c s tr -> cinv c (notify_one s w) tr.
Proof.
  intros I W. unfold notify_one. destruct (pick s w) as [u|]; auto.
  destruct (nth_error (stacks s) u) as [st0|] eqn:N.
  - rewrite (nth_stack _ _ _ N). destruct st0 as [|f st]; auto. destruct (f_pc f) eqn:P; auto.
    eapply cinv_upd0; eauto. pose proof (w_fr _ _ _ W _ _ f N (or_introl eq_refl)) as [A B].
    unfold calm, in_call in *. rewrite P in *. cbn. auto.
  - rewrite nth_overflow; auto. now apply nth_error_None.
Qed.
Lemma cinv_ev c s tr b e : cinv c s tr -> (forall n, fires n e = false) -> (forall n k ok, e <> EFire n k ok) -> cinv c (set_running s b) (tr ++ [e]).
Proof.
  intros [w1 w2 w3 w4] H H2.
  assert (Z : forall n, cnt (fires n) (tr ++ [e]) = cnt (fires n) tr) by (intros n; rewrite cnt_app, cnt_cons, cnt_nil, H; cbn; lia).
  constructor; cbn [set_running cyclic stacks]; auto.
  - intros t st f N Hf. destruct (w2 _ _ _ N Hf) as [A B]. split; auto. now rewrite Z.
  - intros Hc n. rewrite Z. auto.
  - intros n k ok Hin. apply in_app_or in Hin as [Hin|[E|[]]]; eauto. exfalso. eapply H2; eauto.
Qed.

Lemma cinv_fin c s tr t f st : cinv c s tr -> nth_error (stacks s) t = Some (f :: st) ->
  cinv c (fst (finish s t f st)) (tr ++ snd (finish s t f st)).
Proof.
  intros W N. unfold finish. cbn [fst snd].
  assert (L : t < length (stacks s)) by (eapply nth_lt; eauto).
  destruct (cinv_ev c s tr false (EEnd (f_id f)) W) as [w1 w2 w3 w4]; [reflexivity|discriminate|].
  constructor; auto. cbn [with_stack set_running stacks] in *.
  intros u st' g Nu Hg. destruct (Nat.eq_dec u t) as [->|Ne].
  - rewrite nth_set_same in Nu by auto. inversion Nu; subst. eapply w2; [exact N|right; exact Hg].
  - rewrite nth_set_other in Nu by auto. eauto.
Qed.

Lemma cinv_do_stop c s tr t w : inv s tr -> cinv c s tr -> cinv c (do_stop s w) (tr ++ [EStop t]).
Proof.
  intros I W. unfold do_stop. destruct (running s) eqn:R.
  - apply cinv_notify; [apply neutral_inv; auto; now rewrite armed_snoc|]. apply cinv_ev; auto. discriminate.
  - rewrite <- (set_running_same s). apply cinv_ev; auto. discriminate.
Qed.

Lemma cinv_step c s tr l : inv s tr -> cinv c s tr -> (forall t b, l <> LCyclic t b) ->
  cinv c (fst (step s l)) (tr ++ snd (step s l)).
Proof.
  intros I W NL. destruct l as [d|t ms ex|t w|t w|t b|t|t|t w|t|t]; cbn [step].
  - cbn [fst snd]. rewrite app_nil_r. destruct W. constructor; auto.
  - unfold in_user. destruct (nth_error (stacks s) t) as [st0|] eqn:N; [|cbn; rewrite app_nil_r; auto].
    destruct (match st0 with [] => true | f :: _ => in_call f end); [|cbn; rewrite app_nil_r; auto].
    cbn [fst snd]. rewrite (nth_stack _ _ _ N).
    assert (L : t < length (stacks s)) by (eapply nth_lt; eauto).
    pose proof (about_zero _ _ (v_fresh _ _ I (made s) (le_n _))) as (_ & _ & Z3 & _).
    destruct (cinv_ev c s tr (running s) (EStart (made s) t ms) W) as [w1 w2 w3 w4]; [reflexivity|discriminate|].
    constructor; auto. cbn [set_running stacks] in *.
    intros u st' g Nu Hg. destruct (Nat.eq_dec u t) as [->|Ne].
    + rewrite nth_set_same in Nu by auto. inversion Nu; subst. destruct Hg as [<-|Hg]; [|eauto].
      split; [cbn; now rewrite andb_false_r|]. intros _. cbn [f_id]. rewrite cnt_app, Z3, cnt_cons, cnt_nil. reflexivity.
    + rewrite nth_set_other in Nu by auto. eauto.
  - destruct (in_user s t && can_lock s t); [|cbn; rewrite app_nil_r; auto]. cbn [fst snd]. now apply cinv_do_stop.
  - destruct (in_user s t); [|cbn; rewrite app_nil_r; auto]. cbn [fst snd].
    rewrite <- (set_running_same s) at 1. apply cinv_notify.
    + apply neutral_inv; auto. rewrite armed_snoc. apply (v_run _ _ I).
    + apply cinv_ev; auto. discriminate.
  - exfalso. eapply NL; eauto.
  - destruct (in_user s t); [|cbn; rewrite app_nil_r; auto]. cbn [fst snd].
    rewrite <- (set_running_same s) at 1. apply cinv_ev; auto. discriminate.
  - destruct (nth_error (stacks s) t) as [[|f st]|] eqn:N; try (cbn; rewrite app_nil_r; auto; fail).
    destruct (f_pc f) eqn:P; try (cbn; rewrite app_nil_r; auto; fail).
    destruct (running s && cyclic s) eqn:RC; [|now apply cinv_fin].
    apply andb_true_iff in RC as [_ RC]. pose proof (w_cyc _ _ _ W) as Wc. rewrite RC in Wc.
    cbn [fst snd]. rewrite app_nil_r. eapply cinv_upd0; eauto.
    pose proof (w_fr _ _ _ W _ _ f N (or_introl eq_refl)) as [A B]. subst c. split; [|discriminate].
    cbn [set_pc f_moved f_ex]. rewrite A. cbn. now rewrite !andb_false_r.
  - destruct (nth_error (stacks s) t) as [[|f st]|] eqn:N; try (cbn; rewrite app_nil_r; auto; fail).
    pose proof (w_fr _ _ _ W _ _ f N (or_introl eq_refl)) as [A B].
    unfold start_step. destruct (f_pc f) as [| | |d b|d x|] eqn:P.
    + cbn [fst snd]. rewrite app_nil_r. eapply cinv_upd0; eauto.
      unfold calm, in_call in *. rewrite P in *. cbn [set_pc f_pc f_id f_moved f_ex]. destruct (running s); auto.
    + destruct (can_lock s t); [|cbn; rewrite app_nil_r; auto]. cbn [fst snd].
      pose proof (do_stop_inv s tr t w I) as I2. pose proof (cinv_do_stop c s tr t w I W) as W2.
      assert (N2 : nth_error (stacks (do_stop s w)) t = Some (f :: st)).
      { unfold do_stop. destruct (running s); auto. rewrite notify_other; auto. cbn [set_running stacks].
        rewrite (nth_stack _ _ _ N). cbn. now rewrite P. }
      eapply cinv_upd0; eauto. pose proof (w_fr _ _ _ W2 _ _ f N2 (or_introl eq_refl)) as [A2 B2].
      unfold calm, in_call in *. rewrite P in *. auto.
    + destruct (can_lock s t); [|cbn; rewrite app_nil_r; auto]. cbn [fst snd].
      assert (Z : cnt (fires (f_id f)) (tr ++ [ESet (f_id f) (now s)]) = cnt (fires (f_id f)) tr)
        by (rewrite cnt_app, cnt_cons, cnt_nil; cbn; lia).
      eapply cinv_upd; eauto.
      * intros m. rewrite !cnt_cons, !cnt_nil. cbn. repeat split; auto. intros Ne. unfold about. cbn.
        rewrite (proj2 (Nat.eqb_neq m (f_id f)) Ne). reflexivity.
      * unfold calm, in_call in *. rewrite P in *. cbn [set_pc f_pc f_id f_moved f_ex]. rewrite Z. auto.
      * intros Hc. rewrite Z. apply (w_one _ _ _ W Hc).
      * intros n k ok [H|[]]; discriminate.
    + destruct b; [|cbn; rewrite app_nil_r; auto]. cbn [fst snd]. rewrite app_nil_r. eapply cinv_upd0; eauto.
      unfold calm, in_call in *. rewrite P in *. auto.
    + destruct (can_lock s t); [|cbn; rewrite app_nil_r; auto]. destruct (running s) eqn:R; [|now apply cinv_fin].
      unfold calm, in_call in A, B. rewrite P in A, B.
      destruct x; cbn [fst snd].
      * rewrite <- (set_running_same s) at 1. rewrite R.
        assert (Z : cnt (fires (f_id f)) (tr ++ [EFire (f_id f) (now s) (negb (f_moved f))]) = S (cnt (fires (f_id f)) tr))
          by (rewrite cnt_app, cnt_cons, cnt_nil; cbn [fires]; rewrite Nat.eqb_refl; cbn; lia).
        eapply cinv_upd; eauto.
        -- intros m. rewrite !cnt_cons, !cnt_nil. cbn. repeat split; auto. intros Ne. unfold about. cbn.
           rewrite (proj2 (Nat.eqb_neq m (f_id f)) Ne). reflexivity.
        -- split; [cbn [f_moved f_ex in_call f_pc]; rewrite A, (w_cyc _ _ _ W), !andb_false_r, andb_true_r; reflexivity|].
           cbn [f_id in_call f_pc]. intros Hc. rewrite Z, B by auto. reflexivity.
        -- intros Hc. rewrite Z, B by auto. cbn. lia.
        -- intros n k ok [H|[]]. inversion H; subst. rewrite A, andb_false_r. reflexivity.
      * rewrite app_nil_r. eapply cinv_upd0; eauto. unfold calm, in_call. cbn [set_pc f_pc f_id f_moved f_ex]. auto.
    + cbn. rewrite app_nil_r; auto.
  - destruct (nth_error (stacks s) t) as [[|f st]|] eqn:N; try (cbn; rewrite app_nil_r; auto; fail).
    pose proof (w_fr _ _ _ W _ _ f N (or_introl eq_refl)) as [A B].
    destruct (f_pc f) as [| | |d b|d x|] eqn:P; try (cbn; rewrite app_nil_r; auto; fail).
    cbn [fst snd]. rewrite app_nil_r. eapply cinv_upd0; eauto. unfold calm, in_call in *. rewrite P in *. auto.
  - destruct (nth_error (stacks s) t) as [[|f st]|] eqn:N; try (cbn; rewrite app_nil_r; auto; fail).
    pose proof (w_fr _ _ _ W _ _ f N (or_introl eq_refl)) as [A B].
    destruct (f_pc f) as [| | |d b|d x|] eqn:P; try (cbn; rewrite app_nil_r; auto; fail).
    destruct (Nat.leb d (now s)); [|cbn; rewrite app_nil_r; auto].
    cbn [fst snd]. rewrite app_nil_r. eapply cinv_upd0; eauto. unfold calm, in_call in *. rewrite P in *. auto.
Qed.

Lemma cinv_all c N h : no_set_cyclic h -> cinv c (final c N h) (trace c N h).
Proof.
  induction h as [|l h IH] using rev_ind; intros NC.
  - constructor; cbn [final trace run fst snd timer_new stacks].
    + reflexivity.
    + intros t st f H Hf. apply nth_error_In, repeat_spec in H. subst. destruct Hf.
    + intros _ n. change (trace c N []) with (@nil event). rewrite cnt_nil. lia.
    + intros n k b [].
  - rewrite final_snoc, trace_snoc. apply cinv_step; [apply inv_all|apply IH|].
    + intros t b H. apply (NC t b). apply in_or_app; auto.
    + intros t b ->. apply (NC t b). apply in_or_app; cbn; auto.
Qed.
