(** Proofs about the thread pool, part 8: the number of threads of the dynamic pool. *)
From Verif Require Import ListUtil QueueModel QueueSpec QueueProofs QueueProofs2 QueueProofs3 PoolModel PoolSpec PoolProofs PoolProofs2 PoolProofs3 PoolProofs4 PoolProofs5 PoolProofs6 PoolProofs7.
From Coq Require Import Permutation.

Section P.
Variable fr : list tk -> nat -> bool.
Variable dyn : bool.
Variable maxc : nat.
Notation next := (PoolModel.next fr dyn maxc).
Notation final := (PoolModel.final fr dyn maxc).
Notation pstep := (pstep fr dyn maxc).
Notation launch := (launch dyn).

Ltac scases T := destruct T as [r p|d|l L IT|a v b0 c E|a v t l E L C IT|a v t l E L IT|a d E O|a d E O|a d t l E L C IT|a d E|a d t l E L IT|a d E F|a d E|a E|a t l v E L T0 IT F|a t l E L C IT|a v E|a v E|a v E|a v E|a v E|a v pp0 pp1 E EP EQ].
Ltac proj := cbn [PoolModel.next agents with_agents with_submitted with_running with_once with_joined with_q put log qcall q evs submitted once running]; rewrite ?launch_q, ?launch_evs, ?launch_sub.

Lemma runs_set s s' a x y add : runs_inv s -> nth_error (agents s) a = Some y -> agents s' = set_nth a x (agents s) -> submitted s' = submitted s -> evs s' = evs s ++ add ->
  kind y x -> (forall v, y <> ARun v RReturned) -> cnt is_submit add = 0 -> (forall v, In (ERunRet v) add -> x = ARun v RReturned) -> runs_inv s'.
Proof.
  intros [U1 U2 U3 U4] E A SB G K NR Z H. constructor.
  - intros k. rewrite A. pose proof (cnt_set (numbered k) (agents s) a x y E) as X.
    assert (N : numbered k x = numbered k y) by (destruct y; cbn in K; destruct K as (p0 & ->); reflexivity). rewrite N in X. specialize (U1 k). lia.
  - intros v p I. rewrite A in I. rewrite SB. apply in_set_nth in I as [I|I]; [|eauto]. subst x.
    destruct y as [v1 p1|d1 p1|p1]; cbn in K; destruct K as (p2 & K); try discriminate K. injection K as -> ->. eapply U2. eapply nth_error_In; exact E.
  - intros v I. rewrite G in I. rewrite A. apply in_app_or in I as [I|I].
    + specialize (U3 _ I). apply In_nth_error in U3 as (b & B). eapply nth_error_In. rewrite nth_set_other; [exact B|]. intros ->. rewrite E in B. injection B as ->. apply (NR v eq_refl).
    + rewrite (H _ I). eapply nth_error_In. apply nth_set_same. eapply nth_lt; exact E.
  - rewrite G, A, cnt_app, Z, U4. pose proof (cnt_set is_run (agents s) a x y E) as X.
    assert (N : is_run x = is_run y) by (destruct y; cbn in K; destruct K as (p0 & ->); reflexivity). rewrite N in X. lia.
Qed.
Lemma runs_add s s' x add : runs_inv s -> agents s' = agents s ++ [x] -> submitted s' = submitted s -> evs s' = evs s ++ add -> is_run x = false ->
  cnt is_submit add = 0 -> (forall v, ~ In (ERunRet v) add) -> runs_inv s'.
Proof.
  intros [U1 U2 U3 U4] A SB G K Z H. constructor.
  - intros k. rewrite A, cnt_app, cnt_cons, cnt_nil. destruct x; try discriminate K; cbn; specialize (U1 k); lia.
  - intros v p I. rewrite A in I. rewrite SB. apply in_app_or in I as [I|[I|[]]]; [eauto|]. subst x. discriminate.
  - intros v I. rewrite G in I. rewrite A. apply in_or_app. apply in_app_or in I as [I|I]; [left; auto|]. destruct (H _ I).
  - rewrite G, A, !cnt_app, cnt_cons, cnt_nil, Z, U4, K. reflexivity.
Qed.
Lemma runs_launch s b c : runs_inv s -> runs_inv (launch s b c).
Proof.
  intros I. unfold PoolModel.launch. destruct (_ && _ && _); [|exact I].
  eapply runs_add with (x := AWorker WLoop) (add := []); [exact I|reflexivity|reflexivity|cbn; rewrite app_nil_r; reflexivity|reflexivity|reflexivity|intros ? []].
Qed.
Lemma runs_final n h : runs_inv (final n h).
Proof.
  apply pool_ind.
  - assert (R : forall x, In x (repeat (AWorker WLoop) n) -> x = AWorker WLoop) by (intros x H; apply repeat_spec in H; exact H).
    constructor; cbn [init agents evs submitted].
    + intros k. rewrite cnt_zero; [lia|]. intros x I. rewrite (R _ I). reflexivity.
    + intros v p I. apply R in I. discriminate.
    + intros v [].
    + symmetry. apply cnt_zero. intros x I. rewrite (R _ I). reflexivity.
  - intros s s' W I T. scases T.
    1: { destruct I as [U1 U2 U3 U4]. constructor; proj.
         - intros k. rewrite cnt_app, cnt_cons, cnt_nil. cbn [numbered num]. destruct (Nat.eqb_spec (submitted s) k) as [<-|N]; cbn [b2n].
           + rewrite cnt_zero; [lia|]. intros x J. destruct x as [v1 p1| |]; try reflexivity. cbn. apply Nat.eqb_neq. specialize (U2 _ _ J). lia.
           + specialize (U1 k). lia.
         - intros v p0 J. apply in_app_or in J as [J|[J|[]]]; [specialize (U2 _ _ J); lia|]. injection J as <- <-. cbn. lia.
         - intros v J. apply in_or_app. apply in_app_or in J as [J|[J|[]]]; [auto|discriminate].
         - rewrite !cnt_app, U4, !cnt_cons, !cnt_nil. cbn. lia. }
    1: { eapply runs_add with (add := [EShut (length (agents s))]); [exact I|reflexivity|reflexivity|reflexivity|reflexivity|reflexivity|]. intros v [J|[]]. discriminate. }
    1: { destruct I as [U1 U2 U3 U4]. constructor; proj; auto. }
    1: { apply (runs_set (launch s b0 c)) with (a := a) (y := ARun v (RStart b0)) (x := ARun v (RPushing (fresh s))) (add := []).
         - apply runs_launch. exact I.
         - apply launch_nth. exact E.
         - reflexivity.
         - reflexivity.
         - proj. rewrite app_nil_r. reflexivity.
         - cbn. eauto.
         - discriminate.
         - reflexivity.
         - intros ? []. }
    all: eapply runs_set; [exact I|exact E|reflexivity|reflexivity|..].
    all: try (proj; reflexivity).
    all: try (proj; symmetry; apply app_nil_r).
    all: try (cbn; eauto; fail).
    all: try discriminate.
    all: try reflexivity.
    all: try (intros ? []; fail).
    all: try (intros u [J|[]]; try discriminate J; injection J as <-; reflexivity).
    all: try (rewrite cnt_map; apply cnt_false).
    all: try (intros u J; apply in_map_iff in J as (w & J & _); discriminate J).
    + rewrite cnt_app. destruct d; rewrite ?cnt_map, ?cnt_false; reflexivity.
    + intros u J. apply in_app_or in J as [J|[J|[]]]; [|discriminate]. destruct d; [|destruct J]. apply in_map_iff in J as (w & J & _). discriminate J.
    + intros u J. injection J as -> ->. discriminate EP.
Qed.

Lemma all_returned n h : (forall v, In (ESubmit v) (evs (final n h)) -> In (ERunRet v) (evs (final n h))) -> cnt flying (agents (final n h)) = 0.
Proof.
  intros H. apply cnt_zero. intros x I. destruct (flying x) eqn:F; [|reflexivity]. destruct x as [v p| |]; try discriminate F.
  pose proof (k_task _ (known_final fr dyn maxc n h) _ v I eq_refl) as S. specialize (H _ S). pose proof (runs_final n h) as U.
  pose proof (u_ret _ U _ H) as R. pose proof (u_one _ U (num v)) as ONE.
  apply in_split in I as (l1 & l2 & I). rewrite I in R, ONE. rewrite cnt_app, cnt_cons in ONE. cbn [numbered] in ONE. rewrite Nat.eqb_refl in ONE. cbn [b2n] in ONE.
  exfalso. apply in_app_or in R as [R|[R|R]].
  - assert (1 <= cnt (numbered (num v)) l1) by (eapply cnt_in; [exact R|cbn; apply Nat.eqb_refl]). lia.
  - injection R as ->. discriminate F.
  - assert (1 <= cnt (numbered (num v)) l2) by (eapply cnt_in; [exact R|cbn; apply Nat.eqb_refl]). lia.
Qed.

Definition same_runs (s s' : pool) : Prop :=
  thread_count s' = thread_count s /\ cnt flying (agents s') <= cnt flying (agents s) /\ cnt past (agents s') = cnt past (agents s) /\
  forall v b, In (ARun v (RStart b)) (agents s') -> In (ARun v (RStart b)) (agents s).
Definition early_agent (x : agent) : bool := match x with ARun _ p => early_run p | _ => false end.

Lemma same_refl s s' : agents s' = agents s -> same_runs s s'.
Proof. intros E. unfold same_runs, thread_count. rewrite E. auto. Qed.
Lemma same_put s s' a x y : nth_error (agents s) a = Some y -> agents s' = set_nth a x (agents s) -> kind y x -> early_agent x = false -> early_agent y = false ->
  b2n (flying x) <= b2n (flying y) -> same_runs s s'.
Proof.
  intros E A K X Y K2. unfold same_runs, thread_count. rewrite A.
  pose proof (cnt_set is_worker (agents s) a x y E) as C1. pose proof (cnt_set flying (agents s) a x y E) as C2. pose proof (cnt_set past (agents s) a x y E) as C3.
  assert (K1 : is_worker x = is_worker y) by (destruct y; cbn in K; destruct K as (p0 & ->); reflexivity).
  assert (K3 : past x = past y) by (destruct y as [v p|d p|p]; cbn in K; destruct K as (p0 & ->); try reflexivity; destruct p, p0; try reflexivity; discriminate).
  rewrite K1 in C1. rewrite K3 in C3. split; [lia|]. split; [lia|split; [lia|]].
  intros v b I. apply in_set_nth in I as [I|I]; [|exact I]. subst x. discriminate X.
Qed.
Lemma same_next s l : (forall r p, l <> LSubmit r p) -> (forall a c x, l = LGo a c -> nth_error (agents s) a = Some x -> early_agent x = false) -> same_runs s (next s l).
Proof.
  intros NS NE. destruct l as [r p|d|a c|t].
  - destruct (NS r p eq_refl).
  - unfold same_runs, thread_count. cbn [PoolModel.next agents with_agents log]. rewrite !cnt_app, !cnt_cons, !cnt_nil. cbn. split; [lia|]. split; [lia|]. split; [lia|].
    intros v b I. apply in_app_or in I as [I|[I|[]]]; [exact I|discriminate].
  - cbn [PoolModel.next]. destruct (nth_error (agents s) a) as [x|] eqn:E; [|apply same_refl; reflexivity]. specialize (NE a c x eq_refl E).
    destruct x as [v p|d p|p]; destruct p; try discriminate NE; cbn [PoolModel.run_step PoolModel.shut_step PoolModel.worker_step]; try (apply same_refl; reflexivity).
    all: repeat match goal with |- same_runs _ (match ?e with _ => _ end) => destruct e end.
    all: try (apply same_refl; reflexivity).
    all: eapply same_put; [exact E|reflexivity|cbn; eauto|reflexivity|reflexivity|cbn; lia].
  - apply same_refl. reflexivity.
Qed.
End P.

Section Dyn.
Variable fr : list tk -> nat -> bool.
Variable maxc : nat.
Notation next := (PoolModel.next fr true maxc).
Notation final := (PoolModel.final fr true maxc 0).

Notation launches_work := (launches_work fr maxc).
Lemma dyn_inv h : one_by_one fr true maxc 0 h ->
  cnt flying (agents (final h)) <= 1 /\
  (forall v, In (ARun v (RStart true)) (agents (final h)) -> thread_count (final h) < maxc) /\
  (forall v, In (ARun v (RStart false)) (agents (final h)) -> maxc <= thread_count (final h)) /\
  thread_count (final h) <= maxc /\
  (launches_work h -> thread_count (final h) = min maxc (cnt past (agents (final h)))).
Proof.
  induction h as [|lb h IH] using rev_ind; intros OB.
  { assert (T0 : thread_count (final []) = 0) by reflexivity. change (agents (final [])) with (@nil agent). rewrite T0, !cnt_nil.
    split; [lia|]. split; [intros v []|]. split; [intros v []|]. split; [lia|]. intros _. rewrite Nat.min_0_r. reflexivity. }
  assert (OB' : one_by_one fr true maxc 0 h).
  { intros h1 r p h2 E. apply (OB h1 r p (h2 ++ [lb])). rewrite E, <- app_assoc. reflexivity. }
  destruct (IH OB') as (F1 & S1 & S2 & B1 & X1). clear IH.
  assert (LW : launches_work (h ++ [lb]) -> launches_work h).
  { intros L h1 a c h2 v b E. apply (L h1 a c (h2 ++ [lb]) v b). rewrite E, <- app_assoc. reflexivity. }
  rewrite final_snoc.
  assert (SAME : same_runs (final h) (next (final h) lb) -> _) by (intros (T1 & T2 & T3 & T4);
    exact (conj (Nat.le_trans _ _ _ T2 F1) (conj (fun v I => eq_ind_r (fun k => k < maxc) (S1 v (T4 _ _ I)) T1) (conj (fun v I => eq_ind_r (fun k => maxc <= k) (S2 v (T4 _ _ I)) T1)
      (conj (eq_ind_r (fun k => k <= maxc) B1 T1) (fun L => eq_trans T1 (eq_trans (X1 (LW L)) (f_equal (min maxc) (eq_sym T3))))))))).
  destruct lb as [r p|d|a c|t]; try (apply SAME, same_next; discriminate).
  - (* run() is called *)
    pose proof (all_returned fr true maxc 0 h (OB h r p [] eq_refl)) as Z. unfold thread_count in *.
    cbn [PoolModel.next agents with_agents with_submitted log]. rewrite !cnt_app, !cnt_cons, !cnt_nil. cbn [is_worker flying past b2n].
    split; [lia|]. split; [|split; [|split; [lia|]]].
    + intros v I. apply in_app_or in I as [I|[I|[]]]; [specialize (S1 _ I); lia|discriminate].
    + intros v I. apply in_app_or in I as [I|[I|[]]]; [specialize (S2 _ I); lia|discriminate].
    + intros L. specialize (X1 (LW L)). rewrite !Nat.add_0_r. exact X1.
  - destruct (nth_error (agents (final h)) a) as [x|] eqn:E; [|apply SAME, same_next; [discriminate|intros a0 c0 x J K; injection J as <- <-; congruence]].
    destruct (early_agent x) eqn:EA; [|apply SAME, same_next; [discriminate|intros a0 c0 y J K; injection J as <- <-; congruence]].
    clear SAME. destruct x as [v p|d p|p]; try discriminate EA.
    assert (FL : cnt flying (agents (final h)) = 1).
    { assert (1 <= cnt flying (agents (final h))) by (eapply cnt_in; [eapply nth_error_In; exact E|destruct p; try discriminate EA; reflexivity]). lia. }
    assert (ONLY : forall v1 b1 l, set_nth a l (agents (final h)) = set_nth a l (agents (final h)) -> flying l = true \/ True -> In (ARun v1 (RStart b1)) (agents (final h)) -> p = RStart b1 /\ v1 = v).
    { intros v1 b1 l _ _ I. apply In_nth_error in I as (b & B). destruct (Nat.eq_dec a b) as [<-|N]; [rewrite E in B; injection B as -> ->; auto|].
      exfalso. pose proof (cnt_set flying _ a (AWorker WExited) _ E) as C. assert (1 <= cnt flying (set_nth a (AWorker WExited) (agents (final h)))).
      { eapply cnt_in; [eapply nth_error_In; rewrite nth_set_other by exact N; exact B|reflexivity]. }
      assert (FP : flying (ARun v p) = true) by (destruct p; try discriminate EA; reflexivity). rewrite FP in C. cbn in C. lia. }
    cbn [PoolModel.next]. rewrite E. destruct p; try discriminate EA; cbn [PoolModel.run_step].
    + (* first look *)
      pose proof (fun x => cnt_set is_worker (agents (final h)) a x _ E) as C1. pose proof (fun x => cnt_set flying (agents (final h)) a x _ E) as C2. pose proof (fun x => cnt_set past (agents (final h)) a x _ E) as C3.
      unfold thread_count in *. destruct (Nat.ltb_spec (cnt is_worker (agents (final h))) maxc) as [LT|GE]; cbn [agents put].
      * specialize (C1 (ARun v RTry)). specialize (C2 (ARun v RTry)). specialize (C3 (ARun v RTry)). cbn [is_worker flying past b2n] in C1, C2, C3.
        split; [lia|]. split; [|split; [|split; [lia|intros L; specialize (X1 (LW L)); lia]]].
        -- intros v1 I. apply in_set_nth in I as [I|I]; [discriminate|]. specialize (S1 _ I). lia.
        -- intros v1 I. apply in_set_nth in I as [I|I]; [discriminate|]. specialize (S2 _ I). lia.
      * specialize (C1 (ARun v (RStart false))). specialize (C2 (ARun v (RStart false))). specialize (C3 (ARun v (RStart false))). cbn [is_worker flying past b2n] in C1, C2, C3.
        split; [lia|]. split; [|split; [|split; [lia|intros L; specialize (X1 (LW L)); lia]]].
        -- intros v1 I. apply in_set_nth in I as [I|I]; [discriminate|]. specialize (S1 _ I). lia.
        -- intros v1 I. lia.
    + (* second look *)
      pose proof (fun x => cnt_set is_worker (agents (final h)) a x _ E) as C1. pose proof (fun x => cnt_set flying (agents (final h)) a x _ E) as C2. pose proof (fun x => cnt_set past (agents (final h)) a x _ E) as C3.
      unfold thread_count in *. cbn [agents put].
      set (b0 := Nat.ltb (cnt is_worker (agents (final h))) maxc) in *.
      specialize (C1 (ARun v (RStart b0))). specialize (C2 (ARun v (RStart b0))). specialize (C3 (ARun v (RStart b0))). cbn [is_worker flying past b2n] in C1, C2, C3.
      split; [lia|]. split; [|split; [|split; [lia|intros L; specialize (X1 (LW L)); lia]]].
      * intros v1 I. apply in_set_nth in I as [I|I]; [|specialize (S1 _ I); lia]. injection I as _ I. symmetry in I. apply Nat.ltb_lt in I. lia.
      * intros v1 I. apply in_set_nth in I as [I|I]; [|specialize (S2 _ I); lia]. injection I as _ I. symmetry in I. apply Nat.ltb_ge in I. lia.
    + (* the launch *)
      pose proof (launch_nth true (final h) b c _ _ E) as E'.
      assert (LT : cnt is_worker (agents (launch true (final h) b c)) = thread_count (final h) + b2n (b && Nat.eqb c 0)).
      { unfold thread_count, launch. cbn [andb]. destruct (b && Nat.eqb c 0); cbn [agents with_agents b2n]; rewrite ?cnt_app, ?cnt_cons, ?cnt_nil; cbn [is_worker b2n]; lia. }
      pose proof (cnt_set is_worker _ a (ARun v (RPushing (fresh (final h)))) _ E') as C1. pose proof (cnt_set flying _ a (ARun v (RPushing (fresh (final h)))) _ E') as C2. pose proof (cnt_set past _ a (ARun v (RPushing (fresh (final h)))) _ E') as C3.
      rewrite !launch_cnt in C2, C3 by reflexivity. cbn [is_worker flying past b2n] in C1, C2, C3.
      unfold thread_count at 1 2 3 4. cbn [agents put qcall with_q].
      assert (NS : forall v1 b1, ~ In (ARun v1 (RStart b1)) (set_nth a (ARun v (RPushing (fresh (final h)))) (agents (launch true (final h) b c)))).
      { intros v1 b1 I. apply In_nth_error in I as (k & K). rewrite (nth_set _ _ _ _ _ E') in K. destruct (Nat.eqb_spec a k) as [EQ|N]; [discriminate K|].
        apply nth_error_In in K as I. 
        pose proof (cnt_set flying _ a (AWorker WExited) _ E') as C. assert (1 <= cnt flying (set_nth a (AWorker WExited) (agents (launch true (final h) b c)))).
        { eapply cnt_in; [eapply nth_error_In; rewrite nth_set_other by exact N; exact K|reflexivity]. }
        rewrite launch_cnt in C by reflexivity. cbn in C. lia. }
      split; [lia|]. split; [intros v1 I; destruct (NS _ _ I)|]. split; [intros v1 I; destruct (NS _ _ I)|].
      pose proof (nth_error_In _ _ E) as IE. split.
      * destruct b; [specialize (S1 _ IE); destruct (Nat.eqb c 0); cbn [andb b2n] in LT; lia|cbn [andb b2n] in LT; lia].
      * intros L. specialize (X1 (LW L)). assert (c = 0) by (eapply (L h a c [] v b); [reflexivity|exact E]). subst c.
        destruct b; cbn [andb b2n Nat.eqb] in LT; [specialize (S1 _ IE)|specialize (S2 _ IE)]; lia.
Qed.
End Dyn.
