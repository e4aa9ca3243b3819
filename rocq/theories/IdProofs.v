From Verif Require Import IdModel IdSpec.
Local Open Scope N_scope.

(** * allocation *)
(** While at most 2^w steps were made the returned ids are 0,1,2,... in order (except the invalid one). *)
Definition alloc_inv (w : N) (k : N) (m : idmgr) : Prop :=
  counter m = k mod 2 ^ w /\
  (forall t i, In (t, i) (returned m) -> i < k /\ i <> invalid_id w) /\
  NoDup (map snd (returned m)) /\
  N.of_nat (length (returned m)) = N.min k (2 ^ w - 1).

Lemma alloc_step w k m tid : 0 < w -> k < 2 ^ w -> alloc_inv w k m -> alloc_inv w (k + 1) (fetch_step w m tid).
Proof.
  intros Hw Hk (C & I & D & L). rewrite N.mod_small in C by exact Hk.
  assert (P : 2 <= 2 ^ w). { change 2 with (2 ^ 1) at 1. apply N.pow_le_mono_r; lia. }
  unfold fetch_step, alloc_inv. cbn [counter returned]. rewrite C. split; [reflexivity|].
  unfold invalid_id in *. destruct (N.eqb_spec k (2 ^ w - 1)).
  - split; [intros t i H; specialize (I t i H); lia|]. split; [exact D|]. rewrite L. lia.
  - split.
    + intros t i H. apply in_app_or in H as [H|[H|[]]]; [specialize (I t i H); lia|].
      injection H as <- <-. lia.
    + split.
      * rewrite map_app. cbn [map snd]. 
        apply NoDup_rev in D. rewrite <- (rev_involutive (map snd (returned m) ++ [k])).
        apply NoDup_rev. rewrite rev_app_distr. cbn [rev app]. constructor; [|exact D].
        rewrite <- in_rev. intros H. apply in_map_iff in H as ((t, i) & E & H). cbn in E. subst i.
        specialize (I t k H). lia.
      * rewrite app_length. cbn [length]. lia.
Qed.

Lemma alloc_run w sched : 0 < w -> forall k m, alloc_inv w k m -> k + N.of_nat (length sched) <= 2 ^ w ->
  alloc_inv w (k + N.of_nat (length sched)) (run_alloc w sched m).
Proof.
  intros Hw. induction sched as [|t s IH]; intros k m Hi Hl; cbn [run_alloc fold_left length] in *.
  - rewrite N.add_0_r. exact Hi.
  - fold (run_alloc w s (fetch_step w m t)). 
    replace (k + N.of_nat (S (length s))) with (k + 1 + N.of_nat (length s)) by lia.
    apply IH; [|lia]. apply alloc_step; [exact Hw|lia|exact Hi].
Qed.

Lemma alloc_lemma w sched : 0 < w -> N.of_nat (length sched) <= 2 ^ w ->
  let ids := map snd (returned (run_alloc w sched idmgr_new)) in
  NoDup ids /\ Forall (fun i => i < 2 ^ w /\ is_valid_id w i = true) ids /\
  N.of_nat (length ids) = N.min (N.of_nat (length sched)) (2 ^ w - 1).
Proof.
  intros Hw Hl. cbv zeta.
  assert (P : 2 <= 2 ^ w). { change 2 with (2 ^ 1) at 1. apply N.pow_le_mono_r; lia. }
  destruct (alloc_run w sched Hw 0 idmgr_new) as (C & I & D & L).
  - unfold alloc_inv, idmgr_new. cbn [counter returned map length In]. split; [|split; [contradiction|split; [constructor|]]].
    + symmetry. apply N.mod_0_l. lia.
    + symmetry. apply N.min_0_l.
  - lia.
  - rewrite N.add_0_l in *. split; [exact D|]. split.
    + apply Forall_forall. intros i H. apply in_map_iff in H as ((t, j) & E & H). cbn in E. subst j.
      specialize (I t i H). split; [lia|]. unfold is_valid_id. apply negb_true_iff. apply N.eqb_neq. apply I.
    + rewrite map_length. exact L.
Qed.

(** A single caller gets an answer after at most two iterations, whatever the counter. *)
Lemma alloc_terminates w c l t : 0 < w -> c < 2 ^ w ->
  exists n, (1 <= n <= 2)%nat /\ length (returned (run_alloc w (repeat t n) (IdMgr c l))) = S (length l).
Proof.
  intros Hw Hc. assert (P : 2 <= 2 ^ w). { change 2 with (2 ^ 1) at 1. apply N.pow_le_mono_r; lia. }
  destruct (N.eq_dec c (invalid_id w)) as [E|E].
  - exists 2%nat. split; [lia|]. cbn [repeat run_alloc fold_left]. unfold fetch_step. cbn [counter returned].
    rewrite E, N.eqb_refl. unfold invalid_id. replace (2 ^ w - 1 + 1) with (2 ^ w) by lia.
    rewrite N.mod_same by lia. destruct (N.eqb_spec 0 (2 ^ w - 1)); [lia|]. rewrite app_length. cbn. lia.
  - exists 1%nat. split; [lia|]. cbn [repeat run_alloc fold_left]. unfold fetch_step. cbn [counter returned].
    apply N.eqb_neq in E. rewrite E, app_length. cbn. lia.
Qed.

(** * orders *)
Lemma str_lt_irrefl x : str_lt x x = false.
Proof. induction x as [|a x IH]; cbn; [reflexivity|]. rewrite N.ltb_irrefl. exact IH. Qed.

Lemma str_lt_trans x : forall y z, str_lt x y = true -> str_lt y z = true -> str_lt x z = true.
Proof.
  induction x as [|a x IH]; intros [|b y] [|c z]; cbn; try discriminate; auto.
  destruct (N.ltb_spec a b), (N.ltb_spec b a), (N.ltb_spec b c), (N.ltb_spec c b), (N.ltb_spec a c), (N.ltb_spec c a);
    try discriminate; try lia; auto. apply IH.
Qed.

Lemma str_lt_total x : forall y, str_lt x y = false -> str_lt y x = false -> x = y.
Proof.
  induction x as [|a x IH]; intros [|b y]; cbn; try discriminate; auto.
  destruct (N.ltb_spec a b); [discriminate|]. destruct (N.ltb_spec b a); [discriminate|].
  intros H1 H2. rewrite (IH y H1 H2). f_equal. lia.
Qed.

Lemma addr_same_port_lemma p :
  strict_weak_order (fun a => a_port a = p) addr_lt /\
  forall a b, a_port a = p -> a_port b = p -> (incomparable addr_lt a b <-> addr_eq a b).
Proof.
  assert (K : forall a b, a_port a = p -> a_port b = p -> addr_lt a b = str_lt (a_name a) (a_name b)).
  { intros a b Ha Hb. unfold addr_lt. rewrite Ha, Hb, N.ltb_irrefl, orb_false_r. reflexivity. }
  assert (J : forall a b, a_port a = p -> a_port b = p -> (incomparable addr_lt a b <-> addr_eq a b)).
  { intros a b Ha Hb. unfold incomparable, addr_eq. rewrite !K by assumption. split.
    - intros [H1 H2]. split; [apply str_lt_total; assumption|congruence].
    - intros [E _]. rewrite E, str_lt_irrefl. auto. }
  split; [|exact J]. constructor.
  - intros x Hx. rewrite K by assumption. apply str_lt_irrefl.
  - intros x y z Hx Hy Hz. rewrite !K by assumption. apply str_lt_trans.
  - intros x y z Hx Hy Hz H1 H2. apply J in H1; [|assumption..]. apply J in H2; [|assumption..].
    apply J; [assumption..|]. destruct H1, H2. split; congruence.
Qed.

Lemma addr_same_name_lemma n :
  strict_weak_order (fun a => a_name a = n) addr_lt /\
  forall a b, a_name a = n -> a_name b = n -> (incomparable addr_lt a b <-> addr_eq a b).
Proof.
  assert (K : forall a b, a_name a = n -> a_name b = n -> addr_lt a b = (a_port a <? a_port b)).
  { intros a b Ha Hb. unfold addr_lt. rewrite Ha, Hb, str_lt_irrefl. reflexivity. }
  assert (J : forall a b, a_name a = n -> a_name b = n -> (incomparable addr_lt a b <-> addr_eq a b)).
  { intros a b Ha Hb. unfold incomparable, addr_eq. rewrite !K by assumption. 
    rewrite !N.ltb_ge. split; [intros; split; [congruence|lia]|intros [_ ->]; lia]. }
  split; [|exact J]. constructor.
  - intros x Hx. rewrite K by assumption. apply N.ltb_irrefl.
  - intros x y z Hx Hy Hz. rewrite !K by assumption. rewrite !N.ltb_lt. lia.
  - intros x y z Hx Hy Hz H1 H2. apply J in H1; [|assumption..]. apply J in H2; [|assumption..].
    apply J; [assumption..|]. destruct H1, H2. split; congruence.
Qed.

Lemma addr_refuted_lemma : ~ strict_weak_order (fun _ => True) addr_lt.
Proof.
  intros [Irr Tr _]. pose (a := Addr [97] 2). pose (b := Addr [98] 1).
  pose proof (Tr a b a I I I eq_refl eq_refl) as H. rewrite (Irr a I) in H. discriminate.
Qed.

Lemma regid_partial_lemma :
  (forall a, regid_lt a a = false) /\
  (forall a b c, regid_lt a b = true -> regid_lt b c = true -> regid_lt a c = true).
Proof.
  split.
  - intros a. unfold regid_lt. rewrite N.ltb_irrefl. reflexivity.
  - intros a b c H1 H2. unfold regid_lt in *. apply andb_true_iff in H1 as [A B], H2 as [C D].
    apply andb_true_iff. split; [rewrite N.ltb_lt in *; lia|eapply str_lt_trans; eassumption].
Qed.

Lemma regid_refuted_lemma : ~ strict_weak_order (fun _ => True) regid_lt.
Proof.
  intros [_ _ Inc]. pose (a := RegId 1 [97]). pose (b := RegId 5 [97]). pose (c := RegId 2 [98]).
  assert (H1 : incomparable regid_lt a b) by (split; reflexivity).
  assert (H2 : incomparable regid_lt b c) by (split; reflexivity).
  destruct (Inc a b c I I I H1 H2) as [H _]. discriminate.
Qed.

(** Registrations of one operation are all "equivalent": a set keyed by registration ids would keep only one. *)
Lemma regid_same_op_lemma a b : r_op a = r_op b -> incomparable regid_lt a b.
Proof.
  intros E. unfold incomparable, regid_lt. rewrite E, str_lt_irrefl, !andb_false_r. auto.
Qed.
