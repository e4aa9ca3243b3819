(** Routing: a new processor is told nothing; the deadlock of sendToAll(). *)
From Verif Require Import ListUtil Amap RouteModel RouteSpec RouteProofs RouteProofs2 RouteProofs3 RouteProofs4 RouteProofs5 RouteProofs6 RouteProofs7.

Lemma new_not_told h a id o m : called (tr (final h)) a (KCreate id) -> returned (tr (final h)) a (RProc o) -> ~ In (EPost a o m) (tr (final h)).
Proof.
  intros C R I. apply in_split in I as (l1 & l2 & E).
  destruct (split_step _ _ _ _ E) as (h1 & h2 & s' & k1 & k2 & t & -> & S & T & -> & -> & l & h3 & -> & EL).
  assert (I : In (EPost a o m) (tr s')) by (rewrite T; apply in_app_iff; right; apply in_app_iff; right; left; reflexivity).
  assert (CN : forall c p, nth_error (agents (final h1)) a = Some (c, p) -> c = KCreate id) by (intros c p N; eapply call_unique; [eapply agent_prefix; exact N|exact C]).
  assert (J : In (EPost a o m) (k1 ++ EPost a o m :: k2)) by (apply in_app_iff; right; left; reflexivity).
  assert (CASE : exists id' o', nth_error (agents (final h1)) a = Some (KCreate id', PAdd o') /\ nth_error (agents s') a = Some (KCreate id', PRet (RProc o')) /\
     (In (EPost a o m) (informed (final h1) a o') \/ In (EPost a o m) (told (final h1) a (MStatus true o')))).
  { clear E EL R C. inversion S; subst; cbn in T; rewrite <- ?app_assoc in T; try (apply app_inv_head in T; rewrite <- T in J);
    try (exfalso; rewrite <- (app_nil_r (tr (final h1))) in T at 1; apply app_inv_head in T; rewrite <- T in J; destruct J; fail);
    try (exfalso; repeat first [apply in_app_iff in J; destruct J as [J|J]|apply in_told in J as (? & J & _)|apply in_map_iff in J as (? & J & _)|destruct J as [J|J]|discriminate J|contradiction];
      injection J; intros; subst; pose proof (CN _ _ H); discriminate).
    assert (a = a0 /\ (In (EPost a o m) (informed (final h1) a0 o0) \/ In (EPost a o m) (told (final h1) a0 (MStatus true o0)))) as [-> Q].
    { apply in_app_iff in J as [J|J]; [split; [apply in_informed in J as (? & J); congruence|auto]|]. apply in_app_iff in J as [J|[J|[J|[]]]]; try discriminate.
      split; [apply in_told in J as (? & J & _); congruence|auto]. }
    exists id0, o0. split; [assumption|]. split; [cbn; rewrite (nth_set _ _ _ _ _ H), Nat.eqb_refl; reflexivity|exact Q]. }
  destruct CASE as (id' & o' & N & N' & Q).
  assert (EO : o' = o).
  { assert (R' : In (ERet a (RProc o')) (tr (final (h1 ++ l :: h3)))).
    { replace (h1 ++ l :: h3) with ((h1 ++ [l]) ++ h3) by (rewrite <- app_assoc; reflexivity). destruct (grows (h1 ++ [l]) h3) as [u ->]. apply in_app_iff. left.
      apply ret_agent. exists (KCreate id'). rewrite final_snoc, <- EL. exact N'. }
    pose proof (ret_unique _ _ _ _ R' R). congruence. }
  subst o'. rewrite (not_informed _ _ _ _ N) in Q. destruct Q as [[]|Q]. apply in_told in Q as (x & [= <- _] & Q).
  apply (proj2 (receivers_audience h1 (MStatus true o))) in Q as [_ [i Q]]. apply in_table in Q. exact (proj1 (proj2 (ow_new _ (owns_final h1) _ _ _ N)) _ Q).
Qed.

(** Deadlock: the lock is held by a call whose handler waits for a call that needs the lock. *)
Record stuck (s : state) (a b : nat) : Prop := {
  k_lock : lock s = Some a;
  k_holder : exists self m, nth_error (agents s) a = Some (KSendAll self m, PNested b);
  k_nested : exists i, nth_error (agents s) b = Some (KFind i, PStart);
  k_others : forall c i r, nth_error (agents s) c <> Some (KFind i, PRet r)
}.
Lemma holder h a c p : nth_error (agents (final h)) a = Some (c, p) -> (p = PHandler \/ exists b, p = PNested b) -> lock (final h) = Some a.
Proof.
  revert h a c p. refine (state_ind (fun s => forall a c p, nth_error (agents s) a = Some (c, p) -> (p = PHandler \/ exists b, p = PNested b) -> lock s = Some a) _ _); [intros []; discriminate|].
  intros h s' IH S a c p N P. 
  assert (HH : nth_error (agents (final h)) a = Some (c, p) -> lock (final h) = Some a) by (intros X; eapply IH; eauto).
  assert (PP : forall x, p = PNested x -> True) by auto.
  inversion S; subst; look N; cbn; try exact (HH N); try reflexivity;
    try (injection N; intros; subst; destruct P as [P|[? P]]; first [discriminate P|eapply IH; [eassumption|]; eauto]; fail).
  - pose proof (HH N). congruence.
  - pose proof (HH N). pose proof (IH _ _ _ H (or_introl eq_refl)). congruence.
Qed.

Lemma stuck_step h s' a b : stuck (final h) a b -> step (final h) s' -> stuck s' a b.
Proof.
  intros K S. pose proof K as [L [self [m A]] [i B] O]. assert (LA := nth_lt _ _ _ A). assert (LB := nth_lt _ _ _ B).
  assert (G : forall d x c p ob tb t, nth_error (agents (final h)) d = Some x -> d <> a -> d <> b -> (forall i r, (c, p) <> (KFind i, PRet r)) -> stuck (St ob tb (set_nth d (c, p) (agents (final h))) (lock (final h)) t) a b).
  { intros d x c p ob tb t N DA DB NF. split; cbn; [exact L|rewrite nth_set_other by auto; eauto|rewrite nth_set_other by auto; eauto|].
    intros c0 i0 r. rewrite (nth_set _ _ _ _ _ N). destruct (Nat.eqb d c0); [intros [= E1 E2]; exact (NF _ _ (f_equal2 pair E1 E2))|apply O]. }
  assert (NE : forall d c p, nth_error (agents (final h)) d = Some (c, p) -> (forall self m, c <> KSendAll self m) -> (forall i, c <> KFind i) -> d <> a /\ d <> b).
  { intros d c p N X Y. split; intros ->; [rewrite A in N; injection N as <- <-; exact (X _ _ eq_refl)|rewrite B in N; injection N as <- <-; exact (Y _ eq_refl)]. }
  inversion S; subst; try congruence;
    try (match goal with H : nth_error _ _ = Some _ |- _ => destruct (NE _ _ _ H ltac:(discriminate) ltac:(discriminate)); eapply G; [exact H|assumption|assumption|discriminate] end; fail).
  - split; cbn.
    + exact L.
    + rewrite nth_snoc. destruct (Nat.eqb_spec a (length (agents (final h)))); [lia|eauto].
    + rewrite nth_snoc. destruct (Nat.eqb_spec b (length (agents (final h)))); [lia|eauto].
    + intros c0 i0 r. rewrite nth_snoc. destruct (Nat.eqb_spec c0 (length (agents (final h)))); [intros [=]|apply O].
  - exfalso. pose proof (holder _ _ _ _ H (or_introl eq_refl)) as E. assert (a0 = a) by congruence. subst. congruence.
  - exfalso. pose proof (holder _ _ _ _ H (or_introl eq_refl)) as E. assert (a0 = a) by congruence. subst. congruence.
  - exfalso. pose proof (holder _ _ _ _ H (or_intror (ex_intro _ b0 eq_refl))) as E. assert (a0 = a) by congruence. subst. rewrite A in H. injection H as <- <- <-. congruence.
Qed.

Lemma stuck_forever h a b k : stuck (final h) a b -> stuck (final (h ++ k)) a b.
Proof.
  intros K. induction k as [|l k IH] using rev_ind; [rewrite app_nil_r; exact K|]. rewrite app_assoc, final_snoc.
  destruct (next_step (final (h ++ k)) l) as [->|S]; [exact IH|eapply stuck_step; eauto].
Qed.
