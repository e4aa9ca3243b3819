(** Timers: the heap, and the invariant of a well-used timer manager. *)
From Verif Require Import ListUtil TimerModel TimerSpec.
From Verif Require Amap.
From Coq Require Permutation.

(** ** The heap *)
Lemma least_spec f l r : least f l r = true <-> forall q, In q l -> f r <= f q.
Proof. unfold least. rewrite forallb_forall. split; intros H q X; [apply Nat.leb_le|apply Nat.leb_le]; auto. Qed.
Lemma least_exists f l : l <> [] -> exists r, In r l /\ least f l r = true.
Proof.
  induction l as [|x l IH]; [congruence|]. intros _. destruct l as [|y l]; [exists x; split; [left; reflexivity|]; cbn; rewrite Nat.leb_refl; reflexivity|].
  destruct IH as (r & X & L); [discriminate|]. rewrite least_spec in L. destruct (Nat.leb (f x) (f r)) eqn:E.
  - apply Nat.leb_le in E. exists x. split; [left; reflexivity|]. apply least_spec. intros q [<-|Q]; [lia|]. specialize (L q Q). lia.
  - apply Nat.leb_gt in E. exists r. split; [right; exact X|]. apply least_spec. intros q [<-|Q]; [lia|]. apply L. exact Q.
Qed.
Lemma drop_in r l q : NoDup l -> (In q (drop_one r l) <-> In q l /\ q <> r).
Proof.
  induction l as [|x l IH]; intros N; [cbn; tauto|]. inversion N; subst. cbn. destruct (Nat.eqb x r) eqn:E.
  - apply Nat.eqb_eq in E. subst x. split; [intros X; split; [right; exact X|intros ->; contradiction]|]. intros [[X|X] Y]; [congruence|exact X].
  - apply Nat.eqb_neq in E. cbn. rewrite IH by assumption. split; [intros [X|[X Y]]; split; auto; congruence|]. intros [[X|X] Y]; auto.
Qed.
Lemma drop_nodup r l : NoDup l -> NoDup (drop_one r l).
Proof.
  induction l as [|x l IH]; intros N; [constructor|]. inversion N; subst. cbn. destruct (Nat.eqb x r); [assumption|]. constructor; [|auto]. rewrite drop_in by assumption. tauto.
Qed.
Lemma drop_cons_in r l q : In q (drop_one r l) -> In q l.
Proof. induction l as [|x l IH]; cbn; [tauto|]. destruct (Nat.eqb x r); cbn; tauto. Qed.
Lemma in_cons_drop r l q : In r l -> (In q (r :: drop_one r l) <-> In q l).
Proof.
  intros R. split.
  - intros [<-|X]; [exact R|]. eapply drop_cons_in. exact X.
  - clear R. induction l as [|x l IH]; [intros []|]. cbn. destruct (Nat.eqb x r) eqn:E; [apply Nat.eqb_eq in E; subst x; tauto|]. intros [<-|X]; [right; left; reflexivity|]. apply IH in X as [X|X]; [left; exact X|right; right; exact X].
Qed.

Lemma heap_front k f l : l = [] /\ heap k f l = [] \/ exists r, In r l /\ (forall q, In q l -> f r <= f q) /\ heap k f l = r :: drop_one r l.
Proof.
  unfold heap. destruct l as [|x l]; [left; split; reflexivity|]. right. destruct (least_exists f (x :: l)) as (r & X & L); [discriminate|].
  destruct (filter (least f (x :: l)) (x :: l)) as [|m ms] eqn:F.
  - exfalso. assert (Y : In r []) by (rewrite <- F; apply filter_In; auto). destruct Y.
  - exists (nth k (m :: ms) m). assert (Y : In (nth k (m :: ms) m) (m :: ms)).
    { destruct (Nat.ltb k (length (m :: ms))) eqn:E; [apply Nat.ltb_lt in E; apply nth_In; exact E|]. apply Nat.ltb_ge in E. rewrite nth_overflow by exact E. left. reflexivity. }
    rewrite <- F in Y at 2. apply filter_In in Y as [Y1 Y2]. rewrite least_spec in Y2. auto.
Qed.
Lemma heap_in k f l q : In q (heap k f l) <-> In q l.
Proof. destruct (heap_front k f l) as [[-> ->]|(r & X & _ & ->)]; [reflexivity|]. apply in_cons_drop. exact X. Qed.
Lemma heap_nodup k f l : NoDup l -> NoDup (heap k f l).
Proof. intros N. destruct (heap_front k f l) as [[-> ->]|(r & X & _ & ->)]; [constructor|]. constructor; [rewrite drop_in by exact N; tauto|apply drop_nodup; exact N]. Qed.
Lemma heap_min k f l x t q : heap k f l = x :: t -> In q l -> f x <= f q.
Proof. destruct (heap_front k f l) as [[-> ->]|(r & X & M & ->)]; [discriminate|]. intros E Q. injection E as <- _. apply M. exact Q. Qed.
Lemma heap_nil k f l : heap k f l = [] -> l = [].
Proof. destruct (heap_front k f l) as [[-> ->]|(r & X & M & ->)]; [reflexivity|discriminate]. Qed.

(** ** Plans *)
Lemma plan_snoc r tr e : plan_of r (tr ++ [e]) = plan_step r (plan_of r tr) e.
Proof. unfold plan_of. rewrite fold_left_app. reflexivity. Qed.
Definition view (x : tdata) : plan := Plan (if running x then Some (deadline x) else None) (duration x) (cyclic x).

(** ** The invariant, for well-used timers *)
Definition planned (dat : nat -> tdata) (tr : list event) : Prop := forall r, plan_of r tr = view (dat r).
Definition stored (dat : nat -> tdata) (l : list nat) : Prop := NoDup l /\ forall r, In r l <-> running (dat r) = true.
Definition first (dat : nat -> tdata) (l : list nat) : Prop := forall f t q, l = f :: t -> In q l -> deadline (dat f) <= deadline (dat q).
Definition good (st : state) : Prop := planned (dat st) (tr st) /\ stored (dat st) (records st) /\ first (dat st) (records st).

Lemma stored_refresh k st : stored (dat st) (records st) -> stored (dat st) (records (refresh k st)) /\ first (dat st) (records (refresh k st)).
Proof.
  intros [N I]. cbn. split; [split; [apply heap_nodup; exact N|]|].
  - intros r. rewrite heap_in. apply I.
  - intros f t q E Q. apply heap_in in Q. exact (heap_min k (deadlines st) _ f t q E Q).
Qed.

Definition ok (tr : list event) : Prop := own_thread tr /\ restarts_running tr /\ punctual tr.
Lemma ok_prefix a b : ok (a ++ b) -> ok a.
Proof.
  intros (A & B & C). split; [|split].
  - intros r X. apply (A r). apply in_or_app. left. exact X.
  - intros a' r t b' E. apply (B a' r t (b' ++ b)). rewrite E, <- app_assoc. reflexivity.
  - intros a' r w b' t c w' E. apply (C a' r w b' t (c ++ b) w'). rewrite E, <- !app_assoc. cbn. rewrite <- app_assoc. reflexivity.
Qed.
Lemma ok_nil : ok [].
Proof. split; [intros r []|split]; [intros a r t b E|intros a r w b t c w' E]; destruct a; discriminate. Qed.

(** What the user does to a timer. *)
Definition upd (d : nat -> tdata) (r : nat) (x : tdata) : nat -> tdata := fun q => if Nat.eqb q r then x else d q.
Lemma planned_step d tr r x e : planned d tr -> (forall q, q <> r -> plan_step q (plan_of q tr) e = plan_of q tr) -> plan_step r (plan_of r tr) e = view x -> planned (upd d r x) (tr ++ [e]).
Proof.
  intros P A B q. rewrite plan_snoc. unfold upd. destruct (Nat.eqb q r) eqn:E; [apply Nat.eqb_eq in E; subst q; exact B|]. apply Nat.eqb_neq in E. rewrite A by exact E. apply P.
Qed.
Lemma planned_other d tr e : planned d tr -> (forall q p, plan_step q p e = p) -> planned d (tr ++ [e]).
Proof. intros P A q. rewrite plan_snoc, A. apply P. Qed.
Lemma step_other q r p e : q <> r -> match e with EStart z _ _ | EStop z | EForeign z | ERestart z _ | ECyclic z _ | EFire z _ => z = r | _ => True end -> plan_step q p e = p.
Proof. intros N. destruct e; cbn; try reflexivity; intros ->; replace (Nat.eqb r q) with false by (symmetry; apply Nat.eqb_neq; auto); reflexivity. Qed.

Lemma async_same st e : dat (async st e) = dat st /\ records (async st e) = records st /\ mst (async st e) = mst st /\ closed (async st e) = closed st /\ pc (async st e) = pc st /\ tr (async st e) = tr st /\ now (async st e) = now st.
Proof. unfold async. destruct (closed st) eqn:E; cbn; repeat split; auto. Qed.
Lemma good_same st st' : good st -> dat st' = dat st -> records st' = records st -> tr st' = tr st -> good st'.
Proof. unfold good. intros H -> -> ->. exact H. Qed.
Lemma good_emit st e : good st -> (forall q p, plan_step q p e = p) -> good (emit st [e]).
Proof. intros (A & B & C) P. split; [|split]; auto. cbn. apply planned_other; auto. Qed.

Lemma good_start k r d st : good st -> good (start k r d st).
Proof.
  intros H. unfold start. set (s0 := match pc st with PCall q => if Nat.eqb q r then emit st [EDead r] else st | _ => st end).
  assert (H0 : good s0) by (unfold s0; destruct (pc st); try exact H; destruct (Nat.eqb r0 r); [apply good_emit; auto|exact H]). clearbody s0. clear H st.
  destruct H0 as (A & [N I] & C). cbv zeta. set (x := dat s0 r). set (x' := TD (now s0 + d) d (cyclic x) true).
  set (s2 := if running x then refresh k (with_dat s0 r x') else refresh k (with_records (with_dat s0 r x') (records (with_dat s0 r x') ++ [r]))).
  assert (D2 : dat s2 = upd (dat s0) r x' /\ tr s2 = tr s0) by (unfold s2; destruct (running x); split; reflexivity). destruct D2 as [D2 T2].
  assert (S2 : stored (dat s2) (records s2) /\ first (dat s2) (records s2)).
  { rewrite D2. unfold s2. destruct (running x) eqn:RX; apply (stored_refresh k); cbn; change (fun q => if Nat.eqb q r then x' else dat s0 q) with (upd (dat s0) r x').
    - split; [exact N|]. intros q. rewrite I. unfold upd. destruct (Nat.eqb q r) eqn:E; [|reflexivity]. apply Nat.eqb_eq in E. subst q. fold x. rewrite RX. cbn. tauto.
    - split.
      + (apply (Permutation.Permutation_NoDup (Permutation.Permutation_cons_append (records s0) r)); constructor; [|exact N]). rewrite I. fold x. rewrite RX. discriminate.
      + intros q. rewrite in_app_iff, I. unfold upd. destruct (Nat.eqb q r) eqn:E.
        * apply Nat.eqb_eq in E. subst q. cbn. tauto.
        * apply Nat.eqb_neq in E. cbn. split; [intros [X|[X|[]]]; [exact X|congruence]|auto]. }
  destruct (async_same (emit s2 [EStart r (now s0) d]) QCheck) as (E1 & E2 & _ & _ & _ & E3 & _).
  assert (G : good (emit s2 [EStart r (now s0) d])).
  { split; [|exact S2]. cbn. rewrite T2, D2. apply planned_step; [exact A|intros q Q; apply (step_other q r); auto|]. cbn. rewrite Nat.eqb_refl, A. reflexivity. }
  eapply good_same; [exact G| | |]; auto.
Qed.

Lemma check_empty_same st : dat (check_empty st) = dat st /\ records (check_empty st) = records st /\ tr (check_empty st) = tr st /\ queue (check_empty st) = queue st /\ closed (check_empty st) = closed st /\ pc (check_empty st) = pc st /\ now (check_empty st) = now st /\ (mst (check_empty st) = mst st \/ mst (check_empty st) = NoTimer).
Proof. unfold check_empty. destruct (records st) eqn:E; cbn; repeat split; auto. Qed.

(** Removing [r] from the heap, where [r] is not running any more but everything else is as it should be. *)
Lemma stored_tail d r f t : NoDup (f :: t) -> (forall q, In q (f :: t) <-> running (d q) = true \/ q = r) -> running (d r) = false -> f = r -> stored d t.
Proof.
  intros N I R ->. inversion N; subst. split; [assumption|]. intros q. specialize (I q). cbn in I. split.
  - intros X. destruct (Nat.eq_dec q r) as [->|NE]; [contradiction|]. destruct I as [I _]. destruct I; [right; exact X|assumption|congruence].
  - intros X. destruct I as [_ I]. destruct I as [I|I]; [left; exact X| |exact I]. subst q. congruence.
Qed.
Lemma remove_same k r st : dat (remove_timer k r st) = dat st /\ tr (remove_timer k r st) = tr st /\ queue (remove_timer k r st) = queue st /\ closed (remove_timer k r st) = closed st /\ pc (remove_timer k r st) = pc st /\ now (remove_timer k r st) = now st /\ (mst (remove_timer k r st) = mst st \/ mst (remove_timer k r st) = NoTimer).
Proof.
  unfold remove_timer. destruct (records st) as [|f t] eqn:E; [repeat split; auto|]. destruct (Nat.eqb f r).
  - unfold remove_shortest. destruct (check_empty_same (refresh k (with_records st (tl (records st))))) as (A & _ & B & C & D & F & G & H). auto 10.
  - destruct (Amap.mem r (f :: t)); [|repeat split; auto]. destruct (check_empty_same (with_records st (drop_one r (f :: t)))) as (A & _ & B & C & D & F & G & H). cbn. auto 10.
Qed.
Lemma remove_stored k r st : running (dat st r) = false -> NoDup (records st) -> (forall q, In q (records st) <-> running (dat st q) = true \/ q = r) ->
  stored (dat st) (records (remove_timer k r st)) /\ first (dat st) (records (remove_timer k r st)).
Proof.
  intros R N I. unfold remove_timer. destruct (records st) as [|f t] eqn:E.
  - exfalso. assert (X : In r []) by (apply I; right; reflexivity). destruct X.
  - destruct (Nat.eqb f r) eqn:F.
    + apply Nat.eqb_eq in F. unfold remove_shortest. destruct (check_empty_same (refresh k (with_records st (tl (records st))))) as (_ & -> & _). rewrite E. cbn [tl].
      apply (stored_refresh k (with_records st t)). cbn. apply (stored_tail (dat st) r f t); auto.
    + assert (M : Amap.mem r (f :: t) = true) by (apply Amap.mem_in; apply I; right; reflexivity). rewrite M.
      destruct (check_empty_same (with_records st (drop_one r (f :: t)))) as (A & B & _). rewrite <- A at 1 2. apply stored_refresh. rewrite A, B. cbn [records with_records dat].
      split; [apply drop_nodup; exact N|]. intros q. rewrite drop_in by exact N. rewrite I. split; [intros [[X|X] Y]; [exact X|congruence]|]. intros X. split; [left; exact X|]. intros ->. congruence.
Qed.

Lemma good_stop k r st : good st -> good (stop k r st).
Proof.
  intros H. unfold stop. cbv zeta. destruct (running (dat st r)) eqn:RX; [|exact H]. destruct H as (A & [N I] & C). set (x := dat st r) in *. set (x' := TD (deadline x) (duration x) (cyclic x) false).
  set (st1 := emit (with_dat st r x') [EStop r]).
  assert (G : good (remove_timer k r st1)).
  { destruct (remove_same k r st1) as (D & T & _). unfold good. rewrite D, T. split; [|apply remove_stored].
    - cbn. apply (planned_step (dat st) (tr st) r x'); [exact A|intros q Q; apply (step_other q r); auto|]. cbn. rewrite Nat.eqb_refl, A. reflexivity.
    - cbn. rewrite Nat.eqb_refl. reflexivity.
    - exact N.
    - intros q. cbn. rewrite I. destruct (Nat.eqb q r) eqn:E; [apply Nat.eqb_eq in E; subst q; fold x; rewrite RX; cbn; tauto|]. apply Nat.eqb_neq in E. split; [auto|]. intros [X|X]; [exact X|contradiction]. }
  destruct (records st1), (records (remove_timer k r st1)) eqn:RE, (mst (remove_timer k r st1)) eqn:ME; try exact G. destruct (Nat.eqb n r); [|exact G].
  destruct (async_same (remove_timer k r st1) QEmpty) as (E1 & E2 & _ & _ & _ & E3 & _). eapply good_same; [exact G| | |]; auto.
Qed.

Lemma good_restart k r st : good st -> running (dat st r) = true -> good (restart k r st) /\ ~ In EBad (skipn (length (tr st)) (tr (restart k r st))).
Proof.
  intros (A & [N I] & C) RX. unfold restart. cbv zeta. set (x := dat st r) in *. set (x' := TD (now st + duration x) (duration x) (cyclic x) true). set (st1 := emit (with_dat st r x') [ERestart r (now st)]).
  assert (NE : records st1 <> []) by (cbn; intros E; apply I in RX; rewrite E in RX; destruct RX).
  replace (match records st1 with [] => emit st1 [EBad] | _ :: _ => refresh k st1 end) with (refresh k st1) by (destruct (records st1); congruence).
  assert (G : good (refresh k st1)).
  { split; [|apply (stored_refresh k st1)].
    - cbn. apply (planned_step (dat st) (tr st) r x'); [exact A|intros q Q; apply (step_other q r); auto|]. cbn. rewrite Nat.eqb_refl, A. unfold view. fold x. rewrite RX. reflexivity.
    - cbn. split; [exact N|]. intros q. rewrite I. destruct (Nat.eqb q r) eqn:E; [|reflexivity]. apply Nat.eqb_eq in E. subst q. fold x. rewrite RX. cbn. tauto. }
  destruct (async_same (refresh k st1) QCheck) as (E1 & E2 & _ & _ & _ & E3 & _). split; [eapply good_same; [exact G| | |]; auto|].
  rewrite E3. cbn. rewrite skipn_app, skipn_all, Nat.sub_diag. cbn. intros [X|[]]. discriminate.
Qed.

(** The first timer fires. *)
Lemma good_expired k r t st : good st -> records st = r :: t -> good (on_expired k r st).
Proof.
  intros (A & [N I] & C) RE. assert (RX : running (dat st r) = true) by (apply I; rewrite RE; left; reflexivity). unfold on_expired. cbv zeta. set (x := dat st r) in *. destruct (cyclic x) eqn:CX.
  - unfold update_shortest. rewrite RE. fold x. cbv zeta. rewrite CX, RX. set (x' := TD (deadline x + duration x) (duration x) true true). split.
    + cbn. apply (planned_step (dat st) (tr st) r x'); [exact A|intros q Q; apply (step_other q r); auto|]. assert (VX : plan_of r (tr st) = Plan (Some (deadline x)) (duration x) true) by (rewrite A; unfold view; fold x; rewrite CX, RX; reflexivity). cbn. rewrite Nat.eqb_refl, VX. reflexivity.
    + apply (stored_refresh k (with_dat st r x')). cbn. split; [exact N|]. intros q. rewrite I. destruct (Nat.eqb q r) eqn:E; [|reflexivity]. apply Nat.eqb_eq in E. subst q. fold x. rewrite RX. cbn. tauto.
  - set (x' := TD (deadline x) (duration x) false false). unfold remove_shortest. set (s1 := refresh k (with_records (with_dat st r x') (tl (records (with_dat st r x'))))).
    destruct (check_empty_same s1) as (D & R & T & _).
    assert (S : stored (dat s1) (records s1) /\ first (dat s1) (records s1)).
    { apply (stored_refresh k (with_records (with_dat st r x') (tl (records (with_dat st r x'))))). cbn. rewrite RE. cbn [tl]. apply (stored_tail _ r r t).
      - rewrite <- RE. exact N.
      - intros q. rewrite <- RE, I. destruct (Nat.eqb q r) eqn:E; [apply Nat.eqb_eq in E; subst q; fold x; rewrite RX; cbn; tauto|]. apply Nat.eqb_neq in E. split; [auto|]. intros [X|X]; [exact X|contradiction].
      - rewrite Nat.eqb_refl. reflexivity.
      - reflexivity. }
    unfold good. cbn. rewrite D, R, T. split; [|exact S]. cbn. apply (planned_step (dat st) (tr st) r x'); [exact A|intros q Q; apply (step_other q r); auto|]. assert (VX : plan_of r (tr st) = Plan (Some (deadline x)) (duration x) false) by (rewrite A; unfold view; fold x; rewrite CX, RX; reflexivity). cbn. rewrite Nat.eqb_refl, VX. reflexivity.
Qed.
