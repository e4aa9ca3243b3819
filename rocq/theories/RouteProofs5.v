(** Routing: theorems about all histories. *)
From Verif Require Import ListUtil Amap RouteModel RouteSpec RouteProofs RouteProofs2 RouteProofs3 RouteProofs4.

Lemma running_agent h a c p : nth_error (agents (final h)) a = Some (c, p) -> (forall r, p <> PRet r) -> running (tr (final h)) a.
Proof.
  intros N P. split; [exists c; apply call_agent; eauto|]. intros r R. apply ret_agent in R as [c' R]. rewrite N in R. injection R as <- ->. exact (P _ eq_refl).
Qed.
Lemma running_posts l k a : (forall r, ~ In (ERet a r) k) -> running l a -> running (l ++ k) a.
Proof.
  intros Q [[c C] R]. split; [exists c; apply in_app_iff; auto|]. intros r I. apply in_app_iff in I as [I|I]; [exact (R _ I)|exact (Q _ I)].
Qed.

(** A create() that found its id free but then in use: another create() for this id joined meanwhile. *)
Definition raced (l : list event) (a id : nat) : Prop :=
  exists b o l1 l2, b <> a /\ l = l1 ++ EJoin b id o :: l2 /\ running l1 a /\ running l1 b.
Lemma raced_grows l k a id : raced l a id -> raced (l ++ k) a id.
Proof. intros (b & o & l1 & l2 & D & -> & R). exists b, o, l1, (l2 ++ k). rewrite <- app_assoc. auto. Qed.

Lemma race h a id o : nth_error (agents (final h)) a = Some (KCreate id, PAdd o) -> get id (table (final h)) = None \/ raced (tr (final h)) a id.
Proof.
  revert h. refine (state_ind (fun s => nth_error (agents s) a = Some (KCreate id, PAdd o) -> get id (table s) = None \/ raced (tr s) a id) _ _).
  { destruct a; discriminate. }
  intros h s' IH S N. destruct (add_step _ _ _ _ _ S N) as [N'|(i & [= <-] & _ & _ & _ & -> & _ & G)]; [|auto].
  destruct (step_tr _ _ S) as [k K]. destruct (IH N') as [G|G]; [|right; rewrite K; apply raced_grows; exact G].
  inversion S; subst; try (left; exact G).
  - cbn. rewrite get_snoc by assumption. destruct (Nat.eqb_spec id0 id) as [->|D]; [|auto]. right.
    assert (a0 <> a) by (intros ->; look N; contradiction).
    exists a0, o0, (tr (final h) ++ informed (final h) a0 o0 ++ told (final h) a0 (MStatus true o0)), [ERet a0 (RProc o0)].
    split; [assumption|]. split; [cbn; rewrite <- !app_assoc; reflexivity|].
    assert (Q : quiet (informed (final h) a0 o0 ++ told (final h) a0 (MStatus true o0))) by (apply quiet_app; [apply quiet_informed|apply quiet_told]).
    split; (apply running_posts; [intros r; apply Q|eapply running_agent; [eassumption|discriminate]]).
  - left. cbn. rewrite get_del, G. destruct (Nat.eqb _ _); reflexivity.
Qed.

(** What the events say about the moment they happen at. *)
Lemma in_told s a m e : In e (told s a m) -> exists o, e = EPost a o m /\ In o (receivers s m).
Proof. unfold told. intros I. apply in_map_iff in I as [o [<- I]]. eauto. Qed.
Lemma in_informed s a o e : In e (informed s a o) -> exists x, e = EPost a o (MStatus true x).
Proof. unfold informed. destruct (takes _ _ _); [|intros []]. intros I. apply in_map_iff in I as [x [<- I]]. eauto. Qed.

Lemma tail_split {A} (x : list A) k1 e k2 y : x ++ [y] = k1 ++ e :: k2 -> (k2 = [] /\ e = y /\ x = k1) \/ exists k, k2 = k ++ [y] /\ x = k1 ++ e :: k.
Proof.
  intros E. apply app_split in E as [[t [-> ->]]|[t [-> E]]]; [right; eauto|].
  destruct t as [|z t]; cbn in E; injection E as E1 E2; [subst; rewrite app_nil_r; auto|destruct t; discriminate].
Qed.

Lemma join_step s s' k1 a id o k2 : step s s' -> tr s' = tr s ++ k1 ++ EJoin a id o :: k2 ->
  nth_error (agents s) a = Some (KCreate id, PAdd o) /\ lock s = None /\ get id (table s) = None /\ k1 = informed s a o ++ told s a (MStatus true o) /\ k2 = [ERet a (RProc o)].
Proof.
  intros S T. assert (I : In (EJoin a id o) (k1 ++ EJoin a id o :: k2)) by (apply in_app_iff; right; left; reflexivity).
  inversion S; subst; cbn in T; rewrite <- ?app_assoc in T; try (apply app_inv_head in T; rewrite <- T in I);
    try (exfalso; rewrite <- (app_nil_r (tr s)) in T at 1; apply app_inv_head in T; rewrite <- T in I; destruct I; fail);
    repeat first [apply in_app_iff in I; destruct I as [I|I]|apply in_told in I as (? & I & _)|apply in_informed in I as (? & I)|destruct I as [I|I]|
      apply in_map_iff in I as (? & I & _)|discriminate I|contradiction].
  injection I as -> -> ->. repeat (split; [assumption|]).
  set (x := informed s a o) in *. set (y := told s a (MStatus true o)) in *.
  assert (E : ((x ++ y) ++ [EJoin a id o]) ++ [ERet a (RProc o)] = k1 ++ EJoin a id o :: k2) by (rewrite <- !app_assoc; exact T).
  apply tail_split in E as [(_ & E & _)|(k & -> & E)]; [discriminate|].
  apply tail_split in E as [(-> & _ & <-)|(k' & -> & E)]; [auto|]. exfalso.
  assert (I : In (EJoin a id o) (x ++ y)) by (rewrite E; apply in_app_iff; right; left; reflexivity).
  apply in_app_iff in I as [I|I]; [apply in_informed in I as (? & I)|apply in_told in I as (? & I & _)]; discriminate.
Qed.

Lemma leave_step s s' k1 a id o k2 : step s s' -> tr s' = tr s ++ k1 ++ ELeave a id o :: k2 ->
  exists o1, nth_error (agents s) a = Some (KStop o1, PErase) /\ lock s = None /\ id = id_of s o1 /\ id <> 0 /\ get id (table s) = Some o /\ k1 = [] /\ k2 = []
    /\ table s' = del id (table s).
Proof.
  intros S T. assert (I : In (ELeave a id o) (k1 ++ ELeave a id o :: k2)) by (apply in_app_iff; right; left; reflexivity).
  inversion S; subst; cbn in T; rewrite <- ?app_assoc in T; try (apply app_inv_head in T; rewrite <- T in I);
    try (exfalso; rewrite <- (app_nil_r (tr s)) in T at 1; apply app_inv_head in T; rewrite <- T in I; destruct I; fail);
    repeat first [apply in_app_iff in I; destruct I as [I|I]|apply in_told in I as (? & I & _)|apply in_informed in I as (? & I)|destruct I as [I|I]|
      apply in_map_iff in I as (? & I & _)|discriminate I|contradiction].
  injection I as -> <- ->. exists o0. repeat (split; [first [assumption|reflexivity]|]).
  destruct k1 as [|z k1]; cbn in T; [injection T as T; auto|injection T as _ T; destruct k1; discriminate].
Qed.

Lemma ret_step h s' k1 a r k2 : step (final h) s' -> tr s' = tr (final h) ++ k1 ++ ERet a r :: k2 ->
  exists c p, nth_error (agents (final h)) a = Some (c, p) /\ (forall r, p <> PRet r) /\ nth_error (agents s') a = Some (c, PRet r) /\ k2 = [].
Proof.
  intros S T. assert (I : In (ERet a r) (k1 ++ ERet a r :: k2)) by (apply in_app_iff; right; left; reflexivity).
  destruct (step_shape _ _ S) as [c0 C A T'|a0 c0 p0 p' k N0 NP NP' A T' Q|a0 c0 p0 k r0 N0 NP A T' Q|a0 self m i N0 A T']; rewrite T in T'.
  - apply app_inv_head in T'. rewrite T' in I. destruct I as [I|[]]. discriminate.
  - apply app_inv_head in T'. rewrite T' in I. destruct (proj2 Q _ _ I).
  - rewrite <- app_assoc in T'. apply app_inv_head in T'. symmetry in T'. apply tail_split in T' as [(-> & [= -> ->] & <-)|(t & -> & E)].
    + exists c0, p0. rewrite A, (nth_set _ _ _ _ _ N0), Nat.eqb_refl. auto.
    + exfalso. apply (proj2 Q a r). rewrite E. apply in_app_iff. right. left. reflexivity.
  - apply app_inv_head in T'. rewrite T' in I. destruct I as [I|[]]. discriminate.
Qed.

Lemma agent_prefix h1 h2 a c p : nth_error (agents (final h1)) a = Some (c, p) -> In (ECall a c) (tr (final (h1 ++ h2))).
Proof. intros N. destruct (grows h1 h2) as [t ->]. apply in_app_iff. left. apply call_agent. eauto. Qed.

(** find *)
Lemma find_tells h l1 l2 a id r : tr (final h) = l1 ++ ERet a r :: l2 -> called (tr (final h)) a (KFind id) ->
  r = match joined l1 id with Some o => RProc o | None => RNull end.
Proof.
  intros E C. destruct (split_step _ _ _ _ E) as (h1 & h2 & s' & k1 & k2 & t & -> & S & T & -> & -> & _).
  destruct (ret_step _ _ _ _ _ _ S T) as (c & p & N & NP & N' & ->).
  assert (c = KFind id) by (eapply call_unique; [eapply agent_prefix; exact N|exact C]). subst c.
  inversion S; subst; cbn in T; look N'; try (exfalso; rewrite N in N'; injection N' as ->; destruct (NP _ eq_refl); fail).
  injection N' as <- <-. rewrite table_joined. apply app_inv_head in T. destruct k1 as [|z k1]; [rewrite app_nil_r; reflexivity|cbn in T; injection T as _ T; destruct k1; discriminate].
Qed.
