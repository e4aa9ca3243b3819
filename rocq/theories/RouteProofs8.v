(** Routing: calls return unless a handler run by sendToAll() uses routing. *)
From Verif Require Import ListUtil Amap RouteModel RouteSpec RouteProofs RouteProofs2 RouteProofs3 RouteProofs4 RouteProofs5.

Definition fits (c : call) (p : pc) : bool :=
  match p, c with
  | PStart, _ | PRet _, _ => true
  | PAdd _, KCreate _ => true
  | PClosing, KStop _ | PErase, KStop _ | PTell, KStop _ => true
  | PHand _, KPost _ _ => true
  | PHandler, KSendAll _ _ | PNested _, KSendAll _ _ => true
  | _, _ => false
  end.
Lemma fits_final h a c p : nth_error (agents (final h)) a = Some (c, p) -> fits c p = true.
Proof.
  revert h a c p. refine (state_ind (fun s => forall a c p, nth_error (agents s) a = Some (c, p) -> fits c p = true) _ _); [intros []; discriminate|].
  intros h s' IH S a c p N. inversion S; subst; look N; try exact (IH _ _ _ N); injection N; intros; subst; try reflexivity; destruct c; reflexivity.
Qed.

Lemma calm_app h k : calm h -> calm k -> calm (h ++ k).
Proof. intros A B a n I. apply in_app_iff in I as [I|I]; eauto. Qed.

Lemma calm_lock h : calm h -> (forall a c b, nth_error (agents (final h)) a <> Some (c, PNested b)) /\
  (forall a, lock (final h) = Some a -> exists self m, nth_error (agents (final h)) a = Some (KSendAll self m, PHandler)) /\
  (forall a c, nth_error (agents (final h)) a = Some (c, PHandler) -> lock (final h) = Some a).
Proof.
  induction h as [|l h IH] using rev_ind; intros C.
  { repeat split; cbn; try discriminate; intros []; discriminate. }
  destruct IH as (NN & LH & HL); [intros a n I; apply (C a n), in_app_iff; auto|].
  rewrite final_snoc. pose proof (next_step (final h) l) as [->|S]; [auto|].
  assert (NI : forall a self m i, nth_error (agents (final h)) a = Some (KSendAll self m, PHandler) -> agents (next (final h) l) <> set_nth a (KSendAll self m, PNested (length (agents (final h)))) (agents (final h)) ++ [(KFind i, PStart)] \/ exists b n, l = LRun b n /\ n <> 0).
  { intros a self m i N. destruct l as [c|b n].
    - left. cbn. destruct (callable (final h) c); cbn; intros E; apply (f_equal (fun l => nth_error l a)) in E; rewrite ?nth_error_app1 in E by (rewrite ?length_set_nth; eapply nth_lt; exact N);
        rewrite (nth_set _ _ _ _ _ N), Nat.eqb_refl, N in E; discriminate.
    - destruct (Nat.eq_dec n 0) as [->|Z]; [left|right; eauto]. intros E. apply (f_equal (fun l => length l)) in E. rewrite app_length, length_set_nth in E. cbn in E.
      destruct (nth_error (agents (final h)) b) as [[c p]|] eqn:NB; [|lia]. destruct c, p; cbn in E;
        repeat match type of E with context [if ?x then _ else _] => destruct x; cbn in E | context [match ?x with Some _ => _ | None => _ end] => destruct x; cbn in E end;
        unfold inform_new, set_closed, set_handlers in E; repeat match type of E with context [if ?x then _ else _] => destruct x; cbn in E | context [match ?x with Some _ => _ | None => _ end] => destruct x; cbn in E end;
        rewrite ?length_set_nth in E; try lia.
        exact (NN _ _ _ NB). }
  assert (NI' : forall b n, l = LRun b n -> n = 0) by (intros b n ->; apply (C b n), in_app_iff; right; left; reflexivity).
  set (s' := next (final h) l) in *. clearbody s'. repeat split.
  - intros a c b N. inversion S; subst; look N; try exact (NN _ _ _ N).
    destruct (NI _ _ _ i H) as [Q|(x & n9 & -> & Q)]; [exact (Q eq_refl)|exact (Q (NI' _ _ eq_refl))].
  - intros a L. inversion S; subst; cbn in L |- *; try discriminate L;
      try (destruct (LH _ L) as (self0 & m0 & N0); exists self0, m0; assert (LT := nth_lt _ _ _ N0); rewrite ?nth_snoc, ?length_set_nth; try (erewrite nth_set by eassumption);
        repeat match goal with |- context [if Nat.eqb ?x ?y then _ else _] => destruct (Nat.eqb_spec x y); subst end; try lia; try congruence; exact N0).
    + injection L as <-. rewrite (nth_set _ _ _ _ _ H), Nat.eqb_refl. eauto.
    + exfalso. destruct (NI _ _ _ i H) as [Q|(x & n9 & -> & Q)]; [exact (Q eq_refl)|exact (Q (NI' _ _ eq_refl))].
  - intros a c N. inversion S; subst; look N; cbn; try exact (HL _ _ N); try reflexivity; try discriminate.
    + pose proof (HL _ _ N). congruence.
    + pose proof (HL _ _ N). pose proof (HL _ _ H). congruence.
    + exfalso. exact (NN _ _ _ H).
Qed.

Definition rank (p : pc) : nat := match p with PStart => 5 | PClosing => 3 | PErase => 2 | PRet _ => 0 | _ => 1 end.
Definition ready (s : state) (a : nat) (p : pc) : Prop := lock s = None \/ p = PHandler.

Lemma run_once h a c p : nth_error (agents (final h)) a = Some (c, p) -> (forall r, p <> PRet r) -> (forall b, p <> PNested b) -> ready (final h) a p ->
  exists p', nth_error (agents (final (h ++ [LRun a 0]))) a = Some (c, p') /\ rank p' < rank p /\ (forall b, p' <> PNested b) /\ ready (final (h ++ [LRun a 0])) a p'.
Proof.
  intros N NR NN R. pose proof (fits_final _ _ _ _ N) as F. rewrite final_snoc. cbn. rewrite N.
  assert (SN : forall x, nth_error (set_nth a x (agents (final h))) a = Some x) by (intros x; rewrite (nth_set _ _ _ _ _ N), Nat.eqb_refl; reflexivity).
  destruct R as [L|E].
  - assert (FR : free (final h) = true) by (unfold free; rewrite L; reflexivity).
    destruct p; destruct c; try discriminate F; try (destruct (NR _ eq_refl)); try (destruct (NN _ eq_refl)); cbn -[free]; rewrite ?FR;
      unfold inform_new, set_closed, set_handlers;
      repeat match goal with |- context [if ?x then _ else _] => destruct x; cbn -[free] | |- context [match ?x with Some _ => _ | None => _ end] => destruct x; cbn -[free] end;
      unfold ret, set_pc, post_all, emit, with_table, with_objs, with_lock, with_agents; cbn [agents lock objs table tr]; rewrite ?SN; (eexists; split; [reflexivity|]; split; [cbn; lia|]; split; [discriminate|]; first [left; cbn; assumption|right; reflexivity|left; reflexivity]).
  - subst p. destruct c; try discriminate F. cbn. rewrite SN. eexists; split; [reflexivity|]; split; [cbn; lia|]; split; [discriminate|]. left. reflexivity.
Qed.

Lemma finish n : forall h a c p, rank p <= n -> nth_error (agents (final h)) a = Some (c, p) -> (forall b, p <> PNested b) -> ready (final h) a p ->
  exists k r, calm k /\ nth_error (agents (final (h ++ k))) a = Some (c, PRet r).
Proof.
  induction n as [|n IH]; intros h a c p RK N NN R.
  - destruct p; cbn in RK; try lia. exists [], r. rewrite app_nil_r. split; [intros x y []|exact N].
  - assert (D : (exists r, p = PRet r) \/ forall r, p <> PRet r) by (destruct p; eauto; right; discriminate).
    destruct D as [[r ->]|D]; [exists [], r; rewrite app_nil_r; split; [intros x y []|exact N]|].
    destruct (run_once _ _ _ _ N D NN R) as (p' & N' & RK' & NN' & R'). destruct (IH (h ++ [LRun a 0]) a c p') as (k & r & CK & NK); [lia|assumption..|].
    exists (LRun a 0 :: k), r. rewrite <- app_assoc in NK. split; [|exact NK]. intros x y [I|I]; [congruence|exact (CK _ _ I)].
Qed.

Lemma calm_progress h a c : calm h -> called (tr (final h)) a c -> exists k r, calm k /\ returned (tr (final (h ++ k))) a r.
Proof.
  intros C I. apply call_agent in I as [p N]. destruct (calm_lock _ C) as (NN & LH & HL).
  destruct (lock (final h)) as [b|] eqn:L.
  - destruct (LH b eq_refl) as (self & m & NB).
    assert (L1 : lock (final (h ++ [LRun b 0])) = None) by (rewrite final_snoc; cbn; rewrite NB; reflexivity).
    assert (C1 : calm [LRun b 0]) by (intros x y [E|[]]; congruence).
    assert (C2 : calm (h ++ [LRun b 0])) by (apply calm_app; assumption). destruct (calm_lock _ C2) as (NN2 & LH2 & HL2).
    assert (NA : exists p', nth_error (agents (final (h ++ [LRun b 0]))) a = Some (c, p')).
    { apply call_agent. destruct (grows h [LRun b 0]) as [t ->]. apply in_app_iff. left. apply call_agent. eauto. }
    destruct NA as [p' NA].
    destruct (finish 5 _ a c p' ltac:(destruct p'; cbn; lia) NA ltac:(intros x ->; exact (NN2 _ _ _ NA)) ltac:(left; exact L1)) as (k2 & r2 & CK2 & N2).
    exists ([LRun b 0] ++ k2), r2. split; [apply calm_app; assumption|]. rewrite app_assoc. apply ret_agent. eauto.
  - destruct (finish 5 h a c p ltac:(destruct p; cbn; lia) N ltac:(intros x ->; exact (NN _ _ _ N)) ltac:(left; exact L)) as (k & r & CK & NK).
    exists k, r. split; [exact CK|]. apply ret_agent. eauto.
Qed.
