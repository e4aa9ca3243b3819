(** Routing: processors against the trace. *)
From Verif Require Import ListUtil Amap RouteModel RouteSpec RouteProofs RouteProofs2.

Lemma given_in s o : given s o = true <-> exists a, In (ERet a (RProc o)) (tr s).
Proof.
  unfold given. rewrite existsb_exists. split.
  - intros [e [I E]]. destruct e; try discriminate. destruct r; try discriminate. apply Nat.eqb_eq in E as ->. eauto.
  - intros [a I]. eexists. split; [exact I|]. cbn. apply Nat.eqb_refl.
Qed.

Lemma in_snoc_list {A} (l : list A) x y : In y (l ++ [x]) <-> In y l \/ y = x.
Proof. rewrite in_app_iff. cbn. intuition. Qed.

Definition target (c : call) : option nat :=
  match c with KStop o | KReuse o | KConnect o _ | KDisconnect o _ | KSendAll (Some o) _ => Some o | _ => None end.

Lemma set_closed_length s o b : length (objs (set_closed s o b)) = length (objs s).
Proof. unfold set_closed. destruct (nth_error (objs s) o); cbn; [apply length_set_nth|reflexivity]. Qed.
Lemma set_handlers_length s o f : length (objs (set_handlers s o f)) = length (objs s).
Proof. unfold set_handlers. destruct (nth_error (objs s) o); cbn; [apply length_set_nth|reflexivity]. Qed.

Lemma step_objs_length s s' : step s s' -> length (objs s) <= length (objs s').
Proof. intros S. inversion S; subst; cbn; rewrite ?set_closed_length, ?set_handlers_length, ?app_length; lia. Qed.

Lemma del_in {V} k (m : amap V) x : In x (del k m) -> In x m.
Proof.
  induction m as [|[k' v'] m IH]; cbn; [tauto|]. destruct (Nat.eqb k k'); [intros I; right; auto|intros [I|I]; [left; exact I|right; auto]].
Qed.

Record bounds (s : state) : Prop := {
  b_target : forall a c p o, nth_error (agents s) a = Some (c, p) -> target c = Some o -> o < length (objs s);
  b_add : forall a c o, nth_error (agents s) a = Some (c, PAdd o) -> o < length (objs s);
  b_ret : forall a c o, nth_error (agents s) a = Some (c, PRet (RProc o)) -> o < length (objs s);
  b_table : forall id o, In (id, o) (table s) -> o < length (objs s)
}.

Lemma bounds_final h : bounds (final h).
Proof.
  revert h. refine (state_ind bounds _ _).
  { split; intros; try (destruct a; discriminate). contradiction. }
  intros h s' [BT BA BR BB] S. pose proof (step_objs_length _ _ S) as L.
  assert (G : forall o, given (final h) o = true -> o < length (objs (final h))).
  { intros o. rewrite given_in. intros [a I]. apply ret_agent in I as [c I]. eauto. }
  assert (TT : forall a c p, nth_error (agents s') a = Some (c, p) -> (exists q, nth_error (agents (final h)) a = Some (c, q)) \/ callable (final h) c = true).
  { intros a c p N. destruct (step_shape _ _ S) as [c0 C A T|a0 c0 p0 p' k N0 NP NP' A T Q|a0 c0 p0 k r N0 NP A T Q|a0 self m i N0 A T]; rewrite A in N.
    - rewrite nth_snoc in N. destruct (Nat.eqb a _); [injection N as <- <-; auto|eauto].
    - rewrite (nth_set _ _ _ _ _ N0) in N. destruct (Nat.eqb_spec a0 a) as [<-|]; [injection N as <- <-|]; eauto.
    - rewrite (nth_set _ _ _ _ _ N0) in N. destruct (Nat.eqb_spec a0 a) as [<-|]; [injection N as <- <-|]; eauto.
    - rewrite nth_snoc, length_set_nth, (nth_set _ _ _ _ _ N0) in N. destruct (Nat.eqb a _); [injection N as <- <-; auto|].
      destruct (Nat.eqb_spec a0 a) as [<-|]; [injection N as <- <-|]; eauto. }
  split.
  - intros a c p o N X. destruct (TT _ _ _ N) as [[q Q]|C]; [pose proof (BT _ _ _ _ Q X); lia|].
    enough (o < length (objs (final h))) by lia. apply G.
    destruct c as [| | | | | |[x|]| |]; cbn in X, C; try discriminate; injection X as ->; exact C.
  - intros a c o N. inversion S; subst; cbn in *; rewrite ?set_closed_length, ?set_handlers_length, ?app_length; cbn;
      rewrite ?nth_snoc, ?length_set_nth in N; try (erewrite nth_set in N by eassumption);
      repeat match type of N with context [if ?b then _ else _] => destruct b; try discriminate N; try (injection N as <- <-; lia) end;
      try (apply BA in N; lia).
  - intros a c o N. inversion S; subst; cbn in *; rewrite ?set_closed_length, ?set_handlers_length, ?app_length; cbn;
      rewrite ?nth_snoc, ?length_set_nth in N; try (erewrite nth_set in N by eassumption);
      repeat match type of N with context [if ?b then _ else _] => destruct b; try discriminate N; try (injection N as <- <-; lia) end;
      try (apply BR in N; lia); try solve [injection N as <- <-; eauto].
    injection N as <- N. destruct (get id (table (final h))) eqn:E; [|discriminate N]. injection N as <-. apply get_in in E. eauto.
  - intros id o I. inversion S; subst; cbn in *; rewrite ?set_closed_length, ?set_handlers_length, ?app_length; cbn; try (apply BB in I; lia).
    + apply in_snoc_list in I as [I|[= -> ->]]; [apply BB in I; lia|]. eauto.
    + apply del_in in I. eauto.
Qed.

Definition agree (s : state) : Prop :=
  (forall o x, nth_error (objs s) o = Some x -> closed x = negb (is_open (tr s) o) /\ forall ty, mem ty (handlers x) = listens (tr s) o ty) /\
  (forall o, length (objs s) <= o -> is_open (tr s) o = true /\ forall ty, listens (tr s) o ty = false).

Lemma agree_final h : agree (final h).
Proof.
  revert h. refine (state_ind agree _ _).
  { split; cbn; intros o; [intros x N; destruct o; discriminate|intros L; split; reflexivity]. }
  intros h s' [A B] S. pose proof (bounds_final h) as BD.
  assert (FR : forall x, nth_error (objs (final h) ++ [x]) (length (objs (final h))) = Some x) by (intros x; rewrite nth_snoc, Nat.eqb_refl; reflexivity).
  inversion S; subst; unfold agree; cbn -[set_add set_del];
    try (split; intros o0; [intros x0 N0|intros L0]; rewrite ?open_snoc; posts; rewrite ?open_snoc;
         (split; [|intros ty0; rewrite ?listens_snoc; posts; rewrite ?listens_snoc]);
         [exact (proj1 (A _ _ N0))|exact (proj2 (A _ _ N0) ty0)|exact (proj1 (B _ L0))|exact (proj2 (B _ L0) ty0)]).
  - split; intros o0; [intros x0 N0|intros L0]; rewrite open_snoc.
    + rewrite nth_snoc in N0. destruct (Nat.eqb_spec o0 (length (objs (final h)))) as [->|D].
      * injection N0 as <-. cbn. destruct (B _ (le_n _)) as [B1 B2]. rewrite B1. split; [reflexivity|]. intros ty. rewrite listens_snoc, B2. reflexivity.
      * destruct (A _ _ N0) as [A1 A2]. split; [exact A1|]. intros ty. rewrite listens_snoc. apply A2.
    + rewrite app_length in L0. cbn in L0. destruct (B o0) as [B1 B2]; [lia|]. split; [exact B1|]. intros ty. rewrite listens_snoc. apply B2.
  - split; intros o0; [intros x0 N0|intros L0].
    + rewrite nth_snoc in N0. destruct (Nat.eqb_spec o0 (length (objs (final h)))) as [->|D].
      * injection N0 as <-. cbn. destruct (B _ (le_n _)) as [B1 B2]. rewrite B1. split; [reflexivity|]. intros ty. rewrite B2. reflexivity.
      * exact (A _ _ N0).
    + rewrite app_length in L0. cbn in L0. apply B. lia.
  - rewrite set_closed_length. assert (L := b_target _ BD _ _ _ _ H eq_refl). unfold set_closed.
    destruct (nth_error (objs (final h)) o) as [x|] eqn:N; [|apply nth_error_None in N; lia]. cbn.
    split; intros o0; [intros x0 N0|intros L0]; rewrite open_snoc.
    + rewrite (nth_set _ _ _ _ _ N) in N0. destruct (Nat.eqb_spec o o0) as [->|D].
      * injection N0 as <-. cbn. split; [reflexivity|]. intros ty. rewrite listens_snoc. apply (A _ _ N).
      * destruct (A _ _ N0) as [A1 A2]. split; [exact A1|]. intros ty. rewrite listens_snoc. apply A2.
    + destruct (Nat.eqb_spec o o0) as [->|D]; [lia|]. destruct (B _ L0) as [B1 B2]. split; [exact B1|]. intros ty. rewrite listens_snoc. apply B2.
  - rewrite set_closed_length. assert (L := b_target _ BD _ _ _ _ H eq_refl). unfold set_closed.
    destruct (nth_error (objs (final h)) o) as [x|] eqn:N; [|apply nth_error_None in N; lia]. cbn.
    split; intros o0; [intros x0 N0|intros L0]; rewrite !open_snoc.
    + rewrite (nth_set _ _ _ _ _ N) in N0. destruct (Nat.eqb_spec o o0) as [->|D].
      * injection N0 as <-. cbn. split; [reflexivity|]. intros ty. rewrite !listens_snoc. apply (A _ _ N).
      * destruct (A _ _ N0) as [A1 A2]. split; [exact A1|]. intros ty. rewrite !listens_snoc. apply A2.
    + destruct (Nat.eqb_spec o o0) as [->|D]; [lia|]. destruct (B _ L0) as [B1 B2]. split; [exact B1|]. intros ty. rewrite !listens_snoc. apply B2.
  - rewrite set_handlers_length. assert (L := b_target _ BD _ _ _ _ H eq_refl). unfold set_handlers.
    destruct (nth_error (objs (final h)) o) as [x|] eqn:N; [|apply nth_error_None in N; lia]. cbn [objs with_objs].
    split; intros o0; [intros x0 N0|intros L0]; rewrite !open_snoc.
    + rewrite (nth_set _ _ _ _ _ N) in N0. destruct (Nat.eqb_spec o o0) as [->|D].
      * injection N0 as <-. cbn [closed handlers]. destruct (A _ _ N) as [A1 A2]. split; [exact A1|]. intros t. rewrite !listens_snoc, mem_set_add, Nat.eqb_refl. cbn [andb].
        rewrite (Nat.eqb_sym t). destruct (Nat.eqb ty t); [reflexivity|apply A2].
      * destruct (A _ _ N0) as [A1 A2]. split; [exact A1|]. intros t. rewrite !listens_snoc. destruct (Nat.eqb_spec o o0); [contradiction|]. apply A2.
    + destruct (B _ L0) as [B1 B2]. split; [exact B1|]. intros t. rewrite !listens_snoc. destruct (Nat.eqb_spec o o0) as [->|D]; [lia|]. apply B2.
  - rewrite set_handlers_length. assert (L := b_target _ BD _ _ _ _ H eq_refl). unfold set_handlers.
    destruct (nth_error (objs (final h)) o) as [x|] eqn:N; [|apply nth_error_None in N; lia]. cbn [objs with_objs].
    split; intros o0; [intros x0 N0|intros L0]; rewrite !open_snoc.
    + rewrite (nth_set _ _ _ _ _ N) in N0. destruct (Nat.eqb_spec o o0) as [->|D].
      * injection N0 as <-. cbn [closed handlers]. destruct (A _ _ N) as [A1 A2]. split; [exact A1|]. intros t. rewrite !listens_snoc, mem_set_del, Nat.eqb_refl. cbn [andb].
        rewrite (Nat.eqb_sym t). destruct (Nat.eqb ty t); [reflexivity|apply A2].
      * destruct (A _ _ N0) as [A1 A2]. split; [exact A1|]. intros t. rewrite !listens_snoc. destruct (Nat.eqb_spec o o0); [contradiction|]. apply A2.
    + destruct (B _ L0) as [B1 B2]. split; [exact B1|]. intros t. rewrite !listens_snoc. destruct (Nat.eqb_spec o o0) as [->|D]; [lia|]. apply B2.
Qed.

Lemma takes_wants h o m : o < length (objs (final h)) -> takes (final h) o m = wants (tr (final h)) o m.
Proof.
  intros L. unfold takes, wants. destruct (nth_error (objs (final h)) o) as [x|] eqn:N; [|apply nth_error_None in N; lia].
  destruct (proj1 (agree_final h) _ _ N) as [A1 A2]. rewrite A1, A2, negb_involutive. reflexivity.
Qed.

Lemma closed_open h o : o < length (objs (final h)) -> closedb (final h) o = negb (is_open (tr (final h)) o).
Proof.
  intros L. unfold closedb. destruct (nth_error (objs (final h)) o) as [x|] eqn:N; [|apply nth_error_None in N; lia].
  apply (proj1 (agree_final h) _ _ N).
Qed.
