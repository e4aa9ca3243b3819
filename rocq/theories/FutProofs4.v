(** Waitable connections: the invariant of all histories; what happens before what. *)
From Verif Require Import ListUtil FutModel FutSpec FutProofs FutProofs2 FutProofs3.

Lemma known_same s s' w : wts s' = wts s -> known s w = true -> known s' w = true.
Proof. unfold known. intros ->. auto. Qed.

(** The waits: at most one at a time, and it has a valid future when it blocks. *)
Definition waitsI (s : st) : Prop := one_wait s /\ fut_ok s.

Lemma waited_false s w t a : waited s w = false -> nth_error (ags s) t = Some a -> waits_on (a_call a) = Some w -> a_pc a = PDone.
Proof.
  intros Hw Ha Hc. destruct (a_pc a) eqn:P; try reflexivity; exfalso;
    (assert (E : waited s w = true); [|congruence]); unfold waited; apply existsb_exists; exists a;
    (split; [eapply nth_error_In; eauto|]); unfold is_done; rewrite Hc, P; cbn; rewrite Nat.eqb_refl; reflexivity.
Qed.

Lemma waits_upd s s' t a p : waitsI s -> nth_error (ags s) t = Some a -> a_pc a <> PDone ->
  ags s' = set_nth t (Ag (a_call a) (a_in a) p) (ags s) ->
  (forall w x x', nth_error (wts s) w = Some x -> nth_error (wts s') w = Some x' ->
     w_fut x' = w_fut x \/ (waits_on (a_call a) = Some w /\ p <> PBlock)) ->
  (forall w x', nth_error (wts s') w = Some x' -> w_fut x' = false -> exists x, nth_error (wts s) w = Some x) ->
  (p = PBlock -> forall w x, waits_on (a_call a) = Some w -> nth_error (wts s) w = Some x -> w_fut x = true) ->
  waitsI s'.
Proof.
  intros [O F] Ha Hnd E Hw Hnew Hb. assert (Hlt := nth_lt _ _ _ Ha).
  assert (Hset : forall t' a', nth_error (ags s') t' = Some a' -> (t' = t /\ a' = Ag (a_call a) (a_in a) p) \/ t' <> t /\ nth_error (ags s) t' = Some a').
  { intros t' a' H. rewrite E in H. destruct (Nat.eq_dec t' t) as [->|Hne].
    - rewrite nth_set_same in H by exact Hlt. left. split; congruence.
    - rewrite nth_set_other in H by congruence. auto. }
  split.
  - intros t1 t2 a1 a2 w H1 H2 W1 W2 N1 N2. apply Hset in H1 as [[-> ->]|[D1 H1]]; apply Hset in H2 as [[-> ->]|[D2 H2]]; auto.
    + exact (O t t2 a a2 w Ha H2 W1 W2 Hnd N2).
    + exact (O t1 t a1 a w H1 Ha W1 W2 N1 Hnd).
    + exact (O _ _ _ _ _ H1 H2 W1 W2 N1 N2).
  - intros t1 a1 w x' H1 P1 W1 Hx'. destruct (w_fut x') eqn:Fx; [reflexivity|]. destruct (Hnew _ _ Hx' Fx) as [x Hx].
    destruct (Hw _ _ _ Hx Hx') as [Hf|[Hc Hp]].
    + rewrite <- Fx, Hf. apply Hset in H1 as [[-> ->]|[D1 H1]]; [cbn in *; eauto|eauto].
    + exfalso. apply Hset in H1 as [[-> ->]|[D1 H1]]; [cbn in P1; auto|]. apply D1. eapply (O t1 t a1 a w); eauto. congruence.
Qed.

Lemma waits_step s l s' ev : waitsI s -> pstep s l s' ev -> waitsI s'.
Proof.
  intros W Hp.
  assert (Hsame : forall w x x', nth_error (wts s) w = Some x -> nth_error (wts s) w = Some x' -> w_fut x' = w_fut x) by (intros; congruence).
  assert (Hset : forall w1 y y', nth_error (wts s) w1 = Some y -> w_fut y' = w_fut y ->
            forall w x x', nth_error (wts s) w = Some x -> nth_error (set_nth w1 y' (wts s)) w = Some x' -> w_fut x' = w_fut x).
  { intros w1 y y' Hy Hf w x x' Hx Hx'. destruct (Nat.eq_dec w w1) as [->|Hne].
    - rewrite nth_set_same in Hx' by (eapply nth_lt; eauto). congruence.
    - rewrite nth_set_other in Hx' by congruence. congruence. }
  assert (Hlen : forall w1 y' w x', nth_error (set_nth w1 y' (wts s)) w = Some x' -> exists x, nth_error (wts s) w = Some x).
  { intros w1 y' w x' Hx'. apply nth_lt in Hx'. rewrite length_set_nth in Hx'. apply nth_error_Some in Hx'.
    destruct (nth_error (wts s) w); [eauto|congruence]. }
  destruct Hp.
  - exact W.
  - (* XCall *)
    destruct W as [O F].
    assert (Hsn : forall t a, nth_error (ags s ++ [Ag c i PStart]) t = Some a -> nth_error (ags s) t = Some a \/ t = length (ags s) /\ a = Ag c i PStart).
    { intros t a Hx. rewrite nth_snoc in Hx. destruct (Nat.eqb_spec t (length (ags s))); [inversion Hx; auto|auto]. }
    assert (Hfree : forall w, waits_on c = Some w -> waited s w = false).
    { intros w Hw. unfold may_call in H. apply andb_true_iff in H as [_ H]. destruct c; try discriminate; inversion Hw; subst;
        apply andb_true_iff in H as [_ H]; apply negb_true_iff; exact H. }
    split.
    + intros t1 t2 a1 a2 w H1 H2 W1 W2 N1 N2. apply Hsn in H1 as [H1|[-> ->]]; apply Hsn in H2 as [H2|[-> ->]]; auto.
      * exact (O _ _ _ _ _ H1 H2 W1 W2 N1 N2).
      * exfalso. apply N1. eapply waited_false; eauto.
      * exfalso. apply N2. eapply waited_false; eauto.
    + intros t1 a1 w x H1 P1 W1 Hx. apply Hsn in H1 as [H1|[-> ->]]; [|discriminate]. exact (F t1 a1 w x H1 P1 W1 Hx).
  - eapply waits_upd; [exact W|exact H|discriminate|reflexivity| | |discriminate].
    + intros w' x x' Hx Hx'. left. cbn [wts upd] in Hx'. rewrite nth_error_app1 in Hx' by (eapply nth_lt; eauto). congruence.
    + intros w' x' Hx' Hf. cbn [wts upd] in Hx'. rewrite nth_snoc in Hx'. destruct (Nat.eqb_spec w' (length (wts s))); [|eauto].
      inversion Hx'; subst. discriminate.
  - eapply waits_upd; [exact W|exact H|discriminate|reflexivity| | |discriminate]; cbn [wts upd set_wt]; [intros w0 x0 x' Hy Hy'; left; refine (Hset w x _ H0 _ w0 x0 x' Hy Hy'); reflexivity|intros w0 x0 Hy _; exact (Hlen _ _ _ _ Hy)].
  - eapply waits_upd; [exact W|exact H|discriminate|reflexivity| | |discriminate]; cbn [wts upd]; [intros; left; eapply Hsame; eauto|eauto].
  - eapply waits_upd; [exact W|exact H|discriminate|reflexivity| | |discriminate]; cbn [wts upd set_lock]; [intros; left; eapply Hsame; eauto|eauto].
  - (* XFire *)
    destruct W as [O F]. split; [exact O|]. intros t1 a1 w1 x1 H2 P1 W1 Hx1. cbn [wts set_wt] in Hx1. cbn [ags set_wt] in H2.
    destruct (Hlen _ _ _ _ Hx1) as [x0 Hx0]. assert (Ef : w_fut x1 = w_fut x0) by (refine (Hset w x _ H0 _ w1 x0 x1 Hx0 Hx1); reflexivity). rewrite Ef. eapply F; eauto.
  - eapply waits_upd; [exact W|exact H|discriminate|reflexivity| | |discriminate]; cbn [wts upd set_lock]; [intros; left; eapply Hsame; eauto|eauto].
  - (* XClear *)
    eapply waits_upd; [exact W|exact H|discriminate|reflexivity| | |discriminate]; cbn [wts upd break_all].
    + intros w x x' Hx Hx'. left. rewrite nth_error_map, Hx in Hx'. inversion Hx'; subst. unfold broke. destruct (w_in x); reflexivity.
    + intros w x' Hx' _. rewrite nth_error_map in Hx'. destruct (nth_error (wts s) w); [eauto|discriminate].
  - eapply waits_upd; [exact W|exact H|discriminate|reflexivity| | |discriminate]; cbn [wts upd set_wt]; [intros w0 x0 x' Hy Hy'; left; refine (Hset w x _ H0 _ w0 x0 x' Hy Hy'); reflexivity|intros w0 x0 Hy _; exact (Hlen _ _ _ _ Hy)].
  - eapply waits_upd; [exact W|exact H|discriminate|reflexivity| | |discriminate]; cbn [wts upd]; [intros; left; eapply Hsame; eauto|eauto].
  - eapply waits_upd; [exact W|exact H|discriminate|reflexivity| | |discriminate]; cbn [wts upd]; [intros; left; eapply Hsame; eauto|eauto].
  - eapply waits_upd; [exact W|exact H|discriminate|reflexivity| | |]; cbn [wts upd]; [intros; left; eapply Hsame; eauto|eauto|].
    cbn. intros _ w' x' Hw' Hx'. congruence.
  - eapply waits_upd; [exact W|exact H|discriminate|reflexivity| | |discriminate]; cbn [wts upd set_wt]; [|intros w0 x0 Hy _; exact (Hlen _ _ _ _ Hy)].
    intros w' y y' Hy Hy'. destruct (Nat.eq_dec w' w) as [->|Hne]; [right; split; [exact H0|discriminate]|left].
    rewrite nth_set_other in Hy' by congruence. congruence.
  - eapply waits_upd; [exact W|exact H|discriminate|reflexivity| | |discriminate]; cbn [wts upd set_wt]; [|intros w0 x0 Hy _; exact (Hlen _ _ _ _ Hy)].
    intros w' y y' Hy Hy'. destruct (Nat.eq_dec w' w) as [->|Hne]; [right; split; [exact H0|discriminate]|left].
    rewrite nth_set_other in Hy' by congruence. congruence.
  - eapply waits_upd; [exact W|exact H|discriminate|reflexivity| | |discriminate]; cbn [wts upd]; [intros; left; eapply Hsame; eauto|eauto].
  - eapply waits_upd; [exact W|exact H|discriminate|reflexivity| | |discriminate]; cbn [wts upd]; [intros; left; eapply Hsame; eauto|eauto].
Qed.

Record inv (s : st) (tr : list event) : Prop := { i_wts : wtsI s tr; i_ags : agsI s tr; i_waits : waitsI s }.
Lemma inv_final h : inv (final h) (trace h).
Proof.
  apply (history_ind (fun _ => inv)).
  - repeat constructor; cbn; try contradiction; try (intros; destruct w; discriminate); try (intros; destruct t; discriminate);
      try (intros (a & Ha & _); destruct t; discriminate); try (intros [r []]).
    all: try (intros t a *; destruct t; discriminate).
  - intros h0 l s' ev [I1 I2 I3] Hp. constructor.
    + eapply wts_step; eauto; [apply I3|]. intros t a w Ha Hw. eapply g_known; eauto.
    + eapply ags_step; eauto.
    + eapply waits_step; eauto.
Qed.
