(** Stub: a request is given to a user function at most once. *)
From Verif Require Import CsTypes ListUtil ProvModel ProvSpec ProvProofs ProvProofs2 ProvProofs3 StubModel StubSpec StubProofs StubProofs2 StubProofs3.

Lemma quiet_run e s0 y r : cnt (runs_for r) (snd (call e s0 y)) = 0.
Proof.
  apply cnt_zero. intros x J. destruct x; try reflexivity; exfalso.
  - exact (proj1 (quiet_call e s0 y _ _ _) J).
  - exact (proj2 (quiet_call e s0 y 0 0 _) J).
Qed.
Lemma quiet_drun e s0 hd r : cnt (runs_for r) (snd (destroy_handle e s0 hd)) = 0.
Proof. unfold destroy_handle. destruct hd as [r0|]; [|reflexivity]. destruct (valid s0 r0); [apply quiet_run|reflexivity]. Qed.
Lemma call_tasks e s0 y r : cnt (waits r) (tasks (fst (call e s0 y))) <= cnt (waits r) (tasks s0) + cnt (handed r) (snd (call e s0 y)).
Proof. pose proof (ca_cnt _ _ _ _ _ (call_called e s0 y) r). lia. Qed.
Lemma destroy_tasks e s0 hd r : cnt (waits r) (tasks (fst (destroy_handle e s0 hd))) <= cnt (waits r) (tasks s0) + cnt (handed r) (snd (destroy_handle e s0 hd)).
Proof. unfold destroy_handle. destruct hd as [r0|]; [|cbn; lia]. destruct (valid s0 r0); [apply call_tasks|cbn; lia]. Qed.

Lemma sstep_runs e s x r : cnt (runs_for r) (snd (sstep e s x)) + cnt (waits r) (tasks (fst (sstep e s x))) <= cnt (waits r) (tasks s) + cnt (handed r) (snd (sstep e s x)).
Proof.
  assert (CALL : forall s0 y, tasks s0 = tasks s ->
     cnt (runs_for r) (snd (call e s0 y)) + cnt (waits r) (tasks (fst (call e s0 y))) <= cnt (waits r) (tasks s) + cnt (handed r) (snd (call e s0 y))).
  { intros s0 y T. rewrite quiet_run, <- T. apply call_tasks. }
  destruct x as [o f|b|x|i|i|k|k p|k p|k c|k cb|k|k j|k]; cbn [sstep];
    try (unfold through; destruct (nth_error (handles s) k) as [[[r0|]|]|]; first [apply CALL; reflexivity|cbn; unfold cnt; cbn; lia]).
  - destruct (exec s); [apply CALL; reflexivity|unfold cnt; cbn; lia].
  - destruct b; unfold cnt; cbn; lia.
  - destruct (forwarded x); [apply CALL; reflexivity|unfold cnt; cbn; lia].
  - destruct (nth_error (tasks s) i) as [[tr tf]|] eqn:T; [|unfold cnt; cbn; lia]. pose proof (cnt_remove_nth (waits r) _ _ _ T) as R.
    unfold waits at 2 in R. cbn [t_req] in R. destruct tf as [f|]; cbn [t_fn t_req].
    + cbn [fst snd tasks set_handles set_tasks]. rewrite !cnt_cons, !cnt_nil. cbn [runs_for handed b2n]. unfold b2n in *. destruct (Nat.eqb r tr); lia.
    + cbn [handles set_tasks].
      pose proof (destroy_tasks e (set_handles (set_tasks s (remove_nth i (tasks s))) (handles s ++ [None])) (Some tr) r) as D1.
      pose proof (quiet_drun e (set_handles (set_tasks s (remove_nth i (tasks s))) (handles s ++ [None])) (Some tr) r) as D2.
      destruct (destroy_handle e _ (Some tr)) as [s2 l]. cbn [fst snd tasks set_handles set_tasks] in *. rewrite !cnt_cons, !cnt_app, !cnt_cons, !cnt_nil. cbn [runs_for handed b2n].
      unfold b2n in *. destruct (Nat.eqb r tr); lia.
  - destruct (nth_error (tasks s) i) as [t|] eqn:T; [|unfold cnt; cbn; lia]. pose proof (cnt_remove_nth (waits r) _ _ _ T) as R.
    cbn [fst snd tasks set_tasks]. rewrite !cnt_cons, !cnt_nil. cbn. lia.
  - destruct (nth_error (handles s) k) as [[[old|]|]|]; destruct (nth_error (handles s) j) as [[h|]|]; try destruct (Nat.eqb k j); unfold cnt; cbn; lia.
  - destruct (nth_error (handles s) k) as [[h|]|] eqn:K; try (unfold cnt; cbn; lia).
    pose proof (destroy_tasks e (set_handles s (set_nth k None (handles s))) h r) as D1.
    pose proof (quiet_drun e (set_handles s (set_nth k None (handles s))) h r) as D2.
    destruct (destroy_handle e _ h) as [s2 l]. cbn [fst snd tasks set_handles] in *. rewrite !cnt_app. destruct h as [r0|]; rewrite ?cnt_cons, !cnt_nil; cbn [runs_for handed b2n]; lia.
Qed.

Lemma runs_lemma h r : cnt (runs_for r) (strace h) + cnt (waits r) (tasks (sfinal h)) <= cnt (handed r) (strace h).
Proof.
  induction h as [|[e x] h IH] using rev_ind; [reflexivity|]. rewrite sfinal_snoc, strace_snoc, !cnt_app. unfold snext.
  pose proof (sstep_runs e (sfinal h) x r). lia.
Qed.
Lemma runs_once h r : cnt (runs_for r) (strace h) <= 1.
Proof. pose proof (runs_lemma h r) as R. rewrite handed_once in R. unfold b2n in R. destruct (Nat.ltb _ _); lia. Qed.
