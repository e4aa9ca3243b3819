(** Properties of SyncTimer (C123, C124). *)
From Verif Require Import ListUtil SyncModel SyncSpec SyncProofs SyncProofs2 SyncProofs3.

(** * C123 *)

(** The k-th time-out of a start comes at least k intervals after it took effect, with the timer running and before that start
    returns. *)
Theorem C123_never_early c N h l1 n k ok l2 : trace c N h = l1 ++ EFire n k ok :: l2 ->
  (exists h1 l h2, h = h1 ++ l :: h2 /\ trace c N h1 = l1 /\ k = clock h1) /\
  armed l1 = true /\ cnt (ends n) l1 = 0 /\
  exists t ms c0, In (EStart n t ms) l1 /\ In (ESet n c0) l1 /\ c0 + (1 + cnt (fires n) l1) * ms <= k.
Proof.
  intros E. destruct (all_good _ _ _ _ _ _ E) as (h1 & l & h2 & A & B & _ & C & D). split; [eauto 6|exact D].
Qed.
Print Assumptions C123_never_early.

(** After stop() nothing fires until a start takes effect. *)
Theorem C123_stopped_is_silent c N h l1 t l2 n k ok l3 :
  trace c N h = l1 ++ EStop t :: l2 ++ EFire n k ok :: l3 -> exists m k', In (ESet m k') l2.
Proof.
  intros E. assert (E' : trace c N h = (l1 ++ EStop t :: l2) ++ EFire n k ok :: l3) by (rewrite E, <- app_assoc; reflexivity).
  destruct (C123_never_early _ _ _ _ _ _ _ _ E') as (_ & A & _). clear E E'.
  revert A. induction l2 as [|e l2 IH] using rev_ind.
  - rewrite armed_snoc. discriminate.
  - replace (l1 ++ EStop t :: l2 ++ [e]) with ((l1 ++ EStop t :: l2) ++ [e]) by (rewrite <- app_assoc; reflexivity).
    rewrite armed_snoc. intros A. destruct e; try discriminate; try (destruct (IH A) as (m & k' & H); exists m, k'; apply in_or_app; auto; fail).
    exists n0, c0. apply in_or_app. cbn. auto.
Qed.
Print Assumptions C123_stopped_is_silent.

(** A start takes effect at most once, after it was called, at the time it says. *)
Theorem C123_takes_effect c N h l1 n k l2 : trace c N h = l1 ++ ESet n k :: l2 ->
  (exists h1 l h2, h = h1 ++ l :: h2 /\ trace c N h1 = l1 /\ k = clock h1) /\
  cnt (sets n) l1 = 0 /\ cnt (ends n) l1 = 0 /\ exists t ms, In (EStart n t ms) l1.
Proof.
  intros E. destruct (all_good _ _ _ _ _ _ E) as (h1 & l & h2 & A & B & _ & C & D). split; [eauto 6|exact D].
Qed.
Print Assumptions C123_takes_effect.

(** start() returns at most once, and only after its callback was called or the timer was stopped (or another start returned). *)
Theorem C123_returns c N h l1 n l2 : trace c N h = l1 ++ EEnd n :: l2 ->
  cnt (ends n) l1 = 0 /\ cnt (starts n) l1 = 1 /\ (armed l1 = false \/ 1 <= cnt (fires n) l1).
Proof. intros E. destruct (all_good _ _ _ _ _ _ E) as (h1 & l & h2 & _ & _ & _ & G). exact G. Qed.
Print Assumptions C123_returns.

Theorem C123_running c N h l1 t b l2 : trace c N h = l1 ++ ERunning t b :: l2 -> b = armed l1.
Proof. intros E. destruct (all_good _ _ _ _ _ _ E) as (h1 & l & h2 & _ & _ & _ & G). exact G. Qed.
Print Assumptions C123_running.

(** A start that is due fires by its own steps. *)
Theorem C123_due_fires c N h n t ms c0 :
  waits_since (trace c N h) n t ms c0 -> armed (trace c N h) = true -> c0 + ms <= clock h -> no_callback (final c N h) ->
  exists u hs, length hs <= 3 /\ Forall (by_thread u) hs /\
    trace c N (h ++ hs) = trace c N h ++ [EFire n (clock h) true].
Proof. exact (due_fires c N h n t ms c0). Qed.
Print Assumptions C123_due_fires.

(** stop() ends the start in progress, if there is only one, without waiting for its deadline. *)
Theorem C123_stop_ends c N h t w n :
  trace c N (h ++ [LStop t w]) = trace c N h ++ [EStop t] ->
  armed (trace c N h) = true -> no_callback (final c N h) ->
  active (trace c N h) n -> (forall m, active (trace c N h) m -> m = n) ->
  exists u hs, length hs <= 2 /\ Forall (only_steps u) hs /\
    trace c N ((h ++ [LStop t w]) ++ hs) = trace c N h ++ [EStop t; EEnd n].
Proof. exact (stop_ends c N h t w n). Qed.
Print Assumptions C123_stop_ends.

Theorem C123_one_shot N h n : no_set_cyclic h -> cnt (fires n) (trace false N h) <= 1.
Proof. intros H. exact (w_one _ _ _ (cinv_all false N h H) eq_refl n). Qed.
Print Assumptions C123_one_shot.

(** What is called is the callback that was given. *)
Theorem C123_callback_is_there c N h n k ok : no_set_cyclic h -> In (EFire n k ok) (trace c N h) -> ok = true.
Proof. intros H. exact (w_ok _ _ _ (cinv_all c N h H) n k ok). Qed.
Print Assumptions C123_callback_is_there.

(** One-shot timer on thread 0 fires at its time and start() returns; a second start is stopped by thread 1. *)
Definition ex123 : history :=
  [LStart 0 10 false; LStep 0 0; LStep 0 0; LTick 4; LSpurious 0; LStep 0 0; LTick 6; LExpire 0; LStep 0 0; LRunning 0; LReturn 0;
   LStart 0 5 true; LStep 0 0; LStep 0 0; LTick 2; LStop 1 0; LStep 0 0; LStep 0 0; LRunning 1].
Example C123_applies :
  trace false 2 ex123 = [EStart 0 0 10; ESet 0 0; EFire 0 10 true; ERunning 0 true; EEnd 0;
                         EStart 1 0 5; ESet 1 10; EStop 1; EEnd 1; ERunning 1 false] /\
  no_set_cyclic ex123 /\
  (let h := firstn 7 ex123 in waits_since (trace false 2 h) 0 0 10 0 /\ armed (trace false 2 h) = true /\
     0 + 10 <= clock h /\ no_callback (final false 2 h)) /\
  (let h := firstn 15 ex123 in trace false 2 (h ++ [LStop 1 0]) = trace false 2 h ++ [EStop 1] /\
     armed (trace false 2 h) = true /\ no_callback (final false 2 h) /\ active (trace false 2 h) 1 /\
     (forall m, active (trace false 2 h) m -> m = 1)).
Proof.
  split; [reflexivity|]. split; [intros t b H; cbn in H; repeat (destruct H as [H|H]; [discriminate|]); destruct H|].
  split.
  - split; [split; [vm_compute; auto|split; [vm_compute; auto|split; reflexivity]]|].
    split; [reflexivity|]. split; [vm_compute; lia|]. intros [|[|[|]]]; reflexivity.
  - split; [reflexivity|]. split; [reflexivity|]. split; [intros [|[|[|]]]; reflexivity|].
    split; [split; reflexivity|].
    intros m [A B]. change (trace false 2 (firstn 15 ex123)) with
      [EStart 0 0 10; ESet 0 0; EFire 0 10 true; ERunning 0 true; EEnd 0; EStart 1 0 5; ESet 1 10] in *.
    rewrite !cnt_cons, cnt_nil in A, B. cbn [sets ends b2n] in A, B.
    destruct (Nat.eqb_spec m 1); auto. destruct (Nat.eqb m 0); cbn [b2n] in *; lia.
Qed.
(** A cyclic timer fires again and again. *)
Example C123_applies_cyclic :
  trace true 1 [LStart 0 3 false; LStep 0 0; LStep 0 0; LTick 3; LExpire 0; LStep 0 0; LTick 1; LReturn 0; LTick 3; LExpire 0; LStep 0 0; LStop 0 0; LReturn 0]
  = [EStart 0 0 3; ESet 0 0; EFire 0 3 true; EFire 0 7 true; EStop 0; EEnd 0].
Proof. reflexivity. Qed.

(** * C124 *)

(** restart() at time 5 of a timer started at time 0 for 10: it fires at 10 nevertheless. *)
Theorem C124_restart_does_nothing_refuted : exists h1 h2 u w n t ms c0 k,
  waits_since (trace false 2 h1) n t ms c0 /\ armed (trace false 2 h1) = true /\
  trace false 2 (h1 ++ [LRestart u w]) = trace false 2 h1 ++ [ERestart u] /\
  In (EFire n k true) (trace false 2 (h1 ++ LRestart u w :: h2)) /\ k < clock h1 + ms.
Proof.
  exists [LStart 0 10 false; LStep 0 0; LStep 0 0; LTick 5], [LStep 0 0; LStep 0 0; LTick 5; LExpire 0; LStep 0 0], 1, 0, 0, 0, 10, 0, 10.
  split; [split; [vm_compute; auto|split; [vm_compute; auto|split; reflexivity]]|].
  split; [reflexivity|]. split; [reflexivity|]. split; [vm_compute; auto|cbn; lia].
Qed.
Print Assumptions C124_restart_does_nothing_refuted.

(** Starting a timer again on another thread: the first start was stopped and replaced by the second one, but it is the first callback
    that is called, and the second start returns without its callback having been called although nobody stopped it. *)
Theorem C124_replaced_start_fires_refuted : exists h l1 l2 l3 l4 c1 c2 k,
  trace false 2 h = l1 ++ EStop 1 :: l2 ++ ESet 1 c2 :: l3 ++ EFire 0 k true :: l4 /\
  In (ESet 0 c1) l1 /\ In (EStart 1 1 20) l1 /\
  In (EEnd 1) l4 /\ cnt (fires 1) (trace false 2 h) = 0 /\ (forall u, ~ In (EStop u) (l3 ++ l4)).
Proof.
  exists [LStart 0 10 false; LStep 0 0; LStep 0 0; LTick 5; LStart 1 20 false; LStep 1 0; LStep 1 0; LStep 1 0; LStep 0 0; LStep 0 0; LTick 5;
          LExpire 0; LStep 0 0; LReturn 0; LTick 15; LExpire 1; LStep 1 0].
  exists [EStart 0 0 10; ESet 0 0; EStart 1 1 20], [], [], [EEnd 0; EEnd 1], 0, 5, 10.
  split; [reflexivity|]. split; [cbn; auto|]. split; [cbn; auto|]. split; [cbn; auto|]. split; [reflexivity|].
  intros u H. cbn in H. repeat (destruct H as [H|H]; [discriminate|]). destruct H.
Qed.
Print Assumptions C124_replaced_start_fires_refuted.

(** A start made by the callback waits with the mutex still held: no other thread can stop it. *)
Theorem C124_nested_start_cannot_be_stopped_refuted : exists h,
  (exists t ms c0, waits_since (trace false 2 h) 1 t ms c0) /\ armed (trace false 2 h) = true /\
  nth_error (stacks (final false 2 h)) 1 = Some [] /\
  forall d w, step (final false 2 (h ++ [LTick d])) (LStop 1 w) = (final false 2 (h ++ [LTick d]), []).
Proof.
  exists [LStart 0 10 false; LStep 0 0; LStep 0 0; LTick 10; LExpire 0; LStep 0 0; LStart 0 50 false; LStep 0 0; LStep 0 0; LStep 0 0].
  split.
  - exists 0, 50, 10. split; [vm_compute; auto|split; [vm_compute; repeat first [left; reflexivity|right]|split; reflexivity]].
  - split; [reflexivity|]. split; [reflexivity|]. intros d w. rewrite final_snoc. vm_compute. reflexivity.
Qed.
Print Assumptions C124_nested_start_cannot_be_stopped_refuted.

(** A timer with an executor that is made cyclic by its callback hands an empty callback to the executor the second time. *)
Theorem C124_empty_callback_refuted : exists h n k, In (EFire n k false) (trace false 1 h).
Proof.
  exists [LStart 0 10 true; LStep 0 0; LStep 0 0; LTick 10; LExpire 0; LStep 0 0; LCyclic 0 true; LReturn 0; LTick 10; LExpire 0; LStep 0 0], 0, 20.
  vm_compute; auto.
Qed.
Print Assumptions C124_empty_callback_refuted.
