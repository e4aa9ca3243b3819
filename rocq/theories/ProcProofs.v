(** The steps of a processor system, and what they do to queues, stacks and events. *)
From Verif Require Import ListUtil Amap ProcModel ProcSpec.
From Verif Require QueueModel QueueSpec QueueProofs QueueProofs2 QueueProofs3 SigModel.

Local Arguments QueueSpec.puts {V} _ : simpl never.
Local Arguments QueueSpec.outs {V} _ : simpl never.
Notation fifo := QueueModel.fifo.
Notation qtask q i := (nth_error (QueueModel.tasks (q_state q)) i).

(** ** The queue *)
Lemma q_snoc q l : q_state (q ++ [l]) = QueueModel.next fifo (q_state q) l.
Proof. apply QueueProofs.final_snoc. Qed.

Definition qputs (q : QueueModel.history nat) := QueueSpec.puts (QueueModel.trace fifo q).
Definition qouts (q : QueueModel.history nat) := QueueSpec.outs (QueueModel.trace fifo q).
Definition qitems (q : QueueModel.history nat) := QueueModel.items (q_state q).

Lemma q_order q : qputs q = qouts q ++ qitems q.
Proof. apply QueueProofs.in_order. Qed.

(** Nothing happens to what was put in or left. *)
Definition same_q (q q' : QueueModel.history nat) : Prop := qputs q' = qputs q /\ qouts q' = qouts q.

Lemma q_call_same q o : same_q q (q ++ [QueueModel.LCall o]) /\ q_closed (q ++ [QueueModel.LCall o]) = q_closed q.
Proof. unfold same_q, qputs, qouts, q_closed, QueueModel.trace. change (QueueModel.final fifo) with q_state. rewrite q_snoc. cbn. auto. Qed.
Lemma q_call_task q o i : qtask (q ++ [QueueModel.LCall o]) i = if Nat.eqb i (q_next q) then Some (o, QueueModel.PStart) else qtask q i.
Proof.
  rewrite q_snoc. cbn. unfold q_next. destruct (Nat.eqb_spec i (length (QueueModel.tasks (q_state q)))).
  - subst. rewrite nth_error_app2 by lia. rewrite Nat.sub_diag. reflexivity.
  - destruct (Nat.lt_ge_cases i (length (QueueModel.tasks (q_state q)))).
    + apply nth_error_app1. assumption.
    + rewrite nth_error_app2 by lia. destruct (i - _) eqn:E; [lia|]. cbn.
      rewrite (proj2 (nth_error_None (QueueModel.tasks (q_state q)) i)) by lia. destruct n0; reflexivity.
Qed.

Definition qid (l : QueueModel.label nat) : option nat :=
  match l with QueueModel.LCall _ => None | QueueModel.LRun i _ | QueueModel.LTimeout i | QueueModel.LSpurious i => Some i end.

(** A step of one queue call leaves the others alone, except that it may wake a sleeper. *)
Lemma q_other q l i j o p : qid l = Some j -> i <> j -> qtask q i = Some (o, p) ->
  exists p', qtask (q ++ [l]) i = Some (o, p') /\ (p' = p \/ (p = QueueModel.PAsleep /\ p' = QueueModel.PEnter)).
Proof.
  intros L N E. rewrite q_snoc. set (s := q_state q) in *.
  destruct (QueueProofs.next_cases nat fifo s l) as [X|T]; [rewrite X; eauto|].
  assert (SM : forall f (x : QueueModel.task nat), f <> i -> nth_error (set_nth f x (QueueModel.tasks s)) i = Some (o, p)).
  { intros f x F. rewrite nth_set_other by exact F. exact E. }
  destruct l as [o0|t c|t|t]; cbn in L; [discriminate|injection L as ->..]; cbn in T |- *.
  2: { destruct (nth_error (QueueModel.tasks s) j) as [[[| |[]| | | | | | |] []]|]; cbn; eexists; (split; [first [exact E|apply SM; auto]|auto]). }
  2: { destruct (nth_error (QueueModel.tasks s) j) as [[o0 []]|]; cbn; eexists; (split; [first [exact E|apply SM; auto]|auto]). }
  destruct (nth_error (QueueModel.tasks s) j) as [[o0 p0]|] eqn:J; [|eexists; split; [exact E|auto]].
  assert (G : forall l', QueueProofs.woke nat (QueueModel.tasks s) l' -> forall x, exists p', nth_error (set_nth j x l') i = Some (o, p') /\
    (p' = p \/ (p = QueueModel.PAsleep /\ p' = QueueModel.PEnter))).
  { intros l' W x. rewrite nth_set_other by auto. destruct (QueueProofs.woke_nth' _ _ _ W _ _ _ E) as [H|[H1 H2]]; eauto. }
  unfold QueueModel.step_at. destruct p0; cbn;
    repeat match goal with |- context [if ?b then _ else _] => destruct b; cbn | |- context [match o0 with _ => _ end] => destruct o0; cbn
      | |- context [match ?x with Some _ => _ | None => _ end] => destruct x eqn:?; cbn
      | |- context [match QueueModel.items s with _ => _ end] => destruct (QueueModel.items s); cbn end;
    try (eexists; split; [first [apply SM; auto|exact E]|auto]; fail).
  all: try (apply G; apply QueueProofs.woke_all).
  all: apply G; eapply QueueProofs.woke_one; eassumption.
Qed.

Lemma q_result_none q i o p : qtask q i = Some (o, p) -> q_result q i = None <-> (forall r, p <> QueueModel.PReturned r).
Proof. intros E. unfold q_result. rewrite E. destruct p; split; intros H; try discriminate; try reflexivity; try congruence. Qed.

Ltac qs := unfold q_result, same_q, qputs, qouts, qitems, q_closed, QueueModel.trace; change (QueueModel.final fifo) with q_state; rewrite ?q_snoc.

Ltac ev := rewrite ?QueueProofs.puts_app, ?QueueProofs.outs_app, ?QueueProofs.puts_cons, ?QueueProofs.outs_cons, ?QueueProofs.puts_nil, ?QueueProofs.outs_nil; cbn; rewrite ?app_nil_r.
Ltac qset := rewrite ?nth_set_same by (match goal with E : nth_error _ _ = Some _ |- _ => eapply nth_lt; eassumption end).

(** What a step of each kind of call does. *)
Lemma q_push_step q i e c : qtask q i = Some (QueueModel.OPush e, QueueModel.PPush) -> let q' := q ++ [QueueModel.LRun i c] in
  q_closed q' = q_closed q /\
  (q_state q' = q_state q /\ q_result q' i = None \/
   qputs q' = qputs q ++ [e] /\ qouts q' = qouts q /\ q_result q' i <> None).
Proof.
  intros E q'. subst q'. qs. cbn. rewrite E. cbn. destruct (QueueModel.free (q_state q)) eqn:F; [|rewrite E; auto].
  destruct (QueueModel.wake_one c (QueueModel.tasks (q_state q))) eqn:W; [|rewrite E; auto]. cbn. split; [reflexivity|]. right.
  assert (L : i < length l) by (rewrite (QueueProofs.woke_length nat _ _ (QueueProofs.woke_one _ _ _ _ W)); eapply nth_lt; exact E).
  ev. rewrite nth_set_same by exact L. repeat split; auto; discriminate.
Qed.

Lemma q_wait_step q l i b p : qid l = Some i -> qtask q i = Some (QueueModel.OWait b, p) -> (forall r, p <> QueueModel.PReturned r) -> let q' := q ++ [l] in
  q_closed q' = q_closed q /\ qputs q' = qputs q /\
  (exists p', qtask q' i = Some (QueueModel.OWait b, p') /\ (qouts q' = qouts q /\ (p' = QueueModel.PReturned QueueModel.RNothing \/ forall r, p' <> QueueModel.PReturned r) \/
     exists v, qouts q' = qouts q ++ [v] /\ p = QueueModel.PPop /\ p' = QueueModel.PReturned (QueueModel.RTook v))).
Proof.
  intros L E N q'. subst q'. pose proof (QueueProofs2.i_shape _ _ (QueueProofs2.inv_final nat fifo q) _ _ _ E) as SH.
  qs. destruct l as [o|t c|t|t]; cbn in L; [discriminate|injection L as ->..]; cbn; rewrite E; cbn.
  2: { destruct b, p; cbn; split; auto; split; auto; qset; eexists; (split; [first [reflexivity|exact E]|left; split; [reflexivity|right; intros rr; try discriminate; apply N]]). }
  2: { destruct p; cbn; split; auto; split; auto; qset; eexists; (split; [first [reflexivity|exact E]|left; split; [reflexivity|right; intros rr; try discriminate; apply N]]). }
  unfold QueueModel.step_at. destruct p; cbn in SH; try contradiction; try discriminate SH; try (destruct SH; discriminate);
    repeat match goal with |- context [if ?b then _ else _] => destruct b eqn:?; cbn | |- context [match ?x with Some _ => _ | None => _ end] => destruct x eqn:?; cbn end.
  all: ev.
  all: try (exfalso; eapply N; reflexivity).
  all: split; [try reflexivity; try congruence|split; [try reflexivity|qset]].
  all: try (eexists; split; [first [reflexivity|exact E]|left; split; [reflexivity|first [left; reflexivity|right; intros rr; discriminate]]]; fail).
  all: try (eexists; split; [reflexivity|right; eexists; split; [reflexivity|split; reflexivity]]; fail).
  all: try (destruct (QueueModel.items (q_state q)); cbn; ev; auto;
     eexists; split; [exact E|left; split; [reflexivity|right; intros rr; discriminate]]; fail).
Qed.

Lemma q_close_step q i c p : qtask q i = Some (QueueModel.OClose, p) -> (forall r, p <> QueueModel.PReturned r) -> let q' := q ++ [QueueModel.LRun i c] in
  same_q q q' /\ (p = QueueModel.PStart /\ q_closed q' = true \/ p = QueueModel.PNotify /\ q_closed q' = q_closed q) /\
  (p = QueueModel.PStart /\ qtask q' i = Some (QueueModel.OClose, QueueModel.PNotify) \/ q_result q' i <> None).
Proof.
  intros E N q'. subst q'. pose proof (QueueProofs2.i_shape _ _ (QueueProofs2.inv_final nat fifo q) _ _ _ E) as SH.
  destruct p; cbn in SH; try contradiction; try discriminate SH; try (destruct SH; discriminate); try (exfalso; eapply N; reflexivity).
  - qs. cbn. rewrite E. cbn. destruct (QueueModel.closed (q_state q)) eqn:C; cbn; ev; qset; repeat split; auto. right. discriminate.
  - qs. cbn. rewrite E. cbn. ev. rewrite nth_set_same by (unfold QueueModel.wake_all; rewrite map_length; eapply nth_lt; exact E). split; [auto|]. split; [auto|right; discriminate].
Qed.

Lemma q_clear_step q i c : qtask q i = Some (QueueModel.OClear false, QueueModel.PStart) -> let q' := q ++ [QueueModel.LRun i c] in
  q_closed q' = q_closed q /\
  (q_state q' = q_state q /\ q_result q' i = None \/
   qputs q' = qputs q /\ qouts q' = qouts q ++ qitems q /\ q_result q' i <> None /\ QueueModel.mutex (q_state q) = None /\ QueueModel.mutex (q_state q') = None).
Proof.
  intros E q'. subst q'. qs. cbn. rewrite E. cbn. destruct (QueueModel.free (q_state q)) eqn:F; [|rewrite E; auto].
  cbn. ev. qset. split; [reflexivity|]. right. apply QueueProofs.free_none in F. repeat split; auto. discriminate.
Qed.

Lemma q_size_step q i c : qtask q i = Some (QueueModel.OSize, QueueModel.PStart) -> let q' := q ++ [QueueModel.LRun i c] in
  q_closed q' = q_closed q /\ same_q q q' /\
  (q_state q' = q_state q /\ q_result q' i = None \/ q_result q' i = Some (QueueModel.RNum (length (qitems q)))).
Proof.
  intros E q'. subst q'. qs. cbn. rewrite E. cbn. destruct (QueueModel.free (q_state q)) eqn:F; [|rewrite E; auto].
  cbn. ev. qset. auto.
Qed.

Lemma q_reopen q : let q' := (q ++ [QueueModel.LCall QueueModel.OReOpen]) ++ [QueueModel.LRun (q_next q) 0] in same_q q q' /\ q_closed q' = false.
Proof.
  intros q'. subst q'. pose proof (q_call_task q QueueModel.OReOpen (q_next q)) as E. rewrite Nat.eqb_refl in E.
  destruct (q_call_same q QueueModel.OReOpen) as [[S1 S2] _].
  unfold same_q. rewrite <- S1, <- S2. set (q1 := q ++ _) in *. qs. cbn. rewrite E. cbn. ev. auto.
Qed.

Lemma q_enter_push q e c : let q' := (q ++ [QueueModel.LCall (QueueModel.OPush e)]) ++ [QueueModel.LRun (q_next q) c] in
  same_q q q' /\ q_closed q' = q_closed q /\
  (q_closed q = true /\ q_result q' (q_next q) <> None \/ q_closed q = false /\ qtask q' (q_next q) = Some (QueueModel.OPush e, QueueModel.PPush)).
Proof.
  intros q'. subst q'. pose proof (q_call_task q (QueueModel.OPush e) (q_next q)) as E. rewrite Nat.eqb_refl in E.
  destruct (q_call_same q (QueueModel.OPush e)) as [[S1 S2] S3].
  unfold same_q. rewrite <- S1, <- S2, <- S3. set (q1 := q ++ _) in *. qs. cbn. rewrite E. cbn.
  destruct (QueueModel.closed (q_state q1)) eqn:C; cbn; ev; qset; repeat split; auto. left. split; [reflexivity|discriminate].
Qed.
Lemma q_next_run q l : qid l <> None -> q_next (q ++ [l]) = q_next q.
Proof.
  intros N. unfold q_next. rewrite q_snoc. destruct (QueueProofs3.next_ops nat fifo (q_state q) l) as (add & A & B).
  apply (f_equal (@length _)) in A. rewrite app_length, !map_length in A. etransitivity; [exact A|].
  destruct l; cbn [qid] in N; try contradiction; rewrite B; apply Nat.add_0_r.
Qed.
Lemma q_next_call q o : q_next (q ++ [QueueModel.LCall o]) = S (q_next q).
Proof. unfold q_next. rewrite q_snoc. cbn. rewrite app_length. cbn. lia. Qed.
