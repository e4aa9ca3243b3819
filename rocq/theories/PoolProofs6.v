(** Proofs about the thread pool, part 6: the pool never gets stuck (apart from the lost wake-up of C82). *)
From Verif Require Import ListUtil QueueModel QueueSpec QueueProofs QueueProofs2 QueueProofs3 QueueProofs4 PoolModel PoolSpec PoolProofs PoolProofs2 PoolProofs3 PoolProofs5.
From Coq Require Import Permutation.

(** ** Sums *)
Fixpoint sumf {A} (f : A -> nat) (l : list A) : nat := match l with [] => 0 | x :: r => f x + sumf f r end.
Lemma sumf_app {A} (f : A -> nat) l l' : sumf f (l ++ l') = sumf f l + sumf f l'.
Proof. induction l; cbn; lia. Qed.
Lemma sumf_set {A} (f : A -> nat) l : forall t x y, nth_error l t = Some x -> sumf f (set_nth t y l) + f x = sumf f l + f y.
Proof.
  induction l as [|z l IH]; intros [|t] x y E; cbn in *; try discriminate.
  - injection E as ->. lia.
  - specialize (IH t x y E). lia.
Qed.

(** The weight of a queue call; [z]: of a sleeping one. *)
Definition qw (z : nat) (x : task tk) : nat :=
  match x with
  | (_, PAsleep) => z
  | (_, PSleepPre) => S z
  | (OPush _, PStart) | (OClose, PStart) => 60
  | (_, PPush) | (_, PNotify) => 30
  | (_, PStart) => 6
  | (_, PEnter) | (_, PTimeout) => 5
  | (_, PChecked) => 2
  | (_, PPop) => 1
  | (_, PReturned _) => 0
  end.
Definition qm (z : nat) (k : QueueModel.state tk) : nat := sumf (qw z) (tasks k) + 20 * length (items k).

Lemma qw_sleep x y : woke1 tk x y -> qw 6 y <= qw 6 x.
Proof.
  intros [->|[E ->]]; [lia|]. destruct x as [o p]. cbn in E. subst p. cbn. destruct o; cbn; lia.
Qed.
Lemma wake_all_less l : sumf (qw 6) (wake_all l) <= sumf (qw 6) l.
Proof.
  pose proof (woke_all tk l) as W. induction W as [|x y l l' W _ IH]; cbn; [lia|]. pose proof (qw_sleep _ _ W). lia.
Qed.
Lemma wake_one_less z c l l' : wake_one c l = Some l' -> sumf (qw z) l' <= sumf (qw z) l + 5.
Proof.
  unfold wake_one. destruct (nth_error l c) as [[o p]|] eqn:E.
  - destruct p; try (destruct (existsb asleepb l); intros H; inversion H; subst; lia).
    intros [= <-]. pose proof (sumf_set (A := task tk) (qw z) l c (o, PAsleep) (o, PEnter) E) as X. cbn in X. destruct o; cbn in X; lia.
  - destruct (existsb asleepb l); intros H; inversion H; subst; lia.
Qed.

Lemma remove_nth_length {A} (l : list A) : forall i v, nth_error l i = Some v -> S (length (remove_nth i l)) = length l.
Proof. induction l as [|x l IH]; intros [|i] v E; cbn in *; try discriminate; [reflexivity|]. rewrite (IH _ _ E). reflexivity. Qed.

(** What the taker of an element has to do with it. *)
Definition gain (k : QueueModel.state tk) (t : nat) : nat :=
  match nth_error (tasks k) t with Some (_, PReturned (RTook _)) => 12 | _ => 0 end.

Section P.
Variable fr : list tk -> nat -> bool.
Variable dyn : bool.
Variable maxc : nat.
Notation next := (PoolModel.next fr dyn maxc).
Notation final := (PoolModel.final fr dyn maxc).
Notation pstep := (pstep fr dyn maxc).
Notation launch := (launch dyn).
Notation qnext := (QueueModel.next fr).
Notation has_front := (has_front tk fr).

(** Either the queue is closed, or nobody is about to close it. *)
Definition phase (z : nat) (k : QueueModel.state tk) : Prop :=
  (closed k = true /\ z = 6) \/ (closed k = false /\ z = 0 /\ forall t p, nth_error (tasks k) t <> Some (OClose, p)).

Lemma qprog z k t o p : has_front -> qok k -> pop_inv tk k -> phase z k ->
  nth_error (tasks k) t = Some (o, p) -> notret p -> p <> PAsleep -> (holds tk p = true \/ mutex k = None) ->
  exists c, qm z (qnext k (LRun t c)) + gain (qnext k (LRun t c)) t < qm z k.
Proof.
  intros HF (I & PO & PN & PT) (P1 & P2 & _) PH E NR NA FREE.
  pose proof (PO _ _ _ E) as OP. pose proof (i_shape _ _ I _ _ _ E) as SH.
  assert (SET : forall x, nth_error (set_nth (A := task tk) t x (tasks k)) t = Some x) by (intros; apply nth_set_same; eapply nth_lt; eauto).
  assert (DO : forall c p' its, tasks (qnext k (LRun t c)) = set_nth (A := task tk) t (o, p') (tasks k) -> items (qnext k (LRun t c)) = its ->
     qw z (o, p') + gain (qnext k (LRun t c)) t + 20 * length its < qw z (o, p) + 20 * length (items k) ->
     exists c, qm z (qnext k (LRun t c)) + gain (qnext k (LRun t c)) t < qm z k).
  { intros c p' its T IT L. exists c. unfold qm. rewrite T, IT. pose proof (sumf_set (A := task tk) (qw z) (tasks k) t (o, p) (o, p') E). lia. }
  assert (G0 : forall k' p', tasks k' = set_nth (A := task tk) t (o, p') (tasks k) -> (forall v, p' <> PReturned (RTook v)) -> gain k' t = 0).
  { intros k' p' T N. unfold gain. rewrite T, SET. destruct p'; auto. destruct r; auto. destruct (N v). reflexivity. }
  assert (DO0 : forall p' its, tasks (qnext k (LRun t 0)) = set_nth (A := task tk) t (o, p') (tasks k) -> items (qnext k (LRun t 0)) = its -> (forall v, p' <> PReturned (RTook v)) ->
     qw z (o, p') + 20 * length its < qw z (o, p) + 20 * length (items k) ->
     exists c, qm z (qnext k (LRun t c)) + gain (qnext k (LRun t c)) t < qm z k).
  { intros p' its T IT N L. eapply (DO 0 p' its T IT). rewrite (G0 _ _ T N). lia. }
  assert (FR : holds tk p = false -> free k = true) by (intros H; destruct FREE as [F|F]; [congruence|unfold free; rewrite F; reflexivity]).
  clear FREE. destruct p; try contradiction.
  - (* PStart *)
    destruct o; try discriminate OP.
    + destruct (closed k) eqn:C; eapply DO0; cbn; rewrite ?E; cbn; rewrite ?C; cbn; try reflexivity; try discriminate; cbn; lia.
    + destruct timed; [discriminate|]. eapply DO0; cbn; rewrite ?E; cbn; try reflexivity; try discriminate; cbn; lia.
    + destruct (closed k) eqn:C; [|exfalso; destruct PH as [[X _]|(_ & _ & X)]; [congruence|eapply X; exact E]].
      eapply DO0; cbn; rewrite ?E; cbn; rewrite ?C; cbn; try reflexivity; try discriminate; cbn; lia.
    + destruct cb; [|discriminate]. specialize (FR eq_refl). eapply DO0; cbn; rewrite ?E; cbn; rewrite ?FR; cbn; try reflexivity; try discriminate; cbn; lia.
  - (* PPush *)
    destruct o; try discriminate SH; try discriminate OP. specialize (FR eq_refl).
    destruct (wake_one_some tk (tasks k)) as (c & l & W). exists c. pose proof (wake_one_less z _ _ _ W) as L.
    assert (T : tasks (qnext k (LRun t c)) = set_nth (A := task tk) t (OPush v, PReturned RDone) l) by (cbn; rewrite E; cbn; rewrite FR, W; reflexivity).
    assert (IT : items (qnext k (LRun t c)) = items k ++ [v]) by (cbn; rewrite E; cbn; rewrite FR, W; reflexivity).
    destruct (woke_nth' _ _ _ (woke_one _ _ _ _ W) _ _ _ E) as [Z|[Z _]]; [|discriminate].
    pose proof (sumf_set (A := task tk) (qw z) l t (OPush v, PPush) (OPush v, PReturned RDone) Z) as X. cbn [qw] in X.
    unfold qm, gain. rewrite T, IT, nth_set_same by (eapply nth_lt; exact Z). rewrite app_length. cbn [length]. lia.
  - (* PEnter *)
    specialize (FR eq_refl). destruct SH as (b & ->). destruct (pred k) eqn:PR.
    + eapply DO0; cbn; rewrite ?E; cbn; rewrite ?FR; cbn; rewrite ?PR; cbn; try reflexivity; try discriminate; cbn; lia.
    + destruct (pred_false _ _ PR) as [_ PR']. destruct PH as [[X _]|(_ & -> & _)]; [congruence|].
      eapply DO0; cbn; rewrite ?E; cbn; rewrite ?FR; cbn; rewrite ?PR; cbn; try reflexivity; try discriminate; cbn; lia.
  - (* PSleepPre *) destruct SH as (b & ->). eapply DO0; cbn; rewrite ?E; cbn; try reflexivity; try discriminate; cbn; lia.
  - exfalso. eapply PT; exact E.
  - (* PChecked *)
    destruct (closed k) eqn:C; eapply DO0; cbn; rewrite ?E; cbn; rewrite ?C; cbn; try reflexivity; try discriminate; destruct o; cbn; lia.
  - (* PPop *)
    destruct (HF (items k) (P1 _ _ E)) as (c & v & N & F). pose proof (remove_nth_length _ _ _ N) as RL.
    eapply (DO c (PReturned (RTook v)) (remove_nth c (items k))).
    + cbn. rewrite E. cbn. rewrite N, F. reflexivity.
    + cbn. rewrite E. cbn. rewrite N, F. reflexivity.
    + cbn [QueueModel.next]. rewrite E. cbn [step_at]. rewrite N, F. unfold gain. cbn [tasks with_mutex ret emit with_items]. rewrite SET.
      destruct o; cbn [qw]; lia.
  - (* PNotify *)
    cbn in SH. subst o. assert (C : closed k = true) by (eapply PN; exact E). destruct PH as [[_ ->]|(X & _)]; [|congruence].
    exists 0. pose proof (woke_all tk (tasks k)) as W. destruct (woke_nth' _ _ _ W _ _ _ E) as [Z|[Z _]]; [|discriminate].
    pose proof (sumf_set (A := task tk) (qw 6) _ t (OClose, PNotify) (OClose, PReturned RDone) Z) as X. cbn [qw] in X. pose proof (wake_all_less (tasks k)) as L.
    assert (T : tasks (qnext k (LRun t 0)) = set_nth (A := task tk) t (OClose, PReturned RDone) (wake_all (tasks k))) by (cbn; rewrite E; reflexivity).
    assert (IT : items (qnext k (LRun t 0)) = items k) by (cbn; rewrite E; reflexivity).
    unfold qm, gain. rewrite T, IT, nth_set_same by (eapply nth_lt; exact Z). lia.
Qed.

(** ** Every call on the queue that is under way belongs to an agent *)
Definition owned (s : pool) : Prop := forall t o p, nth_error (tasks (q s)) t = Some (o, p) -> notret p ->
  exists a x, nth_error (agents s) a = Some x /\ own x = Some (t, o).

Lemma qback k t c t' o p : qok k -> t' <> t -> nth_error (tasks (qnext k (LRun t c))) t' = Some (o, p) -> notret p ->
  exists p', nth_error (tasks k) t' = Some (o, p') /\ notret p'.
Proof.
  intros Q N E R. destruct (nth_error (tasks k) t') as [[o' p']|] eqn:F.
  - destruct (qnext_other fr k t c t' o' p' Q N F) as [G|[-> G]]; rewrite G in E; injection E as <- <-; eauto.
  - exfalso. apply nth_error_None in F. destruct (next_ops tk fr k (LRun t c)) as (add & EA & ->). rewrite app_nil_r in EA.
    apply (f_equal (@length _)) in EA. rewrite !map_length in EA. apply nth_lt in E. unfold task in *. lia.
Qed.
Lemma qstays k t c o p : nth_error (tasks k) t = Some (o, p) -> exists p', nth_error (tasks (qnext k (LRun t c))) t = Some (o, p').
Proof.
  intros E. destruct (next_ops tk fr k (LRun t c)) as (add & EA & ->). rewrite app_nil_r in EA.
  assert (M : nth_error (map fst (tasks (qnext k (LRun t c)))) t = Some o) by (rewrite EA, (map_nth_error fst _ _ E); reflexivity).
  destruct (nth_error (tasks (qnext k (LRun t c))) t) as [[o1 p1]|] eqn:F.
  - rewrite (map_nth_error fst _ _ F) in M. injection M as ->. eauto.
  - apply nth_error_None in F. apply nth_lt in M. rewrite map_length in M. unfold task in *. lia.
Qed.

Lemma owned_put s s' a x y : owned s -> nth_error (agents s) a = Some y -> own y = None -> q s' = q s -> agents s' = set_nth a x (agents s) -> owned s'.
Proof.
  intros H E O Q A t o p T R. rewrite Q in T. destruct (H _ _ _ T R) as (b & z & B & Z). exists b, z. rewrite A, nth_set_other; [auto|]. intros ->. congruence.
Qed.
Lemma owned_grow s s' l : owned s -> q s' = q s -> agents s' = agents s ++ l -> owned s'.
Proof.
  intros H Q A t o p T R. rewrite Q in T. destruct (H _ _ _ T R) as (b & z & B & Z). exists b, z. rewrite A. split; [|exact Z].
  rewrite nth_error_app1; [exact B|eapply nth_lt; eauto].
Qed.
Lemma owned_call s s' a x y o : owned s -> nth_error (agents s) a = Some y -> own y = None -> q s' = qnext (q s) (LCall o) -> agents s' = set_nth a x (agents s) ->
  own x = Some (fresh s, o) -> owned s'.
Proof.
  intros H E O Q A X t o' p T R. rewrite Q in T. cbn in T. rewrite nth_snoc in T. destruct (Nat.eqb_spec t (length (tasks (q s)))) as [->|N].
  - injection T as <- <-. exists a, x. rewrite A, nth_set_same by (eapply nth_lt; eauto). auto.
  - destruct (H _ _ _ T R) as (b & z & B & Z). exists b, z. rewrite A, nth_set_other; [auto|]. intros ->. congruence.
Qed.
Lemma owned_run s s' a y t o c : wf s -> owned s -> nth_error (agents s) a = Some y -> own y = Some (t, o) -> q s' = qnext (q s) (LRun t c) ->
  agents s' = agents s \/ ((exists x, agents s' = set_nth a x (agents s)) /\ exists r, result s' t = Some r) -> owned s'.
Proof.
  intros W H E O Q A t' o' p' T R. destruct (Nat.eq_dec t' t) as [->|N].
  - destruct A as [A|[_ (r & A)]].
    + exists a, y. rewrite A. split; [exact E|]. destruct (w_own s W _ _ _ _ E O) as (p & T0 & _). destruct (qstays _ t c _ _ T0) as (p1 & T1). rewrite Q in T. congruence.
    + exfalso. unfold result in A. rewrite T in A. destruct p'; try discriminate. exact R.
  - rewrite Q in T. destruct (qback _ _ _ _ _ _ (w_q s W) N T R) as (p & T0 & R0). destruct (H _ _ _ T0 R0) as (b & z & B & Z). exists b, z. split; [|exact Z].
    destruct A as [A|[(x & A) _]]; rewrite A; [exact B|]. rewrite nth_set_other; [exact B|]. intros ->. congruence.
Qed.

Lemma owned_next s l : wf s -> owned s -> owned (next s l).
Proof.
  intros W H. destruct l as [r p|d|a c|t].
  - eapply owned_grow; [exact H|reflexivity|reflexivity].
  - eapply owned_grow; [exact H|reflexivity|reflexivity].
  - cbn [PoolModel.next]. destruct (nth_error (agents s) a) as [x|] eqn:E; [|exact H].
    assert (LH : forall b, owned (launch s b c)).
    { intros b. unfold PoolModel.launch. destruct (_ && _ && _); [|exact H]. eapply owned_grow; [exact H|reflexivity|reflexivity]. }
    assert (RES : forall t, result (qrun fr s t c) t = None \/ exists r, result (qrun fr s t c) t = Some r) by (intros t; destruct (result _ t); eauto).
    destruct x as [v p|d p|p].
    + destruct p as [| |b0|t|]; cbn [PoolModel.run_step]; auto.
      * eapply owned_put; [exact H|exact E|reflexivity|reflexivity|reflexivity].
      * eapply owned_put; [exact H|exact E|reflexivity|reflexivity|reflexivity].
      * eapply owned_call; [apply (LH b0)|apply launch_nth; exact E|reflexivity|reflexivity|reflexivity|]. rewrite launch_fresh. reflexivity.
      * destruct (RES t) as [R|(r & R)]; rewrite R.
        -- eapply owned_run; [exact W|exact H|exact E|reflexivity|reflexivity|left; reflexivity].
        -- eapply owned_run; [exact W|exact H|exact E|reflexivity|reflexivity|right; split; [eexists; reflexivity|exists r; exact R]].
    + destruct p as [|t| |t| | |]; cbn [PoolModel.shut_step]; auto.
      * destruct (once s) as [[]|]; auto.
        -- eapply owned_put; [exact H|exact E|reflexivity|reflexivity|reflexivity].
        -- eapply owned_call; [exact H|exact E|reflexivity|reflexivity|reflexivity|reflexivity].
      * destruct (RES t) as [R|(r & R)]; rewrite R.
        -- eapply owned_run; [exact W|exact H|exact E|reflexivity|reflexivity|left; reflexivity].
        -- eapply owned_run; [exact W|exact H|exact E|reflexivity|reflexivity|right; split; [eexists; reflexivity|exists r; exact R]].
      * eapply (owned_call s); [exact H|exact E|reflexivity|reflexivity|reflexivity|reflexivity].
      * destruct (RES t) as [R|(r & R)]; rewrite R.
        -- eapply owned_run; [exact W|exact H|exact E|reflexivity|reflexivity|left; reflexivity].
        -- eapply owned_run; [exact W|exact H|exact E|reflexivity|reflexivity|right; split; [eexists; reflexivity|exists r; exact R]].
      * destruct (forallb exited _); auto. eapply owned_put; [exact H|exact E|reflexivity|reflexivity|reflexivity].
      * eapply owned_put; [exact H|exact E|reflexivity|reflexivity|reflexivity].
    + destruct p as [|t|v|v|v|v|v|]; cbn [PoolModel.worker_step]; auto; try (eapply owned_put; [exact H|exact E|reflexivity|reflexivity|reflexivity]).
      * eapply owned_call; [exact H|exact E|reflexivity|reflexivity|reflexivity|reflexivity].
      * destruct (RES t) as [R|(r & R)]; rewrite R.
        -- eapply owned_run; [exact W|exact H|exact E|reflexivity|reflexivity|left; reflexivity].
        -- destruct r; (eapply owned_run; [exact W|exact H|exact E|reflexivity|reflexivity|right; split; [eexists; reflexivity|eexists; exact R]]).
  - intros t' o p T R. cbn [PoolModel.next q with_q agents] in *.
    assert (X : exists p0, nth_error (tasks (q s)) t' = Some (o, p0) /\ notret p0).
    { cbn in T. destruct (nth_error (tasks (q s)) t) as [[o0 p0]|] eqn:F; [|eauto]. destruct p0; eauto.
      cbn in T. rewrite (nth_set _ _ _ _ _ F) in T. destruct (Nat.eqb_spec t t') as [->|N]; [|eauto].
      injection T as <- <-. exists PAsleep. split; [exact F|exact Logic.I]. }
    destruct X as (p0 & X1 & X2). exact (H t' o p0 X1 X2).
Qed.
Lemma owned_final n h : owned (final n h).
Proof.
  induction h as [|l h IH] using rev_ind; [intros [|t] o p E; discriminate|]. rewrite final_snoc. apply owned_next; [apply wf_final|exact IH].
Qed.

(** The queue of the pool is a queue in use. *)
Lemma queue_hist n h : exists hq, q (final n h) = QueueModel.final fr hq.
Proof.
  apply (pool_ind fr dyn maxc (fun s => exists hq, q s = QueueModel.final fr hq)); [exists []; reflexivity|].
  intros s s' W (hq & E) T. destruct (q_step fr dyn maxc _ _ T) as [->|[(o & _ & ->)|(l & _ & ->)]]; [eauto| |]; rewrite E, <- QueueProofs.final_snoc; eauto.
Qed.
Lemma pop_ok n h : pop_inv tk (q (final n h)).
Proof.
  destruct (queue_hist n h) as (hq & E). pose proof (w_q _ (wf_final fr dyn maxc n h)) as (_ & PO & _). rewrite E in *. apply pop_final.
  intros t o C. unfold call_of, calls in C. destruct (nth_error (tasks (QueueModel.final fr hq)) t) as [[o1 p1]|] eqn:F.
  - rewrite (map_nth_error fst _ _ F) in C. injection C as <-. specialize (PO _ _ _ F). destruct o1; try reflexivity; discriminate.
  - apply nth_error_None in F. apply nth_lt in C. rewrite map_length in C. unfold task in *. lia.
Qed.

(** ** Progress *)
Definition aw (x : agent) : nat :=
  match x with
  | ARun _ RCheck => 72 | ARun _ RTry => 71 | ARun _ (RStart _) => 70 | ARun _ _ => 0
  | AShut _ SStart => 100 | AShut _ (SClosing _) => 11 | AShut _ SStopping => 10 | AShut _ (SClearing _) => 3 | AShut _ SJoining => 2 | AShut _ SEnd => 1 | AShut _ SReturned => 0
  | AWorker WLoop => 7 | AWorker (WAdd _) => 12 | AWorker (WStart _) => 11 | AWorker (WRunning _) => 10 | AWorker (WRemove _) => 9 | AWorker (WDone _) => 8 | AWorker _ => 0
  end.
Definition mu (z : nat) (s : pool) : nat := sumf aw (agents s) + qm z (q s).

Definition over_agent (x : agent) : bool := match x with ARun _ RReturned | AShut _ SReturned | AWorker WExited => true | _ => false end.
Definition sleeper (k : QueueModel.state tk) (x : agent) : bool :=
  match x with AWorker (WWaiting t) => match nth_error (tasks k) t with Some (_, PAsleep) => true | _ => false end | _ => false end.

Lemma mu_put z s s' a x y : nth_error (agents s) a = Some y -> agents s' = set_nth a x (agents s) -> aw x + qm z (q s') < aw y + qm z (q s) -> mu z s' < mu z s.
Proof. intros E A L. unfold mu. rewrite A. pose proof (sumf_set aw (agents s) a y x E). lia. Qed.
Lemma qm_call z k o : pool_op o = true -> qm z (qnext k (LCall o)) = qm z k + qw z (o, PStart).
Proof. intros H. unfold qm. cbn [QueueModel.next tasks with_tasks items]. rewrite sumf_app. cbn [sumf]. lia. Qed.

Lemma go_own z s a x t o p : has_front -> wf s -> pop_inv tk (q s) -> phase z (q s) -> nth_error (agents s) a = Some x -> own x = Some (t, o) ->
  nth_error (tasks (q s)) t = Some (o, p) -> notret p -> p <> PAsleep -> (holds tk p = true \/ mutex (q s) = None) ->
  exists c, mu z (next s (LGo a c)) < mu z s.
Proof.
  intros HF W P PH E O T NR NA FREE. destruct (qprog z (q s) t o p HF (w_q s W) P PH T NR NA FREE) as (c & L). exists c.
  cbn [PoolModel.next]. rewrite E.
  assert (ST : forall s', agents s' = agents s -> q s' = qnext (q s) (LRun t c) -> mu z s' < mu z s).
  { intros s' A Q. unfold mu. rewrite A, Q. lia. }
  assert (PU : forall s' y, agents s' = set_nth a y (agents s) -> q s' = qnext (q s) (LRun t c) -> aw y <= aw x -> mu z s' < mu z s).
  { intros s' y A Q LE. eapply mu_put; [exact E|exact A|]. rewrite Q. lia. }
  destruct x as [v pc|d pc|pc]; cbn in O; destruct pc; try discriminate O; injection O as <- <-.
  - cbn [PoolModel.run_step]. destruct (result (qrun fr s t0 c) t0) as [r|] eqn:R; [eapply PU; reflexivity|apply ST; reflexivity].
  - cbn [PoolModel.shut_step]. destruct (result (qrun fr s t0 c) t0) as [r|] eqn:R; [eapply PU; try reflexivity; cbn; lia|apply ST; reflexivity].
  - cbn [PoolModel.shut_step]. destruct (result (qrun fr s t0 c) t0) as [r|] eqn:R; [eapply PU; try reflexivity; cbn; lia|apply ST; reflexivity].
  - cbn [PoolModel.worker_step]. destruct (result (qrun fr s t0 c) t0) as [r|] eqn:R; [|apply ST; reflexivity].
    destruct r; try (eapply PU; reflexivity). eapply mu_put; [exact E|reflexivity|].
    unfold result in R. cbn [q with_q qrun] in R. unfold gain in L. destruct (nth_error (tasks (qnext (q s) (LRun t0 c))) t0) as [[o1 p1]|]; [|discriminate]. destruct p1; try discriminate. inversion R; subst.
    cbn [q put with_q qrun aw]. lia.
Qed.

Definition pool_label (z : nat) (l : label) : Prop := match l with LGo _ _ => True | LWake _ => z = 6 | _ => False end.

Lemma progress z s : has_front -> wf s -> owned s -> pop_inv tk (q s) -> phase z (q s) -> stop_inv s ->
  (z = 0 -> forall d p, ~ In (AShut d p) (agents s)) ->
  (exists x, In x (agents s) /\ over_agent x = false /\ (z = 0 -> sleeper (q s) x = false)) ->
  exists l, pool_label z l /\ mu z (next s l) < mu z s.
Proof.
  intros HF W OW P PH ST QT (x0 & I0 & N0 & S0).
  (* an agent that owns a call which can go on *)
  assert (OWN : forall t o p, nth_error (tasks (q s)) t = Some (o, p) -> notret p -> p <> PAsleep -> (holds tk p = true \/ mutex (q s) = None) ->
             exists l, pool_label z l /\ mu z (next s l) < mu z s).
  { intros t o p T NR NA FREE. destruct (OW _ _ _ T NR) as (a & x & E & O). destruct (go_own z s a x t o p HF W P PH E O T NR NA FREE) as (c & L).
    exists (LGo a c). split; [exact Logic.I|exact L]. }
  destruct (mutex (q s)) as [t|] eqn:M.
  { pose proof (w_q s W) as (I & _). apply (i_mutex _ _ I) in M as (o & p & T & H). apply (OWN t o p T); [destruct p; try discriminate; exact Logic.I|destruct p; discriminate|auto]. }
  (* an agent that can make a step of its own *)
  assert (STEP : forall a x, nth_error (agents s) a = Some x -> own x = None -> over_agent x = false ->
     (forall d, x = AShut d SStart -> once s <> Some false) -> (forall d, x = AShut d SJoining -> forallb exited (agents s) = true) ->
     exists l, pool_label z l /\ mu z (next s l) < mu z s).
  { intros a x E O NV H1 H2. exists (LGo a 0). split; [exact Logic.I|]. cbn [PoolModel.next]. rewrite E.
    destruct x as [v pc|d pc|pc]; destruct pc; try discriminate O; try discriminate NV.
    - cbn [PoolModel.run_step]. eapply mu_put; [exact E|reflexivity|]. destruct (Nat.ltb _ _); cbn [q put aw]; lia.
    - cbn [PoolModel.run_step]. eapply mu_put; [exact E|reflexivity|]. cbn [q put aw]; lia.
    - cbn [PoolModel.run_step]. pose proof (launch_nth dyn s b 0 _ _ E) as E'.
      assert (LA : sumf aw (agents (launch s b 0)) <= sumf aw (agents s) + 7) by (unfold PoolModel.launch; destruct (_ && _ && _); cbn [agents with_agents]; rewrite ?sumf_app; cbn; lia).
      unfold mu. cbn [agents put qcall with_q q]. rewrite launch_q, qm_call by reflexivity. pose proof (sumf_set aw _ a _ (ARun v (RPushing (fresh s))) E') as X.
      cbn [aw qw] in X |- *. lia.
    - cbn [PoolModel.shut_step]. destruct (once s) as [[]|] eqn:ON.
      + eapply mu_put; [exact E|reflexivity|]. cbn [q put aw]; lia.
      + destruct (H1 d eq_refl eq_refl).
      + eapply mu_put; [exact E|reflexivity|]. cbn [q put with_once qcall with_q]. rewrite qm_call by reflexivity. cbn [aw qw]. lia.
    - cbn [PoolModel.shut_step]. eapply mu_put; [exact E|reflexivity|]. cbn [q put with_once qcall with_q log]. rewrite qm_call by reflexivity. cbn [aw qw]. lia.
    - cbn [PoolModel.shut_step]. rewrite (H2 d eq_refl). eapply mu_put; [exact E|reflexivity|]. cbn [q put with_once with_joined aw]. lia.
    - cbn [PoolModel.shut_step]. eapply mu_put; [exact E|reflexivity|]. cbn [q put log aw]. lia.
    - cbn [PoolModel.worker_step]. eapply mu_put; [exact E|reflexivity|]. cbn [q put qcall with_q]. rewrite qm_call by reflexivity. cbn [aw qw]. lia.
    - cbn [PoolModel.worker_step]. eapply mu_put; [exact E|reflexivity|]. cbn [q put with_running aw]. lia.
    - cbn [PoolModel.worker_step]. eapply mu_put; [exact E|reflexivity|]. cbn [q put log aw]. lia.
    - cbn [PoolModel.worker_step]. eapply mu_put; [exact E|reflexivity|]. cbn [q put log aw]. lia.
    - cbn [PoolModel.worker_step]. eapply mu_put; [exact E|reflexivity|]. cbn [q put with_running aw]. lia.
    - cbn [PoolModel.worker_step]. eapply mu_put; [exact E|reflexivity|]. cbn [q put log aw]. lia. }
  (* an agent that waits for the queue *)
  assert (WAIT : forall a x t o, nth_error (agents s) a = Some x -> own x = Some (t, o) -> (z = 0 -> sleeper (q s) x = false) -> exists l, pool_label z l /\ mu z (next s l) < mu z s).
  { intros a x t o E O SL. destruct (w_own s W _ _ _ _ E O) as (p & T & NR).
    destruct p; try (apply (OWN t o _ T NR); [discriminate|right; reflexivity]); try contradiction.
    pose proof (i_shape _ _ (proj1 (w_q s W)) _ _ _ T) as (b & ->).
    destruct x as [v pc|d pc|pc]; destruct pc; try discriminate O. injection O as -> <-.
    destruct PH as [[_ ->]|(_ & -> & _)].
    - exists (LWake t). split; [reflexivity|]. cbn [PoolModel.next]. unfold mu. cbn [agents with_q q QueueModel.next]. rewrite T.
      unfold qm. cbn [set_pc tasks items]. pose proof (sumf_set (A := task tk) (qw 6) (tasks (q s)) t _ (OWait false, PEnter) T) as X. cbn [qw] in X. lia.
    - specialize (SL eq_refl). cbn in SL. rewrite T in SL. discriminate. }
  apply In_nth_error in I0 as (a0 & E0).
  destruct (own x0) as [[t o]|] eqn:O0; [eapply WAIT; eauto|].
  (* the end of the join *)
  assert (JOIN : forall a d, z = 6 -> nth_error (agents s) a = Some (AShut d SJoining) -> exists l, pool_label z l /\ mu z (next s l) < mu z s).
  { intros a d Z E. destruct (forallb exited (agents s)) eqn:F.
    - eapply (STEP a); [exact E|reflexivity|reflexivity|discriminate|]. reflexivity.
    - assert (X : exists y, In y (agents s) /\ exited y = false).
      { clear - F. induction (agents s) as [|y l IH]; [discriminate|]. cbn in F. destruct (exited y) eqn:Y; [|exists y; cbn; auto].
        destruct (IH F) as (u & A & B). exists u. cbn. auto. }
      destruct X as (y & IY & NY). apply In_nth_error in IY as (b & EY). destruct (own y) as [[t o]|] eqn:OY.
      + eapply WAIT; [exact EY|exact OY|]. intros; lia.
      + eapply (STEP b y EY OY); destruct y as [| |[]]; try discriminate NY; try reflexivity; discriminate. }
  destruct (over_agent x0) eqn:V; [discriminate|].
  assert (PH6 : forall d p, x0 = AShut d p -> z = 6).
  { intros d p ->. destruct PH as [[_ Z]|(_ & Z & _)]; [exact Z|]. exfalso. eapply (QT Z). eapply nth_error_In. exact E0. }
  destruct x0 as [v pc|d pc|pc]; try (eapply STEP; [exact E0|exact O0|exact V|discriminate|discriminate]).
  specialize (PH6 d pc eq_refl). destruct pc; try discriminate O0; try discriminate V; try (eapply STEP; [exact E0|exact O0|exact V|discriminate|discriminate]).
  - (* SStart *)
    destruct (once s) as [[]|] eqn:ON; try (eapply STEP; [exact E0|exact O0|exact V|intros; congruence|discriminate]).
    destruct ST as [ST _]. rewrite ON in ST. destruct (cnt_pos_inv exec (agents s)) as (y & IY & XY); [lia|]. apply In_nth_error in IY as (b & EY).
    destruct y as [| dy py|]; try discriminate XY. destruct py; try discriminate XY.
    + eapply WAIT; [exact EY|reflexivity|intros; lia].
    + eapply STEP; [exact EY|reflexivity|reflexivity|discriminate|discriminate].
    + eapply WAIT; [exact EY|reflexivity|intros; lia].
    + eapply JOIN; [exact PH6|exact EY].
  - eapply JOIN; [exact PH6|exact E0].
Qed.
End P.
