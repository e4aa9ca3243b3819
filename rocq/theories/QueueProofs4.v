(** The queue as a whole never gets stuck, and consumers return empty-handed only for cause. *)
From Verif Require Import ListUtil QueueModel QueueSpec QueueProofs QueueProofs2 QueueProofs3.

Section Live.
Variable V : Type.
Variable fr : list V -> nat -> bool.
Notation state := (QueueModel.state V).
Notation history := (QueueModel.history V).
Notation task := (QueueModel.task V).

(** ** The measure that every step of a call makes smaller *)
Definition wt (K : nat) (x : task) : nat :=
  match x with
  | (OPush _, PStart) | (OPushSeq _, PStart) | (OClose, PStart) => 2 * K
  | (_, PPush) | (_, PNotify) => K
  | (_, PStart) => 6
  | (_, PEnter) | (_, PTimeout) => 5
  | (_, PChecked) => 2
  | (_, PPop) | (_, PSleepPre) => 1
  | (_, PAsleep) | (_, PReturned _) => 0
  end.
Fixpoint total (K : nat) (l : list task) : nat := match l with [] => 0 | x :: r => wt K x + total K r end.

Lemma total_set K l : forall t x y, nth_error l t = Some x -> total K (set_nth t y l) + wt K x = total K l + wt K y.
Proof.
  induction l as [|z l IH]; intros [|t] x y E; cbn in *; try discriminate.
  - injection E as ->. lia.
  - specialize (IH t x y E). lia.
Qed.

Lemma total_woke K l l' : woke V l l' -> total K l' <= total K l + 5 * length l.
Proof.
  induction 1 as [|x y l l' W _ IH]; cbn; [lia|]. destruct W as [->|[E ->]]; [lia|].
  destruct x as [o p]. cbn in E. subst p. cbn. destruct o; cbn; lia.
Qed.

Lemma total_less K l t x y : nth_error l t = Some x -> wt K y < wt K x -> total K (set_nth t y l) < total K l.
Proof. intros E L. pose proof (total_set K l t x y E). lia. Qed.

Definition settled (x : task) : bool := match snd x with PAsleep | PReturned _ => true | _ => false end.

Definition has_front : Prop := forall l, l <> [] -> exists i v, nth_error l i = Some v /\ fr l i = true.

Lemma wake_one_some (l : list task) : exists c l', wake_one c l = Some l'.
Proof.
  unfold wake_one. destruct (existsb asleepb l) eqn:E.
  - apply existsb_exists in E as ((o & p) & I & A). unfold asleepb in A. cbn in A. destruct p; try discriminate.
    apply In_nth_error in I as (c & I). exists c. rewrite I. eauto.
  - exists (length l). assert (N : nth_error l (length l) = None) by (apply nth_error_None; lia). rewrite N. eauto.
Qed.

Lemma progress (s : state) K : has_front -> inv V s -> pop_inv V s -> K = S (5 * length (tasks s)) ->
  forallb settled (tasks s) = false -> exists t c, total K (tasks (next fr s (LRun t c))) < total K (tasks s).
Proof.
  intros HF I (P1 & P2 & _) EK NS.
  assert (HOLD : forall t o p, nth_error (tasks s) t = Some (o, p) -> holds V p = true ->
            exists c, total K (tasks (next fr s (LRun t c))) < total K (tasks s)).
  { intros t o p E H. destruct p; try discriminate H.
    - exists 0. cbn. rewrite E. cbn. eapply total_less; [exact E|destruct o; cbn; lia].
    - exists 0. cbn. rewrite E. cbn. destruct (closed s); cbn; (eapply total_less; [exact E|destruct o; cbn; lia]).
    - destruct (HF (items s) (P1 _ _ E)) as (c & v & N & F). exists c. cbn. rewrite E. cbn. rewrite N, F. cbn.
      eapply total_less; [exact E|destruct o; cbn; lia]. }
  destruct (mutex s) as [t|] eqn:M.
  { apply (i_mutex _ _ I) in M as (o & p & E & H). exists t. eapply HOLD; eauto. }
  assert (FR : free s = true) by (unfold free; rewrite M; reflexivity).
  assert (X : exists t o p, nth_error (tasks s) t = Some (o, p) /\ settled (o, p) = false).
  { clear -NS. induction (tasks s) as [|x l IH]; [discriminate|]. cbn in NS. destruct (settled x) eqn:E.
    - destruct (IH NS) as (t & o & p & A & B). exists (S t), o, p. auto.
    - destruct x as [o p]. exists 0, o, p. auto. }
  destruct X as (t & o & p & E & S). exists t.
  destruct p; try discriminate S; try (destruct (HOLD _ _ _ E eq_refl) as (c & L); exists c; exact L).
  - (* PStart *)
    exists 0. cbn. rewrite E. destruct o; cbn.
    + destruct (closed s); cbn; (eapply total_less; [exact E|cbn; lia]).
    + destruct (closed s); cbn; (eapply total_less; [exact E|cbn; lia]).
    + eapply total_less; [exact E|cbn; lia].
    + rewrite FR. destruct (nonempty s); cbn; (eapply total_less; [exact E|cbn; lia]).
    + destruct (closed s); cbn; (eapply total_less; [exact E|cbn; lia]).
    + eapply total_less; [exact E|cbn; lia].
    + rewrite FR. cbn. eapply total_less; [exact E|cbn; lia].
    + rewrite FR. cbn. eapply total_less; [exact E|cbn; lia].
    + rewrite FR. cbn. eapply total_less; [exact E|cbn; lia].
    + eapply total_less; [exact E|cbn; lia].
  - (* PPush *)
    assert (X : exists c l, (match o with OPush _ => wake_one c (tasks s) | _ => Some (wake_all (tasks s)) end) = Some l /\ woke V (tasks s) l).
    { destruct o; try (exists 0; eexists; split; [reflexivity|apply woke_all]).
      destruct (wake_one_some (tasks s)) as (c & l & W). exists c, l. split; [exact W|eapply woke_one; eauto]. }
    destruct X as (c & l & W & WK). exists c. cbn. rewrite E. cbn. rewrite FR, W. cbn.
    destruct (woke_nth' _ _ _ WK _ _ _ E) as [Z|[Z _]]; [|discriminate].
    pose proof (total_set K l t (o, PPush) (o, PReturned RDone) Z) as T. pose proof (total_woke K _ _ WK) as T2.
    cbn [wt] in T. destruct o; cbn [wt] in T; lia.
  - exists 0. cbn. rewrite E. cbn. rewrite FR. cbn. destruct (pred s); cbn; (eapply total_less; [exact E|destruct o; cbn; lia]).
  - exists 0. cbn. rewrite E. cbn. rewrite FR. destruct (pred s); cbn; (eapply total_less; [exact E|destruct o; cbn; lia]).
  - exists 0. cbn. rewrite E. cbn. pose proof (woke_all V (tasks s)) as WK.
    destruct (woke_nth' _ _ _ WK _ _ _ E) as [Z|[Z _]]; [|discriminate].
    pose proof (total_set K _ t (o, PNotify) (o, PReturned RDone) Z) as T. pose proof (total_woke K _ _ WK) as T2.
    cbn [wt] in T. destruct o; cbn [wt] in T; lia.
Qed.

Lemma run_calls h l : is_run l = true -> calls fr (h ++ [l]) = calls fr h.
Proof.
  intros R. unfold calls. rewrite final_snoc. destruct (next_ops V fr (final fr h) l) as (add & E & H). rewrite E.
  destruct l; try discriminate R; rewrite H; apply app_nil_r.
Qed.

Lemma all_settle h : has_front -> no_call fr reopens h -> exists h', (forall l, In l h' -> is_run l = true) /\
  calls fr (h ++ h') = calls fr h /\ forallb settled (tasks (final fr (h ++ h'))) = true.
Proof.
  intros HF. remember (S (5 * length (calls fr h))) as K. remember (total K (tasks (final fr h))) as n.
  revert h HeqK Heqn. induction n as [n IH] using lt_wf_ind. intros h EK En NR.
  destruct (forallb settled (tasks (final fr h))) eqn:S.
  { exists []. rewrite app_nil_r. split; [intros l []|auto]. }
  destruct (progress (final fr h) K HF (inv_final V fr h) (pop_final V fr h NR)) as (t & c & L); [rewrite tasks_calls; exact EK|exact S|].
  rewrite <- final_snoc in L. pose proof (run_calls h (LRun t c) eq_refl) as RC.
  assert (NR' : no_call fr reopens (h ++ [LRun t c])).
  { intros t' o' X. apply (NR t' o'). unfold call_of in *. rewrite <- RC. exact X. }
  destruct (IH _ ltac:(rewrite En; exact L) (h ++ [LRun t c]) ltac:(rewrite RC; exact EK) eq_refl NR') as (h' & A & B & C).
  exists (LRun t c :: h'). change (h ++ LRun t c :: h') with (h ++ [LRun t c] ++ h'). rewrite app_assoc.
  split; [intros l [<-|X]; [reflexivity|auto]|]. split; [rewrite B; exact RC|exact C].
Qed.

Lemma never_stuck h : has_front -> no_call fr reopens h -> exists h', (forall l, In l h' -> is_run l = true) /\
  calls fr (h ++ h') = calls fr h /\ forall t, t < length (calls fr h) -> done fr (h ++ h') t \/ asleep fr (h ++ h') t.
Proof.
  intros HF NR. destruct (all_settle h HF NR) as (h' & A & B & C). exists h'. split; [exact A|]. split; [exact B|].
  intros t L. rewrite <- B, <- tasks_calls in L. destruct (nth_error (tasks (final fr (h ++ h'))) t) as [[o p]|] eqn:E.
  - rewrite forallb_forall in C. pose proof (C _ (nth_error_In _ _ E)) as S. destruct p; try discriminate S.
    + right. exists o. exact E.
    + left. exists r. eapply ret_task; eauto.
  - apply nth_error_None in E. lia.
Qed.

(** ** The answers *)
Lemma only_timed_waits_time_out h : forall t o, nth_error (tasks (final fr h)) t = Some (o, PTimeout) -> o = OWait true.
Proof.
  induction h as [|l h IH] using rev_ind; [intros [|t] o X; discriminate|]. rewrite final_snoc. set (s := final fr h) in *.
  destruct (next_cases V fr s l) as [->|T]; [exact IH|]. intros t o X.
  destruct T; cbn in X;
    try (match goal with H : nth_error (tasks s) ?t0 = Some _ |- _ => rewrite (nth_set _ _ _ _ t H) in X; destruct (Nat.eqb t0 t); [congruence|eauto] end).
  - rewrite nth_snoc in X. destruct (Nat.eqb t (length (tasks s))); [congruence|eauto].
  - destruct (woke_nth' _ _ _ H1 _ _ _ H) as [Z|[Z _]]; [|discriminate]. rewrite (nth_set _ _ _ _ t Z) in X. destruct (Nat.eqb t0 t); [congruence|].
    destruct (woke_nth _ _ _ H1 _ _ _ X) as [W|[W _]]; [eauto|discriminate].
  - eauto.
  - pose proof (woke_all V (tasks s)) as H1. destruct (woke_nth' _ _ _ H1 _ _ _ H) as [Z|[Z _]]; [|discriminate]. rewrite (nth_set _ _ _ _ t Z) in X. destruct (Nat.eqb t0 t); [congruence|].
    destruct (woke_nth _ _ _ H1 _ _ _ X) as [W|[W _]]; [eauto|discriminate].
Qed.

Lemma new_answer h l t r : ~ done fr h t -> returned fr (h ++ [l]) t r -> forall o, call_of fr h t = Some o ->
  match o, r with
  | OWait b, RNothing => closed (final fr h) = true \/ (b = true /\ items (final fr h) = [])
  | OTryPop, RNothing => closed (final fr h) = true \/ items (final fr h) = []
  | OSize, r => r = RNum (length (items (final fr h)))
  | OEmpty, r => exists b, r = RBool b /\ (b = true <-> items (final fr h) = [])
  | OIsClosed, r => r = RBool (closed (final fr h))
  | _, _ => True
  end.
Proof.
  intros ND R o C. apply call_of_task in C as (p & E).
  assert (NO : forall r, ~ In (ERet t r) (tr (final fr h))) by (intros r' X; apply ND; exists r'; exact X).
  unfold returned, trace in R. rewrite final_snoc in R. pose proof (inv_final V fr h) as I. set (s := final fr h) in *.
  assert (SH := i_shape _ _ I).
  destruct (next_cases V fr s l) as [X|T]; [rewrite X in R; exfalso; eapply NO; exact R|].
  destruct T; cbn [tr ret emit set_pc with_items with_tasks with_mutex with_closed] in R; rewrite ?in_app_iff in R; cbn [In] in R;
    repeat match goal with H : _ \/ _ |- _ => destruct H as [H|H] | H : False |- _ => destruct H end;
    try (exfalso; eapply NO; exact R); try discriminate R;
    try (injection R as <- <-; rewrite E in *; match goal with H : Some _ = Some _ |- _ => injection H as -> -> end).
  all: try exact Logic.I.
  all: try (pose proof (SH _ _ _ E) as K; cbn in K).
  all: try (match goal with |- context [match ?x with OPush _ => _ | _ => _ end] => destruct x; try discriminate; try exact Logic.I; try (left; assumption) end).
  all: try (right; assumption).
  all: try (match goal with H : _ = PTimeout |- _ => subst end; pose proof (only_timed_waits_time_out h _ _ E) as Q; try discriminate Q; injection Q as ->; right; auto; fail).
  all: try (match goal with H : _ /\ _ = OTryPop |- _ => destruct H; discriminate end).
  - apply H2; reflexivity.
  - eexists. split; [apply H3; reflexivity|]. unfold nonempty. destruct (items s); split; auto; discriminate.
  - apply H4; reflexivity.
Qed.

(** A consumer that is awake beside an element of an open queue takes one. *)
Lemma takes_one h t o p : has_front -> nth_error (tasks (final fr h)) t = Some (o, p) ->
  (p = PEnter \/ p = PTimeout \/ (p = PStart /\ o = OTryPop)) -> closed (final fr h) = false -> items (final fr h) <> [] -> mutex (final fr h) = None ->
  exists c v, In v (items (final fr h)) /\ returned fr (h ++ [LRun t 0; LRun t 0; LRun t c]) t (RTook v).
Proof.
  intros HF E P C N M. destruct (HF _ N) as (c & v & NV & FV). exists c, v. split; [eapply nth_error_In; eauto|].
  unfold returned, trace. change [LRun t 0; LRun t 0; LRun t c] with ([LRun (V := V) t 0] ++ [LRun t 0] ++ [LRun t c]). rewrite !app_assoc, !final_snoc.
  set (s := final fr h) in *. assert (FR : free s = true) by (unfold free; rewrite M; reflexivity).
  assert (NE : nonempty s = true) by (unfold nonempty; destruct (items s); congruence).
  assert (A : next fr s (LRun t 0) = with_mutex (set_pc s t o PChecked) (Some t)).
  { cbn. rewrite E. destruct P as [->|[->|[-> ->]]]; cbn; rewrite FR; unfold pred; rewrite NE; reflexivity. }
  rewrite A. clear A. cbn. rewrite (nth_set_same _ _ _ (nth_lt _ _ _ E)). cbn. rewrite C. cbn.
  rewrite nth_set_same by (rewrite length_set_nth; eapply nth_lt; eauto). cbn. rewrite NV, FV. cbn. apply in_or_app. right. left. reflexivity.
Qed.

(** reOpen() opens the queue. *)
Lemma reopened h t c : call_of fr h t = Some OReOpen -> ~ done fr h t -> closed (final fr (h ++ [LRun t c])) = false /\ returned fr (h ++ [LRun t c]) t RDone.
Proof.
  intros C ND. apply call_of_task in C as (p & E). unfold returned, trace. rewrite final_snoc. cbn. rewrite E.
  pose proof (i_shape _ _ (inv_final V fr h) _ _ _ E) as SH. destruct p; cbn in SH; try discriminate SH; try (destruct SH; discriminate).
  - cbn. split; [reflexivity|]. apply in_or_app. right. left. reflexivity.
  - exfalso. apply ND. exists r. eapply ret_task; eauto.
Qed.
End Live.
