(** Property theorems about the thread-safe queue: C39, C40, C64, C65, C100, C101, and the container part of C56.
    A history [h] is any interleaving of the steps of any number of calls; call number [t] is [call_of h t]. *)
From Verif Require Import QueueProofs4
  ListUtil QueueModel QueueSpec QueueProofs QueueProofs2 QueueProofs3.
From Coq Require Import Permutation.

Ltac intr := vm_compute; repeat (first [left; reflexivity|right]).

(** ** C39 *)
(** What left a FIFO queue (taken or cleared), followed by what it still holds, is what was put in, in that order:
    nothing is lost, duplicated or reordered. *)
Theorem C39_first_in_first_out V (h : history V) : puts (trace fifo h) = outs (trace fifo h) ++ content fifo h.
Proof. exact (in_order V h). Qed.
Print Assumptions C39_first_in_first_out.

(** A call puts its elements in at most once and takes at most one element, which it returns; only push calls put. *)
Theorem C39_each_call_at_most_once V (h : history V) t :
  cnt (put_by t) (trace fifo h) <= 1 /\ cnt (took_by t) (trace fifo h) <= 1 /\
  (forall v, In (ETake t v) (trace fifo h) <-> returned fifo h t (RTook v)) /\
  (forall vs, In (EPut t vs) (trace fifo h) -> call_of fifo h t = Some (OPushSeq vs) \/ exists v, vs = [v] /\ call_of fifo h t = Some (OPush v)).
Proof.
  split; [apply put_once|split; [apply took_once|split; [intros; apply took_returned|]]].
  intros vs I. apply put_what in I as (o & C & P & E & _). destruct o; try discriminate; cbn in E; subst; eauto.
Qed.
Print Assumptions C39_each_call_at_most_once.

(** Unless close() is called, every push that returned has put its elements in, exactly once. *)
Theorem C39_every_push_arrives V (h : history V) t v : no_call fifo closes h -> call_of fifo h t = Some (OPush v) -> done fifo h t ->
  cnt (put_by t) (trace fifo h) = 1 /\ In (EPut t [v]) (trace fifo h).
Proof. intros N C D. exact (put_exact V fifo h t (OPush v) N C eq_refl D). Qed.
Print Assumptions C39_every_push_arrives.

Theorem C39_every_sequence_arrives V (h : history V) t vs : no_call fifo closes h -> call_of fifo h t = Some (OPushSeq vs) -> done fifo h t ->
  cnt (put_by t) (trace fifo h) = 1 /\ In (EPut t vs) (trace fifo h).
Proof. intros N C D. exact (put_exact V fifo h t (OPushSeq vs) N C eq_refl D). Qed.
Print Assumptions C39_every_sequence_arrives.

(** A push that returned before another one was called is in front of it. *)
Theorem C39_earlier_push_is_in_front V (h1 h2 : history V) t t' vs vs' : In (EPut t vs) (trace fifo h1) ->
  length (calls fifo h1) <= t' -> In (EPut t' vs') (trace fifo (h1 ++ h2)) ->
  exists a b c, puts (trace fifo (h1 ++ h2)) = a ++ vs ++ b ++ vs' ++ c.
Proof.
  intros I L I'. destruct (trace_mono V fifo h1 h2) as (add & E). rewrite E in *. rewrite puts_app.
  apply in_app_or in I' as [I'|I'].
  - exfalso. apply put_what in I' as (o & C & _). apply call_of_task in C as (p & C). apply nth_lt in C. rewrite tasks_calls in C. lia.
  - apply in_split in I as (a1 & a2 & ->). apply in_split in I' as (b1 & b2 & ->). rewrite !puts_app, !puts_cons. cbn.
    exists (puts a1), (puts a2 ++ puts b1), (puts b2). rewrite <- !app_assoc. reflexivity.
Qed.
Print Assumptions C39_earlier_push_is_in_front.

(** size() and empty() report what the queue holds at that moment. *)
Theorem C39_size_is_exact V (h : history V) t c n : call_of fifo h t = Some OSize -> ~ done fifo h t ->
  returned fifo (h ++ [LRun t c]) t (RNum n) -> n = length (content fifo h).
Proof.
  intros C ND R. apply call_of_task in C as (p & E). unfold returned, trace in R. rewrite final_snoc in R. cbn in R. rewrite E in R.
  assert (NO : forall r, ~ In (ERet t r) (tr (final fifo h))) by (intros r X; apply ND; exists r; exact X).
  pose proof (i_shape _ _ (inv_final V fifo h) _ _ _ E) as SH. destruct p; cbn in SH; try discriminate; try (destruct SH; discriminate).
  - cbn in R. destruct (free (final fifo h)); [|exfalso; eapply NO; exact R]. cbn in R. apply in_app_or in R as [R|[R|[]]]; [exfalso; eapply NO; exact R|].
    injection R as <-. reflexivity.
  - exfalso. apply ND. exists r. eapply ret_task; eauto.
Qed.
Print Assumptions C39_size_is_exact.

(** Two producers, one consumer that first sleeps. *)
Definition h39 : history nat := [LCall (OWait false); LRun 0 0; LRun 0 0; LRun 0 0; LCall (OPush 7); LCall (OPushSeq [8; 9]); LRun 1 0; LRun 2 0;
  LRun 1 0; LRun 2 0; LRun 0 0; LRun 0 0; LRun 0 0; LCall OTryPop; LRun 3 0; LRun 3 0; LRun 3 0; LCall OSize; LRun 4 0].
Example C39_applies : puts (trace fifo h39) = [7; 8; 9] /\ outs (trace fifo h39) = [7; 8] /\ content fifo h39 = [9] /\ no_call fifo closes h39 /\
  returned fifo h39 0 (RTook 7) /\ returned fifo h39 3 (RTook 8) /\ returned fifo h39 4 (RNum 1).
Proof.
  split; [vm_compute; reflexivity|]. split; [vm_compute; reflexivity|]. split; [vm_compute; reflexivity|]. split; [|split; [intr|split; [intr|intr]]].
  intros t o C. do 6 (destruct t as [|t]; [vm_compute in C; try discriminate; injection C as <-; reflexivity|]). destruct t; vm_compute in C; discriminate.
Qed.

(** ** C40 *)
(** A call made after close() returned, no reOpen() being under way or called later, gets nothing, puts nothing and never sleeps. *)
Theorem C40_closed_queue_gives_and_takes_nothing V fr (h0 h1 h2 : history V) tc t : let h := (h0 ++ h1) ++ h2 in
  (forall t', call_of fr h t' = Some OReOpen -> t' < length (calls fr h0) /\ done fr h0 t') ->
  length (calls fr h0) <= tc -> call_of fr (h0 ++ h1) tc = Some OClose -> done fr (h0 ++ h1) tc ->
  length (calls fr (h0 ++ h1)) <= t ->
  (forall v, ~ returned fr h t (RTook v)) /\ (forall vs, ~ In (EPut t vs) (trace fr h)) /\ ~ asleep fr h t.
Proof.
  intros h RB L C D Lt. destruct (shut V fr h0 h1 h2 tc RB L C D) as [_ S].
  split; [|split].
  - intros v R. apply ret_in_log in R as (o & E & _). destruct (S _ _ _ Lt E) as [X _]. exact X.
  - intros vs I. destruct (put_what _ _ _ _ _ I) as (o & X & _). apply call_of_task in X as (p & E). destruct (S _ _ _ Lt E) as [_ N]. exact (N vs I).
  - intros (o & E). destruct (S _ _ _ Lt E) as [X _]. exact X.
Qed.
Print Assumptions C40_closed_queue_gives_and_takes_nothing.

(** close() wakes every sleeping consumer: once all close() calls have returned, the only consumers that may still sleep are those that
    were between their check and their sleep while the flag was already set. *)
Theorem C40_close_wakes_the_sleeping V fr (h : history V) t tc : no_call fr reopens h -> call_of fr h tc = Some OClose ->
  (forall t', call_of fr h t' = Some OClose -> done fr h t') -> asleep fr h t ->
  exists h' h'' o, h = h' ++ h'' /\ nth_error (tasks (final fr h')) t = Some (o, PSleepPre) /\ closed (final fr h') = true.
Proof.
  intros NR C ALL (o & E).
  assert (RB : reopen_before V fr [] ([] ++ h)).
  { intros t' X. specialize (NR t' OReOpen X). discriminate. }
  pose proof (closed_after V fr [] h tc RB (Nat.le_0_l _) C (ALL _ C)) as CL.
  destruct (left_asleep V fr h NR CL _ _ E) as [(h' & h'' & o' & X & Y & Z)|(c & o' & X)]; [exists h', h'', o'; auto|].
  exfalso. pose proof (i_shape _ _ (inv_final V fr h) _ _ _ X) as SH. cbn in SH. subst.
  destruct (ALL c) as (r & R); [apply call_of_task; eauto|]. apply ret_in_log in R as (o2 & R & _). rewrite X in R. discriminate.
Qed.
Print Assumptions C40_close_wakes_the_sleeping.

(** A woken consumer of a closed queue returns without an element in two steps, as soon as it gets the mutex. *)
Theorem C40_woken_consumer_returns V fr (h : history V) t b p c1 c2 : closed (final fr h) = true -> mutex_free fr h ->
  nth_error (tasks (final fr h)) t = Some (OWait b, p) -> (p = PEnter \/ p = PTimeout) ->
  returned fr (h ++ [LRun t c1; LRun t c2]) t RNothing.
Proof. intros C M E P. exact (awake_returns V fr h t b p C M E P c1 c2). Qed.
Print Assumptions C40_woken_consumer_returns.

(** As long as close() is not called no consumer is left sleeping beside an element: when every call has returned or sleeps and one
    sleeps, the queue is empty. *)
Theorem C40_no_sleep_beside_an_element V fr (h : history V) t : no_call fr closes h -> asleep fr h t ->
  (forall t', t' < length (calls fr h) -> done fr h t' \/ asleep fr h t') -> content fr h = [].
Proof. exact (no_sleep_on_content V fr h t). Qed.
Print Assumptions C40_no_sleep_beside_an_element.

Definition h40a : history nat := [LCall (OPush 1); LRun 0 0; LRun 0 0; LCall (OWait true); LRun 1 0; LRun 1 0; LRun 1 0; LRun 1 0; LCall (OWait false); LRun 2 0; LRun 2 0; LRun 2 0].
Definition h40b : history nat := [LCall (OPush 2); LRun 3 2; LRun 3 2; LCall OClose; LRun 4 0; LRun 4 0].
Definition h40c : history nat := [LRun 2 0; LRun 2 0; LCall OTryPop; LRun 5 0; LRun 5 0; LCall (OPush 3); LRun 6 0].
Example C40_applies : asleep fifo h40a 2 /\ content fifo h40a = [] /\ no_call fifo closes h40a /\
  done fifo (h40a ++ h40b) 4 /\ content fifo (h40a ++ h40b) = [2] /\
  returned fifo ((h40a ++ h40b) ++ h40c) 2 RNothing /\ returned fifo ((h40a ++ h40b) ++ h40c) 5 RNothing /\ returned fifo ((h40a ++ h40b) ++ h40c) 6 RDone.
Proof.
  split; [eexists; vm_compute; reflexivity|]. split; [vm_compute; reflexivity|]. split.
  { intros t o C. do 4 (destruct t as [|t]; [vm_compute in C; try discriminate; injection C as <-; reflexivity|]). destruct t; vm_compute in C; discriminate. }
  split; [exists RDone; intr|]. split; [vm_compute; reflexivity|]. split; [intr|split; [intr|intr]].
Qed.

(** ** C64: close() always releases the consumers. Refuted. *)
(** A consumer that has evaluated its predicate but not fallen asleep yet misses the notification: close() has returned, no step of any
    call can ever make the consumer return. *)
Definition lost : history nat := [LCall (OWait false); LRun 0 0; LRun 0 0; LCall OClose; LRun 1 0; LRun 1 0; LRun 0 0].
Theorem C64_refuted : returned fifo lost 1 RDone /\ closed (final fifo lost) = true /\ asleep fifo lost 0 /\
  forall h, (forall l, In l h -> is_run l = true) -> ~ done fifo (lost ++ h) 0.
Proof.
  split; [intr|]. split; [vm_compute; reflexivity|]. split; [eexists; vm_compute; reflexivity|].
  intros h R. assert (F : final fifo (lost ++ h) = final fifo lost).
  { rewrite final_app. induction h as [|l h IH]; [reflexivity|]. cbn [fold_left].
    assert (N : next fifo (final fifo lost) l = final fifo lost).
    { specialize (R l (or_introl eq_refl)). destruct l as [|t c| |]; try discriminate.
      destruct t as [|[|t]]; [vm_compute; reflexivity|vm_compute; reflexivity|].
      unfold next. assert (E : nth_error (tasks (final fifo lost)) (S (S t)) = None) by (apply nth_error_None; vm_compute; lia). rewrite E. reflexivity. }
    rewrite N. apply IH. intros l' I. apply R. right. exact I. }
  intros (r & X). unfold returned, trace in X. rewrite F in X. vm_compute in X. destruct X as [X|[]]; discriminate.
Qed.
Print Assumptions C64_refuted.

(** ** C65: waiting is safe across close() and reOpen(). *)
(** Without reOpen() the container is never asked for the front of nothing. *)
Theorem C65_no_undefined_behaviour_without_reopen_partial V fr (h : history V) : no_call fr reopens h -> forall t, ~ In (EUndefined t) (trace fr h).
Proof. intros N. exact (proj2 (proj2 (pop_final V fr h N))). Qed.
Print Assumptions C65_no_undefined_behaviour_without_reopen_partial.

(** With reOpen() it is: the predicate held because the queue was closed, and the queue is open again when isClosed() is read. *)
Theorem C65_refuted : exists (h : history nat) t, In (EUndefined t) (trace fifo h).
Proof.
  exists [LCall (OWait false); LCall OClose; LRun 1 0; LRun 1 0; LRun 0 0; LRun 0 0; LCall OReOpen; LRun 2 0; LRun 0 0; LRun 0 0], 0. intr.
Qed.
Print Assumptions C65_refuted.

(** ** C56, the container: a priority queue hands out an element of highest priority and loses nothing. *)
Lemma front_is_max V (less : V -> V -> bool) l i v : by_priority less l i = true -> nth_error l i = Some v -> forall w, In w l -> less v w = false.
Proof.
  unfold by_priority. intros B E w W. rewrite E in B. rewrite forallb_forall in B. specialize (B w W). destruct (less v w); [discriminate|reflexivity].
Qed.

Theorem C56_highest_priority_first V less (h : history V) l t v : In (ETake t v) (trace (by_priority less) (h ++ [l])) ->
  ~ In (ETake t v) (trace (by_priority less) h) -> In v (content (by_priority less) h) /\
  forall w, In w (content (by_priority less) h) -> less v w = false.
Proof.
  unfold trace, content. rewrite final_snoc. intros I N. destruct (next_cases V (by_priority less) (final (by_priority less) h) l) as [X|T]; [rewrite X in I; contradiction|].
  destruct T; cbn [tr ret emit set_pc with_items with_tasks with_mutex with_closed] in I; rewrite ?in_app_iff in I; cbn [In] in I; try (intuition discriminate).
  destruct I as [[I|[I|[]]]|[I|[]]]; [contradiction| |discriminate]. injection I as -> ->. 
  split; [eapply nth_error_In; eauto|]. eapply front_is_max; eauto.
Qed.
Print Assumptions C56_highest_priority_first.

Theorem C56_nothing_is_lost V less (h : history V) : Permutation (puts (trace (by_priority less) h)) (outs (trace (by_priority less) h) ++ content (by_priority less) h).
Proof. exact (conserve V (by_priority less) h). Qed.
Print Assumptions C56_nothing_is_lost.

Definition h56 : history nat := [LCall (OPushSeq [3; 9; 5]); LRun 0 0; LRun 0 0; LCall OTryPop; LRun 1 0; LRun 1 0].
Example C56_container_applies : In (ETake 1 9) (trace (by_priority Nat.ltb) (h56 ++ [LRun 1 1])) /\ content (by_priority Nat.ltb) h56 = [3; 9; 5] /\
  trace (by_priority Nat.ltb) (h56 ++ [LRun 1 0]) = trace (by_priority Nat.ltb) h56.
Proof. split; [intr|]. split; vm_compute; reflexivity. Qed.

(** ** C100: the answers are true at the moment they are given. *)
Theorem C100_empty_handed_for_cause V fr (h : history V) l t : ~ done fr h t -> returned fr (h ++ [l]) t RNothing ->
  (call_of fr h t = Some (OWait false) -> closed (final fr h) = true) /\
  (call_of fr h t = Some (OWait true) -> closed (final fr h) = true \/ content fr h = []) /\
  (call_of fr h t = Some OTryPop -> closed (final fr h) = true \/ content fr h = []).
Proof.
  intros ND R. pose proof (new_answer V fr h l t RNothing ND R) as A. split; [|split]; intros C; specialize (A _ C); cbn in A.
  - destruct A as [A|[A _]]; [exact A|discriminate].
  - destruct A as [A|[_ A]]; auto.
  - exact A.
Qed.
Print Assumptions C100_empty_handed_for_cause.

Theorem C100_empty_is_exact V fr (h : history V) l t r : ~ done fr h t -> returned fr (h ++ [l]) t r -> call_of fr h t = Some OEmpty ->
  exists b, r = RBool b /\ (b = true <-> content fr h = []).
Proof. intros ND R C. exact (new_answer V fr h l t r ND R _ C). Qed.
Print Assumptions C100_empty_is_exact.

Theorem C100_is_closed_is_exact V fr (h : history V) l t r : ~ done fr h t -> returned fr (h ++ [l]) t r -> call_of fr h t = Some OIsClosed ->
  r = RBool (closed (final fr h)).
Proof. intros ND R C. exact (new_answer V fr h l t r ND R _ C). Qed.
Print Assumptions C100_is_closed_is_exact.

Lemma fifo_has_front V : has_front V fifo.
Proof. intros [|x l] L; [congruence|]. exists 0, x. auto. Qed.

Theorem C100_consumer_takes_what_is_there V (h : history V) t o p : nth_error (tasks (final fifo h)) t = Some (o, p) ->
  (p = PEnter \/ p = PTimeout \/ (p = PStart /\ o = OTryPop)) ->
  closed (final fifo h) = false -> content fifo h <> [] -> mutex_free fifo h ->
  exists c v, In v (content fifo h) /\ returned fifo (h ++ [LRun t 0; LRun t 0; LRun t c]) t (RTook v).
Proof. intros E P C N M. exact (takes_one V fifo h t o p (fifo_has_front V) E P C N M). Qed.
Print Assumptions C100_consumer_takes_what_is_there.

Theorem C100_reopen_opens V fr (h : history V) t c : call_of fr h t = Some OReOpen -> ~ done fr h t ->
  closed (final fr (h ++ [LRun t c])) = false /\ returned fr (h ++ [LRun t c]) t RDone.
Proof. exact (reopened V fr h t c). Qed.
Print Assumptions C100_reopen_opens.

Definition h100 : history nat := [LCall OClose; LRun 0 0; LRun 0 0; LCall OTryPop; LCall OReOpen].
Example C100_applies : returned fifo (h100 ++ [LRun 1 0]) 1 RNothing /\ call_of fifo h100 1 = Some OTryPop /\ call_of fifo h100 2 = Some OReOpen /\
  closed (final fifo h100) = true /\ content fifo h100 = [].
Proof. split; [intr|]. split; [reflexivity|]. split; [reflexivity|]. split; reflexivity. Qed.

(** ** C101: the queue never gets stuck: if the calls that were made are let run, each of them returns or sleeps in wait().  (Not
       after reOpen(): C65.) *)
Theorem C101_never_stuck V (h : history V) : no_call fifo reopens h ->
  exists h', (forall l, In l h' -> is_run l = true) /\ calls fifo (h ++ h') = calls fifo h /\
    forall t, t < length (calls fifo h) -> done fifo (h ++ h') t \/ asleep fifo (h ++ h') t.
Proof. exact (never_stuck V fifo h (fifo_has_front V)). Qed.
Print Assumptions C101_never_stuck.

(** The same for a priority queue. *)
Lemma priority_has_front V (less : V -> V -> bool) : (forall a, less a a = false) -> (forall a b c, less a b = true -> less b c = true -> less a c = true) ->
  has_front V (by_priority less).
Proof.
  intros IR TR l L.
  assert (M : exists v, In v l /\ forall w, In w l -> less v w = false).
  { induction l as [|x l IH]; [congruence|]. destruct l as [|y l]; [exists x; split; [left; reflexivity|intros w [<-|[]]; apply IR]|].
    destruct (IH ltac:(discriminate)) as (v & I & M). destruct (less v x) eqn:E.
    - exists x. split; [left; reflexivity|]. intros w [<-|W]; [apply IR|]. destruct (less x w) eqn:F; [|reflexivity]. rewrite <- (M w W). symmetry. eapply TR; eauto.
    - exists v. split; [right; exact I|]. intros w [<-|W]; [exact E|apply M; exact W]. }
  destruct M as (v & I & M). apply In_nth_error in I as (i & I). exists i, v. split; [exact I|]. unfold by_priority. rewrite I. apply forallb_forall.
  intros w W. rewrite (M w W). reflexivity.
Qed.
Theorem C101_priority_queue_never_stuck V less (h : history V) : (forall a, less a a = false) -> (forall a b c, less a b = true -> less b c = true -> less a c = true) ->
  no_call (by_priority less) reopens h -> exists h', (forall l, In l h' -> is_run l = true) /\ calls (by_priority less) (h ++ h') = calls (by_priority less) h /\
    forall t, t < length (calls (by_priority less) h) -> done (by_priority less) (h ++ h') t \/ asleep (by_priority less) (h ++ h') t.
Proof. intros IR TR. exact (never_stuck V _ h (priority_has_front V less IR TR)). Qed.
Print Assumptions C101_priority_queue_never_stuck.

(** With C40: if nobody calls close(), those that sleep do so because nothing is left. *)
Theorem C101_everything_is_handed_out V (h : history V) : no_call fifo closes h -> no_call fifo reopens h ->
  exists h', (forall l, In l h' -> is_run l = true) /\ calls fifo (h ++ h') = calls fifo h /\
    ((forall t, t < length (calls fifo h) -> done fifo (h ++ h') t) \/ content fifo (h ++ h') = []).
Proof.
  intros NC NR. destruct (C101_never_stuck V h NR) as (h' & A & B & C). exists h'. split; [exact A|]. split; [exact B|].
  assert (NC' : no_call fifo closes (h ++ h')) by (intros t o X; apply (NC t o); unfold call_of in *; rewrite <- B; exact X).
  destruct (existsb asleepb (tasks (final fifo (h ++ h')))) eqn:E.
  - right. apply existsb_exists in E as ((o & p) & I & S). unfold asleepb in S. cbn in S. destruct p; try discriminate.
    apply In_nth_error in I as (t & I). eapply (C40_no_sleep_beside_an_element V fifo (h ++ h') t NC'); [exists o; exact I|rewrite B; exact C].
  - left. intros t L. destruct (C t L) as [D|(o & D)]; [exact D|]. exfalso.
    assert (X : existsb asleepb (tasks (final fifo (h ++ h'))) = true) by (apply existsb_exists; exists (o, PAsleep); split; [eapply nth_error_In; eauto|reflexivity]). congruence.
Qed.
Print Assumptions C101_everything_is_handed_out.

Definition h101 : history nat := [LCall (OWait false); LRun 0 0; LRun 0 0; LCall (OPushSeq [4; 5]); LCall (OWait true)].
Example C101_applies : no_call fifo reopens h101 /\ no_call fifo closes h101 /\ length (calls fifo h101) = 3 /\ ~ done fifo h101 1.
Proof.
  split; [|split; [|split; [reflexivity|]]].
  - intros [|[|[|t]]] o X; cbn in X; try (injection X as <-; reflexivity). destruct t; discriminate.
  - intros [|[|[|t]]] o X; cbn in X; try (injection X as <-; reflexivity). destruct t; discriminate.
  - intros (r & X). vm_compute in X. exact X.
Qed.
