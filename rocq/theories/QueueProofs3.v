(** Closing, reopening and waking. *)
From Verif Require Import ListUtil QueueModel QueueSpec QueueProofs QueueProofs2.
From Coq Require Import Permutation.

Section P.
Variable V : Type.
Variable fr : list V -> nat -> bool.
Notation state := (state V). Notation task := (task V). Notation history := (history V).
Notation tstep := (tstep V fr).

(** ** Histories only grow *)
Lemma next_trace s l : exists add, tr (next fr s l) = tr s ++ add.
Proof.
  destruct (next_cases V fr s l) as [->|T]; [exists []; rewrite app_nil_r; reflexivity|].
  destruct T; cbn; rewrite <- ?app_assoc; eauto; exists []; rewrite app_nil_r; reflexivity.
Qed.
Lemma trace_mono h1 h2 : exists add, trace fr (h1 ++ h2) = trace fr h1 ++ add.
Proof.
  induction h2 as [|l h2 IH] using rev_ind; [exists []; rewrite !app_nil_r; reflexivity|].
  rewrite app_assoc. unfold trace in *. rewrite final_snoc. destruct IH as (a & IH). destruct (next_trace (final fr (h1 ++ h2)) l) as (b & E).
  exists (a ++ b). rewrite E, IH, app_assoc. reflexivity.
Qed.
Lemma returned_mono h1 h2 t r : returned fr h1 t r -> returned fr (h1 ++ h2) t r.
Proof. unfold returned. destruct (trace_mono h1 h2) as (a & ->). intros H. apply in_or_app. auto. Qed.

Lemma next_ops s l : exists add, map fst (tasks (next fr s l)) = map fst (tasks s) ++ add /\
  (match l with LCall o => add = [o] | _ => add = [] end).
Proof.
  assert (SN : forall t (o : op V) p q (l : list task), nth_error l t = Some (o, p) -> map fst (set_nth t (o, q) l) = map fst l).
  { intros t o p q k. revert t. induction k as [|x k IH]; intros [|t] H; cbn in *; try discriminate; [injection H as ->; reflexivity|]. rewrite IH; auto. }
  assert (SN2 : forall t (o : op V) p q (k k' : list task), nth_error k t = Some (o, p) -> woke V k k' -> map fst (set_nth t (o, q) k') = map fst k).
  { intros t o p q k k' H W. destruct (woke_nth' _ _ _ W _ _ _ H) as [X|[_ X]]; erewrite SN by exact X; apply woke_fst; exact W. }
  destruct l as [o|t c|t|t].
  - exists [o]. cbn. rewrite map_app. auto.
  - exists []. split; [|reflexivity]. rewrite app_nil_r. destruct (next_cases V fr s (LRun t c)) as [->|T]; [reflexivity|].
    remember (next fr s (LRun t c)) as s'. assert (L : length (tasks s') = length (tasks s)).
    { subst s'. cbn. destruct (nth_error (tasks s) t) as [[o p]|] eqn:E; [|reflexivity].
      destruct p; cbn; try reflexivity; try (destruct o; cbn; try reflexivity);
      repeat match goal with |- context [if ?b then _ else _] => destruct b; cbn end; rewrite ?length_set_nth; try reflexivity;
      repeat match goal with |- context [match ?b with _ => _ end] => destruct b eqn:?; cbn end; rewrite ?length_set_nth; unfold wake_all; rewrite ?map_length; try reflexivity.
      eapply woke_length, woke_one; eauto. }
    destruct T; cbn; try (cbn in L; rewrite app_length in L; cbn in L; lia); try reflexivity; eauto.
    + eapply SN2; eauto using woke_all.
  - exists []. split; [|reflexivity]. rewrite app_nil_r. cbn. destruct (nth_error (tasks s) t) as [[o p]|] eqn:E; [|reflexivity].
    destruct o as [| |[|]| | | | | | |]; auto. destruct p; auto. cbn. eauto.
  - exists []. split; [|reflexivity]. rewrite app_nil_r. cbn. destruct (nth_error (tasks s) t) as [[o p]|] eqn:E; [|reflexivity].
    destruct p; auto. cbn. eauto.
Qed.

Lemma calls_mono h1 h2 : exists add, calls fr (h1 ++ h2) = calls fr h1 ++ add.
Proof.
  induction h2 as [|l h2 IH] using rev_ind; [exists []; rewrite !app_nil_r; reflexivity|].
  rewrite app_assoc. unfold calls in *. rewrite final_snoc. destruct IH as (a & IH). destruct (next_ops (final fr (h1 ++ h2)) l) as (b & E & _).
  exists (a ++ b). rewrite E, IH, app_assoc. reflexivity.
Qed.
Lemma call_of_mono h1 h2 t o : call_of fr h1 t = Some o -> call_of fr (h1 ++ h2) t = Some o.
Proof. unfold call_of. destruct (calls_mono h1 h2) as (a & ->). intros H. rewrite nth_error_app1; [exact H|eapply nth_lt; eauto]. Qed.
Lemma no_call_prefix bad h1 h2 : no_call fr bad (h1 ++ h2) -> no_call fr bad h1.
Proof. intros N t o H. eapply N, call_of_mono; eauto. Qed.
Lemma tasks_calls h : length (tasks (final fr h)) = length (calls fr h).
Proof. unfold calls. rewrite map_length. reflexivity. Qed.

(** Induction along a suffix. *)
Lemma suffix_ind (P : history -> Prop) h0 : P h0 -> (forall h l, P (h0 ++ h) -> P ((h0 ++ h) ++ [l])) -> forall h1, P (h0 ++ h1).
Proof.
  intros B S h1. induction h1 as [|l h1 IH] using rev_ind; [rewrite app_nil_r; exact B|]. rewrite app_assoc. apply S. exact IH.
Qed.

(** ** After close() *)
Definition reopens_over (s : state) : Prop := forall t p, nth_error (tasks s) t = Some (OReOpen, p) -> exists r, p = PReturned r.

(** A step either keeps a task, or moves it. *)
Lemma task_back s l t o p : nth_error (tasks (next fr s l)) t = Some (o, p) ->
  (exists p0, nth_error (tasks s) t = Some (o, p0)) \/ (t = length (tasks s) /\ l = LCall o /\ p = PStart).
Proof.
  intros H. destruct (next_ops s l) as (add & E & A).
  assert (X : nth_error (map fst (tasks s) ++ add) t = Some o) by (rewrite <- E; apply (map_nth_error fst _ _ H)).
  destruct (lt_dec t (length (tasks s))) as [L|L].
  - left. rewrite nth_error_app1 in X by (rewrite map_length; exact L).
    destruct (nth_error (tasks s) t) as [[o0 p0]|] eqn:Q; [|apply nth_error_None in Q; lia].
    rewrite (map_nth_error fst _ _ Q) in X. injection X as <-. cbn. eauto.
  - right. rewrite nth_error_app2 in X by (rewrite map_length; unfold QueueModel.task in *; lia). rewrite map_length in X. change (@length (op V * pc V) (tasks s)) with (length (tasks s)) in X.
    destruct l; try (subst add; destruct (t - length (tasks s)); discriminate). subst add.
    destruct (t - length (tasks s)) as [|k] eqn:D; [|destruct k; discriminate]. cbn in X. injection X as ->.
    assert (t = length (tasks s)) by (unfold QueueModel.task in *; lia). subst. cbn in H. rewrite nth_snoc, Nat.eqb_refl in H. injection H as <-. auto.
Qed.

Ltac pk := match goal with |- _ \/ _ => first [left; pk | right; pk] | |- _ /\ _ => split; pk | |- exists _, _ => eexists; pk
  | |- forall _, _ => assumption | _ => first [assumption|reflexivity|eassumption] end.

Lemma step_one s s' (T : tstep s s') : forall t o p, nth_error (tasks s') t = Some (o, p) -> t < length (tasks s) ->
  nth_error (tasks s) t = Some (o, p) \/ (p = PEnter /\ nth_error (tasks s) t = Some (o, PAsleep)) \/
  (exists q, nth_error (tasks s) t = Some (o, q) /\
     (q = PStart /\ (is_push o = true /\ closed s = true /\ p = PReturned RDone \/ is_push o = true /\ closed s = false /\ p = PPush
                     \/ (exists b, o = OWait b /\ p = PEnter) \/ o = OTryPop /\ (p = PChecked \/ p = PReturned RNothing)
                     \/ o = OClose /\ (closed s = true /\ p = PReturned RDone \/ p = PNotify /\ closed s' = true)
                     \/ o = OReOpen /\ p = PReturned RDone \/ (clears o = true /\ p = PReturned RDone) \/
                     ((o = OSize \/ o = OEmpty \/ o = OIsClosed) /\ exists r, p = PReturned r /\ forall v, r <> RTook v))
      \/ q = PPush /\ p = PReturned RDone
      \/ q = PEnter /\ (p = PChecked \/ p = PSleepPre /\ closed s = false)
      \/ q = PSleepPre /\ p = PAsleep
      \/ q = PTimeout /\ (p = PChecked \/ p = PReturned RNothing)
      \/ q = PChecked /\ (closed s = true /\ p = PReturned RNothing \/ closed s = false /\ p = PPop)
      \/ q = PPop /\ (exists v, p = PReturned (RTook v))
      \/ q = PNotify /\ p = PReturned RDone
      \/ q = PAsleep /\ (p = PTimeout \/ p = PEnter))).
Proof.
  intros t' o' p' H L.
  destruct T; cbn in H;
  try match goal with E : nth_error (tasks s) ?t = Some _, H : nth_error (@set_nth _ ?t _ (tasks s)) ?t' = _ |- _ =>
    rewrite (nth_set _ _ _ _ t' E) in H; destruct (Nat.eqb_spec t t'); [subst; injection H as <- <-; right; right; eexists; (split; [exact E|])|left; exact H] end.
  all: try solve [pk].
  - rewrite nth_error_app1 in H by exact L. auto.
  - destruct (woke_nth' _ _ _ H2 _ _ _ H0) as [X|[X _]]; [|discriminate].
    rewrite (nth_set _ _ _ _ t' X) in H. destruct (Nat.eqb_spec t t').
    + subst t'. injection H as <- <-. right. right. eexists. split; [eassumption|]. pk.
    + destruct (woke_nth _ _ _ H2 _ _ _ H) as [Y|[-> Y]]; auto.
  - destruct H1 as [->|[->|(-> & -> & _)]]; pk.
  - destruct H1 as [->|(-> & ->)]; pk.
  - destruct (woke_nth' _ _ _ (woke_all V (tasks s)) _ _ _ H0) as [X|[X _]]; [|discriminate].
    rewrite (nth_set _ _ _ _ t' X) in H. destruct (Nat.eqb_spec t t').
    + subst t'. injection H as <- <-. right. right. eexists. split; [eassumption|]. pk.
    + destruct (woke_nth _ _ _ (woke_all V (tasks s)) _ _ _ H) as [Y|[-> Y]]; auto.
Qed.


Ltac brk := repeat match goal with
  | H : _ \/ _ |- _ => destruct H
  | H : exists _, _ |- _ => destruct H
  | H : _ /\ _ |- _ => destruct H end.

Lemma closed_keep s s' : tstep s s' -> reopens_over s -> closed s = true -> closed s' = true.
Proof.
  intros T R C. destruct T; cbn; auto. destruct (R _ _ H) as (r & X). discriminate.
Qed.

Lemma reopens_keep s l : reopens_over s -> (forall o, l = LCall o -> reopens o = false) -> reopens_over (next fr s l).
Proof.
  intros R N t p H. destruct (task_back _ _ _ _ _ H) as [(p0 & E)|(-> & -> & ->)]; [|specialize (N _ eq_refl); discriminate].
  destruct (R _ _ E) as (r & ->). destruct (next_cases V fr s l) as [X|T]; [rewrite X in H; rewrite E in H; injection H as <-; eauto|].
  destruct (step_one _ _ T _ _ _ H (nth_lt _ _ _ E)) as [X|[(-> & X)|(q & X & K)]]; rewrite E in X; [injection X as <-; eauto|discriminate X|injection X as <-; brk; discriminate].
Qed.

Lemma label_call h l o : l = LCall o -> call_of fr (h ++ [l]) (length (calls fr h)) = Some o.
Proof.
  intros ->. unfold call_of, calls. rewrite final_snoc. cbn. rewrite map_app, nth_error_app2 by apply le_n. rewrite Nat.sub_diag. reflexivity.
Qed.

(** A close() call that began after every reOpen() was over leaves the queue closed, for good. *)
Definition reopen_before (h0 h : history) : Prop :=
  forall t, call_of fr h t = Some OReOpen -> t < length (calls fr h0) /\ done fr h0 t.

Lemma over_prefix h0 h1 : reopen_before h0 (h0 ++ h1) -> reopens_over (final fr (h0 ++ h1)) /\
  (forall t p, length (calls fr h0) <= t -> nth_error (tasks (final fr (h0 ++ h1))) t = Some (OClose, p) -> p <> PStart -> closed (final fr (h0 ++ h1)) = true).
Proof.
  revert h1. refine (suffix_ind (fun h => reopen_before h0 h -> reopens_over (final fr h) /\ (forall t p, length (calls fr h0) <= t ->
    nth_error (tasks (final fr h)) t = Some (OClose, p) -> p <> PStart -> closed (final fr h) = true)) h0 _ _).
  - intros RB. split.
    + intros t p E. destruct (RB t) as [_ (r & R)]; [apply call_of_task; eauto|]. apply ret_in_log in R as (o & X & _). rewrite E in X. injection X as _ ->. eauto.
    + intros t p L E. apply nth_lt in E. rewrite tasks_calls in E. lia.
  - intros h l IH RB. assert (RB' : reopen_before h0 (h0 ++ h)).
    { intros t C. apply RB, call_of_mono, C. }
    destruct (IH RB') as [RO CL]. rewrite final_snoc.
    assert (NR : forall o, l = LCall o -> reopens o = false).
    { intros o E. destruct (reopens o) eqn:Q; [|reflexivity]. destruct o; try discriminate.
      destruct (RB _ (label_call (h0 ++ h) l _ E)) as [X _]. destruct (calls_mono h0 h) as (a & A). rewrite A, app_length in X. lia. }
    split; [apply reopens_keep; auto|].
    intros t p L H P. destruct (next_cases V fr (final fr (h0 ++ h)) l) as [X|T]; [rewrite X in *; eauto|].
    destruct (task_back _ _ _ _ _ H) as [(p0 & E)|(-> & -> & ->)]; [|contradiction].
    destruct (step_one _ _ T _ _ _ H (nth_lt _ _ _ E)) as [X|[(-> & X)|(q & X & K)]].
    + eapply closed_keep; eauto.
    + pose proof (i_shape _ _ (inv_final V fr (h0 ++ h)) _ _ _ X) as (b & Y). discriminate.
    + destruct K as [(-> & K)|K].
      * brk; try discriminate; try (eapply closed_keep; eauto; fail); try assumption.
      * eapply closed_keep; eauto. eapply CL; eauto. intros ->. brk; discriminate.
Qed.

Lemma closed_after h0 h1 tc : reopen_before h0 (h0 ++ h1) -> length (calls fr h0) <= tc -> call_of fr (h0 ++ h1) tc = Some OClose ->
  done fr (h0 ++ h1) tc -> closed (final fr (h0 ++ h1)) = true.
Proof.
  intros RB L C (r & R). destruct (over_prefix h0 h1 RB) as [_ CL]. apply ret_in_log in R as (o & X & _).
  apply call_of_task in C as (p & C). assert (o = OClose) by congruence. subst. eapply CL; eauto. discriminate.
Qed.

(** Calls made after that take nothing, put nothing and never block. *)
Definition shut_pc (o : op V) (p : pc V) : Prop :=
  match p with PPush | PSleepPre | PAsleep | PPop => False | PReturned (RTook _) => False | _ => True end.

Lemma shut h0 h1 h2 tc : reopen_before h0 ((h0 ++ h1) ++ h2) -> length (calls fr h0) <= tc -> call_of fr (h0 ++ h1) tc = Some OClose ->
  done fr (h0 ++ h1) tc ->
  closed (final fr ((h0 ++ h1) ++ h2)) = true /\
  (forall t o p, length (calls fr (h0 ++ h1)) <= t -> nth_error (tasks (final fr ((h0 ++ h1) ++ h2))) t = Some (o, p) ->
     shut_pc o p /\ forall vs, ~ In (EPut t vs) (trace fr ((h0 ++ h1) ++ h2))).
Proof.
  intros RB L C D. revert h2 RB.
  refine (suffix_ind (fun h => reopen_before h0 h -> closed (final fr h) = true /\
    (forall t o p, length (calls fr (h0 ++ h1)) <= t -> nth_error (tasks (final fr h)) t = Some (o, p) ->
     shut_pc o p /\ forall vs, ~ In (EPut t vs) (trace fr h))) (h0 ++ h1) _ _).
  - intros RB. split; [eapply closed_after; eauto|]. intros t o p L' E. apply nth_lt in E. rewrite tasks_calls in E. lia.
  - intros h l IH RB. assert (RB' : reopen_before h0 ((h0 ++ h1) ++ h)) by (intros t X; apply RB, call_of_mono, X).
    destruct (IH RB') as [CL TS]. rewrite <- (app_assoc h0 h1 h) in RB'. destruct (over_prefix _ _ RB') as [RO _]. rewrite (app_assoc h0 h1 h) in RO.
    remember ((h0 ++ h1) ++ h) as hh. unfold trace. rewrite final_snoc.
    destruct (next_cases V fr (final fr hh) l) as [X|T]; [rewrite X; auto|].
    split; [eapply closed_keep; eauto|]. intros t o p Lt H.
    assert (EP : forall vs, In (EPut t vs) (tr (next fr (final fr hh) l)) -> In (EPut t vs) (trace fr hh) \/ nth_error (tasks (final fr hh)) t = Some (o, PPush)).
    { intros vs I. destruct T; cbn [tr tasks ret emit set_pc with_items with_tasks with_mutex with_closed] in *; rewrite ?in_app_iff in I; cbn [In] in I;
        try (left; unfold trace; intuition discriminate).
      destruct I as [[I|[I|[]]]|[I|[]]]; [left; exact I| |discriminate]. injection I as -> <-. right.
      destruct (woke_nth' _ _ _ H2 _ _ _ H0) as [Y|[Y _]]; [|discriminate]. rewrite (nth_set _ _ _ _ t Y), Nat.eqb_refl in H. injection H as <- _. exact H0. }
    destruct (task_back _ _ _ _ _ H) as [(p0 & E)|(-> & -> & ->)].
    + destruct (TS _ _ _ Lt E) as [SP NP]. split.
      * destruct (step_one _ _ T _ _ _ H (nth_lt _ _ _ E)) as [X|[(-> & X)|(q & X & K)]].
        -- rewrite E in X. injection X as ->. exact SP.
        -- exact Logic.I.
        -- rewrite E in X. injection X as ->. clear EP H. destruct q; cbn in SP; try contradiction; brk; subst; try discriminate; try congruence; cbn; auto.
           all: destruct x; auto; match goal with H : forall v, _ <> _ |- _ => eapply H; reflexivity end.
      * intros vs I. destruct (EP vs I) as [Y|Y]; [eapply NP; eauto|]. rewrite E in Y. injection Y as ->. cbn in SP. exact SP.
    + split; [exact Logic.I|]. intros vs I. destruct (EP vs I) as [Y|Y].
      * apply put_what in Y as (o1 & Y & _). apply call_of_task in Y as (p1 & Y). apply nth_lt in Y. lia.
      * apply nth_lt in Y. lia.
Qed.


(** ** Who can be left asleep by close() *)
Definition caught (h : history) (t : nat) : Prop := exists h' h'' o, h = h' ++ h'' /\
  nth_error (tasks (final fr h')) t = Some (o, PSleepPre) /\ closed (final fr h') = true.

Lemma caught_mono h l t : caught h t -> caught (h ++ [l]) t.
Proof. intros (h' & h'' & o & -> & E & C). exists h', (h'' ++ [l]), o. rewrite app_assoc. auto. Qed.

Lemma left_asleep h : no_call fr reopens h -> closed (final fr h) = true -> forall t o, nth_error (tasks (final fr h)) t = Some (o, PAsleep) ->
  caught h t \/ exists c o', nth_error (tasks (final fr h)) c = Some (o', PNotify).
Proof.
  induction h as [|l h IH] using rev_ind; intros NR C t o E; [discriminate|].
  rewrite final_snoc in *. pose proof (no_call_prefix _ _ _ NR) as NR'.
  assert (RO : reopens_over (final fr h)).
  { intros t' p' X. specialize (NR' t' OReOpen). rewrite call_of_task in NR'. specialize (NR' (ex_intro _ _ X)). discriminate. }
  destruct (next_cases V fr (final fr h) l) as [X|T].
  { rewrite X in *. destruct (IH NR' C _ _ E) as [K|K]; [left; apply caught_mono; exact K|right; exact K]. }
  remember (next fr (final fr h) l) as s'.
  destruct (closed (final fr h)) eqn:C0.
  - (* already closed *)
    assert (PRE : nth_error (tasks (final fr h)) t = Some (o, PSleepPre) \/ nth_error (tasks (final fr h)) t = Some (o, PAsleep)).
    { subst s'. destruct (task_back _ _ _ _ _ E) as [(p0 & E0)|(-> & -> & X)]; [|discriminate].
      destruct (step_one _ _ T _ _ _ E (nth_lt _ _ _ E0)) as [X|[(X & _)|(q & X & K)]]; [auto|discriminate|].
      destruct K as [K|K]; [brk; subst; discriminate|]. brk; subst; try discriminate. auto. }
    destruct PRE as [PRE|PRE].
    { left. exists h, [l], o. auto. }
    destruct (IH NR' eq_refl _ _ PRE) as [K|(c & o' & K)]; [left; apply caught_mono; exact K|].
    (* a notification was pending: either still pending, or nobody sleeps now *)
    pose proof (i_shape _ _ (inv_final V fr h) _ _ _ K) as SC. cbn in SC. subst o'.
    assert (KEEP : forall t1 o1 q l1, nth_error (tasks (final fr h)) t1 = Some (o1, q) -> q <> PNotify -> woke V (tasks (final fr h)) l1 ->
       forall p1, nth_error (set_nth t1 (o1, p1) l1) c = Some (OClose, PNotify)).
    { intros t1 o1 q l1 E1 Q W p1. destruct (woke_nth' _ _ _ W _ _ _ K) as [Y|[Y _]]; [|discriminate].
      rewrite nth_set_other; [exact Y|]. intros ->. congruence. }
    right. exists c, OClose.
    destruct T; cbn [tasks ret emit set_pc with_items with_tasks with_mutex with_closed] in *;
      try (eapply KEEP; [eassumption|discriminate|apply woke_refl]; fail);
      try (eapply KEEP; [eassumption|discriminate|assumption]; fail).
    + rewrite nth_error_app1; [exact K|eapply nth_lt; eauto].
    + eapply KEEP; [eassumption| |apply woke_refl]. destruct H0 as [->|[->|(-> & _)]]; discriminate.
    + eapply KEEP; [eassumption| |apply woke_refl]. destruct H0 as [->|(-> & _)]; discriminate.
    + exact K.
    + exfalso. destruct (woke_nth' _ _ _ (woke_all V (tasks (final fr h))) _ _ _ H) as [Y|[Y _]]; [|discriminate].
      rewrite (nth_set _ _ _ _ t Y) in E. destruct (Nat.eqb t0 t); [discriminate|].
      clear - E. revert t E. induction (tasks (final fr h)) as [|[o1 p1] k IHk]; intros [|t] E; cbn in E; try discriminate; [|eauto].
      destruct p1; cbn in E; discriminate.
  - destruct T; cbn [closed tasks ret emit set_pc with_items with_tasks with_mutex with_closed] in *; try congruence.
    right. exists t0, OClose. rewrite (nth_set _ _ _ _ t0 H), Nat.eqb_refl. reflexivity.
Qed.

(** A waiter that is awake when the queue is closed returns without an element, in two of its own steps. *)
Lemma awake_returns h t b p : closed (final fr h) = true -> mutex (final fr h) = None ->
  nth_error (tasks (final fr h)) t = Some (OWait b, p) -> (p = PEnter \/ p = PTimeout) ->
  forall c1 c2, returned fr (h ++ [LRun t c1; LRun t c2]) t RNothing.
Proof.
  intros C M E P c1 c2. eapply ret_task with (o := OWait b).
  rewrite final_app. cbn [fold_left next]. rewrite E.
  assert (S1 : step_at fr (final fr h) t (OWait b) p c1 = with_mutex (set_pc (final fr h) t (OWait b) PChecked) (Some t)).
  { destruct P as [->| ->]; cbn [step_at]; unfold free, pred; rewrite M, C, orb_true_r; reflexivity. }
  rewrite S1. cbn [tasks with_mutex set_pc]. rewrite (nth_set _ _ _ _ t E), Nat.eqb_refl. cbn [step_at closed with_mutex set_pc]. rewrite C.
  cbn [tasks with_mutex ret set_pc]. rewrite nth_set_same; [reflexivity|]. rewrite length_set_nth. eapply nth_lt; eauto.
Qed.

(** ** Without close() no waiter sleeps while there is something for it *)
Definition coming (x : task) : bool := match snd x with PEnter | PTimeout | PChecked | PPop => true | _ => false end.

Lemma existsb_cnt (f : task -> bool) l : existsb f l = false -> cnt f l = 0.
Proof.
  intros H. apply cnt_zero. intros x I. destruct (f x) eqn:F; [|reflexivity].
  assert (existsb f l = true) by (apply existsb_exists; eauto). congruence.
Qed.
Lemma wake_all_cnt (l : list task) : cnt asleepb (wake_all l) = 0.
Proof. apply cnt_zero. intros x I. apply in_map_iff in I as ([o p] & <- & _). destruct p; reflexivity. Qed.
Lemma wake_all_nth (l : list task) t o p : nth_error l t = Some (o, p) -> p <> PAsleep -> nth_error (wake_all l) t = Some (o, p).
Proof. intros H N. destruct (woke_nth' _ _ _ (woke_all V l) _ _ _ H) as [X|[X _]]; [exact X|contradiction]. Qed.

Definition wake_inv (s : state) : Prop :=
  (closed s = true -> ever_closed V s) /\
  (ever_closed V s \/
  ((1 <= cnt asleepb (tasks s) -> length (items s) <= cnt coming (tasks s)) /\
   (forall t o, nth_error (tasks s) t = Some (o, PSleepPre) -> items s = []))).

Lemma ever_step s s' : tstep s s' -> ever_closed V s -> ever_closed V s'.
Proof.
  intros T (t0 & p0 & E & N).
  assert (GEN : forall t o p l q, nth_error (tasks s) t = Some (o, p) -> woke V (tasks s) l -> q <> PStart -> tasks s' = set_nth t (o, q) l -> ever_closed V s').
  { intros t o p l q E1 W Q TT. eapply (moved_ever V s s' t o p q); [|exact Q|exists t0, p0; auto].
    split; [exact E1|]. exists l. auto. }
  destruct T; cbn in *; try (eapply GEN; [| | |reflexivity]; [eassumption|apply woke_refl|discriminate]).
  - exists t0, p0. split; [cbn; rewrite nth_error_app1; [exact E|eapply nth_lt; eauto]|exact N].
  - eapply GEN; [| | |reflexivity]; [eassumption|eassumption|discriminate].
  - exists t0, p0. auto.
  - eapply GEN; [| | |reflexivity]; [eassumption|apply woke_all|discriminate].
Qed.

Lemma wake_step s s' : inv V s -> tstep s s' -> wake_inv s -> wake_inv s'.
Proof.
  intros I T (CL & [EC|[A B]]).
  { split; [|left; eapply ever_step; eauto]. intros _. eapply ever_step; eauto. }
  assert (MX : forall t o, nth_error (tasks s) t = Some (o, PSleepPre) -> mutex s = Some t).
  { intros t o X. apply (i_mutex _ _ I). eauto. }
  assert (KEEP : forall (x : task) t (y : task), nth_error (tasks s) t = Some x -> cnt asleepb (set_nth t y (tasks s)) + b2n (asleepb x) = cnt asleepb (tasks s) + b2n (asleepb y)
     /\ cnt coming (set_nth t y (tasks s)) + b2n (coming x) = cnt coming (tasks s) + b2n (coming y)).
  { intros. split; apply cnt_set; assumption. }
  assert (SP : forall t o p q, nth_error (tasks s) t = Some (o, p) -> q <> PSleepPre -> forall t' o', nth_error (set_nth t (o, q) (tasks s)) t' = Some (o', PSleepPre) -> items s = []).
  { intros t o p q X Q t' o' Y. rewrite (nth_set _ _ _ _ t' X) in Y. destruct (Nat.eqb t t'); [injection Y as _ Y; contradiction|eauto]. }
  destruct (closed s) eqn:C.
  { split; [|left; eapply ever_step; eauto]. intros _. eapply ever_step; eauto. }
  assert (POP : forall t o, nth_error (tasks s) t = Some (o, PPop) -> mutex s = Some t) by (intros t o X; apply (i_mutex _ _ I); eauto).
  assert (ND : (exists t o, nth_error (tasks s) t = Some (o, PNotify)) \/ ~ exists t o, nth_error (tasks s) t = Some (o, PNotify)).
  { assert (DEC : forall k : list task, (exists t o, nth_error k t = Some (o, PNotify)) \/ ~ exists t o, nth_error k t = Some (o, PNotify)); [|apply DEC].
    induction k as [|[o p] k IHk]; [right; intros ([|t] & o & Y); discriminate|].
    destruct IHk as [(t & o' & Y)|N]; [left; exists (S t), o'; exact Y|].
    destruct p; try (right; intros ([|t'] & o' & Y); [discriminate|apply N; eauto]; fail). left. exists 0, o. reflexivity. }
  destruct ND as [(tn & on & ND)|ND].
  { pose proof (i_shape _ _ I _ _ _ ND) as SH. cbn in SH. subst on. assert (EC : ever_closed V s) by (exists tn, PNotify; split; [exact ND|discriminate]).
    split; [|left; eapply ever_step; eauto]. intros _. eapply ever_step; eauto. }
  destruct T; try congruence; cbn [closed tasks items ret emit set_pc with_items with_tasks with_mutex with_closed] in *.
  all: try (split; [cbn; congruence|right; cbn [closed tasks items ret emit set_pc with_items with_tasks with_mutex with_closed]]).
  all: try (match goal with E : nth_error (tasks _) ?t = Some ?x |- context [@set_nth _ ?t ?y (tasks _)] => pose proof (cnt_set asleepb _ t y x E) as K1; pose proof (cnt_set coming _ t y x E) as K2; cbn [asleepb coming snd b2n] in K1, K2 end).
  all: try (split; [intros; lia|eapply SP; [eassumption|discriminate]]).
  - (* a call *) rewrite !cnt_app. change (cnt asleepb [(o, PStart)]) with 0. change (cnt coming [(o, PStart)]) with 0. rewrite !Nat.add_0_r. split; [exact A|].
    intros t o' X. rewrite nth_snoc in X. destruct (Nat.eqb t (length (tasks s))); [discriminate|eauto].
  - (* a push *)
    assert (SP' : forall t' o', nth_error (set_nth t (o, PReturned RDone) l) t' = Some (o', PSleepPre) -> items s ++ elems o = []).
    { intros t' o' Y. exfalso. destruct (woke_nth' _ _ _ H1 _ _ _ H) as [X|[X _]]; [|discriminate]. rewrite (nth_set _ _ _ _ t' X) in Y.
      destruct (Nat.eqb t t'); [discriminate|]. destruct (woke_nth _ _ _ H1 _ _ _ Y) as [Z|[Z _]]; [|discriminate]. apply MX in Z. congruence. }
    split; [|exact SP'].
    assert (CS : forall f : task -> bool, f (o, PPush) = false -> f (o, PReturned RDone) = false -> cnt f (set_nth t (o, PReturned RDone) l) = cnt f l).
    { intros f F1 F2. destruct (woke_nth' _ _ _ H1 _ _ _ H) as [X|[X _]]; [|discriminate]. pose proof (cnt_set f l t (o, PReturned RDone) (o, PPush) X) as Y. rewrite F1, F2 in Y. cbn [b2n] in Y. rewrite !Nat.add_0_r in Y. exact Y. }
    rewrite !CS by reflexivity. pose proof (i_shape _ _ I _ _ _ H) as SH. cbn in SH.
    destruct o; try discriminate; cbn [elems].
    + destruct H2 as (c & W). unfold wake_one in W. rewrite app_length. cbn [length].
      assert (N0 : existsb asleepb (tasks s) = false -> l = tasks s -> 1 <= cnt asleepb l -> length (items s) + 1 <= cnt coming l).
      { intros Z -> Y. apply existsb_cnt in Z. lia. }
      destruct (nth_error (tasks s) c) as [[o1 p1]|] eqn:E1.
      * destruct p1; try (destruct (existsb asleepb (tasks s)) eqn:Z; [discriminate|injection W as <-; auto]; fail).
        injection W as <-. destruct (KEEP (o1, PAsleep) c (o1, PEnter) E1) as [K1 K2]. cbn [asleepb coming snd b2n] in K1, K2. intros Y. lia.
      * destruct (existsb asleepb (tasks s)) eqn:Z; [discriminate|]. injection W as <-. auto.
    + subst l. rewrite wake_all_cnt. lia.
  - (* evaluated, something is there *)
    destruct H0 as [->|[->|(-> & -> & _)]]; cbn [asleepb coming snd b2n] in K1, K2;
      (split; [intros; lia|eapply SP; [eassumption|discriminate]]).
  - (* evaluated, empty *) rewrite H1. split; [cbn; lia|reflexivity].
  - (* falls asleep *) rewrite (B _ _ H). split; [cbn; lia|reflexivity].
  - destruct H0 as [->|(-> & ->)]; cbn [asleepb coming snd b2n] in K1, K2;
      rewrite H2; (split; [cbn; lia|reflexivity]).
  - (* takes *)
    assert (LL : length (remove_nth c (items s)) + 1 = length (items s)).
    { rewrite (Permutation_length (remove_nth_perm V _ _ _ H0)). cbn. lia. }
    split; [intros; lia|]. intros t' o' Y. exfalso. rewrite (nth_set _ _ _ _ t' H) in Y. destruct (Nat.eqb_spec t t'); [discriminate|].
    apply MX in Y. apply POP in H. congruence.
  - auto.
  - split; [cbn; intros _; eexists t, PNotify; split; [cbn; rewrite (nth_set _ _ _ _ t H), Nat.eqb_refl; reflexivity|discriminate]|left].
    eexists t, PNotify. split; [cbn; rewrite (nth_set _ _ _ _ t H), Nat.eqb_refl; reflexivity|discriminate].
  - exfalso. apply ND. eauto.
  - split; [cbn; lia|reflexivity].
Qed.

Lemma wake_final h : wake_inv (final fr h).
Proof.
  assert (X : inv V (final fr h) /\ wake_inv (final fr h)); [|apply X].
  apply state_ind with (fr := fr).
  - split; [apply inv_init|]. split; [discriminate|]. right. cbn. split; [rewrite cnt_nil; lia|intros [|t]; discriminate].
  - intros s s' [I W] T. split; [eapply inv_step; eauto|eapply wake_step; eauto].
Qed.

Lemma no_sleep_on_content h t : no_call fr closes h -> asleep fr h t ->
  (forall t', t' < length (calls fr h) -> done fr h t' \/ asleep fr h t') -> content fr h = [].
Proof.
  intros NC (o & E) ALL. destruct (wake_final h) as (_ & [(t0 & p0 & X & _)|[A _]]).
  - specialize (NC t0 OClose). rewrite call_of_task in NC. specialize (NC (ex_intro _ _ X)). discriminate.
  - assert (S1 : 1 <= cnt asleepb (tasks (final fr h))) by (eapply cnt_pos; [eapply nth_error_In; exact E|reflexivity]).
    specialize (A S1). rewrite (cnt_zero coming) in A; [unfold content; destruct (items (final fr h)); [reflexivity|cbn in A; lia]|].
    intros [o1 p1] I. apply In_nth_error in I as (t1 & I). destruct (ALL t1) as [(r & R)|(o2 & R)].
    + rewrite <- tasks_calls. eapply nth_lt; eauto.
    + apply ret_in_log in R as (o2 & R & _). rewrite I in R. injection R as -> ->. reflexivity.
    + rewrite I in R. injection R as -> ->. reflexivity.
Qed.

(** ** Undefined behaviour only after reOpen() *)
Definition pop_inv (s : state) : Prop :=
  (forall t o, nth_error (tasks s) t = Some (o, PPop) -> items s <> []) /\
  (forall t o, nth_error (tasks s) t = Some (o, PChecked) -> items s <> [] \/ closed s = true) /\
  (forall t, ~ In (EUndefined t) (tr s)).

Lemma pop_final h : no_call fr reopens h -> pop_inv (final fr h).
Proof.
  induction h as [|l h IH] using rev_ind; intros NR.
  { split; [|split]; cbn; [intros [|t]; discriminate|intros [|t]; discriminate|auto]. }
  pose proof (no_call_prefix _ _ _ NR) as NR'. destruct (IH NR') as (A & B & C). rewrite final_snoc.
  assert (RO : reopens_over (final fr h)).
  { intros t' p' X. specialize (NR' t' OReOpen). rewrite call_of_task in NR'. specialize (NR' (ex_intro _ _ X)). discriminate. }
  destruct (next_cases V fr (final fr h) l) as [->|T]; [split; auto|].
  pose proof (inv_final V fr h) as I. set (s := final fr h) in *.
  assert (MX : forall t o p, nth_error (tasks s) t = Some (o, p) -> holds V p = true -> mutex s = Some t) by (intros t o p X Y; apply (i_mutex _ _ I); eauto).
  remember (next fr s l) as s'. clear Heqs'.
  assert (IT : (items s' = items s) \/ mutex s = None \/ exists t o v, nth_error (tasks s) t = Some (o, PPop) /\ nth_error (tasks s') t = Some (o, PReturned (RTook v))).
  { destruct T; cbn; auto. right. right. exists t, o, v. rewrite (nth_set _ _ _ _ t H), Nat.eqb_refl. auto. }
  assert (IT2 : items s' = items s \/ (items s <> [] -> items s' <> []) \/ (exists t b, nth_error (tasks s) t = Some (OClear b, PStart)) \/ exists t o v, nth_error (tasks s) t = Some (o, PPop) /\ nth_error (tasks s') t = Some (o, PReturned (RTook v))).
  { destruct T; cbn; auto; [|right; right; right; exists t, o, v; rewrite (nth_set _ _ _ _ t H), Nat.eqb_refl; auto|right; right; left; eauto].
    right. left. intros X Y. apply X. destruct (items s); [reflexivity|discriminate]. }
  assert (CK := fun x => closed_keep s s' T RO x).
  assert (HOLD : forall t o p, nth_error (tasks s') t = Some (o, p) -> nth_error (tasks s) t = Some (o, p) -> holds V p = true -> items s' = items s).
  { intros t o p X Y Hp. pose proof (MX _ _ _ Y Hp) as M. destruct IT as [Z|[Z|(t1 & o1 & v & Z1 & Z2)]]; [exact Z|congruence|].
    pose proof (MX _ _ _ Z1 eq_refl). assert (t1 = t) by congruence. subst. rewrite X in Z2. injection Z2 as -> ->. discriminate. }
  assert (BACK : forall t o p, nth_error (tasks s') t = Some (o, p) -> holds V p = true -> t < length (tasks s)).
  { intros t o p X Hp. destruct (lt_dec t (length (tasks s))); [assumption|exfalso].
    destruct T; cbn in X; try (apply nth_lt in X; rewrite length_set_nth in X; lia).
    - rewrite nth_snoc in X. destruct (Nat.eqb_spec t (length (tasks s))); [injection X as <- <-; discriminate|apply nth_lt in X; lia].
    - apply nth_lt in X. rewrite length_set_nth in X. rewrite (woke_length _ _ _ H1) in X. lia.
    - apply nth_lt in X. lia.
    - apply nth_lt in X. rewrite length_set_nth in X. rewrite (woke_length _ _ _ (woke_all V (tasks s))) in X. lia. }
  split; [|split].
  - intros t o X. pose proof (BACK _ _ _ X eq_refl) as L. destruct (step_one s s' T _ _ _ X L) as [Y|[(Y & _)|(q & Y & K)]]; [|discriminate|].
    + rewrite (HOLD _ _ _ X Y eq_refl). eauto.
    + assert (q = PChecked /\ closed s = false) as [-> CF] by (brk; subst; try discriminate; auto).
      destruct (B _ _ Y) as [Z|Z]; [|congruence].
      destruct IT as [W|[W|(t1 & o1 & v & Z1 & Z2)]]; [rewrite W; exact Z|rewrite (MX _ _ _ Y eq_refl) in W; discriminate|].
      assert (t1 = t) by (pose proof (MX _ _ _ Z1 eq_refl); pose proof (MX _ _ _ Y eq_refl); congruence). subst. rewrite X in Z2. discriminate.
  - intros t o X. pose proof (BACK _ _ _ X eq_refl) as L. destruct (step_one s s' T _ _ _ X L) as [Y|[(Y & _)|(q & Y & K)]]; [|discriminate|].
    + rewrite (HOLD _ _ _ X Y eq_refl). destruct (B _ _ Y) as [Z|Z]; auto.
    + clear IT IT2 HOLD. destruct T; cbn in *; try (rewrite (nth_set _ _ _ _ t H) in X; destruct (Nat.eqb_spec t0 t); [try discriminate; subst|rewrite Y in X; injection X as ->; brk; discriminate]).
      * rewrite nth_error_app1 in X by exact L. rewrite Y in X. injection X as ->. brk; discriminate.
      * destruct (woke_nth' _ _ _ H1 _ _ _ H) as [Z|[Z _]]; [|discriminate]. rewrite (nth_set _ _ _ _ t Z) in X. destruct (Nat.eqb t0 t); [discriminate|].
        destruct (woke_nth _ _ _ H1 _ _ _ X) as [W|[W _]]; [|discriminate]. rewrite Y in W. injection W as ->. brk; discriminate.
      * destruct H0 as [_|[_|(_ & _ & H0)]]; auto. all: unfold pred in H2; apply orb_true_iff in H2 as [H2|H2]; auto; left; apply nonempty_true; exact H2.
      * rewrite Y in X. injection X as ->. brk; discriminate.
      * destruct (woke_nth' _ _ _ (woke_all V (tasks s)) _ _ _ H) as [Z|[Z _]]; [|discriminate]. rewrite (nth_set _ _ _ _ t Z) in X. destruct (Nat.eqb t0 t); [discriminate|].
        destruct (woke_nth _ _ _ (woke_all V (tasks s)) _ _ _ X) as [W|[W _]]; [|discriminate]. rewrite Y in W. injection W as ->. brk; discriminate.
  - intros t X. destruct T; cbn in X; rewrite ?in_app_iff in X; cbn in X; try (eapply C; exact X); try (brk; try discriminate; try contradiction; eapply C; eassumption).
    exfalso. eapply A; eauto.
Qed.


End P.
