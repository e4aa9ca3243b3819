(** What each call does: per-call logs, the mutex, undefined behaviour. *)
From Verif Require Import ListUtil QueueModel QueueSpec QueueProofs.
From Coq Require Import Permutation.

Section P.
Variable V : Type.
Variable fr : list V -> nat -> bool.
Notation state := (state V). Notation task := (task V). Notation history := (history V).
Notation tstep := (tstep V fr).

Definition of_task (t : nat) (e : event V) : bool :=
  match e with EPut t' _ | ETake t' _ | EClear t' _ | ERet t' _ => Nat.eqb t t' | EUndefined _ => false end.
Definition log (t : nat) (l : list (event V)) := filter (of_task t) l.

Definition ever_closed (s : state) : Prop := exists t p, nth_error (tasks s) t = Some (OClose, p) /\ p <> PStart.

Definition holds (p : pc V) : bool := match p with PSleepPre | PChecked | PPop => true | _ => false end.

Definition shape (o : op V) (p : pc V) : Prop :=
  match p with
  | PPush => is_push o = true
  | PEnter | PSleepPre | PAsleep | PTimeout => exists b, o = OWait b
  | PChecked | PPop => takes_out o = true
  | PNotify => o = OClose
  | _ => True
  end.

Definition log_ok (s : state) (t : nat) (o : op V) (p : pc V) : Prop :=
  match p with
  | PReturned (RTook v) => takes_out o = true /\ log t (tr s) = [ETake t v; ERet t (RTook v)]
  | PReturned r =>
      (is_push o = true /\ r = RDone /\ log t (tr s) = [EPut t (elems o); ERet t r]) \/
      (exists b vs, o = OClear b /\ r = RDone /\ log t (tr s) = [EClear t vs; ERet t r]) \/
      (clears o = false /\ log t (tr s) = [ERet t r] /\ (is_push o = true -> r = RDone /\ ever_closed s) /\
        (takes_out o = true -> r = RNothing))
  | _ => log t (tr s) = []
  end.

Record inv (s : state) : Prop := {
  i_shape : forall t o p, nth_error (tasks s) t = Some (o, p) -> shape o p;
  i_mutex : forall t, mutex s = Some t <-> exists o p, nth_error (tasks s) t = Some (o, p) /\ holds p = true;
  i_log : forall t o p, nth_error (tasks s) t = Some (o, p) -> log_ok s t o p;
  i_none : forall t, length (tasks s) <= t -> log t (tr s) = [];
  i_closed : closed s = true -> ever_closed s
}.

Lemma log_app t a b : log t (a ++ b) = log t a ++ log t b.
Proof. apply filter_app. Qed.

(** The call at [t] moves from (o, p) to (o, q), the others at most wake up. *)
Definition moved (s s' : state) (t : nat) (o : op V) (p q : pc V) : Prop :=
  nth_error (tasks s) t = Some (o, p) /\ exists l, woke V (tasks s) l /\ tasks s' = set_nth t (o, q) l.

Lemma moved_nth s s' t o p q : moved s s' t o p q ->
  forall t' o' p', nth_error (tasks s') t' = Some (o', p') ->
  (t' = t /\ o' = o /\ p' = q) \/
  (t' <> t /\ (nth_error (tasks s) t' = Some (o', p') \/ (p' = PEnter /\ nth_error (tasks s) t' = Some (o', PAsleep)))).
Proof.
  intros (E & l & W & ->) t' o' p' H.
  assert (exists p0, nth_error l t = Some (o, p0)) as (p0 & E').
  { destruct (woke_nth' _ _ _ W _ _ _ E) as [X|[_ X]]; eauto. }
  rewrite (nth_set _ _ _ _ t' E') in H. destruct (Nat.eqb_spec t t').
  - injection H as -> ->. left. auto.
  - right. split; [congruence|]. eapply woke_nth; eauto.
Qed.

Lemma moved_nth' s s' t o p q : moved s s' t o p q ->
  nth_error (tasks s') t = Some (o, q) /\
  forall t' o' p', t' <> t -> nth_error (tasks s) t' = Some (o', p') ->
    nth_error (tasks s') t' = Some (o', p') \/ (p' = PAsleep /\ nth_error (tasks s') t' = Some (o', PEnter)).
Proof.
  intros (E & l & W & ->).
  assert (exists p0, nth_error l t = Some (o, p0)) as (p0 & E').
  { destruct (woke_nth' _ _ _ W _ _ _ E) as [X|[_ X]]; eauto. }
  split; [rewrite (nth_set _ _ _ _ t E'), Nat.eqb_refl; reflexivity|].
  intros t' o' p' N H. rewrite (nth_set _ _ _ _ t' E'). destruct (Nat.eqb_spec t t'); [congruence|].
  eapply woke_nth'; eauto.
Qed.

Lemma moved_length s s' t o p q : moved s s' t o p q -> length (tasks s') = length (tasks s).
Proof. intros (E & l & W & ->). rewrite length_set_nth. eapply woke_length; eauto. Qed.

Lemma moved_ever s s' t o p q : moved s s' t o p q -> q <> PStart -> ever_closed s -> ever_closed s'.
Proof.
  intros M Q (t0 & p0 & E & N). destruct (moved_nth' _ _ _ _ _ _ M) as [Et Eo]. destruct M as (Em & _).
  destruct (Nat.eq_dec t0 t).
  - subst. rewrite E in Em. injection Em as <- <-. exists t, q. split; [exact Et|exact Q].
  - destruct (Eo _ _ _ n E) as [X|[-> X]]; eexists _, _; (split; [exact X|congruence]).
Qed.

Lemma log_ok_mono s s' t o p : log t (tr s') = log t (tr s) -> (ever_closed s -> ever_closed s') -> log_ok s t o p -> log_ok s' t o p.
Proof.
  intros E M. unfold log_ok. rewrite E. destruct p; auto. destruct r; auto; intros [H|[H|(H1 & H2 & H3 & H4)]]; auto; right; right; intuition.
Qed.

(** Generic preservation: the moving call's log grows by [add], which only contains its events. *)
Lemma preserve s s' t o p q add :
  inv s -> moved s s' t o p q -> tr s' = tr s ++ add -> (forall t', t' <> t -> log t' add = []) ->
  q <> PStart -> shape o q ->
  (match q with PReturned _ => log t (tr s) = [] -> log_ok s' t o q | _ => log t add = [] end) ->
  (match p with PReturned _ => False | _ => True end) ->
  (mutex s' = mutex s /\ holds q = holds p \/ mutex s' = Some t /\ mutex s = None /\ holds q = true
     \/ mutex s' = None /\ holds p = true /\ holds q = false) ->
  (closed s' = true -> closed s = true \/ o = OClose) ->
  inv s'.
Proof.
  intros I M T A PS SH L PR MX CL.
  assert (MN2 := moved_nth _ _ _ _ _ _ M). assert (MN' := moved_nth' _ _ _ _ _ _ M). destruct MN' as [Et Eo].
  assert (Ep : nth_error (tasks s) t = Some (o, p)) by (destruct M as (X & _); exact X).
  assert (EV : ever_closed s -> ever_closed s') by (eapply moved_ever; eauto).
  constructor.
  - intros t' o' p' H. destruct (MN2 _ _ _ H) as [(-> & -> & ->)|(N & [X|[-> X]])]; [exact SH|eapply (i_shape s I); eauto|].
    exact (i_shape s I _ _ _ X).
  - intros t'. split.
    + intros H. destruct MX as [[M1 M2]|[(M1 & M2 & M3)|(M1 & M2 & M3)]].
      * rewrite M1 in H. apply (i_mutex s I) in H as (o' & p' & X & Hp). destruct (Nat.eq_dec t' t).
        -- subst. rewrite Ep in X. injection X as <- <-. exists o, q. split; [exact Et|congruence].
        -- destruct (Eo _ _ _ n X) as [Y|[-> _]]; [eauto|discriminate].
      * rewrite M1 in H. injection H as <-. eauto.
      * congruence.
    + intros (o' & p' & H & Hp). destruct (MN2 _ _ _ H) as [(-> & -> & ->)|(N & [X|[-> X]])]; [| |discriminate].
      * destruct MX as [[M1 M2]|[(M1 & M2 & M3)|(M1 & M2 & M3)]]; [|congruence|congruence].
        rewrite M1. apply (i_mutex s I). exists o, p. split; [exact Ep|congruence].
      * assert (mutex s = Some t') by (apply (i_mutex s I); eauto).
        destruct MX as [[M1 M2]|[(M1 & M2 & M3)|(M1 & M2 & M3)]]; [congruence|congruence|].
        assert (mutex s = Some t) by (apply (i_mutex s I); eauto). congruence.
  - intros t' o' p' H. destruct (MN2 _ _ _ H) as [(-> & -> & ->)|(N & [X|[-> X]])].
    + assert (L0 : log t (tr s) = []) by (pose proof (i_log s I _ _ _ Ep) as L0; destruct p; try exact L0; contradiction).
      destruct q; auto; cbn; rewrite T, log_app, L0; exact L.
    + eapply log_ok_mono; [|exact EV|eapply (i_log s I); eauto]. rewrite T, log_app, (A _ N), app_nil_r. reflexivity.
    + cbn. rewrite T, log_app, (A _ N), app_nil_r. exact (i_log s I _ _ _ X).
  - intros t' H. rewrite (moved_length _ _ _ _ _ _ M) in H.
    assert (t' <> t) by (apply nth_lt in Ep; lia). rewrite T, log_app, (A _ H0), app_nil_r. apply (i_none s I); exact H.
  - intros C. destruct (CL C) as [C'|C']; [apply EV, (i_closed s I), C'|]. subst. exists t, q. auto.
Qed.

Lemma moved_same s t o p q : nth_error (tasks s) t = Some (o, p) -> forall s', tasks s' = set_nth t (o, q) (tasks s) -> moved s s' t o p q.
Proof. intros E s' H. split; [exact E|]. exists (tasks s). split; [apply woke_refl|exact H]. Qed.

Lemma inv_init : inv init.
Proof.
  constructor; cbn.
  - intros [|t]; discriminate.
  - intros t. split; [discriminate|]. intros (o & p & H & _). destruct t; discriminate.
  - intros [|t]; discriminate.
  - reflexivity.
  - discriminate.
Qed.

Lemma inv_step s s' : inv s -> tstep s s' -> inv s'.
Proof.
  intros I T.
  assert (NE : forall t t' : nat, t' <> t -> Nat.eqb t' t = false) by (intros a b X; apply Nat.eqb_neq; exact X).
  destruct T;
  try match goal with H : nth_error (tasks s) ?t = Some (?o, ?p) |- _ => pose proof (i_shape s I _ _ _ H) as SH; cbn in SH end;
  try match goal with H : nth_error (tasks s) ?t = Some (?o, ?p) |- inv ?s' =>
    match s' with
    | context [set_pc _ t o ?q] => eapply (preserve s s' t o p q []); [exact I|eapply moved_same; [exact H|reflexivity]|cbn; rewrite app_nil_r; reflexivity|reflexivity|discriminate| | | | | ]
    end end.
  all: try solve [cbn; auto | cbn; eauto | cbn; right; left; auto | cbn; tauto].
  all: try match goal with H : nth_error (tasks ?s0) ?t = Some (?o, ?p) |- inv ?s' =>
    match s' with
    | context [ret (emit (with_items (with_tasks _ ?l) _) ?e) t o ?r] => eapply (preserve s0 s' t o p (PReturned r) [e; ERet t r]); [assumption|split; [exact H|exists l; split; [assumption|reflexivity]]|cbn; rewrite <- app_assoc; reflexivity| |discriminate|exact Logic.I| |exact Logic.I| | ]
    | context [ret (emit _ ?e) t o ?r] => eapply (preserve s0 s' t o p (PReturned r) [e; ERet t r]); [assumption|eapply moved_same; [exact H|reflexivity]|cbn; rewrite <- app_assoc; reflexivity| |discriminate|exact Logic.I| |exact Logic.I| | ]
    | context [ret (with_tasks _ ?l) t o ?r] => eapply (preserve s0 s' t o p (PReturned r) [ERet t r]); [assumption|split; [exact H|exists l; split; [apply woke_all|reflexivity]]|reflexivity| |discriminate|exact Logic.I| |exact Logic.I| | ]
    | context [ret ?s1 t o ?r] => eapply (preserve s0 s' t o p (PReturned r) [ERet t r]); [assumption|eapply moved_same; [exact H|reflexivity]|reflexivity| |discriminate|exact Logic.I| |try exact Logic.I| | ]
    end end.
  all: try solve [cbn; intros t' Nt; rewrite ?(NE _ _ Nt); reflexivity].
  all: try solve [cbn; auto | cbn; right; right; auto | left; cbn; intuition (subst; auto)].
  all: try solve [cbn; intros L0; rewrite ?log_app, L0; cbn; rewrite ?Nat.eqb_refl; cbn; auto 6].
  all: try solve [match goal with H : _ \/ _ |- _ => destruct H as [->|[->|(-> & -> & _)]]; cbn; eauto end].
  all: try solve [cbn; intuition (subst; auto)].
  (* left: the call, and a few return values *)
  - constructor; cbn.
    + intros t o' p H. rewrite nth_snoc in H. destruct (Nat.eqb t (length (tasks s))); [injection H as <- <-; exact Logic.I|eapply (i_shape s I); eauto].
    + intros t. rewrite (i_mutex s I). split; intros (o' & p & H & Hp).
      * exists o', p. split; [|exact Hp]. rewrite nth_error_app1; [exact H|eapply nth_lt; eauto].
      * rewrite nth_snoc in H. destruct (Nat.eqb t (length (tasks s))); [injection H as <- <-; discriminate|eauto].
    + intros t o' p H. rewrite nth_snoc in H. destruct (Nat.eqb_spec t (length (tasks s))).
      * injection H as <- <-. cbn. apply (i_none s I). lia.
      * eapply (log_ok_mono s); [reflexivity| |eapply (i_log s I); eauto].
        intros (t0 & p0 & E & N). exists t0, p0. split; [cbn; rewrite nth_error_app1; [exact E|eapply nth_lt; eauto]|exact N].
    + intros t H. apply (i_none s I). rewrite app_length in H. cbn in H. lia.
    + intros C. destruct (i_closed s I C) as (t0 & p0 & E & N). exists t0, p0. split; [cbn; rewrite nth_error_app1; [exact E|eapply nth_lt; eauto]|exact N].
  - intros L0. right. right. cbn [log_ok tr ret emit with_mutex with_items with_closed with_tasks set_pc]. rewrite log_app, L0. cbn. rewrite Nat.eqb_refl. destruct o; try discriminate.
    all: split; [reflexivity|split; [reflexivity|split; [|discriminate]]]; intros _; split; [reflexivity|];
      eapply (moved_ever s); [eapply moved_same; [eassumption|reflexivity]|discriminate|apply (i_closed s I); assumption].
  - intros L0. left. cbn [log_ok tr ret emit with_mutex with_items with_closed with_tasks set_pc]. rewrite !log_app, L0. cbn. rewrite Nat.eqb_refl. auto.
  - cbn. destruct H0 as [->|[->|(-> & -> & _)]]; cbn in SH; [destruct SH as (b & ->); reflexivity|destruct SH as (b & ->); reflexivity|reflexivity].
  - intros L0. right. right. cbn [log_ok tr ret emit with_mutex with_items with_closed with_tasks set_pc]. rewrite log_app, L0. cbn. rewrite Nat.eqb_refl.
    assert (takes_out o = true) as TO by (destruct H0 as [->|(-> & ->)]; [destruct SH as (b & ->)|]; reflexivity).
    destruct o; try discriminate; repeat split; auto; discriminate.
  - intros L0. right. right. cbn [log_ok tr ret emit with_mutex with_items with_closed with_tasks set_pc]. rewrite log_app, L0. cbn. rewrite Nat.eqb_refl.
    destruct o; try discriminate; repeat split; auto; discriminate.
  - intros L0. cbn [log_ok tr ret emit with_mutex with_items with_closed with_tasks set_pc]. rewrite !log_app, L0. cbn. rewrite Nat.eqb_refl. auto.
  - destruct I as [I1 I2 I3 I4 I5]. constructor; auto.
    + intros t' o' p' X. eapply (log_ok_mono s); [|auto|apply I3; exact X]. cbn [log_ok tr ret emit with_mutex with_items with_closed with_tasks set_pc]. rewrite log_app. apply app_nil_r.
    + intros t' X. cbn [tr emit]. rewrite log_app, (I4 _ X). reflexivity.
  - intros L0. right. right. cbn [log_ok tr ret emit with_mutex with_items with_closed with_tasks set_pc]. rewrite log_app, L0. cbn. rewrite Nat.eqb_refl. repeat split; auto; discriminate.
  - intros L0. right. right. cbn [log_ok tr ret emit with_mutex with_items with_closed with_tasks set_pc]. rewrite log_app, L0. cbn. rewrite Nat.eqb_refl. subst. repeat split; auto; discriminate.
  - intros L0. right. right. cbn [log_ok tr ret emit with_mutex with_items with_closed with_tasks set_pc]. rewrite log_app, L0. cbn. rewrite Nat.eqb_refl. repeat split; auto; discriminate.
  - discriminate.
  - intros L0. right. left. exists b, (items s). cbn [log_ok tr ret emit with_mutex with_items with_closed with_tasks set_pc]. rewrite !log_app, L0. cbn. rewrite Nat.eqb_refl. auto.
  - intros L0. assert (E : log t (tr (ret s t o r)) = [ERet t r]) by (cbn [log_ok tr ret emit with_mutex with_items with_closed with_tasks set_pc]; rewrite log_app, L0; cbn; rewrite Nat.eqb_refl; reflexivity).
    unfold log_ok. rewrite E. destruct r; try (exfalso; eapply H1; reflexivity); right; right; destruct H0 as [->|[->| ->]]; repeat split; auto; discriminate.
Qed.

Lemma inv_final h : inv (final fr h).
Proof. apply state_ind with (fr := fr); [exact inv_init|]. intros. eapply inv_step; eauto. Qed.

(** ** Consequences *)
Lemma ret_in_log h t r : returned fr h t r -> exists o, nth_error (tasks (final fr h)) t = Some (o, PReturned r) /\ In (ERet t r) (log t (trace fr h)).
Proof.
  intros R. assert (L : In (ERet t r) (log t (trace fr h))).
  { apply filter_In. split; [exact R|]. cbn. apply Nat.eqb_refl. }
  pose proof (inv_final h) as I. unfold trace in *.
  destruct (nth_error (tasks (final fr h)) t) as [[o p]|] eqn:E.
  - exists o. pose proof (i_log _ I _ _ _ E) as K. unfold log_ok in K. destruct p; try (rewrite K in L; destruct L).
    assert (r = r0); [|subst; auto].
    destruct r0;
    repeat match goal with H : _ \/ _ |- _ => destruct H | H : exists _, _ |- _ => destruct H | H : _ /\ _ |- _ => destruct H end;
    match goal with H : log t _ = _ |- _ => rewrite H in L; cbn in L; intuition congruence end.
  - rewrite (i_none _ I t) in L; [destruct L|]. apply nth_error_None. exact E.
Qed.

Lemma ret_task h t o r : nth_error (tasks (final fr h)) t = Some (o, PReturned r) -> returned fr h t r.
Proof.
  intros E. pose proof (i_log _ (inv_final h) _ _ _ E) as K. unfold log_ok in K. unfold returned, trace.
  enough (In (ERet t r) (log t (tr (final fr h)))) by (apply filter_In in H as [H _]; exact H).
  destruct r;
    repeat match goal with H : _ \/ _ |- _ => destruct H | H : exists _, _ |- _ => destruct H | H : _ /\ _ |- _ => destruct H end;
    match goal with H : log t _ = _ |- _ => rewrite H; cbn; auto end.
Qed.

Lemma call_of_task h t o : call_of fr h t = Some o <-> exists p, nth_error (tasks (final fr h)) t = Some (o, p).
Proof.
  unfold call_of, calls. destruct (nth_error (tasks (final fr h)) t) as [[o' p]|] eqn:E.
  1: rewrite (map_nth_error fst _ _ E). 2: replace (nth_error (map fst (tasks (final fr h))) t) with (@None (op V)) by (symmetry; apply nth_error_None; rewrite map_length; apply nth_error_None; exact E).
  all: cbn.
  - split; [intros [= ->]; eauto|intros (q & [= -> ->]); reflexivity].
  - split; [discriminate|intros (q & X); discriminate].
Qed.

(** At most one put, one take per call; a call that took something returned it. *)
Lemma cnt_filter_log (f : event V -> bool) t l : (forall e, f e = true -> of_task t e = true) -> cnt f l = cnt f (log t l).
Proof.
  intros H. induction l as [|e l IH]; [reflexivity|]. rewrite cnt_cons. cbn [log filter].
  destruct (of_task t e) eqn:E.
  - rewrite cnt_cons, IH. reflexivity.
  - destruct (f e) eqn:F; [rewrite (H e F) in E; discriminate|]. cbn. exact IH.
Qed.

Lemma log_shape h t : log t (trace fr h) = [] \/ (exists r, log t (trace fr h) = [ERet t r]) \/
  (exists vs, log t (trace fr h) = [EPut t vs; ERet t RDone]) \/ (exists vs, log t (trace fr h) = [EClear t vs; ERet t RDone]) \/
  (exists v, log t (trace fr h) = [ETake t v; ERet t (RTook v)]).
Proof.
  unfold trace. pose proof (inv_final h) as I. destruct (nth_error (tasks (final fr h)) t) as [[o p]|] eqn:E.
  - pose proof (i_log _ I _ _ _ E) as K. unfold log_ok in K. destruct p; auto.
    destruct r;
    repeat match goal with H : _ \/ _ |- _ => destruct H | H : exists _, _ |- _ => destruct H | H : _ /\ _ |- _ => destruct H end; try discriminate; eauto 7.
  - left. apply (i_none _ I). apply nth_error_None. exact E.
Qed.

Lemma put_once h t : cnt (put_by t) (trace fr h) <= 1.
Proof.
  rewrite (cnt_filter_log (put_by t) t) by (intros []; cbn; auto; discriminate).
  destruct (log_shape h t) as [E|[(r & E)|[(vs & E)|[(vs & E)|(v & E)]]]]; rewrite E; rewrite ?cnt_cons, ?cnt_nil; cbn [put_by]; rewrite ?Nat.eqb_refl; cbn; lia.
Qed.

Lemma put_what h t vs : In (EPut t vs) (trace fr h) -> exists o, call_of fr h t = Some o /\ is_push o = true /\ elems o = vs /\ returned fr h t RDone.
Proof.
  intros H. assert (L : In (EPut t vs) (log t (trace fr h))) by (apply filter_In; split; [exact H|cbn; apply Nat.eqb_refl]).
  pose proof (inv_final h) as I. unfold trace in *.
  destruct (nth_error (tasks (final fr h)) t) as [[o p]|] eqn:E.
  - pose proof (i_log _ I _ _ _ E) as K. exists o. split; [apply call_of_task; eauto|].
    destruct p; try (cbn in K; rewrite K in L; destruct L). pose proof (ret_task _ _ _ _ E) as R. unfold log_ok in K.
    destruct r;
    repeat match goal with H : _ \/ _ |- _ => destruct H | H : exists _, _ |- _ => destruct H | H : _ /\ _ |- _ => destruct H end; try discriminate;
    match goal with H : log t _ = _ |- _ => rewrite H in L; cbn in L end; intuition (try congruence).
  - rewrite (i_none _ I t) in L; [destruct L|]. apply nth_error_None. exact E.
Qed.

Lemma took_once h t : cnt (took_by t) (trace fr h) <= 1.
Proof.
  rewrite (cnt_filter_log (took_by t) t) by (intros []; cbn; auto; discriminate).
  destruct (log_shape h t) as [E|[(r & E)|[(vs & E)|[(vs & E)|(v & E)]]]]; rewrite E; rewrite ?cnt_cons, ?cnt_nil; cbn [took_by]; rewrite ?Nat.eqb_refl; cbn; lia.
Qed.

Lemma took_returned h t v : In (ETake t v) (trace fr h) <-> returned fr h t (RTook v).
Proof.
  unfold returned. split; intros H.
  - assert (L : In (ETake t v) (log t (trace fr h))) by (apply filter_In; split; [exact H|cbn; apply Nat.eqb_refl]).
    enough (X : In (ERet t (RTook v)) (log t (trace fr h))) by (apply filter_In in X as [X _]; exact X).
    destruct (log_shape h t) as [E|[(r & E)|[(vs & E)|[(vs & E)|(w & E)]]]]; rewrite E in *; cbn in *; intuition (try congruence).
  - assert (L : In (ERet t (RTook v)) (log t (trace fr h))) by (apply filter_In; split; [exact H|cbn; apply Nat.eqb_refl]).
    enough (X : In (ETake t v) (log t (trace fr h))) by (apply filter_In in X as [X _]; exact X).
    destruct (log_shape h t) as [E|[(r & E)|[(vs & E)|[(vs & E)|(w & E)]]]] eqn:LS; try (rewrite E in *; cbn in *; intuition congruence).
    + (* log = [ERet t (RTook v)] alone is impossible *)
      destruct (ret_in_log h t (RTook v) H) as (o & T & _). pose proof (i_log _ (inv_final h) _ _ _ T) as K. cbn in K. destruct K as [_ K].
      unfold trace. rewrite K. left. reflexivity.
Qed.

(** A push that returned put its elements in exactly once, unless close() was called. *)
Lemma put_exact h t o : no_call fr closes h -> call_of fr h t = Some o -> is_push o = true -> done fr h t ->
  cnt (put_by t) (trace fr h) = 1 /\ In (EPut t (elems o)) (trace fr h).
Proof.
  intros NC C P (r & R). destruct (ret_in_log _ _ _ R) as (o' & T & _).
  assert (o' = o) by (apply call_of_task in C as (p & C); congruence). subst.
  pose proof (i_log _ (inv_final h) _ _ _ T) as K. unfold log_ok in K.
  assert (EC : ~ ever_closed (final fr h)).
  { intros (t0 & p0 & E & _). specialize (NC t0 OClose). rewrite call_of_task in NC. specialize (NC (ex_intro _ _ E)). discriminate. }
  assert (log t (trace fr h) = [EPut t (elems o); ERet t r]).
  { unfold trace. destruct r;
    repeat match goal with H : _ \/ _ |- _ => destruct H | H : exists _, _ |- _ => destruct H | H : _ /\ _ |- _ => destruct H end; try congruence;
    try (destruct o; discriminate); exfalso; apply EC; intuition. }
  split.
  - rewrite (cnt_filter_log (put_by t) t) by (intros []; cbn; auto; discriminate). rewrite H, !cnt_cons, cnt_nil. cbn [put_by]. rewrite Nat.eqb_refl. reflexivity.
  - enough (X : In (EPut t (elems o)) (log t (trace fr h))) by (apply filter_In in X as [X _]; exact X). rewrite H. left. reflexivity.
Qed.

End P.
