(** Proofs about the thread pool, part 5: shutdown. *)
From Verif Require Import ListUtil QueueModel QueueSpec QueueProofs QueueProofs2 QueueProofs3 PoolModel PoolSpec PoolProofs PoolProofs2 PoolProofs3 PoolProofs4.
From Coq Require Import Permutation.

Section P.
Variable fr : list tk -> nat -> bool.
Variable dyn : bool.
Variable maxc : nat.
Notation next := (PoolModel.next fr dyn maxc).
Notation pstep := (pstep fr dyn maxc).
Notation launch := (launch dyn).
Notation final := (PoolModel.final fr dyn maxc).
Notation qnext := (QueueModel.next fr).

Ltac scases T := destruct T as [r p|d|l L IT|a v b0 c E|a v t l E L C IT|a v t l E L IT|a d E O|a d E O|a d t l E L C IT|a d E|a d t l E L IT|a d E F|a d E|a E|a t l v E L T0 IT F|a t l E L C IT|a v E|a v E|a v E|a v E|a v E|a v pp0 pp1 E EP EQ]; try (destruct pp0; try discriminate EP; destruct pp1; try discriminate EQ).
Ltac proj := cbn [PoolModel.next agents with_agents with_submitted with_running with_once with_joined with_q put log qcall q evs submitted once running]; rewrite ?launch_q, ?launch_evs, ?launch_sub.

Lemma launch_once s b0 c : once (launch s b0 c) = once s.
Proof. unfold PoolModel.launch. destruct (_ && _ && _); reflexivity. Qed.

Lemma runlabel_ok l : runlabel l -> oklabel l.
Proof. destruct l; cbn; auto; contradiction. Qed.

Lemma closed_step s s' : wf s -> pstep s s' -> closed (q s) = true -> closed (q s') = true.
Proof.
  intros W T C0. assert (Q := w_q s W). scases T; proj; auto; try (apply qnext_closed; auto; destruct l; try contradiction; exact Logic.I).
Qed.

(** How the queue changes: not at all, a new call, or a step of a call. *)
Lemma q_step s s' : pstep s s' -> q s' = q s \/ (exists o, pool_op o = true /\ q s' = qnext (q s) (LCall o)) \/ exists l, runlabel l /\ q s' = qnext (q s) l.
Proof.
  intros T. scases T; proj; auto.
  all: try (right; right; eexists; split; [eassumption|reflexivity]).
  all: right; left; eexists; (split; [|reflexivity]); reflexivity.
Qed.

Definition late (x : agent) : bool :=
  match x with AShut _ SStopping | AShut _ (SClearing _) | AShut _ SJoining | AShut _ SEnd | AShut _ SReturned => true | _ => false end.
Definition ended (x : agent) : bool := match x with AShut _ SEnd | AShut _ SReturned => true | _ => false end.
Definition idle (k : QueueModel.state tk) (x : agent) : Prop :=
  match x with
  | AWorker WLoop | AWorker WExited => True
  | AWorker (WWaiting t) => forall o, nth_error (tasks k) t <> Some (o, PPop)
  | AWorker _ => False
  | _ => True
  end.

Record shut_inv (s : pool) : Prop := {
  s_late : forall x, In x (agents s) -> late x = true -> closed (q s) = true;
  s_once : once s = Some true -> closed (q s) = true;
  s_end : forall x, In x (agents s) -> ended x = true -> once s = Some true;
  s_ret : forall a, In (EShutRet a) (evs s) -> once s = Some true;
  s_idle : once s = Some true -> forall x, In x (agents s) -> idle (q s) x
}.

Lemma once_step s s' : pstep s s' -> once s = Some true -> once s' = Some true.
Proof. intros T H. scases T; proj; rewrite ?launch_once; auto; congruence. Qed.

Lemma shut_step s s' : wf s -> shut_inv s -> pstep s s' -> shut_inv s'.
Proof.
  intros W [A B C0 D IDL] T. pose proof (closed_step _ _ W T) as CM. pose proof (once_step _ _ T) as OM.
  assert (EIN : forall a x, nth_error (agents s) a = Some x -> In x (agents s)) by (intros; eapply nth_error_In; eauto).
  assert (IDM : forall x, once s = Some true -> In x (agents s) -> idle (q s') x).
  { intros x O' I. pose proof (IDL O' x I) as Z. specialize (B O'). destruct x as [| |p]; auto. destruct p; auto. cbn in *. intros o H. apply (Z o).
    destruct (q_step _ _ T) as [E|[(o1 & PO & E)|(l & L & E)]]; rewrite E in H; [exact H| |]; eapply qnext_pop; eauto; apply (w_q s W). }
  (* an agent is replaced, or one is added *)
  assert (SET : forall a x y, nth_error (agents s) a = Some y -> agents s' = set_nth a x (agents s) -> once s' = once s ->
    (late x = true -> closed (q s') = true) -> (ended x = true -> once s = Some true) -> (once s = Some true -> idle (q s') x) ->
    (forall b, In (EShutRet b) (evs s') -> In (EShutRet b) (evs s) \/ once s' = Some true) -> shut_inv s').
  { intros a x y E F O' H1 H2 H3 H4. constructor; rewrite ?F, ?O'.
    - intros z I Z. apply in_set_nth in I as [->|I]; eauto.
    - auto.
    - intros z I Z. apply in_set_nth in I as [->|I]; eauto.
    - intros b I. rewrite <- O'. destruct (H4 b I); [apply OM; eauto|auto].
    - intros Z z I. apply in_set_nth in I as [->|I]; auto. }
  assert (SAME : forall s'', s'' = s' -> forall add, evs s'' = evs s ++ add -> (forall b, ~ In (EShutRet b) add) -> forall b, In (EShutRet b) (evs s') -> In (EShutRet b) (evs s) \/ once s' = Some true).
  { intros s'' -> add E N b I. rewrite E in I. apply in_app_or in I as [I|I]; [auto|destruct (N b I)]. }
  scases T.
  1,2: constructor; auto; proj; try (intros x I K; apply in_app_or in I as [I|[<-|[]]]; eauto; discriminate); auto.
  1,3: intros b I; apply in_app_or in I as [I|[I|[]]]; [eauto|discriminate].
  1,2: intros O' x I; apply in_app_or in I as [I|[<-|[]]]; [apply (IDM x O' I)|exact Logic.I].
  1: { constructor; [intros x I K; apply CM; exact (A x I K)|intros K; apply CM, B, K|exact C0|exact D|intros K x I; exact (IDM x K I)]. }
  1: { constructor; proj; rewrite ?launch_once; auto.
       - intros x I K. apply in_set_nth in I as [->|I]; [discriminate|]. apply launch_in in I as [->|I]; [discriminate|]. eapply A; eauto.
       - intros x I K. apply in_set_nth in I as [->|I]; [discriminate|]. apply launch_in in I as [->|I]; [discriminate|]. eapply C0; eauto.
       - intros O' x I. apply in_set_nth in I as [->|I]; [exact Logic.I|]. apply launch_in in I as [->|I]; [exact Logic.I|].
         specialize (IDM x O' I). revert IDM. proj. auto. }
  3: { (* first shutdown *)
       constructor; proj; try discriminate; auto.
       - intros x I K. apply in_set_nth in I as [->|I]; [discriminate|]. apply (A x I K).
       - intros x I K. apply in_set_nth in I as [->|I]; [discriminate|]. rewrite (C0 x I K) in O. discriminate.
       - intros b I. rewrite (D b I) in O. discriminate. }
  7: { (* join *)
       constructor; proj; auto.
       - intros x I K. apply in_set_nth in I as [->|I]; [|apply (A x I K)]. eapply A; [eapply EIN; exact E|reflexivity].
       - intros _. eapply A; [eapply EIN; exact E|reflexivity].
       - intros _ x I. apply in_set_nth in I as [->|I]; [exact Logic.I|]. rewrite forallb_forall in F. specialize (F x I).
         destruct x as [| |p]; try exact Logic.I. destruct p; try discriminate. exact Logic.I. }
  all: eapply SET; [exact E|reflexivity|reflexivity|..].
  all: try (intros ? I; left; exact I).
  all: try (eapply (SAME _ eq_refl); [reflexivity|intros b I; repeat (destruct I as [I|I]; [discriminate|]); exact I]).
  all: try (intros K; discriminate K).
  all: try (intros K; exact Logic.I).
  all: try (intros _; exact C).
  all: try (intros _; exact O).
  all: try (intros _; eapply C0; [eapply EIN; exact E|reflexivity]).
  all: try (intros _; apply CM; eapply A; [eapply EIN; exact E|reflexivity]).
  all: try (intros K; exfalso; specialize (IDL K _ (EIN _ _ E)); exact IDL).
  all: try (intros K; exfalso; specialize (IDL K _ (EIN _ _ E)); cbn in IDL; eapply IDL; exact T0).
  - intros _. apply CM, B, O.
  - eapply (SAME _ eq_refl); [reflexivity|]. intros b I. apply in_map_iff in I as (w & I & _). discriminate.
  - eapply (SAME _ eq_refl); [reflexivity|]. intros b I. apply in_map_iff in I as (w & I & _). discriminate.
  - intros b I. right. proj. eapply C0; [eapply EIN; exact E|reflexivity].
  - intros K o H. revert H. proj. cbn [QueueModel.next tasks with_tasks]. unfold fresh. rewrite nth_error_app2 by lia. rewrite Nat.sub_diag. discriminate.
Qed.

Lemma shut_init n : shut_inv (init n).
Proof.
  assert (R : forall x, In x (repeat (AWorker WLoop) n) -> x = AWorker WLoop) by (intros x H; apply repeat_spec in H; exact H).
  constructor; cbn; try discriminate; try contradiction.
  - intros x H K. rewrite (R _ H) in K. discriminate.
  - intros x H K. rewrite (R _ H) in K. discriminate.
Qed.
Lemma shut_final n h : shut_inv (final n h).
Proof. apply pool_ind; [apply shut_init|]. intros. eapply shut_step; eauto. Qed.

(** ** Tasks that were started *)
Definition runs (n : nat) (x : agent) : bool := match x with AWorker (WRunning v) => isn n v | _ => false end.
Definition ran (n : nat) (x : agent) : bool := match x with AWorker (WRemove v) | AWorker (WDone v) => isn n v | _ => false end.
Definition run_inv (n : nat) (s : pool) : Prop :=
  cnt (starts n) (evs s) <= cnt (runs n) (agents s) + cnt (ends n) (evs s) /\ cnt (ends n) (evs s) <= cnt (ran n) (agents s) + cnt (finishes n) (evs s).

Ltac setcnt E f x :=
  match type of E with nth_error ?l ?a = Some ?y => pose proof (cnt_set f l a x y E) end.

Lemma run_step n s s' : run_inv n s -> pstep s s' -> run_inv n s'.
Proof.
  unfold run_inv. intros I T. scases T; proj.
  all: try match goal with E : nth_error (agents ?s) ?a = Some ?y |- context [set_nth ?a ?x (agents ?s)] => setcnt E (runs n) x; setcnt E (ran n) x end.
  all: rewrite ?cnt_app, ?cnt_cons, ?cnt_nil, ?cnt_map, ?cnt_false; cbn [runs ran starts ends finishes b2n] in *; rewrite ?cnt_false.
  all: try solve [unfold isn in *; cbn [b2n] in *; lia].
  - pose proof (launch_nth dyn s b0 c _ _ E) as E'.
    setcnt E' (runs n) (ARun v (RPushing (fresh s))). setcnt E' (ran n) (ARun v (RPushing (fresh s))). cbn [runs ran] in *. rewrite !launch_cnt in * by reflexivity. lia.
  - assert (Z : forall f : event -> bool, (forall w, f (EUnjoined w) = false) -> cnt f (if d then map EUnjoined (unjoined s) else []) = 0).
    { intros f HF. destruct d; [|reflexivity]. rewrite cnt_map. apply cnt_zero. auto. }
    rewrite !Z by reflexivity. cbn. lia.
Qed.
Lemma run_final n k h : run_inv n (final k h).
Proof.
  apply pool_ind.
  - unfold run_inv. cbn [init evs agents]. rewrite !cnt_nil. lia.
  - intros. eapply run_step; eauto.
Qed.

Lemma idle_count s f : (forall x, In x (agents s) -> idle (q s) x) -> (forall x, f x = true -> match x with AWorker (WAdd _) | AWorker (WStart _) | AWorker (WRunning _) | AWorker (WRemove _) | AWorker (WDone _) => True | _ => False end) -> cnt f (agents s) = 0.
Proof.
  intros I H. apply cnt_zero. intros x X. destruct (f x) eqn:F; [|reflexivity]. specialize (I x X). specialize (H x F). destruct x as [| |p]; try contradiction. destruct p; contradiction.
Qed.

(** When shutdown has returned, nothing starts any more and all that was started is over. *)
Definition settled (l : list event) : Prop := forall a b c, l = a ++ EShutRet c :: b ->
  (forall v, ~ In (EStart v) b) /\ forall n, cnt (starts n) a <= cnt (ends n) a /\ cnt (ends n) a <= cnt (finishes n) a.

Lemma settled_final n h : settled (evs (final n h)).
Proof.
  induction h as [|lb h IH] using rev_ind.
  - intros [] b c H; discriminate.
  - rewrite final_snoc. destruct (next_pcases fr dyn maxc _ lb (wf_final fr dyn maxc n h)) as [->|T]; [exact IH|].
    pose proof (shut_final n h) as SI. assert (RI := fun m => run_final m n h). revert T. generalize (next (final n h) lb). intros s' T.
    clear lb. remember (final n h) as s eqn:HS. clear HS.
    assert (EIN : forall a x, nth_error (agents s) a = Some x -> In x (agents s)) by (intros; eapply nth_error_In; eauto).
    assert (GEN : forall add, (forall c, ~ In (EShutRet c) add) -> (once s = Some true -> forall v, ~ In (EStart v) add) -> settled (evs s ++ add)).
    { intros add N1 N2 a0 b0 c0 H. destruct (split_at _ _ _ _ _ H) as [(b' & E' & ->)|(a' & -> & E')].
      - destruct (IH _ _ _ E') as [I1 I2]. split; [|exact I2]. intros v0 I. apply in_app_or in I as [I|I]; [apply (I1 v0 I)|].
        apply (N2 (s_ret s SI c0 ltac:(rewrite E'; apply in_or_app; right; left; reflexivity)) v0 I).
      - destruct (N1 c0). rewrite E'. apply in_or_app. right. left. reflexivity. }
    assert (ONE : forall e, (forall c, e <> EShutRet c) -> (forall v, e <> EStart v) -> settled (evs s ++ [e])).
    { intros e H1 H2. apply GEN; [intros c1 [X|[]]; eapply H1; eauto|intros _ v1 [X|[]]; eapply H2; eauto]. }
    scases T; proj; try exact IH; try (apply ONE; congruence).
    + apply GEN; [intros c1 I|intros _ v1 I]; apply in_map_iff in I as (w & I & _); discriminate.
    + apply GEN; [intros c1 I|intros _ v1 I]; apply in_map_iff in I as (w & I & _); discriminate.
    + intros a0 b0 c0 H.
      assert (O1 : once s = Some true) by (eapply (s_end s SI); [eapply EIN; exact E|reflexivity]).
      assert (U : forall e, In e (if d then map EUnjoined (unjoined s) else []) -> exists w, e = EUnjoined w).
      { intros e I. destruct d; [|destruct I]. apply in_map_iff in I as (w & <- & _). eauto. }
      destruct (split_at _ _ _ _ _ H) as [(b' & E' & ->)|(a' & -> & E')].
      * destruct (IH _ _ _ E') as [I1 I2]. split; [|exact I2]. intros v0 I. apply in_app_or in I as [I|I]; [apply (I1 v0 I)|].
        apply in_app_or in I as [I|[I|[]]]; [destruct (U _ I); discriminate|discriminate].
      * destruct (split_at _ _ _ _ _ E') as [(b1 & E1 & _)|(a1 & -> & E1)].
        { destruct (U (EShutRet c0)) as (w & X); [rewrite E1; apply in_or_app; right; left; reflexivity|discriminate]. }
        destruct a1 as [|x1 [|y1 a1]]; inversion E1; subst. rewrite app_nil_r. split; [intros v0 []|]. intros m.
        assert (Z : forall f : event -> bool, (forall w, f (EUnjoined w) = false) -> cnt f (if d then map EUnjoined (unjoined s) else []) = 0).
        { intros f HF. apply cnt_zero. intros e I. destruct (U e I) as (w & ->). apply HF. }
        rewrite !cnt_app, !Z by reflexivity. destruct (RI m) as [R1 R2].
        rewrite (idle_count s (runs m)) in R1 by (try apply (s_idle s SI O1); intros [| |[]]; cbn; try discriminate; auto).
        rewrite (idle_count s (ran m)) in R2 by (try apply (s_idle s SI O1); intros [| |[]]; cbn; try discriminate; auto). lia.
    + apply GEN; [intros c1 [X|[]]; discriminate|]. intros O1 v1 _. pose proof (s_idle s SI O1 _ (EIN _ _ E)) as X. exact X.
Qed.

(** ** Tasks submitted before shutdown *)
Definition past (s : pool) : Prop := once s = Some true \/ exists d, In (AShut d SJoining) (agents s).

Lemma ret_kept k h u : closed (q (final k h)) = false -> In (ERunRet u) (evs (final k h)) -> 1 <= kept (num u) (final k h).
Proof.
  apply (pool_ind fr dyn maxc (fun s => closed (q s) = false -> In (ERunRet u) (evs s) -> 1 <= kept (num u) s)); [intros _ []|].
  intros s s' W I T C1 R. pose proof (closed_step _ _ W T) as CM. pose proof (kept_step fr dyn maxc (num u) _ _ T) as KM.
  assert (C0 : closed (q s) = false) by (destruct (closed (q s)); [rewrite CM in C1; auto|reflexivity]).
  assert (OLD : In (ERunRet u) (evs s) -> 1 <= kept (num u) s') by (intros X; specialize (I C0 X); lia).
  revert R OLD KM C1. scases T; proj; intros R OLD KM C1; auto; try congruence.
  all: try (apply in_app_or in R as [R|R]; [auto|]).
  all: try (destruct R as [R|[]]; discriminate R).
  all: try (apply in_map_iff in R as (w & R & _); discriminate R).
  - destruct R as [R|[]]. injection R as <-. unfold kept. cbn [q put log with_q]. rewrite IT, cnt_app, cnt_cons. unfold isn at 2. rewrite Nat.eqb_refl. cbn. lia.
  - apply in_app_or in R as [R|[R|[]]]; [|discriminate]. destruct d; [|destruct R]. apply in_map_iff in R as (w & R & _); discriminate R.
Qed.

Lemma evs_noshut s l b : is_shut l = false -> In (EShut b) (evs (next s l)) -> In (EShut b) (evs s).
Proof.
  intros N I. destruct l as [r p|d'|a c|t]; try discriminate; cbn [PoolModel.next] in I; auto.
  - apply in_app_or in I as [I|[I|[]]]; [auto|discriminate].
  - destruct (nth_error (agents s) a) as [[v p|d0 p|p]|]; auto.
    + destruct p as [| |b0|t|]; cbn in I; auto; [rewrite launch_evs in I; auto|]. destruct (result _ t); cbn in I; auto. apply in_app_or in I as [I|[I|[]]]; [auto|discriminate].
    + destruct p as [|t| |t| | |]; cbn in I; auto.
      * destruct (once s) as [[]|]; auto.
      * destruct (result _ t); cbn in I; auto.
      * apply in_app_or in I as [I|I]; [auto|]. apply in_map_iff in I as (w & I & _). discriminate.
      * destruct (result _ t); cbn in I; auto. apply in_app_or in I as [I|I]; [auto|]. apply in_map_iff in I as (w & I & _). discriminate.
      * destruct (forallb exited _); auto.
      * apply in_app_or in I as [I|I]; [auto|]. apply in_app_or in I as [I|[I|[]]]; [|discriminate]. destruct d0; [|destruct I]. apply in_map_iff in I as (w & I & _). discriminate.
    + destruct p as [|t|v|v|v|v|v|]; cbn in I; auto.
      * destruct (result _ t) as [[]|]; cbn in I; auto.
      * apply in_app_or in I as [I|[I|[]]]; [auto|discriminate].
      * apply in_app_or in I as [I|[I|[]]]; [auto|discriminate].
      * apply in_app_or in I as [I|[I|[]]]; [auto|discriminate].
Qed.
Lemma no_shut_evs k h b : no_shut h -> ~ In (EShut b) (evs (final k h)).
Proof.
  induction h as [|lb h IH] using rev_ind; intros N; [intros []|]. rewrite final_snoc. intros I. apply evs_noshut in I.
  - revert I. apply IH. intros l I. apply N, in_or_app. auto.
  - apply N, in_or_app. right. left. reflexivity.
Qed.

Definition quiet (s : pool) : Prop := once s = None /\ (forall d p, ~ In (AShut d p) (agents s)) /\ (forall t p, nth_error (tasks (q s)) t <> Some (OClose, p)).
Lemma quiet_step s s' : wf s -> pstep s s' -> quiet s -> quiet s' \/ exists b, In (EShut b) (evs s').
Proof.
  intros W T (O1 & A1 & T1).
  assert (EIN : forall a x, nth_error (agents s) a = Some x -> In x (agents s)) by (intros; eapply nth_error_In; eauto).
  assert (TK : (exists o, pool_op o = true /\ o <> OClose /\ q s' = qnext (q s) (LCall o)) \/ (exists l, runlabel l /\ q s' = qnext (q s) l) \/ q s' = q s -> forall t p, nth_error (tasks (q s')) t <> Some (OClose, p)).
  { intros [(o & PO & NC & E)|[(l & L & E)|E]] t p H; rewrite E in H; [| |eapply T1; eauto].
    - cbn in H. rewrite nth_snoc in H. destruct (Nat.eqb t _); [congruence|eapply T1; eauto].
    - assert (M : nth_error (map fst (tasks (qnext (q s) l))) t = Some OClose) by (rewrite (map_nth_error fst _ _ H); reflexivity).
      destruct (next_ops tk fr (q s) l) as (add & EA & A). destruct l; try contradiction; subst add; rewrite EA, app_nil_r in M;
        (destruct (nth_error (tasks (q s)) t) as [[o1 p1]|] eqn:F; [rewrite (map_nth_error fst _ _ F) in M; injection M as ->; eapply T1; eauto|]);
        apply nth_error_None in F; apply nth_lt in M; rewrite map_length in M; unfold task in *; lia. }
  scases T.
  2: { right. exists (length (agents s)). proj. apply in_or_app. right. left. reflexivity. }
  all: try (exfalso; eapply A1, EIN; exact E).
  all: left; (split; [proj; rewrite ?launch_once; exact O1|split]).
  all: try (apply TK; right; left; eexists; split; [eassumption|reflexivity]).
  all: try (apply TK; right; right; reflexivity).
  all: try (apply TK; left; eexists; split; [|split; [|proj; reflexivity]]; [reflexivity|discriminate]).
  all: intros d p0; proj; try apply A1; intros I; try (apply in_app_or in I as [I|[I|[]]]; [eapply A1; eauto|discriminate]).
  all: try solve [apply in_set_nth in I as [I|I]; [discriminate|eapply A1; exact I]].
  apply in_set_nth in I as [I|I]; [discriminate|]. apply launch_in in I as [I|I]; [discriminate|]. eapply A1; eauto.
Qed.

Lemma quiet_closed s : wf s -> quiet s -> closed (q s) = false.
Proof.
  intros W (_ & _ & T1). destruct (closed (q s)) eqn:C; [|reflexivity].
  destruct (w_q s W) as (I & _). destruct (i_closed _ _ I C) as (t & p & E & _). destruct (T1 _ _ E).
Qed.

Lemma quiet_final k h : no_shut h -> quiet (final k h).
Proof.
  intros N. assert (X : quiet (final k h) \/ exists b, In (EShut b) (evs (final k h))).
  { apply (pool_ind fr dyn maxc (fun s => quiet s \/ exists b, In (EShut b) (evs s))).
    - left. split; [reflexivity|]. split; [|intros [|t]; discriminate]. intros d p I. apply repeat_spec in I. discriminate.
    - intros s s' W [I|(b & I)] T; [eapply quiet_step; eauto|]. right. exists b. destruct (evs_grow fr dyn maxc _ _ T) as (add & ->). apply in_or_app. auto. }
  destruct X as [X|(b & X)]; [exact X|]. destruct (no_shut_evs k h b N X).
Qed.

(** The task of a call of run() that returned before shutdown was called. *)
Definition safe (n : nat) (s : pool) : Prop := 1 <= kept n s /\ (past s -> cnt (isn n) (items (q s)) = 0).

Lemma safe_step n s s' : once_inv s -> pstep s s' -> safe n s -> safe n s'.
Proof.
  intros OI T [K P]. pose proof (kept_step fr dyn maxc n _ _ T) as KM.
  destruct (OI n) as [(T1 & _ & _) _]. unfold total in T1.
  assert (NP : forall x, In x (agents s) -> pend n x = false) by (intros x I; eapply cnt_zero_inv; [|exact I]; lia).
  assert (EIN : forall a x, nth_error (agents s) a = Some x -> In x (agents s)) by (intros; eapply nth_error_In; eauto).
  split; [lia|]. intros PA. unfold past in PA, P.
  assert (SET : forall a x y, nth_error (agents s) a = Some y -> agents s' = set_nth a x (agents s) -> once s' = once s -> (forall d, x <> AShut d SJoining) -> cnt (isn n) (items (q s)) = 0).
  { intros a x y E F G H. apply P. rewrite F, G in PA. destruct PA as [PA|(d & PA)]; [auto|]. apply in_set_nth in PA as [PA|PA]; [destruct (H d); auto|]. right. eauto. }
  revert PA SET. scases T; proj; intros PA SET.
  all: try (cbn [QueueModel.next items with_tasks]).
  all: try rewrite IT; rewrite ?cnt_app, ?cnt_cons, ?cnt_nil; cbn [b2n].
  all: try solve [eapply SET; [exact E|reflexivity|reflexivity|discriminate]].
  all: try reflexivity.
  - apply P. destruct PA as [PA|(d & PA)]; auto. apply in_app_or in PA as [PA|[PA|[]]]; [eauto|discriminate].
  - apply P. destruct PA as [PA|(d0 & PA)]; auto. apply in_app_or in PA as [PA|[PA|[]]]; [eauto|discriminate].
  - apply P. exact PA.
  - apply P. rewrite launch_once in PA. destruct PA as [PA|(d & PA)]; auto. apply in_set_nth in PA as [PA|PA]; [discriminate|]. apply launch_in in PA as [PA|PA]; [discriminate|eauto].
  - pose proof (NP _ (EIN _ _ E)) as X. cbn in X. rewrite X. cbn. rewrite Nat.add_0_r. eapply SET; [exact E|reflexivity|reflexivity|discriminate].
  - apply P. destruct PA as [PA|(d0 & PA)]; [discriminate|]. apply in_set_nth in PA as [PA|PA]; [discriminate|]. eauto.
  - apply P. right. eexists. eapply EIN. exact E.
  - pose proof (cnt_perm (isn n) _ _ IT) as PM. rewrite cnt_cons in PM.
    assert (Z : cnt (isn n) (items (q s)) = 0) by (eapply SET; [exact E|reflexivity|reflexivity|discriminate]). lia.
Qed.

Lemma final_app k h1 h2 : final k (h1 ++ h2) = fold_left next h2 (final k h1).
Proof. unfold PoolModel.final. apply fold_left_app. Qed.

Lemma safe_done k h1 h2 v a : no_shut h1 -> In (ERunRet v) (evs (final k h1)) -> In (EShutRet a) (evs (final k (h1 ++ h2))) ->
  cnt (finishes (num v)) (evs (final k (h1 ++ h2))) = 1.
Proof.
  intros N R S.
  assert (SF : safe (num v) (final k (h1 ++ h2))).
  { clear S a. induction h2 as [|lb h2 IH] using rev_ind.
    - rewrite app_nil_r. pose proof (quiet_final k h1 N) as Q. split; [apply ret_kept; [apply quiet_closed; [apply wf_final|exact Q]|exact R]|].
      destruct Q as (O & A & _). intros [X|(d & X)]; [congruence|destruct (A _ _ X)].
    - rewrite app_assoc, final_snoc. destruct (next_pcases fr dyn maxc _ lb (wf_final fr dyn maxc k (h1 ++ h2))) as [->|T]; [exact IH|].
      eapply safe_step; eauto. apply once_final. }
  destruct SF as [K P]. pose proof (shut_final k (h1 ++ h2)) as SI. pose proof (s_ret _ SI a S) as O1.
  destruct (once_final fr dyn maxc k (h1 ++ h2) (num v)) as [(T1 & _) _]. unfold total, kept in *.
  specialize (P (or_introl O1)).
  rewrite (idle_count _ (held (num v))) in * by (try apply (s_idle _ SI O1); intros [| |[]]; cbn; try discriminate; auto). lia.
Qed.

(** ** stop() *)
Definition sm (r p : nat) (v : tk) : bool := Nat.eqb (runner v) r && Nat.eqb (prio v) p.
Lemma remove_first_cnt r p v l : cnt (sm r p) (remove_first v l) + b2n (sm r p v && existsb (fun w => same w v) l) = cnt (sm r p) l.
Proof.
  induction l as [|w l IH]; cbn [remove_first existsb].
  - rewrite andb_false_r. reflexivity.
  - destruct (same w v) eqn:S.
    + cbn. rewrite andb_true_r, cnt_cons. unfold same in S. apply andb_prop in S as [S1 S2]. apply Nat.eqb_eq in S1, S2. unfold sm. rewrite S1, S2. lia.
    + cbn. rewrite !cnt_cons. lia.
Qed.
Lemma running_final k h r p : cnt (sm r p) (running (final k h)) = cnt (executes r p) (agents (final k h)).
Proof.
  revert r p. apply (pool_ind fr dyn maxc (fun s => forall r p, cnt (sm r p) (running s) = cnt (executes r p) (agents s))).
  - intros r p. cbn [init running agents]. symmetry. apply cnt_zero. intros x I. apply repeat_spec in I. subst. reflexivity.
  - intros s s' W I T r0 p0. specialize (I r0 p0) as I0.
    assert (LR : forall b0 c, running (launch s b0 c) = running s) by (intros b0 c; unfold PoolModel.launch; destruct (_ && _ && _); reflexivity).
    scases T; proj; rewrite ?LR.
    all: try match goal with E : nth_error (agents ?s) ?a = Some ?y |- context [set_nth ?a ?x (agents ?s)] => setcnt E (executes r0 p0) x end.
    all: rewrite ?cnt_app, ?cnt_cons, ?cnt_nil; cbn [executes b2n] in *.
    all: try solve [unfold sm in *; cbn [b2n] in *; lia].
    + pose proof (launch_nth dyn s b0 c _ _ E) as E'. setcnt E' (executes r0 p0) (ARun v (RPushing (fresh s))). cbn [executes] in *. rewrite !launch_cnt in * by reflexivity. lia.
    + pose proof (remove_first_cnt r0 p0 v (running s)) as RF. fold (sm r0 p0 v) in H. cbn [b2n] in H.
      destruct (sm r0 p0 v) eqn:SM; cbn [b2n andb] in *; [|lia].
      assert (1 <= cnt (sm (runner v) (prio v)) (running s)).
      { rewrite I. eapply cnt_in; [eapply nth_error_In; exact E|]. cbn. rewrite !Nat.eqb_refl. reflexivity. }
      apply cnt_pos_inv in H0 as (w & I1 & I2).
      assert (EX : existsb (fun w => same w v) (running s) = true) by (apply existsb_exists; exists w; split; [exact I1|exact I2]).
      rewrite EX in RF. cbn in RF. lia.
Qed.

(** Only the first shutdown stops tasks, once. *)
Definition exec (x : agent) : bool := match x with AShut _ (SClosing _) | AShut _ SStopping | AShut _ (SClearing _) | AShut _ SJoining => true | _ => false end.
Definition early (x : agent) : bool := match x with AShut _ (SClosing _) | AShut _ SStopping => true | _ => false end.
Definition is_stop (e : event) : bool := match e with EStop _ => true | _ => false end.
Definition stop_inv (s : pool) : Prop :=
  cnt exec (agents s) = (match once s with Some false => 1 | _ => 0 end) /\ ((once s = None \/ 1 <= cnt early (agents s)) -> cnt is_stop (evs s) = 0).
Lemma early_exec l : cnt early l <= cnt exec l.
Proof. apply cnt_le. intros [| |]; cbn; try discriminate. destruct p; auto. Qed.
Lemma stop_final k h : stop_inv (final k h).
Proof.
  apply pool_ind.
  - split; cbn [init agents once evs]; [|reflexivity]. apply cnt_zero. intros x I. apply repeat_spec in I. subst. reflexivity.
  - intros s s' W [X1 X2] T. pose proof (early_exec (agents s)) as EE. unfold stop_inv. scases T; proj; rewrite ?launch_once.
    all: try match goal with E : nth_error (agents ?s) ?a = Some ?y |- context [set_nth ?a ?x (agents ?s)] => setcnt E exec x; setcnt E early x;
           pose proof (early_exec (set_nth a x (agents s))) end.
    all: rewrite ?cnt_app, ?cnt_cons, ?cnt_nil, ?cnt_map, ?cnt_false; cbn [exec early is_stop b2n] in *.
    all: try rewrite O in *.
    all: try solve [split; [lia|intros [Z|Z]; try discriminate Z; rewrite ?X2; auto; try lia; right; lia]].
    1: { pose proof (launch_nth dyn s b0 c _ _ E) as E'. setcnt E' exec (ARun v (RPushing (fresh s))). setcnt E' early (ARun v (RPushing (fresh s))). cbn [exec early] in *. rewrite !launch_cnt in * by reflexivity.
      split; [lia|]. intros [Z|Z]; rewrite ?X2; auto. right. lia. }
    all: try (assert (Z : cnt is_stop (if d then map EUnjoined (unjoined s) else []) = 0) by (destruct d; [rewrite cnt_map; apply cnt_zero; auto|reflexivity]); rewrite Z;
      split; [lia|]; intros [Y|Y]; rewrite ?X2; auto; right; lia).
    all: destruct (once s) as [[]|]; try (exfalso; lia); (split; [lia|]); intros [Y|Y]; try discriminate Y; try (exfalso; lia); (rewrite X2; [reflexivity|right; lia]).
Qed.

(** After shutdown has returned, and after the tasks were stopped. *)
Definition calm (e : event) : bool := match e with EStart _ | EEnd _ | EDone _ | EStop _ => false | _ => true end.
Lemma calm_step s s' : shut_inv s -> stop_inv s -> pstep s s' -> once s = Some true -> exists add, evs s' = evs s ++ add /\ forall e, In e add -> calm e = true.
Proof.
  intros SI [X1 _] T O1. rewrite O1 in X1.
  assert (EIN : forall a x, nth_error (agents s) a = Some x -> In x (agents s)) by (intros; eapply nth_error_In; eauto).
  assert (NE : forall a x, nth_error (agents s) a = Some x -> exec x = false) by (intros b x H; eapply cnt_zero_inv; [exact X1|eauto]).
  assert (ID : forall a x, nth_error (agents s) a = Some x -> idle (q s) x) by (intros b x H; apply (s_idle s SI O1); eauto).
  assert (NIL : exists add, evs s = evs s ++ add /\ forall e, In e add -> calm e = true) by (exists []; rewrite app_nil_r; split; [reflexivity|intros e []]).
  scases T; proj; auto.
  all: try (specialize (NE _ _ E); discriminate NE).
  all: try (specialize (ID _ _ E); contradiction).
  all: try (eexists; split; [reflexivity|intros e I; repeat (destruct I as [<-|I]; [reflexivity|]); destruct I]).
  eexists. split; [reflexivity|]. intros e I. apply in_app_or in I as [I|[<-|[]]]; [|reflexivity]. destruct d; [|destruct I]. apply in_map_iff in I as (w & <- & _). reflexivity.
Qed.
Lemma calm_after k h1 h2 a : In (EShutRet a) (evs (final k h1)) -> exists add, evs (final k (h1 ++ h2)) = evs (final k h1) ++ add /\ forall e, In e add -> calm e = true.
Proof.
  intros R. induction h2 as [|lb h2 IH] using rev_ind.
  - exists []. rewrite !app_nil_r. split; [reflexivity|intros e []].
  - destruct IH as (add & E & C). rewrite app_assoc, final_snoc.
    destruct (next_pcases fr dyn maxc _ lb (wf_final fr dyn maxc k (h1 ++ h2))) as [->|T]; [eauto|].
    destruct (calm_step _ _ (shut_final k (h1 ++ h2)) (stop_final k (h1 ++ h2)) T) as (add' & E' & C').
    + eapply s_ret; [apply shut_final|]. rewrite E. apply in_or_app. left. exact R.
    + exists (add ++ add'). split; [rewrite E', E, app_assoc; reflexivity|]. intros e I. apply in_app_or in I as [I|I]; auto.
Qed.

Definition stopped (s : pool) : Prop := once s <> None /\ cnt early (agents s) = 0.
Lemma stopped_step s s' : pstep s s' -> stopped s -> stopped s' /\ cnt is_stop (evs s') = cnt is_stop (evs s).
Proof.
  intros T [O1 Z]. unfold stopped. scases T; proj; rewrite ?launch_once.
  all: try match goal with E : nth_error (agents ?s) ?a = Some ?y |- context [set_nth ?a ?x (agents ?s)] => setcnt E early x end.
  all: rewrite ?cnt_app, ?cnt_cons, ?cnt_nil, ?cnt_map, ?cnt_false; cbn [early is_stop b2n] in *.
  all: try solve [split; [split; [auto; discriminate|lia]|rewrite ?cnt_false; lia]].
  all: try solve [exfalso; congruence].
  all: try solve [exfalso; assert (1 <= cnt early (agents s)) by (eapply cnt_in; [eapply nth_error_In; exact E|reflexivity]); lia].
  1: { pose proof (launch_nth dyn s b0 c _ _ E) as E'. setcnt E' early (ARun v (RPushing (fresh s))). cbn [early] in *. rewrite !launch_cnt in * by reflexivity. split; [split; [auto|lia]|lia]. }
  assert (Y : cnt is_stop (if d then map EUnjoined (unjoined s) else []) = 0) by (destruct d; [rewrite cnt_map; apply cnt_zero; auto|reflexivity]).
  rewrite Y. split; [split; [auto|lia]|lia].
Qed.
Lemma stopped_after k h1 h2 : stopped (final k h1) -> cnt is_stop (evs (final k (h1 ++ h2))) = cnt is_stop (evs (final k h1)).
Proof.
  intros S. enough (X : stopped (final k (h1 ++ h2)) /\ cnt is_stop (evs (final k (h1 ++ h2))) = cnt is_stop (evs (final k h1))) by apply X.
  induction h2 as [|lb h2 IH] using rev_ind; [rewrite app_nil_r; auto|]. rewrite app_assoc, final_snoc.
  destruct (next_pcases fr dyn maxc _ lb (wf_final fr dyn maxc k (h1 ++ h2))) as [->|T]; [exact IH|].
  destruct IH as [S1 E1]. destruct (stopped_step _ _ T S1) as [S2 E2]. split; [exact S2|lia].
Qed.

(** A thread that went to sleep although the queue is closed. *)
Definition stuck (s : pool) (w t : nat) : Prop :=
  once s = Some false /\ closed (q s) = true /\ nth_error (agents s) w = Some (AWorker (WWaiting t)) /\
  nth_error (tasks (q s)) t = Some (OWait false, PAsleep) /\ (forall t' o p, nth_error (tasks (q s)) t' = Some (o, p) -> p <> PPush /\ p <> PNotify).
Definition no_wake (l : label) : bool := match l with LWake _ => false | _ => true end.

Lemma sleep_call k o t : nth_error (tasks k) t = Some (OWait false, PAsleep) -> (forall t' o p, nth_error (tasks k) t' = Some (o, p) -> p <> PPush /\ p <> PNotify) ->
  nth_error (tasks (qnext k (LCall o))) t = Some (OWait false, PAsleep) /\ (forall t' o' p, nth_error (tasks (qnext k (LCall o))) t' = Some (o', p) -> p <> PPush /\ p <> PNotify).
Proof.
  intros E N. cbn. split; [rewrite nth_error_app1; [exact E|eapply nth_lt; eauto]|].
  intros t' o' p H. rewrite nth_snoc in H. destruct (Nat.eqb t' _); [injection H as <- <-; split; discriminate|eauto].
Qed.
Lemma sleep_run k t0 c t : closed k = true -> nth_error (tasks k) t = Some (OWait false, PAsleep) -> (forall t' o p, nth_error (tasks k) t' = Some (o, p) -> p <> PPush /\ p <> PNotify) ->
  nth_error (tasks (qnext k (LRun t0 c))) t = Some (OWait false, PAsleep) /\ (forall t' o' p, nth_error (tasks (qnext k (LRun t0 c))) t' = Some (o', p) -> p <> PPush /\ p <> PNotify).
Proof.
  intros C E N. cbn [QueueModel.next]. destruct (nth_error (tasks k) t0) as [[o p]|] eqn:T; [|auto].
  assert (G : forall x, p <> PAsleep -> snd x <> PPush -> snd x <> PNotify -> nth_error (set_nth t0 x (tasks k)) t = Some (OWait false, PAsleep) /\ (forall t' o' p', nth_error (set_nth t0 x (tasks k)) t' = Some (o', p') -> p' <> PPush /\ p' <> PNotify)).
  { intros x H1 H2 H3. split.
    - rewrite nth_set_other; [exact E|]. intros ->. rewrite T in E. injection E as -> ->. congruence.
    - intros t' o' p' H. rewrite (nth_set _ _ _ _ _ T) in H. destruct (Nat.eqb t0 t'); [injection H as ->; auto|eauto]. }
  destruct (N _ _ _ T) as [N1 N2].
  destruct p; cbn [step_at]; auto; try congruence.
  - destruct o; rewrite ?C; cbn; try (apply G; cbn; discriminate); destruct (free k); auto; cbn; try destruct (nonempty k); cbn; try (apply G; cbn; discriminate).
  - destruct (free k); auto. cbn. destruct (pred k); apply G; cbn; discriminate.
  - cbn. apply G; cbn; discriminate.
  - destruct (free k); auto. destruct (pred k); cbn; apply G; cbn; discriminate.
  - rewrite C. cbn. apply G; cbn; discriminate.
  - destruct (nth_error (items k) c); [destruct (fr (items k) c); auto; cbn; apply G; cbn; discriminate|destruct (items k); auto].
Qed.

Lemma stuck_step s w t l : wf s -> stop_inv s -> shut_inv s -> stuck s w t -> no_wake l = true -> stuck (next s l) w t.
Proof.
  intros W [X1 _] SI (O1 & C1 & A1 & T1 & N1) NW.
  assert (CM : closed (q (next s l)) = true).
  { destruct (next_pcases fr dyn maxc s l W) as [->|T]; [exact C1|]. eapply closed_step; eauto. }
  assert (OM : once (next s l) = Some false).
  { destruct (next_pcases fr dyn maxc s l W) as [->|T]; [exact O1|]. revert T. generalize (next s l). clear CM NW l. assert (NX : forallb exited (agents s) = false) by (destruct (forallb exited (agents s)) eqn:F; [rewrite forallb_forall in F; specialize (F _ (nth_error_In _ _ A1)); discriminate F|reflexivity]). clear t w A1 T1. intros s' T. scases T; proj; rewrite ?launch_once; auto; try congruence.
    }
  split; [exact OM|]. split; [exact CM|]. clear OM CM.
  assert (QC : forall o, nth_error (tasks (qnext (q s) (LCall o))) t = Some (OWait false, PAsleep) /\ (forall t' o' p, nth_error (tasks (qnext (q s) (LCall o))) t' = Some (o', p) -> p <> PPush /\ p <> PNotify)) by (intros; apply sleep_call; auto).
  assert (QR : forall t0 c, nth_error (tasks (qnext (q s) (LRun t0 c))) t = Some (OWait false, PAsleep) /\ (forall t' o' p, nth_error (tasks (qnext (q s) (LRun t0 c))) t' = Some (o', p) -> p <> PPush /\ p <> PNotify)) by (intros; apply sleep_run; auto).
  assert (ADD : forall x, nth_error (agents s ++ [x]) w = Some (AWorker (WWaiting t))) by (intros; rewrite nth_error_app1; [exact A1|eapply nth_lt; eauto]).
  destruct l as [r p|d|a c|t0]; try discriminate; cbn [PoolModel.next].
  - proj. auto.
  - proj. auto.
  - destruct (nth_error (agents s) a) as [x|] eqn:E; [|auto].
    assert (SET : forall y, x <> AWorker (WWaiting t) -> nth_error (set_nth a y (agents s)) w = Some (AWorker (WWaiting t))).
    { intros y H. rewrite nth_set_other; [exact A1|]. intros ->. congruence. }
    destruct x as [v p|d p|p].
    + destruct p as [| |b0|t1|]; cbn [PoolModel.run_step]; auto; try solve [proj; split; [apply SET; discriminate|auto]].
      * proj. split; [|apply QC]. rewrite nth_set_other; [apply launch_nth; exact A1|]. intros ->. congruence.
      * destruct (result _ t1); proj; (split; [try (apply SET; discriminate); exact A1|apply QR]).
    + destruct p as [|t1| |t1| | |]; cbn [PoolModel.shut_step]; auto.
      * rewrite O1. auto.
      * destruct (result _ t1); proj; (split; [try (apply SET; discriminate); exact A1|apply QR]).
      * proj. split; [apply SET; discriminate|apply QC].
      * destruct (result _ t1); proj; (split; [try (apply SET; discriminate); exact A1|apply QR]).
      * destruct (forallb exited (agents s)); auto. proj. split; [apply SET; discriminate|auto].
      * proj. split; [apply SET; discriminate|auto].
    + destruct p as [|t1|v|v|v|v|v|]; cbn [PoolModel.worker_step]; auto; try solve [proj; split; [apply SET; discriminate|auto]].
      * destruct (Nat.eq_dec t1 t) as [->|NE].
        -- unfold result, qrun. cbn [q with_q]. rewrite (proj1 (QR t c)). proj. split; [exact A1|apply QR].
        -- destruct (result _ t1) as [[]|]; proj; (split; [try (apply SET; congruence); exact A1|apply QR]).
Qed.

Lemma stuck_after k h1 h2 w t : stuck (final k h1) w t -> (forall l, In l h2 -> no_wake l = true) -> forall a, ~ In (EShutRet a) (evs (final k (h1 ++ h2))).
Proof.
  intros S N a. assert (X : stuck (final k (h1 ++ h2)) w t).
  { induction h2 as [|lb h2 IH] using rev_ind; [rewrite app_nil_r; exact S|]. rewrite app_assoc, final_snoc.
    apply stuck_step; [apply wf_final|apply stop_final|apply shut_final|apply IH; intros l I; apply N, in_or_app; auto|]. apply N, in_or_app. right. left. reflexivity. }
  destruct X as (O1 & _). intros I. rewrite (s_ret _ (shut_final _ _) a I) in O1. discriminate.
Qed.
End P.
