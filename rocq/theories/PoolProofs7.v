(** Proofs about the thread pool, part 7: where the pool gets to when everybody goes on; the number of threads. *)
From Verif Require Import ListUtil QueueModel QueueSpec QueueProofs QueueProofs2 QueueProofs3 QueueProofs4 PoolModel PoolSpec PoolProofs PoolProofs2 PoolProofs3 PoolProofs4 PoolProofs5 PoolProofs6.
From Coq Require Import Permutation.

Section P.
Variable fr : list tk -> nat -> bool.
Variable dyn : bool.
Variable maxc : nat.
Notation next := (PoolModel.next fr dyn maxc).
Notation final := (PoolModel.final fr dyn maxc).
Notation pstep := (pstep fr dyn maxc).
Notation launch := (launch dyn).
Notation qnext := (QueueModel.next fr).
Notation has_front := (has_front tk fr).

Lemma no_shut_app h h' : no_shut h -> (forall l, In l h' -> go_or_wake l = true) -> no_shut (h ++ h').
Proof. intros A B l I. apply in_app_or in I as [I|I]; [auto|]. specialize (B l I). destruct l; try reflexivity; discriminate. Qed.

Lemma find_or {A} (f : A -> bool) l : (forall x, In x l -> f x = true) \/ exists x, In x l /\ f x = false.
Proof.
  induction l as [|x l IH]; [left; intros ? []|]. destruct (f x) eqn:F; [|right; exists x; cbn; auto].
  destruct IH as [IH|(y & I & Y)]; [left; intros y [<-|I]; auto|right; exists y; cbn; auto].
Qed.

(** *** Nobody shuts the pool down *)
Definition calm_agent (k : QueueModel.state tk) (x : agent) : bool := over_agent x || sleeper k x.
Lemma open_moves n h : has_front -> no_shut h -> (exists x, In x (agents (final n h)) /\ calm_agent (q (final n h)) x = false) ->
  exists l, is_go l = true /\ mu 0 (next (final n h) l) < mu 0 (final n h).
Proof.
  intros HF N (x & I & X). pose proof (quiet_final fr dyn maxc n h N) as Q. apply orb_false_iff in X as [X1 X2].
  destruct (progress fr dyn maxc 0 (final n h) HF (wf_final _ _ _ _ _) (owned_final _ _ _ _ _) (pop_ok _ _ _ _ _)) as (l & L & M).
  - right. split; [eapply quiet_closed; [apply wf_final|exact Q]|]. split; [reflexivity|apply Q].
  - apply stop_final.
  - intros _. apply Q.
  - exists x. auto.
  - exists l. split; [|exact M]. destruct l; cbn in L; try contradiction; [reflexivity|discriminate].
Qed.
Lemma open_settles n : has_front -> forall h, no_shut h -> exists h', (forall l, In l h' -> is_go l = true) /\
  forall x, In x (agents (final n (h ++ h'))) -> calm_agent (q (final n (h ++ h'))) x = true.
Proof.
  intros HF h. remember (mu 0 (final n h)) as m eqn:Em. revert h Em. induction m as [m IH] using lt_wf_ind. intros h Em N.
  destruct (find_or (calm_agent (q (final n h))) (agents (final n h))) as [A|B].
  { exists []. rewrite app_nil_r. split; [intros l []|exact A]. }
  destruct (open_moves n h HF N B) as (l & L & M). rewrite <- final_snoc in M.
  assert (N' : no_shut (h ++ [l])) by (apply no_shut_app; [exact N|]; intros l0 [<-|[]]; destruct l; try discriminate; reflexivity).
  destruct (IH _ ltac:(rewrite Em; exact M) (h ++ [l]) eq_refl N') as (h' & A & C).
  exists (l :: h'). change (h ++ l :: h') with (h ++ [l] ++ h'). rewrite app_assoc. split; [intros l0 [<-|I]; auto|exact C].
Qed.

(** *** The pool is closed *)
Lemma closed_next s l : wf s -> closed (q s) = true -> closed (q (next s l)) = true.
Proof. intros W C. destruct (next_pcases fr dyn maxc s l W) as [->|T]; [exact C|]. eapply closed_step; eauto. Qed.
Lemma closed_moves n h : has_front -> closed (q (final n h)) = true -> (exists x, In x (agents (final n h)) /\ over_agent x = false) ->
  exists l, go_or_wake l = true /\ mu 6 (next (final n h) l) < mu 6 (final n h).
Proof.
  intros HF C (x & I & X).
  destruct (progress fr dyn maxc 6 (final n h) HF (wf_final _ _ _ _ _) (owned_final _ _ _ _ _) (pop_ok _ _ _ _ _)) as (l & L & M).
  - left. auto.
  - apply stop_final.
  - discriminate.
  - exists x. split; [exact I|]. split; [exact X|discriminate].
  - exists l. split; [|exact M]. destruct l; cbn in L; try contradiction; reflexivity.
Qed.
Lemma closed_settles n : has_front -> forall h, closed (q (final n h)) = true -> exists h', (forall l, In l h' -> go_or_wake l = true) /\
  forall x, In x (agents (final n (h ++ h'))) -> over_agent x = true.
Proof.
  intros HF h. remember (mu 6 (final n h)) as m eqn:Em. revert h Em. induction m as [m IH] using lt_wf_ind. intros h Em N.
  destruct (find_or over_agent (agents (final n h))) as [A|B].
  { exists []. rewrite app_nil_r. split; [intros l []|exact A]. }
  destruct (closed_moves n h HF N B) as (l & L & M). rewrite <- final_snoc in M.
  assert (N' : closed (q (final n (h ++ [l]))) = true) by (rewrite final_snoc; apply closed_next; [apply wf_final|exact N]).
  destruct (IH _ ltac:(rewrite Em; exact M) (h ++ [l]) eq_refl N') as (h' & A & C).
  exists (l :: h'). change (h ++ l :: h') with (h ++ [l] ++ h'). rewrite app_assoc. split; [intros l0 [<-|I]; auto|exact C].
Qed.

(** A shutdown that was called can close the queue. *)
Lemma shut_can_close n h d p : In (AShut d p) (agents (final n h)) ->
  exists h', (forall l, In l h' -> is_go l = true) /\ closed (q (final n (h ++ h'))) = true.
Proof.
  intros I. destruct (closed (q (final n h))) eqn:C; [exists []; rewrite app_nil_r; split; [intros l []|exact C]|].
  pose proof (shut_final fr dyn maxc n h) as SI. destruct (stop_final fr dyn maxc n h) as [ST _]. pose proof (wf_final fr dyn maxc n h) as W.
  assert (CLOSE : forall h0 a t d0, closed (q (final n h0)) = false -> nth_error (agents (final n h0)) a = Some (AShut d0 (SClosing t)) -> closed (q (final n (h0 ++ [LGo a 0]))) = true).
  { intros h0 a t d0 C0 E. rewrite final_snoc. cbn [PoolModel.next]. rewrite E. cbn [PoolModel.shut_step]. pose proof (wf_final fr dyn maxc n h0) as W0.
    destruct (w_own _ W0 _ _ _ _ E eq_refl) as (p0 & T & NR). pose proof (i_shape _ _ (proj1 (w_q _ W0)) _ _ _ T) as SH.
    assert (X : closed (qnext (q (final n h0)) (LRun t 0)) = true).
    { cbn. rewrite T. destruct p0; try contradiction; cbn in SH |- *; try discriminate SH; try (destruct SH; discriminate); try (rewrite C0; reflexivity).
      destruct (w_q _ W0) as (_ & _ & PN & _). rewrite (PN _ _ T) in C0. discriminate. }
    destruct (result _ t); exact X. }
  destruct (once (final n h)) as [[]|] eqn:ON.
  - rewrite (s_once _ SI ON) in C. discriminate.
  - destruct (cnt_pos_inv exec (agents (final n h))) as (y & IY & XY); [lia|]. destruct y as [|dy py|]; try discriminate XY.
    destruct py; try discriminate XY; try (rewrite (s_late _ SI _ IY eq_refl) in C; discriminate).
    apply In_nth_error in IY as (b & EY). exists [LGo b 0]. split; [intros l [<-|[]]; reflexivity|]. eapply CLOSE; eauto.
  - assert (p = SStart).
    { destruct p; try reflexivity; try (pose proof (s_end _ SI _ I eq_refl); congruence);
        (assert (1 <= cnt exec (agents (final n h))) by (eapply cnt_in; [exact I|reflexivity]); lia). }
    subst p. apply In_nth_error in I as (a & E). exists [LGo a 0; LGo a 0]. split; [intros l [<-|[<-|[]]]; reflexivity|].
    change (h ++ [LGo a 0; LGo a 0]) with (h ++ [LGo a 0] ++ [LGo a 0]). rewrite app_assoc. eapply CLOSE.
    + rewrite final_snoc. cbn [PoolModel.next]. rewrite E. cbn [PoolModel.shut_step]. rewrite ON. cbn. exact C.
    + rewrite final_snoc. cbn [PoolModel.next]. rewrite E. cbn [PoolModel.shut_step]. rewrite ON. cbn. apply nth_set_same. eapply nth_lt; eauto.
Qed.

(** ** Calls and what is logged about them *)
Ltac scases T := destruct T as [r p|d|l L IT|a v b0 c E|a v t l E L C IT|a v t l E L IT|a d E O|a d E O|a d t l E L C IT|a d E|a d t l E L IT|a d E F|a d E|a E|a t l v E L T0 IT F|a t l E L C IT|a v E|a v E|a v E|a v E|a v E|a v pp0 pp1 E EP EQ].
Ltac proj := cbn [PoolModel.next agents with_agents with_submitted with_running with_once with_joined with_q put log qcall q evs submitted once running]; rewrite ?launch_q, ?launch_evs, ?launch_sub.

Record calls_inv (s : pool) : Prop := {
  c_run : forall v, In (ESubmit v) (evs s) -> exists p, In (ARun v p) (agents s);
  c_ret : forall v, In (ARun v RReturned) (agents s) -> In (ERunRet v) (evs s);
  c_shut : forall b, In (EShut b) (evs s) -> exists d p, nth_error (agents s) b = Some (AShut d p);
  c_sret : forall b d, nth_error (agents s) b = Some (AShut d SReturned) -> In (EShutRet b) (evs s);
  c_exit : In (AWorker WExited) (agents s) -> closed (q s) = true
}.
Lemma calls_init n : calls_inv (init n).
Proof.
  assert (R : forall x, In x (repeat (AWorker WLoop) n) -> x = AWorker WLoop) by (intros x H; apply repeat_spec in H; exact H).
  constructor; cbn [init evs agents q]; try contradiction.
  - intros v I. apply R in I. discriminate.
  - intros b d E. apply nth_error_In, R in E. discriminate.
  - intros I. apply R in I. discriminate.
Qed.

Definition kind (y x : agent) : Prop :=
  match y with ARun v _ => exists p, x = ARun v p | AShut d _ => exists p, x = AShut d p | AWorker _ => exists p, x = AWorker p end.
Definition newcall (e : event) : bool := match e with ESubmit _ | EShut _ => true | _ => false end.
Lemma calls_set s s' a x y add : calls_inv s -> (closed (q s) = true -> closed (q s') = true) -> nth_error (agents s) a = Some y -> agents s' = set_nth a x (agents s) ->
  evs s' = evs s ++ add -> kind y x -> (forall e, In e add -> newcall e = false) ->
  (forall v, x = ARun v RReturned -> y = ARun v RReturned \/ In (ERunRet v) add) -> (forall d, x = AShut d SReturned -> y = AShut d SReturned \/ In (EShutRet a) add) ->
  (x = AWorker WExited -> closed (q s') = true) -> calls_inv s'.
Proof.
  intros [C1 C2 C3 C4 C5] CM E A G K NC H1 H2 H3.
  assert (EIN : In y (agents s)) by (eapply nth_error_In; exact E).
  assert (OLD : forall e, newcall e = true -> In e (evs s') -> In e (evs s)).
  { intros e N I. rewrite G in I. apply in_app_or in I as [I|I]; [exact I|]. rewrite (NC _ I) in N. discriminate. }
  constructor.
  - intros v I. apply OLD in I; [|reflexivity]. destruct (C1 _ I) as (p & J). apply In_nth_error in J as (b & B). rewrite A.
    destruct (Nat.eq_dec a b) as [<-|N].
    + rewrite E in B. injection B as ->. cbn in K. destruct K as (p' & ->). exists p'. eapply nth_error_In. apply nth_set_same. eapply nth_lt; eauto.
    + exists p. eapply nth_error_In. rewrite nth_set_other by exact N. exact B.
  - intros v I. rewrite A in I. rewrite G. apply in_or_app. apply in_set_nth in I as [I|I]; [|left; auto]. destruct (H1 v (eq_sym I)) as [->|J]; auto.
  - intros b I. apply OLD in I; [|reflexivity]. destruct (C3 _ I) as (d & p & B). rewrite A. rewrite (nth_set _ _ _ _ _ E). destruct (Nat.eqb_spec a b) as [<-|N]; [|eauto].
    rewrite E in B. injection B as ->. cbn in K. destruct K as (p' & ->). eauto.
  - intros b d B. rewrite A, (nth_set _ _ _ _ _ E) in B. rewrite G. apply in_or_app. destruct (Nat.eqb_spec a b) as [<-|N]; [|left; eauto].
    injection B as B. destruct (H2 d B) as [->|J]; [left; eauto|auto].
  - intros I. rewrite A in I. apply in_set_nth in I as [I|I]; [apply H3; auto|auto].
Qed.
Lemma calls_add s s' x add : calls_inv s -> (closed (q s) = true -> closed (q s') = true) -> agents s' = agents s ++ [x] -> evs s' = evs s ++ add ->
  (forall v, In (ESubmit v) add -> exists p, x = ARun v p) -> (forall b, In (EShut b) add -> b = length (agents s) /\ exists d p, x = AShut d p) ->
  over_agent x = false -> calls_inv s'.
Proof.
  intros [C1 C2 C3 C4 C5] CM A G H1 H2 V. constructor.
  - intros v I. rewrite G in I. rewrite A. apply in_app_or in I as [I|I].
    + destruct (C1 _ I) as (p & J). exists p. apply in_or_app. auto.
    + destruct (H1 v I) as (p & ->). exists p. apply in_or_app. right. left. reflexivity.
  - intros v I. rewrite A in I. rewrite G. apply in_or_app. apply in_app_or in I as [I|[I|[]]]; [auto|]. subst x. discriminate.
  - intros b I. rewrite G in I. rewrite A. apply in_app_or in I as [I|I].
    + destruct (C3 _ I) as (d & p & B). exists d, p. rewrite nth_error_app1; [exact B|eapply nth_lt; eauto].
    + destruct (H2 _ I) as (-> & d & p & ->). exists d, p. rewrite nth_error_app2, Nat.sub_diag by lia. reflexivity.
  - intros b d B. rewrite A, nth_snoc in B. rewrite G. apply in_or_app. destruct (Nat.eqb b _); [injection B as ->; discriminate|left; eauto].
  - intros I. rewrite A in I. apply CM. apply in_app_or in I as [I|[I|[]]]; [auto|subst x; discriminate].
Qed.
Lemma calls_launch s b c : calls_inv s -> calls_inv (launch s b c).
Proof.
  intros I. unfold PoolModel.launch. destruct (_ && _ && _); [|exact I].
  eapply calls_add with (x := AWorker WLoop) (add := []); [exact I|auto|reflexivity|cbn; rewrite app_nil_r; reflexivity|intros ? []|intros ? []|reflexivity].
Qed.
Lemma calls_step s s' : wf s -> calls_inv s -> pstep s s' -> calls_inv s'.
Proof.
  intros W I T. pose proof (closed_step fr dyn maxc _ _ W T) as CM. revert CM. scases T; intros CM.
  1: { eapply calls_add with (add := [ESubmit (Tk (submitted s) r p)]); [exact I|exact CM|reflexivity|reflexivity| | |].
       - intros v [J|[]]. injection J as <-. eauto.
       - intros b [J|[]]. discriminate.
       - destruct dyn; reflexivity. }
  1: { eapply calls_add with (add := [EShut (length (agents s))]); [exact I|exact CM|reflexivity|reflexivity| | |reflexivity].
       - intros v [J|[]]. discriminate.
       - intros b [J|[]]. injection J as <-. eauto. }
  1: { destruct I as [C1 C2 C3 C4 C5]. constructor; proj; auto. }
  1: { apply (calls_set (launch s b0 c)) with (a := a) (y := ARun v (RStart b0)) (x := ARun v (RPushing (fresh s))) (add := []).
       - apply calls_launch. exact I.
       - rewrite launch_q. exact CM.
       - apply launch_nth. exact E.
       - reflexivity.
       - proj. rewrite app_nil_r. reflexivity.
       - cbn. eauto.
       - intros e [].
       - discriminate.
       - discriminate.
       - discriminate. }
  all: eapply calls_set; [exact I|exact CM|exact E|reflexivity|..].
  all: try (proj; reflexivity).
  all: try (proj; symmetry; apply app_nil_r).
  all: try (cbn; eauto; fail).
  all: try discriminate.
  all: try (match goal with |- forall e : event, _ => intros e J; repeat (destruct J as [<-|J]; [reflexivity|]); destruct J end).
  all: try (intros u J; injection J as <-; right; left; reflexivity).
  - intros e J. apply in_map_iff in J as (w & <- & _). reflexivity.
  - intros e J. apply in_map_iff in J as (w & <- & _). reflexivity.
  - intros e J. apply in_app_or in J as [J|[<-|[]]]; [|reflexivity]. destruct d; [|destruct J]. apply in_map_iff in J as (w & <- & _). reflexivity.
  - intros d0 J. right. apply in_or_app. right. left. reflexivity.
  - intros w J. injection J as -> ->. discriminate EQ.
Qed.
Lemma calls_final n h : calls_inv (final n h).
Proof. apply pool_ind; [apply calls_init|]. intros. eapply calls_step; eauto. Qed.

(** Without shutdown only tasks that have ended are finished. *)
Lemma done_ended n h : no_shut h -> forall v, In (EDone v) (evs (final n h)) -> In (EEnd v) (evs (final n h)).
Proof.
  induction h as [|lb h IH] using rev_ind; intros N v0 I0; [destruct I0|].
  assert (N' : no_shut h) by (intros l J; apply N, in_or_app; auto). specialize (IH N'). destruct (quiet_final fr dyn maxc n h N') as (_ & Q & _).
  rewrite final_snoc in *. destruct (next_pcases fr dyn maxc _ lb (wf_final fr dyn maxc n h)) as [E0|T]; [rewrite E0 in *; auto|].
  pose proof (known_final fr dyn maxc n h) as KN. revert T I0. generalize (next (final n h) lb). intros s1 T.
  remember (final n h) as s eqn:HS. clear HS.
  assert (EIN : forall a x, nth_error (agents s) a = Some x -> In x (agents s)) by (intros; eapply nth_error_In; eauto).
  scases T; proj; intros I0; auto.
  all: try (exfalso; eapply Q, EIN; exact E).
  all: apply in_or_app; apply in_app_or in I0 as [I0|I0]; [auto|].
  all: try (destruct I0 as [I0|[]]; discriminate I0).
  destruct I0 as [I0|[]]. injection I0 as <-. left. apply (k_over _ KN _ _ (EIN _ _ E)). reflexivity.
Qed.

Lemma calm_empty n h : no_shut h -> 1 <= thread_count (final n h) -> (forall x, In x (agents (final n h)) -> calm_agent (q (final n h)) x = true) -> items (q (final n h)) = [].
Proof.
  intros N TC ALL. pose proof (quiet_final fr dyn maxc n h N) as Q. pose proof (quiet_closed _ (wf_final fr dyn maxc n h) Q) as C.
  destruct (cnt_pos_inv is_worker _ TC) as (w & IW & XW). pose proof (ALL w IW) as SW. destruct w as [| |p]; try discriminate XW.
  destruct p; try discriminate SW.
  2: { rewrite (c_exit _ (calls_final n h) IW) in C. discriminate. }
  destruct (queue_hist fr dyn maxc n h) as (hq & E). cbn in SW. destruct (nth_error (tasks (q (final n h))) t) as [[o p]|] eqn:T; [|discriminate SW].
  destruct p; try discriminate SW. rewrite E in *.
  apply (no_sleep_on_content tk fr hq t).
  - intros t' o' X. unfold call_of, calls in X. destruct Q as (_ & _ & Q). rewrite E in Q.
    destruct (nth_error (tasks (QueueModel.final fr hq)) t') as [[o1 p1]|] eqn:F.
    + rewrite (map_nth_error fst _ _ F) in X. injection X as <-. destruct o1; try reflexivity. destruct (Q _ _ F).
    + apply nth_error_None in F. apply nth_lt in X. rewrite map_length in X. unfold task in *. lia.
  - exists o. exact T.
  - intros t' L. unfold calls in L. rewrite map_length in L. destruct (nth_error (tasks (QueueModel.final fr hq)) t') as [[o1 p1]|] eqn:F.
    2: { apply nth_error_None in F. unfold task in *. lia. }
    assert (D : (exists r, p1 = PReturned r) \/ notret p1) by (destruct p1; cbn; eauto). destruct D as [(r & ->)|NR].
    + left. exists r. eapply ret_task. exact F.
    + right. destruct (owned_final fr dyn maxc n h t' o1 p1) as (a & x & A & O); [rewrite E; exact F|exact NR|].
      assert (X : calm_agent (q (final n h)) x = true) by (rewrite E; apply ALL; eapply nth_error_In; exact A). rewrite E in X.
      unfold calm_agent in X. destruct x as [v pc|d pc|pc]; destruct pc; try discriminate O; try discriminate X. cbn in O. injection O as -> <-. cbn in X. rewrite F in X.
      destruct p1; try discriminate X. exists (OWait false). exact F.
Qed.

Lemma calm_done n h v : no_shut h -> 1 <= thread_count (final n h) -> (forall x, In x (agents (final n h)) -> calm_agent (q (final n h)) x = true) ->
  In (ESubmit v) (evs (final n h)) -> In (ERunRet v) (evs (final n h)) /\
  cnt (starts (num v)) (evs (final n h)) = 1 /\ cnt (ends (num v)) (evs (final n h)) = 1 /\ cnt (finishes (num v)) (evs (final n h)) = 1.
Proof.
  intros N TC ALL SB. pose proof (calls_final n h) as CI. destruct (c_run _ CI _ SB) as (p & IR).
  assert (R : In (ERunRet v) (evs (final n h))).
  { apply (c_ret _ CI). pose proof (ALL _ IR) as X. destruct p; try discriminate X. exact IR. }
  split; [exact R|]. pose proof (quiet_final fr dyn maxc n h N) as Q. pose proof (quiet_closed _ (wf_final fr dyn maxc n h) Q) as C.
  pose proof (ret_kept fr dyn maxc n h v C R) as K. unfold kept in K. rewrite (calm_empty n h N TC ALL), cnt_nil in K.
  rewrite (cnt_zero (held (num v))) in K.
  2: { intros x I. pose proof (ALL x I) as X. destruct x as [| |pc]; try reflexivity. destruct pc; try reflexivity; discriminate X. }
  destruct (once_final fr dyn maxc n h (num v)) as [(A & B & D) _]. unfold total, kept, total_s, total_e in A, B, D.
  destruct (cnt_pos_inv (finishes (num v)) (evs (final n h))) as (e & I1 & X1); [lia|]. destruct e; try discriminate X1. cbn in X1.
  pose proof (done_ended n h N _ I1) as I2. apply in_split in I2 as (l1 & l2 & I2). pose proof I2 as I2'.
  destruct (ordered_final fr dyn maxc n h) as (_ & OE & _). pose proof (OE _ _ _ I2) as I3.
  assert (1 <= cnt (ends (num v)) (evs (final n h))) by (eapply cnt_in; [rewrite I2; apply in_or_app; right; left; reflexivity|exact X1]).
  assert (1 <= cnt (starts (num v)) (evs (final n h))) by (eapply cnt_in; [rewrite I2; apply in_or_app; left; exact I3|exact X1]).
  lia.
Qed.

Lemma over_done n h : (forall x, In x (agents (final n h)) -> over_agent x = true) ->
  (forall v, In (ESubmit v) (evs (final n h)) -> In (ERunRet v) (evs (final n h))) /\ (forall b, In (EShut b) (evs (final n h)) -> In (EShutRet b) (evs (final n h))).
Proof.
  intros ALL. pose proof (calls_final n h) as CI. split.
  - intros v I. destruct (c_run _ CI _ I) as (p & J). apply (c_ret _ CI). pose proof (ALL _ J) as X. destruct p; try discriminate X. exact J.
  - intros b I. destruct (c_shut _ CI _ I) as (d & p & J). apply (c_sret _ CI b d). pose proof (ALL _ (nth_error_In _ _ J)) as X. destruct p; try discriminate X. exact J.
Qed.

(** ** The number of threads *)
Lemma threads_grow s s' : pstep s s' -> thread_count s <= thread_count s' <= S (thread_count s).
Proof.
  intros T. unfold thread_count. scases T; proj.
  all: try match goal with E : nth_error (agents ?s) ?a = Some ?y |- context [set_nth ?a ?x (agents ?s)] => pose proof (cnt_set is_worker (agents s) a x y E) as X; cbn [is_worker b2n] in X end.
  all: rewrite ?cnt_app, ?cnt_cons, ?cnt_nil; cbn [is_worker b2n]; try lia.
  pose proof (cnt_set is_worker _ a (ARun v (RPushing (fresh s))) _ (launch_nth dyn s b0 c _ _ E)) as X. cbn [is_worker b2n] in X.
  unfold PoolModel.launch in *. destruct (_ && _ && _); cbn [agents with_agents] in *; rewrite ?cnt_app, ?cnt_cons, ?cnt_nil in *; cbn [is_worker b2n] in *; lia.
Qed.
Lemma threads_mono n h h' : thread_count (final n h) <= thread_count (final n (h ++ h')).
Proof.
  induction h' as [|l h' IH] using rev_ind; [rewrite app_nil_r; lia|]. rewrite app_assoc, final_snoc.
  destruct (next_pcases fr dyn maxc _ l (wf_final fr dyn maxc n (h ++ h'))) as [->|T]; [exact IH|]. pose proof (threads_grow _ _ T). lia.
Qed.
Lemma threads_init n : thread_count (init n) = n.
Proof. unfold thread_count. cbn. induction n as [|n IH]; cbn; [reflexivity|]. rewrite cnt_cons, IH. reflexivity. Qed.

(** One run() call after the other. *)
Definition flying (x : agent) : bool := match x with ARun _ RReturned => false | ARun _ _ => true | _ => false end.
Definition past (x : agent) : bool := match x with ARun _ (RPushing _) | ARun _ RReturned => true | _ => false end.
Definition is_run (x : agent) : bool := match x with ARun _ _ => true | _ => false end.
Definition numbered (k : nat) (x : agent) : bool := match x with ARun v _ => Nat.eqb (num v) k | _ => false end.

Record runs_inv (s : pool) : Prop := {
  u_one : forall k, cnt (numbered k) (agents s) <= 1;
  u_lt : forall v p, In (ARun v p) (agents s) -> num v < submitted s;
  u_ret : forall v, In (ERunRet v) (evs s) -> In (ARun v RReturned) (agents s);
  u_cnt : cnt is_submit (evs s) = cnt is_run (agents s)
}.
End P.
