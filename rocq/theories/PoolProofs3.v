(** Proofs about the thread pool, part 3: no task is run or finished twice, and none is lost. *)
From Verif Require Import ListUtil QueueModel QueueSpec QueueProofs QueueProofs2 PoolModel PoolSpec PoolProofs PoolProofs2.
From Coq Require Import Permutation.

Definition isn (n : nat) (v : tk) : bool := Nat.eqb (num v) n.
Definition pend (n : nat) (x : agent) : bool := match x with ARun v RReturned => false | ARun v _ => isn n v | _ => false end.
Definition unstarted (n : nat) (x : agent) : bool := match x with AWorker (WAdd v) | AWorker (WStart v) => isn n v | _ => false end.
Definition unended (n : nat) (x : agent) : bool := match x with AWorker (WAdd v) | AWorker (WStart v) | AWorker (WRunning v) => isn n v | _ => false end.
Definition held (n : nat) (x : agent) : bool :=
  match x with AWorker (WAdd v) | AWorker (WStart v) | AWorker (WRunning v) | AWorker (WRemove v) | AWorker (WDone v) => isn n v | _ => false end.

(** What became of the n-th submission: pending in run(), in the queue, in the hands of a thread, started / ended / finished. *)
Definition kept (n : nat) (s : pool) : nat := cnt (isn n) (items (q s)) + cnt (held n) (agents s) + cnt (finishes n) (evs s).
Definition total (n : nat) (s : pool) : nat := cnt (pend n) (agents s) + kept n s.
Definition total_s (n : nat) (s : pool) : nat :=
  cnt (pend n) (agents s) + cnt (isn n) (items (q s)) + cnt (unstarted n) (agents s) + cnt (starts n) (evs s).
Definition total_e (n : nat) (s : pool) : nat :=
  cnt (pend n) (agents s) + cnt (isn n) (items (q s)) + cnt (unended n) (agents s) + cnt (ends n) (evs s).

Lemma cnt_perm {A} (f : A -> bool) l l' : Permutation l l' -> cnt f l = cnt f l'.
Proof. induction 1; rewrite ?cnt_cons; lia. Qed.
Lemma cnt_map {A B} (g : A -> B) (f : B -> bool) l : cnt f (map g l) = cnt (fun x => f (g x)) l.
Proof. induction l as [|x l IH]; cbn; [reflexivity|]. rewrite !cnt_cons, IH. reflexivity. Qed.
Lemma cnt_false {A} (l : list A) : cnt (fun _ => false) l = 0.
Proof. apply cnt_zero. reflexivity. Qed.

Section P.
Variable fr : list tk -> nat -> bool.
Variable dyn : bool.
Variable maxc : nat.
Notation next := (PoolModel.next fr dyn maxc).
Notation pstep := (pstep fr dyn maxc).
Notation launch := (launch dyn).

Lemma launch_cnt s b0 c (f : agent -> bool) : f (AWorker WLoop) = false -> cnt f (agents (launch s b0 c)) = cnt f (agents s).
Proof. intros H. unfold launch. destruct (_ && _ && _); [|reflexivity]. cbn. rewrite cnt_app, cnt_cons, H. cbn. rewrite cnt_nil. lia. Qed.
Lemma launch_q s b0 c : q (launch s b0 c) = q s.
Proof. unfold launch. destruct (_ && _ && _); reflexivity. Qed.
Lemma launch_evs s b0 c : evs (launch s b0 c) = evs s.
Proof. unfold launch. destruct (_ && _ && _); reflexivity. Qed.
Lemma launch_sub s b0 c : submitted (launch s b0 c) = submitted s.
Proof. unfold launch. destruct (_ && _ && _); reflexivity. Qed.

Ltac counting :=
  repeat match goal with
  | H : Permutation (items (q _)) _ |- _ => eapply cnt_perm in H
  end.

Ltac setcnt E f x :=
  match type of E with nth_error ?l ?a = Some ?y => pose proof (cnt_set f l a x y E) end.

(** The step, seen through any counter of pending / queued / held tasks and events. *)
Definition change (n : nat) (s s' : pool) : Prop :=
  total n s' <= total n s /\ total_s n s' <= total_s n s /\ total_e n s' <= total_e n s.

Lemma change_step n s s' : pstep s s' ->
  (change n s s' /\ submitted s' = submitted s) \/
  (submitted s' = S (submitted s) /\ (submitted s <> n -> change n s s') /\
   (submitted s = n -> total n s' = S (total n s) /\ total_s n s' = S (total_s n s) /\ total_e n s' = S (total_e n s))).
Proof.
  intros T. destruct T as [r p|d|l L IT|a v b0 c E|a v t l E L C IT|a v t l E L IT|a d E O|a d E O|a d t l E L C IT|a d E|a d t l E L IT|a d E F|a d E|a E|a t l v E L T0 IT F|a t l E L C IT|a v E|a v E|a v E|a v E|a v E|a v p0 p1 E EP EQ];
    cbn [PoolModel.next]; try (destruct p0; try discriminate EP; destruct p1; try discriminate EQ).
  1: { right. split; [reflexivity|]. unfold change, total, kept, total_s, total_e. cbn [agents with_agents with_submitted log q evs submitted].
       destruct dyn; rewrite !cnt_app, !cnt_cons, !cnt_nil; cbn; unfold isn; cbn; (split; intros H).
       all: try (subst n; rewrite Nat.eqb_refl; cbn; lia).
       all: apply Nat.eqb_neq in H; rewrite H; cbn; lia. }
  all: left; unfold change, total, kept, total_s, total_e; cbn [agents with_agents with_submitted with_running with_once with_joined with_q put log qcall q evs submitted]; rewrite ?launch_q, ?launch_evs, ?launch_sub; (split; [|reflexivity]).
  all: try match goal with E : nth_error (agents ?s) ?a = Some ?y |- context [set_nth ?a ?x (agents ?s)] =>
       setcnt E (pend n) x; setcnt E (held n) x; setcnt E (unstarted n) x; setcnt E (unended n) x end.
  all: rewrite ?cnt_app, ?cnt_cons, ?cnt_nil, ?cnt_map, ?cnt_false; cbn [pend held unstarted unended starts ends finishes b2n] in *; rewrite ?cnt_false.
  all: try rewrite IT; rewrite ?cnt_app, ?cnt_cons, ?cnt_nil.
  all: try solve [cbn [QueueModel.next items with_tasks]; unfold isn in *; cbn [b2n] in *; lia].
  - (* run() starts *)
    pose proof (launch_nth dyn s b0 c _ _ E) as E'. cbn [QueueModel.next items with_tasks].
    setcnt E' (pend n) (ARun v (RPushing (fresh s))); setcnt E' (held n) (ARun v (RPushing (fresh s))); setcnt E' (unstarted n) (ARun v (RPushing (fresh s))); setcnt E' (unended n) (ARun v (RPushing (fresh s))).
    cbn [pend held unstarted unended] in *. rewrite !launch_cnt in * by reflexivity. lia.
  - (* the end of shutdown: no tasks involved *)
    assert (Z : forall f : event -> bool, (forall w, f (EUnjoined w) = false) -> cnt f (if d then map EUnjoined (unjoined s) else []) = 0).
    { intros f HF. destruct d; [|reflexivity]. rewrite cnt_map. apply cnt_zero. auto. }
    rewrite !Z by reflexivity. cbn. lia.
  - (* a task is taken *)
    pose proof (cnt_perm (isn n) _ _ IT) as PM. rewrite cnt_cons in PM. lia.
Qed.

Definition once_inv (s : pool) : Prop := forall n,
  (total n s <= 1 /\ total_s n s <= 1 /\ total_e n s <= 1) /\ (submitted s <= n -> total n s = 0 /\ total_s n s = 0 /\ total_e n s = 0).

Lemma once_final k h : once_inv (PoolModel.final fr dyn maxc k h).
Proof.
  apply pool_ind.
  - intros n. unfold total, kept, total_s, total_e. cbn [init q agents evs items QueueModel.init submitted].
    assert (Z : forall f : agent -> bool, f (AWorker WLoop) = false -> cnt f (repeat (AWorker WLoop) k) = 0).
    { intros f H. apply cnt_zero. intros x I. apply repeat_spec in I. subst. exact H. }
    rewrite !Z by reflexivity. rewrite !cnt_nil. lia.
  - intros s s' W I T n. destruct (I n) as [A B]. destruct (change_step n s s' T) as [((C1 & C2 & C3) & SB)|(SB & C & D)].
    + rewrite SB. split; [lia|]. intros H. specialize (B H). lia.
    + rewrite SB. destruct (Nat.eq_dec (submitted s) n) as [EQ|N].
      * destruct (D EQ) as (D1 & D2 & D3). destruct B as (B1 & B2 & B3); [lia|]. split; [lia|lia].
      * destruct (C N) as (C1 & C2 & C3). split; [lia|]. intros H. destruct B as (B1 & B2 & B3); [lia|]. lia.
Qed.

(** Nothing that was accepted gets lost. *)
Lemma kept_step n s s' : pstep s s' -> kept n s <= kept n s'.
Proof.
  intros T. destruct T as [r p|d|l L IT|a v b0 c E|a v t l E L C IT|a v t l E L IT|a d E O|a d E O|a d t l E L C IT|a d E|a d t l E L IT|a d E F|a d E|a E|a t l v E L T0 IT F|a t l E L C IT|a v E|a v E|a v E|a v E|a v E|a v p0 p1 E EP EQ];
    cbn [PoolModel.next]; try (destruct p0; try discriminate EP; destruct p1; try discriminate EQ).
  all: unfold kept; cbn [agents with_agents with_submitted with_running with_once with_joined with_q put log qcall q evs submitted]; rewrite ?launch_q, ?launch_evs, ?launch_sub.
  all: try match goal with E : nth_error (agents ?s) ?a = Some ?y |- context [set_nth ?a ?x (agents ?s)] => setcnt E (held n) x end.
  all: rewrite ?cnt_app, ?cnt_cons, ?cnt_nil, ?cnt_map, ?cnt_false; cbn [held finishes b2n] in *; rewrite ?cnt_false.
  all: try rewrite IT; rewrite ?cnt_app, ?cnt_cons, ?cnt_nil.
  all: try solve [cbn [QueueModel.next items with_tasks]; unfold isn in *; cbn [b2n] in *; lia].
  - pose proof (launch_nth dyn s b0 c _ _ E) as E'. cbn [QueueModel.next items with_tasks].
    setcnt E' (held n) (ARun v (RPushing (fresh s))). cbn [held] in *. rewrite !launch_cnt in * by reflexivity. lia.
  - pose proof (cnt_perm (isn n) _ _ IT) as PM. rewrite cnt_cons in PM. lia.
Qed.
End P.
