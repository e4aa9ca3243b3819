(** Proofs about the thread pool, part 4: order of the events of a task, and the end of shutdown. *)
From Verif Require Import ListUtil QueueModel QueueSpec QueueProofs QueueProofs2 QueueProofs3 PoolModel PoolSpec PoolProofs PoolProofs2 PoolProofs3.
From Coq Require Import Permutation.

Lemma split_at {A} (l : list A) : forall (add a b : list A) (e : A), l ++ add = a ++ e :: b ->
  (exists b', l = a ++ e :: b' /\ b = b' ++ add) \/ exists a', a = l ++ a' /\ add = a' ++ e :: b.
Proof.
  induction l as [|x l IH]; intros add a b e H; [right; exists a; auto|]. destruct a as [|y a']; cbn in H.
  - inversion H. left. eexists. split; reflexivity.
  - inversion H as [[HX HT]]. destruct (IH _ _ _ _ HT) as [(b' & -> & ->)|(a2 & -> & ->)]; [left; exists b'; auto|right; exists a2; auto].
Qed.

Section P.
Variable fr : list tk -> nat -> bool.
Variable dyn : bool.
Variable maxc : nat.
Notation next := (PoolModel.next fr dyn maxc).
Notation pstep := (pstep fr dyn maxc).
Notation launch := (launch dyn).
Notation final := (PoolModel.final fr dyn maxc).
Notation qnext := (QueueModel.next fr).

Ltac scases T := destruct T as [r p|d|l L IT|a v b0 c E|a v t l E L C IT|a v t l E L IT|a d E O|a d E O|a d t l E L C IT|a d E|a d t l E L IT|a d E F|a d E|a E|a t l v E L T0 IT F|a t l E L C IT|a v E|a v E|a v E|a v E|a v E|a v p0 p1 E EP EQ]; try (destruct p0; try discriminate EP; destruct p1; try discriminate EQ).
Ltac proj := cbn [PoolModel.next agents with_agents with_submitted with_running with_once with_joined with_q put log qcall q evs submitted once running]; rewrite ?launch_q, ?launch_evs, ?launch_sub.


Definition task_of (x : agent) : option tk :=
  match x with
  | ARun v _ => Some v
  | AWorker (WAdd v) | AWorker (WStart v) | AWorker (WRunning v) | AWorker (WRemove v) | AWorker (WDone v) => Some v
  | _ => None
  end.
Definition begun (x : agent) : option tk := match x with AWorker (WRunning v) | AWorker (WRemove v) | AWorker (WDone v) => Some v | _ => None end.
Definition over (x : agent) : option tk := match x with AWorker (WRemove v) | AWorker (WDone v) => Some v | _ => None end.

Record known (s : pool) : Prop := {
  k_items : forall v, In v (items (q s)) -> In (ESubmit v) (evs s);
  k_task : forall x v, In x (agents s) -> task_of x = Some v -> In (ESubmit v) (evs s);
  k_begun : forall x v, In x (agents s) -> begun x = Some v -> In (EStart v) (evs s);
  k_over : forall x v, In x (agents s) -> over x = Some v -> In (EEnd v) (evs s)
}.

Lemma launch_in s b0 c x : In x (agents (launch s b0 c)) -> x = AWorker WLoop \/ In x (agents s).
Proof. unfold PoolModel.launch. destruct (_ && _ && _); auto. cbn. intros H. apply in_app_or in H as [H|[H|[]]]; auto. Qed.

Lemma evs_grow s s' : pstep s s' -> exists add, evs s' = evs s ++ add.
Proof. intros T. scases T; proj; eauto; exists []; rewrite app_nil_r; reflexivity. Qed.

Lemma known_init n : known (init n).
Proof.
  assert (R : forall x, In x (repeat (AWorker WLoop) n) -> x = AWorker WLoop) by (intros x H; apply repeat_spec in H; exact H).
  constructor; cbn; try contradiction; intros x v H K; rewrite (R _ H) in K; discriminate.
Qed.

Lemma known_step s s' : known s -> pstep s s' -> known s'.
Proof.
  intros [KI KT KB KO] T. destruct (evs_grow _ _ T) as (add & G).
  assert (MI : forall v, In v (items (q s)) -> In (ESubmit v) (evs s')) by (intros; rewrite G; apply in_or_app; auto).
  assert (MT : forall x v, In x (agents s) -> task_of x = Some v -> In (ESubmit v) (evs s')) by (intros; rewrite G; apply in_or_app; eauto).
  assert (MB : forall x v, In x (agents s) -> begun x = Some v -> In (EStart v) (evs s')) by (intros; rewrite G; apply in_or_app; eauto).
  assert (MO : forall x v, In x (agents s) -> over x = Some v -> In (EEnd v) (evs s')) by (intros; rewrite G; apply in_or_app; eauto).
  (* one agent changes *)
  assert (SET : forall a x y, nth_error (agents s) a = Some y -> agents s' = set_nth a x (agents s) ->
    (forall v, In v (items (q s')) -> In (ESubmit v) (evs s')) ->
    (forall v, task_of x = Some v -> In (ESubmit v) (evs s')) -> (forall v, begun x = Some v -> In (EStart v) (evs s')) -> (forall v, over x = Some v -> In (EEnd v) (evs s')) -> known s').
  { intros a x y E A H1 H2 H3 H4. constructor; auto; rewrite A; intros z v I K; apply in_set_nth in I as [->|I]; eauto. }
  assert (EIN : forall a x, nth_error (agents s) a = Some x -> In x (agents s)) by (intros; eapply nth_error_In; eauto).
  assert (NEW : forall e, evs s' = evs s ++ [e] -> In e (evs s')) by (intros e ->; apply in_or_app; right; left; reflexivity).
  scases T.
  1,2: constructor; auto; proj; intros x v I K; apply in_app_or in I as [I|[<-|[]]]; eauto; try discriminate.
  1: { injection K as <-. apply in_or_app. right. left. reflexivity. }
  1: { constructor; eauto. proj. rewrite IT. exact KI. }
  1: { constructor; proj.
       - exact KI.
       - intros x w I K. apply in_set_nth in I as [->|I]; [injection K as <-; eapply KT; eauto|]. apply launch_in in I as [->|I]; [discriminate|eauto].
       - intros x w I K. apply in_set_nth in I as [->|I]; [discriminate|]. apply launch_in in I as [->|I]; [discriminate|eauto].
       - intros x w I K. apply in_set_nth in I as [->|I]; [discriminate|]. apply launch_in in I as [->|I]; [discriminate|eauto]. }
  all: eapply SET; [exact E|reflexivity|try exact MI| | | ]; try (intros w K; discriminate K).
  all: try (intros w K; injection K as <-).
  all: try (eapply MT; [eapply EIN; exact E|reflexivity]).
  all: try (eapply MB; [eapply EIN; exact E|reflexivity]).
  all: try (eapply MO; [eapply EIN; exact E|reflexivity]).
  all: try (apply NEW; reflexivity).
  all: try (intros w I; cbn [q put log with_q] in I; rewrite ?IT in I; try apply in_app_or in I as [I|[<-|[]]]; auto; try (eapply MT; [eapply EIN; exact E|reflexivity]); contradiction).
  - intros w I. cbn [q put log with_q] in I. apply MI. eapply Permutation_in; [symmetry; exact IT|right; exact I].
  - apply MI. eapply Permutation_in; [symmetry; exact IT|left; reflexivity].
Qed.

Lemma known_final n h : known (final n h).
Proof. apply pool_ind; [apply known_init|]. intros. eapply known_step; eauto. Qed.

(** ** The order of the events of a task *)
Definition ordered (l : list event) : Prop :=
  (forall a b v, l = a ++ EStart v :: b -> In (ESubmit v) a) /\
  (forall a b v, l = a ++ EEnd v :: b -> In (EStart v) a) /\
  (forall a b v, l = a ++ EDone v :: b -> In (ESubmit v) a /\ (In (EEnd v) a \/ cnt (starts (num v)) (a ++ b) = 0)).

Definition plain (e : event) : bool := match e with EStart _ | EEnd _ | EDone _ => false | _ => true end.
Lemma ordered_plain l add : (forall e, In e add -> plain e = true) -> ordered l -> ordered (l ++ add).
Proof.
  intros P (A & B & C).
  assert (Z : cnt (fun e => negb (plain e)) add = 0) by (apply cnt_zero; intros e I; rewrite (P e I); reflexivity).
  split; [|split]; intros a b v H; destruct (split_at _ _ _ _ _ H) as [(b' & E & ->)|(a' & -> & E)]; eauto.
  - specialize (P (EStart v)). rewrite E in P. discriminate P. apply in_or_app. right. left. reflexivity.
  - specialize (P (EEnd v)). rewrite E in P. discriminate P. apply in_or_app. right. left. reflexivity.
  - destruct (C _ _ _ E) as [C1 C2]. split; [exact C1|]. destruct C2 as [C2|C2]; [auto|]. right. rewrite app_assoc, cnt_app, C2.
    apply cnt_zero. intros e I. specialize (P e I). destruct e; try reflexivity; discriminate.
  - specialize (P (EDone v)). rewrite E in P. discriminate P. apply in_or_app. right. left. reflexivity.
Qed.

Lemma ordered_start l v : ordered l -> In (ESubmit v) l -> cnt (finishes (num v)) l = 0 -> ordered (l ++ [EStart v]).
Proof.
  intros (A & B & C) S N. split; [|split]; intros a b w H; destruct (split_at _ _ _ _ _ H) as [(b' & E & ->)|(a' & -> & E)]; eauto.
  - destruct a' as [|x [|y a']]; inversion E; subst. apply in_or_app. auto.
  - destruct a' as [|x [|y a']]; inversion E.
  - destruct (C _ _ _ E) as [C1 C2]. split; [exact C1|]. destruct C2 as [C2|C2]; [auto|]. right. rewrite app_assoc, cnt_app, C2, cnt_cons, cnt_nil. cbn.
    destruct (Nat.eqb_spec (num v) (num w)) as [X|X]; [|reflexivity]. exfalso.
    rewrite E, cnt_app, cnt_cons in N. cbn in N. rewrite X, Nat.eqb_refl in N. cbn in N. lia.
  - destruct a' as [|x [|y a']]; inversion E.
Qed.
Lemma ordered_end l v : ordered l -> In (EStart v) l -> ordered (l ++ [EEnd v]).
Proof.
  intros (A & B & C) S. split; [|split]; intros a b w H; destruct (split_at _ _ _ _ _ H) as [(b' & E & ->)|(a' & -> & E)]; eauto.
  - destruct a' as [|x [|y a']]; inversion E.
  - destruct a' as [|x [|y a']]; inversion E; subst. rewrite app_nil_r. exact S.
  - destruct (C _ _ _ E) as [C1 C2]. split; [exact C1|]. destruct C2 as [C2|C2]; [auto|]. right. rewrite app_assoc, cnt_app, C2, cnt_cons, cnt_nil. reflexivity.
  - destruct a' as [|x [|y a']]; inversion E.
Qed.
Lemma ordered_done l vs : ordered l -> (forall v, In v vs -> In (ESubmit v) l /\ (In (EEnd v) l \/ cnt (starts (num v)) l = 0)) -> ordered (l ++ map EDone vs).
Proof.
  intros (A & B & C) S.
  assert (D : forall e, In e (map EDone vs) -> exists v, e = EDone v /\ In v vs) by (intros e I; apply in_map_iff in I as (v & <- & I); eauto).
  assert (Z : forall n add, (forall e, In e add -> exists v, e = EDone v) -> cnt (starts n) add = 0).
  { intros n add H. apply cnt_zero. intros e I. destruct (H e I) as (v & ->). reflexivity. }
  split; [|split]; intros a b w H; destruct (split_at _ _ _ _ _ H) as [(b' & E & ->)|(a' & -> & E)]; eauto.
  - destruct (D (EStart w)) as (v & X & _); [rewrite E; apply in_or_app; right; left; reflexivity|discriminate].
  - destruct (D (EEnd w)) as (v & X & _); [rewrite E; apply in_or_app; right; left; reflexivity|discriminate].
  - destruct (C _ _ _ E) as [C1 C2]. split; [exact C1|]. destruct C2 as [C2|C2]; [auto|]. right. rewrite app_assoc, cnt_app, C2.
    rewrite Z; [reflexivity|]. intros e I. destruct (D e I) as (v & -> & _). eauto.
  - destruct (D (EDone w)) as (v & X & I); [rewrite E; apply in_or_app; right; left; reflexivity|]. injection X as <-.
    destruct (S _ I) as [S1 S2]. split; [apply in_or_app; auto|]. destruct S2 as [S2|S2]; [left; apply in_or_app; auto|right].
    rewrite !cnt_app, S2. rewrite (Z _ a'), (Z _ b); [reflexivity| |].
    + intros e I'. destruct (D e) as (v & -> & _); [rewrite E; apply in_or_app; right; right; exact I'|eauto].
    + intros e I'. destruct (D e) as (v & -> & _); [rewrite E; apply in_or_app; left; exact I'|eauto].
Qed.

Lemma cnt_in {A} (f : A -> bool) l x : In x l -> f x = true -> 1 <= cnt f l.
Proof. apply cnt_pos. Qed.

Lemma ordered_final n h : ordered (evs (final n h)).
Proof.
  assert (X : known (final n h) /\ once_inv (final n h) /\ ordered (evs (final n h))); [|apply X].
  split; [apply known_final|]. split; [apply once_final|].
  induction h as [|lb h IH] using rev_ind.
  - cbn. split; [|split]; intros [] b v H; discriminate.
  - rewrite final_snoc. destruct (next_pcases fr dyn maxc _ lb (wf_final fr dyn maxc n h)) as [->|T]; [exact IH|].
    pose proof (known_final n h) as K. pose proof (once_final fr dyn maxc n h) as OI. revert T. generalize (next (final n h) lb). intros s' T.
    clear lb. remember (final n h) as s eqn:HS. clear HS.
    assert (EIN : forall a x, nth_error (agents s) a = Some x -> In x (agents s)) by (intros; eapply nth_error_In; eauto).
    revert IH. scases T; proj; intros IH; try exact IH;
      try solve [apply ordered_plain; [intros e I; repeat (destruct I as [<-|I]; [reflexivity|]); destruct I|exact IH]].
    + apply ordered_plain; [|exact IH]. intros e I. apply in_map_iff in I as (w & <- & _). reflexivity.
    + apply ordered_done; [exact IH|]. intros v I. split; [apply (k_items s K); exact I|]. right.
      destruct (OI (num v)) as [(_ & O2 & _) _]. unfold total_s in O2. assert (1 <= cnt (isn (num v)) (items (q s))) by (eapply cnt_in; [exact I|apply Nat.eqb_refl]). lia.
    + apply ordered_plain; [|exact IH]. intros e I. apply in_app_or in I as [I|[<-|[]]]; [|reflexivity]. destruct d; [|destruct I]. apply in_map_iff in I as (w & <- & _). reflexivity.
    + apply ordered_start; [exact IH|eapply (k_task s K); [eapply EIN; exact E|reflexivity]|].
      destruct (OI (num v)) as [(O1 & _ & _) _]. unfold total, kept in O1.
      assert (1 <= cnt (held (num v)) (agents s)) by (eapply cnt_in; [eapply EIN; exact E|cbn; apply Nat.eqb_refl]). lia.
    + apply ordered_end; [exact IH|eapply (k_begun s K); [eapply EIN; exact E|reflexivity]].
    + apply (ordered_done _ [v]); [exact IH|]. intros w [<-|[]].
      split; [eapply (k_task s K); [eapply EIN; exact E|reflexivity]|]. left. eapply (k_over s K); [eapply EIN; exact E|reflexivity].
Qed.
End P.
