(** Proofs about the thread pool, part 1: the possible steps of the pool, its calls on the queue. *)
From Verif Require Import ListUtil QueueModel QueueSpec QueueProofs QueueProofs2 PoolModel PoolSpec.
From Coq Require Import Permutation.

Section P.
Variable fr : list tk -> nat -> bool.
Notation qstate := (QueueModel.state tk).
Notation qnext := (QueueModel.next fr).

Definition notret (p : pc tk) : Prop := match p with PReturned _ => False | _ => True end.

(** The outcome of one step of the queue call [t], which executes [o]. *)
Inductive qres (k k' : qstate) (t : nat) : op tk -> Prop :=
| QStay o p' : nth_error (tasks k') t = Some (o, p') -> notret p' -> items k' = items k -> qres k k' t o
| QDrop v : nth_error (tasks k') t = Some (OPush v, PReturned RDone) -> closed k = true -> items k' = items k -> qres k k' t (OPush v)
| QPut v : nth_error (tasks k') t = Some (OPush v, PReturned RDone) -> items k' = items k ++ [v] -> qres k k' t (OPush v)
| QTook v : nth_error (tasks k') t = Some (OWait false, PReturned (RTook v)) -> nth_error (tasks k) t = Some (OWait false, PPop) ->
    Permutation (items k) (v :: items k') -> (exists i, nth_error (items k) i = Some v /\ fr (items k) i = true) -> qres k k' t (OWait false)
| QNothing : nth_error (tasks k') t = Some (OWait false, PReturned RNothing) -> closed k = true -> items k' = items k -> qres k k' t (OWait false)
| QClosed : nth_error (tasks k') t = Some (OClose, PReturned RDone) -> closed k' = true -> items k' = items k -> qres k k' t OClose
| QCleared : nth_error (tasks k') t = Some (OClear true, PReturned RDone) -> items k' = [] -> qres k k' t (OClear true).

(** The calls the pool makes. *)
Definition pool_op (o : op tk) : bool := match o with OPush _ | OWait false | OClose | OClear true => true | _ => false end.

Definition qok (k : qstate) : Prop :=
  inv tk k /\ (forall t o p, nth_error (tasks k) t = Some (o, p) -> pool_op o = true) /\
  (forall t o, nth_error (tasks k) t = Some (o, PNotify) -> closed k = true) /\
  (forall t o, nth_error (tasks k) t <> Some (o, PTimeout)).

Lemma nth_same (l : list (task tk)) t x y : nth_error l t = Some y -> nth_error (set_nth t x l) t = Some x.
Proof. intros H. apply nth_set_same. eapply nth_lt; eauto. Qed.
Lemma nth_same_woke (l l' : list (task tk)) t x y : nth_error l t = Some y -> woke tk l l' -> nth_error (set_nth t x l') t = Some x.
Proof. intros H W. apply nth_set_same. rewrite (woke_length _ _ _ W). eapply nth_lt; eauto. Qed.

Lemma qrun_cases k t c o p : qok k -> nth_error (tasks k) t = Some (o, p) -> notret p -> qres k (qnext k (LRun t c)) t o.
Proof.
  intros (I & PO & PN & PT) E N. cbn [QueueModel.next]. rewrite E. pose proof (PO _ _ _ E) as O. pose proof (i_shape _ _ I _ _ _ E) as SH.
  assert (ST : qres k k t o) by (eapply QStay; eauto).
  destruct p; cbn in N; try contradiction; cbn [step_at shape] in *.
  - destruct o as [v|vs|b| | | |b| | |]; try discriminate; try (destruct b; try discriminate).
    + destruct (closed k) eqn:C; [apply QDrop; cbn; auto; eapply nth_same; eauto|].
      eapply QStay; [cbn; eapply nth_same; eauto|exact Logic.I|reflexivity].
    + eapply QStay; [cbn; eapply nth_same; eauto|exact Logic.I|reflexivity].
    + destruct (closed k) eqn:C; [apply QClosed; cbn; auto; eapply nth_same; eauto|].
      eapply QStay; [cbn; eapply nth_same; eauto|exact Logic.I|reflexivity].
    + destruct (free k); [|exact ST]. apply QCleared; cbn; auto; eapply nth_same; eauto.
  - destruct o as [v|vs|b| | | |b| | |]; try discriminate.
    destruct (free k); [|exact ST]. destruct (wake_one c (tasks k)) as [l|] eqn:W; [|exact ST].
    apply QPut; cbn; auto. eapply nth_same_woke; eauto. eapply woke_one; eauto.
  - destruct (free k); [|exact ST]. eapply QStay; cbn; [eapply nth_same; eauto|destruct (pred k); exact Logic.I|reflexivity].
  - eapply QStay; cbn; [eapply nth_same; eauto|exact Logic.I|reflexivity].
  - exact ST.
  - destruct (PT _ _ E).
  - destruct o as [v|vs|b| | | |b| | |]; try discriminate; try (destruct b; try discriminate).
    destruct (closed k) eqn:C; [apply QNothing; cbn; auto; eapply nth_same; eauto|].
    eapply QStay; [cbn; eapply nth_same; eauto|exact Logic.I|reflexivity].
  - destruct o as [v|vs|b| | | |b| | |]; try discriminate; try (destruct b; try discriminate).
    destruct (nth_error (items k) c) as [v|] eqn:F.
    + destruct (fr (items k) c) eqn:G; [|exact ST]. eapply QTook; cbn; eauto; [eapply nth_same; eauto|apply remove_nth_perm; exact F].
    + destruct (items k) eqn:Z; [|exact ST]. eapply QStay; cbn; eauto. 
  - subst o. apply QClosed; cbn; auto; [|eapply PN; eauto]. eapply nth_same_woke; eauto. apply woke_all.
Qed.

(** What a step of the queue does to the other calls, and to the flag. *)
Lemma qnext_other k t c t' o' p' : qok k -> t' <> t -> nth_error (tasks k) t' = Some (o', p') ->
  nth_error (tasks (qnext k (LRun t c))) t' = Some (o', p') \/ (p' = PAsleep /\ nth_error (tasks (qnext k (LRun t c))) t' = Some (o', PEnter)).
Proof.
  intros Q N E. destruct (nth_error (tasks k) t) as [[o p]|] eqn:T; [|left; cbn; rewrite T; exact E].
  assert (Z : forall l x, woke tk (tasks k) l -> nth_error (set_nth t x l) t' = Some (o', p') \/ (p' = PAsleep /\ nth_error (set_nth t x l) t' = Some (o', PEnter))).
  { intros l x W. rewrite nth_set_other by auto. eapply woke_nth'; eauto. }
  assert (Z0 : forall x, nth_error (set_nth t x (tasks k)) t' = Some (o', p')) by (intros x; rewrite nth_set_other by auto; exact E).
  cbn [QueueModel.next]. rewrite T. destruct p; cbn [step_at]; auto.
  - destruct o; cbn; auto; try (destruct (closed k); cbn; auto); try (destruct (free k); cbn; auto); destruct (nonempty k); cbn; auto.
  - destruct (free k); auto. destruct o; cbn; auto; try (apply Z, woke_all). destruct (wake_one c (tasks k)) eqn:W; auto. cbn. apply Z. eapply woke_one; eauto.
  - destruct (free k); cbn; auto.
  - cbn; auto.
  - destruct (free k); auto. destruct (pred k); cbn; auto.
  - destruct (closed k); cbn; auto.
  - destruct (nth_error (items k) c); [destruct (fr (items k) c); cbn; auto|destruct (items k); cbn; auto].
  - cbn. apply Z, woke_all.
Qed.

Lemma qnext_closed k l : qok k -> (match l with LCall o => pool_op o = true | _ => True end) -> closed k = true -> closed (qnext k l) = true.
Proof.
  intros (I & PO & PN & PT) L C. destruct l as [o|t c|t|t]; cbn [QueueModel.next]; auto.
  - destruct (nth_error (tasks k) t) as [[o p]|] eqn:E; auto. destruct p; cbn [step_at]; auto.
    + specialize (PO _ _ _ E). destruct o; try discriminate; rewrite ?C; auto; cbn; destruct (free k); auto.
    + destruct (free k); auto. destruct o; cbn; auto. destruct (wake_one c (tasks k)); auto.
    + destruct (free k); auto.
    + destruct (free k); auto. destruct (pred k); auto.
    + rewrite C. auto.
    + destruct (nth_error (items k) c); [destruct (fr (items k) c); auto|destruct (items k) eqn:Z; auto].
  - destruct (nth_error (tasks k) t) as [[[] p]|]; auto. destruct timed; auto. destruct p; auto.
  - destruct (nth_error (tasks k) t) as [[o p]|]; auto. destruct p; auto.
Qed.

(** A closed queue lets nobody reach the point where an element is taken. *)
Lemma qnext_pop k l t o : qok k -> closed k = true -> nth_error (tasks (qnext k l)) t = Some (o, PPop) -> nth_error (tasks k) t = Some (o, PPop).
Proof.
  intros Q C H.
  assert (Z : forall t0 x y l', nth_error (tasks k) t0 = Some y -> woke tk (tasks k) l' -> snd x <> PPop -> nth_error (set_nth t0 x l') t = Some (o, PPop) -> nth_error (tasks k) t = Some (o, PPop)).
  { intros t0 x y l' Y W X K. destruct (Nat.eq_dec t0 t) as [->|D].
    - rewrite (nth_same_woke _ _ _ _ _ Y W) in K. injection K as ->. cbn in X. congruence.
    - rewrite nth_set_other in K by exact D. destruct (woke_nth _ _ _ W _ _ _ K) as [G|[G _]]; [exact G|discriminate]. }
  assert (Z0 : forall t0 x y, nth_error (tasks k) t0 = Some y -> snd x <> PPop -> nth_error (set_nth t0 x (tasks k)) t = Some (o, PPop) -> nth_error (tasks k) t = Some (o, PPop)).
  { intros t0 x y Y X K. eapply Z; eauto. apply woke_refl. }
  destruct l as [o0|t0 c|t0|t0]; cbn [QueueModel.next] in H.
  - cbn in H. rewrite nth_snoc in H. destruct (Nat.eqb t (length (tasks k))); [discriminate|exact H].
  - destruct (nth_error (tasks k) t0) as [[o0 p]|] eqn:E; auto. destruct p; cbn [step_at] in H; auto.
    + destruct o0; rewrite ?C in H; cbn in H; try (eapply Z0; [exact E| |exact H]; discriminate);
        destruct (free k); auto; cbn in H; try destruct (nonempty k); cbn in H; try (eapply Z0; [exact E| |exact H]; discriminate).
    + destruct (free k); auto. destruct o0; cbn in H; try (eapply Z; [exact E|apply woke_all| |exact H]; discriminate).
      destruct (wake_one c (tasks k)) eqn:W; auto. cbn in H. eapply Z; [exact E|eapply woke_one; exact W| |exact H]; discriminate.
    + destruct (free k); auto. cbn in H. eapply Z0; [exact E| |exact H]. cbn. destruct (pred k); discriminate.
    + cbn in H. eapply Z0; [exact E| |exact H]; discriminate.
    + destruct (free k); auto. destruct (pred k); cbn in H; eapply Z0; [exact E| |exact H|exact E| |exact H]; discriminate.
    + rewrite C in H. cbn in H. eapply Z0; [exact E| |exact H]; discriminate.
    + destruct (nth_error (items k) c); [destruct (fr (items k) c); auto|destruct (items k); auto]; cbn in H; eapply Z0; [exact E| |exact H]; discriminate.
    + cbn in H. eapply Z; [exact E|apply woke_all| |exact H]; discriminate.
  - destruct (nth_error (tasks k) t0) as [[[] p]|] eqn:E; auto. destruct timed; auto. destruct p; auto. cbn in H. eapply Z0; [exact E| |exact H]; discriminate.
  - destruct (nth_error (tasks k) t0) as [[o0 p]|] eqn:E; auto. destruct p; auto. cbn in H. eapply Z0; [exact E| |exact H]; discriminate.
Qed.
End P.
