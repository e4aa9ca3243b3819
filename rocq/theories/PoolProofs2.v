(** Proofs about the thread pool, part 2: well-formedness and the list of the pool's possible steps. *)
From Verif Require Import ListUtil QueueModel QueueSpec QueueProofs QueueProofs2 QueueProofs3 PoolModel PoolSpec PoolProofs.
From Coq Require Import Permutation.

Section P.
Variable fr : list tk -> nat -> bool.
Variable dyn : bool.
Variable maxc : nat.
Notation qstate := (QueueModel.state tk).
Notation qnext := (QueueModel.next fr).
Notation next := (PoolModel.next fr dyn maxc).

Definition oklabel (l : QueueModel.label tk) : Prop := match l with LCall o => pool_op o = true | LTimeout _ => False | _ => True end.

Lemma qok_step k l : qok k -> oklabel l -> qok (qnext k l).
Proof.
  intros Q L. assert (CL := fun H => qnext_closed fr k l Q H). destruct Q as (I & PO & PN & PT).
  assert (X : qnext k l = k \/ tstep tk fr k (qnext k l)) by apply next_cases.
  assert (CL' : closed k = true -> closed (qnext k l) = true) by (apply CL; destruct l; cbn in *; auto). clear CL.
  assert (OPS : forall t o p, nth_error (tasks (qnext k l)) t = Some (o, p) -> (exists p0, nth_error (tasks k) t = Some (o, p0)) \/ l = LCall o).
  { intros t o p H. destruct (QueueProofs3.next_ops tk fr k l) as (add & E & A).
    assert (M : nth_error (map fst (tasks (qnext k l))) t = Some o) by (rewrite (map_nth_error fst _ _ H); reflexivity).
    rewrite E in M. destruct l as [o0|t0 c0|t0|t0]; subst add.
    2,3,4: rewrite app_nil_r in M; left.
    1: rewrite nth_snoc in M; destruct (Nat.eqb t (length (map fst (tasks k)))); [right; congruence|left].
    all: destruct (nth_error (tasks k) t) as [[o1 p1]|] eqn:F; [rewrite (map_nth_error fst _ _ F) in M; injection M as <-; eauto|].
    all: apply nth_error_None in F; apply nth_lt in M; rewrite map_length in M; unfold task in *; lia. }
  assert (OPS' : forall t o p, nth_error (tasks (qnext k l)) t = Some (o, p) -> pool_op o = true).
  { intros t o p H. destruct (OPS _ _ _ H) as [(p0 & E)| ->]; [eapply PO; eauto|exact L]. }
  split; [|split; [exact OPS'|]].
  - destruct X as [->|X]; [exact I|]. eapply inv_step; eauto.
  - assert (Z : forall t o (p : pc tk), (p = PNotify \/ p = PTimeout) -> nth_error (tasks (qnext k l)) t = Some (o, p) -> nth_error (tasks k) t = Some (o, p) \/ (p = PNotify /\ closed (qnext k l) = true)).
    { intros t o p HP H. destruct X as [X|X]; [rewrite X in *; auto|].
      assert (HN : forall r, p <> PReturned r) by (destruct HP; congruence).
      assert (HA : p <> PAsleep /\ p <> PEnter) by (destruct HP; split; congruence). destruct HA as [HA HE].
      assert (NS : forall t0 x y l', nth_error (tasks k) t0 = Some y -> woke tk (tasks k) l' -> snd x <> p -> nth_error (set_nth t0 x l') t = Some (o, p) -> nth_error (tasks k) t = Some (o, p)).
      { intros t0 x y l' Y W XX K. destruct (Nat.eq_dec t0 t) as [->|D].
        - rewrite (nth_same_woke _ _ _ _ _ Y W) in K. injection K as ->. cbn in XX. congruence.
        - rewrite nth_set_other in K by exact D. destruct (woke_nth _ _ _ W _ _ _ K) as [G|[G _]]; [exact G|congruence]. }
      destruct X as [o1|t1 o1 Y1|t1 o1 Y1|t1 o1 l1 Y1|t1 b Y1|t1 o1 p1 Y1|t1 o1 Y1|t1 o1 Y1|t1 o1 p1 Y1|t1 o1 Y1|t1 o1 Y1|t1 o1 c v Y1|t1 o1 Y1|t1 Y1|t1 Y1|t1 o1 Y1|t1 Y1|t1 b Y1|t1 o1 r Y1|t1 Y1|t1 o1 Y1]; cbn in H |- *.
      1: rewrite nth_snoc in H; destruct (Nat.eqb t (length (tasks k))); [injection H as <- <-; destruct HP; discriminate|auto].
      all: try (left; eapply NS; [exact Y1|apply woke_refl| |exact H]; cbn; destruct HP; congruence).
      all: try (left; eapply NS; [exact Y1|eassumption| |exact H]; cbn; destruct HP; congruence).
      all: try (left; exact H).
      - destruct (Nat.eq_dec t1 t) as [->|D].
        + rewrite (nth_same _ _ _ _ Y1) in H. injection H as <- <-. auto.
        + rewrite nth_set_other in H by exact D. auto.
      - left. eapply NS; [exact Y1|apply woke_all| |exact H]; cbn; destruct HP; congruence.
      - pose proof (PO _ _ _ Y1). discriminate. }
    split.
    + intros t o H. destruct (Z t o PNotify (or_introl eq_refl) H) as [G|[_ G]]; [|exact G]. apply CL'. eapply PN; eauto.
    + intros t o H. destruct (Z t o PTimeout (or_intror eq_refl) H) as [G|[G _]]; [|discriminate]. eapply PT; eauto.
Qed.

(** The queue call an agent is in. *)
Definition own (x : agent) : option (nat * op tk) :=
  match x with
  | ARun v (RPushing t) => Some (t, OPush v)
  | AShut _ (SClosing t) => Some (t, OClose)
  | AShut _ (SClearing t) => Some (t, OClear true)
  | AWorker (WWaiting t) => Some (t, OWait false)
  | _ => None
  end.

Record wf (s : pool) : Prop := {
  w_q : qok (q s);
  w_own : forall a x t o, nth_error (agents s) a = Some x -> own x = Some (t, o) -> exists p, nth_error (tasks (q s)) t = Some (o, p) /\ notret p;
  w_inj : forall a b x y t o o', nth_error (agents s) a = Some x -> nth_error (agents s) b = Some y -> own x = Some (t, o) -> own y = Some (t, o') -> a = b
}.

Definition runlabel (l : QueueModel.label tk) : Prop := match l with LRun _ _ | LSpurious _ => True | _ => False end.
Definition early_run (p : rpc) : bool := match p with RCheck | RTry | RStart _ => true | _ => false end.
(** The possible steps. *)
Inductive pstep (s : pool) : pool -> Prop :=
| XSubmit r p : pstep s (next s (LSubmit r p))
| XShut d : pstep s (next s (LShut d))
| XQ l : runlabel l -> items (qnext (q s) l) = items (q s) -> pstep s (with_q s (qnext (q s) l))
| XRunStart a v b0 c : nth_error (agents s) a = Some (ARun v (RStart b0)) ->
    pstep s (put (qcall fr (launch dyn s b0 c) (OPush v)) a (ARun v (RPushing (fresh s))))
| XRunDrop a v t l : nth_error (agents s) a = Some (ARun v (RPushing t)) -> runlabel l -> closed (q s) = true ->
    items (qnext (q s) l) = items (q s) -> pstep s (log (put (with_q s (qnext (q s) l)) a (ARun v RReturned)) [ERunRet v])
| XRunPut a v t l : nth_error (agents s) a = Some (ARun v (RPushing t)) -> runlabel l ->
    items (qnext (q s) l) = items (q s) ++ [v] -> pstep s (log (put (with_q s (qnext (q s) l)) a (ARun v RReturned)) [ERunRet v])
| XFirst a d : nth_error (agents s) a = Some (AShut d SStart) -> once s = None ->
    pstep s (put (with_once (qcall fr s OClose) (Some false)) a (AShut d (SClosing (fresh s))))
| XLate a d : nth_error (agents s) a = Some (AShut d SStart) -> once s = Some true -> pstep s (put s a (AShut d SEnd))
| XClosed a d t l : nth_error (agents s) a = Some (AShut d (SClosing t)) -> runlabel l -> closed (qnext (q s) l) = true ->
    items (qnext (q s) l) = items (q s) -> pstep s (put (with_q s (qnext (q s) l)) a (AShut d SStopping))
| XStop a d : nth_error (agents s) a = Some (AShut d SStopping) ->
    pstep s (put (qcall fr (log s (map EStop (running s))) (OClear true)) a (AShut d (SClearing (fresh s))))
| XCleared a d t l : nth_error (agents s) a = Some (AShut d (SClearing t)) -> runlabel l -> items (qnext (q s) l) = [] ->
    pstep s (log (put (with_q s (qnext (q s) l)) a (AShut d SJoining)) (map EDone (items (q s))))
| XJoin a d : nth_error (agents s) a = Some (AShut d SJoining) -> forallb exited (agents s) = true ->
    pstep s (put (with_once (with_joined s (worker_indices s)) (Some true)) a (AShut d SEnd))
| XEnd a d : nth_error (agents s) a = Some (AShut d SEnd) ->
    pstep s (log (put s a (AShut d SReturned)) ((if d then map EUnjoined (unjoined s) else []) ++ [EShutRet a]))
| XLoop a : nth_error (agents s) a = Some (AWorker WLoop) -> pstep s (put (qcall fr s (OWait false)) a (AWorker (WWaiting (fresh s))))
| XTook a t l v : nth_error (agents s) a = Some (AWorker (WWaiting t)) -> runlabel l -> nth_error (tasks (q s)) t = Some (OWait false, PPop) ->
    Permutation (items (q s)) (v :: items (qnext (q s) l)) -> (exists i, nth_error (items (q s)) i = Some v /\ fr (items (q s)) i = true) ->
    pstep s (put (with_q s (qnext (q s) l)) a (AWorker (WAdd v)))
| XNothing a t l : nth_error (agents s) a = Some (AWorker (WWaiting t)) -> runlabel l -> closed (q s) = true ->
    items (qnext (q s) l) = items (q s) -> pstep s (put (with_q s (qnext (q s) l)) a (AWorker WExited))
| XAdd a v : nth_error (agents s) a = Some (AWorker (WAdd v)) -> pstep s (put (with_running s (running s ++ [v])) a (AWorker (WStart v)))
| XStart a v : nth_error (agents s) a = Some (AWorker (WStart v)) -> pstep s (log (put s a (AWorker (WRunning v))) [EStart v])
| XEndTask a v : nth_error (agents s) a = Some (AWorker (WRunning v)) -> pstep s (log (put s a (AWorker (WRemove v))) [EEnd v])
| XRemove a v : nth_error (agents s) a = Some (AWorker (WRemove v)) -> pstep s (put (with_running s (remove_first v (running s))) a (AWorker (WDone v)))
| XDone a v : nth_error (agents s) a = Some (AWorker (WDone v)) -> pstep s (log (put s a (AWorker WLoop)) [EDone v])
| XRunTry a v p p' : nth_error (agents s) a = Some (ARun v p) -> early_run p = true -> early_run p' = true -> pstep s (put s a (ARun v p')).

Lemma spurious_items k t : items (qnext k (LSpurious t)) = items k.
Proof. cbn. destruct (nth_error (tasks k) t) as [[o []]|]; reflexivity. Qed.

Lemma next_pcases s l : wf s -> next s l = s \/ pstep s (next s l).
Proof.
  intros W. destruct l as [r p|d|a c|t].
  - right. constructor.
  - right. constructor.
  - cbn [PoolModel.next]. destruct (nth_error (agents s) a) as [x|] eqn:E; [|auto].
    assert (QC : forall t o, own x = Some (t, o) -> qres fr (q s) (qnext (q s) (LRun t c)) t o).
    { intros t o O. destruct (w_own s W _ _ _ _ E O) as (p & T & N). eapply qrun_cases; eauto. apply (w_q s W). }
    destruct x as [v p|d p|p]; cbn [run_step shut_step worker_step].
    + destruct p as [| |b0|t|]; cbn [run_step]; auto; right; [eapply XRunTry; eauto; destruct (Nat.ltb _ _); reflexivity|eapply XRunTry; eauto|eapply XRunStart; eauto|].
      specialize (QC _ _ eq_refl). unfold qrun. unfold result. cbn [q with_q].
      inversion QC as [o1 p1 T N IT|v1 T C IT|v1 T IT| | | |]; subst; rewrite T.
      * destruct p1; try contradiction; apply (XQ s (LRun t c)); cbn; auto.
      * eapply (XRunDrop s a v t (LRun t c)); cbn; auto.
      * eapply (XRunPut s a v t (LRun t c)); cbn; auto.
    + destruct p as [|t| |t| | |]; cbn [shut_step]; auto.
      * destruct (once s) as [[]|] eqn:O; auto; right; [eapply XLate; eauto|eapply XFirst; eauto].
      * right. specialize (QC _ _ eq_refl). unfold qrun. unfold result. cbn [q with_q].
        inversion QC as [o1 p1 T N IT| | | | |T C IT|]; subst; rewrite T.
        -- destruct p1; try contradiction; apply (XQ s (LRun t c)); cbn; auto.
        -- eapply (XClosed s a d t (LRun t c)); cbn; auto.
      * right. eapply XStop; eauto.
      * right. specialize (QC _ _ eq_refl). unfold qrun. unfold result. cbn [q with_q].
        inversion QC as [o1 p1 T N IT| | | | | |T IT]; subst; rewrite T.
        -- destruct p1; try contradiction; apply (XQ s (LRun t c)); cbn; auto.
        -- eapply (XCleared s a d t (LRun t c)); cbn; auto.
      * destruct (forallb exited (agents s)) eqn:F; auto. right. eapply XJoin; eauto.
      * right. eapply XEnd; eauto.
    + destruct p as [|t|v|v|v|v|v|]; cbn [worker_step]; auto; right; try (econstructor; eassumption).
      specialize (QC _ _ eq_refl). unfold qrun. unfold result. cbn [q with_q].
      inversion QC as [o1 p1 T N IT| | |v1 T T0 IT F|T C IT| |]; subst; rewrite T.
      * destruct p1; try contradiction; apply (XQ s (LRun t c)); cbn; auto.
      * eapply (XTook s a t (LRun t c)); cbn; auto.
      * eapply (XNothing s a t (LRun t c)); cbn; auto.
  - right. cbn [PoolModel.next]. apply XQ; [exact Logic.I|apply spurious_items].
Qed.

(** ** Well-formedness is kept *)
Lemma wf_same s s' : wf s -> q s' = q s -> agents s' = agents s -> wf s'.
Proof. intros [A B C] E F. constructor; rewrite ?E, ?F; auto. Qed.

Lemma own_lt s a x t o : wf s -> nth_error (agents s) a = Some x -> own x = Some (t, o) -> t < fresh s.
Proof. intros W E O. destruct (w_own s W _ _ _ _ E O) as (p & T & _). eapply nth_lt; eauto. Qed.

(** An agent that does not wait for the queue comes or changes. *)
Lemma wf_add s x s' : wf s -> q s' = q s -> agents s' = agents s ++ [x] -> own x = None -> wf s'.
Proof.
  intros [A B C] E F O. constructor; rewrite ?E, ?F; auto.
  - intros a y t o H K. rewrite nth_snoc in H. destruct (Nat.eqb a (length (agents s))); [congruence|eauto].
  - intros a b y z t o o' H K L M. rewrite nth_snoc in H. rewrite nth_snoc in K. destruct (Nat.eqb a (length (agents s))); [congruence|].
    destruct (Nat.eqb b (length (agents s))); [congruence|eauto].
Qed.
Lemma wf_put s a x y s' : wf s -> nth_error (agents s) a = Some y -> q s' = q s -> agents s' = set_nth a x (agents s) -> own x = None -> wf s'.
Proof.
  intros [A B C] N E F O. constructor; rewrite ?E, ?F; auto.
  - intros b z t o H K. rewrite (nth_set _ _ _ _ _ N) in H. destruct (Nat.eqb a b); [congruence|eauto].
  - intros b c z z' t o o' H K L M. rewrite (nth_set _ _ _ _ _ N) in H. rewrite (nth_set _ _ _ _ _ N) in K. destruct (Nat.eqb a b); [congruence|].
    destruct (Nat.eqb a c); [congruence|eauto].
Qed.
(** An agent makes a call. *)
Lemma wf_call s a x y o s' : wf s -> nth_error (agents s) a = Some y -> pool_op o = true -> q s' = qnext (q s) (LCall o) ->
  agents s' = set_nth a x (agents s) -> own x = Some (fresh s, o) -> wf s'.
Proof.
  intros W N PO E F O. constructor; rewrite ?E, ?F.
  - apply qok_step; [apply (w_q s W)|exact PO].
  - intros b z t o' H K. cbn. rewrite nth_snoc. rewrite (nth_set _ _ _ _ _ N) in H. destruct (Nat.eqb_spec a b).
    + injection H as <-. rewrite O in K. injection K as <- <-. unfold fresh. rewrite Nat.eqb_refl. exists PStart. split; [reflexivity|exact Logic.I].
    + pose proof (own_lt _ _ _ _ _ W H K) as LT. unfold fresh in LT. destruct (Nat.eqb_spec t (length (tasks (q s)))); [lia|]. eapply (w_own s W); eauto.
  - intros b c z z' t o1 o2 H K L M. rewrite (nth_set _ _ _ _ _ N) in H. rewrite (nth_set _ _ _ _ _ N) in K.
    destruct (Nat.eqb_spec a b), (Nat.eqb_spec a c); try congruence.
    + injection H as <-. rewrite O in L. injection L as <- <-. pose proof (own_lt _ _ _ _ _ W K M). lia.
    + injection K as <-. rewrite O in M. injection M as <- <-. pose proof (own_lt _ _ _ _ _ W H L). lia.
    + eapply (w_inj s W); eauto.
Qed.
(** A step of an agent's call, after which it either still waits or goes on. *)
Lemma wf_run s a x t o c s' : wf s -> nth_error (agents s) a = Some x -> own x = Some (t, o) -> q s' = qnext (q s) (LRun t c) ->
  (agents s' = agents s /\ (exists p, nth_error (tasks (q s')) t = Some (o, p) /\ notret p) \/
   exists x', agents s' = set_nth a x' (agents s) /\ own x' = None) -> wf s'.
Proof.
  intros W N O E D.
  assert (Q : qok (q s')) by (rewrite E; apply qok_step; [apply (w_q s W)|exact Logic.I]).
  assert (OTH : forall b y t' o', b <> a -> nth_error (agents s) b = Some y -> own y = Some (t', o') -> exists p, nth_error (tasks (q s')) t' = Some (o', p) /\ notret p).
  { intros b y t' o' NE H K. destruct (w_own s W _ _ _ _ H K) as (p & T & NR).
    assert (t' <> t) by (intros ->; apply NE; eapply (w_inj s W); eauto).
    rewrite E. destruct (qnext_other fr (q s) t c t' o' p (w_q s W) H0 T) as [G|[-> G]]; [eauto|]. exists PEnter. split; [exact G|exact Logic.I]. }
  destruct D as [(F & P)|(x' & F & O')].
  - constructor; rewrite ?F; auto; [|apply (w_inj s W)].
    intros b y t' o' H K. destruct (Nat.eq_dec b a) as [->|NE]; [|eapply OTH; eauto].
    rewrite N in H. injection H as <-. rewrite O in K. injection K as <- <-. exact P.
  - constructor; rewrite ?F; auto.
    + intros b y t' o' H K. rewrite (nth_set _ _ _ _ _ N) in H. destruct (Nat.eqb_spec a b); [congruence|]. eapply OTH; eauto.
    + intros b c' y z t' o1 o2 H K L M. rewrite (nth_set _ _ _ _ _ N) in H. rewrite (nth_set _ _ _ _ _ N) in K. destruct (Nat.eqb a b); [congruence|]. destruct (Nat.eqb a c'); [congruence|]. eapply (w_inj s W); eauto.
Qed.

Lemma qspurious k t t' o p : nth_error (tasks k) t' = Some (o, p) -> notret p -> exists p', nth_error (tasks (qnext k (LSpurious t))) t' = Some (o, p') /\ notret p'.
Proof.
  intros E N. cbn. destruct (nth_error (tasks k) t) as [[o0 p0]|] eqn:T; [|eauto]. destruct p0; eauto. cbn.
  rewrite (nth_set _ _ _ _ _ T). destruct (Nat.eqb_spec t t'); [|eauto]. subst. rewrite T in E. injection E as <- <-. exists PEnter. split; [reflexivity|exact Logic.I].
Qed.

Lemma launch_wf s b0 c : wf s -> wf (launch dyn s b0 c).
Proof. intros W. unfold launch. destruct (_ && _ && _); [|exact W]. eapply wf_add with (s := s); eauto; reflexivity. Qed.
Lemma launch_nth s b0 c a x : nth_error (agents s) a = Some x -> nth_error (agents (launch dyn s b0 c)) a = Some x.
Proof. intros H. unfold launch. destruct (_ && _ && _); [|exact H]. cbn. rewrite nth_error_app1; [exact H|eapply nth_lt; eauto]. Qed.
Lemma launch_fresh s b0 c : fresh (launch dyn s b0 c) = fresh s.
Proof. unfold launch. destruct (_ && _ && _); reflexivity. Qed.

Lemma wf_next s l : wf s -> wf (next s l).
Proof.
  intros W. destruct l as [r p|d|a c|t].
  - eapply wf_add with (s := s); eauto; try reflexivity. destruct dyn; reflexivity.
  - eapply wf_add with (s := s); eauto; reflexivity.
  - cbn [PoolModel.next]. destruct (nth_error (agents s) a) as [x|] eqn:E; [|auto].
    assert (QC : forall t o, own x = Some (t, o) -> qres fr (q s) (qnext (q s) (LRun t c)) t o).
    { intros t o O. destruct (w_own s W _ _ _ _ E O) as (p & T & N). eapply qrun_cases; eauto. apply (w_q s W). }
    destruct x as [v p|d p|p].
    + destruct p as [| |b0|t|]; cbn [run_step]; auto.
      * eapply (wf_put s a _ _ _ W E); try reflexivity. destruct (Nat.ltb _ _); reflexivity.
      * eapply wf_put; eauto; reflexivity.
      * eapply wf_call with (s := launch dyn s b0 c) (o := OPush v); [apply launch_wf; exact W|apply launch_nth; exact E|reflexivity|reflexivity|reflexivity|].
        rewrite launch_fresh. reflexivity.
      * specialize (QC _ _ eq_refl). unfold qrun, result. cbn [q with_q].
        inversion QC as [o1 p1 T N IT|v1 T C IT|v1 T IT| | | |]; subst; rewrite T.
        -- eapply wf_run with (c := c); [exact W|exact E|reflexivity|destruct p1; try contradiction; reflexivity|].
           left. split; [destruct p1; try contradiction; reflexivity|]. exists p1. split; [|exact N]. destruct p1; try contradiction; exact T.
        -- eapply wf_run with (c := c); [exact W|exact E|reflexivity|reflexivity|]. right. eexists. split; reflexivity.
        -- eapply wf_run with (c := c); [exact W|exact E|reflexivity|reflexivity|]. right. eexists. split; reflexivity.
    + destruct p as [|t| |t| | |]; cbn [shut_step]; auto.
      * destruct (once s) as [[]|] eqn:O; auto; [eapply wf_put; eauto; reflexivity|].
        eapply wf_call with (o := OClose); eauto; reflexivity.
      * specialize (QC _ _ eq_refl). unfold qrun, result. cbn [q with_q].
        inversion QC as [o1 p1 T N IT| | | | |T C IT|]; subst; rewrite T.
        -- eapply wf_run with (c := c); [exact W|exact E|reflexivity|destruct p1; try contradiction; reflexivity|].
           left. split; [destruct p1; try contradiction; reflexivity|]. exists p1. split; [|exact N]. destruct p1; try contradiction; exact T.
        -- eapply wf_run with (c := c); [exact W|exact E|reflexivity|reflexivity|]. right. eexists. split; reflexivity.
      * eapply wf_call with (s := s) (o := OClear true); eauto; reflexivity.
      * specialize (QC _ _ eq_refl). unfold qrun, result. cbn [q with_q].
        inversion QC as [o1 p1 T N IT| | | | | |T IT]; subst; rewrite T.
        -- eapply wf_run with (c := c); [exact W|exact E|reflexivity|destruct p1; try contradiction; reflexivity|].
           left. split; [destruct p1; try contradiction; reflexivity|]. exists p1. split; [|exact N]. destruct p1; try contradiction; exact T.
        -- eapply wf_run with (c := c); [exact W|exact E|reflexivity|reflexivity|]. right. eexists. split; reflexivity.
      * destruct (forallb exited (agents s)); auto. eapply wf_put; eauto; reflexivity.
      * eapply wf_put; eauto; reflexivity.
    + destruct p as [|t|v|v|v|v|v|]; cbn [worker_step]; auto; try (eapply wf_put; eauto; reflexivity).
      * eapply wf_call with (o := OWait false); eauto; reflexivity.
      * specialize (QC _ _ eq_refl). unfold qrun, result. cbn [q with_q].
        inversion QC as [o1 p1 T N IT| | |v1 T T0 IT F|T C IT| |]; subst; rewrite T.
        -- eapply wf_run with (c := c); [exact W|exact E|reflexivity|destruct p1; try contradiction; reflexivity|].
           left. split; [destruct p1; try contradiction; reflexivity|]. exists p1. split; [|exact N]. destruct p1; try contradiction; exact T.
        -- eapply wf_run with (c := c); [exact W|exact E|reflexivity|reflexivity|]. right. eexists. split; reflexivity.
        -- eapply wf_run with (c := c); [exact W|exact E|reflexivity|reflexivity|]. right. eexists. split; reflexivity.
  - destruct W as [A B C]. constructor; cbn [PoolModel.next q with_q agents]; auto.
    + apply qok_step; [exact A|exact Logic.I].
    + intros a x t' o H K. destruct (B _ _ _ _ H K) as (p & T & N). eapply qspurious; eauto.
Qed.

Lemma wf_init n : wf (init n).
Proof.
  assert (R : forall a x, nth_error (repeat (AWorker WLoop) n) a = Some x -> own x = None).
  { intros a x H. apply nth_error_In, repeat_spec in H. subst. reflexivity. }
  constructor; cbn.
  - split; [apply inv_init|]. split; [intros [|t]; discriminate|]. split; [intros [|t]; discriminate|]. intros [|t]; discriminate.
  - intros a x t o H K. rewrite (R _ _ H) in K. discriminate.
  - intros a b x y t o o' H K L M. rewrite (R _ _ H) in L. discriminate.
Qed.

Lemma final_snoc n h l : PoolModel.final fr dyn maxc n (h ++ [l]) = next (PoolModel.final fr dyn maxc n h) l.
Proof. unfold PoolModel.final. rewrite fold_left_app. reflexivity. Qed.

Lemma wf_final n h : wf (PoolModel.final fr dyn maxc n h).
Proof. induction h as [|l h IH] using rev_ind; [apply wf_init|]. rewrite final_snoc. apply wf_next. exact IH. Qed.

(** Induction over the reachable states. *)
Lemma pool_ind (P : pool -> Prop) n : P (init n) -> (forall s s', wf s -> P s -> pstep s s' -> P s') -> forall h, P (PoolModel.final fr dyn maxc n h).
Proof.
  intros H0 HS h. induction h as [|l h IH] using rev_ind; [exact H0|].
  rewrite final_snoc. destruct (next_pcases _ l (wf_final n h)) as [->|T]; [exact IH|]. eapply HS; eauto. apply wf_final.
Qed.
End P.
