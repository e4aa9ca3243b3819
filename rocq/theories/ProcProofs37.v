(** Run loops: what they did when they return. *)
From Verif Require Import ListUtil Amap ProcModel ProcSpec ProcSpec2 ProcProofs ProcProofs2 ProcProofs3 ProcProofs4 ProcProofs5 ProcProofs6 ProcProofs7 ProcProofs9 ProcProofs10 ProcProofs11 ProcProofs14 ProcProofs16 ProcProofs17 ProcProofs18 ProcProofs19 ProcProofs24 ProcProofs26 ProcProofs28.
From Verif Require QueueModel QueueSpec QueueProofs2 QueueProofs4 SigModel.

Lemma wait_answer q i ch b ph x : qtask q i = Some (QueueModel.OWait b, ph) -> live ph -> q_result (q ++ [QueueModel.LRun i ch]) i = Some x -> (forall e, x <> QueueModel.RTook e) ->
  q_closed q = true \/ b = true /\ qitems q = [].
Proof.
  intros TK LV RS NT. assert (X : exists o, qtask (q ++ [QueueModel.LRun i ch]) i = Some (o, QueueModel.PReturned x)).
  { unfold q_result in RS. destruct (nth_error (QueueModel.tasks (q_state (q ++ [QueueModel.LRun i ch]))) i) as [[o p]|] eqn:E; [|discriminate]. destruct p as [ | | | | | | | | |r]; try discriminate RS. inversion RS. subst. exists o. reflexivity. }
  destruct X as (o & E). assert (o = QueueModel.OWait b) as ->.
  { pose proof (qops_nth _ _ _ _ E) as A. rewrite qops_run in A by discriminate. pose proof (qops_nth _ _ _ _ TK) as B. congruence. }
  pose proof (QueueProofs2.i_log _ _ (QueueProofs2.inv_final nat fifo _) _ _ _ E) as L. cbn in L.
  assert (x = QueueModel.RNothing) as ->.
  { destruct x; try (destruct L as [(A & _)|[(? & ? & A & _)|(_ & _ & _ & A)]]; [discriminate A|discriminate A|apply A; reflexivity]). exfalso. eapply NT. reflexivity. }
  pose proof (QueueProofs2.ret_task nat fifo _ _ _ _ E) as R.
  assert (ND : ~ QueueSpec.done fifo q i).
  { intros (r & D). pose proof (QueueProofs2.i_log _ _ (QueueProofs2.inv_final nat fifo q) _ _ _ TK) as L0. unfold QueueProofs2.log_ok in L0.
    assert (L1 : QueueProofs2.log nat i (QueueModel.tr (QueueModel.final fifo q)) = []) by (destruct ph; try exact L0; exfalso; eapply LV; reflexivity).
    assert (I : In (QueueModel.ERet i r) (QueueProofs2.log nat i (QueueModel.tr (QueueModel.final fifo q)))) by (apply filter_In; split; [exact D|apply Nat.eqb_refl]). rewrite L1 in I. destruct I. }
  pose proof (QueueProofs4.new_answer nat fifo q _ i _ ND R (QueueModel.OWait b)) as A. apply A. apply QueueProofs2.call_of_task. eauto.
Qed.

Lemma of_app t a b : of_thread t (a ++ b) = of_thread t a ++ of_thread t b. Proof. apply filter_app. Qed.
Lemma of_quiet t l : quiet l -> of_thread t l = [].
Proof. intros Q. induction l as [|e l IH]; [reflexivity|]. change (of_thread t (e :: l)) with (if by_thread t e then e :: of_thread t l else of_thread t l). rewrite IH by (intros x I; apply Q; right; exact I). specialize (Q e (or_introl eq_refl)). destruct e; try discriminate Q; reflexivity. Qed.
Lemma evt_add t st st' : evt t st st' -> exists add, tr st' = tr st ++ add /\ forall t', t' <> t -> of_thread t' add = [].
Proof.
  intros V. assert (NE : forall t' : nat, t' <> t -> Nat.eqb t' t = false) by (intros; apply Nat.eqb_neq; assumption).
  destruct V as [q Q E|f f' r0 q S SI Q E|f c0 U ID W0 E|f n0 r0 ds res S ID W0 DS E _|n0 i c0 p0 r0 S C0 SB P E|n0 p0 j k0 i e0 r0 S E|n0 p0 j k0 e0 t1 c0 r0 S C0 E|n0 k0 c0 r0 S C0 F SB E|bd p0 e0 n0 j k0 i r0 q S B Q E|bd p0 e0 n0 j r0 q S B Q E|bd p0 n0 r0 q c0 S B Q C0 E];
    destruct E as (_ & TT & _); eexists; (split; [exact TT|]); intros t' N; rewrite ?of_app, ?(of_quiet _ q Q); cbn; rewrite ?NE by exact N; try reflexivity.
  destruct DS as [->|(p & es & ->)]; cbn; rewrite ?NE by exact N; reflexivity.
Qed.

Definition shape (t p : nat) (k : kind) (ph : phase) (s1 : list frame) (b : list event) : Prop := exists c l, rounds t p c l /\ (k = Once -> c = 0) /\
  match ph with
  | LWait _ => s1 = [] /\ of_thread t b = l
  | LGot e => s1 = [] /\ of_thread t b = l ++ [ETake t p e]
  | LBusy => exists s2 f e mid, s1 = s2 ++ [f] /\ body_of f = Some (p, e) /\ of_thread t b = l ++ ETake t p e :: EStart t p e false :: mid
  end.
Definition inside (h : history) : Prop := forall t n p j k ph s1 r, stk (final h) t = s1 ++ FLoop n p j k ph :: r -> exists a b, trace h = a ++ ECall t n (KRun p k) :: b /\ shape t p k ph s1 b.

(** Something happens inside the execution that runs. *)
Lemma shape_more t p k ph f s1 s1' b add : shape t p k ph (f :: s1) b -> (exists s g, s1' = s ++ [g] /\ forall s0 g0, f :: s1 = s0 ++ [g0] -> body_of g = body_of g0) -> shape t p k ph s1' (b ++ add).
Proof.
  intros (c & l & R & O & X) (s & g & -> & Y). exists c, l. split; [exact R|]. split; [exact O|]. destruct ph as [i|e|]; [destruct X; discriminate|destruct X; discriminate|].
  destruct X as (s2 & f0 & e & mid & E & B & T). exists s, g, e, (mid ++ of_thread t add). split; [reflexivity|]. split; [rewrite (Y _ _ E); exact B|]. rewrite of_app, T, <- app_assoc. reflexivity.
Qed.
Lemma shape_quiet t p k ph s1 b add : shape t p k ph s1 b -> of_thread t add = [] -> shape t p k ph s1 (b ++ add).
Proof. intros (c & l & R & O & X) Q. exists c, l. split; [exact R|]. split; [exact O|]. rewrite of_app, Q, app_nil_r. exact X. Qed.
Lemma last_cons (f : frame) s1 : s1 <> [] -> exists s g, s1 = s ++ [g] /\ forall s0 g0, f :: s1 = s0 ++ [g0] -> g = g0.
Proof.
  intros N. destruct s1 as [|g s] using rev_ind; [contradiction|]. exists s, g. split; [reflexivity|]. intros s0 g0 E. change (f :: s ++ [g]) with ((f :: s) ++ [g]) in E. apply app_inj_tail in E as [_ ->]. reflexivity.
Qed.

Lemma once_leaves st t a b n p j r i j' : stk st t = b :: FLoop n p j Once LBusy :: r -> stk (act st t a) t = FLoop n p j' Once (LWait i) :: r -> body_of b <> None -> False.
Proof.
  intros S S' B. assert (L : forall s : list frame, s = FLoop n p j' Once (LWait i) :: r -> length s = Datatypes.S (length r)) by (intros s ->; reflexivity). apply L in S'. revert S'.
  assert (FIN' : forall st1 p1 e, length (stk (finish st1 t p1 e (FLoop n p j Once LBusy :: r)) t) <> Datatypes.S (length r)).
  { intros. unfold finish, leave. destruct j; cbn; rewrite ?upd_same; lia. }
  assert (OLD : length (stk st t) <> Datatypes.S (length r)) by (rewrite S; cbn; lia).
  unfold act. destruct a as [id|c|ch| | |].
  - destruct (user _); intros X; exact (OLD X).
  - destruct (user _ && valid st c); [|intros X; exact (OLD X)]. cbv zeta. destruct c; cbn; rewrite ?upd_same; rewrite ?S; cbn; lia.
  - rewrite S. destruct b as [n0 k|n0 p0 j0 kd ph|p0 e|p0 e m x]; try (exfalso; apply B; reflexivity); [intros X; exact (OLD X)|].
    unfold go_emit. cbv zeta. destruct x as [|g0|g0|g0 s0].
    + destruct (lock_free st p0); [|intros X; exact (OLD X)]. destruct (get m _); [cbn; rewrite upd_same; cbn; lia|intros X; exact (FIN' _ _ _ X)].
    + destruct (s_free _ _); [|intros X; exact (OLD X)]. destruct (SigModel.crashed _); [intros X; exact (OLD X)|]. destruct (SigModel.em _); [cbn; rewrite upd_same; cbn; lia|intros X; exact (FIN' _ _ _ X)].
    + destruct (SigModel.em _) as [em|]; [|intros X; exact (FIN' _ _ _ X)]. destruct (SigModel.e_run em) as [[]|]; [cbn; rewrite upd_same; cbn; lia|intros X; exact (OLD X)].
    + intros X; exact (OLD X).
  - rewrite S. destruct b as [n0 k|n0 p0 j0 kd ph|p0 e|p0 e m x]; try (exfalso; apply B; reflexivity); [intros X; exact (FIN' _ _ _ X)|]. destruct x; try (intros X; exact (OLD X)). cbn. rewrite upd_same. cbn. lia.
  - rewrite S. destruct b as [n0 k|n0 p0 j0 kd ph|p0 e|p0 e m x]; try (exfalso; apply B; reflexivity); intros X; exact (OLD X).
  - rewrite S. destruct b as [n0 k|n0 p0 j0 kd ph|p0 e|p0 e m x]; try (exfalso; apply B; reflexivity); intros X; exact (OLD X).
Qed.
