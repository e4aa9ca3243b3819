(** The proxy: no callback run gets lost, doubled or reordered on the way to the executor. *)
From Verif Require Import CsTypes ListUtil ReqSpec ReqProofs ReqInv ReqCache ReqSerial ReqCourse ProxyModel ProxySpec ProxyProofs ProxyProofs2.

Lemma cb_origin_trace x0 h t owner p : In (ECb t owner p) (trace (below x0 h)) -> exists o, origin_of x0 h owner = Some o.
Proof.
  induction h as [|l h IH] using rev_ind; [intros []|]. intros J. rewrite <- (pi_ev _ _ (pi_all _ _)), ptrace_snoc, revents_app in J. apply in_app_or in J as [J|J].
  - rewrite (pi_ev _ _ (pi_all _ _)) in J. destruct (IH J) as (o & O). exists o. apply origin_more. exact O.
  - unfold pnext in *. destruct l as [i c|c|t0 w acc|y i|y i|i y|i y]; cbn [pstep] in *.
    + destruct (nth_error (execs (pfinal x0 h)) i) as [z|]; [|destruct J]. destruct (ask z c) as [[c' inf]|v0]; destruct J.
    + destruct J.
    + destruct (step (rs (pfinal x0 h)) (LRun t0 w)) as [rr ev] eqn:E. pose proof (on_events_spec acc ev (set_rs (pfinal x0 h) rr)) as A.
      destruct (on_events acc _ ev) as [s' o]. destruct A as (_ & _ & _ & -> & _). cbn [snd infos set_rs] in *. rewrite revents_out in J.
      destruct (cb_origin x0 h t0 w t owner p) as (o1 & O); [rewrite E; exact J|]. exists o1. apply origin_more. exact O.
    + destruct (nth_error (queues (pfinal x0 h) y) i) as [k|]; [|destruct J]. cbn in J. destruct (k_cb k) as [cb|]; [destruct (argument cb (k_pay k))|]; destruct J.
    + destruct (nth_error (queues (pfinal x0 h) y) i) as [k|]; destruct J.
    + destruct J.
    + destruct J.
Qed.
Lemma miss_origin x0 h t : (forall x p ok, In (QSubmit x t p ok) (ptrace x0 h) -> exists o, origin_of x0 h t = Some o) /\
  (forall x p, In (QDropped x t p) (ptrace x0 h) -> exists o, origin_of x0 h t = Some o).
Proof.
  induction h as [|l h IH] using rev_ind; [split; intros; contradiction|]. destruct IH as (IH1 & IH2).
  assert (M : (exists o, origin_of x0 h t = Some o) -> exists o, origin_of x0 (h ++ [l]) t = Some o) by (intros (o & O); exists o; apply origin_more; exact O).
  assert (N : forall e, In e (pnext x0 h l) -> match e with QSubmit _ t' _ _ | QDropped _ t' _ => t' = t -> exists o, origin_of x0 h t = Some o | _ => True end).
  { intros e J. unfold pnext in J. destruct l as [i c|c|t0 w acc|y i|y i|i y|i y]; cbn [pstep] in J.
    - destruct (nth_error (execs (pfinal x0 h)) i) as [z|]; [|destruct J]. destruct (ask z c) as [[c' inf]|v0]; [destruct J|]. destruct J as [<-|[]]. exact I.
    - destruct J.
    - destruct (step (rs (pfinal x0 h)) (LRun t0 w)) as [rr ev] eqn:E. pose proof (on_events_spec acc ev (set_rs (pfinal x0 h) rr)) as A.
      destruct (on_events acc _ ev) as [s' o]. destruct A as (_ & _ & _ & -> & _). cbn [snd infos set_rs] in *. apply in_flat_map in J as (a & A & J).
      unfold out_of in J. destruct J as [<-|J]; [exact I|]. destruct a as [| |t1 o1 p1| | | |t1 v1]; try (destruct J; fail).
      + destruct (nth_error (infos (pfinal x0 h)) o1) as [[[w1|] po]|] eqn:N1; try (destruct J; fail). destruct J as [<-|[]]. intros ->.
        destruct (wrapper_spec x0 h t w1 po N1) as (c & f & O & _). eauto.
      + destruct (nth_error (infos (pfinal x0 h)) t1) as [i|]; [|destruct J]. destruct J as [<-|[]]; exact I.
    - destruct (nth_error (queues (pfinal x0 h) y) i) as [k|]; [|destruct J]. cbn in J. destruct (k_cb k) as [cb|]; [destruct (argument cb (k_pay k))|]; destruct J as [<-|[]]; exact I.
    - destruct (nth_error (queues (pfinal x0 h) y) i) as [k|] eqn:K; [|destruct J]. destruct J as [<-|[]]. intros <-.
      destruct (tasks_ok x0 h y k (nth_error_In _ _ K)) as (c & f & O & _). eauto.
    - destruct J.
    - destruct J. }
  rewrite ptrace_snoc. split.
  - intros x p ok J. apply in_app_or in J as [J|J]; [apply M; eapply IH1; exact J|]. apply M. exact (N _ J eq_refl).
  - intros x p J. apply in_app_or in J as [J|J]; [apply M; eapply IH2; exact J|]. apply M. exact (N _ J eq_refl).
Qed.

Section Accounting.
Context (x0 : option nat) (t x : nat) (c : pcall) (f : nat) (g : arg -> bool).
Hypothesis CB : callback c = Some f.
Let gp (p : option payload) : bool := g (meaning c p).

Lemma event_acc acc is po e : nth_error is t = Some (Info (Some (Wrap x (Some (kind c f)))) po) ->
  cnt (queued t gp) (tasks_of acc is x e) + cnt (missed t gp) (out_of acc is e) = b2n (ran t gp e) /\ cnt (called t g) (out_of acc is e) = 0.
Proof.
  intros N. unfold tasks_of, out_of. destruct e as [t1 rid|t1 m|t1 o p|t1|t1 a|t1 y old new|t1 v]; try (split; reflexivity).
  - destruct (Nat.eq_dec o t) as [->|NE].
    + rewrite N. cbn [w_ex w_cb]. rewrite Nat.eqb_refl. cbn [andb]. destruct (acc x); unfold cnt; cbn; unfold queued; cbn; rewrite Nat.eqb_refl; cbn; destruct (gp p); split; reflexivity.
    + apply Nat.eqb_neq in NE. destruct (nth_error is o) as [[[w|] po1]|]; unfold cnt; cbn; rewrite ?NE; try (split; reflexivity).
      destruct (Nat.eqb x (w_ex w) && acc x); cbn; unfold queued; cbn; rewrite ?NE; cbn; destruct (acc (w_ex w)); cbn; rewrite ?NE; cbn; split; reflexivity.
  - destruct (nth_error is t1); split; reflexivity.
Qed.
Lemma events_acc acc is po l : nth_error is t = Some (Info (Some (Wrap x (Some (kind c f)))) po) ->
  cnt (queued t gp) (flat_map (tasks_of acc is x) l) + cnt (missed t gp) (flat_map (out_of acc is) l) = cnt (ran t gp) l /\
  cnt (called t g) (flat_map (out_of acc is) l) = 0.
Proof.
  intros N. induction l as [|e l IH]; [split; reflexivity|]. cbn [flat_map]. rewrite !cnt_app, cnt_cons.
  destruct (event_acc acc is po e N), IH. lia.
Qed.

Lemma cnt_remove_nth {A} (q : A -> bool) l i y : nth_error l i = Some y -> cnt q (remove_nth i l) + b2n (q y) = cnt q l.
Proof.
  unfold remove_nth. revert i. induction l as [|z l IH]; intros [|i] H; try discriminate.
  - inversion H; subst. cbn [firstn app skipn]. rewrite cnt_cons. lia.
  - specialize (IH i H). cbn [firstn app]. change (skipn (S (S i)) (z :: l)) with (skipn (S i) l). rewrite !cnt_cons. lia.
Qed.

Lemma delivery h : origin_of x0 h t = Some (FromProxy (Some x) c) ->
  cnt (called t g) (ptrace x0 h) + cnt (queued t gp) (queues (pfinal x0 h) x) + cnt (missed t gp) (ptrace x0 h) = cnt (ran t gp) (trace (below x0 h)).
Proof.
  induction h as [|l h IH] using rev_ind; [unfold origin_of; destruct t; discriminate|]. intros O.
  destruct (origin_of x0 h t) as [o|] eqn:O1.
  2:{ (* the call begins here *)
      assert (Z0 : cnt (ran t gp) (trace (below x0 (h ++ [l]))) = 0 /\ cnt (called t g) (ptrace x0 (h ++ [l])) = 0 /\ cnt (missed t gp) (ptrace x0 (h ++ [l])) = 0 /\
                   cnt (queued t gp) (queues (pfinal x0 (h ++ [l])) x) = 0); [|lia].
      assert (P : pnext x0 h l = [] /\ below x0 (h ++ [l]) = below x0 h ++ below_now (executors x0 h) l /\ snd (run (final (below x0 h)) (below_now (executors x0 h) l)) = [] /\
                  queues (pfinal x0 (h ++ [l])) = queues (pfinal x0 h)).
      { rewrite pfinal_snoc. unfold pnext. unfold origin_of in O, O1. rewrite origins_snoc in O. rewrite nth_error_app2 in O by (apply nth_error_None; exact O1).
        change (fold_left exec_step h [x0]) with (executors x0 h) in O. rewrite below_snoc.
        destruct l as [i c0|c0|t0 w acc|y i|y i|i y|i y]; cbn [origin_now] in O; try (destruct (t - length (origins_from [x0] h)); discriminate); cbn [pstep below_now origin_now].
        - rewrite (pi_ex _ _ (pi_all x0 h)). destruct (nth_error (executors x0 h) i) as [z|]; [|destruct (t - length (origins_from [x0] h)); discriminate].
          pose proof (ask_spec z c0) as A. destruct (needs_callback c0 && negb (usable z c0)); [destruct (t - length (origins_from [x0] h)); discriminate|].
          rewrite A. repeat split. 
        - repeat split. }
      destruct P as (P1 & P2 & P3 & P4). rewrite ptrace_snoc, P1, app_nil_r, P2, trace_app, P3, app_nil_r, P4.
      repeat split; apply cnt_zero; intros a J.
      - destruct a as [| |t1 o p| | | |]; try reflexivity. cbn. destruct (Nat.eqb_spec o t) as [->|]; [|reflexivity]. destruct (cb_origin_trace _ _ _ _ _ J) as (o & X). congruence.
      - destruct a as [| | | |x1 t1 f1 a1| |]; try reflexivity. cbn. destruct (Nat.eqb_spec t1 t) as [->|]; [|reflexivity].
        destruct (call_only _ _ _ _ _ _ J) as (c1 & p1 & t2 & X & _). congruence.
      - destruct (miss_origin x0 h t) as (M1 & M2). destruct a as [| | |x1 t1 p1 [|]| | |x1 t1 p1]; try reflexivity; cbn; (destruct (Nat.eqb_spec t1 t) as [->|]; [|reflexivity]).
        + destruct (M1 _ _ _ J) as (o & X). congruence.
        + destruct (M2 _ _ J) as (o & X). congruence.
      - unfold queued. destruct (Nat.eqb_spec (k_owner a) t) as [E|]; [|reflexivity]. destruct (tasks_ok x0 h x a J) as (c1 & f1 & X & _). congruence. }
  pose proof (origin_more x0 h l t o O1) as O2. rewrite O in O2. inversion O2; subst o. specialize (IH eq_refl). clear O2.
  rewrite ptrace_snoc, below_snoc, trace_app, !cnt_app, pfinal_snoc. unfold pnext.
  destruct l as [i c0|c0|t0 w acc|y i|y i|i y|i y]; cbn [pstep below_now origin_now].
  - rewrite (pi_ex _ _ (pi_all x0 h)). destruct (nth_error (executors x0 h) i) as [z|]; [|cbn; unfold cnt in *; cbn; lia].
    pose proof (ask_spec z c0) as A. destruct (needs_callback c0 && negb (usable z c0)); [destruct A as (v & ->)|rewrite A]; cbn; unfold cnt in *; cbn; lia.
  - cbn; unfold cnt in *; cbn; lia.
  - cbn [run]. rewrite <- (pi_rs _ _ (pi_all x0 h)). destruct (step (rs (pfinal x0 h)) (LRun t0 w)) as [rr ev]. pose proof (on_events_spec acc ev (set_rs (pfinal x0 h) rr)) as A.
    destruct (on_events acc _ ev) as [s' o]. destruct A as (_ & _ & _ & -> & A). cbn [fst snd infos set_rs queues] in *. rewrite A, cnt_app, app_nil_r.
    assert (N : nth_error (infos (pfinal x0 h)) t = Some (Info (Some (Wrap x (Some (kind c f)))) (post_of c))).
    { rewrite info_at, O1. cbn. unfold wrapper_of, wrap. rewrite CB. reflexivity. }
    destruct (events_acc acc _ _ ev N). lia.
  - destruct (nth_error (queues (pfinal x0 h) y) i) as [k|] eqn:K; [|cbn; unfold cnt in *; cbn; lia]. cbn [fst snd map queues set_queues run]. rewrite cnt_nil.
    destruct (tasks_ok x0 h y k (nth_error_In _ _ K)) as (c1 & f1 & X & C1 & B & _). rewrite B, argument_spec. rewrite !cnt_cons, !cnt_nil. cbn [called missed b2n].
    unfold set_queue. destruct (Nat.eqb_spec x y) as [<-|NE].
    + pose proof (cnt_remove_nth (queued t gp) _ _ _ K) as R. unfold queued at 2 in R. destruct (Nat.eqb_spec (k_owner k) t) as [E|E]; cbn [andb b2n] in *; [|lia].
      rewrite E, O1 in X. inversion X; subst c1. unfold gp at 2 in R. lia.
    + destruct (Nat.eqb_spec (k_owner k) t) as [E|E]; cbn [andb b2n]; [|lia]. rewrite E, O1 in X. inversion X. congruence.
  - destruct (nth_error (queues (pfinal x0 h) y) i) as [k|] eqn:K; [|cbn; unfold cnt in *; cbn; lia]. cbn [fst snd map queues set_queues run]. rewrite cnt_nil.
    destruct (tasks_ok x0 h y k (nth_error_In _ _ K)) as (c1 & f1 & X & C1 & B & _). rewrite !cnt_cons, !cnt_nil. cbn [called missed b2n].
    unfold set_queue. destruct (Nat.eqb_spec x y) as [<-|NE].
    + pose proof (cnt_remove_nth (queued t gp) _ _ _ K) as R. unfold queued at 2 in R. destruct (Nat.eqb_spec (k_owner k) t) as [E|E]; cbn [andb b2n] in *; lia.
    + destruct (Nat.eqb_spec (k_owner k) t) as [E|E]; cbn [andb b2n]; [|lia]. rewrite E, O1 in X. inversion X. congruence.
  - destruct (nth_error (execs (pfinal x0 h)) i); cbn; unfold cnt in *; cbn; lia.
  - destruct (nth_error (execs (pfinal x0 h)) i); cbn; unfold cnt in *; cbn; lia.
Qed.
End Accounting.
