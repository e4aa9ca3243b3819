(** The proxy: an executor that runs its tasks first come, first served sees the callbacks in the order the requester ran them. *)
From Verif Require Import CsTypes ListUtil ReqSpec ReqProofs ReqInv ReqCache ReqSerial ReqCourse ProxyModel ProxySpec ProxyProofs ProxyProofs2 ProxyProofs3.

Definition task_call (k : task) : nat * nat * arg :=
  match k_cb k with Some cb => let '(f, a) := argument cb (k_pay k) in (k_owner k, f, a) | None => (k_owner k, 0, AVoid) end.

Lemma calls_on_app x a b : calls_on x (a ++ b) = calls_on x a ++ calls_on x b.
Proof. induction a as [|e a IH]; [reflexivity|]. destruct e as [| | | |y t f v| |]; cbn; rewrite ?IH; auto. destruct (Nat.eqb y x); reflexivity. Qed.
Lemma calls_on_out acc is x l : calls_on x (flat_map (out_of acc is) l) = [].
Proof.
  induction l as [|e l IH]; [reflexivity|]. cbn [flat_map]. rewrite calls_on_app, IH. unfold out_of. cbn.
  destruct e; try reflexivity; [destruct (nth_error is owner) as [[[w|] po]|]|destruct (nth_error is t) as [i|]]; reflexivity.
Qed.
Lemma due_event x0 h acc x e : acc x = true -> map task_call (tasks_of acc (infos (pfinal x0 h)) x e) = due x (origin_of x0 h) e.
Proof.
  intros A. unfold tasks_of, due. destruct e as [| |t o p| | | |]; try reflexivity. rewrite info_at.
  destruct (origin_of x0 h o) as [[[y|] c|c]|]; cbn; try reflexivity.
  - unfold wrapper_of, wrap. destruct (callback c) as [f|]; [|reflexivity]. cbn. rewrite A, (Nat.eqb_sym x y). destruct (Nat.eqb y x); [|reflexivity].
    cbn. unfold task_call. cbn. rewrite argument_spec. reflexivity.
  - unfold wrapper_of, wrap. destruct (callback c); reflexivity.
Qed.
Lemma due_events x0 h acc x l : acc x = true -> map task_call (flat_map (tasks_of acc (infos (pfinal x0 h)) x) l) = flat_map (due x (origin_of x0 h)) l.
Proof. intros A. induction l as [|e l IH]; [reflexivity|]. cbn [flat_map]. rewrite map_app, IH, due_event by exact A. reflexivity. Qed.
Lemma due_later x0 h l x tr : (forall t o p, In (ECb t o p) tr -> exists y, origin_of x0 h o = Some y) ->
  flat_map (due x (origin_of x0 (h ++ [l]))) tr = flat_map (due x (origin_of x0 h)) tr.
Proof.
  induction tr as [|e tr IH]; intros H; [reflexivity|]. cbn [flat_map]. rewrite IH by (intros; eapply H; right; eassumption). f_equal.
  unfold due. destruct e as [| |t o p| | | |]; try reflexivity. destruct (H t o p (or_introl eq_refl)) as (y & Y). rewrite Y, (origin_more _ _ _ _ _ Y). reflexivity.
Qed.

Lemma in_order x0 x h : fifo x h ->
  calls_on x (ptrace x0 h) ++ map task_call (queues (pfinal x0 h) x) = flat_map (due x (origin_of x0 h)) (trace (below x0 h)).
Proof.
  induction h as [|l h IH] using rev_ind; [reflexivity|]. intros F.
  assert (F1 : fifo x h) by (intros a I; apply F; apply in_or_app; left; exact I). specialize (IH F1).
  assert (IL : In l (h ++ [l])) by (apply in_or_app; right; left; reflexivity). assert (F2 := F l IL). clear IL. clear F F1.
  rewrite below_snoc, trace_app, flat_map_app, (due_later x0 h l x (trace (below x0 h))) by (intros t o p; apply cb_origin_trace).
  rewrite <- IH, ptrace_snoc, calls_on_app, pfinal_snoc. unfold pnext. clear IH.
  assert (NO : forall q, q = queues (pfinal x0 h) x -> (calls_on x (ptrace x0 h) ++ []) ++ map task_call q =
     (calls_on x (ptrace x0 h) ++ map task_call (queues (pfinal x0 h) x)) ++ []) by (intros q ->; rewrite !app_nil_r; reflexivity).
  destruct l as [i c|c|t w acc|y i|y i|i y|i y]; cbn [pstep below_now origin_now].
  - rewrite (pi_ex _ _ (pi_all x0 h)). destruct (nth_error (executors x0 h) i) as [z|]; [|apply NO; reflexivity].
    pose proof (ask_spec z c) as A. destruct (needs_callback c && negb (usable z c)); [destruct A as (v & ->)|rewrite A]; apply NO; reflexivity.
  - apply NO. reflexivity.
  - rewrite (due_later x0 h).
    + cbn [run]. rewrite <- (pi_rs _ _ (pi_all x0 h)). destruct (step (rs (pfinal x0 h)) (LRun t w)) as [rr ev]. pose proof (on_events_spec acc ev (set_rs (pfinal x0 h) rr)) as A.
      destruct (on_events acc _ ev) as [s' o]. destruct A as (_ & _ & _ & -> & A). cbn [fst snd infos set_rs queues] in *.
      rewrite calls_on_out, A, map_app, due_events, !app_nil_r, app_assoc by exact F2. reflexivity.
    + intros t' o p J. apply (cb_origin x0 h t w t' o p). rewrite (pi_rs _ _ (pi_all x0 h)). cbn [run] in J. destruct (step (final (below x0 h)) (LRun t w)) as [a b]. cbn [snd] in *. rewrite app_nil_r in J. exact J.
  - destruct (nth_error (queues (pfinal x0 h) y) i) as [k|] eqn:K; [|apply NO; reflexivity]. cbn [fst snd map queues set_queues run flat_map].
    destruct (tasks_ok x0 h y k (nth_error_In _ _ K)) as (c1 & f1 & X & C1 & B & _). rewrite B, argument_spec. unfold set_queue. cbn [calls_on].
    rewrite (Nat.eqb_sym x y). destruct (Nat.eqb_spec y x) as [->|NE]; [|apply NO; reflexivity]. rewrite (F2 eq_refl) in *. destruct (queues (pfinal x0 h) x) as [|k0 q]; [discriminate|].
    inversion K; subst k0. cbn [remove_nth firstn skipn app map]. rewrite app_nil_r, <- app_assoc. cbn [app]. do 2 f_equal. unfold task_call. rewrite B, argument_spec. reflexivity.
  - destruct (nth_error (queues (pfinal x0 h) y) i) as [k|] eqn:K; [|apply NO; reflexivity]. apply NO. cbn [fst queues set_queues]. unfold set_queue.
    destruct (Nat.eqb_spec x y) as [->|NE]; [congruence|reflexivity].
  - destruct (nth_error (execs (pfinal x0 h)) i); apply NO; reflexivity.
  - destruct (nth_error (execs (pfinal x0 h)) i); apply NO; reflexivity.
Qed.
