(** The proxy: what becomes of the callbacks the requester runs. *)
From Verif Require Import CsTypes ListUtil ReqSpec ReqProofs ReqInv ReqCache ReqSerial ReqCourse ProxyModel ProxySpec ProxyProofs.

Lemma origin_more x0 h l t o : origin_of x0 h t = Some o -> origin_of x0 (h ++ [l]) t = Some o.
Proof. unfold origin_of. rewrite origins_snoc. intros E. rewrite nth_error_app1; [exact E|]. apply nth_error_Some. congruence. Qed.
Lemma info_at x0 h t : nth_error (infos (pfinal x0 h)) t = option_map info_of (origin_of x0 h t).
Proof. rewrite (pi_inf _ _ (pi_all x0 h)). unfold origin_of. apply nth_error_map. Qed.
Lemma called_origin x0 h t c : call_of (below x0 h) t = Some c -> exists o, origin_of x0 h t = Some o /\ c = origin_call o.
Proof.
  unfold call_of. rewrite (pi_calls _ _ (pi_all x0 h)), nth_error_map. unfold origin_of.
  destruct (nth_error (origins_from [x0] h) t) as [o|]; cbn; [|discriminate]. intros E. inversion E. eauto.
Qed.

(** The calls behind the events of a step. *)
Lemma step_events x0 h t w acc : let ev := snd (step (rs (pfinal x0 h)) (LRun t w)) in
  trace (below x0 (h ++ [LStep t w acc])) = trace (below x0 h) ++ ev.
Proof. cbv zeta. rewrite below_snoc. cbn [below_now]. rewrite trace_snoc, (pi_rs _ _ (pi_all x0 h)). reflexivity. Qed.
Lemma cb_origin x0 h t w t' owner p : In (ECb t' owner p) (snd (step (rs (pfinal x0 h)) (LRun t w))) -> exists o, origin_of x0 h owner = Some o.
Proof.
  intros I. assert (J : In (ECb t' owner p) (trace (below x0 (h ++ [LStep t w (fun _ => true)])))) by (rewrite step_events; apply in_or_app; right; exact I).
  pose proof (i_cb _ (inv_final _) _ _ _ J) as C. rewrite below_snoc in C. cbn [below_now] in C.
  assert (X : exists c, call_of (below x0 h ++ [LRun t w]) owner = Some c).
  { destruct C as [(m & e & _ & _ & <- & _ & R)|(-> & o & [C|C])]; eauto. unfold run_ok in R. destruct (answer_code (m_code m)).
    - destruct R as [[(c & code & pl & b & C & _) _] _]. eauto.
    - destruct R as [(stt & C) _]. eauto. }
  destruct X as (c & X). unfold call_of in X. rewrite calls_app in X. cbn in X. rewrite app_nil_r in X. destruct (called_origin x0 h owner c X) as (o & O & _). eauto.
Qed.
Lemma ret_origin x0 h t w t' v : In (ERet t' v) (snd (step (rs (pfinal x0 h)) (LRun t w))) -> exists o, origin_of x0 h t' = Some o.
Proof.
  intros I. assert (J : In (ERet t' v) (trace (below x0 (h ++ [LStep t w (fun _ => true)])))) by (rewrite step_events; apply in_or_app; right; exact I).
  destruct (ret_called _ _ _ J) as (c & C). rewrite below_snoc in C. cbn [below_now] in C. unfold call_of in C. rewrite calls_app in C. cbn in C. rewrite app_nil_r in C.
  destruct (called_origin x0 h t' c C) as (o & O & _). eauto.
Qed.

Lemma in_remove_nth {A} (l : list A) i y : In y (remove_nth i l) -> In y l.
Proof.
  unfold remove_nth. intros H. apply in_app_or in H as [H|H].
  - rewrite <- (firstn_skipn i l). apply in_or_app. left. exact H.
  - rewrite <- (firstn_skipn (S i) l). apply in_or_app. right. exact H.
Qed.
(** ** Tasks *)
Definition task_of (x0 : option nat) (h : phistory) (x : nat) (k : task) : Prop :=
  exists c f, origin_of x0 h (k_owner k) = Some (FromProxy (Some x) c) /\ callback c = Some f /\ k_cb k = Some (kind c f) /\
    exists t, In (ECb t (k_owner k) (k_pay k)) (trace (below x0 h)).
Lemma task_more x0 h l x k : task_of x0 h x k -> task_of x0 (h ++ [l]) x k.
Proof.
  intros (c & f & A & B & C & t & D). exists c, f. split; [apply origin_more; exact A|]. split; [exact B|]. split; [exact C|].
  exists t. rewrite below_snoc. apply in_trace_app. exact D.
Qed.
Lemma wrapper_spec x0 h t w po : nth_error (infos (pfinal x0 h)) t = Some (Info (Some w) po) ->
  exists c f, origin_of x0 h t = Some (FromProxy (Some (w_ex w)) c) /\ callback c = Some f /\ w_cb w = Some (kind c f).
Proof.
  rewrite info_at. destruct (origin_of x0 h t) as [[x c|c]|]; cbn; try discriminate. unfold wrapper_of, wrap.
  destruct (callback c) as [f|] eqn:E; [|discriminate]. destruct x as [e|]; [|discriminate]. intros H. inversion H; subst. cbn. eauto.
Qed.
Lemma pstep_queues x0 h l x k : In k (queues (pfinal x0 (h ++ [l])) x) -> In k (queues (pfinal x0 h) x) \/
  exists t w acc e, l = LStep t w acc /\ In e (snd (step (rs (pfinal x0 h)) (LRun t w))) /\ In k (tasks_of acc (infos (pfinal x0 h)) x e).
Proof.
  rewrite pfinal_snoc. destruct l as [i c|c|t w acc|y i|y i|i y|i y]; cbn [pstep].
  - destruct (nth_error (execs (pfinal x0 h)) i) as [z|]; [|auto]. destruct (ask z c) as [[c' inf]|v]; auto.
  - auto.
  - destruct (step (rs (pfinal x0 h)) (LRun t w)) as [r ev] eqn:E. pose proof (on_events_spec acc ev (set_rs (pfinal x0 h) r)) as A.
    destruct (on_events acc _ ev) as [s' o]. destruct A as (_ & _ & _ & _ & A). cbn [fst]. rewrite A. intros J. apply in_app_or in J as [J|J]; [left; exact J|].
    right. apply in_flat_map in J as (e & I & J). exists t, w, acc, e. rewrite E. auto.
  - destruct (nth_error (queues (pfinal x0 h) y) i) as [k0|]; [|auto]. cbn [fst queues set_queues]. unfold set_queue. destruct (Nat.eqb_spec x y); [subst|auto].
    intros J. left. eapply in_remove_nth; exact J.
  - destruct (nth_error (queues (pfinal x0 h) y) i) as [k0|]; [|auto]. cbn [fst queues set_queues]. unfold set_queue. destruct (Nat.eqb_spec x y); [subst|auto].
    intros J. left. eapply in_remove_nth; exact J.
  - destruct (nth_error (execs (pfinal x0 h)) i); auto.
  - destruct (nth_error (execs (pfinal x0 h)) i); auto.
Qed.
Lemma tasks_ok x0 h x k : In k (queues (pfinal x0 h) x) -> task_of x0 h x k.
Proof.
  induction h as [|l h IH] using rev_ind; [intros []|]. intros J. apply pstep_queues in J as [J|(t & w & acc & e & -> & I & J)].
  - apply task_more. apply IH. exact J.
  - unfold tasks_of in J. destruct e as [| |t' owner p| | | |]; try (destruct J; fail).
    destruct (nth_error (infos (pfinal x0 h)) owner) as [[[wr|] po]|] eqn:E; try (destruct J; fail).
    destruct (Nat.eqb_spec x (w_ex wr)) as [->|N]; [|destruct J]. destruct (acc (w_ex wr)); [|destruct J]. destruct J as [<-|[]].
    destruct (wrapper_spec x0 h owner wr po E) as (c & f & A & B & C). exists c, f. cbn. split; [apply origin_more; exact A|]. split; [exact B|]. split; [exact C|].
    exists t'. rewrite step_events. apply in_or_app. right. exact I.
Qed.

(** ** Every call of a user's callback *)
Lemma out_quiet acc is l e : In e (flat_map (out_of acc is) l) -> match e with QCall _ _ _ _ | QBad _ _ | QDropped _ _ _ | QRefused _ => False | _ => True end.
Proof.
  intros J. apply in_flat_map in J as (a & _ & J). unfold out_of in J. destruct J as [<-|J]; [exact I|].
  destruct a as [| |t o p| | | |t v]; try (destruct J; fail).
  - destruct (nth_error is o) as [[[w|] po]|]; try (destruct J; fail). destruct J as [<-|[]]; exact I.
  - destruct (nth_error is t) as [i|]; [|destruct J]. destruct J as [<-|[]]; exact I.
Qed.
Lemma pnext_call x0 h l e : In e (pnext x0 h l) ->
  match e with
  | QCall x t f a => exists i k c, l = LExec x i /\ nth_error (queues (pfinal x0 h) x) i = Some k /\ k_owner k = t /\
      origin_of x0 h t = Some (FromProxy (Some x) c) /\ callback c = Some f /\ a = meaning c (k_pay k) /\
      exists t', In (ECb t' t (k_pay k)) (trace (below x0 h))
  | QBad _ _ => False
  | _ => True
  end.
Proof.
  unfold pnext. destruct l as [i c|c|t w acc|y i|y i|i y|i y]; cbn [pstep].
  - destruct (nth_error (execs (pfinal x0 h)) i) as [z|]; [|intros []]. destruct (ask z c) as [[c' inf]|v]; [intros []|]. intros [<-|[]]. exact I.
  - intros [].
  - destruct (step (rs (pfinal x0 h)) (LRun t w)) as [r ev] eqn:E. pose proof (on_events_spec acc ev (set_rs (pfinal x0 h) r)) as A.
    destruct (on_events acc _ ev) as [s' o]. destruct A as (_ & _ & _ & -> & _). cbn [snd]. intros J. apply out_quiet in J. destruct e; auto; destruct J.
  - destruct (nth_error (queues (pfinal x0 h) y) i) as [k|] eqn:K; [|intros []]. cbn [snd].
    destruct (tasks_ok x0 h y k (nth_error_In _ _ K)) as (c & f & O & C & B & t & T). rewrite B, argument_spec. intros [<-|[]].
    exists i, k, c. do 6 (split; [first [reflexivity|assumption]|]). exists t. exact T.
  - destruct (nth_error (queues (pfinal x0 h) y) i) as [k|] eqn:K; [|intros []]. intros [<-|[]]. exact I.
  - intros [].
  - intros [].
Qed.

Lemma call_only x0 h x t f a : In (QCall x t f a) (ptrace x0 h) ->
  exists c p t', origin_of x0 h t = Some (FromProxy (Some x) c) /\ callback c = Some f /\ a = meaning c p /\ In (ECb t' t p) (trace (below x0 h)).
Proof.
  induction h as [|l h IH] using rev_ind; [intros []|]. rewrite ptrace_snoc. intros J. apply in_app_or in J as [J|J].
  - destruct (IH J) as (c & p & t' & A & B & C & D). exists c, p, t'. split; [apply origin_more; exact A|]. split; [exact B|]. split; [exact C|]. rewrite below_snoc. apply in_trace_app. exact D.
  - apply pnext_call in J as (i & k & c & _ & _ & _ & A & B & C & t' & D). exists c, (k_pay k), t'.
    split; [apply origin_more; exact A|]. split; [exact B|]. split; [exact C|]. rewrite below_snoc. apply in_trace_app. exact D.
Qed.
Lemma never_bad x0 h x t : ~ In (QBad x t) (ptrace x0 h).
Proof.
  induction h as [|l h IH] using rev_ind; [intros []|]. rewrite ptrace_snoc. intros J. apply in_app_or in J as [J|J]; [exact (IH J)|exact (pnext_call x0 h l _ J)].
Qed.

(** ** Results *)
Lemma out_ret acc is l t v : In (QRet t v) (flat_map (out_of acc is) l) -> exists r i, In (ERet t r) l /\ nth_error is t = Some i /\ v = result (i_post i) r.
Proof.
  intros J. apply in_flat_map in J as (a & A & J). unfold out_of in J. destruct J as [J|J]; [discriminate|].
  destruct a as [| |t0 o p| | | |t0 v0]; try (destruct J; fail).
  - destruct (nth_error is o) as [[[w|] po]|]; try (destruct J; fail). destruct J as [J|[]]; discriminate.
  - destruct (nth_error is t0) as [i|] eqn:E; [|destruct J]. destruct J as [J|[]]. inversion J; subst. eauto.
Qed.
Definition origin_ret (o : origin) (v : retval) : pret := match o with FromProxy _ c => returns c v | FromElsewhere _ => PRaw v end.
Lemma info_ret o v : result (i_post (info_of o)) v = origin_ret o v.
Proof. destruct o as [x c|c]; cbn; [apply result_spec|reflexivity]. Qed.

Lemma ret_only x0 h t v : In (QRet t v) (ptrace x0 h) -> exists o r, origin_of x0 h t = Some o /\ In (ERet t r) (trace (below x0 h)) /\ v = origin_ret o r.
Proof.
  induction h as [|l h IH] using rev_ind; [intros []|]. rewrite ptrace_snoc. intros J. apply in_app_or in J as [J|J].
  - destruct (IH J) as (o & r & A & B & C). exists o, r. split; [apply origin_more; exact A|]. split; [|exact C]. rewrite below_snoc. apply in_trace_app. exact B.
  - unfold pnext in J. destruct l as [i c|c|t0 w acc|y i|y i|i y|i y]; cbn [pstep] in J.
    + destruct (nth_error (execs (pfinal x0 h)) i) as [z|]; [|destruct J]. destruct (ask z c) as [[c' inf]|v0]; [destruct J|]. destruct J as [J|[]]; discriminate.
    + destruct J.
    + destruct (step (rs (pfinal x0 h)) (LRun t0 w)) as [rr ev] eqn:E. pose proof (on_events_spec acc ev (set_rs (pfinal x0 h) rr)) as A.
      destruct (on_events acc _ ev) as [s' o]. destruct A as (_ & _ & _ & -> & _). cbn [snd infos set_rs] in J. apply out_ret in J as (r & i & J & N & ->).
      rewrite info_at in N. destruct (origin_of x0 h t) as [o1|] eqn:O; [|discriminate]. cbn in N. inversion N; subst i.
      exists o1, r. split; [apply origin_more; exact O|]. split; [|apply info_ret]. rewrite step_events, E. apply in_or_app. right. exact J.
    + destruct (nth_error (queues (pfinal x0 h) y) i) as [k|]; [|destruct J]. cbn in J. destruct (k_cb k) as [cb|]; [destruct (argument cb (k_pay k))|]; destruct J as [J|[]]; discriminate.
    + destruct (nth_error (queues (pfinal x0 h) y) i) as [k|]; [|destruct J]. destruct J as [J|[]]; discriminate.
    + destruct J.
    + destruct J.
Qed.
Lemma ret_all x0 h t r : In (ERet t r) (trace (below x0 h)) -> exists o, origin_of x0 h t = Some o /\ In (QRet t (origin_ret o r)) (ptrace x0 h).
Proof.
  induction h as [|l h IH] using rev_ind; [intros []|]. rewrite <- (pi_ev _ _ (pi_all _ _)), ptrace_snoc, revents_app. intros J. apply in_app_or in J as [J|J].
  - rewrite (pi_ev _ _ (pi_all _ _)) in J. destruct (IH J) as (o & A & B). exists o. split; [apply origin_more; exact A|apply in_or_app; left; exact B].
  - unfold pnext in *. destruct l as [i c|c|t0 w acc|y i|y i|i y|i y]; cbn [pstep] in *.
    + destruct (nth_error (execs (pfinal x0 h)) i) as [z|]; [|destruct J]. destruct (ask z c) as [[c' inf]|v0]; destruct J.
    + destruct J.
    + destruct (step (rs (pfinal x0 h)) (LRun t0 w)) as [rr ev] eqn:E. pose proof (on_events_spec acc ev (set_rs (pfinal x0 h) rr)) as A.
      destruct (on_events acc _ ev) as [s' o]. destruct A as (_ & _ & _ & -> & _). cbn [snd infos set_rs] in *. rewrite revents_out in J.
      destruct (ret_origin x0 h t0 w t r) as (o1 & O); [rewrite E; exact J|]. exists o1. split; [apply origin_more; exact O|]. apply in_or_app. right.
      apply in_flat_map. exists (ERet t r). split; [exact J|]. unfold out_of. rewrite info_at, O. cbn. rewrite info_ret. auto.
    + destruct (nth_error (queues (pfinal x0 h) y) i) as [k|]; [|destruct J]. cbn in J. destruct (k_cb k) as [cb|]; [destruct (argument cb (k_pay k))|]; destruct J.
    + destruct (nth_error (queues (pfinal x0 h) y) i) as [k|]; destruct J.
    + destruct J.
    + destruct J.
Qed.
