(** The proxy: what the state is, in terms of the history. *)
From Verif Require Import CsTypes ListUtil ReqSpec ReqProofs ProxyModel ProxySpec.

Lemma prun_app s h1 h2 : prun s (h1 ++ h2) = (fst (prun (fst (prun s h1)) h2), snd (prun s h1) ++ snd (prun (fst (prun s h1)) h2)).
Proof.
  revert s. induction h1 as [|l h1 IH]; intros s; cbn; [destruct (prun s h2); reflexivity|].
  destruct (pstep s l) as [s1 e1]. rewrite IH. destruct (prun s1 h1) as [s2 e2]. cbn. rewrite app_assoc. reflexivity.
Qed.
Lemma pfinal_snoc x0 h l : pfinal x0 (h ++ [l]) = fst (pstep (pfinal x0 h) l).
Proof. unfold pfinal. rewrite prun_app. cbn. destruct (pstep _ l); reflexivity. Qed.
Lemma ptrace_snoc x0 h l : ptrace x0 (h ++ [l]) = ptrace x0 h ++ pnext x0 h l.
Proof. unfold ptrace, pnext, pfinal. rewrite prun_app. cbn. destruct (pstep _ l) as [a b]; cbn. rewrite app_nil_r. reflexivity. Qed.
Lemma executors_snoc x0 h l : executors x0 (h ++ [l]) = exec_step (executors x0 h) l.
Proof. unfold executors. rewrite fold_left_app. reflexivity. Qed.
Lemma origins_snoc ex h l : origins_from ex (h ++ [l]) = origins_from ex h ++ origin_now (fold_left exec_step h ex) l.
Proof. revert ex. induction h as [|a h IH]; intros ex; cbn; [rewrite app_nil_r; reflexivity|]. rewrite IH, app_assoc. reflexivity. Qed.
Definition below_now (ex : list (option nat)) (l : plabel) : history :=
  match l with LStep t w _ => [LRun t w] | _ => map (fun o => LCall (origin_call o)) (origin_now ex l) end.
Lemma below_from_snoc ex h l : below_from ex (h ++ [l]) = below_from ex h ++ below_now (fold_left exec_step h ex) l.
Proof. revert ex. induction h as [|a h IH]; intros ex; cbn; [rewrite app_nil_r; reflexivity|]. rewrite IH, app_assoc. reflexivity. Qed.
Lemma below_snoc x0 h l : below x0 (h ++ [l]) = below x0 h ++ below_now (executors x0 h) l.
Proof. apply below_from_snoc. Qed.
Lemma revents_app a b : requester_events (a ++ b) = requester_events a ++ requester_events b.
Proof. induction a as [|[] a IH]; cbn; rewrite ?IH; reflexivity. Qed.

(** ** What is kept for a call *)
Definition kind (c : pcall) : nat -> usercb :=
  match c with QSend ty _ _ _ => UResp ty | QRegStatus ty _ _ | QRegSignal ty _ _ | QGet ty _ _ => UUpd ty | _ => UVoid end.
Definition wrapper_of (x : option nat) (c : pcall) : option wrapper := wrap x (kind c) (callback c).
Definition post_of (c : pcall) : post := match c with QSendSync ty _ _ _ => PostSend ty | QGetSync ty _ _ => PostGet ty | _ => Plain end.
Definition info_of (o : origin) : info := match o with FromProxy x c => Info (wrapper_of x c) (post_of c) | FromElsewhere _ => Info None Plain end.

Lemma ask_spec x c :
  if needs_callback c && negb (usable x c) then exists v, ask x c = inr v else ask x c = inl (request x c, info_of (FromProxy x c)).
Proof.
  destruct c as [ty o p cb|ty o p b|ty o cb|ty o cb|o cb|ty o cb|ty o b|rid o|o|rid o|y|y]; try reflexivity; unfold info_of, wrapper_of, usable, wrap; cbn;
    destruct cb as [f|], x as [e|]; cbn; eauto.
Qed.

Lemma convert_update ty p : convert ty p = update ty p.
Proof. unfold convert, update, content. destruct p as [[n|c]|]; destruct (enc ty); try reflexivity. destruct (dec ty n) as [v [[| | |]|]]; reflexivity. Qed.
Lemma response_spec ty p : get_response ty p = response ty p.
Proof. unfold get_response, response. destruct p as [[n|c]|]; try reflexivity. destruct (enc ty) eqn:E; [|reflexivity]. rewrite convert_update. cbn. rewrite E. reflexivity. Qed.
Lemma argument_spec c f p : argument (kind c f) p = (f, meaning c p).
Proof. destruct c; cbn; rewrite ?response_spec, ?convert_update; reflexivity. Qed.
Lemma result_spec c v : result (post_of c) v = returns c v.
Proof.
  destruct c; try reflexivity; cbn; destruct v as [| | | | |q a]; try reflexivity.
  - destruct a as [[]|]; try reflexivity. rewrite response_spec. reflexivity.
  - destruct q as [q|]; [rewrite convert_update|]; reflexivity.
Qed.

(** ** The events of one step of the requester *)
Definition out_of (acc : nat -> bool) (is : list info) (e : event) : list pevent :=
  QEv e ::
  match e with
  | ECb t owner p =>
      match nth_error is owner with Some (Info (Some w) _) => [QSubmit (w_ex w) owner p (acc (w_ex w))] | _ => [] end
  | ERet t v => match nth_error is t with Some i => [QRet t (result (i_post i) v)] | None => [] end
  | _ => []
  end.
Definition tasks_of (acc : nat -> bool) (is : list info) (x : nat) (e : event) : list task :=
  match e with
  | ECb t owner p =>
      match nth_error is owner with
      | Some (Info (Some w) _) => if Nat.eqb x (w_ex w) && acc x then [Task owner (w_cb w) p] else []
      | _ => []
      end
  | _ => []
  end.

Lemma call_wrapper_cb w : snd (call_wrapper w) = w_cb w.
Proof. unfold call_wrapper. destruct (w_cb w) as [[]|]; reflexivity. Qed.

Lemma on_event_spec acc s e : let '(s', l) := on_event acc s e in
  rs s' = rs s /\ execs s' = execs s /\ infos s' = infos s /\ l = out_of acc (infos s) e /\
  (forall x, queues s' x = queues s x ++ tasks_of acc (infos s) x e).
Proof.
  destruct e as [t rid|t m|t owner p|t|t a|t x old new|t v]; unfold out_of, tasks_of; cbn; try (do 4 (split; [reflexivity|]); intros x1; rewrite app_nil_r; reflexivity).
  - destruct (nth_error (infos s) owner) as [[[w|] po]|] eqn:E; try (do 4 (split; [reflexivity|]); intros x1; rewrite app_nil_r; reflexivity).
    pose proof (call_wrapper_cb w) as C. destruct (call_wrapper w) as [w' cb]. cbn in C. subst cb.
    rewrite ?E. destruct (acc (w_ex w)) eqn:A; cbn; (do 4 (split; [reflexivity|])); intros x; unfold enqueue.
    + destruct (Nat.eqb_spec x (w_ex w)) as [->|N]; [rewrite A; reflexivity|cbn; rewrite app_nil_r; reflexivity].
    + destruct (Nat.eqb_spec x (w_ex w)) as [->|N]; [rewrite A|]; cbn; rewrite app_nil_r; reflexivity.
  - destruct (nth_error (infos s) t) as [i|]; do 4 (split; [reflexivity|]); intros x1; rewrite app_nil_r; reflexivity.
Qed.
Lemma on_events_spec acc l : forall s, let '(s', o) := on_events acc s l in
  rs s' = rs s /\ execs s' = execs s /\ infos s' = infos s /\ o = flat_map (out_of acc (infos s)) l /\
  (forall x, queues s' x = queues s x ++ flat_map (tasks_of acc (infos s) x) l).
Proof.
  induction l as [|e l IH]; intros s; cbn [on_events flat_map].
  - do 4 (split; [reflexivity|]). intros x. rewrite app_nil_r. reflexivity.
  - pose proof (on_event_spec acc s e) as A. destruct (on_event acc s e) as [s1 a]. destruct A as (A1 & A2 & A3 & A4 & A5).
    pose proof (IH s1) as B. destruct (on_events acc s1 l) as [s2 b]. destruct B as (B1 & B2 & B3 & B4 & B5). rewrite A3 in *.
    do 3 (split; [congruence|]). split; [congruence|]. intros x. rewrite B5, A5, app_assoc. reflexivity.
Qed.
Lemma revents_out acc is l : requester_events (flat_map (out_of acc is) l) = l.
Proof.
  induction l as [|e l IH]; [reflexivity|]. cbn [flat_map]. rewrite revents_app, IH. unfold out_of. cbn.
  destruct e; try reflexivity; [destruct (nth_error is owner) as [[[w|] po]|]|destruct (nth_error is t) as [i|]]; reflexivity.
Qed.

(** ** The invariant *)
Record PI (x0 : option nat) (h : phistory) : Prop := {
  pi_ex : execs (pfinal x0 h) = executors x0 h;
  pi_inf : infos (pfinal x0 h) = map info_of (origins_from [x0] h);
  pi_rs : rs (pfinal x0 h) = final (below x0 h);
  pi_ev : requester_events (ptrace x0 h) = trace (below x0 h);
  pi_calls : calls (below x0 h) = map origin_call (origins_from [x0] h) }.

Lemma calls_of_origins os : calls (map (fun o => LCall (origin_call o)) os) = map origin_call os.
Proof. induction os as [|o os IH]; cbn; congruence. Qed.

Lemma length_ltb {A} (l : list A) i : match nth_error l i with Some _ => true | None => false end = Nat.ltb i (length l).
Proof.
  destruct (nth_error l i) eqn:E; symmetry.
  - apply Nat.ltb_lt. apply nth_error_Some. congruence.
  - apply Nat.ltb_ge. apply nth_error_None. exact E.
Qed.

Lemma pi_all x0 h : PI x0 h.
Proof.
  induction h as [|l h IH] using rev_ind; [split; reflexivity|]. destruct IH as [X1 X2 X3 X4 X5].
  assert (EXO : fold_left exec_step h [x0] = executors x0 h) by reflexivity.
  split; rewrite ?pfinal_snoc, ?ptrace_snoc, ?executors_snoc, ?origins_snoc, ?below_snoc, ?EXO, ?map_app, ?revents_app, ?calls_app; unfold pnext;
    (destruct l as [i c|c|t w acc|x i|x i|i x|i x]; cbn [pstep exec_step origin_now below_now]; rewrite ?app_nil_r).
  - rewrite <- X1. destruct (nth_error (execs (pfinal x0 h)) i) as [x|]; [|reflexivity]. destruct (ask x c) as [[c' inf]|v]; reflexivity.
  - exact X1.
  - destruct (step (rs (pfinal x0 h)) (LRun t w)) as [r ev]. pose proof (on_events_spec acc ev (set_rs (pfinal x0 h) r)) as A.
    destruct (on_events acc _ ev) as [s' o]. destruct A as (_ & A & _). cbn [fst]. rewrite A. exact X1.
  - destruct (nth_error (queues (pfinal x0 h) x) i) as [k|]; exact X1.
  - destruct (nth_error (queues (pfinal x0 h) x) i) as [k|]; exact X1.
  - cbn [fst]. rewrite <- X1, <- length_ltb. destruct (nth_error (execs (pfinal x0 h)) i); reflexivity.
  - cbn [fst]. rewrite <- X1, <- length_ltb. destruct (nth_error (execs (pfinal x0 h)) i); reflexivity.
  - rewrite <- X1. destruct (nth_error (execs (pfinal x0 h)) i) as [x|]; [|cbn; rewrite ?app_nil_r; exact X2]. pose proof (ask_spec x c) as A.
    destruct (needs_callback c && negb (usable x c)); [destruct A as (v & ->); cbn; rewrite ?app_nil_r; exact X2|]. rewrite A. cbn [fst begin infos set_infos map]. rewrite X2. reflexivity.
  - cbn [fst begin infos set_infos map]. rewrite X2. reflexivity.
  - destruct (step (rs (pfinal x0 h)) (LRun t w)) as [r ev]. pose proof (on_events_spec acc ev (set_rs (pfinal x0 h) r)) as A.
    destruct (on_events acc _ ev) as [s' o]. destruct A as (_ & _ & A & _). cbn [fst map]. rewrite A, ?app_nil_r. exact X2.
  - destruct (nth_error (queues (pfinal x0 h) x) i) as [k|]; cbn; rewrite ?app_nil_r; exact X2.
  - destruct (nth_error (queues (pfinal x0 h) x) i) as [k|]; cbn; rewrite ?app_nil_r; exact X2.
  - cbn. rewrite ?app_nil_r. destruct (nth_error (execs (pfinal x0 h)) i); exact X2.
  - cbn. rewrite ?app_nil_r. destruct (nth_error (execs (pfinal x0 h)) i); exact X2.
  - rewrite <- X1. destruct (nth_error (execs (pfinal x0 h)) i) as [x|]; [|cbn [map fst snd]; rewrite ?app_nil_r; exact X3]. pose proof (ask_spec x c) as A.
    destruct (needs_callback c && negb (usable x c)); [destruct A as (v & ->); cbn [map fst snd]; rewrite ?app_nil_r; exact X3|]. rewrite A. cbn [map origin_call]. rewrite final_snoc, <- X3. reflexivity.
  - cbn [map origin_call]. rewrite final_snoc, <- X3. reflexivity.
  - rewrite final_snoc, <- X3. destruct (step (rs (pfinal x0 h)) (LRun t w)) as [r ev]. pose proof (on_events_spec acc ev (set_rs (pfinal x0 h) r)) as A.
    destruct (on_events acc _ ev) as [s' o]. destruct A as (A & _). cbn [fst]. rewrite A. reflexivity.
  - cbn [map]. rewrite ?app_nil_r. destruct (nth_error (queues (pfinal x0 h) x) i) as [k|]; exact X3.
  - cbn [map]. rewrite ?app_nil_r. destruct (nth_error (queues (pfinal x0 h) x) i) as [k|]; exact X3.
  - cbn [map]. rewrite ?app_nil_r. destruct (nth_error (execs (pfinal x0 h)) i); exact X3.
  - cbn [map]. rewrite ?app_nil_r. destruct (nth_error (execs (pfinal x0 h)) i); exact X3.
  - rewrite <- X1, X4. destruct (nth_error (execs (pfinal x0 h)) i) as [x|]; [|cbn [map fst snd requester_events]; rewrite ?app_nil_r; reflexivity]. pose proof (ask_spec x c) as A.
    destruct (needs_callback c && negb (usable x c)); [destruct A as (v & ->); cbn [map fst snd requester_events]; rewrite ?app_nil_r; reflexivity|]. rewrite A. cbn [map snd]. rewrite trace_snoc. cbn [step snd requester_events]. rewrite ?app_nil_r. reflexivity.
  - rewrite X4. cbn [map snd]. rewrite trace_snoc. cbn [step snd requester_events]. rewrite ?app_nil_r. reflexivity.
  - rewrite X4, trace_snoc, <- X3. destruct (step (rs (pfinal x0 h)) (LRun t w)) as [r ev]. pose proof (on_events_spec acc ev (set_rs (pfinal x0 h) r)) as A.
    destruct (on_events acc _ ev) as [s' o]. destruct A as (_ & _ & _ & A & _). cbn [snd]. rewrite A, revents_out. reflexivity.
  - cbn [map]. rewrite X4, ?app_nil_r. destruct (nth_error (queues (pfinal x0 h) x) i) as [k|]; [|rewrite ?app_nil_r; reflexivity]. cbn [snd]. destruct (k_cb k) as [cb|]; [destruct (argument cb (k_pay k))|]; rewrite ?app_nil_r; reflexivity.
  - cbn [map]. rewrite X4, ?app_nil_r. destruct (nth_error (queues (pfinal x0 h) x) i) as [k|]; rewrite ?app_nil_r; reflexivity.
  - cbn [map]. rewrite X4, ?app_nil_r. rewrite ?app_nil_r; reflexivity.
  - cbn [map]. rewrite X4, ?app_nil_r. rewrite ?app_nil_r; reflexivity.
  - rewrite calls_of_origins, X5. reflexivity.
  - rewrite calls_of_origins, X5. reflexivity.
  - cbn. rewrite X5. reflexivity.
  - cbn. rewrite X5. reflexivity.
  - cbn. rewrite X5. reflexivity.
  - cbn. rewrite X5. reflexivity.
  - cbn. rewrite X5. reflexivity.
Qed.
