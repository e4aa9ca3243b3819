(** Stub: destroyed handles, forgotten requests, and which user function is called. *)
From Verif Require Import CsTypes ListUtil ProvModel ProvSpec ProvProofs ProvProofs2 ProvProofs3 StubModel StubSpec StubProofs StubProofs2.

Lemma received_snoc h x : received (h ++ [x]) = received h ++ received [x].
Proof. unfold received. rewrite pcalls_app, requests_app. reflexivity. Qed.

Lemma valid_cell s r : valid s r = true -> exists q, cell (sp s) r = Some q /\ q_valid q = true.
Proof. unfold valid, cell. destruct (nth_error _ r) as [q|]; [|discriminate]. eauto. Qed.
Lemma cell_valid s r q : cell (sp s) r = Some q -> valid s r = q_valid q.
Proof. unfold valid, cell. intros ->. reflexivity. Qed.

(** ** Destroying a handle *)
Lemma destroy_invalid e s r l : sp s = final l -> NoDup (requests_received (ops_of l)) -> valid (fst (destroy_handle e s (Some r))) r = false.
Proof.
  intros S ND. cbn. destruct (valid s r) eqn:V; [|exact V]. pose proof (call_called e s (OReply r (Some (Err EResponseIgnored)) false)) as C.
  destruct (valid_cell s r V) as (q & Cq & Vq). rewrite S in Cq.
  destruct (reply_invalidates l (e_net e) r q (Some (Err EResponseIgnored)) ND Cq Vq) as (q' & C' & V').
  rewrite final_snoc in C'. unfold valid. rewrite (ca_sp _ _ _ _ _ C), S. unfold cell in C'. rewrite C'. exact V'.
Qed.

Lemma gone_cause e s x r : 1 <= cnt (gone r) (snd (sstep e s x)) ->
  exists s0, sp s0 = sp s /\ sp (fst (sstep e s x)) = sp (fst (destroy_handle e s0 (Some r))).
Proof.
  assert (CALL : forall s0 y, cnt (gone r) (snd (call e s0 y)) = 0) by (intros; apply (ca_gone _ _ _ _ _ (call_called e s0 y))).
  assert (DES : forall s0 h, cnt (gone r) (snd (destroy_handle e s0 h)) = 0).
  { intros s0 h. unfold destroy_handle. destruct h as [r0|]; [|reflexivity]. destruct (valid s0 r0); [apply CALL|reflexivity]. }
  destruct x as [o f|b|x|i|i|k|k p|k p|k c|k cb|k|k j|k]; cbn [sstep]; intros H;
    try (unfold through in H; destruct (nth_error (handles s) k) as [[[r0|]|]|]; first [rewrite CALL in H; lia|unfold cnt in H; cbn in H; lia]).
  - destruct (exec s); [rewrite CALL in H; lia|unfold cnt in H; cbn in H; lia].
  - unfold cnt in H; cbn in H; lia.
  - destruct (forwarded x); [rewrite CALL in H; lia|unfold cnt in H; cbn in H; lia].
  - destruct (nth_error (tasks s) i) as [[tr tf]|]; [|unfold cnt in H; cbn in H; lia]. destruct tf as [f|]; cbn [t_fn t_req] in *; [unfold cnt in H; cbn in H; lia|].
    pose proof (DES (set_handles (set_tasks s (remove_nth i (tasks s))) (handles s ++ [None])) (Some tr)) as D.
    cbn [handles set_tasks] in *. exists (set_handles (set_tasks s (remove_nth i (tasks s))) (handles s ++ [None])). split; [reflexivity|].
    destruct (destroy_handle e _ (Some tr)) as [s2 l] eqn:E2. cbn [fst snd] in *. rewrite cnt_cons, cnt_app, cnt_cons, cnt_nil, D in H. cbn in H.
    destruct (Nat.eqb_spec r tr) as [->|]; [|unfold cnt in H; cbn in H; lia]. rewrite E2. reflexivity.
  - destruct (nth_error (tasks s) i) as [t|]; unfold cnt in H; cbn in H; lia.
  - destruct (nth_error (handles s) k) as [[old|]|]; [|unfold cnt in H; cbn in H; lia|unfold cnt in H; cbn in H; lia].
    destruct (nth_error (handles s) j) as [[h|]|]; [|unfold cnt in H; cbn in H; lia|unfold cnt in H; cbn in H; lia].
    destruct (Nat.eqb k j); [unfold cnt in H; cbn in H; lia|]. destruct old; unfold cnt in H; cbn in H; lia.
  - destruct (nth_error (handles s) k) as [[h|]|]; [|unfold cnt in H; cbn in H; lia|unfold cnt in H; cbn in H; lia].
    pose proof (DES (set_handles s (set_nth k None (handles s))) h) as D. exists (set_handles s (set_nth k None (handles s))). split; [reflexivity|].
    destruct (destroy_handle e _ h) as [s1 l] eqn:E1. cbn [fst snd] in *. rewrite cnt_app, D in H. destruct h as [r0|]; [|unfold cnt in H; cbn in H; lia].
    rewrite cnt_cons, cnt_nil in H. cbn in H. destruct (Nat.eqb_spec r r0) as [->|]; [|unfold cnt in H; cbn in H; lia]. rewrite E1. reflexivity.
Qed.

Lemma gone_invalid h r : NoDup (received h) -> 1 <= cnt (gone r) (strace h) -> valid (sfinal h) r = false.
Proof.
  induction h as [|[e x] h IH] using rev_ind; [intros _ H; change (1 <= 0) in H; lia|]. rewrite received_snoc, strace_snoc, cnt_app, sfinal_snoc. unfold snext. intros ND G.
  pose proof (nodup_prefix _ _ ND) as ND0. destruct (under_exists h) as (l & U). pose proof U as (U1 & _).
  assert (NDl : NoDup (requests_received (ops_of l))) by (rewrite <- (under_received h l U); exact ND0).
  destruct (Nat.le_gt_cases 1 (cnt (gone r) (strace h))) as [G0|G0].
  - specialize (IH ND0 G0).
    assert (L : r < length (heap (sp (sfinal h)))).
    { pose proof (accounting h r) as A. rewrite handed_once in A. destruct (Nat.ltb_spec r (length (heap (sp (sfinal h))))); [assumption|cbn in A; lia]. }
    destruct (nth_error (heap (sp (sfinal h))) r) as [q|] eqn:Cq; [|apply nth_error_None in Cq; lia].
    pose proof (sstep_prov e (sfinal h) x) as P. destruct (sstep e (sfinal h) x) as [s' ev]. cbn [fst snd] in *.
    destruct P as [(P1 & _)|(y & P1 & _)].
    + unfold valid in *. rewrite P1. exact IH.
    + destruct (step (e_net e) (sp (sfinal h)) y) as [p' ev'] eqn:E. assert (I : Inv (sp (sfinal h))) by (rewrite U1; apply final_inv).
      destruct (step_heap _ _ _ _ _ I E) as (HK & _ & _). destruct (HK r q Cq) as (q' & C' & _ & V').
      unfold valid in IH |- *. rewrite Cq in IH. rewrite P1. cbn [fst]. rewrite C'. auto.
  - destruct (gone_cause e (sfinal h) x r) as (s0 & S0 & S1); [lia|].
    assert (V : valid (fst (destroy_handle e s0 (Some r))) r = false) by (apply destroy_invalid with (l := l); [congruence|exact NDl]).
    unfold valid in *. rewrite S1. exact V.
Qed.

(** ** What is valid, and where it is *)
Lemma open_request h r : NoDup (received h) -> valid (sfinal h) r = true ->
  (exists t, In t (tasks (sfinal h)) /\ t_req t = r) \/ (exists k, nth_error (handles (sfinal h)) k = Some (Some (Some r))) \/
  (exists e, In e (strace h) /\ lost r e = true).
Proof.
  intros ND V. pose proof (accounting h r) as A. rewrite handed_once in A.
  destruct (valid_cell _ _ V) as (q & C & _). apply cell_lt in C. destruct (Nat.ltb_spec r (length (heap (sp (sfinal h))))); [|lia]. cbn in A.
  destruct (Nat.le_gt_cases 1 (cnt (gone r) (strace h))) as [G|G]; [rewrite (gone_invalid h r ND G) in V; discriminate|].
  destruct (Nat.le_gt_cases 1 (cnt (lost r) (strace h))) as [L|L].
  { right. right. destruct (cnt_pos_inv _ _ L) as (e & I & E). eauto. }
  unfold where_now in A. destruct (Nat.le_gt_cases 1 (cnt (waits r) (tasks (sfinal h)))) as [W|W].
  - left. destruct (cnt_pos_inv _ _ W) as (t & I & E). exists t. split; [exact I|]. unfold waits in E. apply Nat.eqb_eq in E. congruence.
  - right. left. assert (Hh : 1 <= cnt (holds r) (handles (sfinal h))) by lia. destruct (cnt_pos_inv _ _ Hh) as (x & I & E).
    destruct x as [[r0|]|]; try discriminate. cbn in E. apply Nat.eqb_eq in E. subst r0. apply In_nth_error in I. exact I.
Qed.

Lemma lost_loses r e : lost r e = true -> loses e = true.
Proof. destruct e as [| |? []| | | | | |]; cbn; congruence. Qed.

Lemma answered_lemma h : NoDup (received h) -> ~ deinited h -> (forall e, In e (strace h) -> loses e = false) -> quiescent h ->
  forall k, In k (received h) -> (final_answers k h = 1 \/ aborted h k) /\ final_answers k h <= 1.
Proof.
  intros ND DE LO (Q1 & Q2) k K. destruct (under_exists h) as (l & U). pose proof U as (U1 & U2 & U3 & U4).
  unfold final_answers. rewrite U2. rewrite (under_received h l U) in ND, K.
  assert (LE : final_responses k (trace l) <= 1).
  { pose proof (count_inv l k) as CI. unfold requests_for in CI. pose proof (nodup_count k _ ND). lia. }
  split; [|exact LE]. destruct (where_received l k K) as [A|(r & q & C & E)]; [left; lia|].
  destruct (q_valid q) eqn:V.
  - exfalso. assert (VV : valid (sfinal h) r = true) by (rewrite (cell_valid _ r q); [exact V|rewrite U1; exact C]).
    assert (ND' : NoDup (received h)) by (rewrite (under_received h l U); exact ND).
    destruct (open_request h r ND' VV) as [(t & I & _)|[(k0 & I)|(e & I & L)]].
    + rewrite Q1 in I. destruct I.
    + exact (Q2 _ _ I).
    + apply lost_loses in L. rewrite (LO e I) in L. discriminate.
  - destruct (why_invalid l r q C V) as [A|[A|A]]; rewrite ?E in A.
    + left. lia.
    + right. apply (under_abort h l k U). exact A.
    + exfalso. apply DE. apply (under_deinit h l U). exact A.
Qed.

(** ** Which user function *)
Definition clo_ok (h : shistory) : Prop :=
  exec (sfinal h) = true /\
  forall o, match get o (handlers (sp (sfinal h))) with
            | Some c => exists f, nth_error (closures (sfinal h)) c = Some f /\ user_handler h o = Some f
            | None => user_handler h o = None
            end.

Lemma user_snoc h e x o : user_handler (h ++ [(e, x)]) o = user_step o (user_handler h o) x.
Proof. unfold user_handler. rewrite map_app, fold_left_app. reflexivity. Qed.

(** The provider call behind a stub call, as far as handlers are concerned. *)
Lemma sstep_handlers e s x : exec s = true -> ub (sp s) = false ->
  exec (fst (sstep e s x)) = true /\
  match x with
  | SReg o f => closures (fst (sstep e s x)) = closures s ++ [f] /\
      (forall o', get o' (handlers (sp (fst (sstep e s x)))) = handler_step o' (get o' (handlers (sp s))) (ORegHandler o (Some (length (closures s)))))
  | _ => closures (fst (sstep e s x)) = closures s /\
      (forall o', get o' (handlers (sp (fst (sstep e s x)))) =
         match x with SProv (OUnregHandler o) => if Nat.eqb o' o then None else get o' (handlers (sp s)) | _ => get o' (handlers (sp s)) end)
  end.
Proof.
  intros EX UB.
  assert (CALL : forall s0 y, sp s0 = sp s -> exec (fst (call e s0 y)) = exec s0 /\ closures (fst (call e s0 y)) = closures s0 /\
     forall o', get o' (handlers (sp (fst (call e s0 y)))) = handler_step o' (get o' (handlers (sp s))) y).
  { intros s0 y S0. pose proof (call_called e s0 y) as C. split; [exact (ca_exec _ _ _ _ _ C)|]. split; [exact (ca_clo _ _ _ _ _ C)|].
    intros o'. rewrite (ca_sp _ _ _ _ _ C), S0. apply (step_tables (e_net e) (sp s) y UB). }
  assert (DES : forall s0 h, sp s0 = sp s -> exec (fst (destroy_handle e s0 h)) = exec s0 /\ closures (fst (destroy_handle e s0 h)) = closures s0 /\
     forall o', get o' (handlers (sp (fst (destroy_handle e s0 h)))) = get o' (handlers (sp s))).
  { intros s0 h S0. unfold destroy_handle. destruct h as [r|]; [|cbn; rewrite S0; auto]. destruct (valid s0 r); [|cbn; rewrite S0; auto].
    apply (CALL s0 (OReply r (Some (Err EResponseIgnored)) false) S0). }
  assert (THR : forall k g, (forall o' c r, handler_step o' c (g r) = c) ->
     exec (fst (through s k (fun r => call e s (g r)))) = true /\ closures (fst (through s k (fun r => call e s (g r)))) = closures s /\
     forall o', get o' (handlers (sp (fst (through s k (fun r => call e s (g r)))))) = get o' (handlers (sp s))).
  { intros k g G. unfold through. destruct (nth_error (handles s) k) as [[[r0|]|]|]; try (split; [exact EX|split; reflexivity]).
    destruct (CALL s (g r0) eq_refl) as (C1 & C2 & C3). rewrite C1, C2. split; [exact EX|split; [reflexivity|]]. intros o'. rewrite C3. apply G. }
  destruct x as [o f|b|x|i|i|k|k p|k p|k c|k cb|k|k j|k]; cbn [sstep];
    try exact (THR k (fun r0 => OReply r0 p false) (fun _ _ _ => eq_refl)); try exact (THR k (fun r0 => OReply r0 p true) (fun _ _ _ => eq_refl));
    try exact (THR k (fun r0 => OReply r0 (Some (Err c)) false) (fun _ _ _ => eq_refl)); try exact (THR k (fun r0 => OOnAborted r0 cb) (fun _ _ _ => eq_refl)).
  - rewrite EX. destruct (CALL (set_closures s (closures s ++ [f])) (ORegHandler o (Some (length (closures s)))) eq_refl) as (C1 & C2 & C3).
    rewrite C1, C2. cbn [exec closures set_closures]. split; [exact EX|]. split; [reflexivity|]. exact C3.
  - destruct b; cbn; auto.
  - destruct (forwarded x) eqn:F; [|destruct x; try discriminate; cbn; auto].
    destruct (CALL s x eq_refl) as (C1 & C2 & C3). rewrite C1, C2. split; [exact EX|]. split; [reflexivity|]. intros o'. rewrite C3.
    destruct x; try discriminate; reflexivity.
  - destruct (nth_error (tasks s) i) as [[tr tf]|]; [|cbn; auto]. destruct tf as [f|]; cbn [t_fn t_req]; [cbn; auto|].
    pose proof (DES (set_handles (set_tasks s (remove_nth i (tasks s))) (handles s ++ [None])) (Some tr) eq_refl) as D.
    cbn [handles set_tasks] in *. destruct (destroy_handle e _ (Some tr)) as [s2 l]. cbn [fst] in *. cbn in D. rewrite EX in D. exact D.
  - destruct (nth_error (tasks s) i) as [t|]; cbn; auto.
  - unfold through. destruct (nth_error (handles s) k) as [[[r0|]|]|]; cbn; auto.
  - destruct (nth_error (handles s) k) as [[h|]|]; cbn; auto.
  - destruct (nth_error (handles s) k) as [[old|]|]; [|cbn; auto|cbn; auto].
    destruct (nth_error (handles s) j) as [[h|]|]; [|cbn; auto|cbn; auto].
    destruct (Nat.eqb k j); cbn; auto.
  - destruct (nth_error (handles s) k) as [[h|]|]; [|cbn; auto|cbn; auto].
    pose proof (DES (set_handles s (set_nth k None (handles s))) h eq_refl) as D.
    destruct (destroy_handle e _ h) as [s1 l]. cbn [fst] in *. cbn in D. rewrite EX in D. exact D.
Qed.

Lemma sub_ub h : ub (sp (sfinal h)) = false.
Proof. destruct (under_exists h) as (l & U1 & _). rewrite U1. apply (inv_ub _ (final_inv l)). Qed.

Lemma clo_lemma h : clo_ok h.
Proof.
  induction h as [|[e x] h IH] using rev_ind; [split; [reflexivity|intros o; reflexivity]|]. destruct IH as (EX & IH).
  pose proof (sstep_handlers e (sfinal h) x EX (sub_ub h)) as (E1 & S). unfold clo_ok. rewrite sfinal_snoc. split; [exact E1|].
  assert (OTHER : closures (fst (sstep e (sfinal h) x)) = closures (sfinal h) -> forall o,
     (get o (handlers (sp (fst (sstep e (sfinal h) x)))) = get o (handlers (sp (sfinal h)))) -> user_step o (user_handler h o) x = user_handler h o ->
     match get o (handlers (sp (fst (sstep e (sfinal h) x)))) with
     | Some c => exists f, nth_error (closures (fst (sstep e (sfinal h) x))) c = Some f /\ user_handler (h ++ [(e, x)]) o = Some f
     | None => user_handler (h ++ [(e, x)]) o = None end).
  { intros C o G U. rewrite G, C, user_snoc, U. exact (IH o). }
  intros o. destruct x as [o0 f|b|x|i|i|k|k p|k p|k c|k cb|k|k j|k]; try (destruct S as (S1 & S2); apply OTHER; [exact S1|apply S2|reflexivity]).
  - destruct S as (S1 & S2). rewrite S2, S1, user_snoc. cbn [handler_step user_step]. specialize (IH o).
    destruct (Nat.eqb_spec o o0) as [->|N].
    + destruct (get o0 (handlers (sp (sfinal h)))) as [c|].
      * destruct IH as (f0 & I1 & I2). rewrite I2. exists f0. split; [|reflexivity]. rewrite nth_error_app1 by (apply nth_lt in I1; exact I1). exact I1.
      * rewrite IH. exists f. rewrite nth_error_app2, Nat.sub_diag by lia. split; reflexivity.
    + destruct (get o (handlers (sp (sfinal h)))) as [c|]; [|exact IH]. destruct IH as (f0 & I1 & I2). exists f0. split; [|exact I2].
      rewrite nth_error_app1 by (apply nth_lt in I1; exact I1). exact I1.
  - destruct S as (S1 & S2). destruct x as [m|r p pa|r cb|o1 p|o1|o1 nf|o1 p|o1 h1|o1|o1 l|o1 l| | |]; try (apply OTHER; [exact S1|apply S2|reflexivity]).
    rewrite S2, S1, user_snoc. cbn [user_step]. specialize (IH o). destruct (Nat.eqb o o1); [reflexivity|exact IH].
Qed.

(** A request arriving for a registered operation, with an executor that accepts. *)
Lemma arrival_lemma h e m f : m_code m = OpRequest -> user_handler h (m_op m) = Some f ->
  exists c r, snext h e (SProv (OIn m)) = [PEv (EHandler c r); SSubmit r (e_accept e); PEv (EReturn (RBool true))] /\
    tasks (sfinal (h ++ [(e, SProv (OIn m))])) = tasks (sfinal h) ++ (if e_accept e then [Task r f] else []) /\
    cell (sp (sfinal (h ++ [(e, SProv (OIn m))]))) r = Some (Rq (m_src m) (m_op m) (m_rid m) (m_pay m) true None).
Proof.
  intros Hm U. destruct (clo_lemma h) as (_ & C). specialize (C (m_op m)). destruct (get (m_op m) (handlers (sp (sfinal h)))) as [c|] eqn:G; [|congruence].
  destruct C as (f0 & C1 & C2). assert (f0 = f) by congruence. subst f0. rewrite sfinal_snoc. unfold snext. cbn [sstep forwarded]. unfold call, step.
  rewrite (sub_ub h). unfold on_incoming. rewrite Hm. unfold on_action_request. rewrite G. cbn.
  exists c, (length (heap (sp (sfinal h)))). rewrite C1. destruct (e_accept e); cbn; (split; [reflexivity|]); rewrite ?app_nil_r; (split; [reflexivity|]);
    unfold cell; cbn; rewrite nth_error_app2, Nat.sub_diag by lia; reflexivity.
Qed.
(** Nothing else changes the functions of the tasks. *)
Definition from (h : shistory) (r : nat) (f : option nat) : Prop :=
  exists h1 e m h2 c, h = h1 ++ (e, SProv (OIn m)) :: h2 /\ m_code m = OpRequest /\ user_handler h1 (m_op m) = Some f /\
    In (PEv (EHandler c r)) (snext h1 e (SProv (OIn m))).
Lemma from_snoc h r f x : from h r f -> from (h ++ [x]) r f.
Proof.
  intros (h1 & e & m & h2 & c & -> & H). exists h1, e, m, (h2 ++ [x]), c. split; [rewrite <- app_assoc; reflexivity|exact H].
Qed.

Lemma pev_in e l : In (PEv e) l <-> In e (provider_events l).
Proof.
  induction l as [|a l IH]; [cbn; tauto|]. split.
  - intros [->|H]; [left; reflexivity|]. apply IH in H. destruct a; cbn; auto.
  - intros H. destruct a; cbn in H; try (right; apply IH; exact H). destruct H as [->|H]; [left; reflexivity|right; apply IH; exact H].
Qed.

(** Where a stub call can add tasks. *)
Lemma sstep_new_task h e x t : In t (tasks (sfinal (h ++ [(e, x)]))) -> In t (tasks (sfinal h)) \/
  exists m c, x = SProv (OIn m) /\ m_code m = OpRequest /\ get (m_op m) (handlers (sp (sfinal h))) = Some c /\
    In (PEv (EHandler c (t_req t))) (snext h e x) /\ t_fn t = match nth_error (closures (sfinal h)) c with Some x => x | None => None end.
Proof.
  rewrite sfinal_snoc. unfold snext. set (s := sfinal h) in *.
  assert (NOH : forall y c r, In (EHandler c r) (snd (step (e_net e) (sp s) y)) -> exists m, y = OIn m /\ m_code m = OpRequest /\ get (m_op m) (handlers (sp s)) = Some c).
  { intros y c r J. destruct (under_exists h) as (l & U1 & _). unfold s in *. rewrite U1 in *.
    destruct (handler_only_lemma l (e_net e) y c r J) as (m & -> & Hm & Hh). exists m. split; [reflexivity|split; [exact Hm|]].
    rewrite (proj1 (final_tables l)). exact Hh. }
  assert (CALL : forall s0 y, sp s0 = sp s -> tasks s0 = tasks s -> (forall m, y <> OIn m) -> In t (tasks (fst (call e s0 y))) -> In t (tasks s)).
  { intros s0 y S0 T0 N J. destruct (ca_fn _ _ _ _ _ (call_called e s0 y) t J) as [K|(c & K & F)]; [congruence|]. rewrite S0 in K.
    destruct (NOH _ _ _ K) as (m & E & _). exfalso. exact (N m E). }
  assert (DES : forall s0 hd, sp s0 = sp s -> In t (tasks (fst (destroy_handle e s0 hd))) -> In t (tasks s0)).
  { intros s0 hd S0. unfold destroy_handle. destruct hd as [r|]; [|auto]. destruct (valid s0 r); [|auto].
    intros J. destruct (ca_fn _ _ _ _ _ (call_called e s0 _) t J) as [K|(c & K & F)]; [exact K|]. rewrite S0 in K.
    destruct (NOH _ _ _ K) as (m & E & _). discriminate. }
  assert (THR : forall k g, (forall r m, g r <> OIn m) -> In t (tasks (fst (through s k (fun r => call e s (g r))))) -> In t (tasks s)).
  { intros k g N. unfold through. destruct (nth_error (handles s) k) as [[[r0|]|]|]; auto. intros J. revert J. apply CALL; [reflexivity|reflexivity|apply N]. }
  destruct x as [o f|b|x|i|i|k|k p|k p|k c|k cb|k|k j|k]; cbn [sstep]; intros J;
    try (left; revert J; first [apply (THR k (fun r0 => OReply r0 p false)); discriminate|apply (THR k (fun r0 => OReply r0 p true)); discriminate
              |apply (THR k (fun r0 => OReply r0 (Some (Err c)) false)); discriminate|apply (THR k (fun r0 => OOnAborted r0 cb)); discriminate]).
  - left. destruct (exec s); [|exact J]. revert J. apply CALL; try reflexivity. discriminate.
  - left. destruct b; exact J.
  - destruct (forwarded x) eqn:F; [|left; exact J]. pose proof (call_called e s x) as C.
    destruct (ca_fn _ _ _ _ _ C t J) as [K|(c & K & G)]; [left; exact K|right]. destruct (NOH _ _ _ K) as (m & -> & Hm & Hg).
    exists m, c. split; [reflexivity|split; [exact Hm|split; [exact Hg|split; [|exact G]]]]. apply pev_in. rewrite (ca_ev _ _ _ _ _ C). exact K.
  - left. destruct (nth_error (tasks s) i) as [[tr tf]|]; [|exact J]. destruct tf as [f|]; cbn [t_fn t_req] in J; [exact (in_remove_nth _ _ _ J)|].
    pose proof (DES (set_handles (set_tasks s (remove_nth i (tasks s))) (handles s ++ [None])) (Some tr) eq_refl) as D.
    cbn [handles set_tasks] in *. destruct (destroy_handle e _ (Some tr)) as [s2 l]. cbn [fst] in *. exact (in_remove_nth _ _ _ (D J)).
  - left. destruct (nth_error (tasks s) i) as [t0|]; [exact (in_remove_nth _ _ _ J)|exact J].
  - left. unfold through in J. destruct (nth_error (handles s) k) as [[[r0|]|]|]; exact J.
  - left. destruct (nth_error (handles s) k) as [[hd|]|]; exact J.
  - left. destruct (nth_error (handles s) k) as [[old|]|]; [|exact J|exact J].
    destruct (nth_error (handles s) j) as [[hd|]|]; [|exact J|exact J]. destruct (Nat.eqb k j); exact J.
  - left. destruct (nth_error (handles s) k) as [[hd|]|]; [|exact J|exact J].
    pose proof (DES (set_handles s (set_nth k None (handles s))) hd eq_refl) as D.
    destruct (destroy_handle e _ hd) as [s1 l]. cbn [fst] in *. exact (D J).
Qed.

Lemma task_origin h t : In t (tasks (sfinal h)) -> from h (t_req t) (t_fn t).
Proof.
  induction h as [|[e x] h IH] using rev_ind; [intros []|]. intros J. apply sstep_new_task in J as [J|(m & c & -> & Hm & G & E & F)].
  - apply from_snoc. apply IH. exact J.
  - exists h, e, m, [], c. split; [reflexivity|split; [exact Hm|split; [|exact E]]].
    destruct (clo_lemma h) as (_ & C). specialize (C (m_op m)). rewrite G in C. destruct C as (f & C1 & C2). rewrite C1 in F. rewrite F. exact C2.
Qed.

(** Every call of a user function. *)
Lemma quiet_call e s0 y f k r : ~ In (SCall f k r) (snd (call e s0 y)) /\ ~ In (SBadCall r) (snd (call e s0 y)).
Proof. apply (ca_quiet _ _ _ _ _ (call_called e s0 y)). Qed.
Lemma quiet_destroy e s0 hd f k r : ~ In (SCall f k r) (snd (destroy_handle e s0 hd)) /\ ~ In (SBadCall r) (snd (destroy_handle e s0 hd)).
Proof.
  unfold destroy_handle. destruct hd as [r0|]; [|cbn; auto]. destruct (valid s0 r0); [apply quiet_call|cbn; auto].
Qed.

Lemma call_cause h e x : (forall f k r, In (SCall f k r) (snext h e x) -> exists i, x = SRun i /\ nth_error (tasks (sfinal h)) i = Some (Task r (Some f)) /\ k = length (handles (sfinal h))) /\
  (forall r, In (SBadCall r) (snext h e x) -> exists i, x = SRun i /\ nth_error (tasks (sfinal h)) i = Some (Task r None)).
Proof.
  unfold snext. set (s := sfinal h).
  assert (Q : forall l, (forall f k r, ~ In (SCall f k r) l /\ ~ In (SBadCall r) l) ->
    (forall f k r, In (SCall f k r) l -> exists i, x = SRun i /\ nth_error (tasks s) i = Some (Task r (Some f)) /\ k = length (handles s)) /\
    (forall r, In (SBadCall r) l -> exists i, x = SRun i /\ nth_error (tasks s) i = Some (Task r None))).
  { intros l N. split; [intros f k r J; exfalso; exact (proj1 (N f k r) J)|intros r J; exfalso; exact (proj2 (N 0 0 r) J)]. }
  assert (NIL : forall f k r, ~ In (SCall f k r) [] /\ ~ In (SBadCall r) []) by (intros; split; intros []).
  destruct x as [o f|b|x|i|i|k|k p|k p|k c|k cb|k|k j|k]; cbn [sstep];
    try (apply Q; unfold through; destruct (nth_error (handles s) k) as [[[r0|]|]|]; intros f1 k1 r1;
         first [apply quiet_call|exact (NIL f1 k1 r1)|split; intros [J|[]]; discriminate]).
  - apply Q. destruct (exec s); intros f1 k1 r1; [apply quiet_call|split; intros [J|[]]; discriminate].
  - apply Q. exact NIL.
  - apply Q. destruct (forwarded x); intros f1 k1 r1; [apply quiet_call|exact (NIL f1 k1 r1)].
  - destruct (nth_error (tasks s) i) as [[tr tf]|] eqn:T; [|apply Q; exact NIL]. destruct tf as [f|]; cbn [t_fn t_req].
    + split; [intros f1 k1 r1 [J|[]]; inversion J; subst; exists i; auto|intros r1 [J|[]]; discriminate].
    + pose proof (quiet_destroy e (set_handles (set_tasks s (remove_nth i (tasks s))) (handles s ++ [None])) (Some tr)) as D.
      cbn [handles set_tasks] in *. destruct (destroy_handle e _ (Some tr)) as [s2 l]. cbn [snd] in *. split.
      * intros f1 k1 r1 [J|J]; [discriminate|]. apply in_app_or in J as [J|[J|[]]]; [|discriminate]. exfalso. exact (proj1 (D f1 k1 r1) J).
      * intros r1 [J|J]; [inversion J; subst; exists i; auto|]. apply in_app_or in J as [J|[J|[]]]; [|discriminate]. exfalso. exact (proj2 (D 0 0 r1) J).
  - apply Q. destruct (nth_error (tasks s) i) as [t0|]; intros f1 k1 r1; [split; intros [J|[]]; discriminate|exact (NIL f1 k1 r1)].
  - apply Q. destruct (nth_error (handles s) k) as [[old|]|]; [|exact NIL|exact NIL].
    destruct (nth_error (handles s) j) as [[hd|]|]; [|exact NIL|exact NIL]. destruct (Nat.eqb k j); [exact NIL|].
    intros f1 k1 r1. destruct old; split; intros J; [destruct J as [J|[]]|destruct J as [J|[]]|destruct J|destruct J]; discriminate.
  - apply Q. destruct (nth_error (handles s) k) as [[hd|]|]; [|exact NIL|exact NIL].
    pose proof (quiet_destroy e (set_handles s (set_nth k None (handles s))) hd) as D.
    destruct (destroy_handle e _ hd) as [s1 l]. cbn [snd] in *. intros f1 k1 r1. destruct (D f1 k1 r1) as [D1 D2].
    split; intros J; apply in_app_or in J as [J|J]; try contradiction; destruct hd; [destruct J as [J|[]]|destruct J|destruct J as [J|[]]|destruct J]; discriminate.
Qed.
