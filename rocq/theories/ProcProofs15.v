(** Ids of processors; where the callable of execute, waitableExecute and waitablePost runs. *)
From Verif Require Import ListUtil Amap ProcModel ProcSpec ProcProofs ProcProofs2 ProcProofs3 ProcProofs4 ProcProofs5 ProcProofs6 ProcProofs7 ProcProofs8 ProcProofs9 ProcProofs10 ProcProofs11 ProcProofs12 ProcProofs13 ProcProofs14.
From Verif Require QueueModel QueueSpec QueueProofs QueueProofs2 QueueProofs3 SigModel.

(** *** What almost every step keeps *)
Definition create_of (e : event) : list (nat * nat) := match e with ECreate p id => [(p, id)] | _ => [] end.
Definition creates (l : list event) : list (nat * nat) := flat_map create_of l.
Definition keeps (st st' : state) : Prop := np st' = np st /\ (forall p, p_id (procs st' p) = p_id (procs st p)) /\ calls st' = calls st /\ creates (tr st') = creates (tr st).
Lemma keeps_refl st : keeps st st. Proof. split; auto. Qed.
Lemma keeps_trans a b c : keeps a b -> keeps b c -> keeps a c.
Proof. intros (A & B & C & D) (A' & B' & C' & D'). split; [congruence|]. split; [intros; rewrite B'; apply B|]. split; congruence. Qed.
Lemma keeps_emit a b l : keeps a b -> creates l = [] -> keeps a (emit b l).
Proof. intros K E. eapply keeps_trans; [exact K|]. split; [reflexivity|]. split; [reflexivity|]. split; [reflexivity|]. cbn. unfold creates in *. rewrite flat_map_app, E, app_nil_r. reflexivity. Qed.
Lemma keeps_stk a b t l : keeps a b -> keeps a (with_stk b t l). Proof. intros K. eapply keeps_trans; [exact K|split; auto]. Qed.
Lemma keeps_tl a b t l : keeps a b -> keeps a (with_tl b t l). Proof. intros K. eapply keeps_trans; [exact K|split; auto]. Qed.
Lemma keeps_sig a b t l : keeps a b -> keeps a (set_sig b t l). Proof. intros K. eapply keeps_trans; [exact K|split; auto]. Qed.
Lemma keeps_newsig a b : keeps a b -> keeps a (new_sig b). Proof. intros K. eapply keeps_trans; [exact K|split; auto]. Qed.
Lemma keeps_q a b p l : keeps a b -> keeps a (set_q b p l).
Proof. intros K. eapply keeps_trans; [exact K|split; [reflexivity|split; [|auto]]]. intros p'. cbn. unfold upd. destruct (Nat.eqb_spec p p'); [subst|]; reflexivity. Qed.
Lemma keeps_map a b p l : keeps a b -> keeps a (set_map b p l).
Proof. intros K. eapply keeps_trans; [exact K|split; [reflexivity|split; [|auto]]]. intros p'. cbn. unfold upd. destruct (Nat.eqb_spec p p'); [subst|]; reflexivity. Qed.
Lemma keeps_lock a b p l : keeps a b -> keeps a (set_lock b p l).
Proof. intros K. eapply keeps_trans; [exact K|split; [reflexivity|split; [|auto]]]. intros p'. cbn. unfold upd. destruct (Nat.eqb_spec p p'); [subst|]; reflexivity. Qed.
Lemma keeps_abort a b t : keeps a b -> keeps a (abort b t).
Proof. intros K. eapply keeps_trans; [exact K|]. split; [reflexivity|]. split; [reflexivity|]. split; [reflexivity|]. cbn. unfold creates. rewrite flat_map_app, app_nil_r. reflexivity. Qed.
Ltac keep := unfold ask, leave, start_inline, goto, ret, q_run, q_call, sig_do;
  repeat lazymatch goal with
    | |- keeps ?a ?a => apply keeps_refl
    | |- keeps _ (emit _ _) => apply keeps_emit; [|reflexivity]
    | |- keeps _ (with_stk _ _ _) => apply keeps_stk
    | |- keeps _ (with_tl _ _ _) => apply keeps_tl
    | |- keeps _ (set_sig _ _ _) => apply keeps_sig
    | |- keeps _ (new_sig _) => apply keeps_newsig
    | |- keeps _ (set_q _ _ _) => apply keeps_q
    | |- keeps _ (set_map _ _ _) => apply keeps_map
    | |- keeps _ (set_lock _ _ _) => apply keeps_lock
    | |- keeps _ (abort _ _) => apply keeps_abort
    | |- keeps _ (if ?b then _ else _) => destruct b
    | |- keeps _ (match ?x with _ => _ end) => destruct x
    end.
Lemma finish_keeps a st t p e r : keeps a st -> keeps a (finish st t p e r).
Proof.
  intros K. unfold finish. cbv zeta. destruct r as [|[n k|n p' j k ph| |] r]; [keep; exact K| | |keep; exact K|keep; exact K].
  - destruct k; keep; exact K.
  - destruct ph, k; keep; exact K.
Qed.

Lemma act_keeps st t a : keeps st (act st t a) \/
  (exists id, act st t a = emit (new_proc st id) [ECreate (np st) id]) \/
  (exists c, a = ACall c /\ valid st c = true /\ keeps (with_calls st (calls st ++ [(t, c)])) (act st t a)).
Proof.
  unfold act. destruct a as [id|c|ch| | |].
  - destruct (user (stk st t)); [right; left; eauto|left; apply keeps_refl].
  - destruct (user (stk st t) && valid st c) eqn:E; [|left; apply keeps_refl]. apply andb_prop in E as [_ E]. right. right. exists c. split; [reflexivity|]. split; [exact E|]. cbv zeta. destruct c; keep.
  - left. destruct (stk st t) as [|f r] eqn:S; [apply keeps_refl|]. destruct f as [n k|n p j kd ph|p e|p e m x].
    + destruct (nth_error (calls st) n) as [[t0 c]|]; [|keep]. unfold go_call. cbv zeta. destruct k; keep.
    + destruct ph as [i|e|]; cbv zeta; keep.
    + keep.
    + unfold go_emit. cbv zeta. destruct x; keep; apply finish_keeps; keep.
  - left. destruct (stk st t) as [|[n k|n p j kd ph|p e|p e m []] r]; keep. apply finish_keeps; keep.
  - left. destruct (stk st t) as [|[n k|n p j kd []|p e|p e m x] r]; keep.
  - left. destruct (stk st t) as [|[n k|n p j kd []|p e|p e m x] r]; keep.
Qed.

Record named (st : state) : Prop := {
  n_calls : forall n t c, nth_error (calls st) n = Some (t, c) -> match c with KCut _ _ | KRestore _ _ => True | _ => target c < np st end;
  n_create : forall p id, In (ECreate p id) (tr st) <-> (p < np st /\ p_id (procs st p) = id) }.
Lemma in_creates p id l : In (ECreate p id) l <-> In (p, id) (creates l).
Proof.
  unfold creates. rewrite in_flat_map. split; [intros I; exists (ECreate p id); split; [exact I|left; reflexivity]|].
  intros (e & I & C). destruct e; cbn in C; try contradiction. destruct C as [C|[]]. injection C as -> ->. exact I.
Qed.
Lemma named_final h : named (final h).
Proof.
  induction h as [|l h IH] using rev_ind; [split; cbn; [intros [] t c E; discriminate|intros p id; split; [intros []|lia]]|].
  rewrite final_snoc. unfold next. destruct (dead (final h)); [exact IH|]. destruct l as [t a]. cbn [fst snd]. set (st := final h) in *. clearbody st. clear h.
  destruct (act_keeps st t a) as [(K1 & K2 & K3 & K4)|[(id & ->)|(c & _ & V & K1 & K2 & K3 & K4)]].
  - split; [rewrite K3, K1; apply (n_calls _ IH)|]. intros p id. rewrite in_creates, K4, <- in_creates, K1, K2. apply (n_create _ IH).
  - split; cbn.
    + intros n t0 c E. specialize (n_calls _ IH _ _ _ E). destruct c; auto; lia.
    + intros p id0. rewrite in_app_iff, (n_create _ IH). unfold upd. destruct (Nat.eqb_spec (np st) p) as [<-|N]; cbn.
      * split; [intros [[X _]|[X|[]]]; [lia|injection X as <-; split; [lia|reflexivity]]|intros [_ <-]; right; left; reflexivity].
      * split; [intros [[X Y]|[X|[]]]; [split; [lia|exact Y]|congruence]|intros [X Y]; left; split; [lia|exact Y]].
  - cbn in K1, K2, K3, K4. split.
    + rewrite K3, K1. intros n t0 c0 E. destruct (nth_error (calls st) n) eqn:E0.
      * rewrite nth_error_app1 in E by (eapply nth_lt; eauto). apply (n_calls _ IH) in E. exact E.
      * apply nth_error_None in E0. rewrite nth_error_app2 in E by exact E0. destruct (n - length (calls st)) as [|[]]; cbn in E; try discriminate. injection E as <- <-. unfold valid in V. destruct c; auto; apply Nat.ltb_lt in V; exact V.
    + intros p id. rewrite in_creates, K4, <- in_creates, K1, K2. apply (n_create _ IH).
Qed.

(** The ids of existing processors stay. *)
Lemma step_ids h l p : p < np (final h) -> p < np (final (h ++ [l])) /\ p_id (procs (final (h ++ [l])) p) = p_id (procs (final h) p).
Proof.
  intros L. rewrite final_snoc. unfold next. destruct (dead (final h)); [auto|]. destruct l as [t a]. cbn [fst snd]. destruct (act_keeps (final h) t a) as [(K1 & K2 & _)|[(id & ->)|(c & _ & V & K1 & K2 & _)]].
  - rewrite K1, K2. auto.
  - cbn. unfold upd. destruct (Nat.eqb_spec (np (final h)) p); [lia|]. split; [lia|reflexivity].
  - cbn in K1, K2. rewrite K1, K2. auto.
Qed.

(** *** Where a call runs its callable *)
Definition homed (st : state) (t : nat) (c : call) : bool :=
  match c with KExecute p => on_own st t p | KWait p | KWaitPost p _ => same_id st t p | _ => false end.
Definition queued (k : pc) : bool := match k with PAdd | PAsync | PPush _ => true | _ => false end.

Lemma act_homed st t a n k r t0 c : stk st t = FCall n k :: r -> nth_error (calls st) n = Some (t0, c) -> fit c k = true ->
  (forall k', stk (act st t a) t = FCall n k' :: r -> queued k' = true -> queued k = true \/ homed st t c = false) /\
  (forall b, stk (act st t a) t = b :: FCall n PInline :: r -> homed st t c = true).
Proof.
  intros S C FT.
  assert (NO1 : forall f, r <> f :: r) by (intros f H; apply (f_equal (@length _)) in H; cbn in H; lia).
  assert (NO2 : forall f g, r <> f :: g :: r) by (intros f g H; apply (f_equal (@length _)) in H; cbn in H; lia).
  assert (SAME : forall k1, (queued k1 = true -> queued k = true \/ homed st t c = false) -> forall s', s' = FCall n k1 :: r ->
    (forall k', s' = FCall n k' :: r -> queued k' = true -> queued k = true \/ homed st t c = false) /\ (forall b, s' = b :: FCall n PInline :: r -> homed st t c = true)).
  { intros k1 H s' ->. split; [intros k' E; injection E as <-; exact H|]. intros b E. exfalso. injection E as _ E. eapply NO1; exact E. }
  assert (STAY : forall s', s' = stk st t -> (forall k', s' = FCall n k' :: r -> queued k' = true -> queued k = true \/ homed st t c = false) /\ (forall b, s' = b :: FCall n PInline :: r -> homed st t c = true)).
  { intros s' ->. rewrite S. apply (SAME k); auto. }
  assert (RET : forall s', s' = r -> (forall k', s' = FCall n k' :: r -> queued k' = true -> queued k = true \/ homed st t c = false) /\ (forall b, s' = b :: FCall n PInline :: r -> homed st t c = true)).
  { intros s' ->. split; [intros k' E; exfalso; eapply NO1; exact E|intros b E; exfalso; eapply NO2; exact E]. }
  assert (INL : homed st t c = true -> forall s' b, s' = b :: FCall n PInline :: r -> (forall k', s' = FCall n k' :: r -> queued k' = true -> queued k = true \/ homed st t c = false) /\ (forall b, s' = b :: FCall n PInline :: r -> homed st t c = true)).
  { intros H s' b ->. split; [|auto]. intros k' E. exfalso. injection E as _ E. symmetry in E. eapply NO1; exact E. }
  unfold act. rewrite S. destruct a as [id|c'|ch| | |]; cbn [user]; try (apply STAY; reflexivity); try (apply STAY; symmetry; exact S).
  - rewrite C. unfold go_call, goto, ret, start_inline. cbv zeta. destruct k.
    + destruct c; cbn [target]; repeat match goal with |- context [if ?b then _ else _] => destruct b eqn:? end;
        first [apply RET; cbn; rewrite upd_same; reflexivity|apply STAY; reflexivity
          |eapply INL; [cbn; assumption|cbn; rewrite upd_same; reflexivity]
          |eapply SAME; [|cbn; rewrite upd_same; reflexivity]; cbn; intros; right; first [assumption|reflexivity]
          |eapply SAME; [|cbn; rewrite upd_same; reflexivity]; cbn; discriminate].
    + repeat match goal with |- context [if ?b then _ else _] => destruct b eqn:? end; first [apply RET; cbn; rewrite upd_same; reflexivity|eapply SAME; [left; reflexivity|cbn; rewrite upd_same; reflexivity]].
    + destruct (q_result _ _); first [apply RET; cbn; rewrite upd_same; reflexivity|eapply SAME; [left; reflexivity|cbn; rewrite upd_same; reflexivity]].
    + destruct (q_result _ _); first [apply RET; cbn; rewrite upd_same; reflexivity|apply STAY; reflexivity].
    + destruct (lock_free st (target c)); [|apply STAY; reflexivity]. destruct c; try (apply STAY; reflexivity); try destruct (get _ _);
        first [apply RET; cbn; rewrite upd_same; reflexivity|eapply SAME; [|cbn; rewrite upd_same; reflexivity]; cbn; discriminate].
    + destruct (s_free (sig_at st g) t); [|apply STAY; reflexivity]. destruct (s_any (sig_at st g)); [|apply RET; cbn; rewrite upd_same; reflexivity].
      destruct c; try discriminate; [eapply SAME; [|cbn; rewrite upd_same; reflexivity]; right; reflexivity|].
      cbn [target]. destruct (same_id st t p) eqn:SI; [eapply INL; [cbn; assumption|cbn; rewrite upd_same; reflexivity]|eapply SAME; [|cbn; rewrite upd_same; reflexivity]; cbn; intros; right; assumption].
    + destruct (s_free (sig_at st g) t); [apply RET; cbn; rewrite upd_same; reflexivity|apply STAY; reflexivity].
    + destruct l as [|m l']; [apply RET; cbn; rewrite upd_same; reflexivity|]. destruct (get m _) as [g|]; [|eapply SAME; [|cbn; rewrite upd_same; reflexivity]; cbn; discriminate].
      destruct (s_free (sig_at st g) t); [|apply STAY; reflexivity]. destruct (s_any _); (eapply SAME; [|cbn; rewrite upd_same; reflexivity]; cbn; discriminate).
    + destruct (q_result _ _); [eapply SAME; [|cbn; rewrite upd_same; reflexivity]; cbn; discriminate|apply STAY; reflexivity].
    + destruct (q_result _ _); first [apply RET; cbn; rewrite upd_same; reflexivity|apply STAY; reflexivity].
    + destruct (q_result _ _) as [[]|]; first [apply RET; cbn; rewrite upd_same; reflexivity|apply STAY; reflexivity].
    + apply STAY. reflexivity.
Qed.
