(** What a posted message met; why a submission was refused. *)
From Verif Require Import ListUtil Amap ProcModel ProcSpec ProcProofs ProcProofs2 ProcProofs3 ProcProofs4 ProcProofs5 ProcProofs6 ProcProofs7 ProcProofs8 ProcProofs9 ProcProofs10 ProcProofs11 ProcProofs12 ProcProofs13 ProcProofs14 ProcProofs15 ProcProofs16 ProcProofs17 ProcProofs18.
From Verif Require QueueModel QueueSpec QueueProofs QueueProofs2 QueueProofs3 SigModel SigSpec.

Definition past (k : pc) : bool := match k with PAsync | PAdd | PPush _ | PInline => true | _ => false end.
Definition sees (st : state) (k : pc) : Prop := exists g, k = PSig g /\ s_any (sig_at st g) = true.

Lemma act_post st t a n k r c m : stk st t = FCall n k :: r -> nth_error (calls st) n = Some (t, c) -> fit c k = true -> msg_of c = Some m ->
  (forall k', stk (act st t a) t = FCall n k' :: r -> past k' = true -> past k = true \/ sees st k) /\
  (forall b, stk (act st t a) t = b :: FCall n PInline :: r -> sees st k).
Proof.
  intros S C FT MS.
  assert (NO1 : forall f, r <> f :: r) by (intros f H; apply (f_equal (@length _)) in H; cbn in H; lia).
  assert (NO2 : forall f g, r <> f :: g :: r) by (intros f g H; apply (f_equal (@length _)) in H; cbn in H; lia).
  set (Q := past k = true \/ sees st k).
  assert (SAME : forall k1, (past k1 = true -> Q) -> forall s', s' = FCall n k1 :: r ->
    (forall k', s' = FCall n k' :: r -> past k' = true -> Q) /\ (forall b, s' = b :: FCall n PInline :: r -> sees st k)).
  { intros k1 H s' ->. split; [intros k' E; injection E as <-; exact H|]. intros b E. exfalso. injection E as _ E. eapply NO1; exact E. }
  assert (STAY : forall s', s' = stk st t -> (forall k', s' = FCall n k' :: r -> past k' = true -> Q) /\ (forall b, s' = b :: FCall n PInline :: r -> sees st k)).
  { intros s' ->. rewrite S. apply (SAME k); auto. left. assumption. }
  assert (RET : forall s', s' = r -> (forall k', s' = FCall n k' :: r -> past k' = true -> Q) /\ (forall b, s' = b :: FCall n PInline :: r -> sees st k)).
  { intros s' ->. split; [intros k' E; exfalso; eapply NO1; exact E|intros b E; exfalso; eapply NO2; exact E]. }
  assert (INL : sees st k -> forall s' b, s' = b :: FCall n PInline :: r -> (forall k', s' = FCall n k' :: r -> past k' = true -> Q) /\ (forall b, s' = b :: FCall n PInline :: r -> sees st k)).
  { intros H s' b ->. split; [|auto]. intros k' E. exfalso. injection E as _ E. symmetry in E. eapply NO1; exact E. }
  unfold act. rewrite S. destruct a as [id|c'|ch| | |]; cbn [user]; try (apply STAY; reflexivity); try (apply STAY; symmetry; exact S).
  rewrite C. unfold go_call, goto, ret, start_inline. cbv zeta.
  assert (NX : forall k1, past k1 = false -> past k1 = true -> Q) by (intros k1 E1 E2; congruence).
  destruct k.
  - destruct c; try discriminate MS; cbn [target]; repeat match goal with |- context [if ?b then _ else _] => destruct b eqn:? end;
      first [apply RET; cbn; rewrite upd_same; reflexivity|eapply SAME; [|cbn; rewrite upd_same; reflexivity]; apply NX; reflexivity].
  - destruct (is_stopped _ _); first [apply RET; cbn; rewrite upd_same; reflexivity|eapply SAME; [left; reflexivity|cbn; rewrite upd_same; reflexivity]].
  - destruct (q_result _ _); first [apply RET; cbn; rewrite upd_same; reflexivity|eapply SAME; [left; reflexivity|cbn; rewrite upd_same; reflexivity]].
  - destruct (q_result _ _); first [apply RET; cbn; rewrite upd_same; reflexivity|apply STAY; reflexivity].
  - destruct (lock_free st (target c)); [|apply STAY; reflexivity]. destruct c; try discriminate MS; destruct (get _ _);
      first [apply RET; cbn; rewrite upd_same; reflexivity|eapply SAME; [|cbn; rewrite upd_same; reflexivity]; apply NX; reflexivity].
  - destruct (s_free (sig_at st g) t); [|apply STAY; reflexivity]. destruct (s_any (sig_at st g)) eqn:SA; [|apply RET; cbn; rewrite upd_same; reflexivity].
    assert (OK : sees st (PSig g)) by (exists g; auto).
    destruct c; try discriminate MS; [eapply SAME; [right; exact OK|cbn; rewrite upd_same; reflexivity]|].
    cbn [target]. destruct (same_id st t p) eqn:SI; [eapply INL; [exact OK|cbn; rewrite upd_same; reflexivity]|eapply SAME; [right; exact OK|cbn; rewrite upd_same; reflexivity]].
  - destruct c; discriminate.
  - destruct c; discriminate.
  - destruct c; discriminate.
  - destruct c; discriminate.
  - destruct c; discriminate.
  - apply STAY. reflexivity.
Qed.

Definition lacks (st : state) (c : call) (k : pc) : Prop :=
  is_stopped st (target c) = true \/ exists m, msg_of c = Some m /\ ((k = PMap /\ get m (mapat st (target c)) = None) \/ exists g, k = PSig g /\ s_any (sig_at st g) = false).
Lemma fin_no c : submits c = true -> fin c true <> no c.
Proof. destruct c; discriminate. Qed.
Lemma act_refuse st t a n k r c add : stk st t = FCall n k :: r -> nth_error (calls st) n = Some (t, c) -> fit c k = true -> submits c = true ->
  tr (act st t a) = tr st ++ add -> In (ERet t n (no c)) add -> lacks st c k.
Proof.
  intros S C FT SB.
  assert (NONE : forall st1, tr st1 = tr st -> tr st1 = tr st ++ add -> In (ERet t n (no c)) add -> lacks st c k).
  { intros st1 E T I. rewrite E in T. rewrite <- (app_nil_r (tr st)) in T at 1. apply app_inv_head in T. subst add. destruct I. }
  assert (ONE : forall st1 l, tr st1 = tr st ++ l -> ~ In (ERet t n (no c)) l -> tr st1 = tr st ++ add -> In (ERet t n (no c)) add -> lacks st c k).
  { intros st1 l E NI T I. rewrite E in T. apply app_inv_head in T. subst add. contradiction. }
  unfold act. rewrite S. destruct a as [id|c'|ch| | |]; cbn [user]; try (apply NONE; reflexivity).
  rewrite C. unfold go_call, goto, ret, start_inline. cbv zeta.
  assert (NR : ~ In (ERet t n (no c)) [ERet t n (fin c true)]) by (intros [E|[]]; injection E as E; exact (fin_no c SB E)).
  destruct k; try (destruct c; discriminate).
  - destruct c; try discriminate SB; cbn [target]; repeat match goal with |- context [if ?b then _ else _] => destruct b eqn:? end;
      try (intros _ _; left; assumption); try (apply NONE; reflexivity); (eapply ONE; [reflexivity|]; intros [E|[]]; discriminate).
  - destruct (is_stopped _ _) eqn:E; [intros _ _; left; exact E|apply NONE; reflexivity].
  - destruct (q_result _ _); [eapply ONE; [reflexivity|exact NR]|apply NONE; reflexivity].
  - destruct (q_result _ _); [|apply NONE; reflexivity]. eapply (ONE _ [EAccept t (target c) n; ERet t n (fin c true)]); [cbn; rewrite <- app_assoc; reflexivity|]. intros [E|I]; [discriminate|exact (NR I)].
  - destruct (lock_free st (target c)); [|apply NONE; reflexivity]. destruct c; try discriminate; destruct (get _ _) eqn:GM; try (apply NONE; reflexivity); intros _ _; right; eexists; (split; [reflexivity|left; split; [reflexivity|exact GM]]).
  - destruct (s_free (sig_at st g) t); [|apply NONE; reflexivity]. destruct (s_any (sig_at st g)) eqn:SA.
    + destruct c; try discriminate; [apply NONE; reflexivity|]. cbn [target]. destruct (same_id st t p); [|apply NONE; reflexivity]. eapply ONE; [reflexivity|]. intros [E|[]]; discriminate.
    + intros _ _. right. destruct c; try discriminate; eexists; (split; [reflexivity|right; exists g; auto]).
  - apply NONE. reflexivity.
Qed.

(** *** Call frames of a step *)
Lemma core_frames t st st' a z : core t st st' -> In (FCall a z) (stk st' t) -> In (FCall a z) (stk st t) \/ z = PStart \/
  exists k0 r, stk st t = FCall a k0 :: r /\ (stk st' t = FCall a z :: r \/ (z = PInline /\ exists b, stk st' t = b :: FCall a PInline :: r)).
Proof.
  intros K I. revert K.
  assert (OLD : forall s', (forall t', stk st' t' = upd (stk st) t s' t') -> In (FCall a z) s') by (intros s' E; rewrite E, upd_same in I; exact I).
  assert (BODY : forall c p e r, In (FCall a z) (body c p e :: r) -> In (FCall a z) r) by (intros c p e r [H|H]; [destruct c; discriminate|exact H]).
  cores; destruct E as (S' & T & CC); specialize (OLD _ S').
  - left. exact OLD.
  - left. rewrite S. destruct OLD as [X|X]; [discriminate|right; exact X].
  - destruct OLD as [X|X]; [injection X as <- <-; right; left; reflexivity|left; exact X].
  - destruct OLD as [X|X]; [discriminate|left; exact X].
  - destruct OLD as [X|X]; [injection X as <- <-; right; right; exists k, r; rewrite S', upd_same; auto|left; rewrite S; right; exact X].
  - left. rewrite S. right. exact OLD.
  - left. rewrite S. right. exact OLD.
  - destruct OLD as [X|X]; [injection X as <- <-; right; right; eexists; eexists; rewrite S', upd_same; split; [exact S|left; reflexivity]|left; rewrite S; right; exact X].
  - destruct OLD as [X|X]; [injection X as <- <-; right; right; eexists; eexists; rewrite S', upd_same; split; [exact S|left; reflexivity]|left; rewrite S; right; exact X].
  - left. rewrite S. right. exact OLD.
  - destruct OLD as [X|X]; [injection X as <- <-; right; right; eexists; eexists; rewrite S', upd_same; split; [exact S|left; reflexivity]|left; rewrite S; right; exact X].
  - left. rewrite S. right. exact OLD.
  - left. rewrite S. exact OLD.
  - destruct OLD as [X|X]; [injection X as <- <-; right; right; eexists; eexists; rewrite S', upd_same; split; [exact S|left; reflexivity]|left; rewrite S; right; exact X].
  - left. rewrite S. right. exact OLD.
  - left. rewrite S. right. exact OLD.
  - left. rewrite S. destruct OLD as [X|X]; [discriminate|right; exact X].
  - left. rewrite S. right. exact OLD.
  - apply BODY in OLD. left. rewrite S. destruct OLD as [X|X]; [discriminate|right; exact X].
  - apply BODY in OLD. destruct OLD as [X|X]; [injection X as <- <-; right; right; exists k, r; rewrite S', upd_same; split; [exact S|right; eauto]|left; rewrite S; right; exact X].
  - left. rewrite S. right. destruct OLD as [X|X]; [discriminate|right; exact X].
  - left. rewrite S. right. right. exact OLD.
  - left. rewrite S. right. right. exact OLD.
  - left. rewrite S. right. exact OLD.
Qed.

Lemma during_app h h1 l t n c : during h h1 t n c -> during (h ++ l) h1 t n c.
Proof. intros ((h2 & ->) & X). split; [|exact X]. exists (h2 ++ l). rewrite app_assoc. reflexivity. Qed.
Lemma during_now h t n k c : In (FCall n k) (stk (final h) t) -> nth_error (calls (final h)) n = Some (t, c) -> during h h t n c.
Proof.
  intros I C. split; [exists []; rewrite app_nil_r; reflexivity|]. split; [apply (c_in _ (calls_final h)); exact C|].
  intros r (t' & R). assert (Z : cnt (returns n) (tr (final h)) = 0) by (eapply (c_open _ (calls_final h)); apply in_flat_map; eexists; split; [exact I|left; reflexivity]).
  pose proof (ret_cnt _ _ _ _ R) as Y. unfold trace in Y. rewrite Z in Y. inversion Y.
Qed.

Definition seen (h : history) (t n : nat) (c : call) (m : nat) : Prop := exists h1 g, during h h1 t n c /\ table h1 (target c) m = Some g /\ s_any (sig_at (final h1) g) = true.
Lemma seen_app h l t n c m : seen h t n c m -> seen (h ++ l) t n c m.
Proof. intros (h1 & g & D & X). exists h1, g. split; [apply during_app; exact D|exact X]. Qed.

Definition unwelcome (h1 : history) (c : call) : Prop :=
  is_stopped (final h1) (target c) = true \/ exists m, msg_of c = Some m /\ match table h1 (target c) m with Some g => s_any (sig_at (final h1) g) = false | None => True end.

Record post_inv (h : history) : Prop := {
  pi_call : forall t n k c m, In (FCall n k) (stk (final h) t) -> past k = true -> nth_error (calls (final h)) n = Some (t, c) -> msg_of c = Some m -> seen h t n c m;
  pi_acc : forall t p n c m, In (EAccept t p n) (trace h) -> nth_error (calls (final h)) n = Some (t, c) -> msg_of c = Some m -> seen h t n c m;
  pi_inl : forall t p n c m, In (EStart t p n true) (trace h) -> nth_error (calls (final h)) n = Some (t, c) -> msg_of c = Some m -> seen h t n c m;
  pi_no : forall t n c, In (ERet t n (no c)) (trace h) -> nth_error (calls (final h)) n = Some (t, c) -> submits c = true -> exists h1, during h h1 t n c /\ unwelcome h1 c }.

Lemma final_act h lb : (final (h ++ [lb]) = final h) \/ final (h ++ [lb]) = act (final h) (fst lb) (snd lb).
Proof. rewrite final_snoc. unfold next. destruct (dead (final h)); auto. Qed.

Lemma sees_seen h t n k c m r : stk (final h) t = FCall n k :: r -> nth_error (calls (final h)) n = Some (t, c) -> msg_of c = Some m -> sees (final h) k -> seen h t n c m.
Proof.
  intros S C M (g & -> & SA). exists h, g. split; [eapply during_now; [rewrite S; left; reflexivity|exact C]|]. split; [|exact SA].
  exact (li_sig _ (lockinv_final h) _ _ _ _ _ _ S C M).
Qed.

Lemma post_inv_final h : post_inv h.
Proof.
  induction h as [|lb h IH] using rev_ind; [split; cbn; intros; contradiction|].
  pose proof (final_step h lb) as K. pose proof (good_final h) as G. pose proof (good_final (h ++ [lb])) as G'.
  pose proof (core_evt _ _ _ G (qinv_final h) K) as V. pose proof (core_qview _ _ _ G (qinv_final h) K) as W.
  assert (OLDC : forall t n k, In (FCall n k) (stk (final h) t) -> forall c, nth_error (calls (final (h ++ [lb]))) n = Some (t, c) -> nth_error (calls (final h)) n = Some (t, c)).
  { intros t n k I c C. destruct (g_call _ _ _ (G t) n k I) as (c' & C' & _). pose proof (calls_mono h [lb] _ _ C'). congruence. }
  assert (FT : forall t n k r c, stk (final h) t = FCall n k :: r -> nth_error (calls (final h)) n = Some (t, c) -> fit c k = true).
  { intros t n k r c S C. destruct (g_call _ _ _ (G t) n k) as (c' & C' & F); [rewrite S; left; reflexivity|]. congruence. }
  assert (PO : forall n k r c m, stk (final h) (fst lb) = FCall n k :: r -> nth_error (calls (final h)) n = Some (fst lb, c) -> msg_of c = Some m ->
    (forall k', stk (final (h ++ [lb])) (fst lb) = FCall n k' :: r -> past k' = true -> past k = true \/ sees (final h) k) /\
    (forall b, stk (final (h ++ [lb])) (fst lb) = b :: FCall n PInline :: r -> past k = true \/ sees (final h) k)).
  { intros n k r c m S C M. destruct (final_act h lb) as [->|E].
    - rewrite S. split; [intros k' X; injection X as <-; auto|intros b X; exfalso; injection X as _ X; apply (f_equal (@length _)) in X; cbn in X; lia].
    - rewrite E. destruct (act_post _ _ (snd lb) _ _ _ _ _ S C (FT _ _ _ _ _ S C) M) as [A B]. split; [exact A|intros b X; right; eapply B; exact X]. }
  split.
  - intros t n k c m I P C M. destruct (Nat.eq_dec t (fst lb)) as [->|NT].
    + destruct (core_frames _ _ _ _ _ K I) as [I0|[->|(k0 & r & S0 & OR)]]; [|discriminate|].
      * apply seen_app. eapply (pi_call _ IH); eauto.
      * assert (I0 : In (FCall n k0) (stk (final h) (fst lb))) by (rewrite S0; left; reflexivity). specialize (OLDC _ _ _ I0 _ C). destruct (PO _ _ _ _ _ S0 OLDC M) as [A B].
        assert (past k0 = true \/ sees (final h) k0) as [X|X] by (destruct OR as [OR|(-> & b & OR)]; [eapply A; eauto|eapply B; eauto]).
        -- apply seen_app. eapply (pi_call _ IH); eauto.
        -- apply seen_app. eapply sees_seen; eauto.
    + apply seen_app. rewrite (qv_stk _ _ _ W) in I by exact NT. eapply (pi_call _ IH); eauto.
  - intros t p n c m I C M. destruct (evt_add _ _ _ V) as (add & TA & _ & _ & NA). unfold trace in I. rewrite TA in I. apply in_app_or in I as [I|I].
    + apply seen_app. eapply (pi_acc _ IH); [exact I| |exact M]. destruct (x_acc _ (exec_final h) _ _ _ I) as (c1 & C1 & _). pose proof (calls_mono h [lb] _ _ C1). congruence.
    + destruct (NA _ _ _ I) as (-> & i & c1 & r & S & C1 & _). apply seen_app. assert (I0 : In (FCall n (PPush i)) (stk (final h) (fst lb))) by (rewrite S; left; reflexivity). eapply (pi_call _ IH); [exact I0|reflexivity|eapply OLDC; eauto|exact M].
  - intros t p n c m I C M. destruct (evt_add _ _ _ V) as (add & TA & _ & NA & _). unfold trace in I. rewrite TA in I. apply in_app_or in I as [I|I].
    + apply seen_app. eapply (pi_inl _ IH); [exact I| |exact M]. destruct (x_inl _ (exec_final h) _ _ _ I) as (_ & c1 & C1 & _). pose proof (calls_mono h [lb] _ _ C1). congruence.
    + destruct (NA _ _ _ I) as (-> & k & c1 & r & S & FR & C1 & _ & S'). assert (c1 = c) by (pose proof (calls_mono h [lb] _ _ C1); congruence). subst c1. destruct (PO _ _ _ _ _ S C1 M) as [_ B]. destruct (B _ S') as [X|X].
      * apply seen_app. eapply (pi_call _ IH); [rewrite S; left; reflexivity|exact X|exact C1|exact M].
      * apply seen_app. eapply sees_seen; eauto.
  - intros t n c I C SB. assert (MONO : exists add, trace (h ++ [lb]) = trace h ++ add) by (unfold trace; destruct (evt_add _ _ _ V) as (add & T & _); eauto). destruct MONO as (add & TA). rewrite TA in I. apply in_app_or in I as [I|I].
    { destruct (c_ret _ (calls_final h) _ _ _ I) as (c1 & C1). assert (c1 = c) by (pose proof (calls_mono h [lb] _ _ C1); congruence). subst c1. destruct (pi_no _ IH _ _ _ I C1 SB) as (h1 & D & U). exists h1. split; [apply during_app; exact D|exact U]. }
    assert (TOP : t = fst lb /\ exists k r, stk (final h) t = FCall n k :: r).
    { unfold trace in TA. clear - I C SB V TA G. set (st := final h) in *. set (st' := final (h ++ [lb])) in *. set (z := fst lb) in *. clearbody st st' z.
      rename n into a, c into c1, C into C1, t into tt, SB into SBM.
      assert (QN : forall l, quiet l -> ~ In (ERet tt a (no c1)) l) by (intros l Q; apply quiet_not; [exact Q|reflexivity]).
      evts V; destruct E as (S' & T & CC); rewrite T in TA; apply app_inv_head in TA; subst add.
      - exfalso. eapply QN; eauto.
      - exfalso. eapply QN; eauto.
      - destruct I as [I|[]]; discriminate.
      - apply in_app_or in I as [I|[I|[]]]; [destruct DS as [->|(p & es & ->)]; [destruct I|destruct I as [I|[]]; discriminate]|]. injection I as -> -> ->. split; [reflexivity|].
        destruct f as [n0 k0|n0 p0 j0 k0 ph0| |]; cbn in ID; try discriminate; injection ID as ->; [eauto|]. exfalso. pose proof (G tt) as GT. rewrite S in GT. rewrite CC, (g_loop _ _ _ GT a p0 j0 k0 ph0) in C1 by (left; reflexivity). injection C1 as <-. discriminate.
      - destruct I as [I|[I|[]]]; [discriminate|]. injection I as -> -> E. rewrite CC in C1. assert (c = c1) by congruence. subst c. exfalso. exact (fin_no _ SBM E).
      - destruct I as [I|[]]; discriminate.
      - destruct I as [I|[]]; discriminate.
      - destruct I as [I|[]]; discriminate.
      - apply in_app_or in I as [I|[I|[]]]; [exfalso; eapply QN; eauto|discriminate].
      - apply in_app_or in I as [I|[I|[I|[]]]]; [exfalso; eapply QN; eauto|discriminate|]. injection I as -> -> E. exfalso. pose proof (G tt) as GT. rewrite S in GT. rewrite CC, (g_loop _ _ _ GT a p j Once LBusy) in C1 by (right; left; reflexivity). injection C1 as <-. discriminate.
      - apply in_app_or in I as [I|[I|[I|[]]]]; [exfalso; eapply QN; eauto|discriminate|]. injection I as -> -> E. rewrite CC in C1. assert (c = c1) by congruence. subst c. exfalso. exact (fin_no _ SBM E). }
    destruct TOP as (-> & k & r & S). assert (I0 : In (FCall n k) (stk (final h) (fst lb))) by (rewrite S; left; reflexivity). specialize (OLDC _ _ _ I0 _ C). exists h. split; [apply during_app; eapply during_now; [exact I0|exact OLDC]|].
    destruct (final_act h lb) as [E|E].
    { exfalso. unfold trace in TA. rewrite E in TA. rewrite <- (app_nil_r (tr (final h))) in TA at 1. apply app_inv_head in TA. subst add. destruct I. }
    unfold trace in TA. rewrite E in TA. destruct (act_refuse _ _ _ _ _ _ _ _ S OLDC (FT _ _ _ _ _ S OLDC) SB TA I) as [X|(m & M & [[-> X]|(g & -> & X)])]; [left; exact X|right; exists m; split; [exact M|]|right; exists m; split; [exact M|]]; unfold table.
    + change (get m (p_map (proc_at (final h) (target c)))) with (get m (mapat (final h) (target c))). rewrite X. exact Logic.I.
    + change (get m (p_map (proc_at (final h) (target c)))) with (get m (mapat (final h) (target c))). rewrite (li_sig _ (lockinv_final h) _ _ _ _ _ _ S OLDC M). exact X.
Qed.
