(** The mutexes of the handlers maps; what a posted message met. *)
From Verif Require Import ListUtil Amap ProcModel ProcSpec ProcProofs ProcProofs2 ProcProofs3 ProcProofs4 ProcProofs5 ProcProofs6 ProcProofs7 ProcProofs8 ProcProofs9 ProcProofs10 ProcProofs11 ProcProofs12 ProcProofs13 ProcProofs14 ProcProofs15 ProcProofs16 ProcProofs17.
From Verif Require QueueModel QueueSpec QueueProofs QueueProofs2 QueueProofs3 SigModel SigSpec.

Record lockinv (st : state) : Prop := {
  li_held : forall t n k r c, stk st t = FCall n k :: r -> holds k = true -> nth_error (calls st) n = Some (t, c) -> lockat st (target c) = Some t;
  li_sig : forall t n g r c m, stk st t = FCall n (PSig g) :: r -> nth_error (calls st) n = Some (t, c) -> msg_of c = Some m -> get m (mapat st (target c)) = Some g;
  li_conn : forall t n g r p m, stk st t = FCall n (PConn g) :: r -> nth_error (calls st) n = Some (t, KConnect p m) -> get m (mapat st p) = Some g }.

Lemma lockinv_step t st st' : all_good st -> lk t st st' -> (forall t', t' <> t -> stk st' t' = stk st t') -> (calls st' = calls st \/ exists x, calls st' = calls st ++ [x]) -> lockinv st -> lockinv st'.
Proof.
  intros G K OT CS [A B D].
  assert (CB : forall t' n k r c, stk st t' = FCall n k :: r -> nth_error (calls st') n = Some (t', c) -> nth_error (calls st) n = Some (t', c)).
  { intros t' n k r c S C. destruct (g_call _ _ _ (G t') n k) as (c' & C' & _); [rewrite S; left; reflexivity|]. pose proof (nth_mono _ _ _ _ CS C'). congruence. }
  assert (ONE : forall t1 t2 n1 n2 k1 k2 r1 r2 c1 c2, stk st t1 = FCall n1 k1 :: r1 -> stk st t2 = FCall n2 k2 :: r2 -> holds k1 = true -> holds k2 = true ->
    nth_error (calls st) n1 = Some (t1, c1) -> nth_error (calls st) n2 = Some (t2, c2) -> t1 <> t2 -> target c1 <> target c2).
  { intros t1 t2 n1 n2 k1 k2 r1 r2 c1 c2 S1 S2 H1 H2 C1 C2 NE E. pose proof (A _ _ _ _ _ S1 H1 C1). pose proof (A _ _ _ _ _ S2 H2 C2). congruence. }
  (* what holds for every thread whose top is as before, if its map and mutex are *)
  assert (KEEP : forall t', (forall n k r, stk st' t' = FCall n k :: r -> holds k = true -> stk st t' = FCall n k :: r /\ forall c, nth_error (calls st) n = Some (t', c) -> lockat st' (target c) = lockat st (target c) /\ mapat st' (target c) = mapat st (target c)) ->
    (forall n k r c, stk st' t' = FCall n k :: r -> holds k = true -> nth_error (calls st') n = Some (t', c) -> lockat st' (target c) = Some t') /\
    (forall n g r c m, stk st' t' = FCall n (PSig g) :: r -> nth_error (calls st') n = Some (t', c) -> msg_of c = Some m -> get m (mapat st' (target c)) = Some g) /\
    (forall n g r p m, stk st' t' = FCall n (PConn g) :: r -> nth_error (calls st') n = Some (t', KConnect p m) -> get m (mapat st' p) = Some g)).
  { intros t' H. split; [|split].
    - intros n k r c S HK C. destruct (H _ _ _ S HK) as [S0 X]. specialize (CB _ _ _ _ _ S0 C). destruct (X _ CB) as [-> _]. eapply A; eauto.
    - intros n g r c m S C M. destruct (H _ _ _ S eq_refl) as [S0 X]. specialize (CB _ _ _ _ _ S0 C). destruct (X _ CB) as [_ ->]. eapply B; eauto.
    - intros n g r p m S C. destruct (H _ _ _ S eq_refl) as [S0 X]. specialize (CB _ _ _ _ _ S0 C). destruct (X _ CB) as [_ Y]. cbn in Y. rewrite Y. eapply D; eauto. }
  assert (ALL : forall t', (forall n k r c, stk st' t' = FCall n k :: r -> holds k = true -> nth_error (calls st') n = Some (t', c) -> lockat st' (target c) = Some t') /\
    (forall n g r c m, stk st' t' = FCall n (PSig g) :: r -> nth_error (calls st') n = Some (t', c) -> msg_of c = Some m -> get m (mapat st' (target c)) = Some g) /\
    (forall n g r p m, stk st' t' = FCall n (PConn g) :: r -> nth_error (calls st') n = Some (t', KConnect p m) -> get m (mapat st' p) = Some g));
    [|split; [intros t'; destruct (ALL t') as (X & _); exact X|intros t'; destruct (ALL t') as (_ & X & _); exact X|intros t'; destruct (ALL t') as (_ & _ & X); exact X]].
  intros t'. destruct K as [M T|n0 t0 c0 k0 r0 S0 C0 LF LS MS S1 PS PC|n0 t0 c0 l l' r0 S0 C0 LS MS S1|n0 t0 c0 k0 r0 S0 C0 HK LS MS TP].
  - apply KEEP. intros n k r S HK. split; [|intros c _; split; apply M]. destruct (Nat.eq_dec t' t) as [->|NE]; [apply T; assumption|rewrite <- OT by exact NE; exact S].
  - assert (t0 = t) by (destruct (g_call _ _ _ (G t) n0 PMap) as (c' & C' & _); [rewrite S0; left; reflexivity|congruence]). subst t0.
    destruct (Nat.eq_dec t' t) as [->|NE].
    + split; [|split].
      * intros n k r c S HK C. rewrite S1 in S. injection S as <- <- <-. apply (CB _ _ _ _ _ S0) in C. assert (c0 = c) by congruence. subst c0. rewrite LS. apply upd_same.
      * intros n g r c m S C M. rewrite S1 in S. injection S as <- -> <-. apply (CB _ _ _ _ _ S0) in C. assert (c0 = c) by congruence. subst c0. eapply PS; eauto.
      * intros n g r p m S C. rewrite S1 in S. injection S as <- -> <-. apply (CB _ _ _ _ _ S0) in C. assert (c0 = KConnect p m) by congruence. subst c0. eapply PC; eauto.
    + apply KEEP. intros n k r S HK. rewrite OT in S by exact NE. split; [exact S|]. intros c C. assert (NT : target c <> target c0) by (intros E; pose proof (A _ _ _ _ _ S HK C) as X; rewrite E in X; congruence).
      rewrite LS, upd_other by auto. split; [reflexivity|apply MS; exact NT].
  - assert (t0 = t) by (destruct (g_call _ _ _ (G t) n0 (PClean l)) as (c' & C' & _); [rewrite S0; left; reflexivity|congruence]). subst t0.
    destruct (Nat.eq_dec t' t) as [->|NE].
    + split; [|split].
      * intros n k r c S HK C. rewrite S1 in S. injection S as <- <- <-. apply (CB _ _ _ _ _ S0) in C. rewrite LS. eapply A; eauto.
      * intros n g r c m S C M. rewrite S1 in S. discriminate.
      * intros n g r p m S C. rewrite S1 in S. discriminate.
    + apply KEEP. intros n k r S HK. rewrite OT in S by exact NE. split; [exact S|]. intros c C. split; [apply LS|]. apply MS. eapply (ONE t' t); eauto.
  - assert (t0 = t) by (destruct (g_call _ _ _ (G t) n0 k0) as (c' & C' & _); [rewrite S0; left; reflexivity|congruence]). subst t0.
    apply KEEP. intros n k r S HK'. destruct (Nat.eq_dec t' t) as [->|NE].
    + exfalso. pose proof (TP _ _ _ S HK') as E. rewrite S in E. pose proof (g_chain _ _ _ (G t)) as CH. rewrite S0, <- E in CH. cbn in CH. destruct CH as [L _]. destruct k; try discriminate; exact L.
    + rewrite OT in S by exact NE. split; [exact S|]. intros c C. rewrite LS, MS, upd_other by (eapply (ONE t t'); eauto). auto.
Qed.

Lemma next_lk st l : all_good st -> lk (fst l) st (next st l).
Proof. intros G. unfold next. destruct (dead st); [apply L_keep; [apply mk_refl|auto]|apply act_lk; exact G]. Qed.

Lemma lockinv_final h : lockinv (final h).
Proof.
  induction h as [|l h IH] using rev_ind; [split; intros; discriminate|]. pose proof (final_step h l) as K. pose proof (core_qview _ _ _ (good_final h) (qinv_final h) K) as V.
  rewrite final_snoc in *. eapply lockinv_step; [apply good_final|apply next_lk, good_final|apply (qv_stk _ _ _ V)|apply (qv_calls _ _ _ V)|exact IH].
Qed.
