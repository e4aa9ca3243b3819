(** How the table of the handlers of a processor changes. *)
From Verif Require Import ListUtil Amap ProcModel ProcSpec ProcProofs ProcProofs2 ProcProofs3 ProcProofs4 ProcProofs5 ProcProofs6 ProcProofs7 ProcProofs9 ProcProofs11 ProcProofs14 ProcProofs16 ProcProofs17 ProcProofs18 ProcProofs19.
From Verif Require QueueModel QueueSpec SigModel SigSpec.

Inductive mp (t : nat) (st st' : state) : Prop :=
| M_keep : (forall p, mapat st' p = mapat st p) -> mp t st st'
| M_add n t0 p m r : stk st t = FCall n PMap :: r -> nth_error (calls st) n = Some (t0, KConnect p m) -> get m (mapat st p) = None ->
    (forall p', mapat st' p' = upd (mapat st) p (put m (ns st) (mapat st p)) p') -> stk st' t = FCall n (PConn (ns st)) :: r -> (forall g, sigs st' g = sigs st g) -> ns st' = S (ns st) -> mp t st st'
| M_del n t0 p m r : stk st t = FCall n PMap :: r -> nth_error (calls st) n = Some (t0, KForget p m) ->
    (forall p', mapat st' p' = upd (mapat st) p (del m (mapat st p)) p') -> stk st' t = FCall n (PClean (map fst (del m (mapat st p)))) :: r -> (forall g, sigs st' g = sigs st g) -> mp t st st'
| M_clean n t0 p m m' g l r : stk st t = FCall n (PClean (m' :: l)) :: r -> nth_error (calls st) n = Some (t0, KForget p m) -> get m' (mapat st p) = Some g -> s_any (sig_at st g) = false ->
    (forall p', mapat st' p' = upd (mapat st) p (del m' (mapat st p)) p') -> stk st' t = FCall n (PClean l) :: r -> (forall g, sigs st' g = sigs st g) -> mp t st st'.

Lemma act_mp st t a : all_good st -> mp t st (act st t a).
Proof.
  intros G. pose proof (act_lk st t a G) as K. destruct K as [M T|n0 t0 c0 k0 r0 S0 C0 LF LS MS S1 PS PC|n0 t0 c0 l l' r0 S0 C0 LS MS S1|n0 t0 c0 k0 r0 S0 C0 HK LS MS TP].
  - apply M_keep. intros p. apply M.
  - clear PS PC. unfold act in *. rewrite S0 in *. cbn [user andb] in *. destruct a as [id|c1|ch| | |]; try (apply M_keep; intros p; reflexivity).
    rewrite C0 in *. unfold go_call in *. destruct c0; try (destruct (lock_free st _); apply M_keep; reflexivity); cbn [target] in *; (destruct (lock_free st p); [|apply M_keep; reflexivity]).
    + destruct (get m _); apply M_keep; intros p0; [exact (map_lock st p (Some t) p0)|reflexivity].
    + destruct (get m _); apply M_keep; intros p0; [exact (map_lock st p (Some t) p0)|reflexivity].
    + destruct (get m _) as [g|] eqn:GM.
      * apply M_keep. intros p0. exact (map_lock st p (Some t) p0).
      * eapply (M_add _ _ _ n0 t0 p m r0); [exact S0|exact C0|exact GM| |cbn; rewrite upd_same; reflexivity|reflexivity|reflexivity].
        intros p'. change (mapat (set_lock (set_map (new_sig st) p (put m (ns st) (p_map (proc_at st p)))) p (Some t)) p' = upd (mapat st) p (put m (ns st) (mapat st p)) p'). rewrite map_lock, map_set. reflexivity.
    + eapply (M_del _ _ _ n0 t0 p m r0); [exact S0|exact C0| |cbn; rewrite upd_same; reflexivity|reflexivity].
      intros p'. change (mapat (set_lock (set_map st p (del m (p_map (proc_at st p)))) p (Some t)) p' = upd (mapat st) p (del m (mapat st p)) p'). rewrite map_lock, map_set. reflexivity.
  - assert (F : exists p m, c0 = KForget p m).
    { destruct (g_call _ _ _ (G t) n0 (PClean l)) as (c' & C' & F); [rewrite S0; left; reflexivity|]. rewrite C0 in C'. injection C' as _ <-. destruct c0; try discriminate F. eauto. }
    destruct F as (p & m & ->). cbn [target] in *. unfold act in *. rewrite S0 in *. cbn [user andb] in *. destruct a as [id|c1|ch| | |]; try (apply M_keep; intros p0; reflexivity).
    rewrite C0 in *. unfold go_call in *. cbn [target] in *. destruct l as [|m' l0]; [apply M_keep; intros p0; exact (map_lock st p None p0)|].
    destruct (get m' _) as [g|] eqn:GM; [|apply M_keep; reflexivity]. destruct (s_free (sig_at st g) t); [|apply M_keep; reflexivity]. destruct (s_any (sig_at st g)) eqn:SA; [apply M_keep; reflexivity|].
    eapply (M_clean _ _ _ n0 t0 p m m' g l0 r0); [exact S0|exact C0|exact GM|exact SA| |cbn; rewrite upd_same; reflexivity|reflexivity].
    intros p'. exact (map_set st p (del m' (p_map (proc_at st p))) p').
  - apply M_keep. exact MS.
Qed.
Lemma next_mp h l : mp (fst l) (final h) (final (h ++ [l])).
Proof. destruct (final_act h l) as [->| ->]; [apply M_keep; reflexivity|apply act_mp, good_final]. Qed.

(** While disconnect(msgid) cleans up, its own entry is gone. *)
Lemma forgot_final h : forall t n l r p m, stk (final h) t = FCall n (PClean l) :: r -> nth_error (calls (final h)) n = Some (t, KForget p m) -> get m (mapat (final h) p) = None.
Proof.
  induction h as [|lb h IH] using rev_ind; [intros; discriminate|]. intros t n l r p m S C.
  pose proof (final_step h lb) as K. pose proof (core_qview _ _ _ (good_final h) (qinv_final h) K) as V. pose proof (good_final h) as G.
  assert (CB : forall k0 r0, stk (final h) t = FCall n k0 :: r0 -> nth_error (calls (final h)) n = Some (t, KForget p m)).
  { intros k0 r0 S0. destruct (g_call _ _ _ (G t) n k0) as (c' & C' & _); [rewrite S0; left; reflexivity|]. pose proof (calls_mono h [lb] _ _ C'). congruence. }
  destruct (Nat.eq_dec t (fst lb)) as [->|NT].
  - destruct (next_mp h lb) as [MK|n0 t0 p0 m0 r0 S0 C0 GN MK S1 _ _|n0 t0 p0 m0 r0 S0 C0 MK S1 _|n0 t0 p0 m0 m' g l0 r0 S0 C0 GM SA MK S1 _].
    + rewrite MK. destruct (core_frames _ _ _ n (PClean l) K) as [OLD|[X|(k0 & r0 & S0 & OR)]]; [rewrite S; left; reflexivity| |discriminate|].
      * apply (call_top _ _ _ _ _ (G (fst lb))) in OLD as (r1 & S0); [|discriminate]. eapply IH; [exact S0|eapply CB; exact S0].
      * specialize (CB _ _ S0). destruct (next_lk _ lb G) as [_ T|n1 t1 c1 k1 r1 S1 C1 LF LS MS S2 PS PC|n1 t1 c1 l1 l1' r1 S1 C1 LS MS S2|n1 t1 c1 k1 r1 S1 C1 HK LS MS TP]; rewrite <- final_snoc in *.
        -- specialize (T _ _ _ S eq_refl). eapply IH; eauto.
        -- destruct (final_act h lb) as [E|E]; [rewrite E in S2; rewrite S1 in S2; injection S2 as <-; rewrite E in S; rewrite S1 in S; discriminate|].
           assert (n1 = n) by congruence. subst n1. assert (c1 = KForget p m) by congruence. subst c1. rewrite E in MK, S. unfold act in MK, S. rewrite S1 in MK, S. cbn [user andb] in MK, S. destruct (snd lb); try (cbn in S; rewrite ?S1 in S; discriminate S).
           rewrite CB in MK, S. cbn in MK, S. destruct (lock_free (final h) p); [|rewrite S1 in S; discriminate S]. specialize (MK p).
           change (mapat (set_lock (set_map (final h) p (del m (p_map (proc_at (final h) p)))) p (Some (fst lb))) p = mapat (final h) p) in MK. rewrite map_lock, map_set, upd_same in MK.
           rewrite <- MK. change (get m (del m (mapat (final h) p)) = None). rewrite get_del, Nat.eqb_refl. reflexivity.
        -- assert (n1 = n) by congruence. subst n1. eapply IH; [exact S1|]. exact CB.
        -- exfalso. specialize (TP _ _ _ S eq_refl). rewrite TP in S. rewrite S1 in S0. injection S0 as <- <- <-. pose proof (g_chain _ _ _ (G (fst lb))) as CH. rewrite S1, S in CH. destruct CH as [L _]. exact L.
    + exfalso. rewrite S1 in S. discriminate.
    + rewrite S1 in S. injection S as <- _ _. assert (X := CB _ _ S0). assert (p0 = p /\ m0 = m) as [-> ->] by (split; congruence). rewrite MK, upd_same, get_del, Nat.eqb_refl. reflexivity.
    + rewrite S1 in S. injection S as <- _ _. assert (X := CB _ _ S0). assert (p0 = p /\ m0 = m) as [-> ->] by (split; congruence). rewrite MK, upd_same.
      destruct (Nat.eq_dec m' m) as [->|NM]; [rewrite get_del, Nat.eqb_refl; reflexivity|]. rewrite get_del; destruct (Nat.eqb_spec m m') as [X1|_]; [congruence|]. eapply IH; eauto.
  - rewrite (qv_stk _ _ _ V) in S by exact NT. specialize (CB _ _ S). pose proof (li_held _ (lockinv_final h) _ _ _ _ _ S eq_refl CB) as LK. cbn [target] in LK.
    pose proof (IH _ _ _ _ _ _ S CB) as OLD.
    destruct (next_mp h lb) as [MK|n0 t0 p0 m0 r0 S0 C0 GN MK S1 _ _|n0 t0 p0 m0 r0 S0 C0 MK S1 _|n0 t0 p0 m0 m' g l0 r0 S0 C0 GM SA MK S1 _]; rewrite MK; [exact OLD|..].
    all: unfold upd; match goal with |- context [Nat.eqb ?a ?b] => destruct (Nat.eqb_spec a b) as [->|NP]; [|exact OLD] end.
    + destruct (next_lk _ lb G) as [T1 T|n1 t1 c1 k1 r1 S2 C1 LF LS MS S3 PS PC|n1 t1 c1 l1 l1' r1 S2 C1 LS MS S3|n1 t1 c1 k1 r1 S2 C1 HK LS MS TP]; rewrite <- final_snoc in *.
      * exfalso. specialize (T _ _ _ S1 eq_refl). congruence.
      * exfalso. assert (n1 = n0) by congruence. subst. assert (c1 = KConnect p m0) by congruence. subst c1. cbn in LF. congruence.
      * congruence.
      * exfalso. rewrite S0 in S2. injection S2 as <- <- <-. discriminate.
    + rewrite get_del. destruct (Nat.eqb m m0); [reflexivity|exact OLD].
    + rewrite get_del. destruct (Nat.eqb m m'); [reflexivity|exact OLD].
Qed.
