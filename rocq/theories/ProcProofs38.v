(** Run loops: the invariant. *)
From Verif Require Import ListUtil Amap ProcModel ProcSpec ProcSpec2 ProcProofs ProcProofs2 ProcProofs3 ProcProofs4 ProcProofs5 ProcProofs6 ProcProofs7 ProcProofs9 ProcProofs10 ProcProofs11 ProcProofs14 ProcProofs16 ProcProofs17 ProcProofs18 ProcProofs19 ProcProofs24 ProcProofs26 ProcProofs28 ProcProofs37.
From Verif Require QueueModel QueueSpec QueueProofs2 QueueProofs4 SigModel.

Lemma body_not_loop c p e n p' j k ph : body c p e <> FLoop n p' j k ph.
Proof. destruct c; discriminate. Qed.
Lemma body_some c p e : body_of (body c p e) = Some (p, e).
Proof. destruct c; reflexivity. Qed.

Lemma inside_final h : inside h.
Proof.
  induction h as [|lb h IH] using rev_ind; [intros t n p j k ph s1 r S; destruct s1; discriminate|].
  intros t n p j k ph s1 r S. pose proof (good_final h) as G. pose proof (good_final (h ++ [lb])) as G'. pose proof (core_evt _ _ _ G (qinv_final h) (final_step h lb)) as V.
  destruct (Nat.eq_dec t (fst lb)) as [->|NT].
  2:{ destruct (evt_add _ _ _ V) as (add & TT & Z). rewrite (qv_stk _ _ _ (core_qview _ _ _ G (qinv_final h) (final_step h lb))) in S by exact NT. destruct (IH _ _ _ _ _ _ _ _ S) as (a & b & E & SH).
      exists a, (b ++ add). split; [unfold trace in *; rewrite TT, E, <- app_assoc; reflexivity|]. apply shape_quiet; [exact SH|apply Z; exact NT]. }
  assert (OLD : forall s0 add, tr (final (h ++ [lb])) = tr (final h) ++ add -> stk (final h) (fst lb) = s0 ++ FLoop n p j k ph :: r ->
    (forall b, shape (fst lb) p k ph s0 b -> shape (fst lb) p k ph s1 (b ++ add)) -> exists a b, trace (h ++ [lb]) = a ++ ECall (fst lb) n (KRun p k) :: b /\ shape (fst lb) p k ph s1 b).
  { intros s0 add TT S0 K. destruct (IH _ _ _ _ _ _ _ _ S0) as (a & b & E & SH). exists a, (b ++ add). split; [unfold trace in *; rewrite TT, E, <- app_assoc; reflexivity|auto]. }
  (* the frames below a popped or replaced one *)
  assert (POP' : forall f new s2 add, tr (final (h ++ [lb])) = tr (final h) ++ add -> stk (final h) (fst lb) = f :: s2 ++ FLoop n p j k ph :: r -> body_of f = None -> s1 = new ++ s2 ->
    exists a b, trace (h ++ [lb]) = a ++ ECall (fst lb) n (KRun p k) :: b /\ shape (fst lb) p k ph s1 b).
  { intros f new s2 add TT S0 B ->. apply (OLD (f :: s2) add TT S0). intros b SH. assert (NE : s2 <> []).
    { intros ->. destruct SH as (c & l & _ & _ & X). destruct ph; [destruct X; discriminate|destruct X; discriminate|]. destruct X as (s3 & f0 & e & mid & X & B' & _). destruct s3; [injection X as <-; congruence|destruct s3; discriminate]. }
    eapply shape_more; [exact SH|]. destruct (last_cons f s2 NE) as (s & g & -> & Y). exists (new ++ s), g. split; [rewrite app_assoc; reflexivity|]. intros s0 g0 X. rewrite (Y _ _ X). reflexivity. }
  assert (POP2 : forall bd f new s2 add, tr (final (h ++ [lb])) = tr (final h) ++ add -> stk (final h) (fst lb) = bd :: f :: s2 ++ FLoop n p j k ph :: r -> body_of f = None -> s1 = new ++ s2 ->
    exists a b, trace (h ++ [lb]) = a ++ ECall (fst lb) n (KRun p k) :: b /\ shape (fst lb) p k ph s1 b).
  { intros bd f new s2 add TT S0 B ->. apply (OLD (bd :: f :: s2) add TT S0). intros b SH. assert (NE : s2 <> []).
    { intros ->. destruct SH as (c & l & _ & _ & X). destruct ph; [destruct X; discriminate|destruct X; discriminate|]. destruct X as (s3 & f0 & e & mid & X & B' & _). destruct s3 as [|? s3]; [discriminate|]. destruct s3 as [|? s3]; [injection X as <- <-; congruence|destruct s3; discriminate]. }
    eapply shape_more; [exact SH|]. destruct (last_cons f s2 NE) as (s & g & -> & Y). exists (new ++ s), g. split; [rewrite app_assoc; reflexivity|]. intros s0 g0 X. change (bd :: f :: s ++ [g]) with ((bd :: f :: s) ++ [g]) in X. apply app_inj_tail in X as [_ ->]. reflexivity. }
  destruct V as [q Q E|f f' r0 q S0 SI Q E|f c0 U ID W0 E|f n0 r0 ds res S0 ID W0 DS E _|n0 i c0 p0 r0 S0 C0 SB P E|n0 p0 j0 k0 i e0 r0 S0 E|n0 p0 j0 k0 e0 t1 c0 r0 S0 C0 E|n0 k0 c0 r0 S0 C0 F SB E|bd p0 e0 n0 j0 k0 i r0 q S0 B Q E|bd p0 e0 n0 j0 r0 q S0 B Q E|bd p0 n0 r0 q c0 S0 B Q C0 E];
    destruct E as (S' & TT & CC); rewrite S' in S; rewrite upd_same in S.
  - apply (OLD s1 q TT S). intros b SH. apply shape_quiet; [exact SH|apply of_quiet; exact Q].
  - destruct s1 as [|x s1]; cbn in S; injection S as -> ->.
    + assert (f = FLoop n p j k ph) as -> by (destruct SI as [->|[(? & ? & ? & _ & X & _)|(? & ? & ? & ? & ? & _ & X)]]; [reflexivity|discriminate|discriminate]).
      apply (OLD [] q TT S0). intros b SH. apply shape_quiet; [exact SH|apply of_quiet; exact Q].
    + apply (OLD (f :: s1) q TT S0). intros b SH. destruct ph as [i|e|]; try (destruct SH as (? & ? & _ & _ & X & _); discriminate).
      eapply shape_more; [exact SH|]. destruct s1 as [|y s1] using rev_ind.
      * exists [], x. split; [reflexivity|]. intros s0 g0 X. destruct s0 as [|? [|]]; try discriminate. injection X as <-. destruct (similar_body _ _ SI) as [->|[X|(? & ? & ? & ? & ? & -> & ->)]]; try reflexivity.
        destruct SI as [->|[(? & ? & ? & -> & _)|(? & ? & ? & ? & ? & -> & ->)]]; [reflexivity|rewrite X; reflexivity|reflexivity].
      * exists (x :: s1), y. split; [reflexivity|]. intros s0 g0 X. change (f :: s1 ++ [y]) with ((f :: s1) ++ [y]) in X. apply app_inj_tail in X as [_ ->]. reflexivity.
  - destruct s1 as [|x s1]; cbn in S.
    + injection S as -> <-. cbn in ID. injection ID as ->. exists (tr (final h)), []. assert (c0 = KRun p k) as ->.
      { pose proof (g_loop _ _ _ (G' (fst lb)) (length (calls (final h))) p j k ph) as X. rewrite S', upd_same, CC in X. specialize (X (or_introl eq_refl)). rewrite nth_error_app2, Nat.sub_diag in X by auto. injection X as ->. reflexivity. }
      split; [exact TT|]. exists 0, []. split; [constructor|]. split; [auto|]. destruct ph; try contradiction. auto.
    + injection S as -> S. apply (OLD s1 _ TT S). intros b SH. destruct s1 as [|y s1].
      { exfalso. rewrite S in U. discriminate U. }
      eapply shape_more; [exact SH|]. assert (NE : y :: s1 <> []) by discriminate. destruct (last_cons x (y :: s1) NE) as (s & g & E & Y). exists (x :: s), g. rewrite E. split; [reflexivity|]. intros s0 g0 X. apply (app_inj_tail s s0) in X as [_ ->]. reflexivity.
  - subst r0. apply (POP' f [] s1 _ TT S0); [|reflexivity]. destruct f; try contradiction; reflexivity.
  - subst r0. apply (POP' (FCall n0 (PPush i)) [] s1 _ TT S0 eq_refl eq_refl).
  - destruct s1 as [|x s1]; cbn in S.
    + inversion S; subst. destruct (IH (fst lb) n p j k (LWait i) [] r S0) as (a & b & E & c & l & R & O & _ & T). exists a, (b ++ [ETake (fst lb) p e0]). split; [unfold trace in *; rewrite TT, E, <- app_assoc; reflexivity|].
      exists c, l. split; [exact R|]. split; [exact O|]. split; [reflexivity|]. rewrite of_app, T. cbn. rewrite Nat.eqb_refl. reflexivity.
    + inversion S; subst. apply (POP' (FLoop n0 p0 j0 k0 (LWait i)) [FLoop n0 p0 j0 k0 (LGot e0)] s1 _ TT S0 eq_refl eq_refl).
  - destruct s1 as [|x s1]; cbn in S; [inversion S as [[X Y]]; exfalso; exact (body_not_loop _ _ _ _ _ _ _ _ X)|]. injection S as <- S. destruct s1 as [|y s1]; cbn in S.
    + inversion S; subst. destruct (IH (fst lb) n p j k (LGot e0) [] r S0) as (a & b & E & c & l & R & O & _ & T). exists a, (b ++ [EStart (fst lb) p e0 false]). split; [unfold trace in *; rewrite TT, E, <- app_assoc; reflexivity|].
      exists c, l. split; [exact R|]. split; [exact O|]. exists [], (body c0 p e0), e0, []. split; [reflexivity|]. split; [apply body_some|]. rewrite of_app, T, <- app_assoc. cbn. rewrite Nat.eqb_refl. reflexivity.
    + inversion S; subst. apply (POP' (FLoop n0 p0 j0 k0 (LGot e0)) [body c0 p0 e0; FLoop n0 p0 j0 k0 LBusy] s1 _ TT S0 eq_refl eq_refl).
  - destruct s1 as [|x s1]; cbn in S; [inversion S as [[X Y]]; exfalso; exact (body_not_loop _ _ _ _ _ _ _ _ X)|]. injection S as <- S. destruct s1 as [|y s1]; cbn in S; [discriminate S|].
    inversion S; subst. apply (POP' (FCall n0 k0) [body c0 (target c0) n0; FCall n0 PInline] s1 _ TT S0 eq_refl eq_refl).
  - destruct s1 as [|x s1]; cbn in S.
    + inversion S; subst. destruct (IH (fst lb) n p j k LBusy [bd] r S0) as (a & b & E & c & l & R & O & s2 & f & e & mid & X & B' & T). exists a, (b ++ q ++ [EEnd (fst lb) p e0]). split; [unfold trace in *; rewrite TT, E, <- app_assoc; reflexivity|].
      destruct s2 as [|? [|]]; try discriminate X. injection X as <-. rewrite B in B'. injection B' as <-. exists (Datatypes.S c), (l ++ ETake (fst lb) p e0 :: EStart (fst lb) p e0 false :: mid ++ [EEnd (fst lb) p e0]). split; [constructor; exact R|]. split.
      { intros ->. exfalso. destruct (final_act h lb) as [X|X]; [specialize (S' (fst lb)); rewrite X, upd_same, S0 in S'; injection S' as Y _; rewrite Y in B; discriminate B|]. eapply (once_leaves (final h) (fst lb) (snd lb)); [exact S0|rewrite <- X, S', upd_same; reflexivity|rewrite B; discriminate]. }
      split; [reflexivity|]. rewrite !of_app, (of_quiet _ _ Q), T. cbn. rewrite Nat.eqb_refl, <- app_assoc. reflexivity.
    + inversion S; subst. apply (POP2 bd (FLoop n0 p0 j0 k0 LBusy) [FLoop n0 p0 j0 k0 (LWait i)] s1 _ TT S0 eq_refl eq_refl).
  - subst r0. apply (POP2 bd (FLoop n0 p0 j0 Once LBusy) [] s1 _ TT S0 eq_refl eq_refl).
  - subst r0. apply (POP2 bd (FCall n0 PInline) [] s1 _ TT S0 eq_refl eq_refl).
Qed.
