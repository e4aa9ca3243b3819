(** Run loops: what they return. *)
From Verif Require Import ListUtil Amap ProcModel ProcSpec ProcSpec2 ProcProofs ProcProofs2 ProcProofs3 ProcProofs4 ProcProofs5 ProcProofs6 ProcProofs7 ProcProofs9 ProcProofs10 ProcProofs11 ProcProofs14 ProcProofs16 ProcProofs17 ProcProofs18 ProcProofs19 ProcProofs24 ProcProofs26 ProcProofs28 ProcProofs37 ProcProofs38 ProcProofs12.
From Verif Require QueueModel QueueSpec QueueProofs2 QueueProofs4 SigModel.

Lemma during_loop h t n p j k ph s1 r : stk (final h) t = s1 ++ FLoop n p j k ph :: r -> during h h t n (KRun p k).
Proof.
  intros S. assert (I : In (FLoop n p j k ph) (stk (final h) t)) by (rewrite S; apply in_or_app; right; left; reflexivity).
  split; [exists []; rewrite app_nil_r; reflexivity|]. split; [apply (c_in _ (calls_final h)); eapply (g_loop _ _ _ (good_final h t)); exact I|].
  intros x (t' & R). assert (Z : cnt (returns n) (tr (final h)) = 0) by (eapply (c_open _ (calls_final h)); apply in_flat_map; eexists; split; [exact I|left; reflexivity]).
  pose proof (ret_cnt _ _ _ _ R) as Y. unfold trace in Y. rewrite Z in Y. inversion Y.
Qed.

(** A step that leaves a sleeping or waiting run loop. *)
Lemma leave_step st t a n p j k i r res add : stk st t = FLoop n p j k (LWait i) :: r -> tr (act st t a) = tr st ++ add -> In (ERet t n res) add ->
  exists ch x, q_result (queue st p ++ [QueueModel.LRun i ch]) i = Some x /\ (forall e, x <> QueueModel.RTook e) /\ res = match k with Once => RBool false | _ => RUnit end.
Proof.
  intros S T I. assert (OLD : tr (act st t a) = tr st -> False) by (intros E; rewrite E in T; rewrite <- (app_nil_r (tr st)) in T at 1; apply app_inv_head in T; subst; destruct I).
  unfold act in T, OLD. rewrite S in T, OLD. cbn [user andb] in T, OLD. destruct a as [id|c|ch| | |]; try (exfalso; apply OLD; reflexivity).
  assert (QR : queue (q_run st p i ch) p = queue st p ++ [QueueModel.LRun i ch]) by (unfold queue, proc_at; cbn; rewrite upd_same; reflexivity). rewrite QR in T, OLD.
  destruct (q_result (queue st p ++ [QueueModel.LRun i ch]) i) as [x|] eqn:X; [|exfalso; apply OLD; reflexivity].
  assert (LV : forall res', tr (leave (q_run st p i ch) t n j res' r) = tr st ++ [ERet t n res']) by (intros; unfold leave; destruct j; reflexivity).
  assert (G : forall res', tr st ++ add = tr st ++ [ERet t n res'] -> res = res') by (intros res' Y; apply app_inv_head in Y; subst; destruct I as [I|[]]; injection I as ->; reflexivity).
  exists ch, x. split; [exact X|]. destruct x; try (rewrite LV in T; split; [discriminate|]; apply G; symmetry; exact T).
  exfalso. cbn in T. apply app_inv_head in T. subst. destruct I as [I|[]]. discriminate I.
Qed.

Lemma loops_final h : forall t n r p k, In (ERet t n r) (trace h) -> nth_error (calls (final h)) n = Some (t, KRun p k) -> exists a b cc, trace h = a ++ ECall t n (KRun p k) :: b ++ ERet t n r :: cc /\
  (exists c, rounds t p c (of_thread t b) /\ result_ok k c r) /\ (r <> RBool true -> exists h1, during h h1 t n (KRun p k) /\ (is_stopped (final h1) p = true \/ k <> Forever /\ pending h1 p = [])).
Proof.
  induction h as [|lb h IH] using rev_ind; [intros t n r p k []|]. intros t n r p k I C. pose proof (good_final h) as G. pose proof (qinv_final h) as QI. pose proof (core_evt _ _ _ G QI (final_step h lb)) as V.
  destruct (evt_add _ _ _ V) as (add & TT & _). unfold trace in I. rewrite TT in I. apply in_app_or in I as [I|I].
  { assert (C0 : nth_error (calls (final h)) n = Some (t, KRun p k)) by (destruct (c_ret _ (calls_final h) _ _ _ I) as (c & C0); pose proof (calls_mono h [lb] _ _ C0); congruence).
    destruct (IH _ _ _ _ _ I C0) as (a & b & cc & E & X & Y). exists a, b, (cc ++ add). split; [unfold trace in *; rewrite TT, E, <- app_assoc; cbn; rewrite <- app_assoc; reflexivity|]. split; [exact X|].
    intros N. destruct (Y N) as (h1 & D & Z). exists h1. split; [apply during_app; exact D|exact Z]. }
  assert (OWNL : forall n0 p0 j0 k0 ph s1 r0, stk (final h) (fst lb) = s1 ++ FLoop n0 p0 j0 k0 ph :: r0 -> n0 = n -> p0 = p /\ k0 = k).
  { intros n0 p0 j0 k0 ph s1 r0 S ->. pose proof (g_loop _ _ _ (G (fst lb)) n p0 j0 k0 ph) as X. rewrite S in X. specialize (X ltac:(apply in_or_app; right; left; reflexivity)). pose proof (calls_mono h [lb] _ _ X) as Y. rewrite C in Y. injection Y as _ -> ->. auto. }
  assert (OWNC : forall f r0 n0 z, stk (final h) (fst lb) = f :: r0 -> In (FCall n0 z) (f :: r0) -> n0 = n -> False).
  { intros f r0 n0 z S J ->. rewrite <- S in J. destruct (g_call _ _ _ (G (fst lb)) n z J) as (c & X & F). pose proof (calls_mono h [lb] _ _ X) as Y. rewrite C in Y. injection Y as _ <-. destruct z; discriminate F. }
  assert (TR : forall add', tr (final (h ++ [lb])) = tr (final h) ++ add' -> add' = add) by (intros add' X; rewrite TT in X; apply app_inv_head in X; auto).
  destruct V as [q Q E|f f' r0 q S0 SI Q E|f c0 U ID W0 E|f n0 r0 ds res S0 ID W0 DS E _|n0 i c0 p0 r0 S0 C0 SB P E|n0 p0 j0 k0 i e0 r0 S0 E|n0 p0 j0 k0 e0 t1 c0 r0 S0 C0 E|n0 k0 c0 r0 S0 C0 F SB E|bd p0 e0 n0 j0 k0 i r0 q S0 B Q E|bd p0 e0 n0 j0 r0 q S0 B Q E|bd p0 n0 r0 q c0 S0 B Q C0 E];
    destruct E as (S' & T1 & CC); pose proof (TR _ T1) as TE; rewrite <- TE in I; clear TR.
  - exfalso. apply Q in I. discriminate.
  - exfalso. apply Q in I. discriminate.
  - exfalso. destruct I as [I|[]]. discriminate.
  - assert (X : ERet (fst lb) n0 res = ERet t n r) by (apply in_app_or in I as [I|[I|[]]]; [exfalso; destruct DS as [->|(p1 & es & ->)]; [destruct I|destruct I as [I|[]]; discriminate]|exact I]). injection X as <- -> ->.
    destruct f as [n0 z|n0 p0 j0 k0 ph| |]; try discriminate ID; cbn in ID; injection ID as ->.
    { exfalso. eapply OWNC; [exact S0|left; reflexivity|reflexivity]. }
    destruct ph; try contradiction. destruct (OWNL n p0 j0 k0 (LWait q) [] r0 S0 eq_refl) as [-> ->].
    destruct (inside_final h _ _ _ _ _ _ [] _ S0) as (a & b & E & c & l & R & O & _ & T).
    destruct (final_act h lb) as [X|X].
    { exfalso. specialize (S' (fst lb)). rewrite X, upd_same, S0 in S'. clear - S'. assert (Z : forall (r : list frame) f, f :: r <> r) by (intros r; induction r as [|x r IH]; intros f X; [discriminate|]; injection X as -> X; eapply IH; exact X). eapply Z. exact S'. }
    rewrite X in T1. destruct (leave_step (final h) (fst lb) (snd lb) n p j0 k q r0 r _ S0 T1) as (ch & x & RS & NTK & ->); [apply in_or_app; right; left; reflexivity|].
    assert (DS0 : ds = []).
    { destruct DS as [->|(p1 & es & ->)]; [reflexivity|]. exfalso. clear - T1 S0. unfold act in T1. rewrite S0 in T1. cbn [user andb] in T1.
      assert (OLD : forall l : list event, tr (final h) = tr (final h) ++ [EDrop (fst lb) p1 es] ++ l -> False) by (intros l Y; rewrite <- (app_nil_r (tr (final h))) in Y at 1; apply app_inv_head in Y; discriminate).
      destruct (snd lb); try (eapply OLD; exact T1). cbv zeta in T1. unfold leave in T1. destruct (q_result _ _) as [x|]; [|eapply OLD; exact T1]. destruct x, j0; cbn in T1; apply app_inv_head in T1; discriminate T1. }
    subst ds. exists a, b, []. split; [unfold trace in *; rewrite TT, <- TE, E, <- app_assoc; reflexivity|]. split.
    { exists c. rewrite T. split; [exact R|]. destruct k; cbn; auto. }
    intros _. exists h. split; [apply during_app; exact (during_loop h _ _ _ _ _ _ [] _ S0)|].
    destruct (qi_want _ QI (fst lb) _ _ p q S0 eq_refl) as (o & ph & TK & W1 & W2). subst o. destruct (wait_answer _ _ _ _ _ _ TK W2 RS NTK) as [Y|[Y Z]]; [left; exact Y|]. right. split; [destruct k; discriminate|]. exact Z.
  - exfalso. destruct I as [I|[I|[]]]; [discriminate|]. injection I as _ X _. eapply OWNC; [exact S0|left; reflexivity|exact X].
  - exfalso. destruct I as [I|[]]. discriminate.
  - exfalso. destruct I as [I|[]]. discriminate.
  - exfalso. destruct I as [I|[]]. discriminate.
  - exfalso. apply in_app_or in I as [I|[I|[]]]; [apply Q in I; discriminate|discriminate].
  - apply in_app_or in I as [I|[I|[I|[]]]]; [apply Q in I; discriminate|discriminate|]. injection I as <- -> <-. destruct (OWNL n p0 j0 Once LBusy [bd] r0 S0 eq_refl) as [-> <-].
    destruct (inside_final h (fst lb) n p j0 Once LBusy [bd] r0 S0) as (a & b & E & c & l & R & O & s2 & f & e & mid & X & B' & T). destruct s2 as [|? [|]]; try discriminate X. injection X as <-. rewrite B in B'. injection B' as <-.
    exists a, (b ++ q ++ [EEnd (fst lb) p e0]), []. split; [unfold trace in *; rewrite TT, <- TE, E; rewrite <- !app_assoc; cbn; rewrite <- ?app_assoc; reflexivity|]. split; [|congruence].
    exists 1. split; [|right; auto]. rewrite (O eq_refl) in R. rewrite !of_app, (of_quiet _ _ Q), T. cbn. rewrite Nat.eqb_refl, <- app_assoc. cbn. apply R_one. exact R.
  - exfalso. apply in_app_or in I as [I|[I|[I|[]]]]; [apply Q in I; discriminate|discriminate|]. injection I as _ X _. eapply OWNC; [exact S0|right; left; reflexivity|exact X].
Qed.
