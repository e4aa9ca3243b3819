(** The emission of a signal has its frame; histories in which no handler disconnects handlers. *)
From Verif Require Import ListUtil Amap ProcModel ProcSpec ProcProofs ProcProofs2 ProcProofs3 ProcProofs4 ProcProofs5 ProcProofs6 ProcProofs7 ProcProofs14 ProcProofs16 ProcProofs17 ProcProofs18 ProcProofs19 ProcProofs20 ProcProofs21 ProcProofs22 ProcProofs23 ProcProofs24 ProcProofs25 ProcProofs26.
From Verif Require QueueModel SigModel SigSpec SigProofs2 SigProofs3 SigProofs7 SigProofs9.

Lemma em_frame h : dead (final h) = false -> forall g x, SigModel.em (sg_at (final h) g) = Some x ->
  exists y, In (SigModel.e_val x, y) (fes (stk (final h) (SigModel.e_thread x))) /\ match SigModel.e_run x with None => y = MAt g | Some (_, s) => y = MIn g s end.
Proof.
  induction h as [|lb h IH] using rev_ind; [discriminate|]. intros D g x EM. pose proof (dead_prefix _ _ D) as D0. specialize (IH D0).
  destruct (next_sg h lb) as [G|E]; [|rewrite E in *; eapply IH; eauto]. pose proof (EI_final h D0) as J. set (st := final h) in *. set (st' := final (h ++ [lb])) in *. set (t := fst lb) in *.
  (* an emission that did not change *)
  assert (OLD : SigModel.em (sg_at st g) = Some x -> (forall y, (y = MAt g \/ exists s, y = MIn g s) -> In (SigModel.e_val x, y) (fes (stk st t)) -> SigModel.e_thread x = t -> In (SigModel.e_val x, y) (fes (stk st' t))) ->
     exists y, In (SigModel.e_val x, y) (fes (stk st' (SigModel.e_thread x))) /\ match SigModel.e_run x with None => y = MAt g | Some (_, s) => y = MIn g s end).
  { intros EO KP. destruct (IH g x EO) as (y & I & Y). exists y. split; [|exact Y]. destruct (Nat.eq_dec (SigModel.e_thread x) t) as [ET|NT].
    - rewrite ET in I |- *. apply KP; [|exact I|exact ET]. destruct (SigModel.e_run x) as [[k s]|]; [right; eauto|left; exact Y].
    - unfold st'. rewrite other_stacks by exact NT. exact I. }
  assert (TOP : forall p e m x0 r, stk st t = FEmit p e m x0 :: r -> fes (stk st t) = (e, x0) :: fes r) by (intros p e m x0 r S; rewrite S; reflexivity).
  destruct G as [SS FS NH _|p e i SS FS TR _|p e m g0 r S GM SS FS TR _|p e m r S GM SS FS (z & TR & XX) _|g0 a FR UA ST FS NH _|p e m g0 r S FR ST NH R|p e m g0 r S ST _ R|p e m g0 s r S ST FS NH _];
    try (pose proof (TOP _ _ _ _ _ S) as F0); try (assert (SG : sg_at st' g = sg_at st g) by (unfold sg_at; rewrite (SS g); reflexivity); rewrite SG in EM).
  - apply OLD; [exact EM|]. intros y _ I _. rewrite FS. exact I.
  - apply OLD; [exact EM|]. intros y _ I _. rewrite FS. right. exact I.
  - apply OLD; [exact EM|]. intros y Y I _. rewrite FS. rewrite F0 in I. destruct I as [I|I]; [injection I as _ <-; destruct Y as [Y|(s & Y)]; discriminate|right; exact I].
  - apply OLD; [exact EM|]. intros y Y I _. rewrite FS. rewrite F0 in I. destruct I as [I|I]; [injection I as _ <-; destruct Y as [Y|(s & Y)]; discriminate|exact I].
  - apply OLD; [|intros y _ I _; rewrite FS; exact I]. destruct (Nat.eq_dec g g0) as [->|N]; [|rewrite <- (sig_to_other _ _ _ _ _ ST N); exact EM]. rewrite <- EM, (sig_to_same _ _ _ _ ST).
    assert (UU : user_action a = true) by (destruct a as [[]| | | | | | | | | | | | | | | | | |]; try contradiction; reflexivity). symmetry. apply (keep_user _ t a (i_ok _ J g0) FR UU).
  - cbv zeta in R. pose proof (keep_emit _ t e (sg_CI st g0) (i_ok _ J g0) FR) as K. cbv zeta in K. rewrite <- (sig_to_same _ _ _ _ ST) in K. fold (sg_at st' g0) in R.
    destruct R as [(CR & D1 & _)|(CR & D1 & R)]; [congruence|]. destruct K as [K|(E0 & HY & SC & EN & K)]; [congruence|]. destruct (Nat.eq_dec g g0) as [->|N].
    + destruct R as [(EM1 & _)|(EM1 & FS)]; [congruence|]. destruct K as [(_ & K)|K]; [congruence|]. rewrite K in EM. injection EM as <-. cbn. exists (MAt g0). split; [rewrite FS; left; reflexivity|reflexivity].
    + apply OLD; [rewrite <- (sig_to_other _ _ _ _ _ ST N); exact EM|]. intros y Y I _. rewrite F0 in I. assert (I' : In (SigModel.e_val x, y) (fes r)) by (destruct I as [I|I]; [injection I as _ <-; destruct Y as [Y|(s & Y)]; discriminate|exact I]).
      destruct R as [(_ & FS & _)|(_ & FS)]; rewrite FS; [exact I'|right; exact I'].
  - assert (I0 : In (e, MAt g0) (fes (stk st t))) by (rewrite F0; left; reflexivity). destruct (i_at _ J _ _ _ I0) as (x0 & E1 & E2 & E3 & E4 & E5).
    destruct (keep_step _ t x0 (i_ok _ J g0) E1 E2 E4) as (HY & K). rewrite <- (sig_to_same _ _ _ _ ST) in HY, K. cbv zeta in R. fold (sg_at st' g0) in R. destruct (Nat.eq_dec g g0) as [->|N].
    + destruct R as [(R0 & _)|[(y & R0 & R00 & FS & _)|(y & k & s & R0 & R00 & FS & _)]]; rewrite R0 in EM; [discriminate| |]; injection EM as ->.
      * rewrite R0 in K. destruct K as [(_ & K & _)|[(K & _)|(k & s & K & _)]]; [discriminate| |injection K as ->; discriminate]. injection K as ->. exists (MAt g0). rewrite E4, E2, E3. split; [rewrite FS; exact I0|reflexivity].
      * rewrite R0 in K. destruct K as [(_ & K & _)|[(K & _)|(k' & s' & K & _)]]; [discriminate|injection K as ->; congruence|]. injection K as ->. cbn in *. injection R00 as -> ->. exists (MIn g0 s). rewrite E3. split; [rewrite FS; left; reflexivity|reflexivity].
    + apply OLD; [rewrite <- (sig_to_other _ _ _ _ _ ST N); exact EM|]. intros y Y I _. rewrite F0 in I. assert (I' : In (SigModel.e_val x, y) (fes r)) by (destruct I as [I|I]; [injection I as _ <-; destruct Y as [Y|(s & Y)]; congruence|exact I]).
      destruct R as [(_ & FS & _)|[(z & _ & _ & FS & _)|(z & k & s & _ & _ & FS & _)]]; rewrite FS; [exact I'|rewrite F0; right; exact I'|right; exact I'].
  - assert (I0 : In (e, MIn g0 s) (fes (stk st t))) by (rewrite F0; left; reflexivity). destruct (i_in _ J _ _ _ _ I0) as (x0 & k & E1 & E2 & E3 & E4 & E5).
    destruct (keep_return _ t x0 k s (i_ok _ J g0) E1 E2 E4) as (HY & K1 & K2 & K3). rewrite <- (sig_to_same _ _ _ _ ST) in HY, K1, K2, K3. destruct (Nat.eq_dec g g0) as [->|N].
    + rewrite K1 in EM. injection EM as <-. cbn. exists (MAt g0). rewrite E3. split; [rewrite FS; left; reflexivity|reflexivity].
    + apply OLD; [rewrite <- (sig_to_other _ _ _ _ _ ST N); exact EM|]. intros y Y I _. rewrite F0 in I. rewrite FS. right. destruct I as [I|I]; [injection I as _ <-; destruct Y as [Y|(s' & Y)]; congruence|exact I].
Qed.

Lemma in_fes e x l : In (e, x) (fes l) <-> exists p m, In (FEmit p e m x) l.
Proof.
  unfold fes. rewrite in_flat_map. split.
  - intros (f & I & X). destruct f; cbn in X; try contradiction. destruct X as [X|[]]. injection X as -> ->. eauto.
  - intros (p & m & I). exists (FEmit p e m x). split; [exact I|left; reflexivity].
Qed.

Definition cut_free (st : state) (g : nat) : Prop := forall t l1 n k r s, stk st t = l1 ++ FCall n k :: r -> nth_error (calls st) n = Some (t, KCut g s) -> forall e s', ~ In (e, MIn g s') (fes r).

(** A frame of a call after a step: it was there before, over the same frames, or the call is new. *)
Lemma call_frames t st st' l1 n k r : evt t st st' -> all_good st -> stk st' t = l1 ++ FCall n k :: r -> (exists l0 k0, stk st t = l0 ++ FCall n k0 :: r) \/ (r = stk st t /\ n = length (calls st)).
Proof.
  intros V G S0. assert (SUF : forall f r0, stk st t = f :: r0 -> forall l2, r0 = l2 ++ FCall n k :: r -> exists l0 k0, stk st t = l0 ++ FCall n k0 :: r) by (intros f r0 S l2 ->; exists (f :: l2), k; rewrite S; reflexivity).
  assert (SUF2 : forall f f2 r0, stk st t = f :: f2 :: r0 -> forall l2, r0 = l2 ++ FCall n k :: r -> exists l0 k0, stk st t = l0 ++ FCall n k0 :: r) by (intros f f2 r0 S l2 ->; exists (f :: f2 :: l2), k; rewrite S; reflexivity).
  destruct V as [q Q E|f f' r0 q S SI Q E|f c0 U ID W0 E|f n0 r0 ds res S ID W0 DS E _|n0 i c0 p0 r0 S C0 SB P E|n0 p0 j k0 i e0 r0 S E|n0 p0 j k0 e0 t1 c0 r0 S C0 E|n0 k0 c0 r0 S C0 F SB E|bd p0 e0 n0 j k0 i r0 q S B Q E|bd p0 e0 n0 j r0 q S B Q E|bd p0 n0 r0 q c0 S B Q C0 E];
    destruct E as (S' & _ & _); rewrite S', upd_same in S0.
  - left. eauto.
  - left. destruct l1 as [|y l1]; injection S0 as -> S0; [|eapply SUF; eauto]. subst r0. destruct SI as [->|[(n1 & k1 & k2 & -> & X & _)|(p & e & m & x & x' & _ & X)]]; [exists [], k; exact S| |discriminate]. injection X as <- _. exists [], k1. exact S.
  - destruct l1 as [|y l1]; injection S0 as -> S0; [|left; eauto]. right. split; [symmetry; exact S0|]. cbn in ID. injection ID as ->. reflexivity.
  - left. eapply SUF; eauto.
  - left. eapply SUF; eauto.
  - left. destruct l1 as [|y l1]; injection S0 as X S0; [discriminate|eapply SUF; eauto].
  - left. destruct l1 as [|y l1]; injection S0 as X S0; [destruct c0; discriminate|]. destruct l1 as [|y1 l1]; injection S0 as X1 S0; [discriminate|eapply SUF; eauto].
  - left. destruct l1 as [|y l1]; injection S0 as X S0; [destruct c0; discriminate|]. destruct l1 as [|y1 l1]; [|injection S0 as _ S0; eapply SUF; eauto]. injection S0 as <- _ <-. exists [], k0. exact S.
  - left. destruct l1 as [|y l1]; injection S0 as X S0; [discriminate|eapply SUF2; eauto].
  - left. eapply SUF2; eauto.
  - left. eapply SUF2; eauto.
Qed.

Lemma cut_free_final h g : cuts_outside h g -> cut_free (final h) g.
Proof.
  induction h as [|lb h IH] using rev_ind; [intros _ t l1 n k r s S; destruct l1; discriminate|]. intros CO.
  assert (CO1 : cuts_outside h g) by (intros h1 t s h2 ->; apply (CO h1 t s (h2 ++ [lb])); rewrite <- app_assoc; reflexivity). specialize (IH CO1).
  intros t l1 n k r s S C e s' I. pose proof (core_evt _ _ _ (good_final h) (qinv_final h) (ProcProofs11.final_step h lb)) as V.
  assert (OLD : forall l0 k0, stk (final h) t = l0 ++ FCall n k0 :: r -> False).
  { intros l0 k0 S0. assert (X : exists c, nth_error (calls (final h)) n = Some (t, c)).
    { destruct (g_call _ _ _ (good_final h t) n k0) as (c & X & _); [rewrite S0; apply in_or_app; right; left; reflexivity|eauto]. }
    destruct X as (c & X). pose proof (ProcProofs11.calls_mono h [lb] _ _ X) as Y. rewrite C in Y. injection Y as <-. exact (IH _ _ _ _ _ _ S0 X _ _ I). }
  destruct (Nat.eq_dec t (fst lb)) as [->|NT]; [|rewrite other_stacks in S by exact NT; eapply OLD; exact S].
  destruct (call_frames _ _ _ _ _ _ _ V (good_final h) S) as [(l0 & k0 & S0)|(-> & ->)]; [eapply OLD; exact S0|].
  destruct (final_act h lb) as [E|E]; [rewrite E in C; apply nth_lt in C; lia|]. destruct lb as [t a]. cbn [fst snd] in *. rewrite E in C.
  destruct (ProcProofs15.act_keeps (final h) t a) as [(_ & _ & K3 & _)|[(id & E1)|(c & -> & _ & _ & _ & K3 & _)]].
  - rewrite K3 in C. apply nth_lt in C. lia.
  - rewrite E1 in C. apply nth_lt in C. cbn in C. lia.
  - rewrite K3 in C. cbn in C. rewrite nth_error_app2, Nat.sub_diag in C by lia. cbn in C. injection C as ->. apply (CO h t s []); [reflexivity|]. apply in_fes in I as (p & m & I). exists p, e, m, s'. exact I.
Qed.

Lemma chain_in b r : chain b r -> forall p e m x, In (FEmit p e m x) r -> exists g s, x = MIn g s.
Proof.
  revert b. induction r as [|f r IH]; intros b C p e m x; [intros []|]. destruct C as [L C]. intros [->|I]; [|eapply IH; eauto].
  destruct x; cbn in L; try contradiction. eauto.
Qed.

Lemma no_cut h g : dead (final h) = false -> cuts_outside h g -> SigSpec.no_cut_inside SigModel.Multi (sig_at (final h) g).
Proof.
  induction h as [|lb h IH] using rev_ind; [intros _ _ h1 t a h2 E; destruct h1; discriminate|]. intros D CO. pose proof (dead_prefix _ _ D) as D0.
  assert (CO1 : cuts_outside h g) by (intros h1 t s h2 ->; apply (CO h1 t s (h2 ++ [lb])); rewrite <- app_assoc; reflexivity). specialize (IH D0 CO1).
  destruct (next_sg h lb) as [G|E]; [|rewrite E; exact IH].
  assert (SAME : sig_same (final h) (final (h ++ [lb])) -> SigSpec.no_cut_inside SigModel.Multi (sig_at (final (h ++ [lb])) g)) by (intros SS; rewrite (SS g); exact IH).
  assert (TO : forall g0 t a, sig_to (final h) (final (h ++ [lb])) g0 (t, a) -> (g0 = g -> match a with SigModel.AThrow | SigModel.AKill _ => False | SigModel.ADisconnect _ | SigModel.ADisconnectPtr _ | SigModel.AScopedEnd _ => ~ SigSpec.inside SigModel.Multi (sig_at (final h) g) t | _ => True end) -> SigSpec.no_cut_inside SigModel.Multi (sig_at (final (h ++ [lb])) g)).
  { intros g0 t a ST P. rewrite (ST g). unfold upd. destruct (Nat.eqb_spec g0 g) as [->|]; [|exact IH]. intros h1 t1 a1 h2 E. destruct h2 as [|x h2] using rev_ind.
    - apply app_inj_tail in E as [<- E]. injection E as <- <-. apply P. reflexivity.
    - clear IHh2. rewrite app_comm_cons, app_assoc in E. apply app_inj_tail in E as [E _]. exact (IH _ _ _ _ E). }
  destruct G as [SS _ _ _|p e i SS _ _ _|p e m g0 r _ _ SS _ _ _|p e m r _ _ SS _ _ _|g0 a FR UA ST _ _ _|p e m g0 r _ _ ST _ _|p e m g0 r _ ST _ _|p e m g0 s r _ ST _ _ _];
    try (apply SAME; exact SS); apply (TO _ _ _ ST); intros ->; try exact I.
  destruct a; try contradiction; try exact I; try (destruct c; exact I). destruct UA as (n & r & t0 & S & C). intros IN. destruct IN as (x & EM & ET).
  destruct (em_frame h D0 g x EM) as (y & I & Y). rewrite ET, S in I. change (fes (FCall n PStart :: r)) with (fes r) in I.
  assert (Y' : exists s', y = MIn g s').
  { destruct (SigModel.e_run x) as [[k s]|]; [eauto|]. subst y. apply in_fes in I as (p & m & I). pose proof (g_chain _ _ _ (good_final h (fst lb))) as CH. rewrite S in CH.
    destruct (chain_in _ _ CH _ _ _ _ I) as (g' & s & X). discriminate. }
  destruct Y' as (s' & ->). assert (T0 : t0 = fst lb).
  { destruct (g_call _ _ _ (good_final h (fst lb)) n PStart) as (c' & X & _); [rewrite S; left; reflexivity|]. rewrite C in X. injection X as -> _. reflexivity. }
  subst t0. exact (cut_free_final h g CO1 _ [] _ _ _ _ S C _ _ I).
Qed.
