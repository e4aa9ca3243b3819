(** Connecting and disconnecting handlers. *)
From Verif Require Import ListUtil Amap ProcModel ProcSpec ProcProofs ProcProofs2 ProcProofs3 ProcProofs4 ProcProofs5 ProcProofs6 ProcProofs7 ProcProofs14 ProcProofs16 ProcProofs17 ProcProofs18 ProcProofs19 ProcProofs20 ProcProofs21 ProcProofs22 ProcProofs23 ProcProofs24 ProcProofs25.
From Verif Require QueueModel SigModel SigSpec SigProofs2 SigProofs3 SigProofs7.

Lemma sig_plain h g : forall l, In l (sig_at (final h) g) -> plain_action (snd l) = true.
Proof.
  revert g. induction h as [|lb h IH] using rev_ind; intros g l I; [destruct I|]. destruct (next_sg h lb) as [G|E]; [|rewrite E in I; eapply IH; eauto].
  assert (SAME : sig_same (final h) (final (h ++ [lb])) -> plain_action (snd l) = true) by (intros SS; rewrite (SS g) in I; eapply IH; eauto).
  assert (TO : forall g0 x, sig_to (final h) (final (h ++ [lb])) g0 x -> plain_action (snd x) = true -> plain_action (snd l) = true).
  { intros g0 x ST P. rewrite (ST g) in I. unfold upd in I. destruct (Nat.eqb g0 g); [|eapply IH; eauto]. apply in_app_or in I as [I|[<-|[]]]; [eapply IH; eauto|exact P]. }
  destruct G; try (apply SAME; assumption); try (eapply TO; [eassumption|]); try reflexivity. destruct a as [[]| | | | | | | | | | | | | | | | | |]; try contradiction; reflexivity.
Qed.
Lemma PI_at h g : PI (sg_at (final h) g).
Proof. apply PI_final. apply sig_plain. Qed.

(** The step in which connect() or disconnect() of a MsgConnection returns. *)
Lemma ret_sig h l t n r c : dead (final h) = false -> ~ (exists r', In (ERet t n r') (trace h)) -> In (ERet t n r) (trace (h ++ [l])) -> nth_error (calls (final h)) n = Some (t, c) ->
  match c with
  | KConnect p m => exists g, r = RHandler g (length (SigModel.conns (sg_at (final h) g))) /\ get m (p_map (proc_at (final (h ++ [l])) p)) = Some g /\ s_free (sig_at (final h) g) t = true /\ sig_at (final (h ++ [l])) g = sig_at (final h) g ++ [(t, SigModel.AConnect SigModel.CPlain)]
  | KCut g s => s_free (sig_at (final h) g) t = true /\ sig_at (final (h ++ [l])) g = sig_at (final h) g ++ [(t, SigModel.ADisconnect s)]
  | _ => True
  end.
Proof.
  intros DD N I C. assert (W : match c with KConnect _ _ | KCut _ _ => True | _ => False end \/ ~ match c with KConnect _ _ | KCut _ _ => True | _ => False end) by (destruct c; auto). destruct W as [W|W]; [|destruct c; auto; exfalso; apply W; exact Logic.I].
  pose proof (core_evt _ _ _ (good_final h) (qinv_final h) (ProcProofs11.final_step h l)) as V.
  assert (A : forall add, tr (final (h ++ [l])) = tr (final h) ++ add -> In (ERet t n r) add).
  { intros add E. unfold trace in I. rewrite E in I. apply in_app_or in I as [I|I]; [exfalso; apply N; eauto|exact I]. }
  assert (QN : forall q, quiet q -> In (ERet t n r) q -> False) by (intros q Q X; apply Q in X; discriminate).
  assert (X : t = fst l /\ exists f r0, stk (final h) t = f :: r0 /\ id_of f = [n] /\ waiting f).
  { destruct V as [q Q E|f f' r0 q S SI Q E|f c0 U ID W0 E|f n0 r0 ds res S ID W0 DS E _|n0 i c0 p0 r0 S C0 SB P E|n0 p0 j k0 i e0 r0 S E|n0 p0 j k0 e0 t1 c0 r0 S C0 E|n0 k0 c0 r0 S C0 F SB E|bd p0 e0 n0 j k0 i r0 q S B Q E|bd p0 e0 n0 j r0 q S B Q E|bd p0 n0 r0 q c0 S B Q C0 E];
      destruct E as (S' & TT & CC); specialize (A _ TT).
    - exfalso. eauto.
    - exfalso. eauto.
    - destruct A as [A|[]]. discriminate.
    - apply in_app_or in A as [A|[A|[]]]; [exfalso; destruct DS as [->|(p1 & es & ->)]; [destruct A|destruct A as [A|[]]; discriminate]|]. injection A as <- <- _. split; [reflexivity|]. eauto.
    - destruct A as [A|[A|[]]]; [discriminate|]. injection A as <- <- _. exfalso. rewrite C in C0. injection C0 as <-. destruct c; try contradiction; discriminate SB.
    - destruct A as [A|[]]. discriminate.
    - destruct A as [A|[]]. discriminate.
    - destruct A as [A|[]]. discriminate.
    - apply in_app_or in A as [A|[A|[]]]; [exfalso; eauto|discriminate].
    - apply in_app_or in A as [A|[A|[A|[]]]]; [exfalso; eauto|discriminate|]. injection A as <- <- _. exfalso. pose proof (g_loop _ _ _ (good_final h (fst l))) as GL. rewrite S in GL. specialize (GL _ _ _ _ _ (or_intror (or_introl eq_refl))). rewrite C in GL. injection GL as ->. contradiction.
    - apply in_app_or in A as [A|[A|[A|[]]]]; [exfalso; eauto|discriminate|]. injection A as <- <- _. exfalso. pose proof (g_call _ _ _ (good_final h (fst l))) as GC. rewrite S in GC. specialize (GC _ _ (or_intror (or_introl eq_refl))) as (c1 & C1 & F). rewrite C in C1. injection C1 as <-. destruct c; try contradiction; discriminate F. }
  destruct X as (-> & f & r0 & S & ID & WF). destruct (final_act h l) as [E|E]; [exfalso; apply N; unfold trace in I; rewrite E in I; eauto|].
  destruct f as [n0 k|n0 p j kd ph| |]; try discriminate ID; injection ID as ->.
  2:{ exfalso. pose proof (g_loop _ _ _ (good_final h (fst l))) as GL. rewrite S in GL. specialize (GL _ _ _ _ _ (or_introl eq_refl)). rewrite C in GL. injection GL as ->. contradiction. }
  assert (FT : fit c k = true) by (pose proof (g_call _ _ _ (good_final h (fst l)) n k) as GC; rewrite S in GC; destruct (GC (or_introl eq_refl)) as (c1 & C1 & F); rewrite C in C1; injection C1 as <-; exact F).
  assert (LI : forall p m g, c = KConnect p m -> k = PConn g -> get m (mapat (final h) p) = Some g) by (intros p m g -> ->; eapply (li_conn _ (lockinv_final h)); eauto).
  set (st := final h) in *. unfold trace in I. rewrite E in *. set (t := fst l) in *.
  assert (NI : forall st', tr st' = tr st -> In (ERet t n r) (tr st') -> False) by (intros st' E1 I1; rewrite E1 in I1; apply N; exists r; exact I1).
  destruct (snd l) as [id|c1|ch| | |]; unfold act in I |- *; rewrite ?S in I |- *; cbn [user andb] in I |- *.
  - exfalso. exact (NI _ eq_refl I).
  - exfalso. exact (NI _ eq_refl I).
  - rewrite C in I |- *. unfold go_call in I |- *. destruct c; try contradiction.
    + destruct k; try discriminate FT.
      * exfalso. exact (NI _ eq_refl I).
      * cbn [target] in *. destruct (lock_free st p); [|exfalso; exact (NI _ eq_refl I)]. destruct (get m _); exfalso; exact (NI _ eq_refl I).
      * cbn [target] in *. destruct (s_free (sig_at st g) t) eqn:SF; [|exfalso; exact (NI _ eq_refl I)]. cbn in I. apply in_app_or in I as [I|[I|[]]]; [exfalso; apply N; eauto|]. injection I as <-. exists g. split; [reflexivity|]. split; [|split; [exact SF|cbn; rewrite upd_same; reflexivity]].
        cbn. rewrite upd_same. cbn. exact (LI _ _ _ eq_refl eq_refl).
    + destruct k; try discriminate FT. destruct (s_free (sig_at st g) t) eqn:SF; [|exfalso; exact (NI _ eq_refl I)]. split; [reflexivity|]. cbn. rewrite upd_same. reflexivity.
  - exfalso. exact (NI _ eq_refl I).
  - exfalso. exact (NI _ eq_refl I).
  - exfalso. exact (NI _ eq_refl I).
Qed.

Lemma ret_moment h t n r : In (ERet t n r) (trace h) -> exists h1 l h2 c, h = h1 ++ l :: h2 /\ dead (final h1) = false /\ ~ (exists r', In (ERet t n r') (trace h1)) /\ In (ERet t n r) (trace (h1 ++ [l])) /\ nth_error (calls (final h1)) n = Some (t, c).
Proof.
  intros I. destruct (first_time _ _ I) as (h1 & l & h2 & -> & N & I1). exists h1, l, h2. destruct (c_ret _ (calls_final (h1 ++ [l])) _ _ _ I1) as (c & C). exists c. split; [reflexivity|].
  split; [apply (not_dead h1 l); intros E; apply N; unfold trace in I1; rewrite E in I1; exact I1|]. split; [|split; [exact I1|]].
  - intros (r' & I'). destruct (grows h1 l) as (add & G). rewrite G in I1. apply in_app_or in I1 as [I1|I1]; [contradiction|]. pose proof (c_once _ (calls_final (h1 ++ [l])) n) as O. change (tr (final (h1 ++ [l]))) with (trace (h1 ++ [l])) in O. rewrite G, cnt_app in O.
    pose proof (cnt_pos (returns n) _ _ I' (Nat.eqb_refl n)). pose proof (cnt_pos (returns n) _ _ I1 (Nat.eqb_refl n)). lia.
  - pose proof (core_evt _ _ _ (good_final h1) (qinv_final h1) (ProcProofs11.final_step h1 l)) as V. assert (E : calls (final (h1 ++ [l])) = calls (final h1) \/ exists e, tr (final (h1 ++ [l])) = tr (final h1) ++ [e] /\ match e with ECall _ _ _ => True | _ => False end).
    { destruct V as [q Q E|f f' r0 q S SI Q E|f c0 U ID W0 E|f n0 r0 ds res S ID W0 DS E _|n0 i c0 p0 r0 S C0 SB P E|n0 p0 j k0 i e0 r0 S E|n0 p0 j k0 e0 t1 c0 r0 S C0 E|n0 k0 c0 r0 S C0 F SB E|bd p0 e0 n0 j k0 i r0 q S B Q E|bd p0 e0 n0 j r0 q S B Q E|bd p0 n0 r0 q c0 S B Q C0 E];
        destruct E as (S' & TT & CC); try (left; exact CC). right. eexists. split; [exact TT|exact Logic.I]. }
    destruct E as [<-|(e & E & X)]; [exact C|]. exfalso. unfold trace in I1, N. rewrite E in I1. apply in_app_or in I1 as [I1|[->|[]]]; contradiction.
Qed.

Lemma live_now h g : handlers_of h g = SigProofs2.somes (SigModel.entries (sg_at (final h) g)).
Proof. apply live_sig. Qed.

Lemma connected_now h t n r p m : In (ERet t n r) (trace h) -> called h t n (KConnect p m) -> exists h1 l h2 g s k, h = h1 ++ l :: h2 /\ ~ returned h1 n r /\ returned (h1 ++ [l]) n r /\
  r = RHandler g s /\ table (h1 ++ [l]) p m = Some g /\ handlers_of (h1 ++ [l]) g = handlers_of h1 g ++ [(k, s)].
Proof.
  intros I CA. destruct (ret_moment _ _ _ _ I) as (h1 & l & h2 & c & -> & DD & N & I1 & C). apply (c_in _ (calls_final _)) in CA. apply (ProcProofs11.calls_mono _ (l :: h2)) in C as C'. rewrite CA in C'. injection C' as <-.
  pose proof (ret_sig h1 l t n r _ DD N I1 C) as (g & -> & TB & SF & SG). exists h1, l, h2, g. do 2 eexists. split; [reflexivity|]. split.
  { intros (t' & X). destruct (c_ret _ (calls_final h1) _ _ _ X) as (c & C2). rewrite C in C2. injection C2 as <- _. apply N. eauto. }
  split; [exists t; exact I1|]. split; [reflexivity|]. split; [exact TB|]. rewrite !live_now. unfold sg_at in *. rewrite SG, sg_next, connect_plain; [|apply PI_at|apply (hy_crash _ (i_ok _ (EI_final h1 DD) g))|exact SF]. rewrite SigProofs2.somes_app. reflexivity.
Qed.

Lemma cut_now h t n r g s : In (ERet t n r) (trace h) -> called h t n (KCut g s) -> exists h1 l h2, h = h1 ++ l :: h2 /\ ~ returned h1 n r /\ returned (h1 ++ [l]) n r /\ ~ In s (SigSpec.slots (handlers_of (h1 ++ [l]) g)).
Proof.
  intros I CA. destruct (ret_moment _ _ _ _ I) as (h1 & l & h2 & c & -> & DD & N & I1 & C). apply (c_in _ (calls_final _)) in CA. apply (ProcProofs11.calls_mono _ (l :: h2)) in C as C'. rewrite CA in C'. injection C' as <-.
  pose proof (ret_sig h1 l t n r _ DD N I1 C) as (SF & SG). exists h1, l, h2. split; [reflexivity|]. split.
  { intros (t' & X). destruct (c_ret _ (calls_final h1) _ _ _ X) as (c & C2). rewrite C in C2. injection C2 as <- _. apply N. eauto. }
  split; [exists t; exact I1|]. rewrite live_now. unfold sg_at in *. rewrite SG, sg_next. apply cut_plain; [apply PI_at|apply (hy_crash _ (i_ok _ (EI_final h1 DD) g))|exact SF].
Qed.
