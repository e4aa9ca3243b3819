(** What the other calls of a processor do and answer. *)
From Verif Require Import ListUtil Amap ProcModel ProcSpec ProcProofs ProcProofs2 ProcProofs3 ProcProofs4 ProcProofs5 ProcProofs6 ProcProofs7 ProcProofs9 ProcProofs11 ProcProofs14 ProcProofs16 ProcProofs17 ProcProofs18 ProcProofs19 ProcProofs20 ProcProofs21 ProcProofs22 ProcProofs23 ProcProofs24 ProcProofs25 ProcProofs26 ProcProofs28 ProcProofs31.
From Verif Require QueueModel QueueSpec SigModel SigSpec SigProofs2 SigProofs3 SigProofs7.

Definition plain_call (c : call) : bool := negb (submits c) && match c with KRun _ _ => false | _ => true end.

(** The step in which such a call returns. *)
Lemma ret_top h l t n r c : dead (final h) = false -> ~ (exists r', In (ERet t n r') (trace h)) -> In (ERet t n r) (trace (h ++ [l])) -> nth_error (calls (final h)) n = Some (t, c) -> plain_call c = true ->
  exists ch k r0, l = (t, AGo ch) /\ stk (final h) t = FCall n k :: r0 /\ fit c k = true /\ final (h ++ [l]) = go_call (final h) t n c k ch r0.
Proof.
  intros DD N I C W. pose proof (core_evt _ _ _ (good_final h) (qinv_final h) (ProcProofs11.final_step h l)) as V.
  assert (A : forall add, tr (final (h ++ [l])) = tr (final h) ++ add -> In (ERet t n r) add).
  { intros add E. unfold trace in I. rewrite E in I. apply in_app_or in I as [I|I]; [exfalso; apply N; eauto|exact I]. }
  assert (QN : forall q, quiet q -> In (ERet t n r) q -> False) by (intros q Q X; apply Q in X; discriminate).
  assert (X : t = fst l /\ exists f r0, stk (final h) t = f :: r0 /\ id_of f = [n] /\ waiting f).
  { destruct V as [q Q E|f f' r0 q S SI Q E|f c0 U ID W0 E|f n0 r0 ds res S ID W0 DS E _|n0 i c0 p0 r0 S C0 SB P E|n0 p0 j k0 i e0 r0 S E|n0 p0 j k0 e0 t1 c0 r0 S C0 E|n0 k0 c0 r0 S C0 F SB E|bd p0 e0 n0 j k0 i r0 q S B Q E|bd p0 e0 n0 j r0 q S B Q E|bd p0 n0 r0 q c0 S B Q C0 E];
      destruct E as (S' & TT & CC); specialize (A _ TT).
    - exfalso. eauto.
    - exfalso. eauto.
    - destruct A as [A|[]]. discriminate.
    - apply in_app_or in A as [A|[A|[]]]; [exfalso; destruct DS as [->|(p1 & es & ->)]; [destruct A|destruct A as [A|[]]; discriminate]|]. injection A as <- <- _. split; [reflexivity|]. eauto.
    - destruct A as [A|[A|[]]]; [discriminate|]. injection A as <- <- _. exfalso. rewrite C in C0. injection C0 as <-. unfold plain_call in W. rewrite SB in W. discriminate W.
    - destruct A as [A|[]]. discriminate.
    - destruct A as [A|[]]. discriminate.
    - destruct A as [A|[]]. discriminate.
    - apply in_app_or in A as [A|[A|[]]]; [exfalso; eauto|discriminate].
    - apply in_app_or in A as [A|[A|[A|[]]]]; [exfalso; eauto|discriminate|]. injection A as <- <- _. exfalso. pose proof (g_loop _ _ _ (good_final h (fst l))) as GL. rewrite S in GL. specialize (GL _ _ _ _ _ (or_intror (or_introl eq_refl))). rewrite C in GL. injection GL as ->. discriminate W.
    - apply in_app_or in A as [A|[A|[A|[]]]]; [exfalso; eauto|discriminate|]. injection A as <- <- _. exfalso. pose proof (g_call _ _ _ (good_final h (fst l))) as GC. rewrite S in GC. specialize (GC _ _ (or_intror (or_introl eq_refl))) as (c1 & C1 & F). rewrite C in C1. injection C1 as <-. destruct c; discriminate W || discriminate F. }
  destruct X as (-> & f & r0 & S & ID & WF). destruct (final_act h l) as [E|E]; [exfalso; apply N; unfold trace in I; rewrite E in I; eauto|].
  destruct f as [n0 k|n0 p j kd ph| |]; try discriminate ID; injection ID as ->.
  2:{ exfalso. pose proof (g_loop _ _ _ (good_final h (fst l))) as GL. rewrite S in GL. specialize (GL _ _ _ _ _ (or_introl eq_refl)). rewrite C in GL. injection GL as ->. discriminate W. }
  assert (FT : fit c k = true) by (pose proof (g_call _ _ _ (good_final h (fst l)) n k) as GC; rewrite S in GC; destruct (GC (or_introl eq_refl)) as (c1 & C1 & F); rewrite C in C1; injection C1 as <-; exact F).
  destruct l as [t a]. cbn [fst snd] in *.
  assert (NI : forall st', tr st' = tr (final h) -> final (h ++ [(t, a)]) = st' -> False) by (intros st' E1 E2; unfold trace in I; rewrite E2, E1 in I; apply N; exists r; exact I).
  destruct a as [id|c1|ch| | |]; try (exfalso; refine (NI _ _ E); unfold act; rewrite ?S; cbn [user andb]; reflexivity).
  exists ch, k, r0. split; [reflexivity|]. split; [exact S|]. split; [exact FT|]. rewrite E. unfold act. rewrite S, C. reflexivity.
Qed.

(** A plain call that returns: just before, it was under way. *)
Lemma ret_plain h t n r c : In (ERet t n r) (trace h) -> called h t n c -> plain_call c = true -> exists h1 ch h2 k r0,
  h = h1 ++ (t, AGo ch) :: h2 /\ during h h1 t n c /\ dead (final h1) = false /\ ~ returned h1 n r /\ returned (h1 ++ [(t, AGo ch)]) n r /\ nth_error (calls (final h1)) n = Some (t, c) /\
  stk (final h1) t = FCall n k :: r0 /\ fit c k = true /\ final (h1 ++ [(t, AGo ch)]) = go_call (final h1) t n c k ch r0 /\
  forall r', In (ERet t n r') (trace (h1 ++ [(t, AGo ch)])) -> r' = r.
Proof.
  intros I CA PC. destruct (ret_moment _ _ _ _ I) as (h1 & l & h2 & c0 & -> & DD & N & I1 & C). apply (c_in _ (calls_final _)) in CA. apply (calls_mono _ (l :: h2)) in C as C'. rewrite CA in C'. injection C' as <-.
  destruct (ret_top h1 l t n r c DD N I1 C PC) as (ch & k & r0 & -> & S & FT & E). exists h1, ch, h2, k, r0. split; [reflexivity|].
  split; [apply during_app; eapply during_now; [rewrite S; left; reflexivity|exact C]|]. split; [exact DD|]. split.
  { intros (t' & X). destruct (c_ret _ (calls_final h1) _ _ _ X) as (c2 & C2). rewrite C in C2. injection C2 as <- _. apply N. eauto. }
  split; [exists t; exact I1|]. split; [exact C|]. split; [exact S|]. split; [exact FT|]. split; [exact E|].
  intros r' J. destruct (grows h1 (t, AGo ch)) as (add & G). unfold trace in *.
  assert (X : forall x, In (ERet t n x) (tr (final (h1 ++ [(t, AGo ch)]))) -> In (ERet t n x) add).
  { intros x Y. rewrite G in Y. apply in_app_or in Y as [Y|Y]; [exfalso; apply N; eauto|exact Y]. }
  apply X in J. apply X in I1. pose proof (c_once _ (calls_final (h1 ++ [(t, AGo ch)])) n) as O. rewrite G, cnt_app in O.
  clear - J I1 O. assert (O' : cnt (returns n) add <= 1) by lia. clear O. induction add as [|e add IH]; [destruct J|]. rewrite cnt_cons in O'.
  destruct J as [->|J], I1 as [I1|I1].
  - injection I1 as ->. reflexivity.
  - exfalso. pose proof (cnt_pos (returns n) _ _ I1 (Nat.eqb_refl n)). cbn in O'. rewrite Nat.eqb_refl in O'. cbn in O'. lia.
  - subst e. exfalso. pose proof (cnt_pos (returns n) _ _ J (Nat.eqb_refl n)). cbn in O'. rewrite Nat.eqb_refl in O'. cbn in O'. lia.
  - apply IH; auto. lia.
Qed.

Ltac no_ret I E := exfalso; match goal with NR : ~ returned ?h1 _ _ |- _ => apply NR; destruct I as (? & I); unfold trace in I; rewrite E in I; eexists; exact I end.
Ltac the_ret R E := specialize (R _ ltac:(unfold trace; rewrite E; cbn; apply in_or_app; right; left; reflexivity)); try subst.

Lemma stopped_exact h t n r p : In (ERet t n r) (trace h) -> called h t n (KStopped p) -> exists h1, during h h1 t n (KStopped p) /\ r = RBool (is_stopped (final h1) p).
Proof.
  intros I CA. destruct (ret_plain _ _ _ _ _ I CA eq_refl) as (h1 & ch & h2 & k & r0 & -> & D & DD & NR & RR & C & S & FT & E & R). exists h1. split; [exact D|].
  destruct k; try discriminate FT. cbn in E. rewrite <- (R (RBool (is_stopped (final h1) p))); [reflexivity|]. unfold trace. rewrite E. cbn. apply in_or_app. right. left. reflexivity.
Qed.
