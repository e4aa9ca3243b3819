(** Inline or queued. *)
From Verif Require Import ListUtil Amap ProcModel ProcSpec ProcProofs ProcProofs2 ProcProofs3 ProcProofs4 ProcProofs5 ProcProofs6 ProcProofs7 ProcProofs8 ProcProofs9 ProcProofs10 ProcProofs11 ProcProofs12 ProcProofs13.
From Verif Require QueueModel QueueSpec QueueProofs QueueProofs2 QueueProofs3 SigModel.

(** *** A call that has not run anything inline is on top of its thread's stack; the thread's processor is the one at the time of the call. *)
Lemma call_top cs t l n k : good cs t l -> In (FCall n k) l -> k <> PInline -> exists r, l = FCall n k :: r.
Proof.
  intros G I N. destruct l as [|f r]; [contradiction|]. destruct I as [->|I]; [eauto|]. exfalso. pose proof (g_chain _ _ _ G) as C. cbn in C. revert C I. generalize (body_of f). clear - N.
  induction r as [|g r IH]; intros b C I; [contradiction|]. destruct C as [L C]. destruct I as [->|I]; [|eapply IH; eauto]. destruct k; cbn in L; try contradiction.
Qed.

Lemma instance_app t a b : instance t (a ++ b) = option_map snd (fold_left (inst t) b (fold_left (inst t) a None)).
Proof. unfold instance. rewrite fold_left_app. reflexivity. Qed.
Lemma instance_skip t a b : (forall e, In e b -> about_inst t e = false) -> instance t (a ++ b) = instance t a.
Proof. intros H. rewrite instance_app, inst_skip by exact H. reflexivity. Qed.

Definition since (st : state) : Prop := forall t n k a b c, In (FCall n k) (stk st t) -> k <> PInline -> tr st = a ++ ECall t n c :: b -> instance t a = instance t (tr st).

Lemma app_split {A} (l : list A) : forall (add a b : list A) (e : A), l ++ add = a ++ e :: b -> (exists b', l = a ++ e :: b') \/ exists a', a = l ++ a' /\ add = a' ++ e :: b.
Proof.
  induction l as [|x l IH]; intros add a b e H; [right; exists a; auto|]. destruct a as [|y a']; cbn in H.
  - inversion H. left. eexists. reflexivity.
  - inversion H as [[HX HT]]. destruct (IH _ _ _ _ HT) as [(b' & ->)|(a2 & -> & ->)]; [left; exists b'; reflexivity|right; exists a2; auto].
Qed.

Lemma since_final h : since (final h).
Proof.
  apply steps_ind; [intros t n k a b c []|]. intros t0 h0 st' J V (lb & ST). pose proof (calls_final h0) as IC. pose proof (calls_final (h0 ++ [lb])) as IC'. pose proof (good_final h0) as G. pose proof (good_final (h0 ++ [lb])) as G'.
  rewrite <- ST in IC', G'. set (st := final h0) in *. clearbody st. clear ST lb h0. intros t n k a b c I N T.
  assert (OTH : forall e t', ~ (forall c', e <> ECall t' n c') -> In e (tr st') -> t' = t).
  { intros e t' NE IE. destruct e as [|t1 n1 c1| | | | | | | | | |]; try (exfalso; apply NE; discriminate). destruct (Nat.eq_dec n1 n) as [->|]; [|exfalso; apply NE; congruence]. 
    destruct (Nat.eq_dec t1 t'); [subst t1|exfalso; apply NE; congruence]. apply (c_in _ IC') in IE.
    assert (X : In (ECall t n c) (tr st')) by (rewrite T; apply in_or_app; right; left; reflexivity). apply (c_in _ IC') in X. congruence. }
  destruct (Nat.eq_dec t t0) as [->|NT].
  - (* its own step *)
    destruct (call_top _ _ _ _ _ (G' t0) I N) as (r' & TOP).
    assert (DO : forall add, tr st' = tr st ++ add -> (forall e, In e add -> about_inst t0 e = false) -> (forall c', ~ In (ECall t0 n c') add) -> In (FCall n k) (stk st t0) \/ (exists k1, k1 <> PInline /\ In (FCall n k1) (stk st t0)) ->
      instance t0 a = instance t0 (tr st')).
    { intros add TA NA NC OLD. rewrite TA, instance_skip by exact NA. rewrite TA in T. apply app_split in T as [(b' & T)|(a' & _ & T)]; [|exfalso; eapply NC; rewrite T; apply in_or_app; right; left; reflexivity].
      destruct OLD as [OLD|(k1 & NK & OLD)]; eapply J; eauto. }
    assert (QA : forall l, quiet l -> (forall e, In e l -> about_inst t0 e = false) /\ forall c', ~ In (ECall t0 n c') l).
    { intros l Q. split; [intros e IE; specialize (Q _ IE); destruct e; try discriminate; reflexivity|intros c' IE; specialize (Q _ IE); discriminate]. }
    destruct V as [l Q E|f f' r l S SI Q E|f c0 U ID W E|f n0 r ds res S ID W DS E _|n0 i c0 p r S C SB P E|n0 p j k0 i e r S E|n0 p j k0 e t1 c0 r S C E|n0 k0 c0 r S C F SB E|bd p e n0 j k0 i r l S B Q E|bd p e n0 j r l S B Q E|bd p n0 r l c0 S B Q C E];
      destruct E as (S' & TT & CC); rewrite S', upd_same in I, TOP.
    + eapply DO; [exact TT|apply QA, Q|apply QA, Q|left; exact I].
    + eapply DO; [exact TT|apply QA, Q|apply QA, Q|]. injection TOP as -> <-. destruct SI as [->|[(n1 & k1 & k2 & -> & E2 & W & _)|(? & ? & ? & ? & ? & _ & X)]]; [left; rewrite S; left; reflexivity| |discriminate].
      injection E2 as <- <-. right. exists k1. split; [intros ->; exact W|rewrite S; left; reflexivity].
    + injection TOP as -> <-. injection ID as ->. rewrite TT in T. assert (NA : forall c', ~ In (ECall t0 (length (calls st)) c') (tr st)).
      { intros c' IE. apply (c_in _ IC) in IE. apply nth_lt in IE. lia. }
      apply app_split in T as [(b' & T)|(a' & -> & T)]; [exfalso; eapply (NA c); rewrite T; apply in_or_app; right; left; reflexivity|].
      destruct a' as [|x a']; [|destruct a'; discriminate]. injection T as -> <-. rewrite app_nil_r, TT. symmetry. apply instance_skip. intros e [<-|[]]. destruct c; try reflexivity.
      exfalso. destruct (g_call _ _ _ (G' t0) (length (calls st)) k) as (c' & C' & FT); [rewrite S', upd_same; left; reflexivity|]. rewrite CC, nth_error_app2, Nat.sub_diag in C' by lia. injection C' as <-. destruct k; discriminate.
    + exfalso. rewrite TOP in S. pose proof (g_chain _ _ _ (G t0)) as CH. rewrite S in CH. cbn in CH. destruct CH as [L _]. destruct k; try contradiction.
    + exfalso. rewrite TOP in S. pose proof (g_chain _ _ _ (G t0)) as CH. rewrite S in CH. cbn in CH. destruct CH as [L _]. destruct k; try contradiction.
    + discriminate.
    + destruct c0; discriminate.
    + destruct c0; discriminate.
    + discriminate.
    + exfalso. rewrite TOP in S. pose proof (g_chain _ _ _ (G t0)) as CH. rewrite S in CH. cbn in CH. destruct CH as [_ [L _]]. destruct k; try contradiction.
    + exfalso. rewrite TOP in S. pose proof (g_chain _ _ _ (G t0)) as CH. rewrite S in CH. cbn in CH. destruct CH as [_ [L _]]. destruct k; try contradiction.
  - (* the step of another thread *)
    assert (DO : forall s' add, (forall t', stk st' t' = upd (stk st) t0 s' t') -> tr st' = tr st ++ add -> (forall e, In e add -> about_inst t e = false /\ forall c', e <> ECall t n c') -> instance t a = instance t (tr st')).
    { intros s' add S TA NA. rewrite S, upd_other in I by auto. rewrite TA, instance_skip by (intros e IE; apply NA, IE). rewrite TA in T.
      apply app_split in T as [(b' & T)|(a' & _ & T)]; [eapply J; eauto|]. exfalso. eapply (NA (ECall t n c)); [rewrite T; apply in_or_app; right; left; reflexivity|reflexivity]. }
    assert (OK : forall e, match e with ECall t' _ _ | ERet t' _ _ => t' = t0 | _ => True end -> about_inst t e = false /\ forall c', e <> ECall t n c').
    { intros e H. destruct e as [|t1 n1 c1|t1 n1 r1| | | | | | | | |]; split; try reflexivity; try discriminate; subst.
      - destruct c1; try reflexivity. cbn. apply Nat.eqb_neq. exact NT.
      - congruence.
      - cbn. apply Nat.eqb_neq. exact NT. }
    assert (QO : forall l, quiet l -> forall e, In e l -> match e with ECall t' _ _ | ERet t' _ _ => t' = t0 | _ => True end) by (intros l Q e IE; specialize (Q _ IE); destruct e; try exact Logic.I; discriminate).
    destruct V as [l Q E|f f' r l S SI Q E|f c0 U ID W E|f n0 r ds res S ID W DS E _|n0 i c0 p r S C SB P E|n0 p j k0 i e r S E|n0 p j k0 e t1 c0 r S C E|n0 k0 c0 r S C F SB E|bd p e n0 j k0 i r l S B Q E|bd p e n0 j r l S B Q E|bd p n0 r l c0 S B Q C E];
      destruct E as (S' & TT & CC); (eapply DO; [exact S'|exact TT|]; intros e0 IE; apply OK); try (eapply QO; eauto; fail);
      repeat (apply in_app_or in IE as [IE|IE]; [try (eapply QO; eauto; fail)|]); cbn in IE; repeat (destruct IE as [IE|IE]; [subst e0; try exact Logic.I; try reflexivity|]); try contradiction.
    destruct DS as [->|(p & es & ->)]; [contradiction|]. destruct IE as [<-|[]]. exact Logic.I.
Qed.
