(** Server: one provider per service; messages go to the provider of their service. *)
From Verif Require Import ListUtil SrvModel SrvSpec SrvProofs SrvProofs2.

Lemma no_deinit_app l k : no_deinit (l ++ k) -> no_deinit l.
Proof. intros H t I. apply (H t). apply in_app_iff. auto. Qed.
Lemma no_deinit_step s s' : step s s' -> no_deinit (tr s') -> no_deinit (tr s).
Proof. intros S. destruct (step_tr _ _ S) as [k ->]. apply no_deinit_app. Qed.

(** Induction with both basic invariants at hand. *)
Lemma state_ind2 (P : state -> Prop) : P init -> (forall s s', InvP s -> InvT s -> P s -> step s s' -> P s') -> forall h, P (final h).
Proof.
  intros P0 PS h. induction h as [|l h IH] using rev_ind; [exact P0|].
  rewrite final_snoc. destruct (next_step (final h) l) as [->|S]; [exact IH|].
  eapply PS; [apply invP|apply invT|exact IH|exact S].
Qed.

Definition subs (s : state) (todo : list (nat * nat)) : Prop := forall sid o, In (sid, o) todo -> get sid (provs s) = Some o.
Record InvD (s : state) : Prop := {
  d_all : forall o p, nth_error (objs s) o = Some p -> get (p_sid p) (provs s) = Some o;
  d_todo : forall t th, nth_error (ths s) t = Some th ->
     match at_ th with QRegLoop _ td | QRegSend _ _ td | QUnLoop _ td => subs s td | _ => True end }.

Lemma not_deinit s t th : InvT s -> no_deinit (tr s) -> nth_error (ths s) t = Some th ->
  exists c, In (ECall t c) (tr s) /\ okth s c th /\ c <> CDeinit /\ rest th = [] /\ fin th = [].
Proof.
  intros IT ND N. destruct (t_th _ IT _ _ N) as (c & I & OK). exists c. split; [exact I|]. split; [exact OK|].
  assert (C : c <> CDeinit) by (intros ->; exact (ND _ I)). split; [exact C|].
  destruct OK as (_ & [E|E] & _); [contradiction|exact E].
Qed.

Lemma provs_mono s s' sid o : InvT s -> no_deinit (tr s) -> step s s' -> get sid (provs s) = Some o -> get sid (provs s') = Some o.
Proof.
  intros IT ND S G. destruct S; try exact G; try (srva; exact G).
  - unf. cbn. rewrite get_put. destruct (Nat.eqb_spec sid sid0) as [->|]; [congruence|exact G].
  - destruct (gone r); exact G.
  - exfalso. destruct (not_deinit _ _ _ IT ND H) as (c & _ & OK & C & _). unfold okth in OK. rewrite H0 in OK. destruct OK as [OK _]. contradiction.
Qed.

Lemma invD h : no_deinit (trace h) -> InvD (final h).
Proof.
  unfold trace. apply (state_ind2 (fun s => no_deinit (tr s) -> InvD s)).
  - intros _. split; [intros [|] ?; discriminate|intros [|] ?; discriminate].
  - intros s s' IP IT IH S ND'. pose proof (no_deinit_step _ _ S ND') as ND. destruct (IH ND) as [DA DT].
    pose proof (fun sid o => provs_mono s s' sid o IT ND S) as PM.
    assert (SM : forall td, subs s td -> subs s' td) by (intros td H sid o I; apply PM, H, I).
    assert (ALL : forall o p, nth_error (objs s') o = Some p -> get (p_sid p) (provs s') = Some o).
    { intros o p N. destruct (objs_step _ _ S) as [E|[[sid E]|(o' & p' & av & N' & E)]]; rewrite E in N.
      - apply PM, DA, N.
      - rewrite nth_snoc in N. destruct (Nat.eqb_spec o (length (objs s))) as [->|]; [|apply PM, DA, N]. injection N as <-. cbn.
        destruct (provs_step _ _ S) as [E'|[E'|(t & sid' & N' & E' & OB & I)]].
        + exfalso. clear - E E' S. assert (L : length (objs s') = length (objs s) + 1) by (rewrite E, app_length; reflexivity). clear E.
          destruct S; try srva; unf; cbn in *; try lia; try (rewrite length_set_nth in L; lia); try (destruct (gone r); cbn in L; lia).
          pose proof (get_put_same sid0 (length (objs s)) (provs s)) as G. rewrite E' in G. congruence.
        + exfalso. assert (L : length (objs s') = length (objs s) + 1) by (rewrite E, app_length; reflexivity). clear E.
          destruct S; try srva; unf; cbn in *; try lia; try (rewrite length_set_nth in L; lia); try (destruct (gone r); cbn in L; lia).
          pose proof (get_put_same sid0 (length (objs s)) (provs s)) as G. rewrite E' in G. discriminate.
        + rewrite E in OB. apply app_inv_head in OB. injection OB as ->. rewrite E', get_put_same. reflexivity.
      - rewrite (nth_set _ _ _ _ _ N') in N. destruct (Nat.eqb_spec o' o) as [<-|]; [injection N as <-; cbn; apply PM, DA, N'|apply PM, DA, N]. }
    split; [exact ALL|].
    assert (OLD : forall t th, nth_error (ths s) t = Some th -> match at_ th with QRegLoop _ td | QRegSend _ _ td | QUnLoop _ td => subs s' td | _ => True end).
    { intros t th N. specialize (DT _ _ N). destruct (at_ th); auto. }
    assert (FULL : subs s' (provs s)).
    { intros sid o I. apply PM. apply in_get; [apply p_nd; exact IP|exact I]. }
    remember s' as s2 eqn:E in SM, OLD, FULL |- *. intros t1 th1 N1.
    assert (NEW : forall t th th', nth_error (ths s) t = Some th -> ths s' = set_nth t th' (ths s) ->
      (match at_ th' with QRegLoop _ td | QRegSend _ _ td | QUnLoop _ td => subs s2 td | _ => True end) ->
      match at_ th1 with QRegLoop _ td | QRegSend _ _ td | QUnLoop _ td => subs s2 td | _ => True end).
    { intros t th th' N TE OK. rewrite E, TE, (nth_set _ _ _ _ _ N) in N1.
      destruct (Nat.eqb_spec t t1) as [<-|]; [injection N1 as <-; exact OK|exact (OLD _ _ N1)]. }
    assert (TL : forall t th a x td, nth_error (ths s) t = Some th -> at_ th = QRegLoop a (x :: td) -> subs s2 td).
    { intros t th a x td N A sid o I. specialize (OLD _ _ N). rewrite A in OLD. apply OLD. right. exact I. }
    assert (TU : forall t th a x td, nth_error (ths s) t = Some th -> at_ th = QUnLoop a (x :: td) -> subs s2 td).
    { intros t th a x td N A sid o I. specialize (OLD _ _ N). rewrite A in OLD. apply OLD. right. exact I. }
    destruct S.
    1: { rewrite E in N1. cbn in N1. rewrite nth_snoc in N1. destruct (Nat.eqb_spec t1 (length (ths s))) as [->|]; [|exact (OLD _ _ N1)].
         injection N1 as <-. cbn. unfold start_pc in H. destruct c; try (injection H as <-; exact I);
           try (destruct (nth_error (objs s) o); [injection H as <-; exact I|discriminate]).
         injection H as <-. unfold incoming. destruct (s_code m); try exact I. destruct (s_sid m); exact I. }
    all: try srva.
    all: try (destruct (gone r)).
    all: eapply NEW; [eassumption|reflexivity|]; try exact I; cbn; auto; try (eapply TL; eassumption); try (eapply TU; eassumption).
    + specialize (OLD _ _ H). rewrite H0 in OLD. exact OLD.
    + specialize (OLD _ _ H). rewrite H0 in OLD. exact OLD.
Qed.

Theorem same_provider h sid o o' : no_deinit (trace h) -> got (trace h) sid o -> got (trace h) sid o' -> o = o'.
Proof.
  intros ND [t I] [t' I']. pose proof (invP h) as IP. pose proof (invD h ND) as ID.
  pose proof (p_got _ IP _ _ _ I) as A. pose proof (p_got _ IP _ _ _ I') as B. unfold sid_of in *.
  destruct (nth_error (objs (final h)) o) as [p|] eqn:N; [|discriminate]. destruct (nth_error (objs (final h)) o') as [p'|] eqn:N'; [|discriminate].
  cbn in *. injection A as <-. injection B as E. pose proof (d_all _ ID _ _ N) as G. pose proof (d_all _ ID _ _ N') as G'. rewrite E in G'. congruence.
Qed.

Theorem own_service h sid sid' o : got (trace h) sid o -> got (trace h) sid' o -> sid = sid'.
Proof.
  intros [t I] [t' I']. pose proof (invP h) as IP.
  pose proof (p_got _ IP _ _ _ I) as A. pose proof (p_got _ IP _ _ _ I') as B. congruence.
Qed.

(** Dispatch. *)
Lemma dispatched_app l k t : dispatched (l ++ k) t = dispatched l t ++ dispatched k t.
Proof. apply flat_map_app. Qed.

Definition refused (l : list event) (t : nat) (m : smsg) : Prop :=
  exists l1 l2, l = l1 ++ ERet t false :: l2 /\ (no_deinit l1 -> forall sid, s_sid m = Some sid -> forall o, ~ got l1 sid o).
Definition disp_ok (s : state) (t : nat) (th : thread) (m : smsg) : Prop :=
  match at_ th with
  | QDone => (exists o sid, dispatched (tr s) t = [(o, m)] /\ s_sid m = Some sid /\ got (tr s) sid o) \/ (dispatched (tr s) t = [] /\ refused (tr s) t m)
  | _ => dispatched (tr s) t = []
  end.

Lemma refused_app l k t m : refused l t m -> refused (l ++ k) t m.
Proof. intros (l1 & l2 & -> & R). exists l1, (l2 ++ k). rewrite <- app_assoc. auto. Qed.


Lemma disp_lt h t o m : In (EDisp t o m) (trace h) -> t < length (ths (final h)).
Proof.
  unfold trace. apply (state_ind (fun s => In (EDisp t o m) (tr s) -> t < length (ths s))); [intros []|].
  intros s s' IH S I. destruct S; try srva; unf; try destruct (gone r); cbn in *; rewrite ?length_set_nth, ?app_length; cbn;
    rewrite ?in_app_iff in I; cbn in I;
    repeat match goal with H : _ \/ _ |- _ => destruct H end; try discriminate; try contradiction; auto;
    try (specialize (IH H); lia); try (specialize (IH H0); lia); try (specialize (IH H1); lia).
  all: match goal with H : EDisp _ _ _ = EDisp _ _ _ |- _ => injection H; intros; subst end; eapply nth_lt; eassumption.
Qed.

Lemma dispatched_nil l t : (forall o m, ~ In (EDisp t o m) l) -> dispatched l t = [].
Proof.
  unfold dispatched. induction l as [|e l IH]; intros H; [reflexivity|]. cbn. rewrite IH by (intros o m I; apply (H o m); right; exact I). rewrite app_nil_r.
  destruct e; try reflexivity. destruct (Nat.eqb_spec t t0) as [->|]; [|reflexivity]. destruct (H o m). left. reflexivity.
Qed.

(** A step of thread [t] hands over something only from the two places that do. *)
Lemma step_disp s s' : InvP s -> step s s' -> exists k, tr s' = tr s ++ k /\
  ((exists c, k = [ECall (length (ths s)) c] /\ exists q, start_pc s c = Some q /\ ths s' = ths s ++ [Th q [] []]) \/
   (exists t th th', (nth_error (ths s) t = Some th /\ at_ th <> QDone) /\ ths s' = set_nth t th' (ths s) /\ (forall t' c, ~ In (ECall t' c) k)
     /\ (forall t', t' <> t -> dispatched k t' = [])
     /\ match at_ th with
        | QFind m => (exists o, find s m = Some o /\ at_ th' = QDisp o m /\ k = []) \/ (find s m = None /\ k = [ERet t false] /\ at_ th' = QDone)
        | QDisp o m => dispatched k t = [(o, m)] /\ at_ th' = QDone
        | _ => True
        end)).
Proof.
  intros IP S.
  destruct S; try srva; unf; try destruct (gone r); cbn; rewrite <- ?app_assoc; cbn.
  1: eexists; split; [reflexivity|left; eauto].
  all: eexists; split; [first [reflexivity|symmetry; apply app_nil_r]|right].
  all: exists t, th; eexists; split; [split; [eassumption|congruence]|]; split; [reflexivity|]; split; [intros ? ? II; cbn in II; intuition discriminate|]; split;
    [intros t' NE; cbn; first [reflexivity|destruct (Nat.eqb_spec t' t); [contradiction|reflexivity]]|].
  all: try (match goal with H : at_ _ = _ |- _ => rewrite H end; cbn; auto).
  - left. exists o. auto.
  - rewrite Nat.eqb_refl. auto.
Qed.

Lemma ordinary_pc s m th : ordinary m -> okth s (CIn m) th -> at_ th = QFind m \/ (exists o, at_ th = QDisp o m) \/ at_ th = QDone.
Proof.
  intros [O1 O2] (OK & _ & _). unfold srv_sid, srv, is_reg, is_un, is_ord in OK. destruct (at_ th); auto; try discriminate;
   repeat match goal with
   | H : _ /\ _ |- _ => destruct H
   | H : exists _, _ |- _ => destruct H
   | H : _ \/ _ |- _ => destruct H
   end; try discriminate; try congruence;
   try (exfalso; eapply O1; eassumption).
  all: match goal with H : CIn _ = CIn _ |- _ => injection H as <- end.
  all: try (exfalso; eapply O2; eassumption); eauto.
Qed.

Lemma invDisp h t th m : nth_error (ths (final h)) t = Some th -> In (ECall t (CIn m)) (trace h) -> ordinary m -> disp_ok (final h) t th m.
Proof.
  unfold trace. revert t th m. induction h as [|l h IH] using rev_ind; [intros [|] ? ?; discriminate|].
  intros t1 th1 m N1 I1 OM. rewrite final_snoc in *. destruct (next_step (final h) l) as [E|S]; [rewrite E in *; apply IH; assumption|].
  pose proof (invP h) as IP. pose proof (invT h) as IT. pose proof (disp_lt h) as DL. unfold trace in DL.
  assert (IDD : no_deinit (tr (final h)) -> InvD (final h)) by apply invD.
  set (s := final h) in *. remember (next s l) as s' eqn:ES. clear ES l.
  destruct (step_disp _ _ IP S) as (k & TR & K).
  assert (KEEP : dispatched k t1 = [] -> (forall c, ~ In (ECall t1 c) k) -> nth_error (ths s) t1 = Some th1 -> disp_ok s' t1 th1 m).
  { intros DK NC N. assert (IC : In (ECall t1 (CIn m)) (tr s)) by (rewrite TR in I1; apply in_app_iff in I1 as [I1|I1]; [exact I1|destruct (NC _ I1)]).
    specialize (IH _ _ _ N IC OM). unfold disp_ok in *. rewrite TR, dispatched_app, DK, app_nil_r. destruct (at_ th1); try exact IH.
    destruct IH as [(o & sid & A & B & [tg G])|[A B]]; [left; exists o, sid; repeat split; auto; exists tg; apply in_app_iff; auto|right; split; [exact A|apply refused_app; exact B]]. }
  destruct K as [(c & -> & q & SP & TE)|(t & th & th' & [N NQ] & TE & NC & ND & SH)].
  - rewrite TE, nth_snoc in N1. destruct (Nat.eqb_spec t1 (length (ths s))) as [->|NE].
    + injection N1 as <-. rewrite TR in I1. apply in_app_iff in I1 as [I1|[I1|[]]]; [apply (t_lt _ IT) in I1; lia|].
      injection I1 as ->. cbn in SP. injection SP as <-. unfold disp_ok.
      assert (D0 : dispatched (tr s') (length (ths s)) = []).
      { rewrite TR, dispatched_app. cbn. rewrite app_nil_r. apply dispatched_nil. intros o m' I. apply DL in I. fold s in I. lia. }
      rewrite D0. cbn. unfold incoming. destruct (s_code m); auto. destruct (s_sid m); auto.
    + apply KEEP; [reflexivity| |exact N1]. intros c0 [[= E _]|[]]. congruence.
  - rewrite TE, (nth_set _ _ _ _ _ N) in N1. destruct (Nat.eqb_spec t t1) as [<-|NE].
    2: { apply KEEP; [apply ND; congruence|intros c; apply NC|exact N1]. }
    injection N1 as <-.
    assert (IC : In (ECall t (CIn m)) (tr s)) by (rewrite TR in I1; apply in_app_iff in I1 as [I1|I1]; [exact I1|destruct (NC _ _ I1)]).
    destruct (t_th _ IT _ _ N) as (c & I & OK). rewrite (t_call _ IT _ _ _ I IC) in OK.
    specialize (IH _ _ _ N IC OM). destruct (ordinary_pc _ _ _ OM OK) as [P|[[o P]|P]]; unfold disp_ok in *; rewrite P in *.
    + destruct SH as [(o & F & P' & ->)|(F & -> & P')]; rewrite P', TR.
      * rewrite app_nil_r. exact IH.
      * right. rewrite dispatched_app. cbn. rewrite app_nil_r. split; [exact IH|]. exists (tr s), []. split; [reflexivity|].
        intros NDE sid SI o [tg G]. unfold find in F. rewrite SI in F. pose proof (p_got _ IP _ _ _ G) as SO. unfold sid_of in SO.
        destruct (nth_error (objs s) o) as [p|] eqn:NO; [|discriminate]. injection SO as SO. pose proof (d_all _ (IDD NDE) _ _ NO) as G2. congruence.
    + destruct SH as [D P']. rewrite P', TR, dispatched_app, IH, D. left. destruct OK as (OK & _). rewrite P in OK. destruct OK as (_ & sid & SI & [tg G]).
      exists o, sid. repeat split; [exact SI|]. exists tg. apply in_app_iff. auto.
    + contradiction.
Qed.
