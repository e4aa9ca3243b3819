(** Server: what a registered client is told (invariants). *)
From Verif Require Import ListUtil SrvModel SrvSpec SrvProofs SrvProofs2 SrvProofs3.

(** Locks. *)
Record InvL (s : state) : Prop := {
  l_p : forall t th, nth_error (ths s) t = Some th -> match at_ th with QRegLoop _ _ | QRegSend _ _ _ | QUnLoop _ _ => plock s = Some t | _ => True end;
  l_a : forall t th, nth_error (ths s) t = Some th -> match at_ th with QLoop _ _ td => alock s = Some t /\ (forall a, In a td -> In a (addrs s)) | _ => True end;
  l_nd : forall t th, nth_error (ths s) t = Some th -> match at_ th with QLoop _ _ td => NoDup td | _ => True end;
  l_ad : NoDup (addrs s) }.

Lemma all_set (Q : nat -> thread -> Prop) (l : list thread) t th th' :
  nth_error l t = Some th -> (forall i x, nth_error l i = Some x -> i <> t -> Q i x) -> Q t th' ->
  forall i x, nth_error (set_nth t th' l) i = Some x -> Q i x.
Proof.
  intros N A B i x. rewrite (nth_set _ _ _ _ _ N). destruct (Nat.eqb_spec t i) as [<-|NE]; [intros [= <-]; exact B|]. intros N'. apply A; [exact N'|congruence].
Qed.

Lemma NoDup_set_add x l : NoDup l -> NoDup (set_add x l).
Proof.
  intros N. unfold set_add. destruct (mem x l) eqn:M; [exact N|]. assert (NI : ~ In x l) by (intros I; apply mem_in in I; congruence).
  clear M. induction N as [|y l Y N IH]; cbn; [constructor; [intros []|constructor]|]. constructor.
  - rewrite in_app_iff. cbn. intros [I|[->|[]]]; [contradiction|]. apply NI. left. reflexivity.
  - apply IH. intros I. apply NI. right. exact I.
Qed.
Lemma in_set_del x y l : In x (set_del y l) <-> x <> y /\ In x l.
Proof.
  unfold set_del. rewrite filter_In. destruct (Nat.eqb_spec y x) as [->|]; cbn; intuition congruence.
Qed.
Lemma in_set_add x y l : In x (set_add y l) <-> x = y \/ In x l.
Proof.
  unfold set_add. destruct (mem y l) eqn:M; [apply mem_in in M; intuition congruence|]. rewrite in_app_iff. cbn. intuition congruence.
Qed.

Lemma start_pcs s c q : start_pc s c = Some q -> match q with
  | QGet _ | QHas _ | QSet _ _ | QRegIns _ | QUnErase _ | QFind _ | QMove => True | _ => False end.
Proof.
  unfold start_pc, incoming. destruct c; try (intros [= <-]; exact I); try (destruct (nth_error (objs s) o); [intros [= <-]; exact I|discriminate]).
  destruct (s_code m); try (intros [= <-]; exact I). destruct (s_sid m); intros [= <-]; exact I.
Qed.

Lemma invL h : InvL (final h).
Proof.
  apply state_ind.
  - split; try (intros [|] ? ?; discriminate). constructor.
  - intros s s' [LP LA LN ND] S. destruct S.
    1: { pose proof (start_pcs _ _ _ H) as SP. split; cbn; try exact ND; intros t th; rewrite nth_snoc; (destruct (Nat.eqb_spec t (length (ths s))); [|first [exact (LP t th)|exact (LA t th)|exact (LN t th)]]);
           intros E; injection E as <-; cbn; destruct q; try exact I; contradiction. }
    all: try srva; unf; try destruct (gone r) eqn:G; cbn in *.
    all: assert (P1 := LP _ _ H); assert (P2 := LA _ _ H); assert (P3 := LN _ _ H); rewrite H0 in P1, P2, P3.
    all: split; cbn; [eapply all_set; [eassumption| |]|eapply all_set; [eassumption| |]|eapply all_set; [eassumption| |]|]; cbn; auto.
    all: try (intros i x NX NE; specialize (LP _ _ NX); specialize (LA _ _ NX); specialize (LN _ _ NX); destruct (at_ x); auto; try congruence; fail).
    all: try (apply NoDup_set_add; exact ND).
    all: try (apply NoDup_filter; exact ND).
    all: try (destruct P2 as [P2 P2']).
    all: try (intros i x NX NE; specialize (LA _ _ NX); destruct (at_ x); auto; destruct LA as [LA LA']; congruence).
    all: try (inversion P3; subst; assumption).
    all: try (split; [assumption|]; intros b IB; cbn in P2'; first [apply P2'; right; exact IB | apply in_set_del; split; [intros ->; inversion P3; contradiction|apply P2'; right; exact IB]]).
Qed.

(** Assumptions of the property, all closed under taking a shorter history. *)
Section View.
Variables (a sid : nat).

Record Hyp (s : state) : Prop := {
  h_nd : no_deinit (tr s);
  h_one : forall o, sid_of s o = Some sid -> one_at_a_time (tr s) o;
  h_rel : reliable (tr s) a;
  h_un : never_unregistered (tr s) a }.

Lemma one_app l k o : one_at_a_time (l ++ k) o -> one_at_a_time l o.
Proof. intros H l1 t c l2 ->. apply (H l1 t c (l2 ++ k)). rewrite <- app_assoc. reflexivity. Qed.

Lemma Hyp_step s s' : step s s' -> Hyp s' -> Hyp s.
Proof.
  intros S [H1 H2 H3 H4]. destruct (step_tr _ _ S) as [k E]. split.
  - eapply no_deinit_step; eassumption.
  - intros o SO. apply (one_app _ k). rewrite <- E. apply H2. eapply sid_mono; eassumption.
  - intros x av r I. apply (H3 x av r). rewrite E. apply in_app_iff. auto.
  - intros t m I. apply (H4 t m). rewrite E. apply in_app_iff. auto.
Qed.

Lemma state_indH (P : state -> Prop) : P init ->
  (forall s s', InvP s -> InvT s -> InvD s -> InvL s -> Hyp s -> Hyp s' -> P s -> step s s' -> P s') -> forall h, Hyp (final h) -> P (final h).
Proof.
  intros P0 PS h. induction h as [|l h IH] using rev_ind; [intros _; exact P0|].
  rewrite final_snoc. destruct (next_step (final h) l) as [->|S]; [exact IH|]. intros HY. pose proof (Hyp_step _ _ S HY) as HY0.
  eapply PS; [apply invP|apply invT|apply invD; apply h_nd; exact HY0|apply invL|exact HY0|exact HY|apply IH; exact HY0|exact S].
Qed.

Definition av_sid (s : state) : availability := match get sid (provs s) with Some o => av_of s o | None => Unavailable end.
Definition view (s : state) : availability := says (sent_to a (tr s)) sid.

Definition serving (s : state) (th : thread) : Prop :=
  match at_ th with QSet o _ => sid_of s o = Some sid | QCheck x _ | QNotify x _ | QLoop x _ _ => x = sid | _ => False end.
Definition pendP (th : thread) : Prop :=
  match at_ th with QCheck x _ | QNotify x _ => x = sid | QLoop x _ td => x = sid /\ In a td | _ => False end.
Definition regP (th : thread) : Prop :=
  match at_ th with QRegLock b => b = a | QRegLoop b td => b = a /\ In sid (map fst td) | QRegSend b x td => b = a /\ (x = sid \/ In sid (map fst td)) | _ => False end.
Definition chkP (th : thread) : Prop := match at_ th with QCheck x _ => x = sid | _ => False end.
Definition some (P : thread -> Prop) (s : state) : Prop := exists t th, nth_error (ths s) t = Some th /\ P th.

Lemma serving_mono s s' th : InvT s -> step s s' -> (exists t, nth_error (ths s) t = Some th) -> serving s' th -> serving s th.
Proof.
  intros IT S [t N]. unfold serving. destruct (at_ th) eqn:A; auto. intros E. destruct (t_th _ IT _ _ N) as (c & _ & OK & _). rewrite A in OK. destruct OK as [_ L].
  unfold sid_of in *. destruct (nth_error (objs s) o) as [p|] eqn:NO; [|apply nth_error_None in NO; lia].
  pose proof (sid_mono s s' o (p_sid p) S) as M. unfold sid_of in M. rewrite NO in M. rewrite (M eq_refl) in E. exact E.
Qed.

(** The call of a serving thread. *)
Lemma serving_call s t th : InvT s -> InvD s -> no_deinit (tr s) -> nth_error (ths s) t = Some th -> serving s th ->
  exists o c, In (ECall t c) (tr s) /\ serve_call c o /\ sid_of s o = Some sid /\ at_ th <> QDone.
Proof.
  intros IT ID ND N SV. destruct (not_deinit _ _ _ IT ND N) as (c & I & (OK & _) & C & _). unfold serving in SV.
  assert (SR : forall o av, srv c o av -> serve_call c o). { intros o av [[-> _]|[[-> _]|[-> _]]]; [left|right|contradiction]; reflexivity. }
  destruct (at_ th) eqn:A; try contradiction; try subst sid0.
  - destruct OK as [OK _]. exists o, c. repeat split; auto; [eapply SR; exact OK|discriminate].
  - destruct OK as (o & OK & SO). exists o, c. repeat split; auto; [eapply SR; exact OK|discriminate].
  - destruct OK as (o & OK & SO). exists o, c. repeat split; auto; [eapply SR; exact OK|discriminate].
  - destruct OK as (o & OK & SO). exists o, c. repeat split; auto; [eapply SR; exact OK|discriminate].
Qed.

Lemma sid_inj s o o' : InvD s -> sid_of s o = Some sid -> sid_of s o' = Some sid -> o = o'.
Proof.
  intros [DA _] A B. unfold sid_of in *. destruct (nth_error (objs s) o) as [p|] eqn:N; [|discriminate]. destruct (nth_error (objs s) o') as [p'|] eqn:N'; [|discriminate].
  injection A as A. injection B as B. pose proof (DA _ _ N). pose proof (DA _ _ N'). congruence.
Qed.

Lemma idle_none s o t th : InvT s -> InvD s -> no_deinit (tr s) -> idle (tr s) o -> sid_of s o = Some sid -> nth_error (ths s) t = Some th -> ~ serving s th.
Proof.
  intros IT ID ND IDL SO N SV. destruct (serving_call _ _ _ IT ID ND N SV) as (o' & c & I & SC & SO' & Q).
  rewrite (sid_inj _ _ _ ID SO SO') in IDL. destruct (IDL _ _ I SC) as [v R]. destruct (t_ret _ IT _ _ R) as (th' & N' & D). congruence.
Qed.

(** At most one thread changes whether the service is served, and knows the current value. *)
Definition Uniq (s : state) : Prop := forall t t' th th', nth_error (ths s) t = Some th -> nth_error (ths s) t' = Some th' -> serving s th -> serving s th' -> t = t'.
Definition Cur (s : state) : Prop := forall t th, nth_error (ths s) t = Some th ->
  match at_ th with QCheck x av | QNotify x av | QLoop x av _ => x = sid -> av_sid s = av | _ => True end.

Lemma uniq_run s s' t th th' : InvT s -> step s s' -> nth_error (ths s) t = Some th -> ths s' = set_nth t th' (ths s) ->
  (serving s' th' -> serving s th) -> Uniq s -> Uniq s'.
Proof.
  intros IT S N TE IMP U t1 t2 th1 th2 N1 N2 S1 S2. rewrite TE, (nth_set _ _ _ _ _ N) in N1. rewrite TE, (nth_set _ _ _ _ _ N) in N2.
  assert (X1 : exists x, nth_error (ths s) t1 = Some x /\ serving s x).
  { destruct (Nat.eqb_spec t t1) as [<-|]; [exists th; injection N1 as <-; auto|]. exists th1. split; [exact N1|]. eapply serving_mono; eauto. }
  assert (X2 : exists x, nth_error (ths s) t2 = Some x /\ serving s x).
  { destruct (Nat.eqb_spec t t2) as [<-|]; [exists th; injection N2 as <-; auto|]. exists th2. split; [exact N2|]. eapply serving_mono; eauto. }
  destruct X1 as (x1 & A1 & B1), X2 as (x2 & A2 & B2). eapply U; eassumption.
Qed.

Lemma av_get_new s o : InvD s -> get sid (provs s) = Some o -> InvP s -> o < length (objs s).
Proof. intros ID G IP. destruct (p_map _ IP _ _ G) as [A _]. unfold sid_of in A. destruct (nth_error (objs s) o) eqn:N; [|discriminate]. eapply nth_lt; exact N. Qed.

(** How [av_sid] changes. *)
Lemma av_step s s' : InvP s -> InvT s -> InvD s -> no_deinit (tr s) -> step s s' -> av_sid s' = av_sid s \/
  (exists t th o av, nth_error (ths s) t = Some th /\ at_ th = QSet o av /\ sid_of s o = Some sid /\ av_sid s' = av /\ ths s' = set_nth t (Th (QCheck sid av) (rest th) (fin th)) (ths s)
     /\ addrs s' = addrs s /\ tr s' = tr s /\ plock s' = plock s).
Proof.
  intros IP IT ID ND S. unfold av_sid. destruct S; try (left; reflexivity); try (left; srva; reflexivity).
  - left. unf. cbn. rewrite get_put. destruct (Nat.eqb_spec sid sid0) as [<-|].
    + rewrite H2. unfold av_of. cbn. rewrite nth_snoc, Nat.eqb_refl. reflexivity.
    + destruct (get sid (provs s)) as [o|] eqn:G; [|reflexivity]. pose proof (av_get_new _ _ ID G IP). unfold av_of. cbn. rewrite nth_snoc.
      destruct (Nat.eqb_spec o (length (objs s))); [lia|reflexivity].
  - unf. cbn. destruct (get sid (provs s)) as [o'|] eqn:G; [|left; reflexivity]. unfold av_of. cbn. rewrite (nth_set _ _ _ _ _ H1).
    destruct (Nat.eqb_spec o o') as [<-|]; [|left; reflexivity]. right. exists t, th, o, av. pose proof (p_map _ IP _ _ G) as [SO _].
    assert (PS : p_sid p = sid) by (unfold sid_of in SO; rewrite H1 in SO; injection SO as SO; exact SO). rewrite PS. repeat split; auto.
  - left. destruct (gone r); reflexivity.
  - exfalso. destruct (not_deinit _ _ _ IT ND H) as (c & _ & OK & C & _). unfold okth in OK. rewrite H0 in OK. destruct OK as [OK _]. contradiction.
Qed.

Lemma uniq h : Hyp (final h) -> Uniq (final h).
Proof.
  apply (state_indH Uniq); [intros [|] ? ? ?; discriminate|].
  intros s s' IP IT ID IL HY HY' U S. assert (S0 := S). destruct S.
  - pose proof (start_pcs _ _ _ H) as SP.
    assert (X : (exists o, serve_call c o /\ sid_of s o = Some sid) \/ ~ serving s (Th q [] [])).
    { unfold serving. cbn. destruct q; try (right; intros []; fail); try contradiction. unfold start_pc in H.
      destruct c as [| |o'|o'|m|]; try discriminate.
      - destruct (nth_error (objs s) o') eqn:N; [|discriminate]. injection H as <- <-. unfold sid_of. rewrite N. cbn.
        destruct (Nat.eq_dec (p_sid p) sid) as [<-|NE]; [left; exists o'; rewrite N; split; [left; reflexivity|reflexivity]|right; congruence].
      - destruct (nth_error (objs s) o') eqn:N; [|discriminate]. injection H as <- <-. unfold sid_of. rewrite N. cbn.
        destruct (Nat.eq_dec (p_sid p) sid) as [<-|NE]; [left; exists o'; rewrite N; split; [right; reflexivity|reflexivity]|right; congruence].
      - exfalso. unfold incoming in H. destruct (s_code m); try discriminate. destruct (s_sid m); discriminate. }
    intros t1 t2 th1 th2 N1 N2 S1 S2. cbn in N1, N2. rewrite nth_snoc in N1. rewrite nth_snoc in N2.
    assert (OLDSV : forall t th, nth_error (ths s) t = Some th -> serving s th -> (exists o, serve_call c o /\ sid_of s o = Some sid) -> False).
    { intros t th N SV (o & SC & SO). eapply (idle_none s o t th IT ID (h_nd _ HY)); try eassumption.
      apply (h_one _ HY' o) with (l1 := tr s) (t := length (ths s)) (c := c) (l2 := []); [exact SO|reflexivity|exact SC]. }
    assert (EQ : forall th, serving s th -> serving s th) by auto.
    change (serving s th1) in S1. change (serving s th2) in S2.
    destruct (Nat.eqb_spec t1 (length (ths s))) as [->|], (Nat.eqb_spec t2 (length (ths s))) as [->|]; [reflexivity| | |eapply U; eassumption].
    + injection N1 as <-. destruct X as [X|X]; [destruct (OLDSV _ _ N2 S2 X)|contradiction].
    + injection N2 as <-. destruct X as [X|X]; [destruct (OLDSV _ _ N1 S1 X)|contradiction].
  - eapply uniq_run; [exact IT|exact S0|exact H|reflexivity|intros []|exact U].
  - eapply uniq_run; [exact IT|exact S0|exact H|reflexivity|intros []|exact U].
  - eapply uniq_run; [exact IT|exact S0|exact H|reflexivity|intros []|exact U].
  - eapply uniq_run; [exact IT|exact S0|exact H|reflexivity| |exact U]. unfold serving. cbn. rewrite H0. unfold sid_of. rewrite H1. cbn. congruence.
  - eapply uniq_run; [exact IT|exact S0|exact H|reflexivity| |exact U]. unfold serving. cbn. rewrite H0. auto.
  - destruct (not_deinit _ _ _ IT (h_nd _ HY) H) as (c & _ & _ & _ & R1 & R2). unfold served in *. rewrite R1, R2 in *.
    eapply uniq_run; [exact IT|exact S0|exact H|reflexivity|intros []|exact U].
  - eapply uniq_run; [exact IT|exact S0|exact H|reflexivity| |exact U]. unfold serving. cbn. rewrite H0. auto.
  - destruct (not_deinit _ _ _ IT (h_nd _ HY) H) as (c & _ & _ & _ & R1 & R2). unfold served in *. rewrite R1, R2 in *.
    eapply uniq_run; [exact IT|exact S0|exact H|reflexivity|intros []|exact U].
  - eapply uniq_run; [exact IT|exact S0|exact H|destruct (gone r); reflexivity| |exact U]. unfold serving. cbn. rewrite H0. auto.
  - eapply uniq_run; [exact IT|exact S0|exact H|reflexivity|intros []|exact U].
  - eapply uniq_run; [exact IT|exact S0|exact H|reflexivity|intros []|exact U].
  - eapply uniq_run; [exact IT|exact S0|exact H|reflexivity|intros []|exact U].
  - eapply uniq_run; [exact IT|exact S0|exact H|reflexivity|intros []|exact U].
  - eapply uniq_run; [exact IT|exact S0|exact H|reflexivity|intros []|exact U].
  - eapply uniq_run; [exact IT|exact S0|exact H|reflexivity|intros []|exact U].
  - eapply uniq_run; [exact IT|exact S0|exact H|reflexivity|intros []|exact U].
  - eapply uniq_run; [exact IT|exact S0|exact H|reflexivity|intros []|exact U].
  - eapply uniq_run; [exact IT|exact S0|exact H|reflexivity|intros []|exact U].
  - eapply uniq_run; [exact IT|exact S0|exact H|reflexivity|intros []|exact U].
  - eapply uniq_run; [exact IT|exact S0|exact H|reflexivity|intros []|exact U].
  - eapply uniq_run; [exact IT|exact S0|exact H|reflexivity|intros []|exact U].
  - eapply uniq_run; [exact IT|exact S0|exact H|reflexivity|intros []|exact U].
  - eapply uniq_run; [exact IT|exact S0|exact H|reflexivity|intros []|exact U].
  - exfalso. destruct (not_deinit _ _ _ IT (h_nd _ HY) H) as (c & _ & OK & C & _). unfold okth in OK. rewrite H0 in OK. destruct OK as [OK _]. contradiction.
  - eapply uniq_run; [exact IT|exact S0|exact H|reflexivity|intros []|exact U].
  - eapply uniq_run; [exact IT|exact S0|exact H|reflexivity|intros []|exact U].
Qed.


Lemma av_set s t th o av p : InvD s -> nth_error (objs s) o = Some p -> p_sid p = sid ->
  av_sid (goto (set_objs s (set_nth o (Prov (p_sid p) av) (objs s))) t th (QCheck (p_sid p) av)) = av.
Proof.
  intros ID N E. pose proof (d_all _ ID _ _ N) as G. rewrite E in G. unfold av_sid. unf. cbn. rewrite G. unfold av_of. cbn.
  rewrite (nth_set _ _ _ _ _ N), Nat.eqb_refl. reflexivity.
Qed.

Lemma state_indU (P : state -> Prop) : P init ->
  (forall s s', InvP s -> InvT s -> InvD s -> InvL s -> Hyp s -> Hyp s' -> Uniq s -> P s -> step s s' -> P s') -> forall h, Hyp (final h) -> P (final h).
Proof.
  intros P0 PS h. induction h as [|l h IH] using rev_ind; [intros _; exact P0|].
  rewrite final_snoc. destruct (next_step (final h) l) as [->|S]; [exact IH|]. intros HY. pose proof (Hyp_step _ _ S HY) as HY0.
  eapply PS; [apply invP|apply invT|apply invD; apply h_nd; exact HY0|apply invL|exact HY0|exact HY|apply uniq; exact HY0|apply IH; exact HY0|exact S].
Qed.

Lemma cur h : Hyp (final h) -> Cur (final h).
Proof.
  apply (state_indU Cur); [intros [|] ? ?; discriminate|].
  intros s s' IP IT ID IL HY HY' U C S.
  assert (NEWC : forall t th th', nth_error (ths s) t = Some th -> ths s' = set_nth t th' (ths s) ->
    (match at_ th' with QCheck x av | QNotify x av | QLoop x av _ => x = sid -> av_sid s' = av | _ => True end) -> Cur s').
  { intros t th th' N TE OK i x NX. rewrite TE, (nth_set _ _ _ _ _ N) in NX. destruct (Nat.eqb_spec t i) as [<-|NE]; [injection NX as <-; exact OK|].
    specialize (C _ _ NX). destruct (av_step s s' IP IT ID (h_nd _ HY) S) as [E|(t0 & th0 & o & av & N0 & A0 & SO & E & T0 & _)].
    - rewrite E. exact C.
    - assert (T0t : forall th1, nth_error (ths s) i = Some th1 -> serving s th1 -> i = t0).
      { intros th1 N1 SV. eapply U; [exact N1|exact N0|exact SV|]. unfold serving. rewrite A0. exact SO. }
      assert (NX' : nth_error (ths s') i = Some x) by (rewrite TE, (nth_set _ _ _ _ _ N); destruct (Nat.eqb_spec t i); [contradiction|exact NX]).
      rewrite T0, (nth_set _ _ _ _ _ N0) in NX'.
      destruct (at_ x) eqn:AX; try exact I; intros ->; (assert (EI : i = t0) by (apply (T0t _ NX); unfold serving; rewrite AX; reflexivity));
        subst i; rewrite Nat.eqb_refl in NX'; injection NX' as <-; cbn in AX; congruence. }
  destruct S.
  1: { intros i x. cbn. rewrite nth_snoc. destruct (Nat.eqb_spec i (length (ths s))); [|exact (C i x)]. intros E; injection E as <-. cbn.
       pose proof (start_pcs _ _ _ H) as SP. destruct q; try exact I; contradiction. }
  all: try srva; try destruct (gone r); (eapply NEWC; [eassumption|reflexivity|]); cbn; try exact I.
  - intros E. apply av_set; assumption.
  - specialize (C _ _ H). rewrite H0 in C. exact C.
  - specialize (C _ _ H). rewrite H0 in C. exact C.
  - specialize (C _ _ H). rewrite H0 in C. exact C.
  - specialize (C _ _ H). rewrite H0 in C. exact C.
Qed.

(** Views. *)
Lemma sent_app l k : sent_to a (l ++ k) = sent_to a l ++ sent_to a k.
Proof. apply flat_map_app. Qed.
Lemma says_snoc ms x v y : says (ms ++ [(x, v)]) y = if Nat.eqb y x then v else says ms y.
Proof. unfold says. rewrite fold_left_app. reflexivity. Qed.

Definition regging (th : thread) : Prop := match at_ th with QRegLock b | QRegLoop b _ | QRegSend b _ _ => b = a | _ => False end.
Definition sending (th : thread) : Prop := match at_ th with QRegSend b x _ => b = a /\ x = sid | _ => False end.

Record V (s : state) : Prop := {
  v_reg : some regging s -> In a (addrs s);
  v_out : ~ In a (addrs s) -> view s = Unavailable;
  v_i : view s = Available -> av_sid s <> Available -> some pendP s;
  v_ii : av_sid s = Available -> view s <> Available -> In a (addrs s) -> some pendP s \/ some regP s;
  v_iii : some sending s -> av_sid s = Available \/ some chkP s;
  v_val : view s <> Unknown }.

Lemma some_keep (P : thread -> Prop) (R : Prop) s s' t th th' : nth_error (ths s) t = Some th -> ths s' = set_nth t th' (ths s) -> (P th -> P th' \/ R) -> some P s -> some P s' \/ R.
Proof.
  intros N TE IMP (i & x & NX & PX). destruct (Nat.eqb_spec t i) as [<-|NE].
  - assert (x = th) by congruence. subst x. destruct (IMP PX) as [P'|]; [left|auto]. exists t, th'. rewrite TE, (nth_set _ _ _ _ _ N), Nat.eqb_refl. auto.
  - left. exists i, x. rewrite TE, (nth_set _ _ _ _ _ N). destruct (Nat.eqb_spec t i); [contradiction|auto].
Qed.
Lemma some_back (P : thread -> Prop) s s' t th th' : nth_error (ths s) t = Some th -> ths s' = set_nth t th' (ths s) -> some P s' -> some P s \/ P th'.
Proof.
  intros N TE (i & x & NX & PX). rewrite TE, (nth_set _ _ _ _ _ N) in NX. destruct (Nat.eqb_spec t i) as [<-|NE].
  - injection NX as <-. auto.
  - left. exists i, x. auto.
Qed.
Lemma some_new (P : thread -> Prop) s s' t th th' : nth_error (ths s) t = Some th -> ths s' = set_nth t th' (ths s) -> P th' -> some P s'.
Proof. intros N TE PX. exists t, th'. rewrite TE, (nth_set _ _ _ _ _ N), Nat.eqb_refl. auto. Qed.

Lemma no_sending s : InvL s -> plock s = None -> ~ some sending s.
Proof.
  intros IL PL (t & th & N & SD). pose proof (l_p _ IL _ _ N) as P. unfold sending in SD. destruct (at_ th); try contradiction. congruence.
Qed.

Lemma frameV s s' t th th' : InvL s -> V s -> nth_error (ths s) t = Some th -> ths s' = set_nth t th' (ths s) ->
  av_sid s' = av_sid s -> (In a (addrs s') <-> In a (addrs s)) ->
  (view s' = view s \/ (view s' = av_sid s' /\ In a (addrs s)) \/ (view s' = Available /\ some pendP s' /\ In a (addrs s))) -> view s' <> Unknown ->
  (pendP th -> In a (addrs s) -> pendP th' \/ view s' = av_sid s') -> (regP th -> regP th' \/ av_sid s' <> Available \/ view s' = Available) ->
  (chkP th -> chkP th' \/ plock s = None) ->
  (regging th' -> In a (addrs s)) -> (sending th' -> av_sid s' = Available) -> V s'.
Proof.
  intros IL [VR VO VI VII VIII VV] N TE AV AD VW VU PP RP CP RG SD. split.
  - intros R. apply AD. destruct (some_back _ _ _ _ _ _ N TE R) as [R'|R']; [apply VR; exact R'|apply RG; exact R'].
  - intros NA. destruct VW as [E|[[_ I]|[_ [_ I]]]]; [rewrite E; apply VO; rewrite <- AD; exact NA|exfalso; apply NA, AD, I..].
  - intros E NE. destruct VW as [EV|[[EV I]|[_ [PD _]]]]; [|congruence|exact PD].
    assert (IA : In a (addrs s)). { destruct (in_dec Nat.eq_dec a (addrs s)) as [I|I]; [exact I|]. rewrite EV, (VO I) in E. discriminate. }
    destruct (some_keep pendP _ _ _ _ _ _ N TE (fun p => PP p IA)) as [PD|EQ]; [apply VI; congruence|exact PD|congruence].
  - intros E NE IA. destruct VW as [EV|[[EV I]|[EV _]]]; [|congruence|congruence].
    destruct VII as [PD|RD]; [congruence|congruence|apply AD; exact IA| |].
    + destruct (some_keep pendP _ _ _ _ _ _ N TE (fun p => PP p (proj1 AD IA)) PD) as [PD'|EQ]; [left; exact PD'|congruence].
    + destruct (some_keep regP _ _ _ _ _ _ N TE RP RD) as [RD'|[EQ|EQ]]; [right; exact RD'|congruence|congruence].
  - intros R. destruct (some_back _ _ _ _ _ _ N TE R) as [R'|R']; [|left; apply SD; exact R'].
    destruct (VIII R') as [E|CH]; [left; congruence|]. destruct (some_keep chkP _ _ _ _ _ _ N TE CP CH) as [CH'|PL]; [right; exact CH'|destruct (no_sending _ IL PL R')].
  - exact VU.
Qed.

Lemma setV s s' t th th' : V s -> nth_error (ths s) t = Some th -> ths s' = set_nth t th' (ths s) ->
  addrs s' = addrs s -> view s' = view s -> chkP th' -> pendP th' -> ~ regging th' -> V s'.
Proof.
  intros [VR VO VI VII VIII VV] N TE AD VW CH PD RG.
  assert (SP : some pendP s') by (eapply some_new; eassumption). assert (SC : some chkP s') by (eapply some_new; eassumption).
  split; auto.
  - rewrite AD. intros R. destruct (some_back _ _ _ _ _ _ N TE R) as [R'|R']; [auto|contradiction].
  - rewrite AD, VW. exact VO.
  - rewrite VW. exact VV.
Qed.

Lemma not_av s sid0 : InvT s -> InvP s -> InvD s -> no_deinit (tr s) -> forall t th av, nth_error (ths s) t = Some th -> at_ th = QCheck sid0 av -> get sid0 (provs s) <> None.
Proof.
  intros IT IP ID ND t th av N A G. destruct (not_deinit _ _ _ IT ND N) as (c & _ & (OK & _) & _). rewrite A in OK. destruct OK as (o & _ & SO).
  unfold sid_of in SO. destruct (nth_error (objs s) o) as [p|] eqn:NO; [|discriminate]. injection SO as <-. rewrite (d_all _ ID _ _ NO) in G. discriminate.
Qed.

Lemma invV h : Hyp (final h) -> V (final h).
Proof.
  intros HYP. assert (CU := cur h HYP). revert CU. revert HYP.
  enough (E : Hyp (final h) -> Cur (final h) /\ V (final h)) by (intros HY _; apply E; exact HY).
  induction h as [|l h IH] using rev_ind.
  { intros _. split; [intros [|] ? ?; discriminate|]. split; cbn; try (intros (i & x & NX & _); destruct i; discriminate); try discriminate; try reflexivity. }
  intros HY'. split; [apply cur; exact HY'|]. rewrite final_snoc in *. destruct (next_step (final h) l) as [E|S]; [rewrite E in *; apply IH; exact HY'|].
  pose proof (Hyp_step _ _ S HY') as HY. destruct (IH HY) as [CU VS]. clear IH.
  pose proof (invP h) as IP. pose proof (invT h) as IT. pose proof (invD h (h_nd _ HY)) as ID. pose proof (invL h) as IL.
  set (s := final h) in *. clearbody s. remember (next s l) as s' eqn:ES. clear ES l.
  pose proof (av_step s s' IP IT ID (h_nd _ HY) S) as AVS. assert (VU := v_val _ VS).
  assert (NDI : forall t th, nth_error (ths s) t = Some th -> rest th = [] /\ fin th = []).
  { intros t th N. destruct (not_deinit _ _ _ IT (h_nd _ HY) N) as (c & _ & _ & _ & R). exact R. }
  assert (UNR : forall t th m, nth_error (ths s) t = Some th -> at_ th = QUnErase m -> s_src m <> a).
  { intros t th m N A. destruct (not_deinit _ _ _ IT (h_nd _ HY) N) as (c & IC & (OK & _) & _). rewrite A in OK. destruct OK as [-> OK]. intros E. apply (h_un _ HY _ _ IC). rewrite <- E. exact OK. }
  destruct AVS as [AV|(t & th & o & av & N & A & SO & AV & TE & AD & TR & _)].
  2: { eapply setV; [exact VS|exact N|exact TE|exact AD|unfold view; rewrite TR; reflexivity|..]; unfold chkP, pendP, regging; cbn; auto. }
  destruct S.
  { (* call *)
    pose proof (start_pcs _ _ _ H) as SP.
    assert (FW : forall P, some P s -> some P (St (objs s) (provs s) (addrs s) (plock s) (alock s) (ths s ++ [Th q [] []]) (tr s ++ [ECall (length (ths s)) c]))).
    { intros P (i & x & NX & PX). exists i, x. cbn. rewrite nth_snoc. apply nth_lt in NX as L. destruct (Nat.eqb_spec i (length (ths s))); [lia|auto]. }
    assert (BW : forall P, some P (St (objs s) (provs s) (addrs s) (plock s) (alock s) (ths s ++ [Th q [] []]) (tr s ++ [ECall (length (ths s)) c])) -> ~ P (Th q [] []) -> some P s).
    { intros P (i & x & NX & PX) NP. cbn in NX. rewrite nth_snoc in NX. destruct (Nat.eqb_spec i (length (ths s))); [injection NX as <-; contradiction|exists i, x; auto]. }
    assert (VW : view (St (objs s) (provs s) (addrs s) (plock s) (alock s) (ths s ++ [Th q [] []]) (tr s ++ [ECall (length (ths s)) c])) = view s).
    { unfold view. cbn [tr]. rewrite sent_app. cbn. rewrite app_nil_r. reflexivity. }
    destruct VS as [VR VO VI VII VIII VV]. split; rewrite ?VW; rewrite ?AV; cbn [addrs].
    - intros R. apply VR, (BW _ R). unfold regging. cbn. destruct q; try contradiction; auto.
    - exact VO.
    - intros E1 E2. apply FW, VI; assumption.
    - intros E1 E2 E3. destruct (VII E1 E2 E3); [left|right]; apply FW; assumption.
    - intros R. destruct (VIII (BW _ R ltac:(unfold sending; cbn; destruct q; try contradiction; auto))); [left; assumption|right; apply FW; assumption].
    - exact VV. }
  all: try (match goal with H0 : at_ _ = QMove |- _ => idtac end; exfalso; destruct (not_deinit _ _ _ IT (h_nd _ HY) H) as (c & _ & OK & C & _); unfold okth in OK; rewrite H0 in OK; destruct OK as [OK _]; contradiction).
  all: try (match goal with |- V (served _ _ _) => idtac end; destruct (NDI _ _ H) as [R1 R2]; unfold served in *; rewrite R1, R2 in * ).
  all: assert (VSAME : forall s1 k, tr s1 = tr s ++ k -> sent_to a k = [] -> view s1 = view s)
    by (intros s1 k E1 E2; unfold view; rewrite E1, sent_app, E2, app_nil_r; reflexivity).
  all: assert (VSAME0 : forall s1, tr s1 = tr s -> view s1 = view s)
    by (intros s1 E1; unfold view; rewrite E1; reflexivity).
  Ltac fr IL VS H AV VSAME VSAME0 VU :=
    match goal with |- V ?s1 => let W := fresh "W" in assert (W : view s1 = view _) by
      (first [apply VSAME0; reflexivity | eapply VSAME; [unf; cbn; rewrite <- ?app_assoc; reflexivity|reflexivity]]);
      eapply frameV; [exact IL|exact VS|exact H|reflexivity|exact AV| |left; exact W|rewrite W; exact VU|..] end.
  all: try (match goal with H0 : at_ _ = QCheck _ _, H2 : get _ _ = None |- _ => exfalso; exact (not_av s _ IT IP ID (h_nd _ HY) _ _ _ H H0 H2) end).
  all: try (match goal with H0 : at_ _ = ?q |- _ => match q with QSet _ _ => fail 1 | QLoop _ _ (_ :: _) => fail 1 | QRegSend _ _ _ => fail 1 | QRegIns _ => fail 1 | QUnErase _ => fail 1 | QRegLoop _ (_ :: _) => fail 1 | QRegLock _ => fail 1 | _ => idtac end end;
     fr IL VS H AV VSAME VSAME0 VU;
     [cbn; tauto
     |unfold pendP; rewrite H0; cbn; auto; try tauto
     |unfold regP; rewrite H0; cbn; auto; try tauto
     |unfold chkP; rewrite H0; cbn; auto; try tauto
     |unfold regging; cbn; try tauto
     |unfold sending; cbn; try tauto]).
  - (* set *)
    destruct (Nat.eq_dec (p_sid p) sid) as [E|NE].
    + eapply setV; [exact VS|exact H|reflexivity|reflexivity|apply VSAME0; reflexivity|..]; unfold chkP, pendP, regging; cbn; auto.
    + fr IL VS H AV VSAME VSAME0 VU; [cbn; tauto|unfold pendP; rewrite H0; tauto|unfold regP; rewrite H0; tauto|unfold chkP; rewrite H0; tauto|unfold regging; cbn; tauto|unfold sending; cbn; tauto].
  - (* send to a0 *)
    assert (ADD : gone r = true -> a0 <> a).
    { intros G ->. pose proof (h_rel _ HY' sid0 av r) as RR. rewrite RR in G; [discriminate|]. cbn. apply in_app_iff. right. left. reflexivity. }
    assert (TE : ths (say (goto (if gone r then set_addrs s (set_del a0 (addrs s)) else s) t th (QLoop sid0 av l)) [ESend a0 sid0 av r]) = set_nth t (Th (QLoop sid0 av l) (rest th) (fin th)) (ths s)) by (destruct (gone r); reflexivity).
    assert (ADE : In a (addrs (say (goto (if gone r then set_addrs s (set_del a0 (addrs s)) else s) t th (QLoop sid0 av l)) [ESend a0 sid0 av r])) <-> In a (addrs s)).
    { destruct (gone r); cbn; [|tauto]. rewrite in_set_del. specialize (ADD eq_refl). intuition congruence. }
    assert (VW : view (say (goto (if gone r then set_addrs s (set_del a0 (addrs s)) else s) t th (QLoop sid0 av l)) [ESend a0 sid0 av r]) = if Nat.eqb a a0 && Nat.eqb sid sid0 then av else view s).
    { unfold view. assert (TRE : tr (say (goto (if gone r then set_addrs s (set_del a0 (addrs s)) else s) t th (QLoop sid0 av l)) [ESend a0 sid0 av r]) = tr s ++ [ESend a0 sid0 av r]) by (destruct (gone r); reflexivity).
      rewrite TRE, sent_app. cbn [sent_to flat_map]. rewrite app_nil_r. destruct (Nat.eqb a a0); cbn [andb]; [rewrite says_snoc; reflexivity|rewrite app_nil_r; reflexivity]. }
    pose proof (CU _ _ H) as CUT. rewrite H0 in CUT. pose proof (l_a _ IL _ _ H) as LA. rewrite H0 in LA. destruct LA as [_ LA].
    assert (AVK : av <> Unknown).
    { destruct (not_deinit _ _ _ IT (h_nd _ HY) H) as (c & _ & (OK & _) & _). rewrite H0 in OK. destruct OK as (o & [[_ ->]|[[_ ->]|[_ ->]]] & _); discriminate. }
    eapply frameV; [exact IL|exact VS|exact H|exact TE|exact AV|exact ADE|..].
    + rewrite VW, AV. destruct (Nat.eqb_spec a a0) as [<-|]; [|left; reflexivity]. destruct (Nat.eqb_spec sid sid0) as [<-|]; [|left; reflexivity].
      right. left. split; [symmetry; apply CUT; reflexivity|apply LA; left; reflexivity].
    + rewrite VW. destruct (_ && _); assumption.
    + unfold pendP. rewrite H0. cbn [at_ In]. intros [-> [->|IN]] _; [|left; auto]. right. rewrite VW, AV, !Nat.eqb_refl. symmetry. apply CUT. reflexivity.
    + unfold regP. rewrite H0. tauto.
    + unfold chkP. rewrite H0. tauto.
    + unfold regging. cbn. tauto.
    + unfold sending. cbn. tauto.
  - (* insert *)
    destruct (Nat.eq_dec a0 a) as [->|NE].
    + assert (VW : view (goto (set_addrs s (set_add a (addrs s))) t th (QRegLock a)) = view s) by reflexivity.
      assert (TE : ths (goto (set_addrs s (set_add a (addrs s))) t th (QRegLock a)) = set_nth t (Th (QRegLock a) (rest th) (fin th)) (ths s)) by reflexivity.
      assert (IA : In a (addrs (goto (set_addrs s (set_add a (addrs s))) t th (QRegLock a)))) by (cbn; apply in_set_add; auto).
      destruct VS as [VR VO VI VII VIII VV]. split.
      * intros _. exact IA.
      * contradiction.
      * intros E1 E2. destruct (some_keep pendP False _ _ _ _ _ H TE) as [PD|[]]; [unfold pendP; rewrite H0; tauto|apply VI; [exact E1|congruence]|exact PD].
      * intros E1 E2 _. right. eapply some_new; [exact H|exact TE|]. reflexivity.
      * intros R. destruct (some_back _ _ _ _ _ _ H TE R) as [R'|[]]. destruct (VIII R') as [E|CH]; [left; congruence|right].
        destruct (some_keep chkP False _ _ _ _ _ H TE) as [CD|[]]; [unfold chkP; rewrite H0; tauto|exact CH|exact CD].
      * exact VV.
    + fr IL VS H AV VSAME VSAME0 VU; [cbn; rewrite in_set_add; intuition congruence|unfold pendP; rewrite H0; tauto|unfold regP; rewrite H0; tauto|unfold chkP; rewrite H0; tauto|unfold regging; cbn; tauto|unfold sending; cbn; tauto].
  - (* lock *)
    assert (RG : a0 = a -> In a (addrs s)) by (intros E; apply (v_reg _ VS); exists t, th; split; [exact H|unfold regging; rewrite H0; exact E]).
    fr IL VS H AV VSAME VSAME0 VU; [cbn; tauto|unfold pendP; rewrite H0; tauto| |unfold chkP; rewrite H0; tauto|unfold regging; cbn; exact RG|unfold sending; cbn; tauto].
    unfold regP. rewrite H0. cbn [at_ map fst In]. intros ->. destruct (get sid (provs s)) as [o|] eqn:G.
    + left. split; [reflexivity|]. apply get_in in G. apply in_map_iff. exists (sid, o). auto.
    + right. left. rewrite AV. unfold av_sid. rewrite G. discriminate.
  - (* found available *)
    assert (RG : a0 = a -> In a (addrs s)) by (intros E; apply (v_reg _ VS); exists t, th; split; [exact H|unfold regging; rewrite H0; exact E]).
    pose proof (d_todo _ ID _ _ H) as SB. rewrite H0 in SB. pose proof (SB sid0 o (or_introl eq_refl)) as G.
    fr IL VS H AV VSAME VSAME0 VU; [cbn; tauto|unfold pendP; rewrite H0; tauto| |unfold chkP; rewrite H0; tauto|unfold regging; cbn; exact RG|].
    + unfold regP. rewrite H0. cbn [at_ map fst In]. intros [-> [->|I]]; left; auto.
    + unfold sending. cbn. intros [-> ->]. rewrite AV. unfold av_sid. rewrite G. exact H1.
  - (* found unavailable *)
    assert (RG : a0 = a -> In a (addrs s)) by (intros E; apply (v_reg _ VS); exists t, th; split; [exact H|unfold regging; rewrite H0; exact E]).
    pose proof (d_todo _ ID _ _ H) as SB. rewrite H0 in SB. pose proof (SB sid0 o (or_introl eq_refl)) as G.
    fr IL VS H AV VSAME VSAME0 VU; [cbn; tauto|unfold pendP; rewrite H0; tauto| |unfold chkP; rewrite H0; tauto|unfold regging; cbn; exact RG|unfold sending; cbn; tauto].
    unfold regP. rewrite H0. cbn [at_ map fst In]. intros [-> [->|I]]; [|left; auto]. right. left. rewrite AV. unfold av_sid. rewrite G. exact H1.
  - (* send Available to a0 *)
    assert (RG : a0 = a -> In a (addrs s)) by (intros E; apply (v_reg _ VS); exists t, th; split; [exact H|unfold regging; rewrite H0; exact E]).
    assert (VW : view (say (goto s t th (QRegLoop a0 l)) [ESend a0 sid0 Available r]) = if Nat.eqb a a0 && Nat.eqb sid sid0 then Available else view s).
    { unfold view. cbn [tr say goto]. rewrite sent_app. cbn [sent_to flat_map]. rewrite app_nil_r. destruct (Nat.eqb a a0); cbn [andb]; [rewrite says_snoc; reflexivity|rewrite app_nil_r; reflexivity]. }
    assert (TE : ths (say (goto s t th (QRegLoop a0 l)) [ESend a0 sid0 Available r]) = set_nth t (Th (QRegLoop a0 l) (rest th) (fin th)) (ths s)) by reflexivity.
    eapply frameV; [exact IL|exact VS|exact H|exact TE|exact AV|cbn; tauto|..].
    + rewrite VW, AV. destruct (Nat.eqb_spec a a0) as [<-|]; [|left; reflexivity]. destruct (Nat.eqb_spec sid sid0) as [<-|]; [|left; reflexivity]. cbn [andb].
      destruct (v_iii _ VS) as [E|CH]; [exists t, th; split; [exact H|unfold sending; rewrite H0; auto]| |].
      * right. left. split; [congruence|apply RG; reflexivity].
      * right. right. split; [reflexivity|]. split; [|apply RG; reflexivity].
        destruct (some_keep chkP False _ _ _ _ _ H TE) as [CD|[]]; [unfold chkP; rewrite H0; tauto|exact CH|].
        destruct CD as (i & x & NX & CX). exists i, x. split; [exact NX|]. unfold chkP, pendP in *. destruct (at_ x); try contradiction. exact CX.
    + rewrite VW. destruct (_ && _); [discriminate|assumption].
    + unfold pendP. rewrite H0. tauto.
    + unfold regP. rewrite H0. cbn [at_ map fst In]. intros [-> [->|I]]; [right; right; rewrite VW, !Nat.eqb_refl; reflexivity|left; auto].
    + unfold chkP. rewrite H0. tauto.
    + unfold regging. cbn. exact RG.
    + unfold sending. cbn. tauto.
  - (* erase *)
    pose proof (UNR _ _ _ H H0) as NE.
    fr IL VS H AV VSAME VSAME0 VU; [cbn; rewrite in_set_del; intuition congruence|unfold pendP; rewrite H0; tauto|unfold regP; rewrite H0; tauto|unfold chkP; rewrite H0; tauto|unfold regging; cbn; tauto|unfold sending; cbn; tauto].
Qed.

End View.
