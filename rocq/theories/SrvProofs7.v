(** Server: what is sent to clients; clients that left. *)
From Verif Require Import ListUtil SrvModel SrvSpec SrvSpec2 SrvProofs SrvProofs2 SrvProofs3 SrvProofs4 SrvProofs5 SrvProofs6.

Lemma in_step s s' e : step s s' -> In e (tr s) -> In e (tr s').
Proof. intros S I. destruct (step_tr _ _ S) as [k ->]. apply in_app_iff. auto. Qed.

(** Every provider was handed out; every registered address registered; every available provider was started. *)
Record InvS (s : state) : Prop := {
  s_obj : forall o p, nth_error (objs s) o = Some p -> got (tr s) (p_sid p) o;
  s_adr : forall a, In a (addrs s) -> exists t m, In (ECall t (CIn m)) (tr s) /\ is_register m a;
  s_av : forall o p, nth_error (objs s) o = Some p -> p_av p = Available -> exists t, In (ECall t (CStart o)) (tr s);
  s_snd : forall t th, nth_error (ths s) t = Some th -> match at_ th with QRegSend a sid _ => exists o t', got (tr s) sid o /\ In (ECall t' (CStart o)) (tr s) | _ => True end }.

Lemma state_ind3 (P : state -> Prop) : P init -> (forall s s', InvP s -> InvT s -> InvL s -> P s -> step s s' -> P s') -> forall h, P (final h).
Proof.
  intros P0 PS h. induction h as [|l h IH] using rev_ind; [exact P0|].
  rewrite final_snoc. destruct (next_step (final h) l) as [->|S]; [exact IH|].
  eapply PS; [apply invP|apply invT|apply invL|exact IH|exact S].
Qed.

Lemma invS h : InvS (final h).
Proof.
  apply state_ind3.
  - split; cbn; [intros [|] ?; discriminate|intros ? []|intros [|] ?; discriminate|intros [|] ?; discriminate].
  - intros s s' IP IT IL [SO SA SV SS] S. pose proof (fun e => in_step _ _ e S) as IS.
    assert (GM : forall sid o, got (tr s) sid o -> got (tr s') sid o) by (intros sid o; apply got_mono; exact S).
    split.
    + intros o p N. destruct (objs_step _ _ S) as [E|[[sid E]|(o' & p' & av & N' & E)]].
      * rewrite E in N. apply GM, SO, N.
      * destruct (lt_dec o (length (objs s))) as [L|L].
        -- rewrite E, nth_error_app1 in N by exact L. apply GM, SO, N.
        -- assert (o = length (objs s)) by (apply nth_lt in N; rewrite E, app_length in N; cbn in N; lia). subst o. rewrite E, nth_snoc, Nat.eqb_refl in N. injection N as <-. cbn.
           destruct (provs_step _ _ S) as [PE|[PE|(t & sid' & G & PE & OE & I)]].
           ++ exfalso. destruct S; try srva; unf; try destruct (gone r); cbn in E, PE; try (apply (f_equal (@length _)) in E; rewrite ?length_set_nth, ?app_length in E; cbn in E; lia).
              pose proof (get_put_same sid0 (length (objs s)) (provs s)) as GG. rewrite PE in GG. congruence.
           ++ exfalso. destruct S; try srva; unf; try destruct (gone r); cbn in E, PE; try (apply (f_equal (@length _)) in E; rewrite ?length_set_nth, ?app_length in E; cbn in E; lia).
              pose proof (get_put_same sid0 (length (objs s)) (provs s)) as GG. rewrite PE in GG. discriminate.
           ++ rewrite E in OE. apply app_inv_head in OE. injection OE as ->. exists t. exact I.
      * rewrite E, (nth_set _ _ _ _ _ N') in N. destruct (Nat.eqb_spec o' o) as [->|]; [injection N as <-; cbn; apply GM, SO, N'|apply GM, SO, N].
    + intros a I. assert (X : In a (addrs s) -> exists t m, In (ECall t (CIn m)) (tr s') /\ is_register m a) by (intros J; destruct (SA _ J) as (t & m & A & B); eauto).
      destruct S; try srva; unf; try destruct (gone r); cbn in I; try (apply X; exact I); try (apply X; apply in_set_del in I as [_ I]; exact I).
      apply in_set_add in I as [->|I]; [|apply X; exact I]. destruct (t_th _ IT _ _ H) as (c & C & OK). unfold okth in OK. rewrite H0 in OK. destruct OK as [OK _].
      destruct c; try contradiction. exists t, m. split; [apply IS; exact C|exact OK].
    + intros o p N AV. assert (X : forall o p, nth_error (objs s) o = Some p -> p_av p = Available -> exists t, In (ECall t (CStart o)) (tr s')) by (intros o1 p1 N1 A1; destruct (SV _ _ N1 A1) as [t1 I1]; exists t1; apply IS; exact I1).
      destruct S; try srva; unf; try destruct (gone r); cbn in N; try (eapply X; eassumption).
      * destruct (lt_dec o (length (objs s))) as [L|L]; [rewrite nth_error_app1 in N by exact L; eapply X; eassumption|].
        assert (o = length (objs s)) by (apply nth_lt in N; rewrite app_length in N; cbn in N; lia). subst o. rewrite nth_snoc, Nat.eqb_refl in N. injection N as <-. discriminate.
      * rewrite (nth_set _ _ _ _ _ H1) in N. destruct (Nat.eqb_spec o0 o) as [->|]; [|eapply X; eassumption]. injection N as <-. cbn in AV. subst av.
        destruct (t_th _ IT _ _ H) as (c & C & OK). unfold okth in OK. rewrite H0 in OK. destruct OK as [[OK _] _].
        destruct OK as [[-> _]|[[_ OK]|[_ OK]]]; try discriminate OK. exists t. apply IS. exact C.
    + assert (X : forall t th, nth_error (ths s) t = Some th -> match at_ th with QRegSend a sid _ => exists o t', got (tr s') sid o /\ In (ECall t' (CStart o)) (tr s') | _ => True end).
      { intros t th N. specialize (SS _ _ N). destruct (at_ th); auto. destruct SS as (o & t' & A & B). exists o, t'. auto. }
      intros t th N. destruct S.
      1: { cbn [ths] in N. rewrite nth_snoc in N. destruct (Nat.eqb_spec t (length (ths s))); [|eapply X; exact N]. injection N as <-. cbn. pose proof (start_pcs _ _ _ H) as SP. destruct q; try exact I; contradiction. }
      all: try srva; unf; try destruct (gone r); cbn [ths tr] in *; rewrite (nth_set _ _ _ _ _ H) in N; (destruct (Nat.eqb_spec t0 t); [injection N as <-; cbn|eapply X; exact N]); try exact I.
      destruct (t_th _ IT _ _ H) as (c & C & OK). unfold okth in OK. rewrite H0 in OK. destruct OK as [[OK KN] _].
      assert (G : got (tr s) sid o) by (apply KN; left; reflexivity). unfold av_of in H1. destruct (nth_error (objs s) o) as [p|] eqn:NO; [|discriminate].
      destruct (SV _ _ NO H1) as [t' I']. exists o, t'. auto.
Qed.

(** Everything that is sent to clients. *)
Theorem sent_source h l1 a sid av r l2 : trace h = l1 ++ ESend a sid av r :: l2 ->
  (exists t m, In (ECall t (CIn m)) l1 /\ is_register m a) /\
  (exists o, got l1 sid o /\ exists t c, In (ECall t c) l1 /\ ((c = CStart o /\ av = Available) \/ (c = CStop o /\ av = Unavailable) \/ (c = CDeinit /\ av = Unavailable))).
Proof.
  intros E. destruct (split_step _ _ _ _ E) as (h1 & s' & k1 & k2 & S & T & L & l & h3 & H & N).
  pose proof (invP h1) as IP. pose proof (invT h1) as IT. pose proof (invL h1) as IL. pose proof (invS h1) as IS. subst l1. set (s := final h1) in *. clearbody s. clear N H E l h3.
  destruct S; try srva; unf; try destruct (gone r0); cbn in T; events T; try discriminate B; inversion B; subst; rewrite app_nil_r.
  1, 2: (destruct (t_th _ IT _ _ H) as (c & C & OK); unfold okth in OK; rewrite H0 in OK; destruct OK as [(o & SR & SI) _]; split;
    [apply (s_adr _ IS); pose proof (l_a _ IL _ _ H) as LA; rewrite H0 in LA; apply LA; left; reflexivity|];
    unfold sid_of in SI; destruct (nth_error (objs s) o) as [p|] eqn:NO; [|discriminate SI]; injection SI as SI; exists o; split; [rewrite <- SI; apply (s_obj _ IS); exact NO|];
    exists t, c; split; [exact C|exact SR]).
  all: destruct (t_th _ IT _ _ H) as (c & C & OK); unfold okth in OK; rewrite H0 in OK; destruct OK as [[OK _] _]; split; [destruct c; try contradiction; exists t, m; auto|].
  all: pose proof (s_snd _ IS _ _ H) as SS; rewrite H0 in SS; destruct SS as (o & t' & A0 & B0); exists o; (split; [exact A0|]); exists t', (CStart o); auto.
Qed.

(** ** Clients that are not known *)
Definition at_reg (a : nat) (q : pc) : bool :=
  match q with QRegIns b | QRegLock b | QRegLoop b _ | QRegSend b _ _ => Nat.eqb b a | _ => false end.
Definition unknown (a : nat) (s : state) : Prop :=
  ~ In a (addrs s) /\ forall t th, nth_error (ths s) t = Some th -> at_reg a (at_ th) = false.


Lemma regs_step a s s' k : step s s' -> tr s' = tr s ++ k -> no_reg a k -> (forall t th, nth_error (ths s) t = Some th -> at_reg a (at_ th) = false) ->
  forall t th, nth_error (ths s') t = Some th -> at_reg a (at_ th) = false.
Proof.
  intros S T NR X. destruct S.
  1: { cbn in T. apply app_inv_head in T. subst k. cbn. intros t th N. rewrite nth_snoc in N. destruct (Nat.eqb_spec t (length (ths s))); [|eapply X; exact N]. injection N as <-. cbn.
       destruct (at_reg a q) eqn:AR; [|reflexivity]. exfalso. pose proof (start_pcs _ _ _ H) as SP. destruct q; try contradiction; try discriminate AR. cbn in AR. apply Nat.eqb_eq in AR. subst a0.
       destruct c; cbn in H; try discriminate H; try (destruct (nth_error (objs s) o); discriminate H). injection H as H. unfold incoming in H. destruct (s_code m) eqn:SC; try discriminate H; try (destruct (s_sid m); discriminate H).
       injection H as H. apply (NR (length (ths s)) m); [left; reflexivity|]. split; [exact SC|exact H]. }
  all: clear T; try srva; unf; try destruct (gone r); cbn [ths]; intros t' th' N; rewrite (nth_set _ _ _ _ _ H) in N; (destruct (Nat.eqb_spec t t'); [injection N as <-|eapply X; exact N]); cbn; try reflexivity;
    pose proof (X _ _ H) as Y; rewrite H0 in Y; exact Y.
Qed.

Lemma unknown_step a s s' k : InvL s -> step s s' -> tr s' = tr s ++ k -> no_reg a k -> unknown a s ->
  unknown a s' /\ forall sid av r, ~ In (ESend a sid av r) k.
Proof.
  intros IL S T NR [A X]. split.
  - split; [|eapply regs_step; eassumption]. destruct S; try srva; unf; try destruct (gone r); cbn; try exact A; try (rewrite in_set_del; tauto).
    rewrite in_set_add. intros [<-|I]; [|contradiction]. pose proof (X _ _ H) as Y. rewrite H0 in Y. cbn in Y. rewrite Nat.eqb_refl in Y. discriminate.
  - intros sid av r I. apply in_split in I as (k1 & k2 & ->). destruct S; try srva; unf; try destruct (gone r0); cbn in T; events T; try discriminate B; inversion B; subst.
    1, 2: (apply A; pose proof (l_a _ IL _ _ H) as LA; rewrite H0 in LA; apply LA; left; reflexivity).
    all: pose proof (X _ _ H) as Y; rewrite H0 in Y; cbn in Y; rewrite Nat.eqb_refl in Y; discriminate.
Qed.

Lemma unknown_app a h k e : unknown a (final h) -> trace (h ++ k) = trace h ++ e -> no_reg a e ->
  unknown a (final (h ++ k)) /\ forall sid av r, ~ In (ESend a sid av r) e.
Proof.
  revert e. induction k as [|l k IH] using rev_ind; intros e U T NR.
  - rewrite app_nil_r in *. apply app_same in T. subst e. split; [exact U|intros ? ? ? []].
  - destruct (trace_grows h k) as [e1 T1]. destruct (trace_grows (h ++ k) [l]) as [e2 T2].
    assert (TT : e = e1 ++ e2). { apply (app_inv_head (trace h)). rewrite app_assoc, <- T1, <- T2, <- T. f_equal. apply app_assoc. }
    subst e. destruct (IH e1 U T1) as [U1 N1]; [intros t m I; apply (NR t m), in_app_iff; auto|]. rewrite app_assoc. unfold trace in T2. rewrite final_snoc in *.
    destruct (next_step (final (h ++ k)) l) as [EQ|S].
    + rewrite EQ in *. apply app_same in T2. subst e2. rewrite app_nil_r. auto.
    + destruct (unknown_step a _ _ e2 (invL (h ++ k)) S T2) as [U2 N2]; [intros t m I; apply (NR t m), in_app_iff; auto|exact U1|].
      split; [exact U2|]. intros sid av r I. apply in_app_iff in I as [I|I]; [exact (N1 _ _ _ I)|exact (N2 _ _ _ I)].
Qed.

Lemma settled_pcs h a : settled (trace h) a -> forall t th, nth_error (ths (final h)) t = Some th -> at_reg a (at_ th) = false.
Proof.
  intros S t th N. destruct (at_reg a (at_ th)) eqn:AR; [|reflexivity]. exfalso. pose proof (invT h) as IT. destruct (t_th _ IT _ _ N) as (c & C & OK).
  assert (R : is_reg c a). { destruct OK as [OK _]. destruct (at_ th); try discriminate AR; cbn in AR; apply Nat.eqb_eq in AR; subst; try exact OK; exact (proj1 OK). }
  destruct c; try contradiction. destruct (S _ _ C R) as [v I]. destruct (t_ret _ IT _ _ I) as (th' & N' & D). rewrite N in N'. injection N' as <-. rewrite D in AR. discriminate.
Qed.

Lemma unregistered_unknown h1 h2 e t m a : trace (h1 ++ h2) = trace h1 ++ e -> settled (trace h1) a -> In (ECall t (CIn m)) e -> is_unregister m a -> no_reg a e ->
  returned (trace (h1 ++ h2)) t -> unknown a (final (h1 ++ h2)).
Proof.
  intros T S C U NR RT.
  assert (X : forall k, forall e, trace (h1 ++ k) = trace h1 ++ e -> no_reg a e ->
    (forall t th, nth_error (ths (final (h1 ++ k))) t = Some th -> at_reg a (at_ th) = false) /\
    (In (ECall t (CIn m)) e -> (exists th, nth_error (ths (final (h1 ++ k))) t = Some th /\ at_ th = QUnErase m) \/ unknown a (final (h1 ++ k)))).
  { induction k as [|l k IH] using rev_ind; intros e0 T0 NR0.
    - rewrite app_nil_r in *. apply app_same in T0. subst e0. split; [apply settled_pcs; exact S|intros []].
    - destruct (trace_grows h1 k) as [e1 T1]. destruct (trace_grows (h1 ++ k) [l]) as [e2 T2].
      assert (TT : e0 = e1 ++ e2). { apply (app_inv_head (trace h1)). rewrite app_assoc, <- T1, <- T2, <- T0. f_equal. apply app_assoc. }
      subst e0. destruct (IH e1 T1) as [X1 X2]; [intros t0 m0 I; apply (NR0 t0 m0), in_app_iff; auto|].
      assert (NR2 : no_reg a e2) by (intros t0 m0 I; apply (NR0 t0 m0), in_app_iff; auto).
      rewrite app_assoc. unfold trace in T2. rewrite final_snoc in *. destruct (next_step (final (h1 ++ k)) l) as [EQ|ST].
      + rewrite EQ in *. apply app_same in T2. subst e2. rewrite app_nil_r. auto.
      + pose proof (regs_step a _ _ _ ST T2 NR2 X1) as R2. split; [exact R2|]. intros I.
        pose proof (invP (h1 ++ k)) as IP. pose proof (invT (h1 ++ k)) as IT. pose proof (invL (h1 ++ k)) as IL. set (s := final (h1 ++ k)) in *.
        assert (K : In (ECall t (CIn m)) e1 \/ (exists th, nth_error (ths (next s l)) t = Some th /\ at_ th = QUnErase m)).
        { apply in_app_iff in I as [I|I]; [auto|]. right. destruct (step_moved _ _ IP ST) as [c q SP TE TR OB|t0 th th' k0 NN ND TE TR NC NRR DD OK].
          - rewrite TR in T2. apply app_inv_head in T2. subst e2. destruct I as [I|[]]. inversion I; subst. exists (Th q [] []). rewrite TE, nth_snoc, Nat.eqb_refl. split; [reflexivity|]. cbn.
            cbn in SP. injection SP as <-. destruct U as (U1 & U2 & U3). unfold incoming. rewrite U1, U2. reflexivity.
          - rewrite TR in T2. apply app_inv_head in T2. subst e2. destruct (NC _ _ I). }
        destruct K as [K|K]; [|left; exact K]. destruct (X2 K) as [(th & N & Q)|UK]; [|right; eapply unknown_step; eassumption].
        destruct ST.
        1: { left. exists th. cbn. rewrite nth_snoc. destruct (Nat.eqb_spec t (length (ths s))); [apply nth_lt in N; lia|auto]. }
        all: destruct (Nat.eq_dec t0 t) as [->|NE]; [rewrite N in H; injection H as <-; rewrite Q in H0; try discriminate H0|
          left; exists th; try srva; unf; try destruct (gone r); cbn [ths]; (split; [rewrite nth_set_other by exact NE; exact N|exact Q])].
        injection H0 as <-. right. split; [|exact R2]. unf. cbn. rewrite in_set_del. destruct U as (_ & _ & U3). rewrite U3. tauto. }
  destruct (X h2 e T NR) as [_ Y]. destruct (Y C) as [(th & N & Q)|UK]; [|exact UK]. exfalso. destruct RT as [v I].
  destruct (t_ret _ (invT (h1 ++ h2)) _ _ I) as (th' & N' & D). rewrite N in N'. injection N' as <-. congruence.
Qed.

Theorem unregistered_silent h1 h2 h3 e1 e2 t m a sid av r :
  trace (h1 ++ h2) = trace h1 ++ e1 -> trace (h1 ++ h2 ++ h3) = trace (h1 ++ h2) ++ e2 ->
  settled (trace h1) a -> In (ECall t (CIn m)) e1 -> is_unregister m a -> returned (trace (h1 ++ h2)) t -> no_reg a (e1 ++ e2) ->
  ~ In (ESend a sid av r) e2.
Proof.
  intros T1 T2 S C U RT NR. rewrite app_assoc in T2. refine (proj2 (unknown_app a (h1 ++ h2) h3 e2 _ T2 _) sid av r).
  - eapply unregistered_unknown; try eassumption. intros t0 m0 I. apply (NR t0 m0), in_app_iff. auto.
  - intros t0 m0 I. apply (NR t0 m0), in_app_iff. auto.
Qed.

Theorem gone_silent h t r0 ok h2 e1 e2 a sid0 av0 c sid av r : let h1 := h ++ [LRun t r0 ok] in
  trace h1 = trace h ++ e1 -> In (ESend a sid0 av0 r0) e1 -> gone r0 = true -> In (ECall t c) (trace h) -> (forall m, c <> CIn m) ->
  settled (trace h) a -> trace (h1 ++ h2) = trace h1 ++ e2 -> no_reg a e2 -> ~ In (ESend a sid av r) e2.
Proof.
  intros h1 T1 I G C NC S T2 NR. refine (proj2 (unknown_app a h1 h2 e2 _ T2 NR) sid av r). clear T2 NR. unfold h1 in *. unfold trace in T1. rewrite final_snoc in *.
  pose proof (settled_pcs _ _ S) as PC. pose proof (invT h) as IT. pose proof (invL h) as IL. unfold trace in C. set (s := final h) in *. clearbody s. cbn [next] in *.
  assert (NR1 : no_reg a e1).
  { destruct (run_step s t r0 ok) as [EQ|ST]; [rewrite EQ in T1; apply app_same in T1; subst e1; destruct I|]. intros t0 m0 J.
    unfold run in T1. destruct (nth_error (ths s) t) as [th|] eqn:N; [|apply app_same in T1; subst e1; destruct I].
    apply in_split in J as (k1 & k2 & ->). clear - T1. destruct (at_ th) as [| | | | |? ? [|]| | |? [|[]]| | | |? [|[]]| | | |[|]|]; unf; cbn in T1;
      repeat match type of T1 with context [match ?x with _ => _ end] => destruct x end; cbn in T1; events T1; discriminate. }
  destruct (run_step s t r0 ok) as [EQ|ST]; [rewrite EQ in T1; apply app_same in T1; subst e1; destruct I|].
  split; [|exact (regs_step a _ _ _ ST T1 NR1 PC)].
  apply in_split in I as (k1 & k2 & ->). unfold run in *. destruct (nth_error (ths s) t) as [th|] eqn:N; [|apply app_same in T1; destruct k1; discriminate].
  pose proof (the_call _ _ _ _ IT N C) as OK. unfold okth in OK.
  destruct (at_ th) as [| | | | |? ? [|]| | |? [|[]]| | | |? [|[]]| | | |[|]|] eqn:Q; unf; cbn in T1 |- *;
      repeat match type of T1 with context [match ?x with _ => _ end] => destruct x end; cbn in T1 |- *; events T1; try discriminate B; inversion B; subst.
  - cbn. rewrite in_set_del. tauto.
  - discriminate G.
  - destruct OK as [[OK _] _]. destruct c; try contradiction. destruct (NC _ eq_refl).
Qed.
