(** The signal model: safety, counting, slots destroyed while they run. *)
From Verif Require Import SigModel SigSpec SigProofs SigProofs2 SigProofs3 SigProofs4 SigProofs5 SigProofs6 SigProofs7 SigProofs8.

Lemma always_snoc h l P : always (h ++ [l]) P -> always h P /\ P h (fst l) (snd l).
Proof.
  intros H. split.
  - intros h1 t a h2 ->. apply (H h1 t a (h2 ++ [l])). rewrite <- app_assoc. reflexivity.
  - destruct l as [t a]. apply (H h t a []). reflexivity.
Qed.
Lemma free_inside m h t : free (final m h) t = true -> ~ inside m h t -> em (final m h) = None.
Proof.
  intros FR NI. unfold free in FR. destruct (em (final m h)) as [x|] eqn:E; [|reflexivity]. exfalso. apply NI. exists x. split; [exact E|].
  apply andb_true_iff in FR as [FR _]. apply Nat.eqb_eq. exact FR.
Qed.

(** How the emission flag, the emission and the entries change. *)
Lemma watch_fields st st' : em (watch st st') = em st' /\ notif (watch st st') = notif st' /\ entries (watch st st') = entries st' /\ crashed (watch st st') = crashed st' /\ conns (watch st st') = conns st' /\ held (watch st st') = held st' /\ kinds (watch st st') = kinds st' /\ dead (watch st st') = dead st'.
Proof. destruct (watch_cases st st') as [->|[s ->]]; cbn; auto 10. Qed.

Lemma em_disconnect m st c : em (fst (disconnect m st c)) = em st /\ notif (fst (disconnect m st c)) = notif st.
Proof. unfold disconnect. destruct (nth_error (conns st) c) as [[[s|]|s|]|]; auto. destruct (owned st s); auto. destruct (hub st); auto. destruct (has s (entries st)); auto. Qed.
Lemma em_reconnect m st c : em (fst (reconnect m st c)) = em st /\ notif (fst (reconnect m st c)) = notif st.
Proof. unfold reconnect. destruct (nth_error (conns st) c) as [[|s|]|]; auto. destruct (hub st); auto. destruct (can_add_unique m (entries st) s); auto. Qed.
Lemma em_save m st t a s : em (save m st t a s) = em st /\ notif (save m st t a s) = notif st.
Proof. unfold save. destruct (can_add m (entries st)); auto. Qed.

(** [notif] follows [em] as long as no slot throws. *)
Definition follows (st : state) : Prop := em st = None -> notif st = false.
Lemma follows_act m st t a : J st -> follows st -> a <> AThrow -> follows (act m st t a).
Proof.
  intros I H NT. unfold follows in *. assert (S : forall st', em st' = em st /\ notif st' = notif st -> em st' = None -> notif st' = false) by (intros st' [-> ->]; exact H).
  unfold act. destruct a as [k| |s|s|s| | | |c|c|c|c|c|o| |v| | |]; try congruence; try (destruct (free st t); [unfold call|exact H]); try exact H.
  - destruct k as [| |o]; [destruct (hub st)|destruct (hub st)|destruct (hub st && _)]; try exact H; unfold save; destruct (can_add m _); exact H.
  - destruct (hub st && _); [|exact H]. unfold save; destruct (can_add m _); exact H.
  - destruct (hub st && _); [|exact H]. destruct (has s (entries st)); exact H.
  - destruct (hub st); [|exact H]. destruct m; [destruct (em st) eqn:E|]; cbn; rewrite ?E; auto.
  - destruct (hub st); exact H.
  - destruct (hub st); exact H.
  - destruct (hidden st c); [exact H|]. pose proof (em_disconnect m st c). destruct (disconnect m st c). apply S. assumption.
  - destruct (hidden st c); [exact H|]. pose proof (em_reconnect m st c). destruct (reconnect m st c). apply S. assumption.
  - destruct (hidden st c); exact H.
  - destruct (internal st c || _); exact H.
  - destruct (internal st c || _); [exact H|]. apply S. pose proof (em_disconnect m st c). destruct (is_connected st c); cbn; auto.
  - destruct (hub st); [|exact H]. destruct (em st) eqn:E; cbn; rewrite ?E; auto.
  - destruct (hub st); [|exact H]. destruct (entries st); [exact H|]. destruct (notif st) eqn:NO; cbn; [rewrite NO; exact H|discriminate].
  - destruct (em st) as [e|] eqn:E; [|rewrite E; exact H]. destruct (Nat.eqb (e_thread e) t); [|rewrite E; exact H]. destruct (e_run e); [rewrite E; exact H|]. unfold step.
    destruct (nth_error (entries st) (e_cur e)) as [[[k s]|]|]; [|cbn; rewrite E; discriminate|reflexivity].
    destruct (nth_error (kinds st) s) as [[| | |o c]|]; try discriminate. destruct (is_dead st o); [|discriminate]. cbv zeta. destruct m; cbn; [discriminate|reflexivity].
  - destruct (em st) as [e|] eqn:E; [|rewrite E; exact H]. destruct (Nat.eqb (e_thread e) t); [|rewrite E; exact H]. destruct (e_run e) as [[k s]|]; [|rewrite E; exact H]. unfold slot_return.
    destruct m; cbn; [discriminate|reflexivity].
Qed.

Lemma no_crash_act m st t a : J st -> follows st -> crashed st = false ->
  match a with AThrow => False | AClear | ASignalEnd | AEmit _ => free st t = true -> em st = None | _ => True end -> crashed (act m st t a) = false.
Proof.
  intros I FO C W. destruct (flag_act m st t a I) as [l P FL _ T|t' FL K T|o FL K T|FL K T EN|FL K T]; unfold flags in FL; try (injection FL as f1 f2 f3; congruence).
  exfalso. unfold act in T.
  assert (NO : forall l, tr st ++ l = tr st ++ [ECrash] -> (forall e, In e l -> e <> ECrash) -> False).
  { intros l E X. apply app_inv_head in E. subst l. exact (X ECrash (or_introl eq_refl) eq_refl). }
  assert (Z : tr st = tr st ++ [ECrash] -> False) by (intros E; apply (f_equal (@length event)) in E; rewrite app_length in E; cbn in E; lia).
  destruct a as [k| |s|s|s| | | |c|c|c|c|c|o| |v| | |]; try contradiction; try (destruct (free st t) eqn:FR; [unfold call in T|exact (Z T)]); try exact (Z T).
  - assert (SV : forall st0 s, tr st0 = tr st -> tr (save m st0 t (AConnect k) s) = tr st ++ [ECrash] -> False).
    { intros st0 s E X. rewrite tr_save, E in X. apply NO in X; [exact X|]. intros e Y. apply in_app_or in Y as [Y|[<-|[]]]; [|discriminate]. destruct (can_add m (entries st0)); [destruct Y as [<-|[]]; discriminate|destruct Y]. }
    destruct k as [| |o]; [destruct (hub st)|destruct (hub st)|destruct (hub st && _)]; try exact (Z T); eapply SV; try exact T; reflexivity.
  - cbn in T. apply app_inv_head in T; discriminate.
  - assert (SV : forall st0 s', tr st0 = tr st -> tr (save m st0 t (AConnectPtr s) s') = tr st ++ [ECrash] -> False).
    { intros st0 s' E X. rewrite tr_save, E in X. apply NO in X; [exact X|]. intros e Y. apply in_app_or in Y as [Y|[<-|[]]]; [|discriminate]. destruct (can_add m (entries st0)); [destruct Y as [<-|[]]; discriminate|destruct Y]. }
    destruct (hub st && _); [|exact (Z T)]. eapply SV; try exact T; reflexivity.
  - destruct (hub st && _); [|exact (Z T)]. destruct (has s (entries st)); cbn in T; rewrite <- ?app_assoc in T; apply app_inv_head in T; discriminate.
  - specialize (W eq_refl). rewrite W in T. destruct (hub st); [|exact (Z T)]. destruct m; cbn in T; apply app_inv_head in T; discriminate.
  - destruct (hub st); [|exact (Z T)]. cbn in T. apply app_inv_head in T; discriminate.
  - destruct (hub st); [|exact (Z T)]. cbn in T. apply app_inv_head in T; discriminate.
  - destruct (hidden st c); [exact (Z T)|]. destruct (tr_disconnect m st c) as (l & T1 & V). destruct (disconnect m st c) as [st' b]. cbn in T, T1. rewrite T1, <- app_assoc in T. apply app_inv_head in T. destruct V as [->|[s2 ->]]; discriminate.
  - destruct (hidden st c); [exact (Z T)|]. destruct (tr_reconnect m st c) as (l & T1 & V). destruct (reconnect m st c) as [st' b]. cbn in T, T1. rewrite T1, <- app_assoc in T. apply app_inv_head in T. destruct V as [->|[s2 ->]]; discriminate.
  - destruct (hidden st c); [exact (Z T)|]. cbn in T. apply app_inv_head in T; discriminate.
  - destruct (internal st c || _); [exact (Z T)|]. cbn in T. apply app_inv_head in T; discriminate.
  - destruct (internal st c || _); [exact (Z T)|]. destruct (tr_disconnect m st c) as (l & T1 & V). destruct (is_connected st c); cbn in T; [rewrite T1, <- app_assoc in T|]; apply app_inv_head in T; [destruct V as [->|[s2 ->]]; discriminate|discriminate].
  - cbn in T. apply app_inv_head in T; discriminate.
  - specialize (W eq_refl). rewrite W in T. destruct (hub st); [|exact (Z T)]. cbn in T. apply app_inv_head in T; discriminate.
  - specialize (W eq_refl). destruct (hub st); [|exact (Z T)]. destruct (entries st); [cbn in T; apply app_inv_head in T; discriminate|]. rewrite (FO W) in T. cbn in T. apply app_inv_head in T; discriminate.
  - destruct (em st) as [e|] eqn:E; [|exact (Z T)]. destruct (Nat.eqb (e_thread e) t); [|exact (Z T)]. destruct (e_run e); [exact (Z T)|].
    assert (HB : hub st = true) by (apply (j_hub _ I); congruence). unfold step in T.
    destruct (nth_error (entries st) (e_cur e)) as [[[k s]|]|] eqn:N; [|exact (Z T)|cbn in T; apply app_inv_head in T; discriminate].
    destruct (nth_error (kinds st) s) as [[| | |o c]|] eqn:KK; try (cbn in T; apply app_inv_head in T; discriminate). destruct (is_dead st o); [|cbn in T; apply app_inv_head in T; discriminate].
    pose proof (expire_eq m st s o c I KK (has_nth _ _ _ _ N) HB) as Y. fold (expire m st c) in T. cbv zeta in T. rewrite Y in T.
    destruct (owned _ s); destruct m; cbn in T; rewrite <- ?app_assoc in T; apply app_inv_head in T; discriminate.
  - destruct (em st) as [e|] eqn:E; [|exact (Z T)]. destruct (Nat.eqb (e_thread e) t); [|exact (Z T)]. destruct (e_run e) as [[k s]|]; [|exact (Z T)]. unfold slot_return in T.
    destruct (nth_error (kinds st) s) as [[| |c|o c]|]; destruct m; try destruct (nth_error (conns st) c) as [[| |]|]; cbn in T; try exact (Z T); apply app_inv_head in T; discriminate.
Qed.

Theorem no_crash m h : well_behaved m h -> ~ In ECrash (trace m h).
Proof.
  intros W X. assert (G : crashed (final m h) = false /\ follows (final m h)).
  { clear X. induction h as [|l h IH] using rev_ind; [split; [reflexivity|intros _; reflexivity]|]. apply always_snoc in W as [W1 W2]. destruct (IH W1) as [C FO]. rewrite final_snoc. unfold next. rewrite C.
    destruct (watch_fields (final m h) (act m (final m h) (fst l) (snd l))) as (E1 & E2 & E3 & E4 & _). unfold follows. rewrite E1, E2, E4. destruct l as [t a]. cbn [fst snd] in *. split.
    - apply no_crash_act; auto using J_final. destruct a; auto; intros FR; apply free_inside with t; auto.
    - apply follows_act; auto using J_final. destruct a; congruence. }
  apply (f_crashed _ (F_final m h)) in X. destruct G. congruence.
Qed.

(** *** connectionCount() and connected() *)
Lemma somes_le l : length (somes l) <= length l.
Proof. induction l as [|[p|] l IH]; [apply le_n|change (S (length (somes l)) <= S (length l)); lia|change (length (somes l) <= S (length l)); lia]. Qed.
Lemma somes_eq l : (forall x, In x l -> x <> None) -> length (somes l) = length l.
Proof.
  induction l as [|[p|] l IH]; intros H; cbn; [reflexivity| |exfalso; apply (H None); [left; reflexivity|reflexivity]].
  f_equal. apply IH. intros x X. apply H. right. exact X.
Qed.

Lemma ans_count m h t : may_call m h t -> signal_alive m h -> trace m (h ++ [(t, ACount)]) = trace m h ++ [ERet t ACount (RNum (length (entries (final m h))))].
Proof. intros MC A. rewrite trace_snoc by exact MC. destruct MC as [FR _]. unfold act, call. rewrite FR, (alive_hub m h A). rewrite watch_owned; auto. Qed.
Lemma ans_any m h t : may_call m h t -> signal_alive m h -> trace m (h ++ [(t, AHasAny)]) = trace m h ++ [ERet t AHasAny (RBool (match entries (final m h) with [] => false | _ => true end))].
Proof. intros MC A. rewrite trace_snoc by exact MC. destruct MC as [FR _]. unfold act, call. rewrite FR, (alive_hub m h A). rewrite watch_owned; auto. Qed.

Definition full (st : state) : Prop := forall x, In x (entries st) -> x <> None.
Lemma full_erase s l : (forall x, In x l -> x <> None) -> forall x : entry, In x (erase s l) -> x <> None.
Proof.
  induction l as [|y l IH]; cbn; intros H x X; [destruct X|]. destruct (is_slot s y); [apply H; right; exact X|]. destruct X as [<-|X]; [apply H; left; reflexivity|]. apply IH; auto.
Qed.
Lemma full_remove m st s : notif st = false -> full st -> full (remove m st s).
Proof. intros N H x. cbn. destruct m; [rewrite N; apply full_erase; exact H|intros []]. Qed.
Lemma full_disconnect m st c : notif st = false -> full st -> full (fst (disconnect m st c)).
Proof.
  intros N H. unfold disconnect. destruct (nth_error (conns st) c) as [[[s|]|s|]|]; try exact H. destruct (owned st s); [|exact H]. destruct (hub st); [|exact H].
  destruct (has s (entries st)); [|exact H]. apply (full_remove m st s N H).
Qed.
Lemma full_add st s : full st -> full (add st s).
Proof. intros H x X. cbn in X. apply in_app_or in X as [X|[<-|[]]]; [apply H; exact X|discriminate]. Qed.
Lemma full_save m st t a s : full st -> full (save m st t a s).
Proof. intros H. unfold save. destruct (can_add m (entries st)); [apply (full_add st s H)|exact H]. Qed.

Lemma full_act m st t a : J st -> follows st -> dead st = [] -> full st ->
  match a with AThrow | AKill _ => False | ADisconnect _ | ADisconnectPtr _ | AScopedEnd _ => free st t = true -> em st = None | _ => True end -> full (act m st t a).
Proof.
  intros I FO D H W. unfold act. destruct a as [k| |s|s|s| | | |c|c|c|c|c|o| |v| | |]; try contradiction; try (destruct (free st t) eqn:FR; [unfold call|exact H]); try exact H.
  - destruct k as [| |o]; [destruct (hub st)|destruct (hub st)|destruct (hub st && _)]; try exact H; apply full_save; exact H.
  - destruct (hub st && _); [|exact H]. apply full_save; exact H.
  - destruct (hub st && _); [|exact H]. destruct (has s (entries st)); [apply (full_remove m st s (FO (W eq_refl)) H)|exact H].
  - destruct (hub st); [|exact H]. destruct m; [destruct (em st); [exact H|]|]; intros x [].
  - destruct (hub st); exact H.
  - destruct (hub st); exact H.
  - destruct (hidden st c); [exact H|]. pose proof (full_disconnect m st c (FO (W eq_refl)) H) as X. destruct (disconnect m st c). exact X.
  - destruct (hidden st c); [exact H|]. assert (X : full (fst (reconnect m st c))).
    { unfold reconnect. destruct (nth_error (conns st) c) as [[|s|]|]; try exact H. destruct (hub st); [|exact H]. destruct (can_add_unique m (entries st) s); [apply (full_add st s H)|exact H]. }
    destruct (reconnect m st c). exact X.
  - destruct (hidden st c); exact H.
  - destruct (internal st c || _); exact H.
  - destruct (internal st c || _); [exact H|]. destruct (is_connected st c); [exact (full_disconnect m st c (FO (W eq_refl)) H)|exact H].
  - destruct (hub st); [|exact H]. destruct (em st); [exact H|intros x []].
  - destruct (hub st); [|exact H]. destruct (entries st) eqn:EN; [|destruct (notif st)]; unfold full in *; cbn; rewrite ?EN in *; exact H.
  - destruct (em st) as [e|] eqn:E; [|exact H]. destruct (Nat.eqb (e_thread e) t); [|exact H]. destruct (e_run e); [exact H|]. unfold step.
    destruct (nth_error (entries st) (e_cur e)) as [[[k s]|]|] eqn:N; [| |exact H].
    + destruct (nth_error (kinds st) s) as [[| | |o c]|]; try exact H. unfold is_dead. rewrite D. exact H.
    + exfalso. apply (H None); [eapply nth_error_In; eauto|reflexivity].
  - destruct (em st) as [e|] eqn:E; [|exact H]. destruct (Nat.eqb (e_thread e) t); [|exact H]. destruct (e_run e) as [[k s]|]; [|exact H]. unfold slot_return.
    destruct (nth_error (kinds st) s) as [[| |c|o c]|]; destruct m; try destruct (nth_error (conns st) c) as [[| |]|]; exact H.
Qed.
Lemma dead_act m st t a : J st -> (forall o, a <> AKill o) -> dead st = [] -> dead (act m st t a) = [].
Proof.
  intros I W D. destruct (flag_act m st t a I) as [l P FL _ T|t' FL K T|o FL K T|FL K T EN|FL K T]; unfold flags in FL; injection FL as f1 f2 f3; try congruence.
  exfalso. destruct (grows_act m st t a I) as (l & T' & _). assert (a = AKill o); [|apply (W o); assumption].
  clear T'. revert T. assert (Z : tr st = tr st ++ [EKilled o] -> False) by (intros E; apply (f_equal (@length event)) in E; rewrite app_length in E; cbn in E; lia).
  assert (DD : dead (act m st t a) = dead st \/ exists o', a = AKill o').
  { unfold act. destruct a as [k| |s|s|s| | | |c|c|c|c|c|o'| |v| | |]; try (right; eauto; fail); left; try (destruct (free st t) eqn:FR; [unfold call|reflexivity]); try reflexivity.
    - destruct k as [| |o']; [destruct (hub st)|destruct (hub st)|destruct (hub st && _)]; try reflexivity; unfold save; destruct (can_add m _); reflexivity.
    - destruct (hub st && _); [|reflexivity]. unfold save; destruct (can_add m _); reflexivity.
    - destruct (hub st && _); [|reflexivity]. destruct (has s (entries st)); reflexivity.
    - destruct (hub st); [|reflexivity]. destruct m; [destruct (em st)|]; reflexivity.
    - destruct (hub st); reflexivity.
    - destruct (hub st); reflexivity.
    - destruct (hidden st c); [reflexivity|]. destruct (kinds_disconnect m st c) as (_ & _ & A & _). destruct (disconnect m st c). exact A.
    - destruct (hidden st c); [reflexivity|]. destruct (kinds_reconnect m st c) as (_ & _ & A & _). destruct (reconnect m st c). exact A.
    - destruct (hidden st c); reflexivity.
    - destruct (internal st c || _); reflexivity.
    - destruct (internal st c || _); [reflexivity|]. destruct (kinds_disconnect m st c) as (_ & _ & A & _). destruct (is_connected st c); [exact A|reflexivity].
    - destruct (hub st); [|reflexivity]. destruct (em st); reflexivity.
    - destruct (hub st); [|reflexivity]. destruct (entries st); [|destruct (notif st)]; reflexivity.
    - destruct (em st) as [e|]; [|reflexivity]. destruct (Nat.eqb (e_thread e) t); [|reflexivity]. destruct (e_run e); [reflexivity|]. unfold step.
      destruct (nth_error (entries st) (e_cur e)) as [[[k s]|]|]; try reflexivity. destruct (nth_error (kinds st) s) as [[| | |o' c]|]; try reflexivity. unfold is_dead. rewrite D. cbn. exact D.
    - destruct (em st) as [e|]; [|reflexivity]. destruct (Nat.eqb (e_thread e) t); [|reflexivity]. destruct (e_run e) as [[k s]|]; [|reflexivity]. unfold slot_return.
      destruct (nth_error (kinds st) s) as [[| |c|o' c]|]; destruct m; try destruct (nth_error (conns st) c) as [[| |]|]; reflexivity.
    - destruct (em st) as [e|]; [|reflexivity]. destruct (Nat.eqb (e_thread e) t); [|reflexivity]. destruct (e_run e) as [[k s]|]; reflexivity. }
  intros T. destruct DD as [DD|[o' DD]]; [rewrite DD, D in f1; discriminate|]. subst a. cbn in T. apply app_inv_head in T. congruence.
Qed.

Theorem full_final m h : no_cut_inside m h -> full (final m h).
Proof.
  intros W. assert (G : full (final m h) /\ follows (final m h) /\ dead (final m h) = []); [|apply G].
  induction h as [|l h IH] using rev_ind; [split; [intros x []|split; [intros _; reflexivity|reflexivity]]|]. apply always_snoc in W as [W1 W2]. destruct (IH W1) as (A & B & C). rewrite final_snoc. unfold next.
  destruct (crashed (final m h)); [auto|]. unfold full, follows.
  destruct (watch_fields (final m h) (act m (final m h) (fst l) (snd l))) as (E1 & E2 & E3 & E4 & E5 & E6 & E7 & E8). rewrite E1, E2, E3, E8. destruct l as [t a]. cbn [fst snd] in *. split; [|split].
  - apply full_act; auto using J_final. destruct a; auto; intros FR; apply free_inside with t; auto.
  - apply follows_act; auto using J_final. destruct a; congruence.
  - apply dead_act; auto using J_final. intros o ->. exact W2.
Qed.

(** *** Slots are not destroyed while they run *)
Definition simple (st : state) : Prop := forall s k, nth_error (kinds st) s = Some k -> k = KPlain \/ k = KPtr.
Lemma owned_keep st st' : (forall s, cnt (is_slot s) (entries st) + cnt (is_ptr s) (conns st) + cnt (Nat.eqb s) (held st) > 0 -> cnt (is_slot s) (entries st') + cnt (is_ptr s) (conns st') + cnt (Nat.eqb s) (held st') > 0) ->
  forall s, owned st s = true -> owned st' s = true.
Proof.
  intros H s. unfold owned. rewrite !has_cnt, !cnt_pos_exists. specialize (H s).
  destruct (cnt (is_slot s) (entries st)), (cnt (Nat.eqb s) (held st)), (cnt (is_ptr s) (conns st)); intros X; cbn in X; try discriminate;
  destruct (cnt (is_slot s) (entries st')), (cnt (Nat.eqb s) (held st')), (cnt (is_ptr s) (conns st')); try reflexivity; cbn in H; exfalso; lia.
Qed.
Lemma owned_save m st t a s s' : owned st s' = true -> owned (save m st t a s) s' = true.
Proof.
  intros H. apply (owned_add _ s) in H as H'. unfold save. destruct (can_add m (entries st)).
  - unfold owned in *. cbn in *. rewrite existsb_app. apply orb_true_iff in H' as [H'|H']; rewrite H'; [|rewrite orb_true_r]; reflexivity.
  - unfold owned in *. cbn in *. rewrite existsb_app. apply orb_true_iff in H as [H|H]; rewrite H; [|rewrite orb_true_r]; reflexivity.
Qed.

Lemma owned_act st t a s : simple st -> em st <> None ->
  match a with AConnect CAware | AConnect (CTracked _) | ADestroy _ | AScopedEnd _ | ADropPtr _ => False | _ => True end -> owned st s = true -> owned (act Multi st t a) s = true.
Proof.
  intros S EM W O. unfold act. destruct a as [k| |s'|s'|s'| | | |c|c|c|c|c|o| |v| | |]; try contradiction; try (destruct (free st t) eqn:FR; [unfold call|exact O]); try exact O.
  - destruct k as [| |o]; try contradiction. destruct (hub st); [|exact O]. apply owned_save. exact O.
  - unfold owned in *. cbn. apply orb_true_iff in O as [O|O]; [apply orb_true_iff in O as [O|O]|]; rewrite O; rewrite ?orb_true_r; reflexivity.
  - destruct (hub st && _); [|exact O]. apply owned_save. exact O.
  - destruct (hub st && _) eqn:HB; [|exact O]. apply andb_true_iff in HB as [_ HB]. destruct (has s' (entries st)) eqn:HS; [|exact O]. rewrite owned_emit.
    destruct (Nat.eq_dec s' s) as [->|NE]; unfold owned in *; cbn; [rewrite HB; rewrite orb_true_r; reflexivity|].
    destruct (notif st); [rewrite has_blank by exact NE|rewrite has_erase by exact NE]; exact O.
  - destruct (hub st); [|exact O]. destruct (em st); [exact O|congruence].
  - destruct (hub st); exact O.
  - destruct (hub st); exact O.
  - destruct (hidden st c); [exact O|]. assert (X : owned (fst (disconnect Multi st c)) s = true).
    { unfold disconnect. destruct (nth_error (conns st) c) as [[[s'|]|s'|]|] eqn:N; try exact O. destruct (owned st s'); [|exact O]. destruct (hub st).
      - destruct (has s' (entries st)) eqn:H; [|exact O]. apply owned_cut; auto; discriminate.
      - cbn [fst]. unfold owned in *. cbn. apply orb_true_iff in O as [O|O]; apply orb_true_iff; [left; exact O|right].
        apply existsb_exists in O as (y & Y & P). apply In_nth_error in Y as (i & Y). apply existsb_exists. exists y. split; [|exact P]. apply nth_error_In with i. rewrite nth_set_other; [exact Y|].
        intros ->. rewrite N in Y. injection Y as <-. discriminate. }
    destruct (disconnect Multi st c). exact X.
  - destruct (hidden st c); [exact O|]. assert (X : owned (fst (reconnect Multi st c)) s = true).
    { unfold reconnect. destruct (nth_error (conns st) c) as [[s'|s'|]|] eqn:N; try exact O. destruct (hub st); [|exact O].
      destruct (can_add_unique Multi (entries st) s') eqn:CU; cbn [fst].
      - destruct (Nat.eq_dec s' s) as [->|NS].
        + unfold owned. cbn. rewrite has_app. unfold has at 2. cbn. rewrite Nat.eqb_refl, orb_true_r. reflexivity.
        + apply (owned_add _ s') in O. unfold owned in *. apply orb_true_iff in O as [O|O]; apply orb_true_iff; [left; exact O|right].
          apply existsb_exists in O as (y & Y & P). apply In_nth_error in Y as (i & Y). apply existsb_exists. exists y. split; [|exact P].
          apply nth_error_In with i. cbn. rewrite nth_set_other; [exact Y|]. intros ->. cbn in Y. rewrite N in Y. injection Y as <-. cbn in P. apply Nat.eqb_eq in P. congruence.
      - cbn in CU. apply negb_false_iff in CU. destruct (Nat.eq_dec s' s) as [->|NS]; [unfold owned; cbn; rewrite CU; reflexivity|].
        unfold owned in *. apply orb_true_iff in O as [O|O]; apply orb_true_iff; [left; exact O|right].
        apply existsb_exists in O as (y & Y & P). apply In_nth_error in Y as (i & Y). apply existsb_exists. exists y. split; [|exact P].
        apply nth_error_In with i. cbn. rewrite nth_set_other; [exact Y|]. intros ->. cbn in Y. rewrite N in Y. injection Y as <-. cbn in P. apply Nat.eqb_eq in P. congruence. }
    destruct (reconnect Multi st c). exact X.
  - destruct (hidden st c); exact O.
  - destruct (hub st); [|exact O]. destruct (em st); [exact O|congruence].
  - destruct (hub st); [|exact O]. destruct (entries st) eqn:EN; [|destruct (notif st)]; unfold owned in *; cbn; rewrite ?EN in *; exact O.
  - destruct (em st) as [e|]; [|exact O]. destruct (Nat.eqb (e_thread e) t); [|exact O]. destruct (e_run e); [exact O|]. unfold step.
    destruct (nth_error (entries st) (e_cur e)) as [[[k s']|]|] eqn:N; [| |exact O].
    + destruct (nth_error (kinds st) s') as [[| | |o c]|] eqn:K; try exact O. destruct (S _ _ K); discriminate.
    + assert (E : cnt (is_slot s) (drop_nth (e_cur e) (entries st)) = cnt (is_slot s) (entries st)).
      { unfold drop_nth. rewrite <- (firstn_skipn (e_cur e) (entries st)) at 3. rewrite !cnt_app. f_equal. clear - N. revert N. generalize (e_cur e). induction (entries st) as [|y l IH]; intros [|i] N; cbn in *; try discriminate; [injection N as ->; rewrite cnt_cons; reflexivity|apply IH; exact N]. }
      unfold owned in *. cbn. rewrite has_cnt, E, <- has_cnt. exact O.
  - destruct (em st) as [e|]; [|exact O]. destruct (Nat.eqb (e_thread e) t); [|exact O]. destruct (e_run e) as [[k s']|]; [|exact O]. unfold slot_return, go_on.
    destruct (nth_error (kinds st) s') as [[| |c|o c]|] eqn:K; try exact O; destruct (S _ _ K); discriminate.
  - destruct (em st) as [e|]; [|exact O]. destruct (Nat.eqb (e_thread e) t); [|exact O]. destruct (e_run e) as [[k s']|]; exact O.
Qed.

Lemma kinds_act_simple m st t a : J st -> simple st -> match a with AConnect CAware | AConnect (CTracked _) => False | _ => True end -> simple (act m st t a).
Proof.
  intros I S W s k N. destruct (grow_act m st t a I) as [_ [E|(k' & E & O)]]; rewrite E in N; [exact (S s k N)|]. rewrite nth_snoc in N.
  destruct (Nat.eqb s (length (kinds st))); [|exact (S s k N)]. injection N as <-.
  assert (X : k' = KPlain \/ k' = KPtr); [|exact X].
  assert (SV : forall st0 s', kinds (save m st0 t a s') = kinds st ++ [k'] -> kinds st0 = kinds st ++ [KPlain] \/ kinds st0 = kinds st -> k' = KPlain \/ k' = KPtr).
  { intros st0 s' E1 E2. rewrite (proj1 (kinds_save m st0 t a s')) in E1. destruct E2 as [E2|E2]; rewrite E2 in E1; [apply app_inv_head in E1; injection E1 as <-; auto|].
    apply (f_equal (@length kind)) in E1. rewrite app_length in E1. cbn in E1. lia. }
  assert (Z : kinds st = kinds st ++ [k'] -> k' = KPlain \/ k' = KPtr).
  { intros Y. apply (f_equal (@length kind)) in Y. rewrite app_length in Y. cbn in Y. lia. }
  unfold act in E. destruct a as [k| |s'|s'|s'| | | |c|c|c|c|c|o| |v| | |]; try (destruct (free st t); [unfold call in E|apply Z; exact E]); try (apply Z; exact E).
  - destruct k as [| |o]; try contradiction. destruct (hub st); [|apply Z; exact E]. eapply SV; [exact E|]. auto.
  - cbn in E. apply app_inv_head in E. injection E as <-. auto.
  - destruct (hub st && _); [|apply Z; exact E]. eapply SV; [exact E|]. auto.
  - destruct (hub st && _); [|apply Z; exact E]. destruct (has s' (entries st)); apply Z; exact E.
  - destruct (hub st); [|apply Z; exact E]. destruct m; [destruct (em st)|]; apply Z; exact E.
  - destruct (hub st); apply Z; exact E.
  - destruct (hub st); apply Z; exact E.
  - destruct (hidden st c); [apply Z; exact E|]. destruct (kinds_disconnect m st c) as (A & _). destruct (disconnect m st c). cbn in *. apply Z. congruence.
  - destruct (hidden st c); [apply Z; exact E|]. destruct (kinds_reconnect m st c) as (A & _). destruct (reconnect m st c). cbn in *. apply Z. congruence.
  - destruct (hidden st c); apply Z; exact E.
  - destruct (internal st c || _); apply Z; exact E.
  - destruct (internal st c || _); [apply Z; exact E|]. destruct (kinds_disconnect m st c) as (A & _). destruct (is_connected st c); cbn in *; apply Z; congruence.
  - destruct (hub st); [|apply Z; exact E]. destruct (em st); apply Z; exact E.
  - destruct (hub st); [|apply Z; exact E]. destruct (entries st); [|destruct (notif st)]; apply Z; exact E.
  - destruct (em st) as [e|] eqn:EM; [|apply Z; exact E]. destruct (Nat.eqb (e_thread e) t); [|apply Z; exact E]. destruct (e_run e); [apply Z; exact E|]. unfold step in E.
    destruct (nth_error (entries st) (e_cur e)) as [[[k s']|]|]; try (apply Z; exact E). destruct (nth_error (kinds st) s') as [[| | |o c]|] eqn:K; try (apply Z; exact E).
    destruct (S _ _ K); discriminate.
  - destruct (em st) as [e|] eqn:EM; [|apply Z; exact E]. destruct (Nat.eqb (e_thread e) t); [|apply Z; exact E]. destruct (e_run e) as [[k s']|]; [|apply Z; exact E]. unfold slot_return in E.
    destruct (nth_error (kinds st) s') as [[| |c|o c]|] eqn:K; destruct m; try (apply Z; exact E); destruct (S _ _ K); discriminate.
  - destruct (em st) as [e|] eqn:EM; [|apply Z; exact E]. destruct (Nat.eqb (e_thread e) t); [|apply Z; exact E]. destruct (e_run e) as [[k s']|]; apply Z; exact E.
Qed.

Theorem never_freed h s : kept h -> ~ In (EFreed s) (trace Multi h).
Proof.
  intros W. assert (G : ~ In (EFreed s) (trace Multi h) /\ simple (final Multi h)); [|apply G].
  induction h as [|l h IH] using rev_ind; [split; [intros []|intros s' k N; destruct s'; discriminate]|]. apply always_snoc in W as [W1 W2]. destruct (IH W1) as [A B]. unfold trace in *. rewrite final_snoc. unfold next.
  destruct (crashed (final Multi h)); [auto|]. destruct l as [t a]. cbn [fst snd] in *. set (st := final Multi h) in *. pose proof (J_final Multi h) as I. fold st in I.
  assert (WA : watch st (act Multi st t a) = act Multi st t a).
  { unfold watch. destruct (em st) as [e|] eqn:EM; [|reflexivity]. destruct (e_run e) as [[k s']|]; [|reflexivity]. destruct (owned st s') eqn:O; [|reflexivity].
    rewrite (owned_act st t a s' B); [reflexivity|rewrite EM; discriminate|destruct a as [[]| | | | | | | | | | | | | | | | | |]; exact W2|exact O]. }
  rewrite WA. split; [|apply kinds_act_simple; auto; destruct a as [[]| | | | | | | | | | | | | | | | | |]; auto].
  intros X. assert (Y : exists l, tr (act Multi st t a) = tr st ++ l /\ forall e, In e l -> e <> EFreed s).
  { assert (SV : forall st0 s' a0, tr st0 = tr st -> exists l, tr (save Multi st0 t a0 s') = tr st ++ l /\ forall e, In e l -> e <> EFreed s).
    { intros st0 s' a0 E. rewrite tr_save, E. eexists. split; [reflexivity|]. intros e Y. apply in_app_or in Y as [Y|[<-|[]]]; [|discriminate]. destruct (can_add Multi (entries st0)); [destruct Y as [<-|[]]; discriminate|destruct Y]. }
    assert (Z : exists l, tr st = tr st ++ l /\ forall e, In e l -> e <> EFreed s) by (exists (@nil event); rewrite app_nil_r; split; [reflexivity|intros e []]).
    assert (Z1 : forall x, x <> EFreed s -> exists l, tr st ++ [x] = tr st ++ l /\ forall e, In e l -> e <> EFreed s) by (intros x NX; exists [x]; split; [reflexivity|intros e [<-|[]]; exact NX]).
    assert (Z2 : forall x y, x <> EFreed s -> y <> EFreed s -> exists l, (tr st ++ [x]) ++ [y] = tr st ++ l /\ forall e, In e l -> e <> EFreed s) by (intros x y NX NY; exists [x; y]; split; [rewrite <- app_assoc; reflexivity|intros e [<-|[<-|[]]]; assumption]).
    unfold act. destruct a as [k| |s'|s'|s'| | | |c|c|c|c|c|o| |v| | |]; try contradiction; try (destruct (free st t); [unfold call|exact Z]); try exact Z.
    - destruct k as [| |o]; try contradiction. destruct (hub st); [|exact Z]. apply SV. reflexivity.
    - apply Z1. discriminate.
    - destruct (hub st && _); [|exact Z]. apply SV. reflexivity.
    - destruct (hub st && _); [|exact Z]. destruct (has s' (entries st)); [apply Z2|apply Z1]; discriminate.
    - destruct (hub st); [|exact Z]. destruct (em st); apply Z1; discriminate.
    - destruct (hub st); [|exact Z]. apply Z1; discriminate.
    - destruct (hub st); [|exact Z]. apply Z1; discriminate.
    - destruct (hidden st c); [exact Z|]. destruct (tr_disconnect Multi st c) as (l & T & V). destruct (disconnect Multi st c) as [st' b]. cbn [fst] in T. cbn. rewrite T. destruct V as [->|[s2 ->]]; [rewrite app_nil_r; apply Z1|apply Z2]; discriminate.
    - destruct (hidden st c); [exact Z|]. destruct (tr_reconnect Multi st c) as (l & T & V). destruct (reconnect Multi st c) as [st' b]. cbn [fst] in T. cbn. rewrite T. destruct V as [->|[s2 ->]]; [rewrite app_nil_r; apply Z1|apply Z2]; discriminate.
    - destruct (hidden st c); [exact Z|]. apply Z1; discriminate.
    - apply Z1; discriminate.
    - destruct (hub st); [|exact Z]. destruct (em st); [apply Z1; discriminate|]. exists [EClear; ESignalEnd]. split; [reflexivity|]. intros e [<-|[<-|[]]]; discriminate.
    - destruct (hub st); [|exact Z]. destruct (entries st); [|destruct (notif st)]; [|apply Z1; discriminate|apply Z1; discriminate]. eexists. split; [reflexivity|]. intros e [<-|[<-|[]]]; discriminate.
    - destruct (em st) as [e|]; [|exact Z]. destruct (Nat.eqb (e_thread e) t); [|exact Z]. destruct (e_run e); [exact Z|]. unfold step.
      destruct (nth_error (entries st) (e_cur e)) as [[[k s']|]|]; [|exact Z|apply Z1; discriminate]. destruct (nth_error (kinds st) s') as [[| | |o c]|] eqn:K; try (apply Z1; discriminate). destruct (B _ _ K); discriminate.
    - destruct (em st) as [e|]; [|exact Z]. destruct (Nat.eqb (e_thread e) t); [|exact Z]. destruct (e_run e) as [[k s']|]; [|exact Z]. unfold slot_return, go_on.
      destruct (nth_error (kinds st) s') as [[| |c|o c]|] eqn:K; try exact Z; destruct (B _ _ K); discriminate.
    - destruct (em st) as [e|]; [|exact Z]. destruct (Nat.eqb (e_thread e) t); [|exact Z]. destruct (e_run e) as [[k s']|]; [|exact Z]. apply Z1. discriminate. }
  destruct Y as (l & T & V). rewrite T in X. apply in_app_or in X as [X|X]; [exact (A X)|]. exact (V _ X eq_refl).
Qed.
