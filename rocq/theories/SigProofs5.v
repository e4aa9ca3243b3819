(** The signal model: flags and events, and what a connection refers to. *)
From Verif Require Import SigModel SigSpec SigProofs SigProofs2 SigProofs3 SigProofs4.

Record F (st : state) : Prop := {
  f_hub : In ESignalEnd (tr st) <-> hub st = false;
  f_dead : forall o, In (EKilled o) (tr st) <-> In o (dead st);
  f_crashed : In ECrash (tr st) <-> crashed st = true;
  f_made : forall s, (exists t, In (ERet t AMakePtr (RPtr s)) (tr st)) <-> nth_error (kinds st) s = Some KPtr
}.

Lemma F_plain st st' l ks : F st -> plain l -> flags st' = flags st -> kinds st' = kinds st ++ ks -> (forall k, In k ks -> k <> KPtr) -> tr st' = tr st ++ l -> F st'.
Proof.
  intros [A B C D] P FL K KK T. unfold flags in FL. injection FL as f1 f2 f3.
  assert (IN : forall e, plain_ev e = false -> In e (tr st') <-> In e (tr st)).
  { intros e N. rewrite T, in_app_iff. split; [|auto]. intros [X|X]; [exact X|]. rewrite (P e X) in N. discriminate. }
  split.
  - rewrite IN by reflexivity. rewrite f2. exact A.
  - intros o. rewrite IN by reflexivity. rewrite f1. apply B.
  - rewrite IN by reflexivity. rewrite f3. exact C.
  - intros s. rewrite K. split.
    + intros (t & X). apply IN in X; [|reflexivity]. assert (Y : nth_error (kinds st) s = Some KPtr) by (apply D; eauto). rewrite nth_error_app1; [exact Y|eapply nth_lt; eauto].
    + intros X. destruct (Nat.lt_ge_cases s (length (kinds st))) as [L|L].
      * rewrite nth_error_app1 in X by exact L. apply D in X as (t & X). exists t. apply IN; [reflexivity|exact X].
      * rewrite nth_error_app2 in X by exact L. apply nth_error_In in X. exfalso. exact (KK _ X eq_refl).
Qed.
Lemma F_step st st' : F st -> flag_step st st' -> F st'.
Proof.
  intros I S. pose proof I as [A B C D]. destruct S as [l P FL (ks & K & KK) T|t FL K T|o FL K T|FL K T EN|FL K T].
  - eapply F_plain; eauto.
  - unfold flags in FL. injection FL as f1 f2 f3. split; rewrite ?T, ?f1, ?f2, ?f3, ?K.
    + rewrite in_app_iff. cbn. rewrite <- A. split; [intros [X|[X|[]]]; [exact X|discriminate]|auto].
    + intros o. rewrite in_app_iff. cbn. rewrite <- B. split; [intros [X|[X|[]]]; [exact X|discriminate]|auto].
    + rewrite in_app_iff. cbn. rewrite <- C. split; [intros [X|[X|[]]]; [exact X|discriminate]|auto].
    + intros s. rewrite nth_snoc. split.
      * intros (t' & X). apply in_app_or in X as [X|[X|[]]].
        -- assert (Y : nth_error (kinds st) s = Some KPtr) by (apply D; eauto). destruct (Nat.eqb s (length (kinds st))); [reflexivity|exact Y].
        -- injection X as <- <-. rewrite Nat.eqb_refl. reflexivity.
      * destruct (Nat.eqb s (length (kinds st))) eqn:Q.
        -- apply Nat.eqb_eq in Q. subst s. intros _. exists t. apply in_or_app. right. left. reflexivity.
        -- intros X. apply D in X as (t' & X). exists t'. apply in_or_app. left. exact X.
  - unfold flags in FL. injection FL as f1 f2 f3. split; rewrite ?T, ?f1, ?f2, ?f3, ?K.
    + rewrite in_app_iff. cbn. rewrite <- A. split; [intros [X|[X|[]]]; [exact X|discriminate]|auto].
    + intros o'. rewrite in_app_iff. cbn. rewrite <- B. split; [intros [X|[X|[]]]; [auto|injection X as ->; auto]|intros [->|X]; auto].
    + rewrite in_app_iff. cbn. rewrite <- C. split; [intros [X|[X|[]]]; [exact X|discriminate]|auto].
    + intros s. rewrite <- D. split; intros (t' & X); exists t'; [apply in_app_or in X as [X|[X|[]]]; [exact X|discriminate]|apply in_or_app; auto].
  - unfold flags in FL. injection FL as f1 f2 f3. split; rewrite ?T, ?f1, ?f2, ?f3, ?K.
    + rewrite in_app_iff. cbn. split; auto.
    + intros o'. rewrite in_app_iff. cbn. rewrite <- B. split; [intros [X|[X|[X|[]]]]; [auto|discriminate|discriminate]|auto].
    + rewrite in_app_iff. cbn. rewrite <- C. split; [intros [X|[X|[X|[]]]]; [exact X|discriminate|discriminate]|auto].
    + intros s. rewrite <- D. split; intros (t' & X); exists t'; [apply in_app_or in X as [X|[X|[X|[]]]]; [exact X|discriminate|discriminate]|apply in_or_app; auto].
  - unfold flags in FL. injection FL as f1 f2 f3. split; rewrite ?T, ?f1, ?f2, ?f3, ?K.
    + rewrite in_app_iff. cbn. rewrite <- A. split; [intros [X|[X|[]]]; [exact X|discriminate]|auto].
    + intros o'. rewrite in_app_iff. cbn. rewrite <- B. split; [intros [X|[X|[]]]; [auto|discriminate]|auto].
    + rewrite in_app_iff. cbn. split; auto.
    + intros s. rewrite <- D. split; intros (t' & X); exists t'; [apply in_app_or in X as [X|[X|[]]]; [exact X|discriminate]|apply in_or_app; auto].
Qed.

(** [watch] only reports. *)
Lemma watch_cases st st' : watch st st' = st' \/ exists s, watch st st' = emit st' [EFreed s].
Proof. unfold watch. destruct (em st) as [e|]; [|auto]. destruct (e_run e) as [[k s]|]; [|auto]. destruct (owned st s && _); eauto. Qed.

Lemma F_next m st l : J st -> F st -> F (next m st l).
Proof.
  intros I H. unfold next. destruct (crashed st); [exact H|]. pose proof (F_step _ _ H (flag_act m st (fst l) (snd l) I)) as X.
  destruct (watch_cases st (act m st (fst l) (snd l))) as [->|[s ->]]; [exact X|]. apply (F_plain _ (emit (act m st (fst l) (snd l)) [EFreed s]) [EFreed s] [] X); [plains|reflexivity|cbn; rewrite app_nil_r; reflexivity|intros k []|reflexivity].
Qed.
Lemma F_init : F init.
Proof. split; cbn; try tauto; try (split; [tauto|discriminate]). intros s. split; [intros (t & [])|destruct s; discriminate]. Qed.
Theorem F_final m h : F (final m h).
Proof. induction h as [|l h IH] using rev_ind; [apply F_init|]. rewrite final_snoc. apply F_next; [apply J_final|exact IH]. Qed.

(** ** A destroyed signal has no slots *)
Lemma empty_act m st t a : J st -> hub st = false -> entries st = [] -> entries (act m st t a) = [].
Proof.
  intros I HB EN. assert (EM : em st = None) by (destruct (em st) eqn:X; [|reflexivity]; assert (hub st = true) by (apply (j_hub _ I); congruence); congruence).
  unfold act. rewrite EM. unfold free. rewrite EM.
  assert (DC : forall c, entries (fst (disconnect m st c)) = []).
  { intros c. unfold disconnect. destruct (nth_error (conns st) c) as [[[s|]|s|]|]; try exact EN. destruct (owned st s); [|exact EN]. rewrite HB. exact EN. }
  assert (RC : forall c, entries (fst (reconnect m st c)) = []).
  { intros c. unfold reconnect. destruct (nth_error (conns st) c) as [[|s|]|]; try exact EN. rewrite HB. exact EN. }
  destruct a as [k| |s|s|s| | | |c|c|c|c|c|o| |v| | |]; unfold call; rewrite ?HB; cbn [andb]; try exact EN; try (destruct k; exact EN).
  - destruct (hidden st c); [exact EN|]. specialize (DC c). destruct (disconnect m st c). exact DC.
  - destruct (hidden st c); [exact EN|]. specialize (RC c). destruct (reconnect m st c). exact RC.
  - destruct (hidden st c); exact EN.
  - destruct (internal st c || _); exact EN.
  - destruct (internal st c || _); [exact EN|]. destruct (is_connected st c); [exact (DC c)|exact EN].
Qed.
Lemma empty_next m st l : J st -> F st -> (hub st = false -> entries st = []) -> hub (next m st l) = false -> entries (next m st l) = [].
Proof.
  intros I FF H. unfold next. destruct (crashed st); [exact H|]. set (st' := act m st (fst l) (snd l)).
  assert (X : hub st' = false -> entries st' = []).
  { destruct (hub st) eqn:HB.
    - intros Y. destruct (flag_act m st (fst l) (snd l) I) as [l' P FL _ T|t FL K T|o FL K T|FL K T EN|FL K T]; fold st' in FL; unfold flags in FL; injection FL as f1 f2 f3; try congruence.
      exact EN.
    - intros _. apply empty_act; auto. }
  destruct (watch_cases st st') as [->|[s ->]]; exact X.
Qed.
Theorem gone_empty m h : hub (final m h) = false -> entries (final m h) = [].
Proof. induction h as [|l h IH] using rev_ind; [discriminate|]. rewrite final_snoc. apply empty_next; [apply J_final|apply F_final|exact IH]. Qed.

(** ** What a connection given to the user refers to *)
Lemma cut_app c a b : cut c (a ++ b) = fold_left (cut_by c) b (cut c a).
Proof. apply fold_left_app. Qed.

Definition M (st : state) (c s : nat) : Prop := exists y, nth_error (conns st) c = Some y /\
  match y with
  | CRef (Some s') => s' = s /\ (cut c (tr st) = false \/ hub st = false)
  | CPtr s' => s' = s /\ (cut c (tr st) = true \/ hub st = false)
  | CRef None => (strong st s = 0 /\ cut c (tr st) = false) \/ hub st = false
  | CGone => In (EDestroy c) (tr st)
  end.

(** Events that say nothing about cutting [c]. *)
Definition cuts (c : nat) (e : event) : bool :=
  match e with ERet _ (ADisconnect c') (RBool true) => Nat.eqb c c' | ERet _ (AReconnect c') _ => Nat.eqb c c' | _ => false end.
Lemma cut_same c a l : (forall e, In e l -> cuts c e = false) -> cut c (a ++ l) = cut c a.
Proof.
  intros H. rewrite cut_app. generalize (cut c a). induction l as [|e l IH]; intros b; [reflexivity|]. cbn. rewrite IH by (intros; apply H; right; assumption).
  specialize (H e (or_introl eq_refl)). destruct e; try reflexivity. cbn in *. destruct a0; try reflexivity; cbn in *.
  - destruct r as [[|]| | |]; try reflexivity. rewrite H. reflexivity.
  - rewrite H. reflexivity.
Qed.

Lemma M_same st st' c s l : M st c s -> nth_error (conns st') c = nth_error (conns st) c -> tr st' = tr st ++ l -> (forall e, In e l -> cuts c e = false) ->
  (hub st = false -> hub st' = false) -> strong st' s <= strong st s -> M st' c s.
Proof.
  intros (y & N & Y) E T Q HB S. exists y. split; [congruence|]. rewrite T, cut_same by exact Q. destruct y as [[s'|]|s'|].
  - destruct Y as [Y1 [Y2|Y2]]; auto.
  - destruct Y as [[Y1 Y2]|Y2]; [left; split; [lia|exact Y2]|auto].
  - destruct Y as [Y1 [Y2|Y2]]; auto.
  - apply in_or_app. left. exact Y.
Qed.

Lemma nth_snoc_old {A} (l : list A) x i : i < length l -> nth_error (l ++ [x]) i = nth_error l i.
Proof. intros L. apply nth_error_app1. exact L. Qed.

Lemma conns_save m st t a s c : c < length (conns st) -> nth_error (conns (save m st t a s)) c = nth_error (conns st) c.
Proof. intros L. unfold save. destruct (can_add m (entries st)); cbn; apply nth_error_app1; exact L. Qed.
Lemma conns_disconnect m st c c' : c <> c' -> nth_error (conns (fst (disconnect m st c'))) c = nth_error (conns st) c.
Proof.
  intros NE. unfold disconnect. destruct (nth_error (conns st) c') as [[[s|]|s|]|]; try reflexivity. destruct (owned st s); [|reflexivity].
  destruct (hub st); [destruct (has s (entries st))|]; cbn; rewrite ?nth_set_other by congruence; reflexivity.
Qed.
Lemma conns_reconnect m st c c' : c <> c' -> nth_error (conns (fst (reconnect m st c'))) c = nth_error (conns st) c.
Proof.
  intros NE. unfold reconnect. destruct (nth_error (conns st) c') as [[|s|]|]; try reflexivity.
  destruct (hub st); [destruct (can_add_unique m (entries st) s)|]; cbn; rewrite ?nth_set_other by congruence; reflexivity.
Qed.

Lemma M_disconnect m st t c s : M st c s -> M (emit (fst (disconnect m st c)) [ERet t (ADisconnect c) (RBool (snd (disconnect m st c)))]) c s.
Proof.
  intros (y & N & Y). unfold disconnect. rewrite N. pose proof (nth_lt _ _ _ N) as L.
  assert (SAME : forall b, b = false -> M (emit st [ERet t (ADisconnect c) (RBool b)]) c s).
  { intros b ->. eapply (M_same st _ c s [ERet t (ADisconnect c) (RBool false)]); [exists y; auto| | | | |]; try reflexivity; auto. intros e [<-|[]]. reflexivity. }
  destruct y as [[s'|]|s'|]; try (apply SAME; reflexivity). destruct (owned st s'); [|apply SAME; reflexivity]. destruct Y as [-> Y].
  destruct (hub st) eqn:HB; [destruct (has s (entries st))|]; cbn [fst snd].
  - exists (CPtr s). cbn. split; [rewrite nth_set_same by exact L; reflexivity|]. split; [reflexivity|]. left. rewrite cut_app. cbn. rewrite Nat.eqb_refl. reflexivity.
  - apply SAME. reflexivity.
  - exists (CRef None). cbn. split; [rewrite nth_set_same by exact L; reflexivity|]. right. exact HB.
Qed.
Lemma M_reconnect m st t c s : J st -> nth_error (kinds st) s <> Some KPtr -> M st c s -> M (emit (fst (reconnect m st c)) [ERet t (AReconnect c) (RBool (snd (reconnect m st c)))]) c s.
Proof.
  intros I K (y & N & Y). unfold reconnect. rewrite N. pose proof (nth_lt _ _ _ N) as L.
  assert (CF : forall a b, cut c (a ++ [ERet t (AReconnect c) (RBool b)]) = false) by (intros a b; rewrite cut_app; cbn; rewrite Nat.eqb_refl; reflexivity).
  destruct y as [[s'|]|s'|].
  - exists (CRef (Some s')). cbn. split; [exact N|]. rewrite CF. destruct Y as [Y _]. auto.
  - exists (CRef None). cbn. split; [exact N|]. rewrite CF. destruct Y as [[Y _]|Y]; [left; split; [exact Y|reflexivity]|auto].
  - destruct Y as [-> Y]. destruct (hub st) eqn:HB; [destruct (can_add_unique m (entries st) s)|]; cbn [fst snd].
    + exists (CRef (Some s)). cbn. split; [rewrite nth_set_same by exact L; reflexivity|]. rewrite CF. auto.
    + exists (CRef None). cbn. split; [rewrite nth_set_same by exact L; reflexivity|]. left. rewrite CF. split; [|reflexivity].
      pose proof (strong_set st c s (CRef None) _ N) as X. cbn [is_ptr] in X. rewrite Nat.eqb_refl in X. cbn [b2n] in X. pose proof (j_one _ I s K). unfold strong in *. cbn in *. lia.
    + exists (CPtr s). cbn. split; [exact N|]. split; [reflexivity|]. right. exact HB.
  - exists CGone. cbn. split; [exact N|]. apply in_or_app. left. exact Y.
Qed.

Lemma cuts_no c l : (forall e, In e l -> match e with ERet _ (ADisconnect _) _ | ERet _ (AReconnect _) _ => False | _ => True end) -> forall e, In e l -> cuts c e = false.
Proof. intros H e E. specialize (H e E). destruct e; try reflexivity. destruct a; try reflexivity; contradiction. Qed.

Ltac nocut := let e := fresh in let X := fresh in intros e X; cbn in X; repeat (destruct X as [<-|X]; [reflexivity|]); destruct X.

Lemma M_act m st t a c s : J st -> internal st c = false -> s < length (kinds st) -> nth_error (kinds st) s <> Some KPtr -> M st c s -> M (act m st t a) c s.
Proof.
  intros I IC Ls K MM. pose proof MM as (y & N & Y). pose proof (nth_lt _ _ _ N) as Lc.
  pose proof (strong_act m st t a s I Ls K) as ST. unfold act in *.
  assert (NOOP : M st c s) by exact MM.
  destruct a as [k| |s'|s'|s'| | | |c'|c'|c'|c'|c'|o| |v| | |]; try (destruct (free st t); [unfold call in *|exact MM]).
  - (* connect *)
    assert (G : forall st0 a0, conns st0 = conns st \/ (exists z, conns st0 = conns st ++ [z]) -> hub st0 = hub st -> tr st0 = tr st ->
      match a0 with ADisconnect _ | AReconnect _ => False | _ => True end ->
      strong (save m st0 t a0 (length (kinds st))) s <= strong st s -> M (save m st0 t a0 (length (kinds st))) c s).
    { intros st0 a0 E1 E2 E3 NA S0. destruct (kinds_save m st0 t a0 (length (kinds st))) as (A & B & C & D).
      eapply (M_same st _ c s); [exact MM| |rewrite tr_save, E3; reflexivity| | |exact S0].
      - rewrite conns_save; [|destruct E1 as [->|[z ->]]; rewrite ?app_length; cbn; lia]. destruct E1 as [->|[z ->]]; [reflexivity|apply nth_snoc_old; exact Lc].
      - apply cuts_no. intros e X. apply in_app_or in X as [X|[<-|[]]]; [destruct (can_add m (entries st0)); [destruct X as [<-|[]]; exact Logic.I|destruct X]|]. destruct a0; auto.
      - congruence. }
    destruct k as [| |o].
    + destruct (hub st) eqn:HB; [|exact MM]. apply G; auto.
    + destruct (hub st) eqn:HB; [|exact MM]. apply G; auto. right. eexists. reflexivity.
    + destruct (hub st && _) eqn:HB; [|exact MM]. apply G; auto. right. eexists. reflexivity.
  - eapply (M_same st _ c s); [exact MM|reflexivity|reflexivity|nocut|auto|exact ST].
  - (* connect ptr *)
    destruct (hub st && _); [|exact MM]. destruct (kinds_save m st t (AConnectPtr s') s') as (A & B & C & D).
    eapply (M_same st _ c s); [exact MM|apply conns_save; exact Lc|apply tr_save| |congruence|exact ST].
    apply cuts_no. intros e X. apply in_app_or in X as [X|[<-|[]]]; [destruct (can_add m (entries st)); [destruct X as [<-|[]]; exact Logic.I|destruct X]|exact Logic.I].
  - eapply (M_same st _ c s []); [exact MM|reflexivity|cbn; rewrite app_nil_r; reflexivity|nocut|auto|exact ST].
  - destruct (hub st && _); [|exact MM]. destruct (has s' (entries st)).
    + eapply (M_same st _ c s [ELeave s'; ERet t (ADisconnectPtr s') (RBool true)]); [exact MM|reflexivity|cbn; rewrite <- app_assoc; reflexivity|nocut|auto|exact ST].
    + eapply (M_same st _ c s); [exact MM|reflexivity|reflexivity|nocut|auto|exact ST].
  - destruct (hub st) eqn:HB; [|exact MM]. destruct m; [destruct (em st)|]; (eapply (M_same st _ c s); [exact MM|reflexivity|reflexivity|nocut|rewrite HB; discriminate|exact ST]).
  - destruct (hub st) eqn:HB; [|exact MM]. eapply (M_same st _ c s); [exact MM|reflexivity|reflexivity|nocut|auto|exact ST].
  - destruct (hub st) eqn:HB; [|exact MM]. eapply (M_same st _ c s); [exact MM|reflexivity|reflexivity|nocut|auto|exact ST].
  - (* disconnect *)
    destruct (hidden st c'); [exact MM|]. destruct (Nat.eq_dec c c') as [<-|NE].
    + pose proof (M_disconnect m st t c s MM) as X. destruct (disconnect m st c). exact X.
    + pose proof (conns_disconnect m st c c' NE) as X1. destruct (tr_disconnect m st c') as (l & T & W). destruct (kinds_disconnect m st c') as (A1 & A2 & A3 & A4 & A5 & A6).
      destruct (disconnect m st c') as [st' b]. cbn [fst] in *. eapply (M_same st _ c s (l ++ [ERet t (ADisconnect c') (RBool b)])); [exact MM|exact X1|cbn; rewrite T, app_assoc; reflexivity| |cbn; congruence|exact ST].
      intros e X. apply in_app_or in X as [X|[<-|[]]]; [destruct W as [->|[s2 ->]]; [destruct X|destruct X as [<-|[]]; reflexivity]|]. cbn. destruct b; [|reflexivity]. apply Nat.eqb_neq. exact NE.
  - destruct (hidden st c'); [exact MM|]. destruct (Nat.eq_dec c c') as [<-|NE].
    + pose proof (M_reconnect m st t c s I K MM) as X. destruct (reconnect m st c). exact X.
    + pose proof (conns_reconnect m st c c' NE) as X1. destruct (tr_reconnect m st c') as (l & T & W). destruct (kinds_reconnect m st c') as (A1 & A2 & A3 & A4 & A5 & A6).
      destruct (reconnect m st c') as [st' b]. cbn [fst] in *. eapply (M_same st _ c s (l ++ [ERet t (AReconnect c') (RBool b)])); [exact MM|exact X1|cbn; rewrite T, app_assoc; reflexivity| |cbn; congruence|exact ST].
      intros e X. apply in_app_or in X as [X|[<-|[]]]; [destruct W as [->|[s2 ->]]; [destruct X|destruct X as [<-|[]]; reflexivity]|]. cbn. apply Nat.eqb_neq. exact NE.
  - destruct (hidden st c'); [exact MM|]. eapply (M_same st _ c s); [exact MM|reflexivity|reflexivity|nocut|auto|exact ST].
  - (* destroy *)
    destruct (internal st c' || _); [exact MM|]. destruct (Nat.eq_dec c c') as [<-|NE].
    + exists CGone. cbn. split; [rewrite nth_set_same by exact Lc; reflexivity|]. apply in_or_app. right. left. reflexivity.
    + eapply (M_same st _ c s [EDestroy c']); [exact MM|cbn; apply nth_set_other; congruence|reflexivity|nocut|auto|exact ST].
  - (* scoped *)
    destruct (internal st c' || _); [exact MM|]. destruct (Nat.eq_dec c c') as [<-|NE].
    + exists CGone. split; [|cbn; apply in_or_app; right; left; reflexivity]. cbn. apply nth_set_same. destruct (is_connected st c); [|exact Lc]. destruct (kinds_disconnect m st c) as (_ & _ & _ & _ & _ & ->). exact Lc.
    + destruct (is_connected st c').
      * destruct (tr_disconnect m st c') as (l & T & W). destruct (kinds_disconnect m st c') as (A1 & A2 & A3 & A4 & A5 & A6).
        eapply (M_same st _ c s (l ++ [EDestroy c'])); [exact MM| |cbn; rewrite T, app_assoc; reflexivity| |cbn; congruence|exact ST].
        -- cbn. rewrite nth_set_other by congruence. apply conns_disconnect. exact NE.
        -- intros e X. apply in_app_or in X as [X|[<-|[]]]; [destruct W as [->|[s2 ->]]; [destruct X|destruct X as [<-|[]]; reflexivity]|reflexivity].
      * eapply (M_same st _ c s [EDestroy c']); [exact MM|cbn; apply nth_set_other; congruence|reflexivity|nocut|auto|exact ST].
  - eapply (M_same st _ c s); [exact MM|reflexivity|reflexivity|nocut|auto|exact ST].
  - destruct (hub st) eqn:HB; [|exact MM]. destruct (em st); (eapply (M_same st _ c s); [exact MM|reflexivity|reflexivity|nocut|rewrite HB; discriminate|exact ST]).
  - destruct (hub st) eqn:HB; [|exact MM]. destruct (entries st) eqn:EN; [|destruct (notif st)]; (eapply (M_same st _ c s); [exact MM|reflexivity|reflexivity|nocut|auto|exact ST]).
  - (* step *)
    destruct (em st) as [e|] eqn:E; [|exact MM]. destruct (Nat.eqb (e_thread e) t); [|exact MM]. destruct (e_run e); [exact MM|].
    assert (HB : hub st = true) by (apply (j_hub _ I); congruence). unfold step in *.
    destruct (nth_error (entries st) (e_cur e)) as [[[k s']|]|] eqn:NE.
    + destruct (nth_error (kinds st) s') as [[| | |o c']|] eqn:KS; try (eapply (M_same st _ c s); [exact MM|reflexivity|reflexivity|nocut|auto|exact ST]).
      destruct (is_dead st o); [|eapply (M_same st _ c s); [exact MM|reflexivity|reflexivity|nocut|auto|exact ST]].
      pose proof (expire_eq m st s' o c' I KS (has_nth _ _ _ _ NE) HB) as YY. fold (expire m st c') in *. cbv zeta in *. rewrite YY in *.
      assert (CN : c' <> c).
      { intros ->. assert (T : internal st c = true); [|congruence]. unfold internal. apply existsb_exists. exists (KTracked o c). split; [eapply nth_error_In; eauto|cbn; apply Nat.eqb_refl]. }
      assert (X : forall l, (forall e, In e l -> cuts c e = false) -> tr (go_on m (emit (set_con (remove m st s') c' (CRef None)) l) e) = tr st ++ ELeave s' :: l ++ match m with Multi => [] | Single => [EEnd (e_thread e) (e_no e)] end).
      { intros l _. destruct m; cbn; rewrite <- ?app_assoc, ?app_nil_r; reflexivity. }
      destruct (owned _ s').
      * eapply (M_same st _ c s (ELeave s' :: match m with Multi => [] | Single => [EEnd (e_thread e) (e_no e)] end)); [exact MM| | | | |exact ST].
        -- destruct m; cbn; apply nth_set_other; exact CN.
        -- destruct m; cbn; rewrite <- ?app_assoc; reflexivity.
        -- destruct m; nocut.
        -- destruct m; auto.
      * eapply (M_same st _ c s (ELeave s' :: EFreed s' :: match m with Multi => [] | Single => [EEnd (e_thread e) (e_no e)] end)); [exact MM| | | | |exact ST].
        -- destruct m; cbn; apply nth_set_other; exact CN.
        -- destruct m; cbn; rewrite <- ?app_assoc; reflexivity.
        -- destruct m; nocut.
        -- destruct m; auto.
    + eapply (M_same st _ c s []); [exact MM|reflexivity|cbn; rewrite app_nil_r; reflexivity|nocut|auto|exact ST].
    + eapply (M_same st _ c s); [exact MM|reflexivity|reflexivity|nocut|auto|exact ST].
  - (* return *)
    destruct (em st) as [e|] eqn:E; [|exact MM]. destruct (Nat.eqb (e_thread e) t); [|exact MM]. destruct (e_run e) as [[k s']|]; [|exact MM]. unfold slot_return in *.
    eapply (M_same st _ c s (match m with Multi => [] | Single => [EEnd (e_thread e) (e_no e)] end)); [exact MM| | | | |exact ST].
    + assert (CC : forall x c', nth_error (kinds st) s' = Some x -> owns_con c' x = true -> nth_error (conns (match nth_error (conns st) c' with Some (CPtr _) => set_con st c' (CRef None) | _ => st end)) c = nth_error (conns st) c).
      { intros x c' KS OW. destruct (nth_error (conns st) c') as [[|s2|]|]; try reflexivity. cbn. apply nth_set_other. intros ->.
        assert (T : internal st c = true); [|congruence]. unfold internal. apply existsb_exists. exists x. split; [eapply nth_error_In; eauto|exact OW]. }
      destruct (nth_error (kinds st) s') as [[| |c'|o c']|] eqn:KS; destruct m; cbn; try reflexivity; eapply CC; try reflexivity; cbn; apply Nat.eqb_refl.
    + destruct (nth_error (kinds st) s') as [[| |c'|o c']|]; destruct m; try destruct (nth_error (conns st) c') as [[| |]|]; cbn; rewrite ?app_nil_r; reflexivity.
    + destruct m; nocut.
    + destruct (nth_error (kinds st) s') as [[| |c'|o c']|]; destruct m; try destruct (nth_error (conns st) c') as [[| |]|]; auto.
  - destruct (em st) as [e|] eqn:E; [|exact MM]. destruct (Nat.eqb (e_thread e) t); [|exact MM]. destruct (e_run e); [|exact MM].
    eapply (M_same st _ c s); [exact MM|reflexivity|reflexivity|nocut|auto|exact ST].
Qed.
