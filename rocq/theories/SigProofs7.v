(** The signal model: the answers of connections. *)
From Verif Require Import SigModel SigSpec SigProofs SigProofs2 SigProofs3 SigProofs4 SigProofs5 SigProofs6.

Lemma live_entries m h : live (trace m h) = somes (entries (final m h)).
Proof. eapply live_acc. exact (c_acc _ _ (CI_final m h)). Qed.
Lemma has_somes s l : has s l = true <-> In s (slots (somes l)).
Proof.
  unfold has, slots. rewrite existsb_exists, in_map_iff. split.
  - intros ([[k s']|] & X & Y); [|discriminate]. cbn in Y. apply Nat.eqb_eq in Y. subst s'. exists (k, s). split; [reflexivity|].
    apply In_nth_error in X as (i & X). eapply somes_nth; eauto.
  - intros ([k s'] & E & X). cbn in E. subst s'. apply somes_in in X as (i & X). exists (Some (k, s)). split; [eapply nth_error_In; eauto|]. cbn. apply Nat.eqb_refl.
Qed.
Lemma has_live m h s : has s (entries (final m h)) = true <-> In s (slots (live (trace m h))).
Proof. rewrite live_entries. apply has_somes. Qed.

Lemma not_crashed m h : ~ In ECrash (trace m h) -> crashed (final m h) = false.
Proof. intros H. destruct (crashed (final m h)) eqn:C; [|reflexivity]. apply (f_crashed _ (F_final m h)) in C. contradiction. Qed.
Lemma alive_hub m h : signal_alive m h -> hub (final m h) = true.
Proof. intros H. destruct (hub (final m h)) eqn:C; [reflexivity|]. apply (f_hub _ (F_final m h)) in C. contradiction. Qed.
Lemma not_user m h s : ~ user_slot m h s -> nth_error (kinds (final m h)) s <> Some KPtr.
Proof. intros H X. apply H. apply (f_made _ (F_final m h)). exact X. Qed.

Lemma given_M m h c s : made_for m h c s -> ~ user_slot m h s -> internal (final m h) c = false /\ c < length (conns (final m h)) /\ M (final m h) c s.
Proof.
  intros (t & a & X) U. destruct (given_final m h) as [G _]. destruct (G t a c s X) as (G1 & G2 & G3 & G4 & G5). repeat split; auto. apply G4. apply not_user. exact U.
Qed.

Lemma owned_has st s : has s (entries st) = true -> owned st s = true.
Proof. intros H. unfold owned. rewrite H. reflexivity. Qed.

Lemma strong_no st c s : J st -> nth_error (kinds st) s <> Some KPtr -> nth_error (conns st) c = Some (CPtr s) -> has s (entries st) = false.
Proof.
  intros I K N. destruct (has s (entries st)) eqn:H; [|reflexivity]. exfalso. pose proof (j_one _ I s K) as X. unfold strong in X. apply has_pos in H.
  assert (Y : 1 <= cnt (is_ptr s) (conns st)) by (eapply cnt_pos; [eapply nth_error_In; eauto|cbn; apply Nat.eqb_refl]). lia.
Qed.
Lemma strong_zero_has st s : strong st s = 0 -> has s (entries st) = false.
Proof. intros H. destruct (has s (entries st)) eqn:X; [|reflexivity]. apply has_pos in X. unfold strong in H. lia. Qed.

(** What an in-use connection refers to while the signal lives. *)
Lemma con_view m h c s : made_for m h c s -> ~ user_slot m h s -> in_use m h c -> signal_alive m h ->
  let st := final m h in
  (nth_error (conns st) c = Some (CRef (Some s)) /\ cut c (tr st) = false) \/
  (nth_error (conns st) c = Some (CRef None) /\ has s (entries st) = false /\ cut c (tr st) = false) \/
  (nth_error (conns st) c = Some (CPtr s) /\ has s (entries st) = false /\ cut c (tr st) = true).
Proof.
  intros G U IU A st. destruct (given_M m h c s G U) as (_ & _ & y & N & Y). fold st in N, Y. pose proof (alive_hub m h A) as HB. fold st in HB. pose proof (J_final m h) as I. fold st in I.
  destruct y as [[s'|]|s'|].
  - destruct Y as [-> [Y|Y]]; [auto|congruence].
  - destruct Y as [[Y1 Y2]|Y]; [|congruence]. right. left. auto using strong_zero_has.
  - destruct Y as [-> [Y|Y]]; [|congruence]. right. right. repeat split; auto. eapply strong_no; eauto. apply not_user. exact U.
  - contradiction.
Qed.

Lemma connected_iff m h c s : made_for m h c s -> ~ user_slot m h s -> in_use m h c -> signal_alive m h ->
  is_connected (final m h) c = has s (entries (final m h)).
Proof.
  intros G U IU A. pose proof (alive_hub m h A) as HB. unfold is_connected. destruct (con_view m h c s G U IU A) as [[N C]|[(N & H & C)|(N & H & C)]]; rewrite N.
  - rewrite HB. destruct (has s (entries (final m h))) eqn:H; [rewrite owned_has by exact H; reflexivity|]. rewrite andb_false_r. reflexivity.
  - rewrite H. reflexivity.
  - rewrite H. reflexivity.
Qed.

Lemma trace_snoc m h t a : may_call m h t -> trace m (h ++ [(t, a)]) = tr (watch (final m h) (act m (final m h) t a)).
Proof. intros [_ C]. unfold trace. rewrite final_snoc. unfold next. rewrite not_crashed by exact C. reflexivity. Qed.

Lemma watch_owned st st' : (forall s, owned st s = true -> owned st' s = true) -> watch st st' = st'.
Proof.
  intros H. unfold watch. destruct (em st) as [e|]; [|reflexivity]. destruct (e_run e) as [[k s]|]; [|reflexivity].
  destruct (owned st s) eqn:O; [|reflexivity]. rewrite (H s O). reflexivity.
Qed.
Lemma owned_emit st l s : owned (emit st l) s = owned st s.
Proof. reflexivity. Qed.

Lemma cnt_pos_exists {A} (f : A -> bool) l : existsb f l = negb (Nat.eqb (cnt f l) 0).
Proof. induction l as [|x l IH]; [reflexivity|]. cbn [existsb]. rewrite cnt_cons, IH. destruct (f x); cbn [b2n orb]; [destruct (cnt f l); reflexivity|]. rewrite Nat.add_0_l. reflexivity. Qed.

Lemma owned_strong st s : owned st s = negb (Nat.eqb (strong st s) 0) || existsb (Nat.eqb s) (held st).
Proof.
  unfold owned, strong. rewrite has_cnt, (cnt_pos_exists (is_ptr s)). destruct (cnt (is_slot s) (entries st)), (cnt (is_ptr s) (conns st)), (existsb (Nat.eqb s) (held st)); reflexivity.
Qed.

Lemma has_erase s s' l : s <> s' -> has s' (erase s l) = has s' l.
Proof. intros N. rewrite !has_cnt, cnt_erase, (proj2 (Nat.eqb_neq _ _) N), Nat.sub_0_r. reflexivity. Qed.
Lemma has_blank s s' l : s <> s' -> has s' (blank s l) = has s' l.
Proof. intros N. rewrite !has_cnt, cnt_blank, (proj2 (Nat.eqb_neq _ _) N), Nat.sub_0_r. reflexivity. Qed.

Lemma owned_cut m st c s s' : (m = Single -> length (entries st) <= 1) -> nth_error (conns st) c = Some (CRef (Some s)) -> has s (entries st) = true -> owned st s' = true ->
  owned (set_con (remove m st s) c (CPtr s)) s' = true.
Proof.
  intros ONE N H O. pose proof (nth_lt _ _ _ N) as L. unfold owned in *. apply orb_true_iff. destruct (Nat.eq_dec s s') as [<-|NE].
  - right. apply existsb_exists. exists (CPtr s). split; [eapply nth_error_In; cbn; apply nth_set_same; exact L|]. cbn. apply Nat.eqb_refl.
  - apply orb_true_iff in O as [O|O].
    + left. apply orb_true_iff in O as [O|O]; apply orb_true_iff; [left|right; exact O]. cbn. destruct m.
      * destruct (notif st); [rewrite has_blank|rewrite has_erase]; auto.
      * exfalso. specialize (ONE eq_refl). destruct (entries st) as [|x [|y l]]; [discriminate| |cbn in ONE; lia]. unfold has in H, O. cbn in H, O. rewrite orb_false_r in *.
        destruct x as [[k x]|]; [|discriminate]. cbn in *. apply Nat.eqb_eq in H, O. congruence.
    + right. apply existsb_exists in O as (y & Y & P). apply In_nth_error in Y as (i & Y). apply existsb_exists. exists y. split; [|exact P].
      apply nth_error_In with i. cbn. rewrite nth_set_other; [exact Y|]. intros ->. rewrite N in Y. injection Y as <-. discriminate.
Qed.

Lemma one_entry m h : m = Single -> length (entries (final m h)) <= 1.
Proof. intros E. apply (c_one _ _ (CI_final m h)). exact E. Qed.

(** *** connected() *)
Theorem ans_connected m h t c s : may_call m h t -> made_for m h c s -> ~ user_slot m h s -> in_use m h c -> signal_alive m h ->
  exists b, trace m (h ++ [(t, AConnected c)]) = trace m h ++ [ERet t (AConnected c) (RBool b)] /\ (b = true <-> In s (slots (live (trace m h)))).
Proof.
  intros MC G U IU A. exists (has s (entries (final m h))). split; [|apply has_live]. rewrite trace_snoc by exact MC. destruct MC as [FR _].
  destruct (given_M m h c s G U) as (IN & L & _). unfold act, call. rewrite FR, (internal_hidden _ _ IN), (connected_iff m h c s G U IU A).
  rewrite watch_owned; [reflexivity|]. auto.
Qed.

(** *** disconnect() *)
Theorem ans_disconnect m h t c s : may_call m h t -> made_for m h c s -> ~ user_slot m h s -> in_use m h c -> signal_alive m h ->
  (In s (slots (live (trace m h))) -> trace m (h ++ [(t, ADisconnect c)]) = trace m h ++ [ELeave s; ERet t (ADisconnect c) (RBool true)]) /\
  (~ In s (slots (live (trace m h))) -> trace m (h ++ [(t, ADisconnect c)]) = trace m h ++ [ERet t (ADisconnect c) (RBool false)]).
Proof.
  intros MC G U IU A. rewrite trace_snoc by exact MC. destruct MC as [FR _]. pose proof (alive_hub m h A) as HB.
  destruct (given_M m h c s G U) as (IN & L & _). unfold act, call. rewrite FR, (internal_hidden _ _ IN). rewrite <- has_live. unfold disconnect.
  destruct (con_view m h c s G U IU A) as [[N C]|[(N & H & C)|(N & H & C)]]; rewrite N.
  - destruct (has s (entries (final m h))) eqn:H.
    + rewrite owned_has, HB by exact H. split; [intros _|congruence]. rewrite watch_owned; [cbn; unfold trace; rewrite <- app_assoc; reflexivity|].
      intros s' O. rewrite owned_emit. apply owned_cut; auto. apply one_entry.
    + split; [discriminate|intros _]. rewrite HB. destruct (owned (final m h) s); rewrite watch_owned; auto.
  - rewrite H. split; [discriminate|intros _]. rewrite watch_owned; auto.
  - rewrite H. split; [discriminate|intros _]. rewrite watch_owned; auto.
Qed.

(** *** reconnect() *)
Lemma owned_add st s s' : owned st s' = true -> owned (add st s) s' = true.
Proof. unfold owned, add. cbn. rewrite has_app. intros H. apply orb_true_iff in H as [H|H]; [apply orb_true_iff in H as [H|H]|]; rewrite H; rewrite ?orb_true_r; reflexivity. Qed.

Theorem ans_reconnect m h t c s : may_call m h t -> made_for m h c s -> ~ user_slot m h s -> in_use m h c -> signal_alive m h ->
  (cut c (trace m h) = true -> (m = Multi \/ live (trace m h) = []) ->
     trace m (h ++ [(t, AReconnect c)]) = trace m h ++ [EJoin s; ERet t (AReconnect c) (RBool true)]) /\
  (cut c (trace m h) = false -> trace m (h ++ [(t, AReconnect c)]) = trace m h ++ [ERet t (AReconnect c) (RBool false)]) /\
  (cut c (trace m h) = true -> m = Single -> live (trace m h) <> [] -> exists f,
     trace m (h ++ [(t, AReconnect c)]) = trace m h ++ [ERet t (AReconnect c) (RBool false)] ++ f /\ (f = [] \/ exists e, f = [EFreed s] /\ running m h t e s)).
Proof.
  intros MC G U IU A. rewrite trace_snoc by exact MC. destruct MC as [FR _]. pose proof (alive_hub m h A) as HB.
  destruct (given_M m h c s G U) as (IN & L & _). unfold act, call. rewrite FR, (internal_hidden _ _ IN). unfold reconnect.
  destruct (con_view m h c s G U IU A) as [[N C]|[(N & H & C)|(N & H & C)]]; change (tr (final m h)) with (trace m h) in C; rewrite N, C.
  - split; [discriminate|]. split; [intros _|discriminate]. rewrite watch_owned; auto.
  - split; [discriminate|]. split; [intros _|discriminate]. rewrite watch_owned; auto.
  - rewrite HB. split; [intros _ ML|split; [discriminate|intros _ SG NE]].
    + assert (CU : can_add_unique m (entries (final m h)) s = true).
      { unfold can_add_unique. destruct m; [rewrite H; reflexivity|]. destruct ML as [ML|ML]; [discriminate|]. rewrite live_entries in ML. destruct (entries (final Single h)) as [|x l] eqn:E; [reflexivity|]. exfalso.
        assert (X : x <> None) by (apply (proj2 (c_one _ _ (CI_final Single h) eq_refl)); rewrite E; left; reflexivity). destruct x; [discriminate|congruence]. }
      rewrite CU. rewrite watch_owned; [cbn; unfold trace; rewrite <- app_assoc; reflexivity|].
      intros s' O. rewrite owned_emit. destruct (Nat.eq_dec s s') as [<-|NS].
      * unfold owned. cbn. rewrite has_app. unfold has at 2. cbn. rewrite Nat.eqb_refl, orb_true_r. reflexivity.
      * apply (owned_add _ s) in O. unfold owned in *. apply orb_true_iff in O as [O|O]; apply orb_true_iff; [left; exact O|right].
        apply existsb_exists in O as (y & Y & P). apply In_nth_error in Y as (i & Y). apply existsb_exists. exists y. split; [|exact P].
        apply nth_error_In with i. cbn. rewrite nth_set_other; [exact Y|]. intros ->. cbn in Y. rewrite N in Y. injection Y as <-. cbn in P. apply Nat.eqb_eq in P. congruence.
    + subst m. assert (CU : can_add_unique Single (entries (final Single h)) s = false).
      { unfold can_add_unique, can_add. rewrite live_entries in NE. destruct (entries (final Single h)); [contradiction|reflexivity]. }
      rewrite CU. unfold watch. destruct (em (final Single h)) as [e|] eqn:EM; [|exists []; split; [reflexivity|auto]].
      unfold free in FR. rewrite EM in FR. apply andb_true_iff in FR as [FT FR]. destruct (e_run e) as [[k s']|] eqn:ER; [|discriminate].
      destruct (owned _ s' && _) eqn:W; [|exists []; split; [reflexivity|auto]]. exists [EFreed s']. split; [cbn; rewrite <- app_assoc; reflexivity|]. right.
      assert (s' = s).
      { apply andb_true_iff in W as [W1 W2]. rewrite owned_emit in W2. rewrite owned_strong in W1. rewrite owned_strong in W2. cbn [held set_con with_conns] in W2.
        destruct (Nat.eq_dec s' s) as [X|X]; [exact X|]. exfalso. pose proof (strong_set (final Single h) c s' (CRef None) _ N) as S. cbn [is_ptr] in S.
        rewrite (proj2 (Nat.eqb_neq s' s) X) in S. cbn in S. rewrite !Nat.add_0_r in S. cbn in W2. rewrite S, W1 in W2. discriminate. }
      subst s'. exists (e_no e). split; [reflexivity|]. exists e, k. repeat split; auto. apply Nat.eqb_eq. exact FT.
Qed.
