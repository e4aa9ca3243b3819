(** The signal model: who is called in an emission. *)
From Verif Require Import SigModel SigSpec SigProofs SigProofs2.
From Coq Require Import Sorting.Sorted.

Lemma mics_act m st t a : J st -> (em st <> None -> notif st = true) -> mics m st (act m st t a).
Proof.
  intros I NT. unfold act. destruct a as [k| |s|s|s| | | |c|c|c|c|c|o| |v| | |];
    try (destruct (free st t) eqn:F; [apply mics_call; eapply free_busy; eauto|apply mics_refl; reflexivity]).
  - quiet1.
  - apply mics_refl; reflexivity.
  - destruct (internal st c || _); [apply mics_refl; reflexivity|quiet1].
  - quiet1.
  - destruct (em st) as [e|] eqn:E; [|apply mics_refl; reflexivity]. destruct (Nat.eqb (e_thread e) t); [|apply mics_refl; reflexivity].
    destruct (e_run e) eqn:R; [apply mics_refl; reflexivity|]. apply mics_step_em; auto. apply NT. congruence.
  - destruct (em st) as [e|] eqn:E; [|apply mics_refl; reflexivity]. destruct (Nat.eqb (e_thread e) t); [|apply mics_refl; reflexivity].
    destruct (e_run e) as [[k s]|] eqn:R; [|apply mics_refl; reflexivity]. unfold slot_return.
    set (st1 := match nth_error (kinds st) s with Some (KAware c) | Some (KTracked _ c) => _ | _ => _ end).
    assert (C : core st1 = core st).
    { unfold st1. destruct (nth_error (kinds st) s) as [[| |c|o c]|]; try reflexivity; destruct (nth_error (conns st) c) as [[|s'|]|]; reflexivity. }
    eapply mics_trans; [apply mics_refl; exact C|]. apply mics_on; [unfold core in C; injection C; congruence|congruence].
  - destruct (em st) as [e|] eqn:E; [|apply mics_refl; reflexivity]. destruct (Nat.eqb (e_thread e) t) eqn:T; [|apply mics_refl; reflexivity].
    destruct (e_run e) as [[k s]|] eqn:R; [|apply mics_refl; reflexivity]. apply Nat.eqb_eq in T. subst t.
    apply mics_one. eapply (m_throw m st _ e); [exact E|congruence|reflexivity].
Qed.
Lemma mics_next m st l : J st -> (em st <> None -> notif st = true) -> mics m st (next m st l).
Proof.
  intros I NT. unfold next. destruct (crashed st); [apply mics_refl; reflexivity|]. pose proof (mics_act m st (fst l) (snd l) I NT) as X.
  unfold watch. destruct (em st) as [e|]; [|exact X]. destruct (e_run e) as [[k s]|]; [|exact X]. destruct (owned st s && _); [|exact X].
  apply mics_emit; [exact X|apply quiet_one; reflexivity].
Qed.

(** ** The account *)
Definition acc (tr : list event) := fold_left account tr (0, []).
Lemma acc_app a b : acc (a ++ b) = fold_left account b (acc a).
Proof. apply fold_left_app. Qed.
Lemma acc_quiet a l : quiet l -> acc (a ++ l) = acc a.
Proof.
  rewrite acc_app. generalize (acc a). induction l as [|e l IH]; intros x Q; [reflexivity|]. cbn. rewrite IH; [|intros y Y; apply Q; right; exact Y].
  specialize (Q e (or_introl eq_refl)). destruct e; try discriminate; reflexivity.
Qed.

(** What is required of the event [x] after the events [a]. *)
Definition Q (m : mode) (a : list event) (x : event) : Prop :=
  match x with
  | ECall t e k s v =>
      In (k, s) (live a) /\ In (EEmit t e v) a /\
      (forall t' k' s' v', In (ECall t' e k' s' v') a -> k' < k /\ m = Multi) /\
      (forall k' s', In (k', s') (live a) -> k' < k -> In (ECall t e k' s' v) a)
  | EEnd t e => exists v, In (EEmit t e v) a /\
      match m with
      | Multi => forall k s, In (k, s) (live a) -> In (ECall t e k s v) a
      | Single => live a = [] \/ exists k s, In (ECall t e k s v) a
      end
  | _ => True
  end.
Definition good (m : mode) (tr : list event) : Prop := forall a x b, tr = a ++ x :: b -> Q m a x.

Lemma good_snoc m tr x : good m tr -> Q m tr x -> good m (tr ++ [x]).
Proof.
  intros G H a y b E. destruct b as [|z b].
  - apply app_inj_tail in E as [-> ->]. exact H.
  - destruct (exists_last (l := z :: b)) as (b' & w & W); [discriminate|]. rewrite W in E.
    change (y :: b' ++ [w]) with ((y :: b') ++ [w]) in E. rewrite app_assoc in E. apply app_inj_tail in E as [E _]. eapply G. exact E.
Qed.
Lemma good_quiet m tr l : good m tr -> quiet l -> good m (tr ++ l).
Proof.
  revert tr. induction l as [|x l IH]; intros tr G QQ; [rewrite app_nil_r; exact G|]. change (x :: l) with ([x] ++ l). rewrite app_assoc. apply IH.
  - apply good_snoc; [exact G|]. specialize (QQ x (or_introl eq_refl)). destruct x; try discriminate; exact I.
  - intros y Y. apply QQ. right. exact Y.
Qed.

Definition bound (e : emis) : nat := e_cur e + match e_run e with Some _ => 1 | None => 0 end.

Record CI (m : mode) (st : state) : Prop := {
  c_acc : acc (tr st) = (serial st, somes (entries st));
  c_sort : sorted (somes (entries st));
  c_lt : forall p, In p (somes (entries st)) -> fst p < serial st;
  c_em : forall e, em st = Some e -> notif st = true /\ e_no e < emno st /\ In (EEmit (e_thread e) (e_no e) (e_val e)) (tr st);
  c_cur : forall e, em st = Some e -> m = Multi -> bound e <= length (entries st);
  c_run : forall e, em st = Some e -> m = Single -> match e_run e with None => e_cur e = 0 /\ length (entries st) = 1 | Some (k, s) => In (ECall (e_thread e) (e_no e) k s (e_val e)) (tr st) end;
  c_done : forall e i k s, em st = Some e -> m = Multi -> i < bound e -> nth_error (entries st) i = Some (Some (k, s)) -> In (ECall (e_thread e) (e_no e) k s (e_val e)) (tr st);
  c_todo : forall e t k s v, em st = Some e -> In (ECall t (e_no e) k s v) (tr st) -> k < serial st /\
     (m = Single -> e_run e <> None) /\ forall i k' s', bound e <= i -> nth_error (entries st) i = Some (Some (k', s')) -> k < k';
  c_no : forall t e k s v, In (ECall t e k s v) (tr st) -> e < emno st;
  c_one : m = Single -> length (entries st) <= 1 /\ (forall x, In x (entries st) -> x <> None);
  c_good : good m (tr st)
}.

Lemma live_acc tr n l : acc tr = (n, l) -> live tr = l.
Proof. intros H. unfold live. fold (acc tr). rewrite H. reflexivity. Qed.
Lemma in_neutral x tr l : quiet l -> In x (tr ++ l) -> neutral x = false -> In x tr.
Proof. intros QQ I N. apply in_app_or in I as [I|I]; [exact I|]. rewrite (QQ x I) in N. discriminate. Qed.

Lemma rest_somes m n s l : (m = Single -> length l <= 1) -> has s l = true -> somes (rest m n s l) = drop_first s (somes l).
Proof.
  intros L H. unfold rest. destruct m; [destruct n; [apply somes_blank|apply somes_erase]|]. specialize (L eq_refl).
  destruct l as [|x [|y l]]; cbn in L; try lia; [discriminate|]. destruct x as [[k s']|]; [|discriminate]. unfold has in H. cbn in H. rewrite orb_false_r in H. cbn. rewrite H. reflexivity.
Qed.

Ltac getcore H := unfold core in H; injection H as ?e1 ?e2 ?e3 ?e4 ?e5 ?e6.

Lemma CI_quiet m st st' l : CI m st -> quiet l -> core st' = (entries st, notif st, em st, serial st, emno st, tr st ++ l) -> CI m st'.
Proof.
  intros [A B C D E F G H I K L] QQ H0. getcore H0. split; rewrite ?e1, ?e2, ?e3, ?e4, ?e5, ?e6; auto.
  - rewrite acc_quiet; auto.
  - intros e X. destruct (D e X) as (D1 & D2 & D3). split; [exact D1|split; [exact D2|]]. apply in_or_app. left. exact D3.
  - intros e X Y. specialize (F e X Y). destruct (e_run e) as [[k s]|]; [apply in_or_app; left|]; exact F.
  - intros e i k s X Y Z W. apply in_or_app. left. eapply G; eauto.
  - intros e t k s v X Y. eapply H; eauto. eapply in_neutral; eauto.
  - intros t e k s v Y. eapply I. eapply in_neutral; eauto.
  - apply good_quiet; auto.
Qed.

Lemma CI_mic m st st' : CI m st -> mic m st st' -> CI m st'.
Proof.
  intros CC M. pose proof CC as [A B C D E F G H I K L].
  destruct M as [l QQ H0|s P H0 BY|s P H0 BY|P H0 BY|t v N0 N1 H0|t v N0 H0|e E0 R0 N0 H0|e M0 E0 R0 H0|e E0 R0 N0 H0|e k s E0 R0 N0 H0|e M0 E0 R0 H0|e k s l QQ E0 R0 N0 C1 H0|e E0 R0 H0].
  - eapply CI_quiet; eauto.
  - (* join *)
    getcore H0. split; rewrite ?e1, ?e2, ?e3, ?e4, ?e5, ?e6.
    + rewrite acc_app, A. cbn. rewrite somes_app. reflexivity.
    + rewrite somes_app. apply sorted_snoc; auto.
    + intros p X. rewrite somes_app in X. apply in_app_or in X as [X|[<-|[]]]; [specialize (C p X); lia|cbn; lia].
    + intros e X. destruct (D e X) as (D1 & D2 & D3). split; [exact D1|split; [exact D2|]]. apply in_or_app. left. exact D3.
    + intros e X Y. rewrite app_length. specialize (E e X Y). lia.
    + intros e X Y. specialize (F e X Y). specialize (BY e X). destruct (e_run e) as [[k s0]|]; [apply in_or_app; left; exact F|contradiction].
    + intros e i k s0 X Y Z W. apply in_or_app. left. specialize (E e X Y). rewrite nth_snoc in W. destruct (Nat.eqb i (length (entries st))) eqn:QQ; [apply Nat.eqb_eq in QQ; lia|]. eapply G; eauto.
    + intros e t k s0 v X Y. apply in_app_or in Y as [Y|[Y|[]]]; [|discriminate]. destruct (H e t k s0 v X Y) as (H1 & H2 & H3). split; [lia|]. split; [exact H2|].
      intros i k' s' Z W. rewrite nth_snoc in W. destruct (Nat.eqb i (length (entries st))); [injection W as <- <-; exact H1|eapply H3; eauto].
    + intros t e k s0 v Y. apply in_app_or in Y as [Y|[Y|[]]]; [|discriminate]. eauto.
    + intros ->. cbn in P. destruct (entries st); [|discriminate]. cbn. split; [lia|]. intros x [<-|[]]. discriminate.
    + apply good_snoc; [exact L|exact Logic.I].
  - (* leave *)
    getcore H0. assert (KL : m = Single -> length (entries st) <= 1) by (intros X; apply K; exact X).
    pose proof (rest_somes m (notif st) s (entries st) KL P) as RS.
    assert (SUB : m = Multi -> forall e, em st = Some e -> rest m (notif st) s (entries st) = blank s (entries st)).
    { intros -> e X. unfold rest. destruct (D e X) as (-> & _). reflexivity. }
    split; rewrite ?e1, ?e2, ?e3, ?e4, ?e5, ?e6; rewrite ?RS.
    + rewrite acc_app, A. reflexivity.
    + apply sorted_drop. exact B.
    + intros p X. apply C. eapply drop_first_incl; eauto.
    + intros e X. destruct (D e X) as (D1 & D2 & D3). split; [exact D1|split; [exact D2|]]. apply in_or_app. left. exact D3.
    + intros e X Y. rewrite (SUB Y e X), length_blank. exact (E e X Y).
    + intros e X Y. specialize (F e X Y). specialize (BY e X). destruct (e_run e) as [[k s0]|]; [apply in_or_app; left; exact F|contradiction].
    + intros e i k s0 X Y Z W. apply in_or_app. left. rewrite (SUB Y e X) in W. apply nth_blank in W. eapply G; eauto.
    + intros e t k s0 v X Y. apply in_app_or in Y as [Y|[Y|[]]]; [|discriminate]. destruct (H e t k s0 v X Y) as (H1 & H2 & H3). split; [lia|]. split; [exact H2|].
      intros i k' s' Z W. destruct m; [|destruct i; discriminate]. rewrite (SUB eq_refl e X) in W. apply nth_blank in W. eapply H3; eauto.
    + intros t e k s0 v Y. apply in_app_or in Y as [Y|[Y|[]]]; [|discriminate]. eauto.
    + intros ->. cbn. split; [lia|]. intros x [].
    + apply good_snoc; [exact L|exact Logic.I].
  - (* clear *)
    getcore H0. split; rewrite ?e1, ?e2, ?e3, ?e4, ?e5, ?e6.
    + rewrite acc_app, A. reflexivity.
    + constructor.
    + intros p [].
    + intros e X. destruct (D e X) as (D1 & D2 & D3). split; [exact D1|split; [exact D2|]]. apply in_or_app. left. exact D3.
    + intros e X Y. destruct P; congruence.
    + intros e X Y. specialize (F e X Y). specialize (BY e X). destruct (e_run e) as [[k s0]|]; [apply in_or_app; left; exact F|contradiction].
    + intros e i k s0 X Y Z W. destruct i; discriminate.
    + intros e t k s0 v X Y. apply in_app_or in Y as [Y|[Y|[]]]; [|discriminate]. destruct (H e t k s0 v X Y) as (H1 & H2 & H3). split; [lia|]. split; [exact H2|].
      intros i k' s' Z W. destruct i; discriminate.
    + intros t e k s0 v Y. apply in_app_or in Y as [Y|[Y|[]]]; [|discriminate]. eauto.
    + intros _. cbn. split; [lia|]. intros x [].
    + apply good_snoc; [exact L|exact Logic.I].
  - (* begin *)
    getcore H0. split; rewrite ?e1, ?e2, ?e3, ?e4, ?e5, ?e6; auto.
    + rewrite acc_app, A. reflexivity.
    + intros e [= <-]. cbn. split; [reflexivity|]. split; [lia|]. apply in_or_app. right. left. reflexivity.
    + intros e [= <-] Y. unfold bound. cbn. lia.
    + intros e [= <-] Y. cbn. split; [reflexivity|]. destruct (K Y) as [K1 _]. destruct (entries st) as [|x [|y r]]; cbn in *; [contradiction|reflexivity|lia].
    + intros e i k s [= <-] Y. unfold bound. cbn. lia.
    + intros e t' k s v' [= <-] Y. cbn in Y. apply in_app_or in Y as [Y|[Y|[]]]; [|discriminate]. specialize (I _ _ _ _ _ Y). lia.
    + intros t' e k s v' Y. apply in_app_or in Y as [Y|[Y|[]]]; [|discriminate]. specialize (I _ _ _ _ _ Y). lia.
    + apply good_snoc; [exact L|exact Logic.I].
  - (* nothing to call *)
    getcore H0. split; rewrite ?e1, ?e2, ?e3, ?e4, ?e5, ?e6; auto.
    + rewrite acc_app, A. reflexivity.
    + intros e X. destruct (D e X) as (D1 & D2 & D3). split; [exact D1|split; [lia|]]. apply in_or_app. left. exact D3.
    + intros e X Y. specialize (F e X Y). destruct (e_run e) as [[k s0]|]; [apply in_or_app; left|]; exact F.
    + intros e i k s X Y Z W. rewrite N0 in W. destruct i; discriminate.
    + intros e t' k s v' X Y. apply in_app_or in Y as [Y|[Y|[Y|[]]]]; try discriminate. eauto.
    + intros t' e k s v' Y. apply in_app_or in Y as [Y|[Y|[Y|[]]]]; try discriminate. specialize (I _ _ _ _ _ Y). lia.
    + change [EEmit t (emno st) v; EEnd t (emno st)] with ([EEmit t (emno st) v] ++ [EEnd t (emno st)]). rewrite app_assoc.
      apply good_snoc; [apply good_snoc; [exact L|exact Logic.I]|]. cbn. exists v. split; [apply in_or_app; right; left; reflexivity|].
      assert (X : live (tr st ++ [EEmit t (emno st) v]) = []).
      { eapply live_acc. rewrite acc_app, A, N0. reflexivity. }
      rewrite X. destruct m; [intros k s []|left; reflexivity].
  - (* end *)
    getcore H0. split; rewrite ?e1, ?e2, ?e3, ?e4, ?e5, ?e6; auto; try (intros; discriminate).
    + rewrite acc_app, A. reflexivity.
    + intros t' e' k s v' Y. apply in_app_or in Y as [Y|[Y|[]]]; [|discriminate]. eauto.
    + apply good_snoc; [exact L|]. cbn. exists (e_val e). split; [apply D; exact E0|]. rewrite (live_acc _ _ _ A). destruct m.
      * intros k s X. apply somes_in in X as (i & X). eapply G; eauto. unfold bound. rewrite R0. apply nth_lt in X. apply nth_none_ge in N0. lia.
      * specialize (F e E0 eq_refl). rewrite R0 in F. destruct F as [F1 F2]. rewrite F1 in N0. apply nth_none_ge in N0. lia.
  - (* end, single *)
    getcore H0. split; rewrite ?e1, ?e2, ?e3, ?e4, ?e5, ?e6; auto; try (intros; discriminate).
    + rewrite acc_app, A. reflexivity.
    + intros t' e' k s v' Y. apply in_app_or in Y as [Y|[Y|[]]]; [|discriminate]. eauto.
    + apply good_snoc; [exact L|]. cbn. exists (e_val e). split; [apply D; exact E0|]. rewrite M0. right. specialize (F e E0 M0).
      destruct (e_run e) as [[k s]|]; [|contradiction]. eauto.
  - (* skip *)
    getcore H0. pose proof (somes_drop _ _ N0) as SD. pose proof (nth_lt _ _ _ N0) as Lc. assert (BD : bound e = e_cur e) by (unfold bound; rewrite R0; lia).
    split; rewrite ?e1, ?e2, ?e3, ?e4, ?e5, ?e6; rewrite ?SD; auto.
    + intros e' X Y. assert (e' = e) by congruence. subst e'. rewrite length_drop by exact Lc. lia.
    + intros e' X Y. assert (e' = e) by congruence. subst e'. destruct (K Y) as [_ K2]. exfalso. apply (K2 None); [eapply nth_error_In; eauto|reflexivity].
    + intros e' i k s X Y Z W. assert (e' = e) by congruence. subst e'. rewrite nth_drop in W. destruct (Nat.ltb_spec i (e_cur e)); [eapply G; eauto|lia].
    + intros e' t k s v X Y. assert (e' = e) by congruence. subst e'. destruct (H e t k s v X Y) as (H1 & H2 & H3). split; [lia|]. split; [exact H2|].
      intros i k' s' Z W. rewrite nth_drop in W. destruct (Nat.ltb_spec i (e_cur e)); [lia|]. eapply (H3 (S i)); [lia|exact W].
    + intros Y. destruct (K Y) as [K1 K2]. exfalso. apply (K2 None); [eapply nth_error_In; eauto|reflexivity].
  - (* call *)
    getcore H0. assert (BD : bound e = e_cur e) by (unfold bound; rewrite R0; lia). pose proof (nth_lt _ _ _ N0) as Lc.
    pose proof (somes_nth _ _ _ N0) as SN.
    split; rewrite ?e1, ?e2, ?e3, ?e4, ?e5, ?e6; auto.
    + rewrite acc_app, A. reflexivity.
    + intros e' [= <-]. destruct (D e E0) as (D1 & D2 & D3). cbn. split; [reflexivity|]. split; [exact D2|]. apply in_or_app. left. exact D3.
    + intros e' [= <-] Y. unfold bound. cbn. lia.
    + intros e' [= <-] Y. cbn. apply in_or_app. right. left. reflexivity.
    + intros e' i k' s' [= <-] Y Z W. unfold bound in Z. cbn in Z. cbn. apply in_or_app. destruct (Nat.eq_dec i (e_cur e)) as [->|NE].
      * rewrite N0 in W. injection W as <- <-. right. left. reflexivity.
      * left. eapply G; eauto. lia.
    + intros e' t k' s' v [= <-] Y. cbn in Y. cbn. apply in_app_or in Y as [Y|[Y|[]]].
      * destruct (H e t k' s' v E0 Y) as (H1 & H2 & H3). split; [exact H1|]. split; [discriminate|]. intros i k2 s2 Z W. unfold bound in Z. cbn in Z. eapply (H3 i); eauto. lia.
      * injection Y as <- <- <- <-. split; [exact (C _ SN)|]. split; [discriminate|]. intros i k2 s2 Z W. unfold bound in Z. cbn in Z.
        exact (sorted_nth _ B _ _ _ _ N0 W ltac:(lia)).
    + intros t' e' k' s' v' Y. apply in_app_or in Y as [Y|[Y|[]]]; [eauto|]. injection Y as _ <- _ _ _. apply D. exact E0.
    + apply good_snoc; [exact L|]. cbn. rewrite (live_acc _ _ _ A). split; [exact SN|]. split; [apply D; exact E0|]. split.
      * intros t' k' s' v' Y. destruct (H e t' k' s' v' E0 Y) as (H1 & H2 & H3). split; [eapply H3; [|exact N0]; lia|].
        destruct m; [reflexivity|]. exfalso. apply (H2 eq_refl). exact R0.
      * intros k' s' X Y. destruct m.
        -- apply somes_in in X as (i & X). eapply G; eauto. destruct (Nat.lt_ge_cases i (bound e)) as [Z|Z]; [exact Z|]. exfalso. rewrite BD in Z.
           destruct (Nat.eq_dec i (e_cur e)) as [->|NE]; [rewrite N0 in X; injection X as <- <-; lia|].
           pose proof (sorted_nth _ B _ _ _ _ N0 X ltac:(lia)) as W. cbn in W. lia.
        -- exfalso. destruct (K eq_refl) as [K1 _]. destruct (entries st) as [|x [|y r]]; cbn in K1; try lia; [destruct X|].
           destruct (e_cur e) as [|[|n]]; cbn in N0; try discriminate. injection N0 as ->. cbn in X. destruct X as [X|[]]. injection X as <- <-. lia.
  - (* on *)
    getcore H0. assert (BD : bound e = S (e_cur e)) by (unfold bound; destruct (e_run e); [lia|contradiction]).
    split; rewrite ?e1, ?e2, ?e3, ?e4, ?e5, ?e6; auto.
    + intros e' [= <-]. destruct (D e E0) as (D1 & D2 & D3). cbn. auto.
    + intros e' [= <-] Y. specialize (E e E0 Y). unfold bound. cbn. lia.
    + intros e' [= <-] Y. congruence.
    + intros e' i k' s' [= <-] Y Z W. unfold bound in Z. cbn in Z. cbn. eapply G; eauto. lia.
    + intros e' t k' s' v [= <-] Y. cbn in Y. cbn. destruct (H e t k' s' v E0 Y) as (H1 & H2 & H3). split; [exact H1|]. split; [congruence|].
      intros i k2 s2 Z W. unfold bound in Z. cbn in Z. eapply (H3 i); eauto. lia.
  - (* expire *)
    getcore H0. assert (BD : bound e = e_cur e) by (unfold bound; rewrite R0; lia). pose proof (nth_lt _ _ _ N0) as Lc.
    assert (P : has s (entries st) = true) by (eapply has_nth; eauto). assert (KL : m = Single -> length (entries st) <= 1) by (intros X; apply K; exact X).
    assert (RS : somes (match m with Multi => blank s (entries st) | Single => [] end) = drop_first s (somes (entries st))).
    { destruct m; [apply somes_blank|]. exact (rest_somes Single true s (entries st) KL P). }
    assert (AL : acc (tr st ++ ELeave s :: l) = (serial st, drop_first s (somes (entries st)))).
    { change (ELeave s :: l) with ([ELeave s] ++ l). rewrite app_assoc, acc_quiet by exact QQ. rewrite acc_app, A. reflexivity. }
    assert (GL : good m (tr st ++ ELeave s :: l)).
    { change (ELeave s :: l) with ([ELeave s] ++ l). rewrite app_assoc. apply good_quiet; [|exact QQ]. apply good_snoc; [exact L|exact Logic.I]. }
    assert (IN : forall x tl, In x (tr st) -> In x (tr st ++ ELeave s :: l ++ tl)) by (intros; apply in_or_app; left; assumption).
    assert (IC : forall t e' k' s' v tl, (tl = [] \/ tl = [EEnd (e_thread e) (e_no e)]) -> In (ECall t e' k' s' v) (tr st ++ ELeave s :: l ++ tl) -> In (ECall t e' k' s' v) (tr st)).
    { intros t e' k' s' v tl T X. apply in_app_or in X as [X|[X|X]]; [exact X|discriminate|]. apply in_app_or in X as [X|X]; [specialize (QQ _ X); discriminate|].
      destruct T as [->| ->]; [destruct X|destruct X as [X|[]]; discriminate]. }
    destruct m.
    + split; rewrite ?e1, ?e2, ?e3, ?e4, ?e5, ?e6; rewrite ?RS; auto.
      * rewrite app_nil_r. exact AL.
      * apply sorted_drop. exact B.
      * intros p X. apply C. eapply drop_first_incl; eauto.
      * intros e' [= <-]. destruct (D e E0) as (D1 & D2 & D3). cbn. auto.
      * intros e' [= <-] Y. unfold bound. cbn. rewrite length_blank. lia.
      * intros e' X Y. discriminate.
      * intros e' i k' s' [= <-] Y Z W. unfold bound in Z. cbn in Z. cbn. apply IN. eapply G; eauto; [|apply nth_blank in W; exact W].
        rewrite BD. destruct (Nat.eq_dec i (e_cur e)) as [->|NE]; [|lia]. exfalso. pose proof (nth_blank _ _ _ _ W) as W2. rewrite N0 in W2. injection W2 as <- <-.
        pose proof (has_pos _ _ (has_nth _ _ _ _ W)) as X. rewrite cnt_blank, Nat.eqb_refl, P in X. cbn [b2n] in X. lia.
      * intros e' t k' s' v [= <-] Y. cbn in Y. cbn. apply IC in Y; [|auto]. destruct (H e t k' s' v E0 Y) as (H1 & H2 & H3). split; [exact H1|]. split; [discriminate|].
        intros i k2 s2 Z W. unfold bound in Z. cbn in Z. apply nth_blank in W. eapply (H3 i); eauto. lia.
      * intros t' e' k' s' v' Y. apply IC in Y; eauto.
      * discriminate.
      * rewrite app_nil_r. exact GL.
    + split; rewrite ?e1, ?e2, ?e3, ?e4, ?e5, ?e6; rewrite ?RS; auto; try (intros; discriminate).
      * change (ELeave s :: l ++ [EEnd (e_thread e) (e_no e)]) with ((ELeave s :: l) ++ [EEnd (e_thread e) (e_no e)]). rewrite app_assoc, acc_app, AL. reflexivity.
      * apply sorted_drop. exact B.
      * intros p X. apply C. eapply drop_first_incl; eauto.
      * intros t' e' k' s' v' Y. apply IC in Y; eauto.
      * change (ELeave s :: l ++ [EEnd (e_thread e) (e_no e)]) with ((ELeave s :: l) ++ [EEnd (e_thread e) (e_no e)]). rewrite app_assoc. apply good_snoc; [exact GL|].
        cbn. exists (e_val e). split; [apply in_or_app; left; apply D; exact E0|]. left. rewrite (live_acc _ _ _ AL), <- RS. reflexivity.
  - (* throw *)
    getcore H0. split; rewrite ?e1, ?e2, ?e3, ?e4, ?e5, ?e6; auto; try (intros; discriminate).
    + rewrite acc_app, A. reflexivity.
    + intros t' e' k s v' Y. apply in_app_or in Y as [Y|[Y|[]]]; [|discriminate]. eauto.
    + apply good_snoc; [exact L|exact Logic.I].
Qed.

Lemma CI_core m st st' : CI m st -> core st' = core st -> CI m st'.
Proof. intros I E. apply (CI_quiet m st st' [] I quiet_nil). rewrite app_nil_r. exact E. Qed.
Lemma CI_mics m st st' : CI m st -> mics m st st' -> CI m st'.
Proof. intros I H. induction H as [a b E|a b c H IH M]; [eapply CI_core; eauto|eapply CI_mic; [apply IH; exact I|exact M]]. Qed.
Lemma CI_init m : CI m init.
Proof.
  split; cbn; try (intros; discriminate); try (intros; contradiction); auto.
  - constructor.
  - intros a x b E. destruct a; discriminate.
Qed.
Theorem CI_final m h : CI m (final m h).
Proof.
  induction h as [|l h IH] using rev_ind; [apply CI_init|]. rewrite final_snoc. eapply CI_mics; [exact IH|]. apply mics_next; [apply J_final|].
  intros E. destruct (em (final m h)) as [e|] eqn:X; [|contradiction]. eapply (c_em _ _ IH e X).
Qed.
