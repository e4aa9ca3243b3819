(** Lemmas about SyncTimer. *)
From Verif Require Import ListUtil SyncModel SyncSpec.

Lemma run_app s h1 h2 : run s (h1 ++ h2) =
  (fst (run (fst (run s h1)) h2), snd (run s h1) ++ snd (run (fst (run s h1)) h2)).
Proof.
  revert s; induction h1 as [|l h1 IH]; intros s; cbn [app run]; [cbn [fst snd app]; destruct (run s h2); reflexivity|].
  destruct (step s l) as [s1 e1]. rewrite IH. destruct (run s1 h1) as [s2 e2]. cbn [fst snd].
  destruct (run s2 h2). cbn [fst snd]. now rewrite app_assoc.
Qed.
Lemma final_snoc c N h l : final c N (h ++ [l]) = fst (step (final c N h) l).
Proof. unfold final. rewrite run_app. cbn [fst run]. destruct (step _ l). reflexivity. Qed.
Lemma trace_snoc c N h l : trace c N (h ++ [l]) = trace c N h ++ snd (step (final c N h) l).
Proof. unfold trace, final. rewrite run_app. cbn [snd run]. destruct (step _ l). cbn [snd]. now rewrite app_nil_r. Qed.

Definition fid (n : nat) (f : frame) : bool := Nat.eqb n (f_id f).
Definition weight (n : nat) (s : tstate) : nat := wsum (cnt (fid n)) (stacks s).

(** Events about start number [n] apart from its call. *)
Definition about (n : nat) (e : event) : bool := starts n e || sets n e || fires n e || ends n e.

(** What holds of a start() in progress. *)
Definition fok (tr : list event) (now : nat) (f : frame) : Prop :=
  ((exists t, In (EStart (f_id f) t (f_ms f)) tr) /\ (cnt (fires (f_id f)) tr = 0 -> f_moved f = false)) /\
  match f_pc f with
  | PCheck | PStop | PLock => cnt (sets (f_id f)) tr = 0 /\ cnt (fires (f_id f)) tr = 0
  | PWait d _ => exists c0, In (ESet (f_id f) c0) tr /\ c0 + (1 + cnt (fires (f_id f)) tr) * f_ms f <= d /\
                            (cnt (fires (f_id f)) tr = 0 -> d = c0 + f_ms f)
  | PAwake d x => (exists c0, In (ESet (f_id f) c0) tr /\ c0 + (1 + cnt (fires (f_id f)) tr) * f_ms f <= d /\
                              (cnt (fires (f_id f)) tr = 0 -> d = c0 + f_ms f)) /\
                  (x = true -> d <= now)
  | PCall => 1 <= cnt (fires (f_id f)) tr /\
             exists c0, In (ESet (f_id f) c0) tr /\ c0 + cnt (fires (f_id f)) tr * f_ms f <= now
  end.

Record inv (s : tstate) (tr : list event) : Prop := Inv
  { v_count : forall n, weight n s + cnt (ends n) tr = cnt (starts n) tr;
    v_made : forall n, cnt (starts n) tr = b2n (Nat.ltb n (made s));
    v_fresh : forall n, made s <= n -> cnt (about n) tr = 0;
    v_run : running s = armed tr;
    v_ok : forall t st f, nth_error (stacks s) t = Some st -> In f st -> fok tr (now s) f;
    v_tail : forall t f st g, nth_error (stacks s) t = Some (f :: st) -> In g st -> in_call g = true }.

Lemma in_cnt (n : nat) (f : frame) st : In f st -> f_id f = n -> 1 <= cnt (fid n) st.
Proof. intros H E. eapply cnt_pos; eauto. unfold fid. apply Nat.eqb_eq. auto. Qed.

Lemma weight_le s tr n : inv s tr -> weight n s <= 1.
Proof.
  intros I. pose proof (v_count _ _ I n) as A. pose proof (v_made _ _ I n) as B.
  destruct (Nat.ltb n (made s)); cbn in B; lia.
Qed.

(** Different frames have different numbers. *)
Lemma other_id s tr t f st : inv s tr -> nth_error (stacks s) t = Some (f :: st) ->
  (forall g, In g st -> f_id g <> f_id f) /\
  (forall u st' g, u <> t -> nth_error (stacks s) u = Some st' -> In g st' -> f_id g <> f_id f).
Proof.
  intros I N. pose proof (weight_le _ _ (f_id f) I) as W.
  assert (E : cnt (fid (f_id f)) (f :: st) = S (cnt (fid (f_id f)) st)).
  { rewrite cnt_cons. unfold fid at 1. rewrite Nat.eqb_refl. reflexivity. }
  split.
  - intros g Hg Eq. pose proof (in_cnt _ _ _ Hg Eq) as A.
    pose proof (wsum_nth (cnt (fid (f_id f))) _ _ _ N) as B. unfold weight in W. lia.
  - intros u st' g Ne Nu Hg Eq. pose proof (in_cnt _ _ _ Hg Eq) as A.
    pose proof (wsum_set (cnt (fid (f_id f))) (stacks s) t [] _ N) as B.
    assert (C : nth_error (set_nth t [] (stacks s)) u = Some st') by (rewrite nth_set_other; auto).
    pose proof (wsum_nth (cnt (fid (f_id f))) _ _ _ C) as D. unfold weight in W. rewrite cnt_nil in B. lia.
Qed.

Lemma fok_mono tr es n n' f : fok tr n f -> n <= n' ->
  cnt (sets (f_id f)) es = 0 -> cnt (fires (f_id f)) es = 0 -> fok (tr ++ es) n' f.
Proof.
  intros [[[t A] A2] B] L S F. split; [split; [exists t; apply in_or_app; auto|now rewrite cnt_app, F, Nat.add_0_r]|].
  destruct (f_pc f).
  - rewrite !cnt_app. lia.
  - rewrite !cnt_app. lia.
  - rewrite !cnt_app. lia.
  - destruct B as (c0 & B1 & B2). exists c0. split; [apply in_or_app; auto|]. now rewrite cnt_app, F, Nat.add_0_r.
  - destruct B as [(c0 & B1 & B2) B3]. split.
    + exists c0. split; [apply in_or_app; auto|]. now rewrite cnt_app, F, Nat.add_0_r.
    + intros E. specialize (B3 E). lia.
  - destruct B as [B0 (c0 & B1 & B2)]. rewrite cnt_app, F, Nat.add_0_r. split; auto.
    exists c0. split; [apply in_or_app; auto|lia].
Qed.

Lemma armed_snoc tr e : armed (tr ++ [e]) = match e with ESet _ _ => true | EStop _ | EEnd _ => false | _ => armed tr end.
Proof. unfold armed. rewrite fold_left_app. reflexivity. Qed.

(** At most one event, and only about [n]. *)
Definition small (n : nat) (es : list event) : Prop :=
  forall m, cnt (starts m) es = 0 /\ cnt (ends m) es = 0 /\ (m <> n -> cnt (about m) es = 0).

Lemma about_zero m es : cnt (about m) es = 0 -> cnt (starts m) es = 0 /\ cnt (sets m) es = 0 /\ cnt (fires m) es = 0 /\ cnt (ends m) es = 0.
Proof.
  intros H. repeat split; apply cnt_zero; intros e He; pose proof (cnt_zero_inv _ _ _ H He) as A; unfold about in A;
    repeat (apply orb_false_iff in A as [A ?]); auto.
Qed.

Lemma nth_stack s t st : nth_error (stacks s) t = Some st -> nth t (stacks s) [] = st.
Proof. intros H. now apply nth_error_nth. Qed.

(** One frame changes. *)
Lemma upd_inv s tr t f st f' b es :
  inv s tr -> nth_error (stacks s) t = Some (f :: st) -> f_id f' = f_id f ->
  small (f_id f) es -> b = armed (tr ++ es) -> fok (tr ++ es) (now s) f' ->
  inv (with_stack (set_running s b) t (f' :: st)) (tr ++ es).
Proof.
  intros I N E Sm B F. destruct (other_id _ _ _ _ _ I N) as [O1 O2].
  assert (L : t < length (stacks s)) by (eapply nth_lt; eauto).
  assert (Hn : f_id f < made s).
  { pose proof (v_count _ _ I (f_id f)) as A. rewrite (v_made _ _ I) in A.
    pose proof (wsum_nth (cnt (fid (f_id f))) _ _ _ N) as W. rewrite cnt_cons in W. unfold fid at 1 in W.
    rewrite Nat.eqb_refl in W. cbn [b2n] in W. unfold weight in A.
    destruct (Nat.ltb_spec (f_id f) (made s)); auto. cbn in A. lia. }
  constructor; cbn [with_stack set_running running made stacks now].
  - intros n. rewrite !cnt_app. destruct (Sm n) as (-> & -> & _). rewrite !Nat.add_0_r, <- (v_count _ _ I).
    unfold weight. cbn [with_stack set_running stacks].
    pose proof (wsum_set (cnt (fid n)) (stacks s) t (f' :: st) _ N) as W. rewrite !cnt_cons in W.
    assert (Ef : fid n f' = fid n f) by (unfold fid; now rewrite E). rewrite Ef in W. lia.
  - intros n. rewrite cnt_app. destruct (Sm n) as (-> & _). rewrite Nat.add_0_r. apply (v_made _ _ I).
  - intros n Hm. rewrite cnt_app, (v_fresh _ _ I) by auto. destruct (Sm n) as (_ & _ & A). rewrite A; [reflexivity|lia].
  - exact B.
  - intros u st' g Nu Hg. destruct (Nat.eq_dec u t) as [->|Ne].
    + rewrite nth_set_same in Nu by auto. inversion Nu; subst st'. destruct Hg as [<-|Hg]; [exact F|].
      eapply fok_mono; [eapply (v_ok _ _ I); [exact N|right; exact Hg]|lia| |];
        destruct (Sm (f_id g)) as (_ & _ & A); apply about_zero in A; auto; tauto.
    + rewrite nth_set_other in Nu by auto.
      eapply fok_mono; [eapply (v_ok _ _ I); eauto|lia| |];
        destruct (Sm (f_id g)) as (_ & _ & A); apply about_zero in A; eauto; tauto.
  - intros u f0 st' g Nu Hg. destruct (Nat.eq_dec u t) as [->|Ne].
    + rewrite nth_set_same in Nu by auto. inversion Nu; subst. eapply (v_tail _ _ I); eauto.
    + rewrite nth_set_other in Nu by auto. eapply (v_tail _ _ I); eauto.
Qed.

Lemma set_running_same s : set_running s (running s) = s.
Proof. destruct s; reflexivity. Qed.
Lemma small_nil n : small n [].
Proof. intros m. rewrite !cnt_nil. auto. Qed.
Lemma upd_inv0 s tr t f st f' :
  inv s tr -> nth_error (stacks s) t = Some (f :: st) -> f_id f' = f_id f -> fok tr (now s) f' ->
  inv (with_stack s t (f' :: st)) tr.
Proof.
  intros I N E F. rewrite <- (app_nil_r tr). rewrite <- (set_running_same s) at 1.
  eapply upd_inv; eauto using small_nil; rewrite ?app_nil_r; auto. apply (v_run _ _ I).
Qed.

(** start() returns. *)
Lemma fin_inv s tr t f st : inv s tr -> nth_error (stacks s) t = Some (f :: st) ->
  inv (fst (finish s t f st)) (tr ++ snd (finish s t f st)).
Proof.
  intros I N. destruct (other_id _ _ _ _ _ I N) as [O1 O2].
  assert (L : t < length (stacks s)) by (eapply nth_lt; eauto).
  assert (Hn : f_id f < made s).
  { pose proof (v_count _ _ I (f_id f)) as A. rewrite (v_made _ _ I) in A.
    pose proof (wsum_nth (cnt (fid (f_id f))) _ _ _ N) as W. rewrite cnt_cons in W. unfold fid at 1 in W.
    rewrite Nat.eqb_refl in W. cbn [b2n] in W. unfold weight in A.
    destruct (Nat.ltb_spec (f_id f) (made s)); auto. cbn in A. lia. }
  unfold finish. cbn [fst snd].
  constructor; cbn [with_stack set_running running made stacks now].
  - intros n. rewrite !cnt_app, !cnt_cons, !cnt_nil. cbn [starts b2n].
    unfold weight. cbn [with_stack set_running stacks].
    pose proof (wsum_set (cnt (fid n)) (stacks s) t st _ N) as W. rewrite cnt_cons in W.
    pose proof (v_count _ _ I n) as A. unfold weight in A. change (ends n (EEnd (f_id f))) with (fid n f). lia.
  - intros n. rewrite cnt_app, cnt_cons, cnt_nil. cbn [starts b2n]. rewrite (v_made _ _ I n). lia.
  - intros n Hm. rewrite cnt_app, cnt_cons, cnt_nil, (v_fresh _ _ I) by auto. unfold about. cbn.
    destruct (Nat.eqb_spec n (f_id f)); [lia|reflexivity].
  - rewrite armed_snoc. reflexivity.
  - intros u st' g Nu Hg. destruct (Nat.eq_dec u t) as [->|Ne].
    + rewrite nth_set_same in Nu by auto. inversion Nu; subst st'.
      eapply fok_mono; [eapply (v_ok _ _ I); [exact N|right; exact Hg]|lia| |]; rewrite cnt_cons, cnt_nil; reflexivity.
    + rewrite nth_set_other in Nu by auto.
      eapply fok_mono; [eapply (v_ok _ _ I); eauto|lia| |]; rewrite cnt_cons, cnt_nil; reflexivity.
  - intros u f0 st' g Nu Hg. destruct (Nat.eq_dec u t) as [->|Ne].
    + rewrite nth_set_same in Nu by auto. inversion Nu; subst. eapply (v_tail _ _ I); [exact N|right; exact Hg].
    + rewrite nth_set_other in Nu by auto. eapply (v_tail _ _ I); eauto.
Qed.

Lemma notify_inv s tr w : inv s tr -> inv (notify_one s w) tr.
Proof.
  intros I. unfold notify_one. destruct (pick s w) as [u|]; auto.
  destruct (nth_error (stacks s) u) as [st0|] eqn:N.
  - rewrite (nth_stack _ _ _ N). destruct st0 as [|f st]; auto. destruct (f_pc f) eqn:P; auto.
    eapply upd_inv0; eauto.
    pose proof (v_ok _ _ I _ _ f N (or_introl eq_refl)) as [A B]. rewrite P in B. split; auto.
  - rewrite nth_overflow; auto. now apply nth_error_None.
Qed.

(** An event that is not about any start. *)
Lemma neutral_inv s tr e b : inv s tr -> (forall n, about n e = false) -> b = armed (tr ++ [e]) ->
  inv (set_running s b) (tr ++ [e]).
Proof.
  intros I A B.
  assert (Z : forall n, cnt (about n) [e] = 0) by (intros n; rewrite cnt_cons, cnt_nil, A; reflexivity).
  constructor; cbn [set_running running made stacks now].
  - intros n. rewrite !cnt_app. destruct (about_zero _ _ (Z n)) as (-> & _ & _ & ->). rewrite !Nat.add_0_r. apply (v_count _ _ I).
  - intros n. rewrite cnt_app. destruct (about_zero _ _ (Z n)) as (-> & _). rewrite Nat.add_0_r. apply (v_made _ _ I).
  - intros n Hm. rewrite cnt_app, Z, (v_fresh _ _ I); auto.
  - exact B.
  - intros u st g Nu Hg. destruct (about_zero _ _ (Z (f_id g))) as (_ & S & F & _).
    eapply fok_mono; eauto. eapply (v_ok _ _ I); eauto.
  - intros u f st g. apply (v_tail _ _ I).
Qed.

Lemma notify_fields s w : now (notify_one s w) = now s /\ running (notify_one s w) = running s /\
  cyclic (notify_one s w) = cyclic s /\ made (notify_one s w) = made s.
Proof.
  unfold notify_one. destruct (pick s w); auto. destruct (nth n (stacks s) []) as [|f st]; auto. destruct (f_pc f); auto.
Qed.

(** notify_one leaves a thread alone that does not wait. *)
Lemma notify_other s w t : is_waiting (nth t (stacks s) []) = false -> nth_error (stacks (notify_one s w)) t = nth_error (stacks s) t.
Proof.
  intros H. unfold notify_one. destruct (pick s w) as [u|] eqn:P; auto.
  destruct (Nat.eq_dec u t) as [->|Ne].
  - exfalso. unfold pick in P. destruct (is_waiting (nth w (stacks s) [])) eqn:W; [inversion P; congruence|].
    clear W. assert (G : forall i l, first_waiting i l = Some t -> i <= t /\ is_waiting (nth (t - i) l []) = true).
    { clear. intros i l. revert i. induction l as [|x l IH]; intros i; cbn; [discriminate|].
      destruct (is_waiting x) eqn:X.
      - intros E; inversion E; subst. rewrite Nat.sub_diag. auto.
      - intros E. apply IH in E as [A B]. split; [lia|]. destruct (t - i) eqn:D; [lia|].
        replace n with (t - S i) by lia. exact B. }
    apply G in P as [_ P]. rewrite Nat.sub_0_r in P. congruence.
  - destruct (nth u (stacks s) []) as [|f st]; auto. destruct (f_pc f); auto. cbn. now rewrite nth_set_other.
Qed.

Lemma do_stop_inv s tr t w : inv s tr -> inv (do_stop s w) (tr ++ [EStop t]).
Proof.
  intros I. unfold do_stop. destruct (running s) eqn:R.
  - apply notify_inv, neutral_inv; auto. now rewrite armed_snoc.
  - rewrite <- (set_running_same s). rewrite R. apply neutral_inv; auto. now rewrite armed_snoc.
Qed.

Lemma step_inv s tr l : inv s tr -> inv (fst (step s l)) (tr ++ snd (step s l)).
Proof.
  intros I. destruct l as [d|t ms ex|t w|t w|t b|t|t|t w|t|t]; cbn [step].
  - cbn [fst snd]. rewrite app_nil_r. destruct I as [a b c e f g]. constructor; auto.
    intros t st f0 N H. pose proof (f _ _ _ N H) as F. cbn [now].
    rewrite <- (app_nil_r tr). eapply fok_mono; [exact F|lia|apply cnt_nil|apply cnt_nil].
  - (* start *)
    unfold in_user. destruct (nth_error (stacks s) t) as [st0|] eqn:N; [|cbn; rewrite app_nil_r; auto].
    assert (U : forall b, b = true -> (b = true -> match st0 with [] => True | f :: _ => in_call f = true end) ->
      inv (fst (if b then
        (TS (now s) (running s) (cyclic s) (S (made s))
            (set_nth t (Fr (made s) ms ex false PCheck :: nth t (stacks s) []) (stacks s)), [EStart (made s) t ms])
        else (s, []))) (tr ++ snd (if b then
        (TS (now s) (running s) (cyclic s) (S (made s))
            (set_nth t (Fr (made s) ms ex false PCheck :: nth t (stacks s) []) (stacks s)), [EStart (made s) t ms])
        else (s, [])))).
    { intros b -> T. specialize (T eq_refl). cbn [fst snd]. rewrite (nth_stack _ _ _ N).
      assert (L : t < length (stacks s)) by (eapply nth_lt; eauto).
      pose proof (about_zero _ _ (v_fresh _ _ I (made s) (le_n _))) as (Z1 & Z2 & Z3 & Z4).
      constructor; cbn [running made stacks now].
      - intros n. unfold weight. cbn [stacks]. rewrite !cnt_app, !cnt_cons, !cnt_nil. cbn [starts ends b2n].
        pose proof (wsum_set (cnt (fid n)) (stacks s) t (Fr (made s) ms ex false PCheck :: st0) _ N) as W.
        rewrite cnt_cons in W. change (fid n _) with (Nat.eqb n (made s)) in W.
        pose proof (v_count _ _ I n) as A. unfold weight in A. lia.
      - intros n. rewrite cnt_app, cnt_cons, cnt_nil, (v_made _ _ I n). cbn [starts].
        destruct (Nat.ltb_spec n (made s)), (Nat.ltb_spec n (S (made s))), (Nat.eqb_spec n (made s)); cbn; lia.
      - intros n Hm. rewrite cnt_app, cnt_cons, cnt_nil, (v_fresh _ _ I) by lia. unfold about. cbn.
        destruct (Nat.eqb_spec n (made s)); [lia|reflexivity].
      - rewrite armed_snoc. apply (v_run _ _ I).
      - intros u st' g Nu Hg. destruct (Nat.eq_dec u t) as [->|Ne].
        + rewrite nth_set_same in Nu by auto. inversion Nu; subst st'. destruct Hg as [<-|Hg].
          * split; [split; [exists t; apply in_or_app; cbn; auto|reflexivity]|]. cbn [f_pc f_id]. rewrite !cnt_app, Z2, Z3, !cnt_cons, !cnt_nil. auto.
          * eapply fok_mono; [eapply (v_ok _ _ I); eauto|lia| |]; rewrite cnt_cons, cnt_nil; reflexivity.
        + rewrite nth_set_other in Nu by auto.
          eapply fok_mono; [eapply (v_ok _ _ I); eauto|lia| |]; rewrite cnt_cons, cnt_nil; reflexivity.
      - intros u f0 st' g Nu Hg. destruct (Nat.eq_dec u t) as [->|Ne].
        + rewrite nth_set_same in Nu by auto. inversion Nu; subst. destruct st' as [|f st]; [destruct Hg|].
          destruct Hg as [<-|Hg]; [exact T|]. eapply (v_tail _ _ I); eauto.
        + rewrite nth_set_other in Nu by auto. eapply (v_tail _ _ I); eauto. }
    destruct st0 as [|f st].
    + exact (U true eq_refl (fun _ => Logic.I)).
    + destruct (in_call f) eqn:C; [|cbn; rewrite app_nil_r; auto]. exact (U true eq_refl (fun _ => eq_refl)).
  - destruct (in_user s t && can_lock s t); [|cbn; rewrite app_nil_r; auto]. cbn [fst snd]. now apply do_stop_inv.
  - destruct (in_user s t); [|cbn; rewrite app_nil_r; auto]. cbn [fst snd]. apply notify_inv.
    rewrite <- (set_running_same s). apply neutral_inv; auto. rewrite armed_snoc. apply (v_run _ _ I).
  - destruct (in_user s t && can_lock s t); cbn [fst snd]; rewrite app_nil_r; auto.
    destruct I as [a b' c e f g]. constructor; auto.
  - destruct (in_user s t); [|cbn; rewrite app_nil_r; auto]. cbn [fst snd].
    rewrite <- (set_running_same s) at 1. apply neutral_inv; auto. rewrite armed_snoc. apply (v_run _ _ I).
  - destruct (nth_error (stacks s) t) as [[|f st]|] eqn:N; try (cbn; rewrite app_nil_r; auto; fail).
    destruct (f_pc f) eqn:P; try (cbn; rewrite app_nil_r; auto; fail).
    destruct (running s && cyclic s).
    + cbn [fst snd]. rewrite app_nil_r. eapply upd_inv0; eauto.
      pose proof (v_ok _ _ I _ _ f N (or_introl eq_refl)) as [A B]. rewrite P in B. split; auto.
      cbn [set_pc f_pc f_id f_ms]. destruct B as [B0 (c0 & B1 & B2)]. exists c0. split; auto. split; lia.
    + now apply fin_inv.
  - destruct (nth_error (stacks s) t) as [[|f st]|] eqn:N; try (cbn; rewrite app_nil_r; auto; fail).
    pose proof (v_ok _ _ I _ _ f N (or_introl eq_refl)) as [A B].
    unfold start_step. destruct (f_pc f) as [| | |d b|d x|] eqn:P.
    + cbn [fst snd]. rewrite app_nil_r. eapply upd_inv0; eauto. split; auto. cbn [set_pc f_pc f_id].
      destruct (running s); auto.
    + destruct (can_lock s t); [|cbn; rewrite app_nil_r; auto]. cbn [fst snd].
      pose proof (do_stop_inv s tr t w I) as I2.
      assert (N2 : nth_error (stacks (do_stop s w)) t = Some (f :: st)).
      { unfold do_stop. destruct (running s); auto. rewrite notify_other; auto. cbn [set_running stacks].
        rewrite (nth_stack _ _ _ N). cbn. now rewrite P. }
      eapply upd_inv0; eauto. pose proof (v_ok _ _ I2 _ _ f N2 (or_introl eq_refl)) as [A2 B2].
      rewrite P in B2. split; auto.
    + destruct (can_lock s t); [|cbn; rewrite app_nil_r; auto]. cbn [fst snd].
      eapply upd_inv; eauto.
      * intros m. rewrite !cnt_cons, !cnt_nil. cbn. repeat split; auto. intros Ne. unfold about. cbn.
        rewrite (proj2 (Nat.eqb_neq m (f_id f)) Ne). reflexivity.
      * rewrite armed_snoc. reflexivity.
      * destruct B as [_ B]. destruct A as [[u A] A2].
        split; [split; [exists u; apply in_or_app; auto|cbn [set_pc f_moved]; auto]|].
        cbn [set_pc f_pc f_id f_ms]. exists (now s). split; [apply in_or_app; cbn; auto|].
        rewrite cnt_app, cnt_cons, cnt_nil. cbn [fires b2n]. rewrite B. lia.
    + destruct b; [|cbn; rewrite app_nil_r; auto]. cbn [fst snd]. rewrite app_nil_r. eapply upd_inv0; eauto.
      split; auto. cbn [set_pc f_pc f_id f_ms]. split; auto. discriminate.
    + destruct (can_lock s t); [|cbn; rewrite app_nil_r; auto]. destruct (running s) eqn:R; [|now apply fin_inv].
      destruct x; cbn [fst snd].
      * rewrite <- (set_running_same s). rewrite R. eapply upd_inv; eauto.
        -- intros m. rewrite !cnt_cons, !cnt_nil. cbn. repeat split; auto. intros Ne. unfold about. cbn.
           rewrite (proj2 (Nat.eqb_neq m (f_id f)) Ne). reflexivity.
        -- rewrite armed_snoc, <- (v_run _ _ I). auto.
        -- destruct A as [[u A] A2]. split.
           { split; [exists u; apply in_or_app; auto|]. rewrite cnt_app, cnt_cons, cnt_nil. cbn [fires f_id]. rewrite Nat.eqb_refl. cbn; lia. }
           cbn [f_pc f_id f_ms]. destruct B as [(c0 & B1 & B2 & _) B3]. specialize (B3 eq_refl).
           rewrite cnt_app, cnt_cons, cnt_nil. cbn [fires]. rewrite Nat.eqb_refl. cbn [b2n].
           split; [lia|]. exists c0. split; [apply in_or_app; auto|]. lia.
      * rewrite app_nil_r. eapply upd_inv0; eauto. split; auto. cbn [set_pc f_pc f_id f_ms]. tauto.
    + cbn. rewrite app_nil_r; auto.
  - destruct (nth_error (stacks s) t) as [[|f st]|] eqn:N; try (cbn; rewrite app_nil_r; auto; fail).
    pose proof (v_ok _ _ I _ _ f N (or_introl eq_refl)) as [A B].
    destruct (f_pc f) as [| | |d b|d x|] eqn:P; try (cbn; rewrite app_nil_r; auto; fail).
    cbn [fst snd]. rewrite app_nil_r. eapply upd_inv0; eauto.
    split; auto. cbn [set_pc f_pc f_id f_ms]. split; auto. discriminate.
  - destruct (nth_error (stacks s) t) as [[|f st]|] eqn:N; try (cbn; rewrite app_nil_r; auto; fail).
    pose proof (v_ok _ _ I _ _ f N (or_introl eq_refl)) as [A B].
    destruct (f_pc f) as [| | |d b|d x|] eqn:P; try (cbn; rewrite app_nil_r; auto; fail).
    destruct (Nat.leb_spec d (now s)); [|cbn; rewrite app_nil_r; auto].
    cbn [fst snd]. rewrite app_nil_r. eapply upd_inv0; eauto.
    split; auto. cbn [set_pc f_pc f_id f_ms]. split; auto.
Qed.

Lemma inv_all c N h : inv (final c N h) (trace c N h).
Proof.
  induction h as [|l h IH] using rev_ind.
  - constructor; try reflexivity; cbn [final trace run fst snd timer_new stacks].
    + intros n. unfold weight. cbn [stacks timer_new]. rewrite !cnt_nil, Nat.add_0_r. apply wsum_zero.
      intros x H. apply repeat_spec in H. subst. apply cnt_nil.
    + intros t st f H Hf. apply nth_error_In, repeat_spec in H. subst. destruct Hf.
    + intros t f st g H _. apply nth_error_In, repeat_spec in H. discriminate.
  - rewrite final_snoc, trace_snoc. now apply step_inv.
Qed.
