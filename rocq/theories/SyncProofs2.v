(** Lemmas about SyncTimer: what the events say, and when a start fires or returns. *)
From Verif Require Import ListUtil SyncModel SyncSpec SyncProofs.

Definition good (l1 : list event) (now : nat) (e : event) : Prop :=
  match e with
  | EStart n _ _ => cnt (about n) l1 = 0
  | ESet n c => c = now /\ cnt (sets n) l1 = 0 /\ cnt (ends n) l1 = 0 /\ exists t ms, In (EStart n t ms) l1
  | EFire n c ok => c = now /\ armed l1 = true /\ cnt (ends n) l1 = 0 /\
      exists t ms c0, In (EStart n t ms) l1 /\ In (ESet n c0) l1 /\ c0 + (1 + cnt (fires n) l1) * ms <= c
  | EEnd n => cnt (ends n) l1 = 0 /\ cnt (starts n) l1 = 1 /\ (armed l1 = false \/ 1 <= cnt (fires n) l1)
  | ERunning _ b => b = armed l1
  | EStop _ | ERestart _ => True
  end.

Lemma no_end s tr t f st : inv s tr -> nth_error (stacks s) t = Some (f :: st) ->
  cnt (ends (f_id f)) tr = 0 /\ cnt (starts (f_id f)) tr = 1.
Proof.
  intros I N. pose proof (v_count _ _ I (f_id f)) as A. pose proof (v_made _ _ I (f_id f)) as B.
  pose proof (wsum_nth (cnt (fid (f_id f))) _ _ _ N) as W. rewrite cnt_cons in W. unfold fid at 1 in W.
  rewrite Nat.eqb_refl in W. cbn [b2n] in W. unfold weight in A.
  destruct (Nat.ltb (f_id f) (made s)); cbn in B; lia.
Qed.

Lemma step_good c N h l : let s := final c N h in
  snd (step s l) = [] \/ exists e, snd (step s l) = [e] /\ good (trace c N h) (now s) e.
Proof.
  intros s. pose proof (inv_all c N h) as I. fold s in I.
  destruct l as [d|t ms ex|t w|t w|t b|t|t|t w|t|t]; cbn [step].
  - auto.
  - destruct (in_user s t); [|auto]. right. eexists. split; [reflexivity|]. cbn. apply (v_fresh _ _ I). lia.
  - destruct (in_user s t && can_lock s t); [|auto]. right. eexists. split; [reflexivity|]. exact Logic.I.
  - destruct (in_user s t); [|auto]. right. eexists. split; [reflexivity|]. exact Logic.I.
  - destruct (in_user s t && can_lock s t); auto.
  - destruct (in_user s t); [|auto]. right. eexists. split; [reflexivity|]. apply (v_run _ _ I).
  - destruct (nth_error (stacks s) t) as [[|f st]|] eqn:Nt; auto.
    pose proof (v_ok _ _ I _ _ f Nt (or_introl eq_refl)) as [A B]. destruct (no_end _ _ _ _ _ I Nt) as [E1 E2].
    destruct (f_pc f) eqn:P; auto. destruct (running s && cyclic s); auto.
    right. eexists. split; [reflexivity|]. cbn. tauto.
  - destruct (nth_error (stacks s) t) as [[|f st]|] eqn:Nt; auto.
    pose proof (v_ok _ _ I _ _ f Nt (or_introl eq_refl)) as [A B]. destruct (no_end _ _ _ _ _ I Nt) as [E1 E2].
    unfold start_step. destruct (f_pc f) as [| | |d b|d x|] eqn:P; auto.
    + destruct (can_lock s t); [|auto]. right. eexists. split; [reflexivity|]. exact Logic.I.
    + destruct (can_lock s t); [|auto]. right. eexists. split; [reflexivity|]. cbn.
      destruct A as [[u A] _]. destruct B. repeat split; eauto.
    + destruct b; auto.
    + destruct (can_lock s t); [|auto]. destruct (running s) eqn:R.
      * destruct x; [|auto]. right. eexists. split; [reflexivity|]. cbn [good].
        split; auto. split; [rewrite <- (v_run _ _ I); auto|]. split; auto.
        destruct A as [[u A] _]. destruct B as [(c0 & B1 & B2 & _) B3]. exists u, (f_ms f), c0.
        repeat (split; auto). specialize (B3 eq_refl). lia.
      * right. eexists. split; [reflexivity|]. cbn. rewrite <- (v_run _ _ I). auto.
  - destruct (nth_error (stacks s) t) as [[|f st]|]; auto. destruct (f_pc f); auto.
  - destruct (nth_error (stacks s) t) as [[|f st]|]; auto. destruct (f_pc f); auto.
    destruct (Nat.leb deadline (now s)); auto.
Qed.

Lemma clock_app h1 h2 : clock (h1 ++ h2) = clock h1 + clock h2.
Proof. induction h1 as [|[] h1 IH]; cbn; auto. rewrite IH. lia. Qed.

Lemma finish_now s t f st : now (fst (finish s t f st)) = now s.
Proof. reflexivity. Qed.
Lemma step_now s l : now (fst (step s l)) = now s + clock [l].
Proof.
  destruct l as [d|t ms ex|t w|t w|t b|t|t|t w|t|t]; cbn [step clock]; rewrite ?Nat.add_0_r.
  - reflexivity.
  - destruct (in_user s t); reflexivity.
  - destruct (in_user s t && can_lock s t); auto. cbn [fst]. unfold do_stop. destruct (running s); auto.
    now rewrite (proj1 (notify_fields _ _)).
  - destruct (in_user s t); auto. apply notify_fields.
  - destruct (in_user s t && can_lock s t); auto.
  - destruct (in_user s t); auto.
  - destruct (nth_error (stacks s) t) as [[|f st]|]; auto. destruct (f_pc f); auto. destruct (running s && cyclic s); auto.
  - destruct (nth_error (stacks s) t) as [[|f st]|]; auto. unfold start_step.
    destruct (f_pc f) as [| | |d b|d x|]; auto.
    + destruct (can_lock s t); auto. cbn [fst with_stack now]. unfold do_stop. destruct (running s); auto.
      now rewrite (proj1 (notify_fields _ _)).
    + destruct (can_lock s t); auto.
    + destruct b; auto.
    + destruct (can_lock s t); auto. destruct (running s); auto. destruct x; auto.
  - destruct (nth_error (stacks s) t) as [[|f st]|]; auto. destruct (f_pc f); auto.
  - destruct (nth_error (stacks s) t) as [[|f st]|]; auto. destruct (f_pc f); auto.
    destruct (Nat.leb deadline (now s)); auto.
Qed.
Lemma now_clock c N h : now (final c N h) = clock h.
Proof.
  induction h as [|l h IH] using rev_ind; [reflexivity|].
  rewrite final_snoc, step_now, IH, clock_app. reflexivity.
Qed.

Lemma all_good c N h l1 e l2 : trace c N h = l1 ++ e :: l2 ->
  exists h1 l h2, h = h1 ++ l :: h2 /\ trace c N h1 = l1 /\ trace c N (h1 ++ [l]) = l1 ++ [e] /\ good l1 (clock h1) e.
Proof.
  revert l1 e l2. induction h as [|l h IH] using rev_ind; intros l1 e l2 E.
  - destruct l1; discriminate.
  - assert (Old : trace c N h = l1 ++ e :: removelast l2 ->
       exists h1 l0 h2, h ++ [l] = h1 ++ l0 :: h2 /\ trace c N h1 = l1 /\ trace c N (h1 ++ [l0]) = l1 ++ [e] /\ good l1 (clock h1) e).
    { intros E'. destruct (IH _ _ _ E') as (h1 & l0 & h2 & -> & A). exists h1, l0, (h2 ++ [l]). split; auto.
      now rewrite <- app_assoc. }
    pose proof E as E0. rewrite trace_snoc in E.
    destruct (step_good c N h l) as [Hn|(e' & Hn & G)]; rewrite Hn in E.
    + rewrite app_nil_r in E. destruct (IH _ _ _ E) as (h1 & l0 & h2 & -> & A). exists h1, l0, (h2 ++ [l]). split; auto.
      now rewrite <- app_assoc.
    + destruct l2 as [|y l2 _] using rev_ind.
      * apply app_inj_tail in E as [<- <-]. exists h, l, []. split; auto. split; auto. split; auto.
        rewrite now_clock in G. auto.
      * change (e :: l2 ++ [y]) with ((e :: l2) ++ [y]) in E. rewrite app_assoc in E.
        apply app_inj_tail in E as [E ->]. apply Old. now rewrite removelast_last.
Qed.

(** Where a start() in progress is. *)
Lemma wsum_pos {A} (f : A -> nat) l : 1 <= wsum f l -> exists i x, nth_error l i = Some x /\ 1 <= f x.
Proof.
  induction l as [|x l IH]; cbn; [lia|]. intros H. destruct (f x) eqn:E.
  - destruct IH as (i & y & ? & ?); [lia|]. exists (S i), y. auto.
  - exists 0, x. split; auto. lia.
Qed.
Lemma find_frame s tr n : inv s tr -> cnt (starts n) tr = 1 -> cnt (ends n) tr = 0 ->
  exists t st f, nth_error (stacks s) t = Some st /\ In f st /\ f_id f = n.
Proof.
  intros I S E. pose proof (v_count _ _ I n) as A. rewrite S, E in A.
  assert (W : 1 <= wsum (cnt (fid n)) (stacks s)) by (unfold weight in A; lia).
  apply wsum_pos in W as (t & st & N & W). apply cnt_pos_inv in W as (f & Hf & Ef).
  exists t, st, f. repeat split; auto. unfold fid in Ef. apply Nat.eqb_eq in Ef. auto.
Qed.

Lemma start_cnt s tr n : inv s tr -> cnt (starts n) tr = 0 \/ cnt (starts n) tr = 1.
Proof. intros I. rewrite (v_made _ _ I). destruct (Nat.ltb n (made s)); auto. Qed.

Lemma sets_le c N h n : cnt (sets n) (trace c N h) <= 1.
Proof.
  induction h as [|l h IH] using rev_ind; [change (trace c N []) with (@nil event); rewrite cnt_nil; lia|].
  rewrite trace_snoc, cnt_app. destruct (step_good c N h l) as [->|(e & -> & G)]; [rewrite cnt_nil; lia|].
  rewrite cnt_cons, cnt_nil. destruct e; cbn [sets b2n]; try lia.
  destruct (Nat.eqb_spec n n0) as [->|]; cbn [b2n]; [|lia]. destruct G as (_ & -> & _). lia.
Qed.

Lemma cnt_one_same {A} (f : A -> bool) l x y : cnt f l <= 1 -> In x l -> In y l -> f x = true -> f y = true -> x = y.
Proof.
  induction l as [|z l IH]; [intros _ []|]. rewrite cnt_cons. intros L [->|Hx] [->|Hy] Fx Fy; auto.
  - rewrite Fx in L. pose proof (cnt_pos _ _ _ Hy Fy). cbn [b2n] in L. lia.
  - rewrite Fy in L. pose proof (cnt_pos _ _ _ Hx Fx). cbn [b2n] in L. lia.
  - apply IH; auto. destruct (f z); cbn [b2n] in L; lia.
Qed.
Lemma set_unique c N h n c1 c2 : In (ESet n c1) (trace c N h) -> In (ESet n c2) (trace c N h) -> c1 = c2.
Proof.
  intros A B. assert (E : ESet n c1 = ESet n c2).
  { eapply cnt_one_same; [apply (sets_le c N h n)|exact A|exact B| |]; cbn; apply Nat.eqb_refl. }
  now inversion E.
Qed.
Lemma start_unique c N h n t1 m1 t2 m2 : In (EStart n t1 m1) (trace c N h) -> In (EStart n t2 m2) (trace c N h) -> t1 = t2 /\ m1 = m2.
Proof.
  intros A B. assert (E : EStart n t1 m1 = EStart n t2 m2).
  { apply (cnt_one_same (starts n) (trace c N h)); auto; [|cbn; apply Nat.eqb_refl..].
    destruct (start_cnt _ _ n (inv_all c N h)); lia. }
  now inversion E.
Qed.

Lemma can_lock_free s t : no_callback s -> can_lock s t = true.
Proof.
  intros H. unfold can_lock. apply forallb_forall. intros u _. rewrite H. now rewrite orb_true_r.
Qed.
Lemma in_call_holds s t st f : nth_error (stacks s) t = Some st -> In f st -> in_call f = true -> holds (nth t (stacks s) []) = true.
Proof. intros N H C. rewrite (nth_stack _ _ _ N). unfold holds. apply existsb_exists. eauto. Qed.


Ltac byt := repeat (apply Forall_cons; [first [left; reflexivity|right; eexists; reflexivity]|]); apply Forall_nil.

Lemma set_starts c N h n c0 : In (ESet n c0) (trace c N h) -> cnt (starts n) (trace c N h) = 1.
Proof.
  intros H. apply in_split in H as (l1 & l2 & E). destruct (all_good _ _ _ _ _ _ E) as (h1 & l & h2 & _ & _ & _ & G).
  destruct G as (_ & _ & _ & t & ms & Hin). destruct (start_cnt _ _ n (inv_all c N h)) as [Z|]; auto.
  assert (In (EStart n t ms) (trace c N h)) by (rewrite E; apply in_or_app; auto).
  pose proof (cnt_zero_inv _ _ _ Z H) as F. cbn in F. rewrite Nat.eqb_refl in F. discriminate.
Qed.

(** Without a running callback the frame of a start() in progress is on top. *)
Lemma top_frame s tr t st f : inv s tr -> no_callback s -> nth_error (stacks s) t = Some st -> In f st -> exists st', st = f :: st' /\ in_call f = false.
Proof.
  intros I NC N H. destruct (in_call f) eqn:C.
  - specialize (NC t). rewrite (in_call_holds _ _ _ _ N H C) in NC. discriminate.
  - destruct st as [|g st']; [destruct H|]. destruct H as [->|H]; [eauto|].
    rewrite (v_tail _ _ I _ _ _ _ N H) in C. discriminate.
Qed.

Lemma no_callback_stack s t f f' st : no_callback s -> nth_error (stacks s) t = Some (f :: st) -> in_call f' = false ->
  no_callback (with_stack s t (f' :: st)).
Proof.
  intros NC N C u. cbn [with_stack stacks]. destruct (Nat.eq_dec u t) as [->|Ne].
  - rewrite (nth_error_nth _ _ _ (nth_set_same (f' :: st) _ _ (nth_lt _ _ _ N))). cbn. rewrite C. cbn.
    specialize (NC t). rewrite (nth_stack _ _ _ N) in NC. cbn in NC. now apply orb_false_iff in NC.
  - specialize (NC u). destruct (nth_error (stacks s) u) as [x|] eqn:Nu.
    + rewrite (nth_stack _ _ _ Nu) in NC. erewrite nth_error_nth; [exact NC|]. now rewrite nth_set_other by auto.
    + rewrite nth_overflow; [reflexivity|]. rewrite length_set_nth. now apply nth_error_None.
Qed.

Lemma due_fires c N h n t ms c0 :
  waits_since (trace c N h) n t ms c0 -> armed (trace c N h) = true -> c0 + ms <= clock h -> no_callback (final c N h) ->
  exists u hs, length hs <= 3 /\ Forall (by_thread u) hs /\
    trace c N (h ++ hs) = trace c N h ++ [EFire n (clock h) true].
Proof.
  intros (W1 & W2 & W3 & W4) A D NC. set (s := final c N h) in *. pose proof (inv_all c N h) as I. fold s in I.
  destruct (find_frame _ _ _ I (set_starts _ _ _ _ _ W2) W4) as (u & st & f & Nu & Hf & Ef).
  destruct (top_frame _ _ _ _ _ I NC Nu Hf) as (st' & -> & C).
  pose proof (v_ok _ _ I _ _ f Nu Hf) as [[[t1 B1] B2] B3]. rewrite Ef in *. rewrite W3 in *. specialize (B2 eq_refl).
  destruct (start_unique _ _ _ _ _ _ _ _ W1 B1) as [<- Ems].
  assert (R : running s = true) by (rewrite (v_run _ _ I); exact A).
  assert (Fire : forall h' d x, final c N h' = with_stack s u (set_pc f (PAwake d x) :: st') -> trace c N h' = trace c N h -> clock h' = clock h -> x = true ->
     trace c N (h' ++ [LStep u 0]) = trace c N h ++ [EFire n (clock h) true]).
  { intros h' d x F T K ->. rewrite trace_snoc, T. f_equal. pose proof (now_clock c N h') as Nw. rewrite F in *. cbn [step with_stack stacks].
    rewrite nth_set_same by (eapply nth_lt; eauto). unfold start_step. cbn [set_pc f_pc].
    rewrite can_lock_free by (eapply no_callback_stack; eauto). cbn [with_stack running f_id f_moved set_pc now].
    cbn [with_stack now] in Nw. rewrite R. cbn [snd f_id f_moved set_pc now]. rewrite ?Ef, B2, Nw, K. reflexivity. }
  assert (Exp : forall h' d b, final c N h' = with_stack s u (set_pc f (PWait d b) :: st') -> trace c N h' = trace c N h -> clock h' = clock h -> d <= clock h ->
     trace c N ((h' ++ [LExpire u]) ++ [LStep u 0]) = trace c N h ++ [EFire n (clock h) true]).
  { intros h' d b F T K L. pose proof (now_clock c N h') as Nw. rewrite F in Nw. cbn [with_stack now] in Nw.
    assert (S1 : step (final c N h') (LExpire u) = (with_stack s u (set_pc f (PAwake d true) :: st'), [])).
    { rewrite F. cbn [step with_stack stacks]. rewrite nth_set_same by (eapply nth_lt; eauto). cbn [set_pc f_pc now].
      cbn [with_stack now]. rewrite (proj2 (Nat.leb_le d (now s))) by lia. unfold with_stack. cbn [stacks now running cyclic made].
      f_equal. f_equal. clear. generalize (stacks s). intros l. revert u. induction l as [|y l IH]; intros [|u]; cbn; auto. now rewrite IH. }
    eapply (Fire _ d true); auto.
    - rewrite final_snoc, S1. reflexivity.
    - rewrite trace_snoc, S1, T. apply app_nil_r.
    - rewrite clock_app. cbn. lia. }
  assert (Same : forall p, f_pc f = p -> s = with_stack s u (set_pc f p :: st')).
  { intros p <-. replace (set_pc f (f_pc f)) with f by (destruct f; reflexivity). unfold with_stack.
    destruct s as [a b c1 d l]. cbn in *. f_equal. clear - Nu. revert u Nu. induction l as [|y l IH]; intros [|u] Nu; cbn in *; try discriminate.
    - congruence.
    - f_equal. auto. }
  assert (Sets : cnt (sets n) (trace c N h) <> 0).
  { intros Z. pose proof (cnt_zero_inv _ _ _ Z W2) as F. cbn in F. rewrite Nat.eqb_refl in F. discriminate. }
  exists u. destruct (f_pc f) as [| | |d b|d x|] eqn:P; try (destruct B3; congruence).
  - destruct B3 as (c1 & S1 & _ & S2). specialize (S2 eq_refl). pose proof (set_unique _ _ _ _ _ _ W2 S1); subst c1.
    exists [LExpire u; LStep u 0]. split; [cbn; lia|]. split.
    { byt. }
    change [LExpire u; LStep u 0] with ([LExpire u] ++ [LStep u 0]). rewrite app_assoc. eapply (Exp _ d b); auto. lia.
  - destruct B3 as [(c1 & S1 & _ & S2) S3]. specialize (S2 eq_refl). pose proof (set_unique _ _ _ _ _ _ W2 S1); subst c1.
    destruct x.
    + exists [LStep u 0]. split; [cbn; lia|]. split; [byt|]. eapply (Fire _ d true); auto.
    + exists [LStep u 0; LExpire u; LStep u 0]. split; [cbn; lia|]. split; [byt|].
      assert (St : step s (LStep u 0) = (with_stack s u (set_pc f (PWait d false) :: st'), [])).
      { cbn [step]. rewrite Nu. unfold start_step. rewrite P, can_lock_free, R by auto. reflexivity. }
      change [LStep u 0; LExpire u; LStep u 0] with ([LStep u 0] ++ [LExpire u] ++ [LStep u 0]). rewrite !app_assoc.
      eapply (Exp _ d false).
      * rewrite final_snoc. fold s. rewrite St. reflexivity.
      * rewrite trace_snoc. fold s. rewrite St. apply app_nil_r.
      * rewrite clock_app. cbn. lia.
      * lia.
  - destruct B3 as [B3 _]. lia.
Qed.
