(** Calls made on a stopped processor. *)
From Verif Require Import ListUtil Amap ProcModel ProcSpec ProcProofs ProcProofs2 ProcProofs3 ProcProofs4 ProcProofs5 ProcProofs6 ProcProofs7 ProcProofs8 ProcProofs9 ProcProofs10 ProcProofs11.
From Verif Require QueueModel QueueSpec QueueProofs QueueProofs2 QueueProofs3 SigModel.

(** Submissions number [N] and later to [a]: they are at their start, or were refused. *)
Definition refused (N a : nat) (st : state) : Prop := forall z y c0, N <= z -> nth_error (calls st) z = Some (y, c0) -> submits c0 = true -> target c0 = a ->
  (forall t' k0, In (FCall z k0) (stk st t') -> k0 = PStart) /\ (forall t' r0, In (ERet t' z r0) (tr st) -> r0 = no c0) /\
  (1 <= cnt (returns z) (tr st) \/ In (FCall z PStart) (stk st y)).

Lemma ret_cnt z t r l : In (ERet t z r) l -> 1 <= cnt (returns z) l.
Proof. intros I. eapply cnt_pos; [exact I|cbn; apply Nat.eqb_refl]. Qed.

Lemma refused_step t st st' N0 a : all_good st -> core t st st' -> is_stopped st a = true -> N0 <= length (calls st) -> inv_calls st -> refused N0 a st -> refused N0 a st'.
Proof.
  intros G K CL LN IC J z y c0 LZ CZ SZ TZ. pose proof (core_calls _ _ _ K) as CM.
  destruct (nth_error (calls st) z) as [yc|] eqn:CO.
  - assert (yc = (y, c0)) by (pose proof (nth_mono _ _ _ _ CM CO); congruence). subst yc. destruct (J z y c0 LZ CO SZ TZ) as (J1 & J2 & J3).
    assert (KEEP : forall s' add, (forall t', stk st' t' = upd (stk st) t s' t') -> tr st' = tr st ++ add ->
      (forall k0, In (FCall z k0) s' -> In (FCall z k0) (stk st t)) -> (forall t' r0, In (ERet t' z r0) add -> r0 = no c0) ->
      (In (FCall z PStart) (stk st t) -> In (FCall z PStart) s' \/ 1 <= cnt (returns z) add) ->
      (forall t' k0, In (FCall z k0) (stk st' t') -> k0 = PStart) /\ (forall t' r0, In (ERet t' z r0) (tr st') -> r0 = no c0) /\ (1 <= cnt (returns z) (tr st') \/ In (FCall z PStart) (stk st' y))).
    { intros s' add S T A B D. split; [|split].
      - intros t' k0 I0. rewrite S in I0. unfold upd in I0. destruct (Nat.eqb_spec t t'); [subst t'; eapply J1; eauto|eapply J1; eauto].
      - intros t' r0 I0. rewrite T in I0. apply in_app_or in I0 as [I0|I0]; eauto.
      - rewrite T, cnt_app, S. destruct J3 as [J3|J3]; [left; lia|]. unfold upd. destruct (Nat.eqb_spec t y); [subst y|right; exact J3]. destruct (D J3) as [D1|D1]; [right; exact D1|left; lia]. }
    assert (EASY : forall old new r add, stk st t = old ++ r -> (forall t', stk st' t' = upd (stk st) t (new ++ r) t') -> tr st' = tr st ++ add ->
      (forall f, In f old -> forall k0, f <> FCall z k0) -> (forall f, In f new -> forall k0, f <> FCall z k0) -> (forall e0, In e0 add -> returns z e0 = false) ->
      (forall t' k0, In (FCall z k0) (stk st' t') -> k0 = PStart) /\ (forall t' r0, In (ERet t' z r0) (tr st') -> r0 = no c0) /\ (1 <= cnt (returns z) (tr st') \/ In (FCall z PStart) (stk st' y))).
    { intros old new r add S S' T A B D. eapply KEEP; [exact S'|exact T| | |].
      - intros k0 I0. apply in_app_or in I0 as [I0|I0]; [exfalso; eapply B; [exact I0|reflexivity]|]. rewrite S. apply in_or_app. auto.
      - intros t' r0 I0. specialize (D _ I0). cbn in D. rewrite Nat.eqb_refl in D. discriminate.
      - intros I0. left. rewrite S in I0. apply in_app_or in I0 as [I0|I0]; [exfalso; eapply A; [exact I0|reflexivity]|]. apply in_or_app. auto. }
    assert (QT : forall l, quiet l -> forall e0, In e0 l -> returns z e0 = false) by (intros l Q e0 I0; specialize (Q _ I0); destruct e0; try discriminate; reflexivity).
    assert (RF : forall t' n r0, n <> z -> returns z (ERet t' n r0) = false) by (intros t' n r0 NE; cbn; apply Nat.eqb_neq; congruence).
    assert (TOP : forall n k r, stk st t = FCall n k :: r -> k <> PStart -> n <> z) by (intros n k r S NK ->; apply NK; eapply (J1 t); rewrite S; left; reflexivity).
    assert (NID : forall n t0 c, nth_error (calls st) n = Some (t0, c) -> submits c = false -> n <> z) by (intros n t0 c E F ->; rewrite CO in E; injection E as -> ->; congruence).
    assert (LOOP : forall n p j k ph, In (FLoop n p j k ph) (stk st t) -> n <> z).
    { intros n p j k ph I0. eapply NID; [apply (g_loop _ _ _ (G t) _ _ _ _ _ I0)|reflexivity]. }
    assert (LT : length (calls st) <> z) by (apply nth_lt in CO; lia).
    assert (ONE : forall n k k0, n <> z -> FCall n k <> FCall z k0) by (intros; congruence).
    assert (BOD : forall b x k0, body_of b = Some x -> b <> FCall z k0) by (intros b x k0 B ->; discriminate).
    Ltac none := cbn [In]; let f0 := fresh in let I0 := fresh in intros f0 I0; repeat (destruct I0 as [I0|I0]; [subst f0|]); [..|contradiction].
    revert K. cores; destruct E as (S' & T & CC).
    + eapply (EASY [] [] _ l eq_refl); [exact S'|exact T|none|none|apply QT, N].
    + eapply (EASY [_] [_] r l S); [exact S'|exact T|none; discriminate|none; discriminate|apply QT, N].
    + eapply (EASY [] [_] _ _ eq_refl); [exact S'|exact T|none|none; intros; apply ONE; exact LT|none; reflexivity].
    + eapply (EASY [] [_] _ _ eq_refl); [exact S'|exact T|none|none; intros; discriminate|none; reflexivity].
    + destruct (Nat.eq_dec n z) as [->|NE].
      * exfalso. assert (k = PStart) by (eapply (J1 t); rewrite S; left; reflexivity). subst k. rewrite CO in C. injection C as <- <-. rewrite TZ, (CL : is_stopped st a = true) in PS. specialize (PS eq_refl SZ). discriminate.
      * eapply (EASY [_] [_] r [] S); [exact S'|exact T|none; intros; apply ONE, NE|none; intros; apply ONE, NE|none].
    + destruct (Nat.eq_dec n z) as [->|NE].
      * eapply KEEP; [exact S'|exact T|intros k0 I0; rewrite S; right; exact I0| |].
        -- intros t' r0 [I0|[]]. injection I0 as _ <-. assert (k = PStart) by (eapply (J1 t); rewrite S; left; reflexivity). rewrite CO in C. injection C as <- <-.
           destruct (R SZ) as [X|(X & _)]; [exact X|contradiction].
        -- intros _. right. rewrite cnt_cons, cnt_nil. cbn. rewrite Nat.eqb_refl. cbn. lia.
      * eapply (EASY [_] [] r _ S); [exact S'|exact T|none; intros; apply ONE, NE|none|none; apply RF, NE].
    + assert (NE : n <> z) by (eapply NID; [exact C|reflexivity]). eapply (EASY [_] [] r _ S); [exact S'|exact T|none; intros; apply ONE, NE|none|none; apply RF, NE].
    + assert (NE : n <> z) by (eapply NID; [exact C|reflexivity]). eapply (EASY [_] [_] r [] S); [exact S'|exact T|none; intros; apply ONE, NE|none; intros; apply ONE, NE|none].
    + assert (NE : n <> z) by (eapply NID; [exact C|reflexivity]). eapply (EASY [_] [_] r [] S); [exact S'|exact T|none; intros; apply ONE, NE|none; intros; apply ONE, NE|none].
    + assert (NE : n <> z) by (eapply TOP; [exact S|discriminate]). eapply (EASY [_] [] r _ S); [exact S'|exact T|none; intros; apply ONE, NE|none|none; apply RF, NE].
    + assert (NE : n <> z) by (eapply TOP; [exact S|discriminate]). eapply (EASY [_] [_] r [] S); [exact S'|exact T|none; intros; apply ONE, NE|none; intros; apply ONE, NE|none].
    + assert (NE : n <> z) by (eapply TOP; [exact S|discriminate]). eapply (EASY [_] [] r _ S); [exact S'|exact T|none; intros; apply ONE, NE|none|none; [reflexivity|apply RF, NE]].
    + eapply (EASY [] [] (stk st t) [] eq_refl); [rewrite S; exact S'|exact T|none|none|none].
    + assert (NE : n <> z) by (eapply TOP; [exact S|discriminate]). eapply (EASY [_] [_] r [] S); [exact S'|exact T|none; intros; apply ONE, NE|none; intros; apply ONE, NE|none].
    + assert (NE : n <> z) by (eapply TOP; [exact S|discriminate]). eapply (EASY [_] [] r _ S); [exact S'|exact T|none; intros; apply ONE, NE|none|none; [reflexivity|apply RF, NE]].
    + assert (NE : n <> z) by (eapply TOP; [exact S|discriminate]). eapply (EASY [_] [] r _ S); [exact S'|exact T|none; intros; apply ONE, NE|none|none; apply RF, NE].
    + eapply (EASY [_] [_] r _ S); [exact S'|exact T|none; discriminate|none; discriminate|none; reflexivity].
    + assert (NE : n <> z) by (eapply LOOP; rewrite S; left; reflexivity). eapply (EASY [_] [] r _ S); [exact S'|exact T|none; discriminate|none|none; apply RF, NE].
    + eapply (EASY [_] [_; _] r _ S); [exact S'|exact T|none; discriminate|none; [intros; destruct c; discriminate|discriminate]|none; reflexivity].
    + assert (NE : n <> z).
      { intros ->. assert (k = PStart) by (eapply (J1 t); rewrite S; left; reflexivity). subst k. rewrite CO in C. injection C as <- <-. rewrite TZ, (CL : is_stopped st a = true) in PS. specialize (PS eq_refl). discriminate. }
      eapply (EASY [_] [_; _] r _ S); [exact S'|exact T|none; intros; apply ONE, NE|none; [intros; destruct c; discriminate|intros; apply ONE, NE]|none; reflexivity].
    + eapply (EASY [_; _] [_] r _ S); [exact S'|exact T|none; [intros; eapply BOD; eauto|discriminate]|none; discriminate|].
      intros e0 I0. apply in_app_or in I0 as [I0|[<-|[]]]; [eapply QT; eauto|reflexivity].
    + assert (NE : n <> z) by (eapply LOOP; rewrite S; right; left; reflexivity).
      eapply (EASY [_; _] [] r _ S); [exact S'|exact T|none; [intros; eapply BOD; eauto|discriminate]|none|].
      intros e0 I0. apply in_app_or in I0 as [I0|[<-|[<-|[]]]]; [eapply QT; eauto|reflexivity|apply RF, NE].
    + assert (NE : n <> z) by (intros ->; assert (X : PInline = PStart) by (eapply (J1 t); rewrite S; right; left; reflexivity); discriminate).
      eapply (EASY [_; _] [] r _ S); [exact S'|exact T|none; [intros; eapply BOD; eauto|intros; apply ONE, NE]|none|].
      intros e0 I0. apply in_app_or in I0 as [I0|[<-|[<-|[]]]]; [eapply QT; eauto|reflexivity|apply RF, NE].
    + eapply (EASY [_] [] r _ S); [exact S'|exact T|none; intros; eapply BOD; eauto|none|].
      intros e0 I0. apply in_app_or in I0 as [I0|[<-|[]]]; [eapply QT; eauto|reflexivity].
  - pose proof (nth_error_None (calls st) z) as [NN _]. specialize (NN CO).
    assert (NF : forall t' k0, ~ In (FCall z k0) (stk st t')) by (intros t' k0 I0; destruct (g_call _ _ _ (G t') _ _ I0) as (c & C & _); congruence).
    assert (NR : forall t' r0, ~ In (ERet t' z r0) (tr st)) by (intros t' r0 I0; destruct (c_ret _ IC _ _ _ I0) as (c & C); congruence).
    revert K. cores; destruct E as (S' & T & CC); try (rewrite CC in CZ; congruence).
    + assert (z = length (calls st)) by (apply nth_lt in CZ; rewrite CC, app_length in CZ; cbn in CZ; lia). subst z.
      rewrite CC, nth_error_app2, Nat.sub_diag in CZ by lia. injection CZ as <- <-. split; [|split].
      * intros t' k0 I0. rewrite S' in I0. unfold upd in I0. destruct (Nat.eqb t t'); [destruct I0 as [I0|I0]; [congruence|]|]; exfalso; eapply NF; eauto.
      * intros t' r0 I0. rewrite T in I0. apply in_app_or in I0 as [I0|[I0|[]]]; [exfalso; eapply NR; eauto|discriminate].
      * right. rewrite S', upd_same. left. reflexivity.
    + assert (z = length (calls st)) by (apply nth_lt in CZ; rewrite CC, app_length in CZ; cbn in CZ; lia). subst z.
      rewrite CC, nth_error_app2, Nat.sub_diag in CZ by lia. injection CZ as <- <-. discriminate.
Qed.

Lemma stays_stopped h h' p : never_called (h ++ h') (reuses p) -> is_stopped (final h) p = true -> is_stopped (final (h ++ h')) p = true.
Proof.
  intros NR CL. induction h' as [|l h' IH] using rev_ind; [rewrite app_nil_r; exact CL|]. rewrite app_assoc in *.
  eapply core_stays; [apply good_final|apply qinv_final|apply final_step|apply never_reuse; exact NR|apply IH; eapply never_prefix; exact NR].
Qed.

Lemma calls_grow h h' : length (calls (final h)) <= length (calls (final (h ++ h'))).
Proof.
  induction h' as [|l h' IH] using rev_ind; [rewrite app_nil_r; lia|]. rewrite app_assoc. destruct (core_calls _ _ _ (final_step (h ++ h') l)) as [->|(x & ->)]; [exact IH|rewrite app_length; lia].
Qed.

Lemma refused_after h h' p : never_called (h ++ h') (reuses p) -> is_stopped (final h) p = true -> refused (length (calls (final h))) p (final (h ++ h')).
Proof.
  intros NR CL. induction h' as [|l h' IH] using rev_ind.
  - rewrite app_nil_r. intros z y c LZ CZ. apply nth_lt in CZ. lia.
  - rewrite app_assoc in *. pose proof (never_prefix _ _ _ NR) as NR1. eapply refused_step; [apply good_final|apply final_step|apply stays_stopped; assumption|apply calls_grow|apply calls_final|apply IH, NR1].
Qed.

(** A call made after stop() has returned is refused. *)
Lemma refused_once_stopped h h' p t n c : never_called (h ++ h') (reuses p) -> (exists t' n' r, called h t' n' (KStop p) /\ returned h n' r) ->
  called (h ++ h') t n c -> ~ called h t n c -> submits c = true -> target c = p ->
  (forall r, returned (h ++ h') n r -> r = no c) /\ (forall t' p', ~ In (EAccept t' p' n) (trace (h ++ h'))) /\ (forall t' p' i, ~ In (EStart t' p' n i) (trace (h ++ h'))).
Proof.
  intros NR (t' & n' & r & CS & RS) CN NC SB TG. assert (CL : is_stopped (final h) p = true) by (eapply stopped_after; [eapply never_prefix; exact NR|eauto|exact RS]).
  pose proof (refused_after _ _ _ NR CL) as RF. apply (c_in _ (calls_final (h ++ h'))) in CN.
  assert (LZ : length (calls (final h)) <= n).
  { destruct (le_lt_dec (length (calls (final h))) n) as [|L]; [assumption|]. exfalso. apply NC. apply (c_in _ (calls_final h)).
    destruct (nth_error (calls (final h)) n) as [x|] eqn:E; [|apply nth_error_None in E; lia]. pose proof (calls_mono h h' _ _ E). congruence. }
  destruct (RF n t c LZ CN SB TG) as (J1 & J2 & J3).
  assert (Z : cnt (accepts n) (trace (h ++ h')) = 0 /\ cnt (starts n) (trace (h ++ h')) = 0).
  { destruct J3 as [J3|J3].
    - assert (RI : exists t1 r1, In (ERet t1 n r1) (tr (final (h ++ h')))).
      { clear - J3. induction (tr (final (h ++ h'))) as [|x l IHl]; [rewrite cnt_nil in J3; lia|]. rewrite cnt_cons in J3. destruct (returns n x) eqn:RX.
        - destruct x; try discriminate. cbn in RX. apply Nat.eqb_eq in RX. subst. do 2 eexists. left. reflexivity.
        - destruct IHl as (t1 & r1 & H); [cbn in J3; exact J3|]. exists t1, r1. right. exact H. }
      destruct RI as (t1 & r1 & RI). pose proof (J2 _ _ RI) as ->. destruct (c_ret _ (calls_final _) _ _ _ RI) as (c1 & C1). assert (t1 = t /\ c1 = c) as [-> ->] by (split; congruence).
      destruct (outcome_final _ _ _ _ _ RI CN SB) as [(_ & A & B)|[(X & _)|[(X & _)|(_ & A & B & _)]]]; auto; destruct c; discriminate.
    - destruct (x_call _ (exec_final (h ++ h')) _ _ _ J3) as [A B]. split; [exact A|apply B; discriminate]. }
  destruct Z as [Z1 Z2]. rewrite cnt_in in Z1, Z2. split; [|split].
  - intros r0 (t0 & R0). eapply J2; eauto.
  - intros t0 p0 I0. specialize (Z1 _ I0). cbn in Z1. rewrite Nat.eqb_refl in Z1. discriminate.
  - intros t0 p0 i0 I0. specialize (Z2 _ I0). cbn in Z2. rewrite Nat.eqb_refl in Z2. discriminate.
Qed.
