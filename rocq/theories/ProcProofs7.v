(** Executions: accepted at most once, started at most once. *)
From Verif Require Import ListUtil Amap ProcModel ProcSpec ProcProofs ProcProofs2 ProcProofs3 ProcProofs4 ProcProofs5 ProcProofs6.
From Verif Require QueueModel QueueSpec SigModel.

Ltac evts K := destruct K as [l N E|f f' r l S SM N E|f c U ID W E|f n r ds res S ID W DS E X|n i c p r S C SB P E|n p j k i e r S E|n p j k e t0 c r S C E|n k c r S C F SB E
    |b p e n j k i r l S B N E|b p e n j r l S B N E|b p n r l c S B N C E].

Lemma in_accepted p e l : In e (accepted p l) <-> exists t, In (EAccept t p e) l.
Proof.
  unfold accepted. rewrite in_flat_map. split.
  - intros (x & I & H). destruct x; cbn in H; try contradiction. destruct (Nat.eqb_spec p p0); [|contradiction]. destruct H as [<-|[]]. subst. eauto.
  - intros (t & I). exists (EAccept t p e). split; [exact I|]. cbn. rewrite Nat.eqb_refl. left. reflexivity.
Qed.
Lemma in_taken p e l : In e (taken p l) <-> exists t, In (ETake t p e) l.
Proof.
  unfold taken. rewrite in_flat_map. split.
  - intros (x & I & H). destruct x; cbn in H; try contradiction. destruct (Nat.eqb_spec p p0); [|contradiction]. destruct H as [<-|[]]. subst. eauto.
  - intros (t & I). exists (ETake t p e). split; [exact I|]. cbn. rewrite Nat.eqb_refl. left. reflexivity.
Qed.
Lemma taken_gone p e l : In e (taken p l) -> In e (gone p l).
Proof.
  intros I. apply in_taken in I as (t & I). unfold gone. apply in_flat_map. exists (ETake t p e). split; [exact I|]. cbn. rewrite Nat.eqb_refl. left. reflexivity.
Qed.
Lemma take_accept st t p e : logged st -> In (ETake t p e) (tr st) -> exists t', In (EAccept t' p e) (tr st).
Proof.
  intros L I. apply in_accepted. destruct (L p) as [A B]. rewrite A, q_order. apply in_or_app. left. rewrite <- B. apply taken_gone, in_taken. eauto.
Qed.

Record inv_exec (st : state) : Prop := {
  x_acc : forall t p n, In (EAccept t p n) (tr st) -> exists c, nth_error (calls st) n = Some (t, c) /\ submits c = true /\ p = target c;
  x_call : forall t n k, In (FCall n k) (stk st t) -> cnt (accepts n) (tr st) = 0 /\ (k <> PInline -> cnt (starts n) (tr st) = 0);
  x_acc1 : forall n, cnt (accepts n) (tr st) <= 1;
  x_inl : forall t p n, In (EStart t p n true) (tr st) -> cnt (accepts n) (tr st) = 0 /\ exists c, nth_error (calls st) n = Some (t, c) /\ submits c = true /\ p = target c;
  x_start : forall t p n, In (EStart t p n false) (tr st) -> In (ETake t p n) (tr st);
  x_got : forall t n p j k e, In (FLoop n p j k (LGot e)) (stk st t) -> In (ETake t p e) (tr st) /\ cnt (starts e) (tr st) = 0;
  x_got1 : forall t t' n n' p p' j j' k k' e, In (FLoop n p j k (LGot e)) (stk st t) -> In (FLoop n' p' j' k' (LGot e)) (stk st t') -> t = t';
  x_start1 : forall e, cnt (starts e) (tr st) <= 1 }.

Lemma accept_cnt st t p e : In (EAccept t p e) (tr st) -> cnt (accepts e) (tr st) <> 0.
Proof. intros I Z. rewrite cnt_in in Z. specialize (Z _ I). cbn in Z. rewrite Nat.eqb_refl in Z. discriminate. Qed.
Lemma never_seen st e : logged st -> inv_exec st -> length (calls st) <= e -> cnt (accepts e) (tr st) = 0 /\ cnt (starts e) (tr st) = 0.
Proof.
  intros L J H. split; apply cnt_in; intros x I; destruct x as [| | |t p e'| | |t p e' i| | | | |]; try reflexivity; cbn; apply Nat.eqb_neq; intros <-.
  - destruct (x_acc _ J _ _ _ I) as (c & E & _). apply nth_lt in E. lia.
  - destruct i.
    + destruct (x_inl _ J _ _ _ I) as (_ & c & E & _). apply nth_lt in E. lia.
    + apply (x_start _ J) in I. destruct (take_accept _ _ _ _ L I) as (t' & I'). destruct (x_acc _ J _ _ _ I') as (c & E & _). apply nth_lt in E. lia.
Qed.

Definition dull (e : event) : bool := match e with EAccept _ _ _ | ETake _ _ _ | EStart _ _ _ _ => false | _ => true end.
Lemma neutral_dull e : neutral e = true -> dull e = true. Proof. destruct e; try discriminate; reflexivity. Qed.
Lemma got_top cs t l n p j k e : good cs t l -> In (FLoop n p j k (LGot e)) l -> exists r, l = FLoop n p j k (LGot e) :: r.
Proof.
  intros G I. destruct l as [|f r]; [destruct I|]. destruct I as [-> |I]; [eauto|]. pose proof (g_chain _ _ _ G) as C. cbn in C. exfalso.
  revert I C. generalize (body_of f). clear G. induction r as [|g r IH]; intros b I C; [destruct I|]. destruct C as [L C]. destruct I as [-> |I]; [exact L|eapply IH; eauto].
Qed.

Lemma exec_silent t st st' s' add : inv_exec st -> (forall t', stk st' t' = upd (stk st) t s' t') -> tr st' = tr st ++ add ->
  (calls st' = calls st \/ exists x, calls st' = calls st ++ [x]) -> (forall e, In e add -> dull e = true) ->
  (forall n k, In (FCall n k) s' -> cnt (accepts n) (tr st) = 0 /\ (k <> PInline -> cnt (starts n) (tr st) = 0)) ->
  (forall n p j k e, In (FLoop n p j k (LGot e)) s' -> In (FLoop n p j k (LGot e)) (stk st t)) -> inv_exec st'.
Proof.
  intros J S T CC D H1 H2.
  assert (ZA : forall n, cnt (accepts n) (tr st') = cnt (accepts n) (tr st)).
  { intros n. rewrite T, cnt_app, (proj2 (cnt_in (accepts n) add)); [lia|]. intros x I. specialize (D x I). destruct x; try reflexivity; discriminate. }
  assert (ZS : forall n, cnt (starts n) (tr st') = cnt (starts n) (tr st)).
  { intros n. rewrite T, cnt_app, (proj2 (cnt_in (starts n) add)); [lia|]. intros x I. specialize (D x I). destruct x; try reflexivity; discriminate. }
  assert (IN : forall x, dull x = false -> In x (tr st') -> In x (tr st)).
  { intros x DX I. rewrite T, in_snoc in I. destruct I as [I|I]; [exact I|]. rewrite (D _ I) in DX. discriminate. }
  assert (IN' : forall x, In x (tr st) -> In x (tr st')) by (intros x I; rewrite T; apply in_or_app; auto).
  assert (CM : forall n x, nth_error (calls st) n = Some x -> nth_error (calls st') n = Some x).
  { intros n x E. destruct CC as [-> |[y ->]]; [exact E|]. rewrite nth_error_app1; auto. eapply nth_lt; eauto. }
  assert (SG : forall t' n p j k e, In (FLoop n p j k (LGot e)) (stk st' t') -> In (FLoop n p j k (LGot e)) (stk st t')).
  { intros t' n p j k e I. rewrite S in I. unfold upd in I. destruct (Nat.eqb_spec t t'); [subst; eapply H2; exact I|exact I]. }
  split.
  - intros t' p n I. destruct (x_acc _ J _ _ _ (IN (EAccept t' p n) eq_refl I)) as (c & E & R). eauto.
  - intros t' n k I. rewrite ZA, ZS. rewrite S in I. unfold upd in I. destruct (Nat.eqb_spec t t'); [apply H1; exact I|eapply (x_call _ J); exact I].
  - intros n. rewrite ZA. apply (x_acc1 _ J).
  - intros t' p n I. rewrite ZA. destruct (x_inl _ J _ _ _ (IN (EStart t' p n true) eq_refl I)) as (A & c & E & R). split; [exact A|eauto].
  - intros t' p n I. apply IN', (x_start _ J), (IN (EStart t' p n false) eq_refl I).
  - intros t' n p j k e I. rewrite ZS. destruct (x_got _ J _ _ _ _ _ _ (SG _ _ _ _ _ _ I)) as [A B]. split; [apply IN'; exact A|exact B].
  - intros t1 t2 n n' p p' j j' k k' e I1 I2. eapply (x_got1 _ J); eapply SG; eauto.
  - intros e. rewrite ZS. apply (x_start1 _ J).
Qed.

Lemma exec_step t h st' : inv_exec (final h) -> evt t (final h) st' -> (exists l, st' = final (h ++ [l])) -> inv_exec st'.
Proof.
  intros J K (lb & R'). pose proof (good_final h) as G. pose proof (logged_final h) as LG. pose proof (logged_final (h ++ [lb])) as LG'. rewrite <- R' in LG'.
  set (st := final h) in *. clearbody st. clear R' lb.
  assert (TL : forall f r, stk st t = f :: r -> (forall n k, In (FCall n k) r -> cnt (accepts n) (tr st) = 0 /\ (k <> PInline -> cnt (starts n) (tr st) = 0))
    /\ (forall n p j k e, In (FLoop n p j k (LGot e)) r -> In (FLoop n p j k (LGot e)) (stk st t))).
  { intros f r S. split; [intros n k I; eapply (x_call _ J t); rewrite S; right; exact I|intros n p j k e I; rewrite S; right; exact I]. }
  evts K.
  - destruct E as (S & T & CC). eapply exec_silent; [exact J|exact S|exact T|auto| | |auto]; [intros e I; apply neutral_dull, N, I|]. intros n k I. eapply (x_call _ J); eauto.
  - destruct E as (S' & T & CC). destruct (TL _ _ S) as [T1 T2]. eapply exec_silent; [exact J|exact S'|exact T|auto| | |]; [intros e I; apply neutral_dull, N, I| |].
    + intros n k [-> |I]; [|apply T1; exact I]. destruct SM as [-> |[(n0 & k0 & k' & -> & [= <- <-] & W & W')|(p & e & m & x & x' & _ & X)]]; [|..|discriminate].
      * eapply (x_call _ J t). rewrite S. left. reflexivity.
      * destruct (x_call _ J t n k0) as [A B]; [rewrite S; left; reflexivity|]. split; [exact A|]. intros _. apply B. intros ->. exact W.
    + intros n p j k e [-> |I]; [|eapply T2; exact I]. destruct SM as [-> |[(n0 & k0 & k' & -> & X & _)|(p' & e' & m & x & x' & _ & X)]]; [rewrite S; left; reflexivity|discriminate..].
  - destruct E as (S' & T & CC). eapply exec_silent; [exact J|exact S'|exact T|right; eauto|intros e [<-|[]]; reflexivity| |].
    + intros n k [-> |I]; [|eapply (x_call _ J); exact I]. cbn in ID. injection ID as ->. destruct (never_seen st (length (calls st)) LG J (le_n _)). auto.
    + intros n p j k e [-> |I]; [destruct W|exact I].
  - destruct E as (S' & T & CC). destruct (TL _ _ S) as [T1 T2]. eapply exec_silent; [exact J|exact S'|exact T|auto| |exact T1|exact T2].
    intros e I. apply in_snoc in I as [I|[<-|[]]]; [|reflexivity]. destruct DS as [-> |(p & es & ->)]; [destruct I|destruct I as [<-|[]]; reflexivity].
  - destruct E as (S' & T & CC). destruct (TL _ _ S) as [T1 T2]. destruct (x_call _ J t n (PPush i)) as [A0 S0]; [rewrite S; left; reflexivity|].
    assert (Z0 : cnt (starts n) (tr st) = 0) by (apply S0; discriminate).
    assert (ZA : forall n', cnt (accepts n') (tr st') = cnt (accepts n') (tr st) + if Nat.eqb n' n then 1 else 0).
    { intros n'. rewrite T, cnt_app, !cnt_cons, cnt_nil. cbn. destruct (Nat.eqb n' n); cbn [b2n]; lia. }
    assert (ZS : forall n', cnt (starts n') (tr st') = cnt (starts n') (tr st)) by (intros n'; rewrite T, cnt_app, !cnt_cons, cnt_nil; cbn; lia).
    assert (NI : forall t' k, In (FCall n k) (stk st' t') -> False).
    { intros t' k I. rewrite S' in I. unfold upd in I. assert (IDS : In n (ids (stk st t))) by (rewrite S; left; reflexivity). destruct (Nat.eqb_spec t t'); [subst t'|].
      - pose proof (g_ids _ _ _ (G t)) as ND. rewrite S in ND. inversion ND as [|a b NN _]. apply NN. apply in_flat_map. eexists. split; [exact I|left; reflexivity].
      - eapply (ids_other st t t' n G IDS); auto. apply in_flat_map. eexists. split; [exact I|left; reflexivity]. }
    assert (SG : forall t' n p j k e, In (FLoop n p j k (LGot e)) (stk st' t') -> In (FLoop n p j k (LGot e)) (stk st t')).
    { intros t' n' p' j k e I. rewrite S' in I. unfold upd in I. destruct (Nat.eqb_spec t t'); [subst; eapply T2; exact I|exact I]. }
    assert (SC : forall t' n k, In (FCall n k) (stk st' t') -> In (FCall n k) (stk st t')).
    { intros t' n' k I. rewrite S' in I. unfold upd in I. destruct (Nat.eqb_spec t t'); [subst; rewrite S; right; exact I|exact I]. }
    split.
    + intros t' p' n' I. rewrite T, in_snoc in I. rewrite CC. destruct I as [I|[I|[I|[]]]]; [eapply (x_acc _ J); eauto| |discriminate]. injection I as <- <- <-. eauto.
    + intros t' n' k I. rewrite ZA, ZS. destruct (Nat.eqb_spec n' n); [subst; exfalso; eapply NI; eauto|]. rewrite Nat.add_0_r. eapply (x_call _ J). eapply SC; eauto.
    + intros n'. rewrite ZA. pose proof (x_acc1 _ J n'). destruct (Nat.eqb_spec n' n); [subst|]; lia.
    + intros t' p' n' I. rewrite T, in_snoc in I. destruct I as [I|[I|[I|[]]]]; try discriminate. rewrite ZA, CC. destruct (x_inl _ J _ _ _ I) as [A B]. split; [|exact B].
      destruct (Nat.eqb_spec n' n); [|lia]. subst. exfalso. rewrite cnt_in in Z0. specialize (Z0 _ I). cbn in Z0. rewrite Nat.eqb_refl in Z0. discriminate.
    + intros t' p' n' I. rewrite T, in_snoc in I. destruct I as [I|[I|[I|[]]]]; try discriminate. rewrite T. apply in_or_app. left. apply (x_start _ J). exact I.
    + intros t' n' p' j k e I. rewrite ZS. destruct (x_got _ J _ _ _ _ _ _ (SG _ _ _ _ _ _ I)) as [A B]. split; [rewrite T; apply in_or_app; auto|exact B].
    + intros t1 t2 n1 n2 p1 p2 j1 j2 k1 k2 e I1 I2. eapply (x_got1 _ J); eapply SG; eauto.
    + intros e. rewrite ZS. apply (x_start1 _ J).
  - destruct E as (S' & T & CC). destruct (TL _ _ S) as [T1 T2].
    assert (ZA : forall n', cnt (accepts n') (tr st') = cnt (accepts n') (tr st)) by (intros n'; rewrite T, cnt_app, !cnt_cons, cnt_nil; cbn; lia).
    assert (ZS : forall n', cnt (starts n') (tr st') = cnt (starts n') (tr st)) by (intros n'; rewrite T, cnt_app, !cnt_cons, cnt_nil; cbn; lia).
    assert (AC : exists ta c, In (EAccept ta p e) (tr st) /\ nth_error (calls st) e = Some (ta, c) /\ p = target c).
    { destruct (take_accept st' t p e LG') as (ta & I); [rewrite T; apply in_or_app; right; left; reflexivity|]. rewrite T, in_snoc in I. destruct I as [I|[I|[]]]; [|discriminate].
      destruct (x_acc _ J _ _ _ I) as (c & E & _ & E2). eauto 6. }
    assert (NT : forall t' p', In (ETake t' p' e) (tr st) -> False).
    { intros t' p' I. destruct AC as (ta & c & AI & AC & PC). destruct (take_accept _ _ _ _ LG I) as (tb & BI). destruct (x_acc _ J _ _ _ BI) as (c' & BC & _ & PC').
      assert (c' = c) by congruence. subst c'. assert (PP : p' = p) by congruence. rewrite PP in I.
      destruct (LG' p) as [A B]. pose proof (q_order (queue st' p)) as O. rewrite <- A, <- B in O. rewrite T in O. rewrite accepted_app, gone_app in O. cbn in O. rewrite Nat.eqb_refl, app_nil_r in O. 
      assert (TW : 2 <= cnt (Nat.eqb e) (accepted p (tr st))).
      { rewrite O, !cnt_app, cnt_cons, Nat.eqb_refl. cbn [b2n]. assert (1 <= cnt (Nat.eqb e) (gone p (tr st))); [|lia]. apply cnt_pos with (x := e); [|apply Nat.eqb_refl]. apply taken_gone, in_taken. eauto. }
      assert (LE : cnt (Nat.eqb e) (accepted p (tr st)) <= cnt (accepts e) (tr st)).
      { clear. generalize (tr st). intros l. induction l as [|x l IH]; [cbn; rewrite !cnt_nil; lia|]. change (accepted p (x :: l)) with (accept_of p x ++ accepted p l).
        rewrite cnt_app, cnt_cons. assert (cnt (Nat.eqb e) (accept_of p x) <= b2n (accepts e x)); [|lia].
        destruct x; cbn; rewrite ?cnt_nil; try lia. destruct (Nat.eqb p p0); rewrite ?cnt_cons, ?cnt_nil; [|lia]. destruct (Nat.eqb e e0); cbn; lia. }
      pose proof (x_acc1 _ J e). lia. }
    assert (S0 : cnt (starts e) (tr st) = 0).
    { apply cnt_in. intros x I. destruct x as [| | | | | |t' p' e' i'| | | | |]; try reflexivity. cbn. apply Nat.eqb_neq. intros <-. destruct i'.
      - destruct (x_inl _ J _ _ _ I) as [Z _]. destruct AC as (ta & c & AI & _). eapply accept_cnt; eauto.
      - apply (x_start _ J) in I. eapply NT; eauto. }
    assert (NG : forall t' n p j k, In (FLoop n p j k (LGot e)) (stk st t') -> False).
    { intros t' n' p' j' k' I. destruct (x_got _ J _ _ _ _ _ _ I) as [H _]. eapply NT; eauto. }
    assert (SG : forall t' n p j k e', In (FLoop n p j k (LGot e')) (stk st' t') -> In (FLoop n p j k (LGot e')) (stk st t') \/ (e' = e /\ t' = t)).
    { intros t' n' p' j' k' e' I. rewrite S' in I. unfold upd in I. destruct (Nat.eqb_spec t t'); [subst t'|auto]. destruct I as [I|I]; [injection I as <- <- <- <- <-; auto|left; eapply T2; exact I]. }
    split.
    + intros t' p' n' I. rewrite T, in_snoc in I. rewrite CC. destruct I as [I|[I|[]]]; [eapply (x_acc _ J); eauto|discriminate].
    + intros t' n' k' I. rewrite ZA, ZS. rewrite S' in I. unfold upd in I. destruct (Nat.eqb_spec t t'); [subst t'|eapply (x_call _ J); eauto]. destruct I as [I|I]; [discriminate|apply T1; exact I].
    + intros n'. rewrite ZA. apply (x_acc1 _ J).
    + intros t' p' n' I. rewrite T, in_snoc in I. destruct I as [I|[I|[]]]; [|discriminate]. rewrite ZA, CC. apply (x_inl _ J _ _ _ I).
    + intros t' p' n' I. rewrite T, in_snoc in I. destruct I as [I|[I|[]]]; [|discriminate]. rewrite T. apply in_or_app. left. apply (x_start _ J). exact I.
    + intros t' n' p' j' k' e' I. rewrite ZS. rewrite T, in_snoc. rewrite S' in I. unfold upd in I. destruct (Nat.eqb_spec t t'); [subst t'|destruct (x_got _ J _ _ _ _ _ _ I); auto].
      destruct I as [I|I]; [|destruct (x_got _ J _ _ _ _ _ _ (T2 _ _ _ _ _ I)); auto]. injection I as <- <- <- <- <-. split; [right; left; reflexivity|exact S0].
    + intros t1 t2 n1 n2 p1 p2 j1 j2 k1 k2 e' I1 I2. apply SG in I1, I2. destruct I1 as [I1|[-> ->]], I2 as [I2|[E2 ->]]; auto.
      * eapply (x_got1 _ J); eauto.
      * subst. exfalso. eapply NG; eauto.
      * exfalso. eapply NG; eauto.
    + intros e'. rewrite ZS. apply (x_start1 _ J).
  - destruct E as (S' & T & CC). destruct (TL _ _ S) as [T1 T2]. destruct (x_got _ J t n p j k e) as [TK S0]; [rewrite S; left; reflexivity|].
    assert (ZA : forall n', cnt (accepts n') (tr st') = cnt (accepts n') (tr st)) by (intros n'; rewrite T, cnt_app, !cnt_cons, cnt_nil; cbn; lia).
    assert (ZS : forall n', cnt (starts n') (tr st') = cnt (starts n') (tr st) + if Nat.eqb n' e then 1 else 0).
    { intros n'. rewrite T, cnt_app, !cnt_cons, cnt_nil. cbn. destruct (Nat.eqb n' e); cbn [b2n]; lia. }
    assert (SG : forall t' n' p' j' k' e', In (FLoop n' p' j' k' (LGot e')) (stk st' t') -> In (FLoop n' p' j' k' (LGot e')) (stk st t') /\ e' <> e).
    { intros t' n' p' j' k' e' I. rewrite S' in I. unfold upd in I. destruct (Nat.eqb_spec t t'); [subst t'|].
      - destruct I as [I|[I|I]]; [destruct c; discriminate|discriminate|]. exfalso. pose proof (G t) as GT. rewrite S in GT. destruct (got_top _ _ _ n' p' j' k' e' GT) as (r' & X); [right; exact I|].
        injection X as <- <- <- <- <- <-. pose proof (g_ids _ _ _ GT) as ND. inversion ND as [|a b NN _]. apply NN. apply in_flat_map. eexists. split; [exact I|left; reflexivity].
      - split; [exact I|]. intros ->. apply n0. eapply (x_got1 _ J t t'); [rewrite S; left; reflexivity|exact I]. }
    assert (SC : forall t' n k, In (FCall n k) (stk st' t') -> In (FCall n k) (stk st t')).
    { intros t' n' k' I. rewrite S' in I. unfold upd in I. destruct (Nat.eqb_spec t t'); [subst t'|exact I]. destruct I as [I|[I|I]]; [destruct c; discriminate|discriminate|]. rewrite S. right. exact I. }
    destruct (take_accept _ _ _ _ LG TK) as (ta & AI). pose proof (accept_cnt _ _ _ _ AI) as AN.
    split.
    + intros t' p' n' I. rewrite T, in_snoc in I. rewrite CC. destruct I as [I|[I|[]]]; [eapply (x_acc _ J); eauto|discriminate].
    + intros t' n' k' I. rewrite ZA, ZS. apply SC in I. destruct (x_call _ J _ _ _ I) as [A B]. split; [exact A|]. intros X. destruct (Nat.eqb_spec n' e); [subst; contradiction|]. rewrite B; auto.
    + intros n'. rewrite ZA. apply (x_acc1 _ J).
    + intros t' p' n' I. rewrite T, in_snoc in I. destruct I as [I|[I|[]]]; [|discriminate]. rewrite ZA, CC. apply (x_inl _ J _ _ _ I).
    + intros t' p' n' I. rewrite T, in_snoc in I. rewrite T. apply in_or_app. left. destruct I as [I|[I|[]]]; [apply (x_start _ J); exact I|]. injection I as <- <- <-. exact TK.
    + intros t' n' p' j' k' e' I. rewrite ZS, T, in_snoc. apply SG in I as [I NE]. destruct (x_got _ J _ _ _ _ _ _ I) as [A B]. split; [auto|]. destruct (Nat.eqb_spec e' e); [contradiction|lia].
    + intros t1 t2 n1 n2 p1 p2 j1 j2 k1 k2 e' I1 I2. apply SG in I1 as [I1 _], I2 as [I2 _]. eapply (x_got1 _ J); eauto.
    + intros e'. rewrite ZS. pose proof (x_start1 _ J e'). destruct (Nat.eqb_spec e' e); [subst|]; lia.
  - destruct E as (S' & T & CC). destruct (TL _ _ S) as [T1 T2]. destruct (x_call _ J t n k) as [A0 S0]; [rewrite S; left; reflexivity|].
    assert (Z0 : cnt (starts n) (tr st) = 0) by (apply S0; destruct k; discriminate).
    assert (ZA : forall n', cnt (accepts n') (tr st') = cnt (accepts n') (tr st)) by (intros n'; rewrite T, cnt_app, !cnt_cons, cnt_nil; cbn; lia).
    assert (ZS : forall n', cnt (starts n') (tr st') = cnt (starts n') (tr st) + if Nat.eqb n' n then 1 else 0).
    { intros n'. rewrite T, cnt_app, !cnt_cons, cnt_nil. cbn. destruct (Nat.eqb n' n); cbn [b2n]; lia. }
    assert (SG : forall t' n p j k e', In (FLoop n p j k (LGot e')) (stk st' t') -> In (FLoop n p j k (LGot e')) (stk st t')).
    { intros t' n' p' j' k' e' I. rewrite S' in I. unfold upd in I. destruct (Nat.eqb_spec t t'); [subst t'|exact I]. destruct I as [I|[I|I]]; [destruct c; discriminate|discriminate|eapply T2; exact I]. }
    assert (NG : forall t' n' p j k, In (FLoop n' p j k (LGot n)) (stk st t') -> False).
    { intros t' n' p' j' k' I. destruct (x_got _ J _ _ _ _ _ _ I) as [H _]. destruct (take_accept _ _ _ _ LG H) as (ta & AI). eapply accept_cnt; eauto. }
    assert (NI : forall t' k, In (FCall n k) (stk st' t') -> k = PInline).
    { intros t' k' I. rewrite S' in I. unfold upd in I. assert (IDS : In n (ids (stk st t))) by (rewrite S; left; reflexivity). destruct (Nat.eqb_spec t t'); [subst t'|].
      - destruct I as [I|[I|I]]; [destruct c; discriminate|congruence|]. exfalso.
        pose proof (g_ids _ _ _ (G t)) as ND. rewrite S in ND. inversion ND as [|a b NN _]. apply NN. apply in_flat_map. eexists. split; [exact I|left; reflexivity].
      - exfalso. eapply (ids_other st t t' n G IDS); auto. apply in_flat_map. eexists. split; [exact I|left; reflexivity]. }
    assert (SC : forall t' n' k, n' <> n -> In (FCall n' k) (stk st' t') -> In (FCall n' k) (stk st t')).
    { intros t' n' k' NE I. rewrite S' in I. unfold upd in I. destruct (Nat.eqb_spec t t'); [subst t'|exact I]. destruct I as [I|[I|I]]; [destruct c; discriminate|congruence|]. rewrite S. right. exact I. }
    split.
    + intros t' p' n' I. rewrite T, in_snoc in I. rewrite CC. destruct I as [I|[I|[]]]; [eapply (x_acc _ J); eauto|discriminate].
    + intros t' n' k' I. rewrite ZA, ZS. destruct (Nat.eqb_spec n' n).
      * subst n'. split; [exact A0|]. intros X. apply NI in I. contradiction.
      * rewrite Nat.add_0_r. apply SC in I; [|exact n0]. eapply (x_call _ J); eauto.
    + intros n'. rewrite ZA. apply (x_acc1 _ J).
    + intros t' p' n' I. rewrite T, in_snoc in I. rewrite ZA, CC. destruct I as [I|[I|[]]]; [apply (x_inl _ J _ _ _ I)|]. injection I as <- <- <-. split; [exact A0|eauto].
    + intros t' p' n' I. rewrite T, in_snoc in I. rewrite T. apply in_or_app. left. destruct I as [I|[I|[]]]; [apply (x_start _ J); exact I|discriminate].
    + intros t' n' p' j' k' e' I. rewrite ZS, T, in_snoc. apply SG in I. destruct (x_got _ J _ _ _ _ _ _ I) as [A B]. split; [auto|]. destruct (Nat.eqb_spec e' n); [|lia]. subst. exfalso. eapply NG; eauto.
    + intros t1 t2 n1 n2 p1 p2 j1 j2 k1 k2 e' I1 I2. apply SG in I1, I2. eapply (x_got1 _ J); eauto.
    + intros e'. rewrite ZS. pose proof (x_start1 _ J e'). destruct (Nat.eqb_spec e' n); [subst|]; lia.
  - destruct E as (S' & T & CC). destruct (TL _ _ S) as [T1 T2]. eapply exec_silent; [exact J|exact S'|exact T|auto| | |].
    + intros x I. apply in_snoc in I as [I|[<-|[]]]; [apply neutral_dull, N, I|reflexivity].
    + intros n' k' [I|I]; [discriminate|]. apply T1. right. exact I.
    + intros n' p' j' k' e' [I|I]; [discriminate|]. apply T2. right. exact I.
  - destruct E as (S' & T & CC). destruct (TL _ _ S) as [T1 T2]. eapply exec_silent; [exact J|exact S'|exact T|auto| | |].
    + intros x I. apply in_snoc in I as [I|[<-|[<-|[]]]]; [apply neutral_dull, N, I|reflexivity|reflexivity].
    + intros n' k' I. apply T1. right. exact I.
    + intros n' p' j' k' e' I. apply T2. right. exact I.
  - destruct E as (S' & T & CC). destruct (TL _ _ S) as [T1 T2]. eapply exec_silent; [exact J|exact S'|exact T|auto| | |].
    + intros x I. apply in_snoc in I as [I|[<-|[<-|[]]]]; [apply neutral_dull, N, I|reflexivity|reflexivity].
    + intros n' k' I. apply T1. right. exact I.
    + intros n' p' j' k' e' I. apply T2. right. exact I.
Qed.
Lemma exec_final h : inv_exec (final h).
Proof.
  apply steps_ind; [|intros; eapply exec_step; eauto]. split; cbn; intros; try tauto; rewrite ?cnt_nil; auto; try lia.
Qed.

(** Accepted at most once. *)
Lemma cnt_nodup (l : list nat) : (forall e, cnt (Nat.eqb e) l <= 1) -> NoDup l.
Proof.
  induction l as [|x l IH]; intros H; constructor.
  - intros I. specialize (H x). rewrite cnt_cons, Nat.eqb_refl in H. cbn [b2n] in H. assert (1 <= cnt (Nat.eqb x) l) by (eapply cnt_pos; [exact I|apply Nat.eqb_refl]). lia.
  - apply IH. intros e. specialize (H e). rewrite cnt_cons in H. lia.
Qed.
Lemma cnt_accepted p e l : cnt (Nat.eqb e) (accepted p l) <= cnt (accepts e) l.
Proof.
  induction l as [|x l IH]; [cbn; rewrite !cnt_nil; lia|]. change (accepted p (x :: l)) with (accept_of p x ++ accepted p l).
  rewrite cnt_app, cnt_cons. assert (cnt (Nat.eqb e) (accept_of p x) <= b2n (accepts e x)); [|lia].
  destruct x; cbn; rewrite ?cnt_nil; try lia. destruct (Nat.eqb p p0); rewrite ?cnt_cons, ?cnt_nil; [|lia]. destruct (Nat.eqb e e0); cbn; lia.
Qed.
Lemma accepted_once h p : NoDup (accepted p (trace h)).
Proof. apply cnt_nodup. intros e. pose proof (cnt_accepted p e (trace h)). pose proof (x_acc1 _ (exec_final h) e). unfold trace in *. lia. Qed.
Lemma started_taken h t p e : In (EStart t p e false) (trace h) -> In (ETake t p e) (trace h).
Proof. apply (x_start _ (exec_final h)). Qed.
Lemma started_once h e : cnt (starts e) (trace h) <= 1.
Proof. apply (x_start1 _ (exec_final h)). Qed.
Lemma accepted_of h t p e : In (EAccept t p e) (trace h) -> exists c, called h t e c /\ submits c = true /\ target c = p.
Proof. intros I. destruct (x_acc _ (exec_final h) _ _ _ I) as (c & E & A & B). exists c. split; [apply (c_in _ (calls_final h)); exact E|auto]. Qed.
