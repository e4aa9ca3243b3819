(** csmgmt: shutting down. *)
From Verif Require Import ListUtil FacModel FacSpec FacProofs FacProofs2.

Definition closing (s : st) (t : nat) (r : role) (acts : list action) : Prop :=
  exists rs rest, nth_error (calls s) t = Some (CShut rs, PClosing r acts rest).
Definition in_memo (s : st) (r : role) (o : nat) : Prop := exists ty a, In (ty, a, o) (memo (side s r)).

Record closeI (s : st) (tr : list event) : Prop := {
  z_lock : forall t r acts, closing s t r acts -> locked (side s r) = true;
  z_one : forall t t' r acts acts', closing s t r acts -> closing s t' r acts' -> t = t';
  z_who : forall r, locked (side s r) = true -> exists t acts, closing s t r acts;
  z_stop : forall t r acts o, closing s t r acts -> in_memo s r o -> In (AStop o) acts \/ In (EStop r o) tr;
  z_dein : forall t r acts o, closing s t r acts -> in_memo s r o -> In (ADeinit o) acts \/ In (EDeinit r o) tr;
  z_order : forall t r acts a1 o a2, closing s t r acts -> acts = a1 ++ ADeinit o :: a2 -> In (AStop o) a1 \/ In (EStop r o) tr;
  z_after : forall r o l1 l2, tr = l1 ++ EDeinit r o :: l2 -> In (EStop r o) l1;
  z_closed : forall r o, In (EStart r o) tr -> in_memo s r o \/ In (EStop r o) tr /\ In (EDeinit r o) tr;
  z_client : forall ty a o, serves tr Client ty a o -> In (ty, a, o) (memo (side s Client));
  z_late : forall r o sid k, In (o, sid, k) (kids (side s r)) -> 1 <= o -> in_memo s r o \/ made_too_late tr r k o sid;
  z_late2 : forall t r acts o sid k, closing s t r acts -> In (o, sid, k) (kids (side s r)) -> 1 <= o ->
    In (ADeinit o) acts \/ made_too_late tr r k o sid }.

Lemma late_more tr ev r k o sid : made_too_late tr r k o sid -> made_too_late (tr ++ ev) r k o sid.
Proof. intros (l1 & l2 & -> & H). exists l1, (l2 ++ ev). rewrite <- app_assoc. auto. Qed.
Lemma app_split {A} (tr ev l1 l2 : list A) e : tr ++ ev = l1 ++ e :: l2 ->
  (exists l2', tr = l1 ++ e :: l2') \/ (exists l3, l1 = tr ++ l3 /\ ev = l3 ++ e :: l2).
Proof.
  revert l1. induction tr as [|x tr IH]; intros l1 H; cbn in H.
  - right. exists l1. auto.
  - destruct l1 as [|y l1]; cbn in H; injection H as Hx H.
    + subst. left. exists tr. reflexivity.
    + subst y. apply IH in H as [[l2' ->]|[l3 [-> ->]]]; [left; exists l2'; reflexivity|right; exists l3; auto].
Qed.

Definition dull (e : event) : Prop := match e with EInit _ _ _ _ false | EGot _ _ | EShut _ => True | _ => False end.
Lemma close_frame s s' tr ev : closeI s tr -> (forall t r acts, closing s' t r acts <-> closing s t r acts) ->
  (forall r, memo (side s' r) = memo (side s r) /\ kids (side s' r) = kids (side s r) /\ locked (side s' r) = locked (side s r)) ->
  (forall e, In e ev -> dull e) -> closeI s' (tr ++ ev).
Proof.
  intros I Hc Hs He. destruct I as [Z1 Z2 Z3 Z4 Z5 Z6 Z7 Z8 Z9 Z10 Z11].
  assert (Hm : forall r o, in_memo s' r o <-> in_memo s r o) by (intros; unfold in_memo; destruct (Hs r) as [-> _]; reflexivity).
  constructor; intros.
  - apply Hc in H. destruct (Hs r) as [_ [_ ->]]. eauto.
  - apply Hc in H, H0. eauto.
  - destruct (Hs r) as [_ [_ E]]. rewrite E in H. destruct (Z3 _ H) as (t & acts & Ht). exists t, acts. now apply Hc.
  - apply Hc in H. apply Hm in H0. destruct (Z4 _ _ _ _ H H0); [auto|right; apply in_or_app; auto].
  - apply Hc in H. apply Hm in H0. destruct (Z5 _ _ _ _ H H0); [auto|right; apply in_or_app; auto].
  - apply Hc in H. destruct (Z6 _ _ _ _ _ _ H H0); [auto|right; apply in_or_app; auto].
  - apply app_split in H as [[l2' H]|[l3 [-> H]]]; [eauto|].
    exfalso. assert (Hd : dull (EDeinit r o)) by (apply He; rewrite H; apply in_elt). exact Hd.
  - apply in_app_iff in H as [H|H]; [|apply He in H; contradiction]. destruct (Z8 _ _ H) as [H1|[H1 H2]]; [left; now apply Hm|].
    right. split; apply in_or_app; auto.
  - unfold serves in *. apply in_app_iff in H as [H|H]; [|apply He in H; contradiction]. destruct (Hs Client) as [-> _]. auto.
  - destruct (Hs r) as [_ [E _]]. rewrite E in H. destruct (Z10 _ _ _ _ H H0); [left; now apply Hm|right; now apply late_more].
  - destruct (Hs r) as [_ [E _]]. rewrite E in H0. apply Hc in H. destruct (Z11 _ _ _ _ _ _ H H0 H1); [auto|right; now apply late_more].
Qed.

(** Steps of a call that is not closing do not change who is. *)
Lemma closing_same s s' t c p0 p : nth_error (calls s) t = Some (c, p0) -> calls s' = set_nth t (c, p) (calls s) ->
  (match p0 with PClosing _ _ _ => False | _ => True end) -> (match p with PClosing _ _ _ => False | _ => True end) ->
  forall t' r acts, closing s' t' r acts <-> closing s t' r acts.
Proof.
  intros Hn Hc H0 H1 t' r acts. unfold closing. rewrite Hc. assert (Hlt := nth_lt _ _ _ Hn).
  destruct (Nat.eq_dec t' t) as [->|Hne].
  - rewrite nth_set_same by assumption. split; intros (rs & rest & E); [inversion E; subst; contradiction|].
    rewrite Hn in E. inversion E; subst. contradiction.
  - rewrite nth_set_other by congruence. reflexivity.
Qed.
(** ... and steps of one that is. *)
Lemma closing_next s s' t c x r0 acts0 rest0 : nth_error (calls s) t = Some x ->
  calls s' = set_nth t (CShut c, PClosing r0 acts0 rest0) (calls s) ->
  forall t' r acts, closing s' t' r acts -> (t' = t /\ r = r0 /\ acts = acts0) \/ (t' <> t /\ closing s t' r acts).
Proof.
  intros Hn Hc t' r acts (rs & rest & E). rewrite Hc in E. assert (Hlt := nth_lt _ _ _ Hn).
  destruct (Nat.eq_dec t' t) as [->|Hne].
  - rewrite nth_set_same in E by assumption. inversion E; subst. auto.
  - rewrite nth_set_other in E by congruence. right. split; [exact Hne|]. exists rs, rest. exact E.
Qed.

Ltac sidec r := let E := fresh "E" in rewrite ?side_set, ?side_at in *; cbn [side] in *;
  destruct (role_eqb Client r) eqn:E; [apply role_eqb_eq in E; subst r|]; cbn [memo nobjs kids nkids locked add_memo set_nobjs set_locked add_kid clear_memo] in *.
Ltac same H := eapply (closing_same _ _ _ _ _ _ H); [reflexivity|exact Logic.I|exact Logic.I].
Lemma of_type_in ty m o : In o (of_type ty m) <-> exists a, In (ty, a, o) m.
Proof.
  unfold of_type. rewrite in_map_iff. split.
  - intros [[[ty' a] o'] [E H]]. cbn in E. subst o'. apply filter_In in H as [H E]. cbn in E. apply ctype_eqb_eq in E. subst. eauto.
  - intros [a H]. exists (ty, a, o). split; [reflexivity|]. apply filter_In. split; [exact H|]. apply ctype_eqb_refl.
Qed.
Lemma plan_has m ty a o : In (ty, a, o) m -> ty <> OtherType -> In (AStop o) (plan m) /\ In (ADeinit o) (plan m).
Proof.
  intros H Hty. assert (Ho : In o (of_type ty m)) by (apply of_type_in; eauto). unfold plan.
  destruct ty; [| |congruence]; split; rewrite !in_app_iff; first [left; left; apply in_map; exact Ho|left; right; apply in_map; exact Ho
    |right; left; apply in_map; exact Ho|right; right; apply in_map; exact Ho].
Qed.
Lemma two_order l a1 o a2 : map AStop l ++ map ADeinit l = a1 ++ ADeinit o :: a2 -> In (AStop o) a1.
Proof.
  intro H. apply app_split in H as [[l2' H]|[l3 [-> H]]].
  - assert (Hi : In (ADeinit o) (map AStop l)) by (rewrite H; apply in_elt). apply in_map_iff in Hi as [x [E _]]. discriminate.
  - assert (Hi : In (ADeinit o) (map ADeinit l)) by (rewrite H; apply in_elt). apply in_map_iff in Hi as [x [E Hx]].
    inversion E; subst. apply in_or_app. left. apply in_map. exact Hx.
Qed.
Lemma plan_order m a1 o a2 : plan m = a1 ++ ADeinit o :: a2 -> In (AStop o) a1.
Proof.
  unfold plan. cbv zeta. intro H. apply app_split in H as [[l2' H]|[l3 [-> H]]].
  - eapply two_order; eauto.
  - apply in_or_app. right. eapply two_order; eauto.
Qed.

Lemma memo_type s tr r ty a o : objs s tr -> In (ty, a, o) (memo (side s r)) -> ty <> OtherType.
Proof. intros I H. apply (o_memo _ _ I) in H as [H _]. apply (o_init _ _ I) in H. intros ->. exact H. Qed.

Lemma made_late s tr k r o sid : closeI s tr -> objs s tr -> In (EStart r o) tr ->
  forall t acts, closing s t r acts -> In (ADeinit o) acts \/ made_too_late (tr ++ [EMade r k o sid]) r k o sid.
Proof.
  intros I Ob Hs t acts Hc. destruct (z_closed _ _ I _ _ Hs) as [Hm|[_ Hd]].
  - destruct (z_dein _ _ I _ _ _ _ Hc Hm) as [Hd|Hd]; [auto|]. right. exists tr, []. auto.
  - right. exists tr, []. auto.
Qed.

Lemma close_step s l s' ev tr : inv s tr -> closeI s tr -> pstep s l s' ev -> closeI s' (tr ++ ev).
Proof.
  intros [Ob K C] I Hp. destruct Hp.
  - apply (close_frame s); auto; [reflexivity|intros e []].
  - apply (close_frame s); auto; [|intros e []]. intros t r acts. unfold closing. cbn [calls].
    destruct (lt_dec t (length (calls s))).
    + rewrite nth_error_app1 by assumption. reflexivity.
    + rewrite nth_error_app2 by lia. assert (E : nth_error (calls s) t = None) by (apply nth_error_None; lia). rewrite E.
      split; intros (rs & rest & E'); [|discriminate]. destruct (t - length (calls s)) as [|[]]; cbn in E'; discriminate.
  - apply (close_frame s); auto; [|intros e []]. same H.
  - (* XNew *)
    assert (Hc : forall t' r' acts, closing (at_pc (set_side s r (add_memo (side s r) ty a o n)) t (CGet r ty a sid) (PHave o)) t' r' acts <->
              closing s t' r' acts) by same H.
    assert (Hnc : forall t' acts, ~ closing s t' r acts).
    { intros t' acts Hx. apply (z_lock _ _ I) in Hx. congruence. }
    set (s' := at_pc _ _ _ _) in *.
    assert (Hm : forall r' o', in_memo s r' o' -> in_memo s' r' o').
    { intros r' o' (ty' & a' & Hin). exists ty', a'. unfold s'. sides r' r; [apply in_or_app; auto|exact Hin]. }
    assert (Hm2 : forall r' o', r' <> r -> in_memo s' r' o' -> in_memo s r' o').
    { intros r' o' Hne (ty' & a' & Hin). exists ty', a'. unfold s' in Hin. sides r' r; [congruence|exact Hin]. }
    assert (Hk : forall r', kids (side s' r') = kids (side s r')) by (intro r'; unfold s'; sides r' r; reflexivity).
    destruct I as [Z1 Z2 Z3 Z4 Z5 Z6 Z7 Z8 Z9 Z10 Z11]. constructor; intros.
    + apply Hc in H3. unfold s'. sides r0 r; [destruct (Hnc _ _ H3)|eauto].
    + apply Hc in H3, H4. eauto.
    + assert (Hl : locked (side s r0) = true) by (unfold s' in H3; sides r0 r; exact H3).
      destruct (Z3 _ Hl) as (t' & acts & Ht). exists t', acts. now apply Hc.
    + apply Hc in H3. assert (r0 <> r) by (intros ->; exact (Hnc _ _ H3)). apply Hm2 in H4; [|assumption].
      destruct (Z4 _ _ _ _ H3 H4); [auto|right; apply in_or_app; auto].
    + apply Hc in H3. assert (r0 <> r) by (intros ->; exact (Hnc _ _ H3)). apply Hm2 in H4; [|assumption].
      destruct (Z5 _ _ _ _ H3 H4); [auto|right; apply in_or_app; auto].
    + apply Hc in H3. destruct (Z6 _ _ _ _ _ _ H3 H4); [auto|right; apply in_or_app; auto].
    + apply app_split in H3 as [[l2' H3]|[l3 [-> H3]]]; [eauto|].
      assert (Hi : In (EDeinit r0 o0) [EInit r ty a o true; EStart r o]) by (rewrite H3; apply in_elt). dis Hi.
    + dis H3.
      * destruct (Z8 _ _ H3) as [|[? ?]]; [auto|]. right. split; apply in_or_app; auto.
      * inversion H3; subst. left. exists ty, a. unfold s'. rewrite side_set, role_eqb_refl. cbn. apply in_or_app. right. now left.
    + unfold serves in *. dis H3.
      * unfold s'. specialize (Z9 _ _ _ H3). sidec r; [apply in_or_app; auto|exact Z9].
      * inversion H3; subst. unfold s'. rewrite side_set. cbn. apply in_or_app. right. now left.
    + rewrite Hk in H3. destruct (Z10 _ _ _ _ H3 H4); [auto|right; now apply late_more].
    + rewrite Hk in H4. apply Hc in H3. destruct (Z11 _ _ _ _ _ _ H3 H4 H5); [auto|right; now apply late_more].
  - apply (close_frame s); auto.
    + same H.
    + intro r'. sides r' r; auto.
    + intros e He. cbn in He. destruct He as [<-|[<-|[]]]; exact Logic.I.
  - apply (close_frame s); auto; [same H|].
    intros e He. cbn in He. destruct He as [<-|[]]; exact Logic.I.
  - apply (close_frame s); auto; [same H|].
    intros e He. cbn in He. destruct He as [<-|[]]; exact Logic.I.
  - (* XMade *)
    destruct (c_have _ _ C _ _ _ _ _ _ H) as [_ Hst].
    assert (Hml := made_late _ _ k _ _ sid I Ob Hst).
    assert (Hc : forall t' r' acts, closing (at_pc (set_side s r (add_kid (side s r) o sid)) t (CGet r ty a sid) PDone) t' r' acts <->
              closing s t' r' acts) by same H.
    set (s' := at_pc _ _ _ _) in *.
    assert (Hm : forall r' o', in_memo s' r' o' <-> in_memo s r' o').
    { intros r' o'. unfold in_memo, s'. sides r' r; reflexivity. }
    assert (Hk : forall r' o' sid' k', In (o', sid', k') (kids (side s' r')) ->
              In (o', sid', k') (kids (side s r')) \/ (r' = r /\ o' = o /\ sid' = sid /\ k' = k)).
    { intros r' o' sid' k' Hin. unfold s' in Hin. sides r' r; [|auto]. apply in_app_iff in Hin as [Hin|[Hin|[]]]; [auto|].
      inversion Hin; subst. auto. }
    assert (I' := I). destruct I' as [Z1 Z2 Z3 Z4 Z5 Z6 Z7 Z8 Z9 Z10 Z11]. constructor; intros.
    + apply Hc in H2. unfold s'. apply Z1 in H2. sides r0 r; exact H2.
    + apply Hc in H2, H3. eauto.
    + assert (Hl : locked (side s r0) = true) by (unfold s' in H2; sides r0 r; exact H2).
      destruct (Z3 _ Hl) as (t' & acts & Ht). exists t', acts. now apply Hc.
    + apply Hc in H2. apply Hm in H3. destruct (Z4 _ _ _ _ H2 H3); [auto|right; apply in_or_app; auto].
    + apply Hc in H2. apply Hm in H3. destruct (Z5 _ _ _ _ H2 H3); [auto|right; apply in_or_app; auto].
    + apply Hc in H2. destruct (Z6 _ _ _ _ _ _ H2 H3); [auto|right; apply in_or_app; auto].
    + apply app_split in H2 as [[l2' H2]|[l3 [-> H2]]]; [eauto|].
      assert (Hi : In (EDeinit r0 o0) [EMade r k o sid; EGot t (Some k)]) by (rewrite H2; apply in_elt). dis Hi.
    + dis H2. destruct (Z8 _ _ H2) as [|[? ?]]; [left; now apply Hm|]. right. split; apply in_or_app; auto.
    + unfold serves in *. dis H2. unfold s'. specialize (Z9 _ _ _ H2). sidec r; exact Z9.
    + apply Hk in H2 as [H2|(-> & -> & -> & ->)].
      * destruct (Z10 _ _ _ _ H2 H3); [left; now apply Hm|right; now apply late_more].
      * destruct (Z8 _ _ Hst) as [Hx|[_ Hx]]; [left; now apply Hm|]. right. exists tr, [EGot t (Some (nkids (side s r)))].
        rewrite <- H1. auto.
    + apply Hc in H2. apply Hk in H3 as [H3|(-> & -> & -> & ->)].
      * destruct (Z11 _ _ _ _ _ _ H2 H3 H4); [auto|right; now apply late_more].
      * destruct (Hml _ _ H2) as [Hx|Hx]; [auto|]. right. apply (late_more _ [EGot t (Some k)]) in Hx. rewrite <- app_assoc in Hx. exact Hx.
  - apply (close_frame s); auto; [|intros e []]. same H.
  - apply (close_frame s); auto; [same H|].
    intros e He. cbn in He. destruct He as [<-|[]]; exact Logic.I.
  - (* XLock *)
    rewrite app_nil_r.
    set (s' := at_pc _ _ _ _).
    assert (Hc : forall t' r' acts, closing s' t' r' acts ->
              (t' = t /\ r' = r /\ acts = plan (memo (side s r))) \/ (t' <> t /\ closing s t' r' acts)).
    { exact (closing_next s s' t _ _ _ _ _ H eq_refl). }
    assert (Hc2 : forall t' r' acts, closing s t' r' acts -> closing s' t' r' acts).
    { intros t' r' acts (rs' & rest' & E). exists rs', rest'. unfold s'. rewrite calls_at2, nth_set_other; [exact E|]. intros ->. congruence. }
    assert (Hm : forall r' o', in_memo s' r' o' <-> in_memo s r' o').
    { intros r' o'. unfold in_memo, s'. sides r' r; reflexivity. }
    assert (Hnc : forall t' acts, ~ closing s t' r acts).
    { intros t' acts Hx. apply (z_lock _ _ I) in Hx. congruence. }
    assert (Hk : forall r', kids (side s' r') = kids (side s r')) by (intro r'; unfold s'; sides r' r; reflexivity).
    destruct I as [Z1 Z2 Z3 Z4 Z5 Z6 Z7 Z8 Z9 Z10 Z11]. constructor; intros.
    + unfold s'. sides r0 r; [reflexivity|]. apply Hc in H1 as [[_ [-> _]]|[_ H1]]; [congruence|eauto].
    + apply Hc in H1 as [[-> [-> _]]|[N1 H1]]; apply Hc in H2 as [[-> [E2 _]]|[N2 H2]]; subst; auto.
      * destruct (Hnc _ _ H2).
      * destruct (Hnc _ _ H1).
      * eauto.
    + destruct (role_eqb r0 r) eqn:E.
      * apply role_eqb_eq in E. subst r0. exists t, (plan (memo (side s r))). exists rs, rest. unfold s'. rewrite calls_at2.
        apply nth_set_same. eapply nth_lt; eauto.
      * unfold s' in H1. rewrite side_set, E in H1. destruct (Z3 _ H1) as (t' & acts & Ht). exists t', acts. auto.
    + apply Hm in H2. apply Hc in H1 as [[-> [-> ->]]|[_ H1]]; [|eauto].
      destruct H2 as (ty & a & H2). left. apply (plan_has _ _ _ _ H2). eapply memo_type; eauto.
    + apply Hm in H2. apply Hc in H1 as [[-> [-> ->]]|[_ H1]]; [|eauto].
      destruct H2 as (ty & a & H2). left. apply (plan_has _ _ _ _ H2). eapply memo_type; eauto.
    + apply Hc in H1 as [[-> [-> ->]]|[_ H1]]; [|eauto]. left. eapply plan_order; eauto.
    + eauto.
    + destruct (Z8 _ _ H1); [left; now apply Hm|auto].
    + unfold s'. apply Z9 in H1. sidec r; exact H1.
    + rewrite Hk in H1. destruct (Z10 _ _ _ _ H1 H2); [left; now apply Hm|auto].
    + rewrite Hk in H2. apply Hc in H1 as [[-> [-> ->]]|[_ H1]]; [|eauto].
      destruct (Z10 _ _ _ _ H2 H3) as [(ty & a & Hx)|Hx]; [|auto]. left. apply (plan_has _ _ _ _ Hx). eapply memo_type; eauto.
  - (* XStop *)
    set (s' := at_pc _ _ _ _).
    assert (Hc0 : closing s t r (AStop o :: acts)) by (exists rs, rest; exact H).
    assert (Hc : forall t' r' acts', closing s' t' r' acts' ->
              (t' = t /\ r' = r /\ acts' = acts) \/ (t' <> t /\ closing s t' r' acts')) by exact (closing_next s s' t _ _ _ _ _ H eq_refl).
    assert (Hself : closing s' t r acts).
    { exists rs, rest. unfold s'. rewrite calls_at. apply nth_set_same. eapply nth_lt; eauto. }
    assert (Hc2 : forall t' r' acts', t' <> t -> closing s t' r' acts' -> closing s' t' r' acts').
    { intros t' r' acts' Hne (rs' & rest' & E). exists rs', rest'. unfold s'. rewrite calls_at, nth_set_other; [exact E|congruence]. }
    destruct I as [Z1 Z2 Z3 Z4 Z5 Z6 Z7 Z8 Z9 Z10 Z11]. constructor; intros.
    + apply Hc in H0 as [[-> [-> ->]]|[_ H0]]; [exact (Z1 _ _ _ Hc0)|exact (Z1 _ _ _ H0)].
    + apply Hc in H0 as [[-> [-> ->]]|[N1 H0]]; apply Hc in H1 as [[-> [E2 ->]]|[N2 H1]]; subst; eauto.
    + destruct (Z3 _ H0) as (t' & acts' & Ht). destruct (Nat.eq_dec t' t) as [->|Hne]; [|eauto].
      exists t, acts. destruct Ht as (rs' & rest' & Ht). rewrite H in Ht. inversion Ht; subst. exact Hself.
    + apply Hc in H0 as [[-> [-> ->]]|[_ H0]].
      * destruct (Z4 _ _ _ _ Hc0 H1) as [[E|Hx]|Hx]; [inversion E; subst; right; add|auto|right; add].
      * destruct (Z4 _ _ _ _ H0 H1); [auto|right; add].
    + apply Hc in H0 as [[-> [-> ->]]|[_ H0]].
      * destruct (Z5 _ _ _ _ Hc0 H1) as [[E|Hx]|Hx]; [discriminate|auto|right; add].
      * destruct (Z5 _ _ _ _ H0 H1); [auto|right; add].
    + apply Hc in H0 as [[-> [-> ->]]|[_ H0]].
      * subst acts. destruct (Z6 _ _ _ (AStop o :: a1) _ _ Hc0 eq_refl) as [[E|Hx]|Hx]; [inversion E; subst; right; add|auto|right; add].
      * destruct (Z6 _ _ _ _ _ _ H0 H1); [auto|right; add].
    + apply app_split in H0 as [[l2' H0]|[l3 [-> H0]]]; [eauto|].
      assert (Hi : In (EDeinit r0 o0) [EStop r o]) by (rewrite H0; apply in_elt). dis Hi.
    + dis H0. destruct (Z8 _ _ H0) as [|[? ?]]; [auto|]. right. split; add.
    + unfold serves in *. dis H0. apply Z9 in H0. exact H0.
    + destruct (Z10 _ _ _ _ H0 H1); [auto|right; now apply late_more].
    + apply Hc in H0 as [[-> [-> ->]]|[_ H0]].
      * destruct (Z11 _ _ _ _ _ _ Hc0 H1 H2) as [[E|Hx]|Hx]; [discriminate|auto|right; now apply late_more].
      * destruct (Z11 _ _ _ _ _ _ H0 H1 H2); [auto|right; now apply late_more].
  - (* XDeinit0 *)
    set (s' := at_pc _ _ _ _).
    assert (Hs : forall r', side s' r' = side s r') by (intro r'; unfold s'; sides r' r; reflexivity).
    assert (Hc0 : closing s t r (ADeinit 0 :: acts)) by (exists rs, rest; exact H).
    assert (Hc : forall t' r' acts', closing s' t' r' acts' ->
              (t' = t /\ r' = r /\ acts' = acts) \/ (t' <> t /\ closing s t' r' acts')) by exact (closing_next s s' t _ _ _ _ _ H eq_refl).
    assert (Hself : closing s' t r acts).
    { exists rs, rest. unfold s'. rewrite calls_at2. apply nth_set_same. eapply nth_lt; eauto. }
    assert (Hc2 : forall t' r' acts', t' <> t -> closing s t' r' acts' -> closing s' t' r' acts').
    { intros t' r' acts' Hne (rs' & rest' & E). exists rs', rest'. unfold s'. rewrite calls_at2, nth_set_other; [exact E|congruence]. }
    assert (Hm : forall r' o', in_memo s' r' o' <-> in_memo s r' o') by (intros; unfold in_memo; rewrite Hs; reflexivity).
    destruct I as [Z1 Z2 Z3 Z4 Z5 Z6 Z7 Z8 Z9 Z10 Z11]. constructor; intros; rewrite ?Hs in *.
    + apply Hc in H0 as [[-> [-> ->]]|[_ H0]]; [exact (Z1 _ _ _ Hc0)|exact (Z1 _ _ _ H0)].
    + apply Hc in H0 as [[-> [-> ->]]|[N1 H0]]; apply Hc in H1 as [[-> [E2 ->]]|[N2 H1]]; subst; eauto.
    + destruct (Z3 _ H0) as (t' & acts' & Ht). destruct (Nat.eq_dec t' t) as [->|Hne]; [|eauto].
      exists t, acts. destruct Ht as (rs' & rest' & Ht). rewrite H in Ht. inversion Ht; subst. exact Hself.
    + apply Hm in H1. apply Hc in H0 as [[-> [-> ->]]|[_ H0]].
      * destruct (Z4 _ _ _ _ Hc0 H1) as [[E|Hx]|Hx]; [discriminate|auto|right; add].
      * destruct (Z4 _ _ _ _ H0 H1); [auto|right; add].
    + apply Hm in H1. apply Hc in H0 as [[-> [-> ->]]|[_ H0]].
      * destruct (Z5 _ _ _ _ Hc0 H1) as [[E|Hx]|Hx]; [inversion E; subst; right; add|auto|right; add].
      * destruct (Z5 _ _ _ _ H0 H1); [auto|right; add].
    + apply Hc in H0 as [[-> [-> ->]]|[_ H0]].
      * subst acts. destruct (Z6 _ _ _ (ADeinit 0 :: a1) _ _ Hc0 eq_refl) as [[E|Hx]|Hx]; [discriminate|auto|right; add].
      * destruct (Z6 _ _ _ _ _ _ H0 H1); [auto|right; add].
    + apply app_split in H0 as [[l2' H0]|[l3 [-> H0]]]; [eauto|]. destruct l3 as [|? [|]]; inversion H0; subst.
      rewrite app_nil_r. destruct (Z6 _ _ _ [] _ _ Hc0 eq_refl) as [[]|Hx]. exact Hx.
    + dis H0. destruct (Z8 _ _ H0) as [|[? ?]]; [left; now apply Hm|]. right. split; add.
    + unfold serves in *. dis H0. apply Z9 in H0. exact H0.
    + destruct (Z10 _ _ _ _ H0 H1); [left; now apply Hm|right; now apply late_more].
    + apply Hc in H0 as [[-> [-> ->]]|[_ H0]].
      * destruct (Z11 _ _ _ _ _ _ Hc0 H1 H2) as [[E|Hx]|Hx]; [inversion E; subst; lia|auto|right; now apply late_more].
      * destruct (Z11 _ _ _ _ _ _ H0 H1 H2); [auto|right; now apply late_more].
  - (* XDeinit *)
    set (s' := at_pc _ _ _ _). set (evs := map _ _ ++ _).
    assert (Hev : forall e, In e evs -> (exists k, e = EDown r k) \/ e = EDeinit r o).
    { intros e He. unfold evs in He. apply in_app_iff in He as [He|[He|[]]]; [|auto].
      apply down_in in He as [x [_ ->]]. left. eexists. reflexivity. }
    assert (Hd : In (EDeinit r o) evs) by (unfold evs; apply in_or_app; right; now left).
    assert (Hc0 : closing s t r (ADeinit o :: acts)) by (exists rs, rest; exact H).
    assert (Hc : forall t' r' acts', closing s' t' r' acts' ->
              (t' = t /\ r' = r /\ acts' = acts) \/ (t' <> t /\ closing s t' r' acts')) by exact (closing_next s s' t _ _ _ _ _ H eq_refl).
    assert (Hself : closing s' t r acts).
    { exists rs, rest. unfold s'. rewrite calls_at2. apply nth_set_same. eapply nth_lt; eauto. }
    assert (Hc2 : forall t' r' acts', t' <> t -> closing s t' r' acts' -> closing s' t' r' acts').
    { intros t' r' acts' Hne (rs' & rest' & E). exists rs', rest'. unfold s'. rewrite calls_at2, nth_set_other; [exact E|congruence]. }
    assert (Hm : forall r' o', in_memo s' r' o' <-> in_memo s r' o') by (intros; unfold in_memo, s'; sides r' r; reflexivity).
    assert (Hl : forall r', locked (side s' r') = locked (side s r')) by (intro r'; unfold s'; sides r' r; reflexivity).
    assert (Hk : forall r' x, In x (kids (side s' r')) -> In x (kids (side s r')) /\ (r' = r -> fst (fst x) <> o)).
    { intros r' x Hin. unfold s' in Hin. sides r' r; [|split; [exact Hin|congruence]]. apply filter_In in Hin as [Hin Hne].
      split; [exact Hin|]. intros _ E. apply own_spec in E. rewrite E in Hne. discriminate. }
    destruct I as [Z1 Z2 Z3 Z4 Z5 Z6 Z7 Z8 Z9 Z10 Z11]. constructor; intros; rewrite ?Hl in *.
    + apply Hc in H1 as [[-> [-> ->]]|[_ H1]]; [exact (Z1 _ _ _ Hc0)|exact (Z1 _ _ _ H1)].
    + apply Hc in H1 as [[-> [-> ->]]|[N1 H1]]; apply Hc in H2 as [[-> [E2 ->]]|[N2 H2]]; subst; eauto.
    + destruct (Z3 _ H1) as (t' & acts' & Ht). destruct (Nat.eq_dec t' t) as [->|Hne]; [|eauto].
      exists t, acts. destruct Ht as (rs' & rest' & Ht). rewrite H in Ht. inversion Ht; subst. exact Hself.
    + apply Hm in H2. apply Hc in H1 as [[-> [-> ->]]|[_ H1]].
      * destruct (Z4 _ _ _ _ Hc0 H2) as [[E|Hx]|Hx]; [discriminate|auto|right; apply in_or_app; auto].
      * destruct (Z4 _ _ _ _ H1 H2); [auto|right; apply in_or_app; auto].
    + apply Hm in H2. apply Hc in H1 as [[-> [-> ->]]|[_ H1]].
      * destruct (Z5 _ _ _ _ Hc0 H2) as [[E|Hx]|Hx]; [inversion E; subst; right; apply in_or_app; auto|auto|right; apply in_or_app; auto].
      * destruct (Z5 _ _ _ _ H1 H2); [auto|right; apply in_or_app; auto].
    + apply Hc in H1 as [[-> [-> ->]]|[_ H1]].
      * subst acts. destruct (Z6 _ _ _ (ADeinit o :: a1) _ _ Hc0 eq_refl) as [[E|Hx]|Hx]; [discriminate|auto|right; apply in_or_app; auto].
      * destruct (Z6 _ _ _ _ _ _ H1 H2); [auto|right; apply in_or_app; auto].
    + apply app_split in H1 as [[l2' H1]|[l3 [-> H1]]]; [eauto|].
      assert (Hi : In (EDeinit r0 o0) evs) by (rewrite H1; apply in_elt).
      destruct (Hev _ Hi) as [[k E]|E]; inversion E; subst.
      apply in_or_app. left. destruct (Z6 _ _ _ [] _ _ Hc0 eq_refl) as [[]|Hx]. exact Hx.
    + apply in_app_iff in H1 as [H1|H1]; [|apply Hev in H1 as [[k E]|E]; discriminate].
      destruct (Z8 _ _ H1) as [|[? ?]]; [left; now apply Hm|]. right. split; apply in_or_app; auto.
    + unfold serves in *. apply in_app_iff in H1 as [H1|H1]; [|apply Hev in H1 as [[k E]|E]; discriminate].
      apply Z9 in H1. unfold s'. sidec r; exact H1.
    + apply Hk in H1 as [H1 _]. destruct (Z10 _ _ _ _ H1 H2); [left; now apply Hm|right; now apply late_more].
    + apply Hk in H2 as [H2 Hne]. apply Hc in H1 as [[-> [-> ->]]|[_ H1]].
      * destruct (Z11 _ _ _ _ _ _ Hc0 H2 H3) as [[E|Hx]|Hx]; [|auto|right; now apply late_more].
        inversion E; subst. destruct (Hne eq_refl eq_refl).
      * destruct (Z11 _ _ _ _ _ _ H1 H2 H3); [auto|right; now apply late_more].
  - (* XUnlock *)
    rewrite app_nil_r. set (s' := at_pc _ _ _ _).
    assert (Hc0 : closing s t r []) by (exists rs, rest; exact H).
    assert (Hc : forall t' r' acts', closing s' t' r' acts' -> t' <> t /\ closing s t' r' acts').
    { intros t' r' acts' (rs' & rest' & E). unfold s' in E. rewrite calls_at2 in E. assert (Hlt := nth_lt _ _ _ H).
      destruct (Nat.eq_dec t' t) as [->|Hne].
      - rewrite nth_set_same in E by assumption. discriminate.
      - rewrite nth_set_other in E by congruence. split; [exact Hne|]. exists rs', rest'. exact E. }
    assert (Hc2 : forall t' r' acts', t' <> t -> closing s t' r' acts' -> closing s' t' r' acts').
    { intros t' r' acts' Hne (rs' & rest' & E). exists rs', rest'. unfold s'. rewrite calls_at2, nth_set_other; [exact E|congruence]. }
    assert (Hm : forall r' o', in_memo s' r' o' -> in_memo s r' o').
    { intros r' o' (ty & a & Hin). exists ty, a. unfold s' in Hin. sides r' r; [|exact Hin]. destruct r; cbn in Hin; [exact Hin|contradiction]. }
    assert (Hm2 : forall r' o', in_memo s r' o' -> in_memo s' r' o' \/ r' = r).
    { intros r' o' (ty & a & Hin). unfold in_memo, s'. sides r' r; [auto|]. left. exists ty, a. exact Hin. }
    assert (Hk : forall r', kids (side s' r') = kids (side s r')).
    { intro r'. unfold s'. sides r' r; [destruct r|]; reflexivity. }
    destruct I as [Z1 Z2 Z3 Z4 Z5 Z6 Z7 Z8 Z9 Z10 Z11]. constructor; intros.
    + apply Hc in H0 as [Hne H0]. unfold s'. sides r0 r; [exfalso; apply Hne; eauto|eauto].
    + apply Hc in H0 as [_ H0]. apply Hc in H1 as [_ H1]. eauto.
    + unfold s' in H0. sides r0 r; [destruct r; discriminate|]. destruct (Z3 _ H0) as (t' & acts' & Ht). exists t', acts'.
      apply Hc2; [|exact Ht]. intros ->. destruct Ht as (rs' & rest' & Ht). rewrite H in Ht. inversion Ht; subst. congruence.
    + apply Hc in H0 as [_ H0]. apply Hm in H1. eauto.
    + apply Hc in H0 as [_ H0]. apply Hm in H1. eauto.
    + apply Hc in H0 as [_ H0]. eauto.
    + eauto.
    + destruct (Z8 _ _ H0) as [Hx|Hx]; [|auto]. destruct (Hm2 _ _ Hx) as [Hy| ->]; [auto|]. right.
      destruct (Z4 _ _ _ _ Hc0 Hx) as [[]|Hs]. destruct (Z5 _ _ _ _ Hc0 Hx) as [[]|Hd]. auto.
    + apply Z9 in H0. unfold s'. sidec r; [|exact H0]. exact H0.
    + rewrite Hk in H0. destruct (Z10 _ _ _ _ H0 H1) as [Hx|Hx]; [|auto]. destruct (Hm2 _ _ Hx) as [Hy| ->]; [auto|]. right.
      destruct (Z11 _ _ _ _ _ _ Hc0 H0 H1) as [[]|Hy]. exact Hy.
    + rewrite Hk in H1. apply Hc in H0 as [_ H0]. eauto.
Qed.
Lemma close_final h : closeI (final h) (trace h).
Proof.
  apply (history_ind (fun _ => closeI)).
  - constructor; intros; cbn in *; try discriminate; try contradiction;
      try match goal with H : closing _ ?t _ _ |- _ => destruct H as (? & ? & E); destruct t; discriminate end.
    destruct l1; discriminate.
  - intros h0 l s' ev I Hp _ _. eapply close_step; eauto. apply inv_final.
Qed.
