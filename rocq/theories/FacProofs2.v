(** csmgmt: requesters (providers), and what the calls return. *)
From Verif Require Import ListUtil FacModel FacSpec FacProofs.

Definition makes (r : role) (k : nat) (e : event) : bool :=
  match e with EMade r' k' _ _ => role_eqb r r' && Nat.eqb k k' | _ => false end.

Record kidsI (s : st) (tr : list event) : Prop := {
  k_in : forall r o sid k, In (o, sid, k) (kids (side s r)) -> In (EMade r k o sid) tr;
  k_key : forall r o sid k k', In (o, sid, k) (kids (side s r)) -> In (o, sid, k') (kids (side s r)) -> k = k';
  k_nod : forall r, NoDup (map snd (kids (side s r)));
  k_lt : forall r k o sid, In (EMade r k o sid) tr -> k < nkids (side s r);
  k_cnt : forall r k, cnt (makes r k) tr <= 1;
  k_start : forall r k o sid, In (EMade r k o sid) tr -> In (EStart r o) tr;
  k_itc : forall r k sid, In (EMade r k 0 sid) tr -> In (0, sid, k) (kids (side s r));
  k_down : forall r k, In (EDown r k) tr -> exists o sid, 1 <= o /\ In (EMade r k o sid) tr;
  k_gone : forall r k, In (EDown r k) tr -> ~ In k (map snd (kids (side s r)));
  k_down1 : forall r k, cnt (downs r k) tr <= 1;
  k_alive : forall r k o sid, In (EMade r k o sid) tr -> In (o, sid, k) (kids (side s r)) \/ In (EDown r k) tr }.

Lemma NoDup_app_snoc {A} (l : list A) x : NoDup l -> ~ In x l -> NoDup (l ++ [x]).
Proof.
  induction l as [|y l IH]; cbn; intros Hn Hx; [constructor; [auto|constructor]|].
  inversion Hn; subst. constructor; [|auto]. rewrite in_app_iff. cbn. intuition.
Qed.
Lemma nodup_map_filter {A B} (f : A -> B) (p : A -> bool) l : NoDup (map f l) -> NoDup (map f (filter p l)).
Proof.
  induction l as [|y l IH]; cbn; intro Hn; [constructor|]. inversion Hn; subst. destruct (p y); [|auto]. cbn.
  constructor; [|auto]. intro Hin. apply H1. apply in_map_iff in Hin as [z [E Hz]]. apply filter_In in Hz as [Hz _].
  apply in_map_iff. eauto.
Qed.
Lemma cnt_unique {A} (f : A -> bool) l a b : cnt f l <= 1 -> In a l -> In b l -> f a = true -> f b = true -> a = b.
Proof.
  induction l as [|x l IH]; [contradiction|]. rewrite cnt_cons. intros Hc [Ha|Ha] [Hb|Hb] Fa Fb.
  - congruence.
  - subst x. rewrite Fa in Hc. cbn in Hc. pose proof (cnt_pos f l b Hb Fb). lia.
  - subst x. rewrite Fb in Hc. cbn in Hc. pose proof (cnt_pos f l a Ha Fa). lia.
  - apply IH; auto. destruct (f x); cbn in Hc; lia.
Qed.
Lemma made_unique s tr r k o sid o' sid' : kidsI s tr -> In (EMade r k o sid) tr -> In (EMade r k o' sid') tr -> o = o' /\ sid = sid'.
Proof.
  intros K H1 H2. assert (E : EMade r k o sid = EMade r k o' sid').
  { apply (cnt_unique (makes r k) tr); auto; [apply (k_cnt _ _ K)| |]; cbn; rewrite role_eqb_refl, Nat.eqb_refl; reflexivity. }
  inversion E. auto.
Qed.

Definition no_kid_event (e : event) : Prop := match e with EMade _ _ _ _ | EDown _ _ => False | _ => True end.
Lemma kids_frame s s' tr ev : kidsI s tr -> (forall r, kids (side s' r) = kids (side s r)) ->
  (forall r, nkids (side s' r) = nkids (side s r)) -> (forall e, In e ev -> no_kid_event e) -> kidsI s' (tr ++ ev).
Proof.
  intros [K1 K2 K3 K4 K5 K6 K7 K8 K9 K10 K11] Hk Hn Hq.
  assert (Hold : forall e, In e (tr ++ ev) -> ~ no_kid_event e -> In e tr).
  { intros e He Hn'. apply in_app_iff in He as [He|He]; [exact He|]. exfalso. exact (Hn' (Hq _ He)). }
  assert (Hc : forall f, (forall e, no_kid_event e -> f e = false) -> cnt f (tr ++ ev) = cnt f tr).
  { intros f Hf. rewrite cnt_app, (cnt_zero f ev); [lia|]. intros e He. auto. }
  constructor; intros; rewrite ?Hk, ?Hn in *.
  - apply in_or_app. left. auto.
  - eauto.
  - auto.
  - apply Hold in H; [|auto]. eauto.
  - rewrite Hc; [auto|]. intros [] ?; try reflexivity. contradiction.
  - apply in_or_app. left. apply Hold in H; [eauto|auto].
  - apply Hold in H; [auto|auto].
  - apply Hold in H; [|auto]. destruct (K8 _ _ H) as (o & sid & ? & ?). exists o, sid. split; [assumption|]. apply in_or_app. auto.
  - apply Hold in H; [auto|auto].
  - rewrite Hc; [auto|]. intros [] ?; try reflexivity. contradiction.
  - apply Hold in H; [|auto]. destruct (K11 _ _ _ _ H); [auto|]. right. apply in_or_app. auto.
Qed.

(** The calls in progress. *)
Record callsI (s : st) (tr : list event) : Prop := {
  c_have : forall t r ty a sid o, nth_error (calls s) t = Some (CGet r ty a sid, PHave o) ->
    serves tr r ty a o /\ In (EStart r o) tr;
  c_got : forall t k, In (EGot t (Some k)) tr -> exists r ty a sid o,
    nth_error (calls s) t = Some (CGet r ty a sid, PDone) /\ In (EMade r k o sid) tr /\ serves tr r ty a o;
  c_none : forall t, In (EGot t None) tr -> exists r ty a sid, nth_error (calls s) t = Some (CGet r ty a sid, PDone);
  c_shut : forall t, In (EShut t) tr -> exists rs, nth_error (calls s) t = Some (CShut rs, PDone);
  c_done : forall t r ty a sid, nth_error (calls s) t = Some (CGet r ty a sid, PDone) -> exists x, In (EGot t x) tr;
  c_sdone : forall t rs, nth_error (calls s) t = Some (CShut rs, PDone) -> In (EShut t) tr;
  c_kind : forall t r ty a sid p, nth_error (calls s) t = Some (CGet r ty a sid, p) ->
    match p with PStart | PHave _ | PDone => True | _ => False end;
  c_skind : forall t rs p, nth_error (calls s) t = Some (CShut rs, p) -> match p with PHave _ => False | _ => True end;
  c_once : forall t, cnt (returns t) tr <= 1 }.

Lemma no_kid_ok e : match e with EMade _ _ _ _ | EDown _ _ => False | _ => True end -> no_kid_event e.
Proof. exact (fun H => H). Qed.

Lemma kids_step s l s' ev tr : objs s tr -> callsI s tr -> kidsI s tr -> pstep s l s' ev -> kidsI s' (tr ++ ev).
Proof.
  intros Ob C K Hp. destruct Hp.
  all: try (apply (kids_frame _ _ _ _ K);
            [intro r'; try (sides r' r); try reflexivity; destruct r; reflexivity
            |intro r'; try (sides r' r); try reflexivity; destruct r; reflexivity
            |intros e He; cbn in He; repeat (destruct He as [<-|He]; [exact Logic.I|]); contradiction]; fail).
  - (* XMade *)
    assert (K' := K). destruct K' as [K1 K2 K3 K4 K5 K6 K7 K8 K9 K10 K11].
    assert (Hnew : forall o' sid', ~ In (EMade r k o' sid') tr).
    { intros o' sid' Hin. apply K4 in Hin. subst k. lia. }
    assert (Hnk : ~ In k (map snd (kids (side s r)))).
    { intro Hin. apply in_map_iff in Hin as [[[o' sid'] k'] [E Hin]]. cbn in E. subst k'. apply K1 in Hin.
      exact (Hnew _ _ Hin). }
    constructor; intros.
    + sides r0 r.
      * apply in_app_iff in H2 as [H2|[H2|[]]]; [apply in_or_app; left; auto|]. inversion H2; subst. add.
      * apply in_or_app. left. auto.
    + sides r0 r; [|eauto].
      apply in_app_iff in H2 as [H2|[H2|[]]]; apply in_app_iff in H3 as [H3|[H3|[]]].
      * eauto.
      * inversion H3; subst. exfalso. exact (kid_none _ _ _ _ H0 H2).
      * inversion H2; subst. exfalso. exact (kid_none _ _ _ _ H0 H3).
      * congruence.
    + sides r0 r; [|auto]. rewrite map_app. cbn. rewrite <- H1. apply NoDup_app_snoc; auto.
    + dis H2.
      * apply K4 in H2. sides r0 r; lia.
      * inversion H2; subst. rewrite side_set, role_eqb_refl. cbn. lia.
    + rewrite cnt_app. unfold cnt at 2. cbn. pose proof (K5 r0 k0). destruct (role_eqb r0 r && Nat.eqb k0 k) eqn:E; cbn; [|lia].
      apply andb_true_iff in E as [E1 E2]. apply role_eqb_eq in E1. apply Nat.eqb_eq in E2. subst r0 k0.
      rewrite (cnt_zero (makes r k) tr); [lia|]. intros e He. destruct e; try reflexivity. cbn.
      destruct (role_eqb r r0 && Nat.eqb k k0) eqn:E; [|reflexivity]. apply andb_true_iff in E as [E1 E2].
      apply role_eqb_eq in E1. apply Nat.eqb_eq in E2. subst r0 k0. exfalso. exact (Hnew _ _ He).
    + dis H2; [apply K6 in H2; add|]. inversion H2; subst. destruct (c_have _ _ C _ _ _ _ _ _ H). add.
    + dis H2.
      * apply K7 in H2. sides r0 r; add.
      * inversion H2; subst. rewrite side_set, role_eqb_refl. cbn. add.
    + dis H2. destruct (K8 _ _ H2) as (o' & sid' & ? & ?). exists o', sid'. split; [assumption|add].
    + dis H2. assert (Hg := K9 _ _ H2). sides r0 r; [|exact Hg]. rewrite map_app. intro Hin.
      apply in_app_iff in Hin as [Hin|[Hin|[]]]; [exact (Hg Hin)|]. cbn in Hin. rewrite <- H1 in Hin. subst k0.
      destruct (K8 _ _ H2) as (o' & sid' & _ & Hm). exact (Hnew _ _ Hm).
    + rewrite cnt_app. unfold cnt at 2. cbn. pose proof (K10 r0 k0). lia.
    + dis H2.
      * destruct (K11 _ _ _ _ H2); [left; sides r0 r; add|right; add].
      * inversion H2; subst. left. rewrite side_set, role_eqb_refl. cbn. add.
  - (* XDeinit *)
    assert (K' := K). destruct K' as [K1 K2 K3 K4 K5 K6 K7 K8 K9 K10 K11].
    set (gone := filter (own o) (kids (side s r))).
    assert (Hold : forall e, match e with EMade _ _ _ _ => True | _ => False end ->
              In e (tr ++ map (fun x => EDown r (snd x)) gone ++ [EDeinit r o]) -> In e tr).
    { intros e He Hin. dis Hin; auto; try (subst; contradiction).
      all: destruct e; try contradiction; exfalso; dis Hin; try discriminate. }
    assert (Hdown : forall r' k', In (EDown r' k') (tr ++ map (fun x => EDown r (snd x)) gone ++ [EDeinit r o]) ->
              In (EDown r' k') tr \/ r' = r /\ exists sid, In (o, sid, k') (kids (side s r))).
    { intros r' k' Hin. apply in_app_iff in Hin as [Hin|Hin]; [auto|]. apply in_app_iff in Hin as [Hin|[Hin|[]]]; [|discriminate].
      apply down_in in Hin as [[[o1 s1] k1] [Hin E]]. inversion E; subst. right. split; [reflexivity|].
      apply filter_In in Hin as [Hin Ho]. apply own_spec in Ho. cbn in Ho. subst. exists s1. exact Hin. }
    constructor; intros.
    + apply in_or_app. left. sides r0 r; [|auto]. apply filter_In in H1 as [H1 _]. auto.
    + sides r0 r; [|eauto]. apply filter_In in H1 as [H1 _]. apply filter_In in H2 as [H2 _]. eauto.
    + sides r0 r; [|auto]. apply nodup_map_filter. auto.
    + apply Hold in H1; [|exact Logic.I]. apply K4 in H1. sides r0 r; exact H1.
    + rewrite !cnt_app. unfold cnt at 3. cbn. rewrite (cnt_zero (makes r0 k) (map _ _)); [pose proof (K5 r0 k); lia|].
      intros e He. apply in_map_iff in He as [x [<- _]]. reflexivity.
    + apply Hold in H1; [|exact Logic.I]. apply in_or_app. left. eauto.
    + apply Hold in H1; [|exact Logic.I]. apply K7 in H1. sides r0 r; [|exact H1]. apply filter_In. split; [exact H1|].
      destruct (own o (0, sid, k)) eqn:E; [|reflexivity]. apply own_spec in E. cbn in E. lia.
    + apply Hdown in H1 as [H1|[-> [sid H1]]].
      * destruct (K8 _ _ H1) as (o' & sid' & ? & ?). exists o', sid'. split; [assumption|]. apply in_or_app. auto.
      * exists o, sid. split; [assumption|]. apply in_or_app. left. auto.
    + apply Hdown in H1 as [H1|[-> [sid H1]]].
      * apply K9 in H1. sides r0 r; [|exact H1]. intro Hin. apply H1. apply in_map_iff in Hin as [x [E Hin]].
        apply filter_In in Hin as [Hin _]. apply in_map_iff. eauto.
      * rewrite side_set, role_eqb_refl. cbn. intro Hin. apply in_map_iff in Hin as [[[o1 s1] k1] [E Hin]]. cbn in E. subst k1.
        apply filter_In in Hin as [Hin Hne].
        destruct (made_unique _ _ _ _ _ _ _ _ K (K1 _ _ _ _ H1) (K1 _ _ _ _ Hin)) as [-> ->].
        assert (E : own o1 (o1, s1, k) = true) by (apply own_spec; reflexivity). rewrite E in Hne. discriminate.
    + rewrite !cnt_app. unfold cnt at 3. cbn. destruct (role_eqb r0 r) eqn:E.
      * apply role_eqb_eq in E. subst r0.
        assert (Hm : cnt (downs r k) (map (fun x => EDown r (snd x)) gone) <= 1 /\
                     (1 <= cnt (downs r k) (map (fun x => EDown r (snd x)) gone) -> In k (map snd (kids (side s r))))).
        { assert (Hnd : NoDup (map snd gone)) by (apply nodup_map_filter; auto).
          assert (Hsub : forall x, In x gone -> In x (kids (side s r))) by (intros x Hx; apply filter_In in Hx; apply Hx).
          clearbody gone. clear -Hnd Hsub. induction gone as [|x g IH]; [split; unfold cnt; cbn; lia|].
          cbn [map]. rewrite cnt_cons. cbn [downs]. rewrite role_eqb_refl. cbn [andb]. cbn in Hnd. inversion Hnd; subst.
          destruct IH as [IH1 IH2]; [assumption|intros; apply Hsub; now right|]. destruct (Nat.eqb k (snd x)) eqn:E; cbn [b2n].
          - apply Nat.eqb_eq in E. subst k. rewrite (cnt_zero (downs r (snd x)) (map _ g)).
            + split; [lia|]. intros _. apply in_map. apply Hsub. now left.
            + intros e He. apply in_map_iff in He as [y [<- Hy]]. cbn. rewrite role_eqb_refl. cbn.
              apply Nat.eqb_neq. intro E. apply H1. rewrite E. apply in_map. exact Hy.
          - split; [lia|exact IH2]. }
        destruct Hm as [Hm1 Hm2]. pose proof (K10 r k) as Hk.
        destruct (Nat.eq_dec (cnt (downs r k) tr) 0) as [Z|Z]; [lia|].
        destruct (Nat.eq_dec (cnt (downs r k) (map (fun x => EDown r (snd x)) gone)) 0) as [Y|Y]; [lia|].
        exfalso. apply (K9 r k); [|apply Hm2; lia].
        destruct (cnt_pos_inv (downs r k) tr) as [e [He Fe]]; [lia|]. destruct e; try discriminate. cbn in Fe.
        apply andb_true_iff in Fe as [F1 F2]. apply role_eqb_eq in F1. apply Nat.eqb_eq in F2. subst. exact He.
      * rewrite (cnt_zero (downs r0 k) (map _ _)); [pose proof (K10 r0 k); lia|].
        intros e He. apply in_map_iff in He as [x [<- _]]. cbn. rewrite E. reflexivity.
    + apply Hold in H1; [|exact Logic.I]. destruct (K11 _ _ _ _ H1) as [Hin|Hin]; [|right; apply in_or_app; auto].
      sides r0 r; [|left; exact Hin]. destruct (own o (o0, sid, k)) eqn:E.
      * right. apply in_or_app. right. apply in_or_app. left. apply in_map_iff. exists (o0, sid, k). split; [reflexivity|].
        apply filter_In. auto.
      * left. apply filter_In. rewrite E. auto.
Qed.

Lemma returns_pdone s tr t : callsI s tr -> (forall c, nth_error (calls s) t = Some (c, PDone) -> False) -> cnt (returns t) tr = 0.
Proof.
  intros C H. apply cnt_zero. intros e He. destruct (returns t e) eqn:E; [|reflexivity]. exfalso.
  destruct e as [| | | | | |t' k|t']; try discriminate E; cbn in E; apply Nat.eqb_eq in E; subst t'.
  - destruct k as [k|].
    + destruct (c_got _ _ C _ _ He) as (r & ty & a & sid & o & Hn & _). eauto.
    + destruct (c_none _ _ C _ He) as (r & ty & a & sid & Hn). eauto.
  - destruct (c_shut _ _ C _ He) as (rs & Hn). eauto.
Qed.

(** A step that changes nothing but call [t], from [c, p0] to [c, p]. *)
Lemma calls_change s s' tr ev t c p0 p : callsI s tr -> nth_error (calls s) t = Some (c, p0) -> p0 <> PDone ->
  calls s' = set_nth t (c, p) (calls s) ->
  (forall r ty a sid o, c = CGet r ty a sid -> p = PHave o -> serves (tr ++ ev) r ty a o /\ In (EStart r o) (tr ++ ev)) ->
  (forall t' x, In (EGot t' x) ev -> t' = t /\ p = PDone /\ exists r ty a sid, c = CGet r ty a sid /\ match x with Some k => exists o, In (EMade r k o sid) (tr ++ ev) /\ serves (tr ++ ev) r ty a o | None => True end) ->
  (forall t', In (EShut t') ev -> t' = t /\ p = PDone /\ exists rs, c = CShut rs) ->
  (p = PDone -> match c with CGet _ _ _ _ => exists x, In (EGot t x) ev | CShut _ => In (EShut t) ev end) ->
  match c, p with
  | CGet _ _ _ _, (PShut _ | PClosing _ _ _) => False
  | CShut _, PHave _ => False
  | _, _ => True
  end ->
  cnt (returns t) ev <= 1 -> (forall t', t' <> t -> cnt (returns t') ev = 0) ->
  callsI s' (tr ++ ev).
Proof.
  intros I Hn Hp0 Hc Hhave Hgot Hshut Hdone Hkind Hr1 Hr0. assert (I' := I). destruct I' as [C1 C2 C3 C4 C5 C6 C7 C8 C9].
  assert (Hlt := nth_lt _ _ _ Hn).
  assert (Hat : forall t' x, nth_error (calls s') t' = Some x -> (t' = t /\ x = (c, p)) \/ (t' <> t /\ nth_error (calls s) t' = Some x)).
  { intros t' x Hx. rewrite Hc in Hx. destruct (Nat.eq_dec t' t) as [->|Hne].
    - rewrite nth_set_same in Hx by assumption. left. split; congruence.
    - rewrite nth_set_other in Hx by congruence. right. auto. }
  assert (Hkeep : forall t' c', nth_error (calls s) t' = Some (c', PDone) -> nth_error (calls s') t' = Some (c', PDone)).
  { intros t' c' Hx. rewrite Hc, nth_set_other; [exact Hx|]. intros ->. congruence. }
  assert (Hself : nth_error (calls s') t = Some (c, p)) by (rewrite Hc; apply nth_set_same; assumption).
  constructor.
  - intros t' r ty a sid o Hx. apply Hat in Hx as [[-> E]|[_ Hx]].
    + inversion E; subst. eauto.
    + destruct (C1 _ _ _ _ _ _ Hx). unfold serves in *. split; apply in_or_app; auto.
  - intros t' k Hx. apply in_app_iff in Hx as [Hx|Hx].
    + destruct (C2 _ _ Hx) as (r & ty & a & sid & o & H1 & H2 & H3). exists r, ty, a, sid, o. split; [auto|].
      unfold serves in *. split; apply in_or_app; auto.
    + destruct (Hgot _ _ Hx) as (-> & -> & r & ty & a & sid & -> & o & H1 & H2). exists r, ty, a, sid, o. auto.
  - intros t' Hx. apply in_app_iff in Hx as [Hx|Hx].
    + destruct (C3 _ Hx) as (r & ty & a & sid & H1). eauto 6.
    + destruct (Hgot _ _ Hx) as (-> & -> & r & ty & a & sid & -> & _). eauto.
  - intros t' Hx. apply in_app_iff in Hx as [Hx|Hx].
    + destruct (C4 _ Hx) as (rs & H1). eauto.
    + destruct (Hshut _ Hx) as (-> & -> & rs & ->). eauto.
  - intros t' r ty a sid Hx. apply Hat in Hx as [[-> E]|[_ Hx]].
    + inversion E; subst. destruct (Hdone eq_refl) as [x Hx]. exists x. apply in_or_app. auto.
    + destruct (C5 _ _ _ _ _ Hx) as [x H1]. exists x. apply in_or_app. auto.
  - intros t' rs Hx. apply Hat in Hx as [[-> E]|[_ Hx]].
    + inversion E; subst. specialize (Hdone eq_refl). apply in_or_app. auto.
    + apply in_or_app. left. eauto.
  - intros t' r ty a sid p' Hx. apply Hat in Hx as [[-> E]|[_ Hx]]; [|exact (C7 _ _ _ _ _ _ Hx)]. inversion E; subst. destruct p; auto.
  - intros t' rs p' Hx. apply Hat in Hx as [[-> E]|[_ Hx]]; [|exact (C8 _ _ _ Hx)]. inversion E; subst. destruct p; auto.
  - intros t'. rewrite cnt_app. destruct (Nat.eq_dec t' t) as [->|Hne].
    + rewrite (returns_pdone s tr t I); [lia|]. intros c' Hx. congruence.
    + rewrite (Hr0 _ Hne). pose proof (C9 t'). lia.
Qed.

Lemma calls_frame s s' tr : callsI s tr -> calls s' = calls s -> callsI s' (tr ++ []).
Proof. intros [C1 C2 C3 C4 C5 C6 C7 C8 C9] Hc. rewrite app_nil_r. constructor; rewrite ?Hc; assumption. Qed.

Ltac refute := let H := fresh in intros; cbn [In] in *;
  repeat match goal with H : _ \/ _ |- _ => destruct H as [H|H] | H : False |- _ => contradiction end; try discriminate.

Ltac fin := refute; auto; try (unfold cnt; cbn; lia); try (unfold cnt; cbn; rewrite ?Nat.eqb_refl; cbn; lia);
  try (unfold cnt; cbn; match goal with H : _ <> _ |- _ => apply Nat.eqb_neq in H; rewrite H end; reflexivity).
Lemma calls_step s l s' ev tr : objs s tr -> kidsI s tr -> callsI s tr -> pstep s l s' ev -> callsI s' (tr ++ ev).
Proof.
  intros Ob K C Hp. destruct Hp.
  - eapply calls_frame; eauto.
  - rewrite app_nil_r. assert (C' := C). destruct C' as [C1 C2 C3 C4 C5 C6 C7 C8 C9].
    assert (Hat : forall t x, nth_error (calls s ++ [(c, PStart)]) t = Some x -> nth_error (calls s) t = Some x \/ x = (c, PStart)).
    { intros t x Hx. destruct (lt_dec t (length (calls s))).
      - rewrite nth_error_app1 in Hx by assumption. auto.
      - rewrite nth_error_app2 in Hx by lia. destruct (t - length (calls s)) as [|[]]; cbn in Hx; [|discriminate|discriminate].
        right. congruence. }
    assert (Hk : forall t x, nth_error (calls s) t = Some x -> nth_error (calls s ++ [(c, PStart)]) t = Some x).
    { intros t x Hx. rewrite nth_error_app1; [exact Hx|]. eapply nth_lt; eauto. }
    constructor; cbn [calls].
    + intros t r ty a sid o Hx. apply Hat in Hx as [Hx|E]; [eauto|discriminate].
    + intros t k Hx. destruct (C2 _ _ Hx) as (r & ty & a & sid & o & H1 & H2 & H3). exists r, ty, a, sid, o. auto.
    + intros t Hx. destruct (C3 _ Hx) as (r & ty & a & sid & H1). exists r, ty, a, sid. auto.
    + intros t Hx. destruct (C4 _ Hx) as (rs & H1). exists rs. auto.
    + intros t r ty a sid Hx. apply Hat in Hx as [Hx|E]; [eauto|discriminate].
    + intros t rs Hx. apply Hat in Hx as [Hx|E]; [eauto|discriminate].
    + intros t r ty a sid p Hx. apply Hat in Hx as [Hx|E]; [exact (C7 _ _ _ _ _ _ Hx)|]. inversion E; subst. exact Logic.I.
    + intros t rs p Hx. apply Hat in Hx as [Hx|E]; [exact (C8 _ _ _ Hx)|]. inversion E; subst. exact Logic.I.
    + exact C9.
  - (* XFound *)
    apply lookup_in in H1. destruct (o_memo _ _ Ob _ _ _ _ H1) as [Hs Hst].
    eapply (calls_change _ _ _ _ _ _ _ (PHave o) C H); try reflexivity; try discriminate; fin.
    + inversion H2; inversion H3; subst. unfold serves in *. rewrite app_nil_r. auto.
  - (* XNew *)
    eapply (calls_change _ _ _ _ _ _ _ (PHave o) C H); try reflexivity; try discriminate; fin.
    all: match goal with H3 : CGet _ _ _ _ = CGet _ _ _ _, H4 : PHave _ = PHave _ |- _ => inversion H3; inversion H4; subst end; unfold serves; split; add.
  - (* XFail *)
    eapply (calls_change _ _ _ _ _ _ _ PDone C H); try reflexivity; try discriminate; fin.
    + inversion H2; subst. split; [reflexivity|]. split; [reflexivity|]. exists r, LocalIpc, a, sid. auto.
    + exists None. cbn. auto.
  - (* XOther *)
    eapply (calls_change _ _ _ _ _ _ _ PDone C H); try reflexivity; try discriminate; fin.
    + inversion H0; subst. split; [reflexivity|]. split; [reflexivity|]. exists r, OtherType, a, sid. auto.
    + exists None. cbn. auto.
  - (* XKid *)
    destruct (c_have _ _ C _ _ _ _ _ _ H) as [Hs Hst]. apply kid_in in H0.
    eapply (calls_change _ _ _ _ _ _ _ PDone C H); try reflexivity; try discriminate; fin.
    + inversion H1; subst. split; [reflexivity|]. split; [reflexivity|]. exists r, ty, a, sid. split; [reflexivity|].
      exists o. unfold serves in *. split; apply in_or_app; left; [apply (k_in _ _ K); assumption|assumption].
    + exists (Some k). cbn. auto.
  - (* XMade *)
    destruct (c_have _ _ C _ _ _ _ _ _ H) as [Hs Hst].
    eapply (calls_change _ _ _ _ _ _ _ PDone C H); try reflexivity; try discriminate; fin.
    + inversion H2; subst. split; [reflexivity|]. split; [reflexivity|]. exists r, ty, a, sid. split; [reflexivity|].
      exists o. unfold serves in *. split; add.
    + exists (Some k). cbn. auto.
  - eapply (calls_change _ _ _ _ _ _ _ (PShut rs) C H); try reflexivity; try discriminate; fin.
  - eapply (calls_change _ _ _ _ _ _ _ PDone C H); try reflexivity; try discriminate; fin.
    + inversion H0; subst. eauto.

  - eapply (calls_change _ _ _ _ _ _ _ (PClosing r _ rest) C H); try reflexivity; try discriminate; fin.
  - eapply (calls_change _ _ _ _ _ _ _ (PClosing r acts rest) C H); try reflexivity; try discriminate; fin.
  - eapply (calls_change _ _ _ _ _ _ _ (PClosing r acts rest) C H); try reflexivity; try discriminate; fin.
  - assert (Hz : forall t', cnt (returns t') (map (fun x : nat * nat * nat => EDown r (snd x)) (filter (own o) (kids (side s r))) ++ [EDeinit r o]) = 0).
    { intro t'. apply cnt_zero. intros e He. dis He; [|subst; reflexivity]. apply in_map_iff in He as [x [<- _]]. reflexivity. }
    eapply (calls_change _ _ _ _ _ _ _ (PClosing r acts rest) C H); try reflexivity; try discriminate.
    + intros t' x Hx. dis Hx.
    + intros t' Hx. dis Hx.
    + rewrite Hz. lia.
    + intros t' _. apply Hz.
  - eapply (calls_change _ _ _ _ _ _ _ (PShut rest) C H); try reflexivity; try discriminate; fin.
Qed.

Record inv (s : st) (tr : list event) : Prop := { i_objs : objs s tr; i_kids : kidsI s tr; i_calls : callsI s tr }.
Lemma inv_final h : inv (final h) (trace h).
Proof.
  apply (history_ind (fun _ => inv)).
  - constructor; [constructor|constructor|constructor]; cbn; try contradiction; auto; intros; try contradiction;
      try (constructor); try (destruct t; discriminate); unfold cnt; cbn; try lia.
  - intros h0 l s' ev [I1 I2 I3] Hp _ _.
    constructor; [eapply objs_step|eapply kids_step|eapply calls_step]; eauto.
Qed.
