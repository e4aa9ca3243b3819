(** csmgmt: what a shutdown achieves; every call can come to its end. *)
From Verif Require Import ListUtil FacModel FacSpec FacProofs FacProofs2 FacProofs3 FacProofs4.

Lemma late_back tr ev s r k o sid : kidsI s (tr ++ ev) -> In (EMade r k o sid) tr -> made_too_late (tr ++ ev) r k o sid ->
  made_too_late tr r k o sid.
Proof.
  intros K Hin (l1 & l2 & E & Hd). apply app_split in E as [[l2' E]|[l3 [-> E]]].
  - exists l1, l2'. auto.
  - exfalso. pose proof (k_cnt _ _ K r k) as Hc. rewrite E, !cnt_app, cnt_cons in Hc. cbn in Hc.
    rewrite role_eqb_refl, Nat.eqb_refl in Hc. cbn in Hc.
    assert (Hp : 1 <= cnt (makes r k) tr).
    { eapply cnt_pos; [exact Hin|]. cbn. rewrite role_eqb_refl, Nat.eqb_refl. reflexivity. }
    lia.
Qed.

Section Shut.
  Variables (h1 : history) (rs : list role).
  Let t0 := length (calls_made h1).
  Definition kid_before (r : role) (k o sid : nat) : Prop :=
    1 <= o /\ In (EMade r k o sid) (trace h1) /\ (r = Client \/ ~ made_too_late (trace h1) r k o sid).
  Definition closed (s : st) (tr : list event) (r : role) : Prop :=
    (forall o, In (EStart r o) (trace h1) -> In (EStop r o) tr /\ In (EDeinit r o) tr) /\
    (forall o, In (EStart r o) (trace h1) -> 1 <= o -> r = Server -> ~ in_memo s r o) /\
    (forall k o sid, kid_before r k o sid -> In (EDown r k) tr).
  Definition half (tr : list event) (r : role) (acts : list action) : Prop :=
    forall k o sid, kid_before r k o sid -> In (EDown r k) tr \/ In (ADeinit o) acts.
  Definition at_ (s : st) (tr : list event) (p : pc) (r : role) : Prop :=
    match p with
    | PStart => True
    | PShut l => In r l \/ closed s tr r
    | PClosing r0 acts l => (r = r0 /\ half tr r acts) \/ In r l \/ closed s tr r
    | PDone => closed s tr r
    | PHave _ => False
    end.
  Definition good (h : history) (s : st) (tr : list event) : Prop :=
    (exists ev, tr = trace h1 ++ ev) /\ exists p, nth_error (calls s) t0 = Some (CShut rs, p) /\ forall r, In r rs -> at_ s tr p r.

  Lemma start_inside s tr ev r o : objs s (trace h1) -> tr = trace h1 ++ ev -> In (EStart r o) (trace h1) -> o < nobjs (side s r).
  Proof. intros. eapply start_lt; eauto. Qed.

  Lemma closed_step s l s' ev tr r : pstep s l s' ev -> inv s tr -> (exists ev0, tr = trace h1 ++ ev0) ->
    closed s tr r -> closed s' (tr ++ ev) r.
  Proof.
    intros Hp [Ob K C] [ev0 Etr] [H1 [H2 H3]]. split; [|split].
    - intros o Ho. destruct (H1 o Ho). split; apply in_or_app; auto.
    - intros o Ho Hpos Er Hm. apply (H2 o Ho Hpos Er). destruct Hm as (ty & a & Hm).
      destruct Hp; try (exists ty, a; exact Hm).
      + exists ty, a. clear Er. sides r r0; auto. apply in_app_iff in Hm as [Hm|[Hm|[]]]; [exact Hm|]. inversion Hm; subst. exfalso.
        assert (Hlt : o < nobjs (side s r0)) by (eapply start_lt; [exact Ob|apply in_or_app; left; exact Ho]).
        destruct H5 as [[? [? ?]]|[? [? ?]]]; lia.
      + exists ty, a. clear Er. sides r r0; exact Hm.
      + exists ty, a. clear Er. sides r r0; exact Hm.
      + exists ty, a. clear Er. sides r r0; exact Hm.
      + exists ty, a. clear Er. sides r r0; exact Hm.
      + exists ty, a. clear Er. sides r r0; exact Hm.
      + exists ty, a. subst r. destruct r0; exact Hm || (cbn in Hm; contradiction).
    - intros k o sid Hk. apply in_or_app. left. eauto.
  Qed.

  Lemma good_step h l s' ev : good h (final h) (trace h) -> pstep (final h) l s' ev -> good (h ++ [l]) s' (trace h ++ ev).
  Proof.
    intros [[ev0 Etr] (p & Hn & Hg)] Hp. assert (I := inv_final h). assert (Z := close_final h). assert (S := sub_final h).
    split; [exists (ev0 ++ ev); rewrite Etr, app_assoc; reflexivity|].
    assert (Hcl : forall r, closed (final h) (trace h) r -> closed s' (trace h ++ ev) r).
    { intros r Hc. eapply closed_step; eauto. }
    assert (Hha : forall r acts, half (trace h) r acts -> half (trace h ++ ev) r acts).
    { intros r acts Hh k o sid Hk. destruct (Hh _ _ _ Hk); [left; apply in_or_app; auto|auto]. }
    assert (Hsame : nth_error (calls s') t0 = Some (CShut rs, p) ->
              exists p, nth_error (calls s') t0 = Some (CShut rs, p) /\ forall r, In r rs -> at_ s' (trace h ++ ev) p r).
    { intro Hn'. exists p. split; [exact Hn'|]. intros r Hr. specialize (Hg r Hr). destruct p as [|o|l0|r0 acts l0|]; cbn in *; auto.
      - destruct Hg; auto.
      - destruct Hg as [[-> Hg]|[Hg|Hg]]; auto. }
    assert (Hother : forall t c p0 p1, nth_error (calls (final h)) t = Some (c, p0) -> t <> t0 ->
              nth_error (set_nth t (c, p1) (calls (final h))) t0 = Some (CShut rs, p)).
    { intros. rewrite nth_set_other; auto. }
    assert (Hset : forall t c p0 p1, nth_error (calls (final h)) t = Some (c, p0) ->
              nth_error (set_nth t (c, p1) (calls (final h))) t = Some (c, p1)).
    { intros. eapply nth_set_same, nth_lt; eauto. }
    destruct Hp; cbn [calls] in *; try (apply Hsame; assumption);
      try (destruct (Nat.eq_dec t t0) as [->|Hne]; [|apply Hsame; rewrite ?calls_at2, ?calls_at; eapply Hother; eauto]);
      try (rewrite H in Hn; discriminate).
    - apply Hsame. cbn. rewrite nth_error_app1; [exact Hn|]. eapply nth_lt; eauto.
    - (* XShut *)
      rewrite Hn in H. inversion H; subst. rewrite calls_at. eexists. split; [eapply Hset; eauto|]. intros r Hr. left. exact Hr.
    - (* XEnd *)
      rewrite Hn in H. inversion H; subst. rewrite calls_at. eexists. split; [eapply Hset; eauto|]. intros r Hr.
      destruct (Hg r Hr) as [[]|Hc]. cbn. apply Hcl. exact Hc.
    - (* XLock *)
      rewrite Hn in H. inversion H; subst. rewrite calls_at2. eexists. split; [eapply Hset; eauto|]. intros r1 Hr. cbn.
      destruct (Hg r1 Hr) as [[-> |Hin]|Hc]; [|auto|auto]. left. split; [reflexivity|].
      intros k o sid (Hpos & Hm & Hnl). rewrite app_nil_r.
      assert (Hm' : In (EMade r1 k o sid) (trace h)) by (rewrite Etr; apply in_or_app; auto).
      destruct (k_alive _ _ (i_kids _ _ I) _ _ _ _ Hm') as [Hk|Hd]; [right|auto].
      assert (Him : in_memo (final h) r1 o).
      { destruct Hnl as [-> |Hnl].
        - destruct (o_start _ _ (i_objs _ _ I) _ _ (k_start _ _ (i_kids _ _ I) _ _ _ _ Hm')) as (ty & a & Hs).
          exists ty, a. apply (z_client _ _ Z). exact Hs.
        - destruct (z_late _ _ Z _ _ _ _ Hk Hpos) as [Hx|Hx]; [exact Hx|]. exfalso. apply Hnl.
          assert (K := i_kids _ _ I). rewrite Etr in Hx, K. eapply late_back; eauto. }
      destruct Him as (ty & a & Him). apply (plan_has _ _ _ _ Him). eapply memo_type; [apply (i_objs _ _ I)|eauto].
    - (* XStop *)
      rewrite Hn in H. inversion H; subst. rewrite calls_at. eexists. split; [eapply Hset; eauto|]. intros r1 Hr. cbn.
      destruct (Hg r1 Hr) as [[-> Hh]|[Hin|Hc]]; [left|auto|auto]. split; [reflexivity|]. intros k o' sid Hk.
      destruct (Hh _ _ _ Hk) as [Hd|[E|Ha]]; [left; apply in_or_app; auto|discriminate|auto].
    - (* XDeinit0 *)
      rewrite Hn in H. inversion H; subst. rewrite calls_at2. eexists. split; [eapply Hset; eauto|]. intros r1 Hr. cbn.
      destruct (Hg r1 Hr) as [[-> Hh]|[Hin|Hc]]; [left|auto|auto]. split; [reflexivity|]. intros k o' sid Hk.
      destruct (Hh _ _ _ Hk) as [Hd|[E|Ha]]; [left; apply in_or_app; auto| |auto]. inversion E; subst. destruct Hk. lia.
    - (* XDeinit *)
      rewrite Hn in H. inversion H; subst. rewrite calls_at2. eexists. split; [eapply Hset; eauto|]. intros r1 Hr. cbn.
      destruct (Hg r1 Hr) as [[-> Hh]|[Hin|Hc]]; [left|auto|auto]. split; [reflexivity|]. intros k o' sid Hk.
      destruct (Hh _ _ _ Hk) as [Hd|[E|Ha]]; [left; apply in_or_app; auto| |auto]. inversion E; subst.
      destruct Hk as (Hpos & Hm & _).
      assert (Hm' : In (EMade r k o' sid) (trace h)) by (rewrite Etr; apply in_or_app; auto).
      left. destruct (k_alive _ _ (i_kids _ _ I) _ _ _ _ Hm') as [Hk|Hd]; [|apply in_or_app; auto].
      apply in_or_app. right. apply in_or_app. left. apply in_map_iff. exists (o', sid, k). split; [reflexivity|].
      apply filter_In. split; [exact Hk|]. apply own_spec. reflexivity.
    - (* XUnlock *)
      rewrite Hn in H. inversion H; subst. rewrite calls_at2. eexists. split; [eapply Hset; eauto|]. intros r1 Hr. cbn.
      destruct (Hg r1 Hr) as [[-> Hh]|[Hin|Hc]]; [right|auto|right; apply Hcl; exact Hc].
      assert (Hc0 : closing (final h) t0 r []) by (eexists; exists rest; exact Hn).
      rewrite app_nil_r. split; [|split].
      + intros o Ho. assert (Ho' : In (EStart r o) (trace h)) by (rewrite Etr; apply in_or_app; auto).
        destruct (z_closed _ _ Z _ _ Ho') as [Hm|Hm]; [|exact Hm].
        destruct (z_stop _ _ Z _ _ _ _ Hc0 Hm) as [[]|Hs]. destruct (z_dein _ _ Z _ _ _ _ Hc0 Hm) as [[]|Hd]. auto.
      + intros o _ _ -> (ty & a & Hm). rewrite side_set in Hm. cbn in Hm. contradiction.
      + intros k o sid Hk. destruct (Hh _ _ _ Hk) as [Hd|[]]. exact Hd.
  Qed.

  Lemma good_all h2 : let h := h1 ++ LCall (CShut rs) :: h2 in good h (final h) (trace h).
  Proof.
    cbv zeta. induction h2 as [|l h2 IH] using rev_ind.
    - split.
      + exists []. rewrite trace_snoc. cbn. reflexivity.
      + exists PStart. split; [|intros; exact Logic.I]. rewrite final_snoc. cbn [step fst calls].
        assert (E : t0 = length (calls (final h1))) by (unfold t0; rewrite <- calls_final, map_length; reflexivity).
        rewrite nth_error_app2 by lia. rewrite E, Nat.sub_diag. reflexivity.
    - change (h1 ++ LCall (CShut rs) :: h2 ++ [l]) with (h1 ++ (LCall (CShut rs) :: h2) ++ [l]). rewrite app_assoc.
      rewrite trace_snoc, final_snoc. apply good_step; [exact IH|apply step_pstep].
  Qed.
  Lemma shut_done h2 r : let h := h1 ++ LCall (CShut rs) :: h2 in In (EShut t0) (trace h) -> In r rs -> closed (final h) (trace h) r.
  Proof.
    cbv zeta. intros He Hr. destruct (good_all h2) as [_ (p & Hn & Hg)].
    destruct (c_shut _ _ (i_calls _ _ (inv_final _)) _ He) as [rs' Hn']. rewrite Hn in Hn'. inversion Hn'; subst. exact (Hg r Hr).
  Qed.
End Shut.

(** ** Servers that were forgotten are not handed out again *)
Definition lost (s : st) (r : role) (o : nat) : Prop := 1 <= o < nobjs (side s r) /\ ~ in_memo s r o.
Lemma lost_step s l s' ev r o : pstep s l s' ev -> lost s r o -> lost s' r o.
Proof.
  intros Hp [Hlt Hm]. destruct Hp; try (split; [exact Hlt|exact Hm]).
  - split.
    + sides r r0; [|exact Hlt]. destruct H2 as [[? [? ?]]|[? [? ?]]]; lia.
    + intros (ty' & a' & Hin). apply Hm. exists ty', a'. sides r r0; [|exact Hin].
      apply in_app_iff in Hin as [Hin|[Hin|[]]]; [exact Hin|]. inversion Hin; subst. destruct H2 as [[? [? ?]]|[? [? ?]]]; lia.
  - split.
    + sides r r0; [lia|exact Hlt].
    + intros (ty' & a' & Hin). apply Hm. exists ty', a'. sides r r0; exact Hin.
  - split; [sides r r0; exact Hlt|]. intros (ty' & a' & Hin). apply Hm. exists ty', a'. sides r r0; exact Hin.
  - split; [sides r r0; exact Hlt|]. intros (ty' & a' & Hin). apply Hm. exists ty', a'. sides r r0; exact Hin.
  - split; [sides r r0; exact Hlt|]. intros (ty' & a' & Hin). apply Hm. exists ty', a'. sides r r0; exact Hin.
  - split; [sides r r0; exact Hlt|]. intros (ty' & a' & Hin). apply Hm. exists ty', a'. sides r r0; exact Hin.
  - split.
    + sides r r0; [destruct r0; exact Hlt|exact Hlt].
    + intros (ty' & a' & Hin). apply Hm. exists ty', a'. sides r r0; [destruct r0; cbn in Hin; [exact Hin|contradiction]|exact Hin].
Qed.
Lemma lost_more h l r o : lost (final h) r o -> lost (final (h ++ l)) r o.
Proof.
  revert h. induction l as [|x l IH]; intros h H; [rewrite app_nil_r; exact H|].
  change (x :: l) with ([x] ++ l). rewrite app_assoc. apply IH. rewrite final_snoc. eapply lost_step; [apply step_pstep|exact H].
Qed.

(** What a get returns was made on something that was not forgotten when the get was called. *)
Lemma fresh_get h1 r ty a sid h2 : let h := h1 ++ LCall (CGet r ty a sid) :: h2 in let t := length (calls_made h1) in
  (forall o, nth_error (calls (final h)) t = Some (CGet r ty a sid, PHave o) -> ~ lost (final h1) r o) /\
  (forall k, In (EGot t (Some k)) (trace h) -> exists o, In (EMade r k o sid) (trace h) /\ ~ lost (final h1) r o).
Proof.
  cbv zeta. set (t := length (calls_made h1)).
  assert (Et : t = length (calls (final h1))) by (unfold t; rewrite <- calls_final, map_length; reflexivity).
  induction h2 as [|l h2 [IH1 IH2]] using rev_ind.
  - split.
    + intros o Hn. rewrite final_snoc in Hn. cbn [step fst calls] in Hn. rewrite nth_error_app2 in Hn by lia.
      rewrite Et, Nat.sub_diag in Hn. discriminate.
    + intros k Hin. exfalso. rewrite trace_snoc in Hin. cbn in Hin. rewrite app_nil_r in Hin.
      destruct (c_got _ _ (i_calls _ _ (inv_final h1)) _ _ Hin) as (? & ? & ? & ? & ? & Hn & _). apply nth_lt in Hn. lia.
  - change (h1 ++ LCall (CGet r ty a sid) :: h2 ++ [l]) with (h1 ++ (LCall (CGet r ty a sid) :: h2) ++ [l]). rewrite app_assoc.
    set (h := h1 ++ LCall (CGet r ty a sid) :: h2) in *.
    assert (I := inv_final h). assert (K := i_kids _ _ I). assert (C := i_calls _ _ I). assert (Ob := i_objs _ _ I).
    assert (Hlost : forall o, lost (final h1) r o -> lost (final h) r o) by (intro o; apply lost_more).
    assert (Hno : forall o, In o (map snd (memo (side (final h) r))) -> ~ lost (final h1) r o).
    { intros o Hin Hl. apply Hlost in Hl as [_ Hl]. apply Hl. apply in_map_iff in Hin as [[[ty' a'] o'] [E Hin]]. cbn in E. subst o'.
      exists ty', a'. exact Hin. }
    rewrite trace_snoc, final_snoc. pose proof (step_pstep (final h) l) as Hp.
    set (s' := fst (step (final h) l)) in *. set (ev := snd (step (final h) l)) in *. clearbody s' ev.
    assert (Hcall : forall c p, nth_error (calls (final h)) t = Some (c, p) -> c = CGet r ty a sid).
    { intros c p Hn. apply pc_call in Hn. unfold call_no, h in Hn.
      assert (E : calls_made (h1 ++ LCall (CGet r ty a sid) :: h2) = calls_made h1 ++ CGet r ty a sid :: calls_made h2).
      { unfold calls_made. rewrite flat_map_app. reflexivity. }
      rewrite E, nth_error_app2 in Hn by (unfold t; lia). unfold t in Hn. rewrite Nat.sub_diag in Hn. cbn in Hn. congruence. }
    split.
    + intros o Hn. destruct Hp; try (apply IH1; exact Hn); rewrite ?calls_at2, ?calls_at in Hn; cbn [calls] in Hn;
        try match type of Hn with nth_error (set_nth ?u _ _) _ = _ =>
              destruct (Nat.eq_dec u t) as [Hu|Hne];
              [rewrite Hu in *; rewrite nth_set_same in Hn by (eapply nth_lt; eauto)
              |rewrite nth_set_other in Hn by congruence; apply IH1; exact Hn] end;
        try discriminate.
      * destruct (lt_dec t (length (calls (final h)))).
        -- rewrite nth_error_app1 in Hn by assumption. apply IH1. exact Hn.
        -- rewrite nth_error_app2 in Hn by lia. destruct (t - length (calls (final h))) as [|[]]; cbn in Hn; discriminate.
      * inversion Hn; subst. apply Hno. apply lookup_in in H1. apply in_map_iff. exists (ty, a, o). auto.
      * inversion Hn; subst. intro Hl. destruct H2 as [[? [-> ?]]|[? [-> ?]]]; [destruct Hl; lia|].
        apply Hlost in Hl as [? _]. lia.
    + intros k Hin. apply in_app_iff in Hin as [Hin|Hin].
      { destruct (IH2 _ Hin) as (o & H1 & H2). exists o. split; [apply in_or_app; auto|exact H2]. }
      destruct Hp; cbn [In] in Hin;
        try (apply in_app_iff in Hin as [Hin|[E|[]]]; [|discriminate]; apply down_in in Hin as [x [_ E]]; discriminate);
        repeat (destruct Hin as [Hin|Hin]; [try discriminate Hin|]); try contradiction.
      * inversion Hin; subst. assert (Ec := Hcall _ _ H). inversion Ec; subst. exists o. split; [|apply IH1; exact H].
        apply in_or_app. left. apply (k_in _ _ K). apply kid_in. assumption.
      * inversion Hin; subst. assert (Ec := Hcall _ _ H). inversion Ec; subst.
        exists o. split; [|apply IH1; exact H]. apply in_or_app. right. now left.
Qed.
