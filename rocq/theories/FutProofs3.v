(** Waitable connections: the calls. *)
From Verif Require Import ListUtil FutModel FutSpec FutProofs FutProofs2.

Definition one_wait (s : st) : Prop := forall t t' a a' w, nth_error (ags s) t = Some a -> nth_error (ags s) t' = Some a' ->
  waits_on (a_call a) = Some w -> waits_on (a_call a') = Some w -> a_pc a <> PDone -> a_pc a' <> PDone -> t = t'.
Definition call_event (e : event) : bool := match e with ECall _ _ | ERet _ _ | ESlot _ _ _ => true | _ => false end.

Lemma ags_same s s' tr ev : agsI s tr -> ags s' = ags s -> (forall w, known s w = true -> known s' w = true) ->
  (forall e, In e ev -> call_event e = false) -> agsI s' (tr ++ ev).
Proof.
  intros [G1 G2 G3 G4 G5 G6 G7 G8 G9] E Hk Hev.
  assert (Hin : forall e, call_event e = true -> In e (tr ++ ev) -> In e tr).
  { intros e He Hi. apply in_app_iff in Hi as [Hi|Hi]; [exact Hi|]. apply Hev in Hi. congruence. }
  constructor; rewrite ?E.
  - intros t c. rewrite <- G1. unfold called. split; [apply Hin; reflexivity|intro; apply in_or_app; auto].
  - intro t. rewrite <- G2. unfold returned. split; intros [r Hr]; exists r; [apply Hin; [reflexivity|exact Hr]|apply in_or_app; auto].
  - intro t. rewrite cnt_frame; [apply G3|]. intros e He. apply Hev in He. destruct e; auto; discriminate.
  - intros t a w Ha Hp. apply in_or_app. left. eauto.
  - intros t a v Ha Hp. destruct (G5 _ _ _ Ha Hp) as (w & A & B). exists w. split; [exact A|apply in_or_app; auto].
  - intros t w v Hs. apply Hin in Hs; [|reflexivity]. destruct (G6 _ _ _ Hs) as (a & A & B & C). exists a. split; [exact A|]. split; [exact B|].
    destruct C; [auto|right; apply in_or_app; auto].
  - intros t a Ha Hp. destruct (G7 _ _ Ha Hp) as (v & A & B). exists v. split; [exact A|apply in_or_app; auto].
  - intros t a w Ha Hw. apply Hk. eauto.
  - exact G9.
Qed.

Lemma ags_set s s' tr ev t a p : agsI s tr -> nth_error (ags s) t = Some a -> a_pc a <> PDone ->
  ags s' = set_nth t (Ag (a_call a) (a_in a) p) (ags s) -> (forall w, known s w = true -> known s' w = true) ->
  (forall e, In e ev -> match e with ECall _ _ => False | ERet t' _ => t' = t /\ p = PDone
                        | ESlot t' w v => t' = t /\ waits_on (a_call a) = Some w /\ p = PSlot v | _ => True end) ->
  cnt (rets t) ev <= 1 ->
  match p with
  | PDone => returned ev t /\ match a_pc a with PSlot _ => In (ERet t (RBool true)) ev | _ => True end
  | PCheck w => In (EJoin t w) ev
  | PSlot v => exists w, waits_on (a_call a) = Some w /\ In (ESlot t w v) ev
  | PRun => exists v, a_call a = CEmit v /\ In (EEmit t v) ev
  | PBlock => exists w, waits_on (a_call a) = Some w
  | PStart => False
  end ->
  match a_pc a with PSlot _ => p = PDone | _ => True end ->
  agsI s' (tr ++ ev).
Proof.
  intros [G1 G2 G3 G4 G5 G6 G7 G8 G9] Ha Hnd E Hk Hev Hc Hp Hs.
  assert (Hlt := nth_lt _ _ _ Ha).
  assert (Hset : forall t' a', nth_error (ags s') t' = Some a' -> (t' = t /\ a' = Ag (a_call a) (a_in a) p) \/ t' <> t /\ nth_error (ags s) t' = Some a').
  { intros t' a' H. rewrite E in H. destruct (Nat.eq_dec t' t) as [->|Hne].
    - rewrite nth_set_same in H by exact Hlt. left. split; congruence.
    - rewrite nth_set_other in H by congruence. auto. }
  assert (Hback : forall t' a', nth_error (ags s) t' = Some a' -> exists a2, nth_error (ags s') t' = Some a2 /\ a_call a2 = a_call a' /\ (t' <> t -> a2 = a') /\ (t' = t -> a2 = Ag (a_call a) (a_in a) p)).
  { intros t' a' H. rewrite E. destruct (Nat.eq_dec t' t) as [->|Hne].
    - rewrite nth_set_same by exact Hlt. rewrite Ha in H. inversion H; subst. eexists. split; [reflexivity|]. split; [reflexivity|]. split; [congruence|auto].
    - rewrite nth_set_other by congruence. exists a'. split; [exact H|]. split; [reflexivity|]. split; [auto|congruence]. }
  assert (Hnr : ~ returned tr t).
  { intro Hr. apply G2 in Hr as (a' & Ha' & Hd). congruence. }
  constructor.
  - intros t' c. unfold called. rewrite in_app_iff. split.
    + intros [H|H]; [|apply Hev in H; contradiction]. apply G1 in H as (a' & Ha' & <-). destruct (Hback _ _ Ha') as (a2 & A & B & _). eauto.
    + intros (a' & Ha' & <-). left. apply G1. apply Hset in Ha' as [[-> ->]|[_ Ha']]; [exists a; auto|eauto].
  - intro t'. unfold returned. split.
    + intros [r Hr]. apply in_app_iff in Hr as [Hr|Hr].
      * assert (Hr' : returned tr t') by (exists r; exact Hr). apply G2 in Hr' as (a' & Ha' & Hd).
        destruct (Hback _ _ Ha') as (a2 & A & _ & C & _). exists a2. split; [exact A|]. rewrite C; [exact Hd|]. intros ->.
        apply Hnr. exists r. exact Hr.
      * apply Hev in Hr as [-> Hd]. destruct (Hback _ _ Ha) as (a2 & A & _ & _ & D). exists a2. split; [exact A|]. rewrite D by reflexivity. exact Hd.
    + intros (a' & Ha' & Hd). apply Hset in Ha' as [[-> ->]|[Hne Ha']].
      * cbn in Hd. subst p. destruct Hp as [[r Hr] _]. exists r. apply in_or_app. auto.
      * assert (Hr : returned tr t') by (apply G2; eauto). destruct Hr as [r Hr]. exists r. apply in_or_app. auto.
  - intro t'. rewrite cnt_app. destruct (Nat.eq_dec t' t) as [->|Hne].
    + rewrite (cnt_zero (rets t) tr); [lia|]. intros e He. destruct (rets t e) eqn:Re; [|reflexivity]. exfalso. apply Hnr.
      destruct e; try discriminate. cbn in Re. apply Nat.eqb_eq in Re. subst. exists r. exact He.
    + rewrite (cnt_zero (rets t') ev); [pose proof (G3 t'); lia|]. intros e He. apply Hev in He. destruct e; auto. destruct He. subst.
      cbn. apply Nat.eqb_neq. exact Hne.
  - intros t' a' w Ha' Hp'. apply in_or_app. apply Hset in Ha' as [[-> ->]|[_ Ha']]; [|left; eauto]. cbn in Hp'. subst p. auto.
  - intros t' a' v Ha' Hp'. apply Hset in Ha' as [[-> ->]|[_ Ha']].
    + cbn in *. subst p. destruct Hp as (w & A & B). exists w. split; [exact A|apply in_or_app; auto].
    + destruct (G5 _ _ _ Ha' Hp') as (w & A & B). exists w. split; [exact A|apply in_or_app; auto].
  - intros t' w v Hi. apply in_app_iff in Hi as [Hi|Hi].
    + destruct (G6 _ _ _ Hi) as (a' & Ha' & Hw & Hx). destruct (Hback _ _ Ha') as (a2 & A & B & C & D). exists a2. split; [exact A|].
      split; [rewrite B; exact Hw|]. destruct Hx as [Hx|Hx]; [|right; apply in_or_app; auto].
      destruct (Nat.eq_dec t' t) as [->|Hne]; [|rewrite C by exact Hne; auto]. rewrite Ha in Ha'. inversion Ha'; subst a'.
      rewrite Hx in Hs. subst p. destruct Hp as [_ Hp]. rewrite Hx in Hp. right. apply in_or_app. auto.
    + apply Hev in Hi as (-> & Hw & ->). destruct (Hback _ _ Ha) as (a2 & A & B & C & D). exists a2. split; [exact A|]. rewrite D by reflexivity. auto.
  - intros t' a' Ha' Hp'. apply Hset in Ha' as [[-> ->]|[_ Ha']].
    + cbn in *. subst p. destruct Hp as (v & A & B). exists v. split; [exact A|apply in_or_app; auto].
    + destruct (G7 _ _ Ha' Hp') as (v & A & B). exists v. split; [exact A|apply in_or_app; auto].
  - intros t' a' w Ha' Hw. apply Hk. apply Hset in Ha' as [[-> ->]|[_ Ha']]; [apply (G8 t a); auto|eauto].
  - intros t' a' Ha'. apply Hset in Ha' as [[-> ->]|[_ Ha']]; [|apply (G9 _ _ Ha')]. cbn. destruct p; auto.
Qed.

Lemma known_set s w x x' w' : nth_error (wts s) w = Some x -> (w_pub x = true -> w_pub x' = true) -> known s w' = true ->
  forall s', wts s' = set_nth w x' (wts s) -> known s' w' = true.
Proof.
  intros Hx Hpub Hk s' E. unfold known in *. rewrite E. destruct (Nat.eq_dec w' w) as [->|Hne].
  - rewrite nth_set_same by (eapply nth_lt; eauto). rewrite Hx in Hk. auto.
  - rewrite nth_set_other by congruence. exact Hk.
Qed.
Ltac evs := let e := fresh "e" in let K := fresh "K" in intros e K; cbn in K; repeat destruct K as [K|K]; try contradiction; subst e; cbn; auto.

Lemma ags_step s l s' ev tr : agsI s tr -> pstep s l s' ev -> agsI s' (tr ++ ev).
Proof.
  intros I Hp. assert (R1 : forall t r, cnt (rets t) [ERet t r] <= 1) by (intros; unfold cnt; cbn; rewrite Nat.eqb_refl; cbn; lia).
  assert (R2 : forall t r, returned [ERet t r] t) by (intros t r; exists r; now left).
  destruct Hp.
  - rewrite app_nil_r. exact I.
  - (* XCall *)
    destruct I as [G1 G2 G3 G4 G5 G6 G7 G8 G9].
    assert (Hsn : forall t a, nth_error (ags s ++ [Ag c i PStart]) t = Some a -> nth_error (ags s) t = Some a \/ t = length (ags s) /\ a = Ag c i PStart).
    { intros t a Hx. rewrite nth_snoc in Hx. destruct (Nat.eqb_spec t (length (ags s))); [inversion Hx; auto|auto]. }
    assert (Hold : forall t a, nth_error (ags s) t = Some a -> nth_error (ags s ++ [Ag c i PStart]) t = Some a).
    { intros t a Hx. rewrite nth_error_app1; [exact Hx|]. eapply nth_lt; eauto. }
    assert (Hin : forall e, match e with ECall _ _ => False | _ => True end -> In e (tr ++ [ECall (length (ags s)) c]) -> In e tr).
    { intros e He Hi. apply in_app_iff in Hi as [Hi|[<-|[]]]; [exact Hi|contradiction]. }
    constructor; cbn [ags].
    + intros t c'. unfold called. rewrite in_app_iff. split.
      * intros [Hx|[Hx|[]]].
        -- apply G1 in Hx as (a & Ha & E). eauto.
        -- inversion Hx; subst. exists (Ag c' i PStart). split; [|reflexivity]. rewrite nth_error_app2 by lia. rewrite Nat.sub_diag. reflexivity.
      * intros (a & Ha & <-). apply Hsn in Ha as [Ha|[-> ->]]; [left; apply G1; eauto|right; now left].
    + intro t. split.
      * intros [r Hr]. apply Hin in Hr; [|exact Logic.I]. assert (Hr' : returned tr t) by (exists r; exact Hr).
        apply G2 in Hr' as (a & Ha & E). eauto.
      * intros (a & Ha & E). apply Hsn in Ha as [Ha|[-> ->]]; [|discriminate].
        assert (Hr : returned tr t) by (apply G2; eauto). destruct Hr as [r Hr]. exists r. apply in_or_app. auto.
    + intro t. rewrite cnt_frame; [apply G3|]. intros e [<-|[]]. reflexivity.
    + intros t a w Ha E. apply in_or_app. left. apply Hsn in Ha as [Ha|[-> ->]]; [eauto|discriminate].
    + intros t a v Ha E. apply Hsn in Ha as [Ha|[-> ->]]; [|discriminate]. destruct (G5 _ _ _ Ha E) as (w & A & B). exists w.
      split; [exact A|apply in_or_app; auto].
    + intros t w v Hs. apply Hin in Hs; [|exact Logic.I]. destruct (G6 _ _ _ Hs) as (a & A & B & C). exists a. split; [auto|]. split; [exact B|].
      destruct C; [auto|right; apply in_or_app; auto].
    + intros t a Ha E. apply Hsn in Ha as [Ha|[-> ->]]; [|discriminate]. destruct (G7 _ _ Ha E) as (v & A & B). exists v.
      split; [exact A|apply in_or_app; auto].
    + intros t a w Ha Hw. change (known s w = true). apply Hsn in Ha as [Ha|[-> ->]]; [eauto|]. cbn in Hw.
      unfold may_call in H. apply andb_true_iff in H as [_ H]. destruct Hw as [->|Hw].
      * exact H.
      * destruct c; try discriminate; inversion Hw; subst; apply andb_true_iff in H as [H _]; exact H.
    + intros t a Ha. apply Hsn in Ha as [Ha|[-> ->]]; [apply (G9 _ _ Ha)|exact Logic.I].
  - (* XJoin *)
    eapply ags_set; [exact I|exact H|discriminate|reflexivity| |evs|unfold cnt; cbn; lia|cbn; auto|exact Logic.I].
    intros w' Hk. unfold known in *. cbn [wts upd]. destruct (nth_error (wts s) w') as [x|] eqn:E; [|discriminate].
    rewrite nth_error_app1 by (eapply nth_lt; eauto). rewrite E. exact Hk.
  - eapply ags_set; [exact I|exact H|discriminate|reflexivity| |evs|apply R1|cbn; auto|exact Logic.I].
    intros w' Hk. eapply known_set; [exact H0| |exact Hk|reflexivity]. reflexivity.
  - eapply ags_set; [exact I|exact H|discriminate|reflexivity|auto|evs|apply R1|cbn; auto|exact Logic.I].
  - eapply ags_set; [exact I|exact H|discriminate|reflexivity|auto|evs|unfold cnt; cbn; lia|cbn; eauto|exact Logic.I].
  - (* XFire *)
    eapply ags_same; [exact I|reflexivity| |evs]. intros w' Hk. eapply known_set; [exact H0| |exact Hk|reflexivity]. auto.
  - eapply ags_set; [exact I|exact H|discriminate|reflexivity|auto|evs|unfold cnt; cbn; rewrite Nat.eqb_refl; cbn; lia| |exact Logic.I].
    split; [exists RUnit; right; now left|exact Logic.I].
  - (* XClear *)
    assert (Hb : forall e, In e (broken_now s ++ [ERet t RUnit]) -> (exists w, e = EBroke w) \/ e = ERet t RUnit).
    { intros e He. apply in_app_iff in He as [He|[<-|[]]]; [|auto]. apply in_broken in He as (w & ? & -> & _). eauto. }
    eapply ags_set; [exact I|exact H|discriminate|reflexivity| | | | |exact Logic.I].
    + intros w Hk. unfold known in *. cbn [wts upd break_all]. rewrite nth_error_map. destruct (nth_error (wts s) w) as [x|]; [|discriminate].
      cbn. unfold broke. destruct (w_in x); exact Hk.
    + intros e He. apply Hb in He as [[w ->]| ->]; auto.
    + rewrite cnt_app. rewrite (cnt_zero _ (broken_now s)); [apply R1|]. intros e He. apply in_broken in He as (w & ? & -> & _). reflexivity.
    + split; [exists RUnit; apply in_or_app; right; now left|exact Logic.I].
  - eapply ags_set; [exact I|exact H|discriminate|reflexivity| |evs|unfold cnt; cbn; rewrite Nat.eqb_refl; cbn; lia| |exact Logic.I].
    + intros w' Hk. eapply known_set; [exact H0| |exact Hk|reflexivity]. auto.
    + split; [exists RUnit; right; now left|exact Logic.I].
  - eapply ags_set; [exact I|exact H|discriminate|reflexivity|auto|evs|apply R1|cbn; auto|exact Logic.I].
  - eapply ags_set; [exact I|exact H|discriminate|reflexivity|auto|evs|apply R1|cbn; auto|exact Logic.I].
  - eapply ags_set; [exact I|exact H|discriminate|reflexivity|auto|evs|unfold cnt; cbn; lia|cbn; eauto|exact Logic.I].
  - eapply ags_set; [exact I|exact H|discriminate|reflexivity| |evs|unfold cnt; cbn; lia| |exact Logic.I].
    + intros w' Hk. eapply known_set; [exact H1| |exact Hk|reflexivity]. auto.
    + exists w. split; [exact H0|now left].
  - eapply ags_set; [exact I|exact H|discriminate|reflexivity| |evs|apply R1|cbn; auto|exact Logic.I].
    intros w' Hk. eapply known_set; [exact H1| |exact Hk|reflexivity]. auto.
  - eapply ags_set; [exact I|exact H|discriminate|reflexivity|auto|evs|apply R1|cbn; auto|exact Logic.I].
  - eapply ags_set; [exact I|exact H|discriminate|reflexivity|auto|evs|apply R1| |reflexivity]. cbn. split; [auto|now left].
Qed.
