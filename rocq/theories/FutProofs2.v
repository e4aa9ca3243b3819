(** Waitable connections: the invariant holds. *)
From Verif Require Import ListUtil FutModel FutSpec FutProofs.

Lemma in_broken s e : In e (broken_now s) <-> exists w x, e = EBroke w /\ nth_error (wts s) w = Some x /\ w_in x = true.
Proof.
  unfold broken_now. rewrite in_flat_map. split.
  - intros [w [_ H]]. destruct (nth_error (wts s) w) as [x|] eqn:E; [|contradiction]. destruct (w_in x) eqn:W; [|contradiction].
    destruct H as [<-|[]]. eauto.
  - intros (w & x & -> & Hx & W). exists w. split.
    + apply in_seq. apply nth_lt in Hx. lia.
    + rewrite Hx, W. now left.
Qed.

Lemma wts_same s s' tr ev : wtsI s tr -> wts s' = wts s -> (forall w e, In e ev -> about w e = false) -> wtsI s' (tr ++ ev).
Proof.
  intros [B N] E H. constructor; rewrite E.
  - intros w x Hx. apply wt_frame; auto.
  - intros w e Hw He. apply in_app_iff in He as [He|He]; eauto.
Qed.
Lemma wts_set s s' tr ev w x x' : wtsI s tr -> nth_error (wts s) w = Some x -> wts s' = set_nth w x' (wts s) ->
  (forall w' e, w' <> w -> In e ev -> about w' e = false) -> (wt_ok tr w x -> wt_ok (tr ++ ev) w x') -> wtsI s' (tr ++ ev).
Proof.
  intros [B N] Hx E H Hok. constructor; rewrite E.
  - intros w' y Hy. destruct (Nat.eq_dec w' w) as [->|Hne].
    + rewrite nth_set_same in Hy by (eapply nth_lt; eauto). inversion Hy; subst. apply Hok. auto.
    + rewrite nth_set_other in Hy by congruence. apply wt_frame; [intros e He; apply H; auto|]. auto.
  - rewrite length_set_nth. intros w' e Hw He. apply in_app_iff in He as [He|He]; [eauto|]. apply H; [|exact He].
    apply nth_lt in Hx. lia.
Qed.

Lemma ok_in tr w x : wt_ok tr w x -> w_in x = true ->
  w_prom x = Pend /\ w_held x = false /\ w_fut x = true /\ cnt (fires w) tr = 0 /\ ~ In (EBroke w) tr /\ no_slot tr w /\ ~ In (ECancel w) tr.
Proof.
  intros (_ & _ & H) W. destruct (w_prom x); [|destruct H; congruence|destruct H; congruence].
  destruct H as (A & B & C & D & E & F). rewrite W in A. destruct (w_held x); [discriminate|]. auto 8.
Qed.
Ltac one := let e := fresh "e" in let K := fresh "K" in intros ? e ? K; cbn in K; repeat destruct K as [K|K]; try contradiction; subst e; cbn;
  try reflexivity; apply Nat.eqb_neq; assumption.

(** A wait that blocks has a valid future; only one waits at a time. *)
Definition fut_ok (s : st) : Prop := forall t a w x, nth_error (ags s) t = Some a -> a_pc a = PBlock -> waits_on (a_call a) = Some w ->
  nth_error (wts s) w = Some x -> w_fut x = true.
Definition known_ok (s : st) : Prop :=
  forall t a w, nth_error (ags s) t = Some a -> (a_call a = CCancel w \/ waits_on (a_call a) = Some w) -> known s w = true.

Lemma wts_step s l s' ev tr : fut_ok s -> known_ok s -> wtsI s tr -> pstep s l s' ev -> wtsI s' (tr ++ ev).
Proof.
  intros F Kn I Hp. assert (I' := I). destruct I' as [B N].
  destruct Hp.
  - rewrite app_nil_r. exact I.
  - apply wts_same with s; [exact I|reflexivity|]. intros w e [<-|[]]. reflexivity.
  - (* XJoin *)
    constructor; cbn [wts upd].
    + intros w' x Hx. rewrite nth_snoc in Hx. destruct (Nat.eqb_spec w' (length (wts s))) as [->|Hne].
      2:{ apply wt_frame; [|auto]. intros e [<-|[]]. cbn. apply Nat.eqb_neq. apply nth_lt in Hx. lia. }
      * inversion Hx; subst x; clear Hx. assert (Hz : forall e, In e tr -> about w e = false) by (intros; apply (N w e); [lia|assumption]).
        subst w. assert (Hno : forall e, In e (tr ++ [EJoin t (length (wts s))]) -> about (length (wts s)) e = true -> e = EJoin t (length (wts s))).
        { intros e He Ha. apply in_app_iff in He as [He|[<-|[]]]; [|reflexivity]. rewrite (Hz e He) in Ha. discriminate. }
        split; [exists t; apply in_or_app; right; now left|]. split; [discriminate|]. cbn. split; [reflexivity|]. split; [reflexivity|].
        split; [|split; [|split]].
        -- apply cnt_zero. intros e He. destruct e; try reflexivity. cbn.
           destruct (Nat.eqb (length (wts s)) w) eqn:Q; [|reflexivity]. assert (X := Hno _ He Q). discriminate X.
        -- intro He. assert (X := Hno _ He (Nat.eqb_refl _)). discriminate X.
        -- apply cnt_zero. intros e He. destruct e; try reflexivity. cbn.
           destruct (Nat.eqb (length (wts s)) w) eqn:Q; [|reflexivity]. assert (X := Hno _ He Q). discriminate X.
        -- intro He. assert (X := Hno _ He (Nat.eqb_refl _)). discriminate X.
    + rewrite app_length. cbn. intros w' e Hw He. apply in_app_iff in He as [He|[<-|[]]]; [apply N; [lia|assumption]|].
      cbn. apply Nat.eqb_neq. lia.
  - (* XGot *)
    eapply (wts_set s _ tr _ w x); [exact I|exact H0|reflexivity|one|]. intro Ho. apply wt_frame; [intros e [<-|[]]; reflexivity|].
    destruct Ho as (J & Hh & Ho). split; [exact J|]. split; [auto|]. cbn. destruct (w_prom x); [|destruct Ho; congruence|destruct Ho; congruence].
    destruct Ho as (A & Ho). rewrite H1 in A. split; [exact A|exact Ho].
  - apply wts_same with s; [exact I|reflexivity|]. intros w' e [<-|[]]. reflexivity.
  - apply wts_same with s; [exact I|reflexivity|]. intros w' e [<-|[]]. reflexivity.
  - (* XFire *)
    eapply (wts_set s _ tr _ w x); [exact I|exact H0|reflexivity|one|]. intro Ho. destruct (ok_in _ _ _ Ho H1) as (_ & P2 & P3 & P4 & P5 & P6 & P7).
    destruct Ho as ([u J] & Hh & _). split; [exists u; apply in_or_app; auto|]. split; [exact Hh|]. cbn. split; [reflexivity|].
    split; [rewrite cnt_app, P4; unfold cnt; cbn; rewrite Nat.eqb_refl; reflexivity|].
    split; [exists t; apply in_or_app; right; now left|].
    split; [rewrite in_app_iff; intros [?|[?|[]]]; [auto|discriminate]|].
    split; [rewrite in_app_iff; intros [?|[?|[]]]; [auto|discriminate]|].
    rewrite P3. unfold no_slot in *. rewrite cnt_app, P6. reflexivity.
  - apply wts_same with s; [exact I|reflexivity|]. intros w' e [<-|[<-|[]]]; reflexivity.
  - (* XClear *)
    constructor; cbn [wts upd break_all].
    + intros w' y Hy. rewrite nth_error_map in Hy. destruct (nth_error (wts s) w') as [x|] eqn:Hx; [|discriminate].
      cbn in Hy. inversion Hy; subst y. clear Hy. unfold broke. destruct (w_in x) eqn:W.
      * destruct (ok_in _ _ _ (B _ _ Hx) W) as (_ & P2 & P3 & P4 & P5 & P6 & P7). destruct (B _ _ Hx) as ([u J] & Hh & _).
        split; [exists u; apply in_or_app; auto|]. split; [exact Hh|]. cbn. split; [reflexivity|].
        assert (Hev : forall e, In e (broken_now s ++ [ERet t RUnit]) -> (exists w, e = EBroke w) \/ e = ERet t RUnit).
        { intros e He. apply in_app_iff in He as [He|[<-|[]]]; [|auto]. apply in_broken in He as (w & ? & -> & _). eauto. }
        split; [rewrite cnt_frame; [exact P4|]; intros e He; apply Hev in He as [[w ->]| ->]; reflexivity|].
        split; [apply in_or_app; right; apply in_or_app; left; apply in_broken; eauto|].
        split; [rewrite in_app_iff; intros [He|He]; [auto|]; apply Hev in He as [[w He]|He]; discriminate|].
        unfold no_slot in *. rewrite cnt_frame; [exact P6|]. intros e He. apply Hev in He as [[w ->]| ->]; reflexivity.
      * apply wt_frame; [|auto]. intros e He. apply in_app_iff in He as [He|[<-|[]]]; [|reflexivity].
        apply in_broken in He as (w & y & -> & Hy & Wy). cbn. apply Nat.eqb_neq. intros ->. congruence.
    + rewrite map_length. intros w' e Hw He. apply in_app_iff in He as [He|He]; [eauto|].
      apply in_app_iff in He as [He|[<-|[]]]; [|reflexivity]. apply in_broken in He as (w & y & -> & Hy & _). apply nth_lt in Hy.
      cbn. apply Nat.eqb_neq. lia.
  - (* XCancel *)
    eapply (wts_set s _ tr _ w x); [exact I|exact H0|reflexivity|one|]. intro Ho. destruct (ok_in _ _ _ Ho H1) as (P1 & P2 & P3 & P4 & P5 & P6 & P7).
    destruct Ho as ([u J] & Hh & _). split; [exists u; apply in_or_app; auto|]. rewrite P1. unfold no_slot in *.
    split; [|cbn; split; [reflexivity|]; split; [exact P3|]; split; [|split; [|split]]].
    + intros _. cbn. assert (Hk := Kn _ _ w H (or_introl eq_refl)). unfold known in Hk. rewrite H0 in Hk. exact Hk.
    + rewrite cnt_frame; [exact P4|]. intros e [<-|[<-|[]]]; reflexivity.
    + rewrite in_app_iff. intros [?|[?|[?|[]]]]; [auto|discriminate|discriminate].
    + rewrite cnt_frame; [exact P6|]. intros e [<-|[<-|[]]]; reflexivity.
    + apply in_or_app. right. now left.
  - apply wts_same with s; [exact I|reflexivity|]. intros w' e [<-|[]]; reflexivity.
  - apply wts_same with s; [exact I|reflexivity|]. intros w' e [<-|[]]; reflexivity.
  - apply wts_same with s; [exact I|reflexivity|]. intros w' e [].
  - (* XVal *)
    eapply (wts_set s _ tr _ w x); [exact I|exact H1|reflexivity|one|]. intros ([u J] & Hh & Ho). rewrite H2 in Ho.
    destruct Ho as (P1 & P2 & [e P3] & P4 & P5 & P6). rewrite (F _ _ _ _ H eq_refl H0 H1) in P6.
    split; [exists u; apply in_or_app; auto|]. split; [exact Hh|]. cbn. rewrite H2. split; [exact P1|].
    split; [rewrite cnt_frame; [exact P2|]; intros e' [<-|[]]; reflexivity|].
    split; [exists e; apply in_or_app; auto|].
    split; [rewrite in_app_iff; intros [?|[?|[]]]; [auto|discriminate]|].
    split; [rewrite in_app_iff; intros [?|[?|[]]]; [auto|discriminate]|].
    unfold no_slot in P6. rewrite cnt_app, P6. unfold cnt. cbn. rewrite Nat.eqb_refl. reflexivity.
  - (* XBroken *)
    eapply (wts_set s _ tr _ w x); [exact I|exact H1|reflexivity|one|]. intro Ho. apply wt_frame; [intros e [<-|[]]; reflexivity|].
    destruct Ho as (J & Hh & Ho). split; [exact J|]. split; [exact Hh|]. cbn. rewrite H2 in *. exact Ho.
  - apply wts_same with s; [exact I|reflexivity|]. intros w' e [<-|[]]; reflexivity.
  - apply wts_same with s; [exact I|reflexivity|]. intros w' e [<-|[]]; reflexivity.
Qed.
