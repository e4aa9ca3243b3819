(** Slots with executors: calls and emissions. *)
From Verif Require Import ListUtil ExecModel ExecSpec ExecProofs.

Definition running (a : agent) : Prop := (exists r, a_pc a = PRun r) \/ (exists c r, a_pc a = PHeld c r).
Record callI (s : st) (tr : list event) : Prop := {
  g_call : forall t c p, called tr t c p <-> exists a, nth_error (ags s) t = Some a /\ a_call a = c /\ a_proc a = p;
  g_done : forall t, returned tr t <-> exists a, nth_error (ags s) t = Some a /\ a_pc a = PDone;
  g_once : forall t, cnt (rets t) tr <= 1;
  g_lock : forall t a, nth_error (ags s) t = Some a -> (lock s = Some t <-> running a);
  g_holder : forall t, lock s = Some t -> exists a, nth_error (ags s) t = Some a }.

Definition call_event (x : event) : bool := match x with ECall _ _ _ | ERet _ => true | _ => false end.
Lemma call_frame s s' tr ev : callI s tr -> ags s' = ags s -> lock s' = lock s -> (forall x, In x ev -> call_event x = false) -> callI s' (tr ++ ev).
Proof.
  intros [C D O L H] E1 E2 Hev. constructor; rewrite ?E1, ?E2; auto.
  - intros t c p. rewrite <- C. unfold called. rewrite in_app_iff. split; [intros [?|Hx]; [auto|apply Hev in Hx; discriminate]|auto].
  - intros t. rewrite <- D. unfold returned. rewrite in_app_iff. split; [intros [?|Hx]; [auto|apply Hev in Hx; discriminate]|auto].
  - intro t. rewrite cnt_app, (cnt_zero (rets t) ev); [specialize (O t); lia|]. intros x Hx. apply Hev in Hx. destruct x; auto; discriminate.
Qed.
(** Call [t] goes from where it is to [p]. *)
Lemma call_set s s' tr ev t a p : callI s tr -> nth_error (ags s) t = Some a -> a_pc a <> PDone -> ags s' = at_pc s t a p ->
  (forall c q, ~ In (ECall t c q) ev) -> (forall t' c q, ~ In (ECall t' c q) ev) ->
  (forall t', cnt (rets t') ev <= 1) -> (forall t', In (ERet t') ev <-> t' = t /\ p = PDone) ->
  (lock s' = Some t <-> running (Ag (a_call a) (a_proc a) p)) -> (forall t', t' <> t -> (lock s' = Some t' <-> lock s = Some t')) -> callI s' (tr ++ ev).
Proof.
  intros [C D O L H] Ha Hnd E _ Hc Hr1 Hr Hl Hl'. unfold at_pc in E. assert (Hlt := nth_lt _ _ _ Ha).
  assert (Hat : nth_error (ags s') t = Some (Ag (a_call a) (a_proc a) p)) by (rewrite E; apply nth_set_same; exact Hlt).
  assert (Hot : forall t', t' <> t -> nth_error (ags s') t' = nth_error (ags s) t') by (intros t' Hne; rewrite E; apply nth_set_other; congruence).
  constructor.
  - intros t' c q. unfold called. rewrite in_app_iff. split.
    + intros [Hx|Hx]; [|destruct (Hc _ _ _ Hx)]. apply C in Hx as (b & Hb & E1 & E2). destruct (Nat.eq_dec t' t) as [->|Hne].
      * exists (Ag (a_call a) (a_proc a) p). assert (b = a) by congruence. subst. auto.
      * exists b. rewrite Hot by exact Hne. auto.
    + intros (b & Hb & E1 & E2). left. apply C. destruct (Nat.eq_dec t' t) as [->|Hne].
      * exists a. rewrite Hat in Hb. inversion Hb; subst. auto.
      * exists b. rewrite Hot in Hb by exact Hne. auto.
  - intros t'. unfold returned. rewrite in_app_iff, Hr. split.
    + intros [Hx|[-> ->]]; [|eauto]. apply D in Hx as (b & Hb & E1). destruct (Nat.eq_dec t' t) as [->|Hne].
      * congruence.
      * exists b. rewrite Hot by exact Hne. auto.
    + intros (b & Hb & E1). destruct (Nat.eq_dec t' t) as [->|Hne].
      * right. rewrite Hat in Hb. inversion Hb; subst. auto.
      * left. apply D. exists b. rewrite Hot in Hb by exact Hne. auto.
  - intro t'. rewrite cnt_app. destruct (cnt (rets t') ev) eqn:Ec; [specialize (O t'); lia|].
    assert (Hin : 1 <= cnt (rets t') ev) by lia. apply cnt_pos_inv in Hin as (x & Hx & Ex). destruct x; try discriminate. cbn in Ex.
    apply Nat.eqb_eq in Ex. subst t0. apply Hr in Hx as [-> ->].
    assert (Z : cnt (rets t) tr = 0).
    { destruct (cnt (rets t) tr) eqn:Z; [reflexivity|]. assert (Hp : 1 <= cnt (rets t) tr) by lia.
      apply cnt_pos_inv in Hp as (y & Hy & Ey). destruct y; try discriminate. cbn in Ey. apply Nat.eqb_eq in Ey. subst t0.
      apply D in Hy as (b & Hb & Eb). congruence. }
    rewrite Z. specialize (Hr1 t). lia.
  - intros t' b Hb. destruct (Nat.eq_dec t' t) as [->|Hne].
    + rewrite Hat in Hb. inversion Hb; subst. exact Hl.
    + rewrite Hl' by exact Hne. apply L. rewrite <- Hot; auto.
  - intros t' Hk. destruct (Nat.eq_dec t' t) as [->|Hne]; [eauto|]. rewrite Hl' in Hk by exact Hne. rewrite Hot by exact Hne. auto.
Qed.

Ltac nocall := let x := fresh "x" in let K := fresh "K" in intros x K; cbn in K;
  repeat (destruct K as [K|K]; [subst; reflexivity|]); first [contradiction | apply dropped_in in K as (? & _ & ->); reflexivity].
Lemma not_running_done c q : ~ running (Ag c q PDone).
Proof. intros [[r H]|(c' & r & H)]; discriminate. Qed.
Lemma not_running_start c q : ~ running (Ag c q PStart).
Proof. intros [[r H]|(c' & r & H)]; discriminate. Qed.
Lemma is_run c q r : running (Ag c q (PRun r)).
Proof. left. exists r. reflexivity. Qed.
Lemma is_held c q d r : running (Ag c q (PHeld d r)).
Proof. right. exists d, r. reflexivity. Qed.
Ltac evs := cbn; intros; repeat match goal with |- context [if ?b then _ else _] => destruct b; cbn end;
   repeat match goal with |- ~ _ => intro end; repeat match goal with H : _ \/ _ |- _ => destruct H end; try discriminate; try contradiction.
Lemma rets1 t t' : cnt (rets t') [ERet t] <= 1.
Proof. rewrite cnt_cons, cnt_nil. destruct (rets t' (ERet t)); cbn; lia. Qed.
Lemma rets2 x t t' : call_event x = false -> cnt (rets t') [x; ERet t] <= 1.
Proof. intro H. rewrite cnt_cons. assert (rets t' x = false) by (destruct x; auto; discriminate). rewrite H0. cbn [b2n]. apply rets1. Qed.
Lemma rets0 x t' : call_event x = false -> cnt (rets t') [x] <= 1.
Proof. intro H. rewrite cnt_cons, cnt_nil. destruct (rets t' x); cbn; lia. Qed.

Lemma call_step s l s' ev tr : callI s tr -> pstep s l s' ev -> callI s' (tr ++ ev).
Proof.
  intros I Hp.
  assert (Own : forall t a, nth_error (ags s) t = Some a -> running a -> lock s = Some t) by (intros t a Ha Hr; apply (g_lock _ _ I _ _ Ha); exact Hr).
  destruct Hp; try (eapply call_frame; [exact I|reflexivity|reflexivity|nocall]).
  - (* XCall *)
    destruct I as [C D O L K]. constructor; cbn [ags lock to].
    + intros t c' q. unfold called. rewrite in_app_iff, nth_snoc. cbn [In]. split.
      * intros [Hx|[Hx|[]]].
        -- apply C in Hx as (b & Hb & E). assert (Hlt := nth_lt _ _ _ Hb). destruct (Nat.eqb_spec t (length (ags s))); [lia|eauto].
        -- inversion Hx; subst. rewrite Nat.eqb_refl. eexists. split; [reflexivity|auto].
      * intros (b & Hb & E1 & E2). destruct (Nat.eqb_spec t (length (ags s))) as [->|Hne].
        -- inversion Hb; subst. cbn. auto.
        -- left. apply C. eauto.
    + intros t. unfold returned. rewrite in_app_iff, nth_snoc. cbn [In]. split.
      * intros [Hx|[Hx|[]]]; [|discriminate]. apply D in Hx as (b & Hb & E). assert (Hlt := nth_lt _ _ _ Hb).
        destruct (Nat.eqb_spec t (length (ags s))); [lia|eauto].
      * intros (b & Hb & E1). destruct (Nat.eqb_spec t (length (ags s))) as [->|Hne]; [inversion Hb; subst; discriminate|]. left. apply D. eauto.
    + intro t. rewrite cnt_app. specialize (O t). rewrite cnt_cons, cnt_nil. cbn. lia.
    + intros t b Hb. rewrite nth_snoc in Hb. destruct (Nat.eqb_spec t (length (ags s))) as [->|Hne]; [|auto].
      inversion Hb; subst. split; [|intro Hr; destruct (not_running_start _ _ Hr)]. intro Hl. apply K in Hl as [b Hb']. apply nth_lt in Hb'. lia.
    + intros t Hl. rewrite nth_snoc. apply K in Hl as [b Hb]. assert (Hlt := nth_lt _ _ _ Hb). destruct (Nat.eqb_spec t (length (ags s))); [lia|eauto].
  - eapply call_set; [exact I|exact H|congruence|reflexivity|evs|evs|intro; apply rets2; reflexivity| | |].
    + intro t'. cbn. split; [intros [E|[E|[]]]; [discriminate|inversion E; auto]|intros [-> _]; auto].
    + cbn. split; [discriminate|intro Hr; destruct (not_running_done _ _ Hr)].
    + intros t' _. cbn. rewrite H2. tauto.
  - eapply call_set; [exact I|exact H|congruence|reflexivity|evs|evs| | | |].
    + intro t'. destruct (existsb _ _); [apply rets2; reflexivity|apply rets1].
    + intro t'. destruct (existsb _ _); cbn; (split; [intros Hx; repeat destruct Hx as [Hx|Hx]; try discriminate; try contradiction; inversion Hx; auto|intros [-> _]; auto]).
    + cbn. split; [discriminate|intro Hr; destruct (not_running_done _ _ Hr)].
    + intros t' _. cbn. rewrite H2. tauto.
  - eapply call_set; [exact I|exact H|congruence|reflexivity|evs|evs|intro; apply rets0; reflexivity| | |].
    + intro t'. cbn. split; [intros [E|[]]; discriminate|intros [_ E]; discriminate].
    + cbn. split; [intro; apply is_run|reflexivity].
    + intros t' Hne. cbn. rewrite H2. split; [congruence|discriminate].
  - eapply call_set; [exact I|exact H|congruence|reflexivity|evs|evs|intro; apply rets0; reflexivity| | |].
    + intro t'. cbn. split; [intros [E|[]]; discriminate|intros [_ E]; discriminate].
    + cbn. split; [intro; apply is_run|intros _; apply (Own _ _ H); left; eauto].
    + intros t' Hne. cbn. tauto.
  - eapply call_set; [exact I|exact H|congruence|reflexivity|evs|evs|intro; apply rets0; reflexivity| | |].
    + intro t'. cbn. split; [intros [E|[]]; discriminate|intros [_ E]; discriminate].
    + cbn. split; [intro; apply is_run|intros _; apply (Own _ _ H); left; eauto].
    + intros t' Hne. cbn. tauto.
  - eapply call_set; [exact I|exact H|congruence|reflexivity|evs|evs|intro; apply rets0; reflexivity| | |].
    + intro t'. cbn. split; [intros [E|[]]; discriminate|intros [_ E]; destruct k; discriminate].
    + cbn. split; [intro; destruct k; first [apply is_run|apply is_held]|intros _; apply (Own _ _ H); left; eauto].
    + intros t' Hne. cbn. tauto.
  - eapply call_set; [exact I|exact H|congruence|reflexivity|evs|evs|intro; apply rets2; reflexivity| | |].
    + intro t'. cbn. split; [intros [E|[E|[]]]; [discriminate|inversion E; auto]|intros [-> _]; auto].
    + cbn. split; [discriminate|intro Hr; destruct (not_running_done _ _ Hr)].
    + intros t' Hne. cbn. assert (L := Own _ _ H (or_introl (ex_intro _ _ H1))). rewrite L. split; [discriminate|congruence].
  - rewrite app_nil_r. assert (X : callI (to s (lock s) (keeper s) (queue s) (at_pc s t a (PRun rest))) (tr ++ [])); [|rewrite app_nil_r in X; exact X].
    eapply call_set; [exact I|exact H|congruence|reflexivity|evs|evs|intro; rewrite cnt_nil; lia| | |].
    + intro t'. cbn. split; [intros []|intros [_ E]; discriminate].
    + cbn. split; [intro; apply is_run|intros _; apply (Own _ _ H); right; eauto].
    + intros t' Hne. cbn. tauto.
Qed.
Lemma call_init : callI st_new [].
Proof.
  constructor; cbn; try discriminate.
  - intros t c p. split; [intros []|intros (a & Ha & _); destruct t; discriminate].
  - intros t. split; [intros []|intros (a & Ha & _); destruct t; discriminate].
  - intro t. rewrite cnt_nil. lia.
  - intros t a Ha. destruct t; discriminate.
Qed.
