(** Routing: sendToAll(), and the calls on single processors. *)
From Verif Require Import ListUtil Amap RouteModel RouteSpec RouteSpec2 RouteProofs RouteProofs2 RouteProofs3 RouteProofs4 RouteProofs5 RouteProofs6 RouteProofs7.

Lemma served_now h a self m p : nth_error (agents (final h)) a = Some (KSendAll self m, p) -> late p = false ->
  served (tr (final h) ++ map (fun o => EPost a o m) (others self (receivers (final h) m))) a self m (tr (final h)) [] (others self (receivers (final h) m)).
Proof.
  intros N L. destruct (receivers_audience h m) as [ND A]. split; [rewrite app_nil_r; reflexivity|]. split; [apply call_agent; eauto|]. split; [apply NoDup_filter; exact ND|].
  split; [|split; [|intros x m' []]].
  - intros o. unfold others. rewrite filter_In, A. destruct self as [y|].
    + destruct (Nat.eqb_spec o y) as [->|NE]; cbn; split.
      * intros [_ X]; discriminate.
      * intros (_ & _ & X). congruence.
      * intros [[W J] _]. split; [exact W|]. split; [exact J|]. congruence.
      * intros (W & J & _). auto.
    + split; [intros [[W J] _]; split; [exact W|]; split; [exact J|discriminate]|intros (W & J & _); auto].
  - intros x m' I. apply poster in I as (c & p' & N' & L'). rewrite N in N'. injection N' as <- <-. congruence.
Qed.

Lemma served_later l k a self m l0 l3 os : served l a self m l0 l3 os -> (forall x m', ~ In (EPost a x m') k) -> served (l ++ k) a self m l0 (l3 ++ k) os.
Proof.
  intros (-> & C & ND & A & B & D) K. split; [rewrite <- !app_assoc; reflexivity|]. do 4 (split; [assumption|]). intros x m' I. apply in_app_iff in I as [I|I]; [exact (D _ _ I)|exact (K _ _ I)].
Qed.

(** A call that is past its posts posts nothing more. *)
Lemma late_quiet s s' a c p k : step s s' -> nth_error (agents s) a = Some (c, p) -> late p = true -> tr s' = tr s ++ k -> forall x m, ~ In (EPost a x m) k.
Proof.
  intros S N L T x m I. assert (X : forall c0 p0, nth_error (agents s) a = Some (c0, p0) -> late p0 = true) by (intros c0 p0 E; rewrite N in E; injection E as <- <-; exact L).
  inversion S; subst; cbn in T; rewrite <- ?app_assoc in T; apply app_inv_head in T || (rewrite <- (app_nil_r (tr s)) in T at 1; apply app_inv_head in T); subst k;
    events I; try (inversion I; subst; match goal with H : nth_error (agents s) _ = Some (_, ?q) |- _ => apply X in H; discriminate H end).
Qed.

Definition all_served (s : state) : Prop := forall a self m p, nth_error (agents s) a = Some (KSendAll self m, p) -> late p = true -> exists l0 l3 os, served (tr s) a self m l0 l3 os.
Lemma served_final h : all_served (final h).
Proof.
  revert h. apply state_ind; [intros [|a] self m p N; discriminate|]. intros h s' IH S a self m p N L.
  destruct (step_tr _ _ S) as [k K].
  assert (OLD : forall p0, nth_error (agents (final h)) a = Some (KSendAll self m, p0) -> late p0 = true -> exists l0 l3 os, served (tr s') a self m l0 l3 os).
  { intros p0 N0 L0. destruct (IH _ _ _ _ N0 L0) as (l0 & l3 & os & X). exists l0, (l3 ++ k), os. rewrite K. apply served_later; [exact X|]. eapply late_quiet; eauto. }
  destruct (nth_error (agents (final h)) a) as [[c0 p0]|] eqn:N0.
  - assert (c0 = KSendAll self m).
    { destruct (step_shape _ _ S) as [c1 C A T'|a0 c1 p1 p' k1 N1 NP NP' A T' Q|a0 c1 p1 k1 r0 N1 NP A T' Q|a0 self1 m1 i N1 A T']; rewrite A in N; rewrite ?nth_snoc, ?length_set_nth in N; try (erewrite nth_set in N by eassumption); pose proof (nth_lt _ _ _ N0);
        repeat match goal with H : context [if Nat.eqb ?x ?y then _ else _] |- _ => destruct (Nat.eqb_spec x y); subst end; try lia; congruence. }
    subst c0. destruct (late p0) eqn:L0; [eapply OLD; eauto|].
    inversion S; subst; cbn [agents tr] in *; pose proof (nth_lt _ _ _ N0); rewrite ?nth_snoc, ?length_set_nth in N; try (erewrite nth_set in N by eassumption);
      repeat match type of N with context [if Nat.eqb ?x ?y then _ else _] => destruct (Nat.eqb_spec x y); subst end; try lia; try congruence.
    + rewrite N0 in H. inversion H; subst. exists (tr (final h)), ([] ++ [ERet a RUnit]), (others self0 (receivers (final h) m0)).
      apply served_later; [exact (served_now h a self0 m0 _ N0 L0)|]. intros x m' [I|[]]. discriminate.
    + rewrite N0 in H. inversion H; subst. exists (tr (final h)), [], (others (Some x) (receivers (final h) m0)). exact (served_now h a (Some x) m0 _ N0 L0).
    + rewrite N0 in H. inversion H; subst. discriminate.
    + rewrite N0 in H. inversion H; subst. discriminate.
    + rewrite N0 in H. inversion H; subst. discriminate.
  - inversion S; subst; cbn [agents] in *; rewrite ?nth_snoc, ?length_set_nth in N; try (erewrite nth_set in N by eassumption);
      repeat match type of N with context [if Nat.eqb ?x ?y then _ else _] => destruct (Nat.eqb_spec x y); subst end; try congruence; try (injection N; intros; subst; discriminate L).
Qed.

Lemma send_all_result h l1 l2 a self m r : tr (final h) = l1 ++ ERet a r :: l2 -> called (tr (final h)) a (KSendAll self m) -> r = RUnit /\ exists l0 l3 os, served l1 a self m l0 l3 os.
Proof.
  intros E C. at_return E C.
  - inversion N'; subst. apply app_inj_tail in T as [E1 _]. split; [reflexivity|]. rewrite <- E1.
    exists (tr (final h1)), [], (others self (receivers (final h1) m)). eapply served_now; [exact H|reflexivity].
  - inversion N'; subst. apply one_tail in T as [-> T]. rewrite app_nil_r. split; [reflexivity|]. eapply served_final; [exact H|reflexivity].
Qed.

(** ** stop(), reuse(), connect(), disconnect() *)
Lemma closed_grows l k a o : was_closed l a o -> was_closed (l ++ k) a o.
Proof. intros (l0 & l3 & -> & C & X). exists l0, (l3 ++ k). rewrite app_assoc. auto. Qed.
Lemma closing_final h : forall a o p, nth_error (agents (final h)) a = Some (KStop o, p) -> (p = PErase \/ p = PTell) -> was_closed (tr (final h)) a o.
Proof.
  revert h. refine (state_ind (fun s => forall a o p, nth_error (agents s) a = Some (KStop o, p) -> (p = PErase \/ p = PTell) -> was_closed (tr s) a o) _ _); [intros [|a]; discriminate|].
  intros h s' IH S a o p N P. destruct (step_tr _ _ S) as [k K].
  assert (OLD : forall p0, nth_error (agents (final h)) a = Some (KStop o, p0) -> p0 = PErase \/ p0 = PTell -> was_closed (tr s') a o) by (intros p0 N0 P0; rewrite K; apply closed_grows; eapply IH; eauto).
  inversion S; subst; cbn [agents tr] in *; rewrite ?nth_snoc, ?length_set_nth in N; try (erewrite nth_set in N by eassumption);
    repeat match type of N with context [if Nat.eqb ?x ?y then _ else _] => destruct (Nat.eqb_spec x y); subst end; try (eapply OLD; eassumption); try (destruct P; congruence).
  - injection N as -> <-. exists (tr (final h) ++ [EClose o]), []. rewrite app_nil_r. split; [reflexivity|]. split; [apply in_app_iff; left; apply call_agent; eauto|]. rewrite open_snoc, Nat.eqb_refl. reflexivity.
  - injection N as -> <-. eapply OLD; eauto.
Qed.

Lemma stop_result h l1 l2 a o r : tr (final h) = l1 ++ ERet a r :: l2 -> called (tr (final h)) a (KStop o) -> was_closed l1 a o.
Proof.
  intros E C. at_return E C.
  - inversion N'; subst. apply one_tail in T as [-> _]. rewrite app_nil_r. exists (tr (final h1)), []. rewrite app_nil_r. split; [reflexivity|]. split; [apply call_agent; eauto|].
    apply negb_true_iff. rewrite <- closed_open; [assumption|]. apply made_lt. eapply target_made; [exact H|reflexivity].
  - inversion N'; subst. apply closed_grows. eapply closing_final; [exact H|auto].
  - inversion N'; subst. apply closed_grows. eapply closing_final; [exact H|auto].
Qed.

Lemma two_tail {A} (x y z : A) k : [x; y] = k ++ [z] -> k = [x] /\ y = z.
Proof. destruct k as [|w [|v k]]; cbn; intros E; [discriminate|injection E as -> ->; auto|injection E as _ _ E; destruct k; discriminate]. Qed.
Lemma connect_result h l1 l2 a o ty r : tr (final h) = l1 ++ ERet a r :: l2 -> called (tr (final h)) a (KConnect o ty) -> exists l0, l1 = l0 ++ [EConnect o ty] /\ In (ECall a (KConnect o ty)) l0.
Proof.
  intros E C. at_return E C. inversion N'; subst. apply two_tail in T as [-> _]. exists (tr (final h1)). split; [reflexivity|]. apply call_agent. eauto.
Qed.
Lemma disconnect_result h l1 l2 a o ty r : tr (final h) = l1 ++ ERet a r :: l2 -> called (tr (final h)) a (KDisconnect o ty) -> exists l0, l1 = l0 ++ [EDisconnect o ty] /\ In (ECall a (KDisconnect o ty)) l0.
Proof.
  intros E C. at_return E C. inversion N'; subst. apply two_tail in T as [-> _]. exists (tr (final h1)). split; [reflexivity|]. apply call_agent. eauto.
Qed.
Lemma reuse_result h l1 l2 a o r : tr (final h) = l1 ++ ERet a r :: l2 -> called (tr (final h)) a (KReuse o) -> exists l0, l1 = l0 ++ [EOpen o] /\ In (ECall a (KReuse o)) l0.
Proof.
  intros E C. at_return E C. inversion N'; subst. apply two_tail in T as [-> _]. exists (tr (final h1)). split; [reflexivity|]. apply call_agent. eauto.
Qed.

(** ** Who causes an event *)
Lemma cause_step s s' k1 e k2 : step s s' -> tr s' = tr s ++ k1 ++ e :: k2 -> match e with EConnect _ _ | EDisconnect _ _ | EOpen _ | EClose _ => True | _ => False end ->
  exists a c p, nth_error (agents s) a = Some (c, p) /\ cause e c /\ forall r, p <> PRet r.
Proof.
  intros S T Y. assert (I : In e (k1 ++ e :: k2)) by (apply in_app_iff; right; left; reflexivity).
  inversion S; subst; cbn in T; rewrite <- ?app_assoc in T; apply app_inv_head in T || (rewrite <- (app_nil_r (tr s)) in T at 1; apply app_inv_head in T); rewrite <- T in I;
    repeat first [apply in_app_iff in I; destruct I as [I|I]|apply in_told in I as (? & I & _)|apply in_informed in I as (? & I)|destruct I as [I|I]|apply in_map_iff in I as (? & I & _)|contradiction];
    subst e; try contradiction; match goal with H : nth_error (agents s) ?a = Some (?c, ?p) |- _ => exists a, c, p end; (split; [assumption|]; split; [reflexivity|discriminate]).
Qed.
Lemma caused h l1 e l2 : tr (final h) = l1 ++ e :: l2 -> match e with EConnect _ _ | EDisconnect _ _ | EOpen _ | EClose _ => True | _ => False end ->
  exists a c, cause e c /\ called l1 a c /\ running l1 a.
Proof.
  intros E Y. destruct (split_step _ _ _ _ E) as (h1 & h2 & s' & k1 & k2 & t & -> & S & T & -> & -> & _).
  destruct (cause_step _ _ _ _ _ S T Y) as (a & c & p & N & X & NP). exists a, c. split; [exact X|].
  assert (K1 : k1 = []).
  { assert (Y1 : forall A (x : A) k1 k2 z, [x] = k1 ++ z :: k2 -> k1 = []) by (intros A x [|? [|]] ? z Q; [reflexivity|discriminate|discriminate]).
    assert (Y2 : forall (x y : event) z k1 k2, [x; y] = k1 ++ z :: k2 -> match y with ERet _ _ => True | _ => False end -> match z with ERet _ _ => False | _ => True end -> k1 = []).
    { intros x y z [|w [|v q]] q2 Q Z1 Z2; [reflexivity| |destruct q; discriminate]. injection Q as _ -> _. destruct z; contradiction. }
    clear - S T Y Y1 Y2. inversion S; subst; cbn in T; rewrite <- ?app_assoc in T; apply app_inv_head in T || (rewrite <- (app_nil_r (tr (final h1))) in T at 1; apply app_inv_head in T); cbn in T;
      try (eapply Y1; exact T); try (eapply Y2; [exact T|exact Logic.I|destruct e; exact Logic.I || contradiction]); try (destruct k1; discriminate T);
      exfalso; match type of T with ?x = _ => assert (I : In e x) by (rewrite T; apply in_app_iff; right; left; reflexivity) end;
      repeat first [apply in_app_iff in I; destruct I as [I|I]|apply in_told in I as (? & I & _)|apply in_informed in I as (? & I)|destruct I as [I|I]|apply in_map_iff in I as (? & I & _)|contradiction]; subst e; contradiction. }
  subst k1. rewrite app_nil_r. split; [apply call_agent; eauto|]. eapply running_agent; eauto.
Qed.

Lemma posted h a o m : In (EPost a o m) (tr (final h)) -> exists c, called (tr (final h)) a c /\ may_post c m.
Proof.
  intros I. assert (X : exists c p, nth_error (agents (final h)) a = Some (c, p) /\ may_post c m).
  { revert h I. refine (state_ind (fun s => In (EPost a o m) (tr s) -> exists c p, nth_error (agents s) a = Some (c, p) /\ may_post c m) _ _); [intros []|].
    intros h s' IH S I. assert (HH : In (EPost a o m) (tr (final h)) -> exists c p, nth_error (agents s') a = Some (c, p) /\ may_post c m).
    { intros J. destruct (IH J) as (c & p & N & L). pose proof (nth_lt _ _ _ N). exists c.
      destruct (step_shape _ _ S) as [c1 C A T'|a0 c1 p1 p' k1 N1 NP NP' A T' Q|a0 c1 p1 k1 r0 N1 NP A T' Q|a0 self1 m1 i N1 A T']; rewrite A; rewrite ?nth_snoc, ?length_set_nth; try (erewrite nth_set by eassumption);
        repeat match goal with |- context [if Nat.eqb ?x ?y then _ else _] => destruct (Nat.eqb_spec x y); subst end; try lia; rewrite ?N in *; eauto;
        match goal with H : Some _ = Some _ |- _ => injection H as -> -> end; eauto. }
    inversion S; subst; events I; try exact (HH I); injection I; intros; subst; cbn; erewrite nth_set by eassumption; rewrite Nat.eqb_refl; eexists; eexists; (split; [reflexivity|]); cbn; eauto. }
  destruct X as (c & p & N & L). exists c. split; [apply call_agent; eauto|exact L].
Qed.

Lemma post_all_once h l1 l2 a m r : tr (final h) = l1 ++ ERet a r :: l2 -> called (tr (final h)) a (KPostAll m) ->
  exists l0 os, l1 = l0 ++ map (fun o => EPost a o m) os /\ audience l0 m os /\ In (ECall a (KPostAll m)) l0 /\ r = RBool (negb (Nat.eqb (length os) 0)) /\ forall x m', ~ In (EPost a x m') l0.
Proof.
  intros E C. at_return E C. apply tail_split in T as [(_ & T & E1)|(k & E1 & _)]; [|destruct k; discriminate]. injection N'; intros NE ->. clear N'. subst r.
  exists (tr (final h1)), (receivers (final h1) m). rewrite <- E1. split; [reflexivity|]. split; [apply receivers_audience|]. split; [apply call_agent; eauto|]. split; [reflexivity|].
  intros x m' I. apply poster in I as (c & p' & N0 & L'). rewrite N0 in H. injection H as -> ->. discriminate.
Qed.
