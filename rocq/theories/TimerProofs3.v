(** Timers: what holds however they are used. *)
From Verif Require Import ListUtil TimerModel TimerSpec TimerProofs TimerProofs2.
From Verif Require Amap.

(** The due time given by the last start or restart, with the interval. *)
Definition since_step (r : nat) (p : option nat * nat) (e : event) : option nat * nat :=
  match e with
  | EStart q t d => if Nat.eqb q r then (Some (t + d), d) else p
  | ERestart q t => if Nat.eqb q r then (Some (t + snd p), snd p) else p
  | _ => p
  end.
Definition since (r : nat) (tr : list event) : option nat * nat := fold_left (since_step r) tr (None, 0).
Lemma since_snoc r tr e : since r (tr ++ [e]) = since_step r (since r tr) e.
Proof. unfold since. rewrite fold_left_app. reflexivity. Qed.

Definition wok (x : tdata) (p : plan) (s : option nat * nat) : Prop :=
  (running x = true <-> due_at p <> None) /\ every p = duration x /\ again p = cyclic x /\ snd s = duration x /\ forall w, fst s = Some w -> w <= deadline x.
Definition W (d : nat -> tdata) (tr : list event) : Prop := forall r, wok (d r) (plan_of r tr) (since r tr).

Lemma W_ev d tr r x e : W d tr -> match e with EStart z _ _ | EStop z | EForeign z | ERestart z _ | ECyclic z _ | EFire z _ => z = r | _ => True end -> wok x (plan_step r (plan_of r tr) e) (since_step r (since r tr) e) -> W (upd d r x) (tr ++ [e]).
Proof.
  intros H A B q. rewrite plan_snoc, since_snoc. unfold upd. destruct (Nat.eqb q r) eqn:E; [apply Nat.eqb_eq in E; subst q; exact B|]. apply Nat.eqb_neq in E. rewrite (step_other q r) by auto.
  replace (since_step q (since q tr) e) with (since q tr); [apply H|]. destruct e; cbn; try reflexivity; subst; replace (Nat.eqb r q) with false by (symmetry; apply Nat.eqb_neq; auto); reflexivity.
Qed.
Lemma W_neutral d tr e : W d tr -> match e with EStart _ _ _ | EStop _ | EForeign _ | ERestart _ _ | ECyclic _ _ | EFire _ _ => False | _ => True end -> W d (tr ++ [e]).
Proof. intros H A q. rewrite plan_snoc, since_snoc. destruct e; try destruct A; apply H. Qed.
Lemma W_later d tr r x : W d tr -> deadline (d r) <= deadline x -> duration x = duration (d r) -> cyclic x = cyclic (d r) -> running x = running (d r) -> W (upd d r x) tr.
Proof.
  intros H A B C D q. unfold upd. destruct (Nat.eqb q r) eqn:E; [|apply H]. apply Nat.eqb_eq in E. subst q. destruct (H r) as (H1 & H2 & H3 & H4 & H5). unfold wok. rewrite B, C, D. repeat split; auto; try apply H1. intros w X. specialize (H5 w X). lia.
Qed.

Lemma W_next st l : W (dat st) (tr st) -> W (dat (next st l)) (tr (next st l)).
Proof.
  intros H. destruct l as [d| | |r|r b|k|o k]; cbn [next]; try exact H.
  - destruct (async_same st QUser) as (-> & _ & _ & _ & _ & -> & _). exact H.
  - cbv zeta. destruct (running (dat st r)) eqn:R; [|exact H]. cbn. destruct (H r) as (H1 & H2 & H3 & H4 & H5). apply (W_ev (dat st)); [exact H|reflexivity|]. cbn. rewrite Nat.eqb_refl. unfold wok. cbn. repeat split; auto; try discriminate; try (intros X; congruence).
  - cbv zeta. cbn. destruct (H r) as (H1 & H2 & H3 & H4 & H5). apply (W_ev (dat st)); [exact H|reflexivity|]. cbn. rewrite Nat.eqb_refl. unfold wok. cbn. split; [exact H1|]. repeat split; auto.
  - unfold step. destruct (pc st) as [| | |r w|r|r|r]; try exact H.
    + destruct (closed st); [exact H|]. destruct (queue st) as [|[| |] q]; try exact H; [|destruct (mst st); exact H]. cbn. apply W_neutral; auto.
    + destruct (records st) as [|r l]; [exact H|]. destruct (expired st r); cbn; apply W_neutral; auto.
    + destruct (closed st); [exact H|]. destruct (queue st) as [|[| |] q]; try exact H; [destruct (Nat.leb w (now st)); exact H| |destruct (mst st); exact H]. cbn. apply W_neutral; auto.
    + cbv zeta. destruct (closed st); [exact H|]. assert (H2 : W (dat st) (tr st ++ [ELook r (now st)])) by (apply W_neutral; auto). destruct (expired st r); [|exact H2]. destruct (running (dat st r)) eqn:R; [|exact H2].
      set (st2 := emit (with_mst st HaveTimer) [ELook r (now st)]) in *. assert (HW : W (dat st2) (tr st2)) by exact H2. assert (R2 : running (dat st2 r) = true) by exact R. clearbody st2. clear H H2 R st. rename st2 into st.
      unfold on_expired. cbv zeta. destruct (cyclic (dat st r)) eqn:C.
      * set (s1 := update_shortest k st). assert (S1 : W (dat s1) (tr s1) /\ running (dat s1 r) = true /\ cyclic (dat s1 r) = true).
        { unfold s1, update_shortest. destruct (records st) as [|f t]; [cbn; split; [apply W_neutral; auto|auto]|]. cbn. split; [apply (W_later (dat st)); cbn; auto; lia|]. destruct (Nat.eqb r f) eqn:E; [|auto]. apply Nat.eqb_eq in E. subst f. auto. }
        destruct S1 as (A & B & D). cbn.
        assert (G : W (upd (dat s1) r (dat s1 r)) (tr s1 ++ [EFire r (now st)])).
        { apply W_ev; [exact A|reflexivity|]. destruct (A r) as (H1 & H2 & H3 & H4 & H5). cbn. rewrite Nat.eqb_refl. unfold wok. cbn. rewrite H3, D. repeat split; auto. intros _. apply H1 in B. destruct (due_at (plan_of r (tr s1))); [discriminate|congruence]. }
        intros q. specialize (G q). unfold upd in G. destruct (Nat.eqb q r) eqn:E; [apply Nat.eqb_eq in E; subst q|]; exact G.
      * unfold remove_shortest. set (s1 := refresh k _). destruct (check_empty_same s1) as (D1 & _ & T1 & _). cbn. rewrite D1, T1. cbn. destruct (HW r) as (H1 & H2 & H3 & H4 & H5). apply (W_ev (dat st)); [exact HW|reflexivity|]. cbn. rewrite Nat.eqb_refl. unfold wok. cbn. rewrite H3, C. repeat split; auto; try discriminate; try (intros X; congruence).
  - destruct (in_user (pc st)); [|exact H]. destruct o as [r d|r|r|]; cbn [user_op].
    + unfold start. set (s0 := match pc st with PCall q => if Nat.eqb q r then emit st [EDead r] else st | _ => st end).
      assert (H0 : W (dat s0) (tr s0)) by (unfold s0; destruct (pc st); try exact H; destruct (Nat.eqb r0 r); [apply W_neutral; auto|exact H]). clearbody s0. cbv zeta. set (s2 := if running (dat s0 r) then _ else _).
      assert (D2 : dat s2 = upd (dat s0) r (TD (now s0 + d) d (cyclic (dat s0 r)) true) /\ tr s2 = tr s0) by (unfold s2; destruct (running (dat s0 r)); split; reflexivity). destruct D2 as [D2 T2].
      destruct (async_same (emit s2 [EStart r (now s0) d]) QCheck) as (-> & _ & _ & _ & _ & -> & _). cbn. rewrite D2, T2. destruct (H0 r) as (H1 & H2 & H3 & H4 & H5). apply W_ev; [exact H0|reflexivity|]. cbn. rewrite Nat.eqb_refl. unfold wok. cbn. repeat split; auto; try discriminate. intros w X. injection X as <-. lia.
    + unfold stop. cbv zeta. destruct (running (dat st r)) eqn:R; [|exact H]. set (st1 := emit _ _). destruct (remove_same k r st1) as (D1 & T1 & _). set (st2 := remove_timer k r st1) in *.
      assert (G : W (dat st2) (tr st2)).
      { rewrite D1, T1. cbn. destruct (H r) as (H1 & H2 & H3 & H4 & H5). apply (W_ev (dat st)); [exact H|reflexivity|]. cbn. rewrite Nat.eqb_refl. unfold wok. cbn. repeat split; auto; try discriminate; try (intros X; congruence). }
      destruct (records st1) as [|f t], (records st2), (mst st2); try exact G. destruct (Nat.eqb f r); [|exact G]. destruct (async_same st2 QEmpty) as (-> & _ & _ & _ & _ & -> & _). exact G.
    + unfold restart. cbv zeta. set (st1 := emit _ _). assert (G : W (dat st1) (tr st1)).
      { cbn. destruct (H r) as (H1 & H2 & H3 & H4 & H5). apply (W_ev (dat st)); [exact H|reflexivity|]. cbn. rewrite Nat.eqb_refl. unfold wok. cbn. repeat split; auto; try discriminate. intros w X. injection X as <-. rewrite H4. lia. }
      set (st2 := match records st1 with [] => emit st1 [EBad] | _ => refresh k st1 end). assert (G2 : W (dat st2) (tr st2)) by (unfold st2; destruct (records st1); [apply W_neutral; auto|exact G]).
      destruct (async_same st2 QCheck) as (-> & _ & _ & _ & _ & -> & _). exact G2.
    + destruct (pc st); exact H.
Qed.
Lemma W_final h : W (dat (final h)) (trace h).
Proof.
  unfold trace. induction h as [|l h IH] using rev_ind; [|rewrite final_snoc; apply W_next; exact IH]. intros r. unfold wok. cbn. repeat split; auto; try discriminate.
Qed.

Lemma since_app r a b : since r (a ++ b) = fold_left (since_step r) b (since r a).
Proof. unfold since. apply fold_left_app. Qed.
Lemma since_quiet r b p : (forall t d, ~ In (EStart r t d) b) -> (forall t, ~ In (ERestart r t) b) -> fold_left (since_step r) b p = p.
Proof.
  revert p. induction b as [|e b IH]; intros p A B; [reflexivity|]. cbn. rewrite IH by (intros; intros X; first [eapply A; right; exact X|eapply B; right; exact X]). destruct e; cbn; try reflexivity; destruct (Nat.eqb r0 r) eqn:E; try reflexivity; apply Nat.eqb_eq in E; subst r0; exfalso; [eapply A|eapply B]; left; reflexivity.
Qed.

(** Every firing is a step of the loop that found the timer running and due. *)
Lemma fired st l new r t : tr (next st l) = tr st ++ new -> In (EFire r t) new -> exists a, new = a ++ [EFire r t] /\ t = now st /\ pc st = PWoken r /\ running (dat st r) = true /\ deadline (dat st r) <= now st /\ closed st = false /\
  (forall e, In e a -> match e with ELook q w => q = r /\ w = t | EBad => True | _ => False end) /\ In (ELook r t) a.
Proof.
  assert (Z : forall l', (forall q w, ~ In (EFire q w) l') -> tr st ++ l' = tr st ++ new -> In (EFire r t) new -> False) by (intros l' N E X; apply app_inv_head in E; subst l'; eapply N; exact X).
  assert (Z0 : tr st = tr st ++ new -> In (EFire r t) new -> False) by (intros E; apply (Z []); [intros q w []|rewrite app_nil_r; exact E]).
  assert (Z1 : forall e, (forall q w, e <> EFire q w) -> tr st ++ [e] = tr st ++ new -> In (EFire r t) new -> False) by (intros e N; apply Z; intros q w [X|[]]; eapply N; exact X).
  destruct l as [d| | |q|q b|k|o k]; cbn [next]; intros E X; try (exfalso; apply Z0; [exact E|exact X]).
  - destruct (async_same st QUser) as (_ & _ & _ & _ & _ & A & _). rewrite A in E. exfalso. auto.
  - cbv zeta in E. destruct (running (dat st q)); [|exfalso; auto]. exfalso. eapply Z1; [|exact E|exact X]. discriminate.
  - exfalso. eapply Z1; [|exact E|exact X]. discriminate.
  - unfold step in E. destruct (pc st) as [| | |q w|q|q|q] eqn:PC; try (exfalso; apply Z0; [exact E|exact X]).
    + exfalso. destruct (closed st); [auto|]. destruct (queue st) as [|[| |] z]; auto; [eapply Z1; [|exact E|exact X]; discriminate|]. destruct (mst st); auto.
    + exfalso. destruct (records st) as [|f z]; [auto|]. destruct (expired st f); (eapply Z1; [|exact E|exact X]; discriminate).
    + exfalso. destruct (closed st); [auto|]. destruct (queue st) as [|[| |] z]; auto; [destruct (Nat.leb w (now st)); auto|eapply Z1; [|exact E|exact X]; discriminate|]. destruct (mst st); auto.
    + cbv zeta in E. destruct (closed st) eqn:CL; [exfalso; auto|]. destruct (expired st q) eqn:EX; [|exfalso; eapply Z1; [|exact E|exact X]; discriminate]. destruct (running (dat st q)) eqn:RU; [|exfalso; eapply Z1; [|exact E|exact X]; discriminate].
      apply Nat.leb_le in EX. set (st2 := emit (with_mst st HaveTimer) [ELook q (now st)]) in *.
      assert (TR : exists a, tr (on_expired k q st2) = tr st ++ a ++ [EFire q (now st)] /\ (forall e, In e a -> match e with ELook q' w => q' = q /\ w = now st | EBad => True | _ => False end) /\ In (ELook q (now st)) a).
      { unfold on_expired. cbv zeta. destruct (cyclic (dat st2 q)).
        - unfold update_shortest. destruct (records st2) as [|f z].
          + exists [ELook q (now st); EBad]. cbn. rewrite <- !app_assoc. split; [reflexivity|]. split; [intros e [<-|[<-|[]]]; auto|left; reflexivity].
          + exists [ELook q (now st)]. cbn. rewrite <- !app_assoc. split; [reflexivity|]. split; [intros e [<-|[]]; auto|left; reflexivity].
        - unfold remove_shortest. set (s1 := refresh _ _). destruct (check_empty_same s1) as (_ & _ & X1 & _). exists [ELook q (now st)]. cbn. rewrite X1. cbn. rewrite <- !app_assoc. split; [reflexivity|]. split; [intros e [<-|[]]; auto|left; reflexivity]. }
      destruct TR as (a & TA & TB & TC). rewrite TA in E. apply app_inv_head in E. subst new. apply in_app_or in X as [X|[X|[]]]; [destruct (TB _ X)|]. injection X as <- <-. exists a. repeat split; auto; try (apply (TB (ELook _ _)); exact H).
  - exfalso. destruct (in_user (pc st)); [|auto]. destruct o as [q d|q|q|]; cbn [user_op] in E.
    + unfold start in E. cbv zeta in E. set (s0 := match pc st with PCall z => if Nat.eqb z q then emit st [EDead q] else st | _ => st end) in E. set (s2 := if running (dat s0 q) then _ else _) in E. destruct (async_same (emit s2 [EStart q (now s0) d]) QCheck) as (_ & _ & _ & _ & _ & A & _). rewrite A in E. cbn in E.
      assert (T2 : tr s2 = tr s0) by (unfold s2; destruct (running (dat s0 q)); reflexivity). rewrite T2 in E. assert (T0 : tr s0 = tr st \/ tr s0 = tr st ++ [EDead q]) by (unfold s0; destruct (pc st); auto; destruct (Nat.eqb r0 q); auto).
      destruct T0 as [T0|T0]; rewrite T0 in E; [eapply Z1; [|exact E|exact X]; discriminate|]. rewrite <- app_assoc in E. eapply Z; [|exact E|exact X]. intros z w [Y|[Y|[]]]; discriminate.
    + destruct (stop_place k q st) as [A|(A & _)]; rewrite A in E; [auto|]. eapply Z1; [|exact E|exact X]. discriminate.
    + unfold restart in E. cbv zeta in E. set (st1 := emit _ _) in E. set (st2 := match records st1 with [] => emit st1 [EBad] | _ => refresh k st1 end) in E. destruct (async_same st2 QCheck) as (_ & _ & _ & _ & _ & A & _). rewrite A in E.
      unfold st2 in E. destruct (records st1); cbn in E; [rewrite <- app_assoc in E; eapply Z; [|exact E|exact X]; intros z w [Y|[Y|[]]]; discriminate|eapply Z1; [|exact E|exact X]; discriminate].
    + destruct (pc st); auto.
Qed.
