(** Timers: the invariant of the loop. *)
From Verif Require Import ListUtil TimerModel TimerSpec TimerProofs.

Definition nopick (l : list event) : Prop := forall e, In e l -> ~ is_pick e.
Definition noop (l : list event) : Prop := forall e, In e l -> ~ is_op e.
Definition picked (st : state) (r : nat) : Prop :=
  exists a w b, tr st = a ++ EPick r w :: b /\ nopick b /\ (noop b -> hd_error (records st) = Some r).

Record T (st : state) : Prop := {
  t_good : good st;
  t_bad : ~ In EBad (tr st);
  t_waiting : mst st = Waiting -> match pc st with PWait _ _ | PUserIn _ | PWoken _ => True | _ => False end;
  t_wait : forall r w, pc st = PWait r w -> mst st = Waiting /\ hd_error (records st) = Some r /\ deadline (dat st r) = w;
  t_picked : forall r, match pc st with PWait q _ | PUserIn q | PWoken q => q = r | _ => False end -> picked st r;
  t_queue : closed st = false -> match pc st with PIdle | PUser => True | _ => False end -> records st <> [] -> In QCheck (queue st)
}.

Lemma nopick_app a b : nopick a -> nopick b -> nopick (a ++ b).
Proof. intros A B e X. apply in_app_or in X as [X|X]; auto. Qed.
Lemma picked_ext st st' r new : picked st r -> tr st' = tr st ++ new -> nopick new -> (noop new -> records st' = records st) -> picked st' r.
Proof.
  intros (a & w & b & E & P & H) E' N R. exists a, w, (b ++ new). split; [rewrite E', E, <- app_assoc; reflexivity|]. split; [apply nopick_app; auto|]. intros O.
  rewrite R; [apply H|]; intros e X; apply O; apply in_or_app; auto.
Qed.

(** What the operations of the user leave alone. *)
Definition same_place (st st' : state) : Prop := pc st' = pc st /\ (mst st' = mst st \/ mst st' = NoTimer) /\ closed st' = closed st /\ now st' = now st.
Lemma start_place k r d st : exists new, tr (start k r d st) = tr st ++ new ++ [EStart r (now st) d] /\ nopick new /\ ~ In EBad new /\ same_place st (start k r d st) /\ mst (start k r d st) = mst st /\
  (closed st = false -> exists q, queue (start k r d st) = queue st ++ [QCheck] ++ q).
Proof.
  unfold start. set (s0 := match pc st with PCall q => if Nat.eqb q r then emit st [EDead r] else st | _ => st end).
  assert (H0 : exists new, tr s0 = tr st ++ new /\ nopick new /\ ~ In EBad new /\ pc s0 = pc st /\ mst s0 = mst st /\ closed s0 = closed st /\ now s0 = now st /\ queue s0 = queue st).
  { unfold s0. destruct (pc st) as [| | | | | |q] eqn:EP; try (exists []; rewrite app_nil_r; repeat split; auto; intros e []; fail).
    destruct (Nat.eqb q r); [exists [EDead r]; cbn; repeat split; auto; [intros e [<-|[]]; cbn; auto|intros [X|[]]; discriminate]|exists []; rewrite app_nil_r; repeat split; auto; intros e []]. }
  destruct H0 as (new & A & B & B' & C & D & E & F & G). cbv zeta. exists new. set (s2 := if running (dat s0 r) then _ else _).
  assert (S2 : tr s2 = tr s0 /\ pc s2 = pc s0 /\ mst s2 = mst s0 /\ closed s2 = closed s0 /\ now s2 = now s0 /\ queue s2 = queue s0) by (unfold s2; destruct (running (dat s0 r)); repeat split).
  destruct S2 as (S1 & S2 & S3 & S4 & S5 & S6). set (s3 := emit s2 _).
  destruct (async_same s3 QCheck) as (_ & _ & A3 & A4 & A5 & A6 & A7). unfold same_place. rewrite A3, A4, A5, A6, A7. cbn. rewrite S1, S2, S3, S4, S5, A, C, D, E, F, <- app_assoc. repeat split; auto.
  intros CL. exists []. unfold async. cbn. rewrite S4, E, CL. cbn. rewrite S6, G. reflexivity.
Qed.
Lemma stop_place k r st : stop k r st = st \/ tr (stop k r st) = tr st ++ [EStop r] /\ same_place st (stop k r st) /\ (forall x, In x (queue st) -> In x (queue (stop k r st))).
Proof.
  unfold stop. cbv zeta. destruct (running (dat st r)); [right|left; reflexivity]. set (st1 := emit _ _). destruct (remove_same k r st1) as (_ & A & B & C & D & E & F). unfold same_place.
  assert (P : tr (remove_timer k r st1) = tr st ++ [EStop r] /\ (pc (remove_timer k r st1) = pc st /\ (mst (remove_timer k r st1) = mst st \/ mst (remove_timer k r st1) = NoTimer) /\ closed (remove_timer k r st1) = closed st /\ now (remove_timer k r st1) = now st) /\ forall x, In x (queue st) -> In x (queue (remove_timer k r st1))).
  { rewrite A, B, C, D, E. repeat split; auto. }
  set (st2 := remove_timer k r st1) in *. destruct (records st1) as [|f t], (records st2), (mst st2) eqn:M2; try exact P. all: try (rewrite M2; exact P).
  destruct (Nat.eqb f r); [|rewrite M2; exact P]. destruct (async_same st2 QEmpty) as (_ & _ & A3 & A4 & A5 & A6 & A7). rewrite A3, A4, A5, A6, A7, M2. destruct P as (P1 & P2 & P3). split; [exact P1|]. split; [exact P2|].
  intros x X. unfold async. destruct (closed st2); [apply P3; exact X|]. cbn. apply in_or_app. left. apply P3. exact X.
Qed.
Lemma restart_place k r st : exists new, tr (restart k r st) = tr st ++ ERestart r (now st) :: new /\ nopick new /\ same_place st (restart k r st) /\ (closed st = false -> In QCheck (queue (restart k r st))) /\ mst (restart k r st) = mst st.
Proof.
  unfold restart. cbv zeta. set (st1 := emit _ _). set (st2 := match records st1 with [] => emit st1 [EBad] | _ => refresh k st1 end).
  assert (H : exists new, tr st2 = tr st1 ++ new /\ nopick new /\ pc st2 = pc st1 /\ mst st2 = mst st1 /\ closed st2 = closed st1 /\ now st2 = now st1).
  { unfold st2. destruct (records st1); [exists [EBad]; repeat split; auto; intros e [<-|[]]; cbn; auto|exists []; rewrite app_nil_r; repeat split; auto; intros e []]. }
  destruct H as (new & A & B & C & D & E & F). exists new. destruct (async_same st2 QCheck) as (_ & _ & A3 & A4 & A5 & A6 & A7). unfold same_place. rewrite A3, A4, A5, A6, A7, A, C, D, E, F. cbn. rewrite <- app_assoc. repeat split; auto.
  intros CL. unfold async. rewrite E. cbn. rewrite CL. cbn. apply in_or_app. right. left. reflexivity.
Qed.

Lemma ok_restart st r t new : planned (dat st) (tr st) -> ok (tr st ++ ERestart r t :: new) -> running (dat st r) = true.
Proof.
  intros P (_ & B & _). specialize (B (tr st) r t new eq_refl). unfold due in B. rewrite P in B. unfold view in B. cbn in B. destruct (running (dat st r)); congruence.
Qed.

Lemma not_in_app (e : event) a b : ~ In e a -> ~ In e b -> ~ In e (a ++ b).
Proof. intros A B X. apply in_app_or in X as [X|X]; auto. Qed.

Lemma T_op st st' : T st -> in_user (pc st) = true -> good st' -> ~ In EBad (tr st') -> same_place st st' -> (exists new, tr st' = tr st ++ new /\ nopick new /\ (noop new -> records st' = records st)) ->
  (closed st = false -> records st' <> [] -> match pc st with PUser => In QCheck (queue st') | _ => True end) -> T st'.
Proof.
  intros H U G B (P1 & P2 & P3 & P4) (new & N1 & N2 & N3) Q. split.
  - exact G.
  - exact B.
  - rewrite P1. destruct P2 as [P2|P2]; rewrite P2; [apply H|discriminate].
  - intros r w. rewrite P1. intros E. rewrite E in U. discriminate.
  - intros r. rewrite P1. intros E. eapply picked_ext; [apply (t_picked _ H r E)|exact N1|exact N2|exact N3].
  - rewrite P1, P3. intros CL M NE. specialize (Q CL NE). destruct (pc st); try discriminate; try contradiction. exact Q.
Qed.

Lemma T_return st : T st -> T (with_pc st (match pc st with PUser => PIdle | PUserIn r => PWoken r | PCall _ => PLoop | p => p end)).
Proof.
  intros H. split; cbn; try apply H.
  - intros M. apply (t_waiting _ H) in M. destruct (pc st); auto.
  - intros r w. destruct (pc st) eqn:E; intros X; try discriminate. injection X as -> ->. apply H. exact E.
  - intros r. pose proof (t_picked _ H r) as P. destruct (pc st); intros X; try contradiction; apply P; exact X.
  - intros CL M. pose proof (t_queue _ H CL) as Q. destruct (pc st); try contradiction; auto.
Qed.

(** A new event that does not concern the loop. *)
Lemma T_quiet st st' new : T st -> good st' -> tr st' = tr st ++ new -> nopick new -> ~ In EBad new -> records st' = records st -> mst st' = mst st -> queue st' = queue st -> closed st' = closed st -> pc st' = pc st -> (forall r, deadline (dat st' r) = deadline (dat st r)) -> T st'.
Proof.
  intros H G N1 N2 NB R M Q C P D. split.
  - exact G.
  - rewrite N1. apply not_in_app; [apply H|exact NB].
  - rewrite M, P. apply H.
  - intros r w. rewrite M, P, R, D. apply H.
  - intros r. rewrite P. intros X. eapply picked_ext; [apply (t_picked _ H r X)|exact N1|exact N2|auto].
  - rewrite C, P, Q, R. apply H.
Qed.

Lemma no1 e : match e with EPick _ _ => False | _ => True end -> nopick [e].
Proof. intros H e' [<-|[]]. destruct e; cbn; auto. Qed.
Lemma nb1 e : e <> EBad -> ~ In EBad [e].
Proof. intros H [X|[]]. congruence. Qed.

Lemma good_records st r : good st -> hd_error (records st) = Some r -> exists t, records st = r :: t.
Proof. intros _. destruct (records st); [discriminate|]. cbn. intros E. injection E as ->. eauto. Qed.

(** A due timer that the loop comes back to is the first one. *)
Lemma still_first st r : good st -> picked st r -> ok (tr st ++ [ELook r (now st)]) -> running (dat st r) = true -> deadline (dat st r) <= now st -> exists t, records st = r :: t.
Proof.
  intros (A & [N I] & C) (a & w & b & E & P & H) (_ & _ & K) R D.
  assert (DU : due r (tr st) = Some (deadline (dat st r))) by (unfold due; rewrite A; unfold view; rewrite R; reflexivity).
  specialize (K a r w b (now st) [] (deadline (dat st r))). rewrite <- E in K. destruct K as [K|K]; auto.
  - rewrite E, <- app_assoc. reflexivity.
  - specialize (H K). destruct (records st); [discriminate|]. injection H as ->. eauto.
  - assert (X : In r (records st)) by (apply I; exact R). destruct (records st) as [|f t] eqn:EL; [destruct X|]. destruct (Nat.eq_dec f r) as [->|NE]; [eauto|exfalso].
    assert (RF : running (dat st f) = true) by (apply I; left; reflexivity).
    assert (DF : due f (tr st) = Some (deadline (dat st f))) by (unfold due; rewrite A; unfold view; rewrite RF; reflexivity).
    specialize (K f _ NE DF). specialize (C f t r eq_refl X). lia.
Qed.

Lemma good_upto st st' : good st -> dat st' = dat st -> records st' = records st -> tr st' = tr st -> good st'.
Proof. apply good_same. Qed.

Lemma expired_place k r t st : records st = r :: t -> tr (on_expired k r st) = tr st ++ [EFire r (now st)] /\ mst (on_expired k r st) <> Waiting \/ mst st = Waiting.
Proof.
  intros RE. destruct (mst st) eqn:M; [left|left|right; reflexivity]; unfold on_expired; cbv zeta; (destruct (cyclic (dat st r)); [unfold update_shortest; rewrite RE; cbn; rewrite M; split; [reflexivity|discriminate]|]);
    unfold remove_shortest; set (s1 := refresh _ _); destruct (check_empty_same s1) as (_ & _ & X & _ & _ & _ & _ & Y); cbn; rewrite X; (split; [reflexivity|]); (assert (MS : mst s1 = mst st) by reflexivity); rewrite MS, M in Y; destruct Y as [Y|Y]; rewrite Y; discriminate.
Qed.

Lemma T_step st k : T st -> ok (tr (step st k)) -> T (step st k).
Proof.
  intros H. pose proof (t_good _ H) as G. unfold step. destruct (pc st) as [| | |r w|r|r|r] eqn:PC; try (intros _; exact H).
  - (* PIdle *) destruct (closed st) eqn:CL; [intros _; exact H|]. destruct (queue st) as [|x q] eqn:QU; [intros _; exact H|]. pose proof (t_waiting _ H) as W. rewrite PC in W. pose proof (t_queue _ H CL) as TQ. rewrite PC, QU in TQ. specialize (TQ Logic.I).
    destruct x.
    + intros _. split; cbn; try apply H; auto; try discriminate; try contradiction.
      * apply good_emit; [eapply good_same; eauto|reflexivity].
      * apply not_in_app; [apply H|apply nb1; discriminate].
      * intros _ _ NE. destruct (TQ NE) as [X|X]; [discriminate|exact X].
    + destruct (mst st) eqn:M; [| |destruct (W eq_refl)]; intros _; split; cbn; try apply H; auto; try contradiction; try discriminate; rewrite M; discriminate.
    + intros _. split; cbn; try apply H; auto; try (rewrite PC; auto; fail).
      intros _ _ NE. destruct (TQ NE) as [X|X]; [discriminate|exact X].
  - (* PLoop *) pose proof (t_waiting _ H) as W. rewrite PC in W. destruct (records st) as [|r l] eqn:RE.
    + intros _. split; cbn; try apply H; auto; try discriminate; try contradiction.
    + assert (PK : picked (emit st [EPick r (deadline (dat st r))]) r) by (exists (tr st), (deadline (dat st r)), []; cbn; rewrite RE; repeat split; auto; intros e []).
      assert (NB : ~ In EBad (tr st ++ [EPick r (deadline (dat st r))])) by (apply not_in_app; [apply H|apply nb1; discriminate]).
      assert (G1 : good (emit st [EPick r (deadline (dat st r))])) by (apply good_emit; [exact G|reflexivity]).
      destruct (expired st r); intros _; (split; [exact G1|exact NB|cbn; auto|intros q w E|intros q E|intros CL X; cbn in X; contradiction]); cbn in E; try discriminate.
      * cbn. subst q. exact PK.
      * injection E as <- <-. cbn. rewrite RE. auto.
      * subst q. exact PK.
  - (* PWait *) destruct (t_wait _ H r w PC) as (MW & HD & DW). pose proof (t_picked _ H r) as PK. rewrite PC in PK. specialize (PK eq_refl).
    assert (WK : forall q, T (with_pc (with_queue st q) (PWoken r))).
    { intros q. split; cbn; try apply H; auto; try discriminate; try contradiction. intros r' <-. exact PK. }
    destruct (closed st) eqn:CL; [intros _; specialize (WK (queue st)); destruct st; exact WK|]. destruct (queue st) as [|x q] eqn:QU.
    + destruct (Nat.leb w (now st)); intros _; [specialize (WK (queue st)); destruct st; exact WK|exact H].
    + destruct x; [|rewrite MW; intros _; apply WK|intros _; apply WK]. intros _. split; cbn; try apply H; auto; try discriminate; try contradiction.
      * apply good_emit; [eapply good_same; eauto|reflexivity].
      * apply not_in_app; [apply H|apply nb1; discriminate].
      * intros r' <-. eapply picked_ext; [exact PK|reflexivity|apply no1; exact Logic.I|reflexivity].
  - (* PWoken *) pose proof (t_picked _ H r) as PK. rewrite PC in PK. specialize (PK eq_refl). cbv zeta. destruct (closed st) eqn:CL.
    + intros _. split; cbn; try apply H; auto; try discriminate; try contradiction. rewrite CL. discriminate.
    + set (st2 := emit (with_mst st HaveTimer) [ELook r (now st)]).
      assert (G2 : good st2) by (apply good_emit; [eapply good_same; eauto|reflexivity]).
      assert (B2 : ~ In EBad (tr st2)) by (cbn; apply not_in_app; [apply H|apply nb1; discriminate]).
      assert (L2 : T (with_pc st2 PLoop)) by (split; cbn; auto; try discriminate; try contradiction).
      destruct (expired st r) eqn:EX; [|intros _; exact L2]. destruct (running (dat st r)) eqn:RU; [|intros _; exact L2]. intros K. apply Nat.leb_le in EX.
      assert (RF : exists t, records st = r :: t).
      { apply still_first; auto. eapply (ok_prefix _ [EFire r (now st)]). replace ((tr st ++ [ELook r (now st)]) ++ [EFire r (now st)]) with (tr (on_expired k r st2)); [exact K|].
        unfold on_expired. cbv zeta. destruct (cyclic (dat st2 r)).
        - unfold update_shortest. destruct (records st2) as [|f t] eqn:RE; [|reflexivity]. exfalso. assert (X : In r []) by (rewrite <- RE; apply G2; exact RU). destruct X.
        - unfold remove_shortest. set (s1 := refresh _ _). destruct (check_empty_same s1) as (_ & _ & X & _). cbn. rewrite X. reflexivity. }
      destruct RF as (t & RE). destruct (expired_place k r t st2 RE) as [[X1 X2]|X]; [|discriminate X].
      split.
      * eapply good_expired; [exact G2|exact RE].
      * rewrite X1. apply not_in_app; [exact B2|apply nb1; discriminate].
      * intros M. contradiction.
      * intros q w E. discriminate E.
      * intros q E. destruct E.
      * intros _ E. destruct E.
Qed.

Lemma T_next st l : T st -> ok (tr (next st l)) -> T (next st l).
Proof.
  intros H. pose proof (t_good _ H) as G. destruct l as [d| | |r|r b|k|o k]; cbn [next].
  - intros _. apply (T_quiet st _ []); auto; cbn; rewrite ?app_nil_r; auto; [intros e []].
  - intros _. unfold async. destruct (closed st) eqn:CL; [exact H|]. split; cbn; try apply H. intros _ M NE. apply in_or_app. left. apply (t_queue _ H CL M NE).
  - intros _. split; cbn; try apply H. discriminate.
  - cbv zeta. destruct (running (dat st r)) eqn:R; [|intros _; exact H]. intros (K & _). exfalso. apply (K r). cbn. apply in_or_app. right. left. reflexivity.
  - cbv zeta. intros _. set (x := dat st r). set (x' := TD (deadline x) (duration x) b (running x)). apply (T_quiet st _ [ECyclic r b]); auto; cbn.
    + destruct G as (A & [N I] & C). split; [|split; [split|]]; cbn.
      * apply (planned_step (dat st) (tr st) r x'); [exact A|intros q Q; apply (step_other q r); auto|]. cbn. rewrite Nat.eqb_refl, A. reflexivity.
      * exact N.
      * intros q. rewrite I. destruct (Nat.eqb q r) eqn:E; [|reflexivity]. apply Nat.eqb_eq in E. subst q. reflexivity.
      * intros f t q E Q. specialize (C f t q E Q). assert (DD : forall z, deadline (if Nat.eqb z r then x' else dat st z) = deadline (dat st z)) by (intros z; destruct (Nat.eqb z r) eqn:Z; [apply Nat.eqb_eq in Z; subst z; reflexivity|reflexivity]). rewrite !DD. exact C.
    + apply no1. exact Logic.I.
    + apply nb1. discriminate.
    + intros q. destruct (Nat.eqb q r) eqn:Z; [apply Nat.eqb_eq in Z; subst q; reflexivity|reflexivity].
  - apply T_step. exact H.
  - destruct (in_user (pc st)) eqn:U; [|intros _; exact H]. destruct o as [r d|r|r|]; cbn [user_op].
    + intros _. destruct (start_place k r d st) as (new & A & B & B' & C & D & E). apply (T_op st); auto; [apply good_start; exact G| | |].
      * rewrite A. apply not_in_app; [apply H|apply not_in_app; [exact B'|apply nb1; discriminate]].
      * exists (new ++ [EStart r (now st) d]). split; [exact A|]. split; [apply nopick_app; [exact B|apply no1; exact Logic.I]|]. intros O. exfalso. apply (O (EStart r (now st) d)); [apply in_or_app; right; left; reflexivity|exact Logic.I].
      * intros CL _. destruct (pc st); auto. destruct (E CL) as (q & ->). apply in_or_app. right. left. reflexivity.
    + intros _. destruct (stop_place k r st) as [->|(A & B & C)]; [exact H|]. apply (T_op st); auto; [apply good_stop; exact G| | |].
      * rewrite A. apply not_in_app; [apply H|apply nb1; discriminate].
      * eexists. split; [exact A|]. split; [apply no1; exact Logic.I|]. intros O. exfalso. apply (O (EStop r)); [left; reflexivity|exact Logic.I].
      * intros CL NE. destruct (pc st) eqn:PC; auto. apply C. apply (t_queue _ H CL); [rewrite PC; exact Logic.I|]. intros X. apply NE. destruct (good_stop k r st G) as (_ & [_ I'] & _). destruct (records (stop k r st)) as [|f t] eqn:RE; [reflexivity|exfalso].
        assert (RF : running (dat (stop k r st) f) = true) by (apply I'; left; reflexivity).
        assert (RF' : running (dat st f) = true).
        { unfold stop in RF. cbv zeta in RF. destruct (running (dat st r)) eqn:RR; [|exact RF]. set (st1 := emit _ _) in RF. destruct (remove_same k r st1) as (D1 & _). set (st2 := remove_timer k r st1) in *.
          assert (D2 : dat (match records st1, records st2, mst st2 with f :: _, _ :: _, Waiting => if Nat.eqb f r then async st2 QEmpty else st2 | _, _, _ => st2 end) = dat st1).
          { destruct (records st1) as [|z1 z2], (records st2), (mst st2); try exact D1. destruct (Nat.eqb z1 r); [|exact D1]. destruct (async_same st2 QEmpty) as (-> & _). exact D1. }
          rewrite D2 in RF. unfold st1 in RF. cbn in RF. destruct (Nat.eqb f r) eqn:Z; [discriminate|exact RF]. }
        apply G in RF'. rewrite X in RF'. destruct RF'.
    + destruct (restart_place k r st) as (new & A & B & C & D & E). rewrite A. intros K. pose proof (ok_restart st r _ _ (proj1 G) K) as RR. destruct (good_restart k r st G RR) as [G' BB].
      apply (T_op st); auto.
      * rewrite A. apply not_in_app; [apply H|]. rewrite A, skipn_app, skipn_all, Nat.sub_diag in BB. exact BB.
      * eexists. split; [exact A|]. split; [apply (nopick_app [_]); [apply no1; exact Logic.I|exact B]|]. intros O. exfalso. apply (O (ERestart r (now st))); [left; reflexivity|exact Logic.I].
      * intros CL _. destruct (pc st); auto.
    + intros _. pose proof (T_return st H) as R. destruct (pc st); try discriminate; exact R.
Qed.

Lemma next_prefix st l : exists new, tr (next st l) = tr st ++ new.
Proof.
  assert (Z : exists new : list event, tr st = tr st ++ new) by (exists []; rewrite app_nil_r; reflexivity).
  destruct l as [d| | |r|r b|k|o k]; cbn [next].
  - exact Z.
  - destruct (async_same st QUser) as (_ & _ & _ & _ & _ & -> & _). exact Z.
  - exact Z.
  - cbv zeta. destruct (running (dat st r)); [eexists; reflexivity|exact Z].
  - eexists. reflexivity.
  - unfold step. destruct (pc st) as [| | |r w|r|r|r]; try exact Z.
    + destruct (closed st); [exact Z|]. destruct (queue st) as [|[| |] q]; try exact Z; [eexists; reflexivity|]. destruct (mst st); exact Z.
    + destruct (records st); [exact Z|]. destruct (expired st n); eexists; reflexivity.
    + destruct (closed st); [exact Z|]. destruct (queue st) as [|[| |] q]; try exact Z; [destruct (Nat.leb w (now st)); exact Z|eexists; reflexivity|]. destruct (mst st); exact Z.
    + cbv zeta. destruct (closed st); [exact Z|]. destruct (expired st r); [|eexists; reflexivity]. destruct (running (dat st r)); [|eexists; reflexivity].
      set (st2 := emit (with_mst st HaveTimer) [ELook r (now st)]). unfold on_expired. cbv zeta. destruct (cyclic (dat st2 r)).
      * unfold update_shortest. destruct (records st2); cbn; rewrite <- ?app_assoc; eexists; reflexivity.
      * unfold remove_shortest. set (s1 := refresh _ _). destruct (check_empty_same s1) as (_ & _ & X & _). cbn. rewrite X. cbn. rewrite <- app_assoc. eexists. reflexivity.
  - destruct (in_user (pc st)); [|exact Z]. destruct o as [r d|r|r|]; cbn [user_op].
    + destruct (start_place k r d st) as (new & A & _). eauto.
    + destruct (stop_place k r st) as [->|(A & _)]; eauto.
    + destruct (restart_place k r st) as (new & A & _). eauto.
    + destruct (pc st); exact Z.
Qed.
Lemma final_snoc h l : final (h ++ [l]) = next (final h) l.
Proof. unfold final. rewrite fold_left_app. reflexivity. Qed.
Lemma T_init : T init.
Proof.
  split; cbn; try discriminate; auto; try contradiction. split; [|split; [split|]]; cbn; [intros r; reflexivity|constructor|intros r; split; [intros []|discriminate]|intros f t q E; discriminate].
Qed.
Lemma T_final h : ok (trace h) -> T (final h).
Proof.
  unfold trace. induction h as [|l h IH] using rev_ind; intros K; [apply T_init|]. rewrite final_snoc in *. apply T_next; [|exact K]. apply IH. destruct (next_prefix (final h) l) as (new & E). rewrite E in K. eapply ok_prefix. exact K.
Qed.
