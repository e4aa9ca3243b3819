(** Slots with executors: at most once; an emission returns; the deadlock. *)
From Verif Require Import ListUtil ExecModel ExecSpec ExecProofs ExecProofs2 ExecProofs3 ExecProofs4.

(** ** At most once *)
Definition sends (e c : nat) (x : event) : bool := match x with ESend e' c' _ _ => Nat.eqb e e' && Nat.eqb c c' | _ => false end.
Definition rans (e c : nat) (x : event) : bool := match x with ESend e' c' _ Ran => Nat.eqb e e' && Nat.eqb c c' | _ => false end.
Definition posts (e c : nat) (x : event) : bool := match x with ESend e' c' _ Posted => Nat.eqb e e' && Nat.eqb c c' | _ => false end.
Definition procs (e c : nat) (x : event) : bool := match x with EProc e' c' _ => Nat.eqb e e' && Nat.eqb c c' | _ => false end.
Definition idb (e c : nat) (x : nat * nat * nat) : bool := let '(e', c', _) := x in Nat.eqb e e' && Nat.eqb c c'.

Lemma sends_once e c tr : NoDup (map fst (sent e tr)) -> cnt (sends e c) tr <= 1.
Proof.
  induction tr as [|x tr IH]; [intros _; rewrite cnt_nil; lia|]. change (x :: tr) with ([x] ++ tr). rewrite sent_app, map_app, cnt_app, cnt_cons, cnt_nil.
  intro H. destruct (sends e c x) eqn:E; cbn [b2n].
  - destruct x; try discriminate. cbn [sends] in E. apply andb_true_iff in E as [E1 E2]. apply Nat.eqb_eq in E1, E2. subst.
    cbn [sent flat_map] in H. rewrite Nat.eqb_refl in H. cbn in H. inversion H as [|? ? Hn _]; subst.
    rewrite cnt_zero; [lia|]. intros y Hy. destruct (sends e0 c0 y) eqn:Ey; [|reflexivity]. destruct y; try discriminate. cbn in Ey.
    apply andb_true_iff in Ey as [E1 E2]. apply Nat.eqb_eq in E1, E2. subst. destruct Hn.
    apply in_map_iff. exists (c, v0). split; [reflexivity|]. apply in_sent. eauto.
  - assert (Ht : NoDup (map fst (sent e tr))); [|apply IH in Ht; lia].
    clear E. destruct (map fst (sent e [x])) as [|y [|z l]] eqn:M; cbn in H; [exact H|inversion H; assumption|].
    exfalso. destruct x; cbn in M; try discriminate. destruct (Nat.eqb e e0); discriminate.
Qed.
Lemma NoDup_prefix {A} (l1 l2 : list A) : NoDup (l1 ++ l2) -> NoDup l1.
Proof.
  induction l1 as [|x l1 IH]; cbn; intro H; [constructor|]. inversion H; subst. constructor; [|auto]. intro Hx. apply H2. apply in_or_app. auto.
Qed.
Lemma sent_nodup h e : NoDup (map fst (sent e (trace h))).
Proof.
  destruct (inv_final h) as [N _ M _]. destruct (nth_error (ags (final h)) e) as [a|] eqn:Ha.
  - assert (K := e_ok _ _ M _ _ Ha). unfold em_ok in K.
    assert (G : forall v rest, prog (trace h) e v rest -> NoDup (map fst (sent e (trace h)))).
    { intros v rest (l1 & l2 & E & S1 & S2 & S3). assert (X : sent e (trace h) = sent e l2).
      { rewrite E, sent_app, S1. reflexivity. }
      rewrite X. apply (NoDup_prefix _ (map fst (with_arg v rest))). rewrite <- map_app, S2, with_arg_fst, <- S3, <- (n_keep _ _ N). apply (n_nodup _ _ N). }
    destruct (a_pc a).
    + destruct K as [-> _]. constructor.
    + destruct K as [(v & _ & K) _]. eauto.
    + destruct K as [(v & _ & K) _]. eauto.
    + apply K.
  - apply nth_error_None in Ha. destruct (e_new _ _ M _ Ha) as [-> _]. constructor.
Qed.
Lemma cnt_posted e c tr : cnt (idb e c) (posted tr) = cnt (posts e c) tr.
Proof.
  induction tr as [|x tr IH]; [reflexivity|]. change (x :: tr) with ([x] ++ tr). rewrite posted_app, !cnt_app, IH. f_equal.
  rewrite cnt_cons, cnt_nil. destruct x; try reflexivity. destruct f; try reflexivity. cbn. rewrite cnt_cons, cnt_nil. reflexivity.
Qed.
Lemma cnt_taken e c tr : cnt (procs e c) tr <= cnt (idb e c) (taken tr).
Proof.
  induction tr as [|x tr IH]; [reflexivity|]. change (x :: tr) with ([x] ++ tr). rewrite taken_app, !cnt_app. apply Nat.add_le_mono; [|exact IH].
  rewrite cnt_cons, cnt_nil. destruct x; try (cbn; lia). cbn [taken flat_map app]. rewrite cnt_cons, cnt_nil. cbn. lia.
Qed.
Lemma cnt_split e c tr : cnt (runs e c) tr = cnt (rans e c) tr + cnt (procs e c) tr /\ cnt (rans e c) tr + cnt (posts e c) tr <= cnt (sends e c) tr.
Proof.
  induction tr as [|x tr [IH1 IH2]]; [rewrite !cnt_nil; auto|]. rewrite !cnt_cons, IH1. split.
  - destruct x; cbn; lia.
  - destruct x; cbn; try lia. destruct f; cbn; destruct (_ && _); cbn; lia.
Qed.
Lemma runs_once h e c : cnt (runs e c) (trace h) <= 1.
Proof.
  destruct (inv_final h) as [_ _ _ Q]. destruct (cnt_split e c (trace h)) as [-> K]. assert (S1 := sends_once e c _ (sent_nodup h e)).
  assert (P := cnt_posted e c (trace h)). rewrite (q_fifo _ _ Q), cnt_app in P. assert (T := cnt_taken e c (trace h)). lia.
Qed.

(** ** Progress *)
Lemma loop_step s k q : busy s = false -> queue s = k :: q ->
  step s LLoop = (to s (lock s) (keeper s) q (ags s), [EProc (k_em k) (k_conn k) (k_val k)]).
Proof. intros H1 H2. unfold step. rewrite H1, H2. unfold to. rewrite H1. reflexivity. Qed.
Lemma drains s n : busy s = false -> length (queue s) = n ->
  exists evs, run s (repeat LLoop n) = (to s (lock s) (keeper s) [] (ags s), evs) /\ forall k, In k (queue s) -> In (EProc (k_em k) (k_conn k) (k_val k)) evs.
Proof.
  revert s. induction n as [|n IH]; intros s Hb Hn; destruct (queue s) as [|k q] eqn:Q; try discriminate.
  - exists []. split; [|intros k []]. cbn. unfold to. rewrite <- Q. destruct s; reflexivity.
  - cbn [repeat run]. rewrite (loop_step s k q Hb Q). cbn in Hn. destruct (IH (to s (lock s) (keeper s) q (ags s))) as (evs & E & K); [exact Hb|cbn; lia|].
    rewrite E. eexists. split; [reflexivity|]. intros k' [<-|Hk]; [now left|right; apply K; exact Hk].
Qed.
Lemma run_final h h2 : run (final h) h2 = (final (h ++ h2), snd (run (final h) h2)).
Proof.
  unfold final. rewrite run_app. destruct (run st_new h) as [s e]. cbn [fst]. destruct (run s h2). reflexivity.
Qed.
Lemma trace_run h h2 : trace (h ++ h2) = trace h ++ snd (run (final h) h2).
Proof. unfold trace, final. rewrite run_app. destruct (run st_new h) as [s e]. cbn [fst snd]. destruct (run s h2). reflexivity. Qed.

Definition others_idle (s : st) (e : nat) : Prop := forall t a, nth_error (ags s) t = Some a -> a_proc a = true -> t = e \/ a_pc a = PDone.
Definition quiet_label (e : nat) (l : label) : Prop := l = LStep e \/ l = LLoop \/ l = LFinish.
Lemma idle_calls s e a : others_idle s e -> nth_error (ags s) e = Some a -> a_proc a = false -> proc_calls s = false.
Proof.
  intros H Ha Hp. destruct (proc_calls s) eqn:P; [|reflexivity]. exfalso. unfold proc_calls in P. apply existsb_exists in P as (b & Hb & E).
  apply andb_true_iff in E as [E1 E2]. apply In_nth_error in Hb as [t Hb]. destruct (H _ _ Hb E1) as [-> |Hd].
  - congruence.
  - unfold is_done in E2. rewrite Hd in E2. discriminate.
Qed.
Lemma blocking_not_proc h k a : In k (queue (final h)) -> nth_error (kinds (final h)) (k_conn k) = Some Blocking ->
  nth_error (ags (final h)) (k_em k) = Some a -> a_proc a = false.
Proof.
  intros Hk Hb Ha. destruct (inv_final h) as [N C _ Q]. assert (Hs : In (ESend (k_em k) (k_conn k) (k_val k) Posted) (trace h)).
  { apply in_posted. rewrite (q_fifo _ _ Q). apply in_or_app. right. apply in_map_iff. exists k. auto. }
  apply in_before in Hs as (l1 & l2 & E & _ & _ & _ & kd & p & Hkd & Hcall & Hf). cbn in Hf. destruct Hf as [_ Hf].
  assert (kd = Blocking). { eapply kind_unique; [eapply kind_prefix; eauto|]. apply (n_kind _ _ N). exact Hb. } subst kd.
  destruct (call_unique h _ _ _ _ _ (prefix_in _ _ _ _ _ E Hcall) (called_at _ _ _ Ha)) as [_ ->]. destruct (a_proc a); [|reflexivity].
  specialize (Hf eq_refl). discriminate.
Qed.
(** What the processor still has to run for a waiting emission is run. *)
Lemma frees h e a c rest v : nth_error (ags (final h)) e = Some a -> a_call a = CNotify v -> a_pc a = PHeld c rest -> others_idle (final h) e ->
  exists h2, (forall l, In l h2 -> quiet_label e l) /\ ags (final (h ++ h2)) = ags (final h) /\ waits_for (final (h ++ h2)) e = false.
Proof.
  intros Ha Hc Hp Ho. destruct (waits_for (final h) e) eqn:W.
  2:{ exists []. split; [intros l []|]. rewrite app_nil_r. auto. }
  assert (Hnp : a_proc a = false).
  { unfold waits_for in W. apply existsb_exists in W as (k & Hk & E). apply andb_true_iff in E as [E1 E2]. apply Nat.eqb_eq in E1. subst e.
    destruct (nth_error (kinds (final h)) (k_conn k)) as [[]|] eqn:Hb; try discriminate. eapply blocking_not_proc; eauto. }
  assert (Hpc := idle_calls _ _ _ Ho Ha Hnp).
  assert (F : exists h1, (forall l, In l h1 -> quiet_label e l) /\ ags (final (h ++ h1)) = ags (final h) /\ busy (final (h ++ h1)) = false).
  { destruct (busy (final h)) eqn:B.
    - exists [LFinish]. split; [intros l [<-|[]]; right; right; reflexivity|]. rewrite final_snoc. cbn [step]. rewrite B, Hpc. cbn. auto.
    - exists []. split; [intros l []|]. rewrite app_nil_r. auto. }
  destruct F as (h1 & Q1 & A1 & B1). destruct (drains (final (h ++ h1)) _ B1 eq_refl) as (evs & E & _). rewrite run_final in E.
  exists (h1 ++ repeat LLoop (length (queue (final (h ++ h1))))). rewrite app_assoc. inversion E as [[E1 E2]]. rewrite E1. split.
  - intros l Hl. apply in_app_iff in Hl as [Hl|Hl]; [auto|]. apply repeat_spec in Hl. right. left. exact Hl.
  - cbn [ags to]. split; [exact A1|]. reflexivity.
Qed.
Lemma idle_set s s' e a p : others_idle s e -> nth_error (ags s) e = Some a -> ags s' = at_pc s e a p -> others_idle s' e.
Proof.
  intros H Ha E t b Hb Hp. destruct (Nat.eq_dec t e) as [->|Hne]; [auto|]. rewrite E in Hb. unfold at_pc in Hb. rewrite nth_set_other in Hb by congruence. eauto.
Qed.
(** An emission that has begun comes to its end. *)
Lemma ends n : forall h e a v rest, length rest = n -> nth_error (ags (final h)) e = Some a -> a_call a = CNotify v ->
  (a_pc a = PRun rest \/ exists c, a_pc a = PHeld c rest) -> others_idle (final h) e ->
  exists h2, (forall l, In l h2 -> quiet_label e l) /\ returned (trace (h ++ h2)) e.
Proof.
  assert (Base : forall n, (forall h e a v rest, length rest = n -> nth_error (ags (final h)) e = Some a -> a_call a = CNotify v ->
       a_pc a = PRun rest -> others_idle (final h) e -> exists h2, (forall l, In l h2 -> quiet_label e l) /\ returned (trace (h ++ h2)) e) ->
     forall h e a v rest, length rest = n -> nth_error (ags (final h)) e = Some a -> a_call a = CNotify v ->
       (a_pc a = PRun rest \/ exists c, a_pc a = PHeld c rest) -> others_idle (final h) e ->
       exists h2, (forall l, In l h2 -> quiet_label e l) /\ returned (trace (h ++ h2)) e).
  { intros n0 IH h e a v rest Hn Ha Hc [Hp|[c Hp]] Ho; [eauto|].
    destruct (frees h e a c rest v Ha Hc Hp Ho) as (h1 & Q1 & A1 & W1).
    assert (Ha1 : nth_error (ags (final (h ++ h1))) e = Some a) by (rewrite A1; exact Ha).
    assert (St : step (final (h ++ h1)) (LStep e) = (to (final (h ++ h1)) (lock (final (h ++ h1))) (keeper (final (h ++ h1))) (queue (final (h ++ h1))) (at_pc (final (h ++ h1)) e a (PRun rest)), [])).
    { cbn [step]. rewrite Ha1, Hp, Hc, W1. reflexivity. }
    destruct (IH ((h ++ h1) ++ [LStep e]) e (Ag (a_call a) (a_proc a) (PRun rest)) v rest Hn) as (h2 & Q2 & R2).
    - rewrite final_snoc, St. cbn. unfold at_pc. apply nth_set_same. eapply nth_lt; eauto.
    - exact Hc.
    - reflexivity.
    - rewrite final_snoc, St. cbn [fst]. eapply (idle_set (final (h ++ h1))); [|exact Ha1|reflexivity]. unfold others_idle. rewrite A1. exact Ho.
    - exists (h1 ++ LStep e :: h2). split.
      + intros l Hl. apply in_app_iff in Hl as [Hl|[<-|Hl]]; [auto|left; reflexivity|auto].
      + replace (h ++ h1 ++ LStep e :: h2) with (((h ++ h1) ++ [LStep e]) ++ h2) by (rewrite <- !app_assoc; reflexivity). exact R2. }
  induction n as [|n IH]; apply Base; intros h e a v rest Hn Ha Hc Hp Ho; destruct rest as [|c rest]; try discriminate.
  - exists [LStep e]. split; [intros l [<-|[]]; left; reflexivity|]. unfold returned. rewrite trace_snoc. apply in_or_app. right.
    cbn [step]. rewrite Ha, Hp, Hc. cbn. auto.
  - destruct (inv_final h) as [N C M Q].
    assert (Hk : exists k, nth_error (kinds (final h)) c = Some k).
    { assert (K := e_ok _ _ M _ _ Ha). unfold em_ok in K. rewrite Hp in K. destruct K as [(w & _ & K) _].
      assert (Hin : In c (connected (trace h))) by (eapply prog_in; [exact K|left; now left]). rewrite <- (n_keep _ _ N) in Hin. apply (n_lt _ _ N) in Hin.
      apply nth_error_Some in Hin. destruct (nth_error (kinds (final h)) c); [eauto|congruence]. }
    destruct Hk as [k Hk].
    assert (St : exists p q f, step (final h) (LStep e) = (to (final h) (lock (final h)) (keeper (final h)) q (at_pc (final h) e a p), [ESend e c v f]) /\
                   (p = PRun rest \/ exists c', p = PHeld c' rest)).
    { cbn [step]. rewrite Ha, Hp, Hc. unfold send. rewrite Hk.
      destruct k; [|destruct (gone (final h) || closed (final h))|destruct (gone (final h) || closed (final h)); [|destruct (a_proc a)]|
                   destruct (gone (final h) || closed (final h)); [|destruct (a_proc a)]];
        do 3 eexists; (split; [reflexivity|eauto]). }
    destruct St as (p & q & f & St & Hpp).
    destruct (IH (h ++ [LStep e]) e (Ag (a_call a) (a_proc a) p) v rest) as (h2 & Q2 & R2).
    + cbn in Hn. lia.
    + rewrite final_snoc, St. cbn. unfold at_pc. apply nth_set_same. eapply nth_lt; eauto.
    + exact Hc.
    + exact Hpp.
    + rewrite final_snoc, St. cbn [fst]. eapply (idle_set (final h)); [exact Ho|exact Ha|reflexivity].
    + exists (LStep e :: h2). split; [intros l [<-|Hl]; [left; reflexivity|auto]|].
      replace (h ++ LStep e :: h2) with ((h ++ [LStep e]) ++ h2) by (rewrite <- app_assoc; reflexivity). exact R2.
Qed.

(** ** Deadlock *)
Definition stuck (e p : nat) (s : st) : Prop :=
  (exists v c r, nth_error (ags s) e = Some (Ag (CNotify v) false (PHeld c r))) /\ (exists c, nth_error (ags s) p = Some (Ag c true PStart)) /\
  lock s = Some e /\ busy s = true /\ waits_for s e = true.
Lemma stuck_step e p s l s' ev tr : callI s tr -> stuck e p s -> pstep s l s' ev -> l <> LStop -> stuck e p s' /\ ~ In (ERet e) ev /\ ~ In (ERet p) ev.
Proof.
  intros G ((v & c & r & He) & (cp & Hp) & L & B & W) Hs Hl.
  assert (Set1 : forall t a q, nth_error (ags s) t = Some a -> t <> e -> t <> p ->
     (exists v c r, nth_error (at_pc s t a q) e = Some (Ag (CNotify v) false (PHeld c r))) /\ (exists c, nth_error (at_pc s t a q) p = Some (Ag c true PStart))).
  { intros t a q _ N1 N2. unfold at_pc. rewrite !nth_set_other by congruence. eauto 6. }
  assert (Pc : proc_calls s = true).
  { unfold proc_calls. apply existsb_exists. exists (Ag cp true PStart). split; [eapply nth_error_In; eauto|reflexivity]. }
  assert (Wapp : forall k q, existsb (fun k : task => Nat.eqb (k_em k) e && match nth_error (kinds s) (k_conn k) with Some Blocking => true | _ => false end) q = true ->
     existsb (fun k : task => Nat.eqb (k_em k) e && match nth_error (kinds s) (k_conn k) with Some Blocking => true | _ => false end) (q ++ k) = true).
  { intros k q H. rewrite existsb_app, H. reflexivity. }
  assert (Nst : forall t a rest, nth_error (ags s) t = Some a -> a_pc a = PRun rest -> t <> e /\ t <> p).
  { intros t a rest Ha Hq. split; intros ->; rewrite ?He, ?Hp in Ha; inversion Ha; subst; discriminate. }
  destruct Hs; try congruence.
  - split; [unfold stuck; eauto 10|]. split; intros [].
  - split; [|split; intros [K|[]]; discriminate]. unfold stuck. cbn [ags lock busy to].
    rewrite !nth_error_app1 by (eapply nth_lt; eauto). split; [eauto|]. split; [eauto|]. split; [exact L|]. split; [exact B|exact W].
  - destruct (Nst _ _ _ H H1) as [N1 N2]. destruct (Set1 t a (PRun rest) H N1 N2) as [A1 A2].
    split; [|split; intros [K|[]]; discriminate]. split; [exact A1|split; [exact A2|split; [exact L|split; [exact B|exact W]]]].
  - destruct (Nst _ _ _ H H1) as [N1 N2]. destruct (Set1 t a (PRun rest) H N1 N2) as [A1 A2].
    split; [|split; intros [K|[]]; discriminate]. split; [exact A1|split; [exact A2|split; [exact L|split; [exact B|exact W]]]].
  - destruct (Nst _ _ _ H H1) as [N1 N2]. destruct (Set1 t a (match k with Blocking => PHeld c0 rest | _ => PRun rest end) H N1 N2) as [A1 A2].
    split; [|split; intros [K|[]]; discriminate]. split; [exact A1|split; [exact A2|split; [exact L|split; [exact B|]]]]. apply Wapp. exact W.
  - destruct (Nst _ _ _ H H1) as [N1 N2]. exfalso. apply N1. assert (X : lock s = Some t) by (apply (g_lock _ _ G _ _ H); left; eauto). congruence.
  - assert (N1 : t <> e) by (intros ->; congruence). assert (N2 : t <> p) by (intros ->; rewrite Hp in H; inversion H; subst; discriminate).
    destruct (Set1 t a (PRun rest) H N1 N2) as [A1 A2].
    split; [|split; intros []]. split; [exact A1|split; [exact A2|split; [exact L|split; [exact B|exact W]]]].
  - split; [|split; intros [K|[]]; discriminate]. split; [eauto|split; [eauto|split; [exact L|split; [exact B|exact W]]]].
Qed.

(** The steps of [e] and of the processor leave the other calls alone; the mutex is with [e] or free. *)
Lemma quiet_step s l e s' ev : pstep s l s' ev -> quiet_label e l -> (lock s = None \/ lock s = Some e) ->
  (lock s' = None \/ lock s' = Some e) /\ forall t, t <> e -> nth_error (ags s') t = nth_error (ags s) t.
Proof.
  intros Hs Hq Hl.
  destruct Hs; cbn [lock ags to]; try (destruct Hq as [Hq|[Hq|Hq]]; discriminate); auto;
    try (assert (t = e) by (destruct Hq as [Hq|[Hq|Hq]]; congruence); subst t);
    (split; [auto|intros u Hu; unfold at_pc; rewrite ?nth_set_other by congruence; reflexivity]).
Qed.
Lemma quiet_run e h2 : forall h, (forall l, In l h2 -> quiet_label e l) -> (lock (final h) = None \/ lock (final h) = Some e) ->
  (lock (final (h ++ h2)) = None \/ lock (final (h ++ h2)) = Some e) /\ forall t, t <> e -> nth_error (ags (final (h ++ h2))) t = nth_error (ags (final h)) t.
Proof.
  induction h2 as [|l h2 IH] using rev_ind; intros h Hq Hl; [rewrite app_nil_r; auto|].
  destruct (IH h) as [L A]; [intros x Hx; apply Hq; apply in_or_app; auto|exact Hl|].
  rewrite app_assoc, final_snoc. destruct (quiet_step _ _ e _ _ (step_pstep (final (h ++ h2)) l)) as [L' A']; [apply Hq; apply in_or_app; right; now left|exact L|].
  split; [exact L'|]. intros t Ht. rewrite A' by exact Ht. auto.
Qed.
Lemma free_returns h t a : lock (final h) = None -> nth_error (ags (final h)) t = Some a -> others_idle (final h) t ->
  exists h2, (forall l, In l h2 -> quiet_label t l) /\ returned (trace (h ++ h2)) t.
Proof.
  intros L Ha Ho. destruct (inv_final h) as [_ C _ _]. destruct (a_pc a) as [|r|c r|] eqn:P.
  - destruct (a_call a) as [k|c|v] eqn:Hc.
    + exists [LStep t]. split; [intros l [<-|[]]; left; reflexivity|]. unfold returned. rewrite trace_snoc. apply in_or_app. right.
      cbn [step]. rewrite Ha, P, Hc, L. cbn. auto.
    + exists [LStep t]. split; [intros l [<-|[]]; left; reflexivity|]. unfold returned. rewrite trace_snoc. apply in_or_app. right.
      cbn [step]. rewrite Ha, P, Hc, L. cbn [snd]. apply in_or_app. right. now left.
    + assert (St : step (final h) (LStep t) = (to (final h) (Some t) (keeper (final h)) (queue (final h)) (at_pc (final h) t a (PRun (keeper (final h)))), [EEmit t v])).
      { cbn [step]. rewrite Ha, P, Hc, L. reflexivity. }
      destruct (ends (length (keeper (final h))) (h ++ [LStep t]) t (Ag (a_call a) (a_proc a) (PRun (keeper (final h)))) v (keeper (final h))) as (h2 & Q2 & R2).
      * reflexivity.
      * rewrite final_snoc, St. cbn. unfold at_pc. apply nth_set_same. eapply nth_lt; eauto.
      * exact Hc.
      * left. reflexivity.
      * rewrite final_snoc, St. cbn [fst]. eapply (idle_set (final h)); [exact Ho|exact Ha|reflexivity].
      * exists (LStep t :: h2). split; [intros l [<-|Hl]; [left; reflexivity|auto]|].
        replace (h ++ LStep t :: h2) with ((h ++ [LStep t]) ++ h2) by (rewrite <- app_assoc; reflexivity). exact R2.
  - exfalso. assert (X : lock (final h) = Some t) by (apply (g_lock _ _ C _ _ Ha); left; eauto). congruence.
  - exfalso. assert (X : lock (final h) = Some t) by (apply (g_lock _ _ C _ _ Ha); right; eauto). congruence.
  - exists []. split; [intros l []|]. rewrite app_nil_r. apply (g_done _ _ C). eauto.
Qed.
(** Any call returns by its own steps and those of the notification in progress and of the processor. *)
Lemma any_returns h t a : nth_error (ags (final h)) t = Some a -> (forall u b, nth_error (ags (final h)) u = Some b -> a_proc b = true -> a_pc b = PDone) ->
  exists e h2, (forall l, In l h2 -> quiet_label e l \/ quiet_label t l) /\ returned (trace (h ++ h2)) t.
Proof.
  intros Ha Hi. assert (Hot : forall e, others_idle (final h) e) by (intros e u b Hb Hp; right; eauto).
  destruct (lock (final h)) as [e|] eqn:L.
  2:{ destruct (free_returns h t a L Ha (Hot t)) as (h2 & Q & R). exists t, h2. auto. }
  destruct (inv_final h) as [_ C M _]. destruct (g_holder _ _ C _ L) as [b Hb]. assert (Hr := proj1 (g_lock _ _ C _ _ Hb) L).
  assert (R : exists h1, (forall l, In l h1 -> quiet_label e l) /\ returned (trace (h ++ h1)) e).
  { destruct (a_call b) as [k|c|v] eqn:Hc.
    - exfalso. assert (K := e_ok _ _ M _ _ Hb). unfold em_ok in K. destruct Hr as [[r Hp]|(c0 & r & Hp)]; rewrite Hp in K; destruct K as [(w & K & _) _]; congruence.
    - exfalso. assert (K := e_ok _ _ M _ _ Hb). unfold em_ok in K. destruct Hr as [[r Hp]|(c0 & r & Hp)]; rewrite Hp in K; destruct K as [(w & K & _) _]; congruence.
    - destruct Hr as [[r Hp]|(c0 & r & Hp)]; eapply ends; eauto. }
  destruct R as (h1 & Q1 & R1). destruct (Nat.eq_dec t e) as [->|Hne]; [exists e, h1; auto|].
  destruct (quiet_run e h1 h Q1 (or_intror L)) as [L1 A1]. destruct (inv_final (h ++ h1)) as [_ C1 _ _].
  assert (R1' := R1). apply (g_done _ _ C1) in R1' as (b1 & Hb1 & Hd1).
  assert (L2 : lock (final (h ++ h1)) = None).
  { destruct L1 as [L1|L1]; [exact L1|]. apply (g_lock _ _ C1 _ _ Hb1) in L1. destruct L1 as [[r K]|(c0 & r & K)]; congruence. }
  destruct (free_returns (h ++ h1) t a L2) as (h2 & Q2 & R2).
  - rewrite A1 by exact Hne. exact Ha.
  - intros u x Hx Hp. destruct (Nat.eq_dec u e) as [->|Hu]; [right; congruence|]. rewrite A1 in Hx by exact Hu. right. eauto.
  - exists e, (h1 ++ h2). rewrite app_assoc. split; [|exact R2]. intros l Hl. apply in_app_iff in Hl as [Hl|Hl]; auto.
Qed.
