(** The signal model: scoped connections, dead objects, progress, safety, counting. *)
From Verif Require Import SigModel SigSpec SigProofs SigProofs2 SigProofs3 SigProofs4 SigProofs5 SigProofs6 SigProofs7.

Lemma watch_tr st st' : tr (watch st st') = tr st' \/ exists s, tr (watch st st') = tr st' ++ [EFreed s] /\ exists e k, em st = Some e /\ e_run e = Some (k, s).
Proof.
  unfold watch. destruct (em st) as [e|]; [|auto]. destruct (e_run e) as [[k s]|] eqn:R; [|auto]. destruct (owned st s && _); [|auto]. right. exists s. split; [reflexivity|]. eauto.
Qed.

(** *** End of a ScopedConnection *)
Theorem ans_scoped m h t c s : may_call m h t -> made_for m h c s -> ~ user_slot m h s -> in_use m h c -> signal_alive m h -> exists f,
  (In s (slots (live (trace m h))) -> trace m (h ++ [(t, AScopedEnd c)]) = trace m h ++ [ELeave s; EDestroy c] ++ f) /\
  (~ In s (slots (live (trace m h))) -> trace m (h ++ [(t, AScopedEnd c)]) = trace m h ++ [EDestroy c] ++ f) /\
  (f = [] \/ exists e s', f = [EFreed s'] /\ running m h t e s').
Proof.
  intros MC G U IU A. rewrite trace_snoc by exact MC. destruct MC as [FR _]. pose proof (alive_hub m h A) as HB.
  destruct (given_M m h c s G U) as (IN & L & _). unfold act, call. rewrite FR, IN. cbn [orb]. rewrite (proj2 (Nat.leb_gt _ _) L).
  rewrite (connected_iff m h c s G U IU A). pose proof (has_live m h s) as HL.
  set (st' := emit (set_con _ c CGone) [EDestroy c]).
  assert (RUN : forall e k s', em (final m h) = Some e -> e_run e = Some (k, s') -> exists x s0, [EFreed s'] = [EFreed s0] /\ running m h t x s0).
  { intros e k s' E R. exists (e_no e), s'. split; [reflexivity|]. exists e, k. repeat split; auto. unfold free in FR. rewrite E in FR. apply andb_true_iff in FR as [FR _]. apply Nat.eqb_eq. exact FR. }
  assert (T : tr st' = trace m h ++ (if has s (entries (final m h)) then [ELeave s; EDestroy c] else [EDestroy c])).
  { unfold st'. destruct (has s (entries (final m h))) eqn:H; [|reflexivity]. cbn. unfold disconnect.
    destruct (con_view m h c s G U IU A) as [[N C]|[(N & H' & C)|(N & H' & C)]]; try congruence. rewrite N, owned_has, HB, H by exact H. cbn. rewrite <- app_assoc. reflexivity. }
  destruct (watch_tr (final m h) st') as [W|(s' & W & e & k & E & R)].
  - exists []. rewrite W, T, <- HL. destruct (has s (entries (final m h))); split; [|split; [|auto]| |split; [|auto]]; intros X; rewrite ?app_nil_r; auto; congruence.
  - exists [EFreed s']. rewrite W, T, <- app_assoc, <- HL. destruct (has s (entries (final m h))); split; [|split| |split]; try (intros X; auto; congruence); right; eapply RUN; eauto.
Qed.

(** *** When a slot is called *)
Lemma call_event m st t a e : J st -> (exists l, tr (act m st t a) = tr st ++ l /\ In e l) -> match e with ECall _ _ _ _ _ => True | _ => False end ->
  exists x k s, em st = Some x /\ e = ECall (e_thread x) (e_no x) k s (e_val x) /\ tr (act m st t a) = tr st ++ [e] /\ nth_error (entries st) (e_cur x) = Some (Some (k, s)) /\
   (forall o c, nth_error (kinds st) s = Some (KTracked o c) -> is_dead st o = false) /\ a = AStep /\ e_run x = None.
Proof.
  intros I (l & T & X) E.
  assert (NO : forall l', tr (act m st t a) = tr st ++ l' -> (forall e', In e' l' -> match e' with ECall _ _ _ _ _ => False | _ => True end) -> False).
  { intros l' T' W. rewrite T' in T. apply app_inv_head in T. subst l'. apply W in X. destruct e; contradiction. }
  assert (SAME : act m st t a = st -> False).
  { intros S. apply (NO []); [rewrite S, app_nil_r; reflexivity|intros e' []]. }
  assert (SAVE : forall st0 s, act m st t a = save m st0 t a s -> tr st0 = tr st -> False).
  { intros st0 s E1 E2. rewrite E1 in NO. eapply NO; [rewrite tr_save, E2; reflexivity|]. intros e' Y. apply in_app_or in Y as [Y|[<-|[]]]; [|exact Logic.I].
    destruct (can_add m (entries st0)); [destruct Y as [<-|[]]; exact Logic.I|destruct Y]. }
  unfold act in *. destruct a as [k| |s|s|s| | | |c|c|c|c|c|o| |v| | |]; try (destruct (free st t); [unfold call in *|exfalso; apply SAME; reflexivity]).
  - exfalso. destruct k as [| |o]; [destruct (hub st)|destruct (hub st)|destruct (hub st && _)]; try (apply SAME; reflexivity); eapply SAVE; reflexivity.
  - exfalso. eapply NO; [reflexivity|]. evs.
  - exfalso. destruct (hub st && _); [|apply SAME; reflexivity]. eapply SAVE; reflexivity.
  - exfalso. apply (NO []); [cbn; rewrite app_nil_r; reflexivity|intros e' []].
  - exfalso. destruct (hub st && _); [|apply SAME; reflexivity]. destruct (has s (entries st)).
    + apply (NO [ELeave s; ERet t (ADisconnectPtr s) (RBool true)]); [cbn; rewrite <- app_assoc; reflexivity|evs].
    + eapply NO; [reflexivity|evs].
  - exfalso. destruct (hub st); [|apply SAME; reflexivity]. destruct m; [destruct (em st)|]; (eapply NO; [reflexivity|evs]).
  - exfalso. destruct (hub st); [|apply SAME; reflexivity]. eapply NO; [reflexivity|evs].
  - exfalso. destruct (hub st); [|apply SAME; reflexivity]. eapply NO; [reflexivity|evs].
  - exfalso. destruct (hidden st c); [apply SAME; reflexivity|]. destruct (tr_disconnect m st c) as (l' & T' & W). destruct (disconnect m st c) as [st' b]. cbn [fst] in *.
    apply (NO (l' ++ [ERet t (ADisconnect c) (RBool b)])); [cbn; rewrite T', app_assoc; reflexivity|].
    intros e' Y. apply in_app_or in Y as [Y|[<-|[]]]; [destruct W as [->|[s2 ->]]; [destruct Y|destruct Y as [<-|[]]; exact Logic.I]|exact Logic.I].
  - exfalso. destruct (hidden st c); [apply SAME; reflexivity|]. destruct (tr_reconnect m st c) as (l' & T' & W). destruct (reconnect m st c) as [st' b]. cbn [fst] in *.
    apply (NO (l' ++ [ERet t (AReconnect c) (RBool b)])); [cbn; rewrite T', app_assoc; reflexivity|].
    intros e' Y. apply in_app_or in Y as [Y|[<-|[]]]; [destruct W as [->|[s2 ->]]; [destruct Y|destruct Y as [<-|[]]; exact Logic.I]|exact Logic.I].
  - exfalso. destruct (hidden st c); [apply SAME; reflexivity|]. eapply NO; [reflexivity|evs].
  - exfalso. destruct (internal st c || _); [apply SAME; reflexivity|]. eapply NO; [reflexivity|evs].
  - exfalso. destruct (internal st c || _); [apply SAME; reflexivity|]. destruct (tr_disconnect m st c) as (l' & T' & W). destruct (is_connected st c).
    + apply (NO (l' ++ [EDestroy c])); [cbn; rewrite T', app_assoc; reflexivity|].
      intros e' Y. apply in_app_or in Y as [Y|[<-|[]]]; [destruct W as [->|[s2 ->]]; [destruct Y|destruct Y as [<-|[]]; exact Logic.I]|exact Logic.I].
    + apply (NO [EDestroy c]); [reflexivity|evs].
  - exfalso. eapply NO; [reflexivity|evs].
  - exfalso. destruct (hub st); [|apply SAME; reflexivity]. destruct (em st); (eapply NO; [reflexivity|evs]).
  - exfalso. destruct (hub st); [|apply SAME; reflexivity]. destruct (entries st); [|destruct (notif st)]; (eapply NO; [reflexivity|evs]).
  - destruct (em st) as [x|] eqn:EM; [|exfalso; apply SAME; reflexivity]. destruct (Nat.eqb (e_thread x) t); [|exfalso; apply SAME; reflexivity].
    destruct (e_run x) eqn:ER; [exfalso; apply SAME; reflexivity|].
    assert (HB : hub st = true) by (apply (j_hub _ I); congruence). unfold step in *.
    destruct (nth_error (entries st) (e_cur x)) as [[[k s]|]|] eqn:N; [|exfalso; apply (NO []); [cbn; rewrite app_nil_r; reflexivity|intros e' []]|exfalso; eapply NO; [reflexivity|evs]].
    assert (YES : tr (emit (with_em st true (Some (Em (e_thread x) (e_no x) (e_val x) (e_cur x) (Some (k, s))))) [ECall (e_thread x) (e_no x) k s (e_val x)]) = tr st ++ l ->
      (forall o c, nth_error (kinds st) s = Some (KTracked o c) -> is_dead st o = false) ->
      exists x0 k0 s0, Some x = Some x0 /\ e = ECall (e_thread x0) (e_no x0) k0 s0 (e_val x0) /\ tr st ++ l = tr st ++ [e] /\ nth_error (entries st) (e_cur x0) = Some (Some (k0, s0)) /\
       (forall o c, nth_error (kinds st) s0 = Some (KTracked o c) -> is_dead st o = false) /\ AStep = AStep /\ e_run x0 = None).
    { intros Y D. cbn in Y. apply app_inv_head in Y. subst l. destruct X as [<-|[]]. exists x, k, s. auto 10. }
    rewrite T. destruct (nth_error (kinds st) s) as [[| | |o c]|] eqn:K; try (apply YES; [exact T|intros; discriminate]).
    destruct (is_dead st o) eqn:D; [|apply YES; [exact T|intros o' c' Z; injection Z as <- <-; exact D]]. exfalso.
    pose proof (expire_eq m st s o c I K (has_nth _ _ _ _ N) HB) as Y. fold (expire m st c) in *. cbv zeta in *. rewrite Y in *.
    destruct (owned _ s).
    + apply (NO (ELeave s :: match m with Multi => [] | Single => [EEnd (e_thread x) (e_no x)] end)); [destruct m; cbn; rewrite <- ?app_assoc; reflexivity|destruct m; evs].
    + apply (NO (ELeave s :: EFreed s :: match m with Multi => [] | Single => [EEnd (e_thread x) (e_no x)] end)); [destruct m; cbn; rewrite <- ?app_assoc; reflexivity|destruct m; evs].
  - exfalso. destruct (em st) as [x|] eqn:EM; [|apply SAME; reflexivity]. destruct (Nat.eqb (e_thread x) t); [|apply SAME; reflexivity]. destruct (e_run x) as [[k s]|]; [|apply SAME; reflexivity].
    unfold slot_return in *. apply (NO (match m with Multi => [] | Single => [EEnd (e_thread x) (e_no x)] end)); [|destruct m; evs].
    destruct (nth_error (kinds st) s) as [[| |c|o c]|]; destruct m; try destruct (nth_error (conns st) c) as [[| |]|]; cbn; rewrite ?app_nil_r; reflexivity.
  - exfalso. destruct (em st) as [x|] eqn:EM; [|apply SAME; reflexivity]. destruct (Nat.eqb (e_thread x) t); [|apply SAME; reflexivity]. destruct (e_run x) as [[k s]|]; [|apply SAME; reflexivity].
    eapply NO; [reflexivity|evs].
Qed.

(** A list followed by something is split inside it or behind it. *)
Lemma split_app {A} (a b l1 l2 : list A) x : l1 ++ l2 = a ++ x :: b -> (exists b', l1 = a ++ x :: b') \/ exists a', l2 = a' ++ x :: b /\ a = l1 ++ a'.
Proof.
  revert a. induction l1 as [|y l1 IH]; intros a E.
  - right. exists a. auto.
  - destruct a as [|z a]; cbn in E; injection E as -> E; [left; exists l1; reflexivity|].
    destruct (IH a E) as [[b' ->]|(a' & -> & ->)]; [left; exists b'; reflexivity|right; exists a'; auto].
Qed.

Lemma call_split m h a t e k s v b : trace m h = a ++ ECall t e k s v :: b ->
  ~ In ESignalEnd a /\ s < length (kinds (final m h)) /\ forall o c, nth_error (kinds (final m h)) s = Some (KTracked o c) -> ~ In (EKilled o) a.
Proof.
  revert a b. induction h as [|l h IH] using rev_ind; intros a b E; [destruct a; discriminate|].
  unfold trace in *. rewrite final_snoc in *. unfold next in *. destruct (crashed (final m h)); [exact (IH a b E)|]. set (st := final m h) in *. pose proof (J_final m h) as I. fold st in I.
  destruct (grow_act m st (fst l) (snd l) I) as [_ GK].
  assert (KW : kinds (watch st (act m st (fst l) (snd l))) = kinds (act m st (fst l) (snd l))) by (destruct (watch_cases st (act m st (fst l) (snd l))) as [->|[s' ->]]; reflexivity).
  rewrite KW. destruct (grows_act m st (fst l) (snd l) I) as (l' & T & _).
  assert (OLD : (exists b', tr st = a ++ ECall t e k s v :: b') -> ~ In ESignalEnd a /\ s < length (kinds (act m st (fst l) (snd l))) /\
    forall o c, nth_error (kinds (act m st (fst l) (snd l))) s = Some (KTracked o c) -> ~ In (EKilled o) a).
  { intros [b' O]. destruct (IH a b' O) as (A & B & C). split; [exact A|]. split; [destruct GK as [->|(k' & -> & _)]; rewrite ?app_length; lia|].
    intros o c X. apply (C o c). destruct GK as [GK|(k' & GK & _)]; rewrite GK in X; [exact X|]. rewrite nth_error_app1 in X by exact B. exact X. }
  assert (E' : exists b', tr (act m st (fst l) (snd l)) = a ++ ECall t e k s v :: b').
  { destruct (watch_tr st (act m st (fst l) (snd l))) as [W|(s' & W & _)]; rewrite W in E; [eauto|].
    apply split_app in E as [E|(a' & E & _)]; [exact E|]. destruct a' as [|? [|]]; discriminate. }
  destruct E' as [b' E']. rewrite T in E'. pose proof E' as E2. apply split_app in E2 as [E2|(a' & E2 & Ea)]; [apply OLD; exact E2|].
  destruct (call_event m st (fst l) (snd l) (ECall t e k s v) I) as (x & k0 & s0 & EM & EV & TT & N & D & _); [exists l'; split; [exact T|rewrite E2; apply in_or_app; right; left; reflexivity]|exact Logic.I|].
  injection EV as -> -> -> -> ->. rewrite T in TT. apply app_inv_head in TT. rewrite TT in E2. destruct a' as [|? [|]]; try discriminate. rewrite app_nil_r in Ea. subst a.
  pose proof (F_final m h) as FF. fold st in FF. split; [|split].
  - intros X. apply (f_hub _ FF) in X. pose proof (j_hub _ I) as HB. rewrite EM in HB. specialize (HB ltac:(discriminate)). congruence.
  - pose proof (j_ent _ I s0 (has_nth _ _ _ _ N)). destruct GK as [->|(k' & -> & _)]; rewrite ?app_length; lia.
  - intros o c X Y. pose proof (j_ent _ I s0 (has_nth _ _ _ _ N)) as Ls. apply (f_dead _ FF) in Y.
    assert (K : nth_error (kinds st) s0 = Some (KTracked o c)).
    { destruct GK as [GK|(k' & GK & _)]; rewrite GK in X; [exact X|]. rewrite nth_error_app1 in X by exact Ls. exact X. }
    specialize (D o c K). unfold is_dead in D. rewrite <- not_true_iff_false, existsb_exists in D. apply D. exists o. split; [exact Y|apply Nat.eqb_refl].
Qed.

Theorem dead_never_called m h a t e k s v b o : trace m h = a ++ ECall t e k s v :: b -> tracks m h s o -> ~ In (EKilled o) a.
Proof.
  intros E (t' & c & X). destruct (given_final m h) as [G _]. destruct (G _ _ _ _ X) as (_ & _ & _ & _ & c' & K). cbn in K.
  exact (proj2 (proj2 (call_split m h a t e k s v b E)) o c' K).
Qed.

(** *** Progress of an emission *)
Fixpoint steps (t n : nat) : history := match n with 0 => [] | S n => (t, AStep) :: steps t n end.
Lemma emitting_not_crashed m h : em (final m h) <> None -> crashed (final m h) = false \/ crashed (final m h) = true.
Proof. intros _. destruct (crashed (final m h)); auto. Qed.

Lemma next_step m h t x : crashed (final m h) = false -> em (final m h) = Some x -> e_thread x = t -> e_run x = None -> final m (h ++ [(t, AStep)]) = step m (final m h) x.
Proof.
  intros C E T R. rewrite final_snoc. unfold next. rewrite C. cbn [fst snd]. unfold act. rewrite E, T, Nat.eqb_refl, R. unfold watch. rewrite E, R. reflexivity.
Qed.

Theorem emission_progress m h t e : between m h t e -> ~ In ECrash (trace m h) -> exists n k s v,
  In (ECall t e k s v) (skipn (length (trace m h)) (trace m (h ++ steps t n))) \/ In (EEnd t e) (skipn (length (trace m h)) (trace m (h ++ steps t n))).
Proof.
  intros (x & E & T & NO & R) NC. apply not_crashed in NC.
  assert (G : forall fuel h0 x0, length (entries (final m h0)) - e_cur x0 + (match m with Single => 0 | Multi => 0 end) <= fuel -> crashed (final m h0) = false -> em (final m h0) = Some x0 -> e_thread x0 = t -> e_no x0 = e -> e_run x0 = None ->
     (exists l, trace m h0 = trace m h ++ l) ->
     exists n l k s v, trace m (h0 ++ steps t n) = trace m h ++ l /\ (In (ECall t e k s v) l \/ In (EEnd t e) l)).
  { induction fuel as [fuel IH] using lt_wf_ind. intros h0 x0 LE C0 E0 T0 N0 R0 [l0 L0]. pose proof (next_step m h0 t x0 C0 E0 T0 R0) as NX.
    pose proof (c_em _ _ (CI_final m h0) x0 E0) as [NT _].
    destruct (nth_error (entries (final m h0)) (e_cur x0)) as [[[k s]|]|] eqn:N.
    - assert (CALL : step m (final m h0) x0 = emit (with_em (final m h0) true (Some (Em (e_thread x0) (e_no x0) (e_val x0) (e_cur x0) (Some (k, s))))) [ECall (e_thread x0) (e_no x0) k s (e_val x0)] ->
        exists n l k s v, trace m (h0 ++ steps t n) = trace m h ++ l /\ (In (ECall t e k s v) l \/ In (EEnd t e) l)).
      { intros W. exists 1, (l0 ++ [ECall t e k s (e_val x0)]), k, s, (e_val x0). cbn [steps]. unfold trace at 1. rewrite NX, W. cbn. fold (trace m h0). rewrite L0, <- app_assoc, T0, N0.
        split; [reflexivity|]. left. apply in_or_app. right. left. reflexivity. }
      unfold step in CALL, NX. rewrite N in CALL, NX. destruct (nth_error (kinds (final m h0)) s) as [[| | |o c]|] eqn:K; try (apply CALL; reflexivity). destruct (is_dead (final m h0) o); [|apply CALL; reflexivity].
      clear CALL. assert (HB : hub (final m h0) = true) by (apply (j_hub _ (J_final m h0)); congruence).
      pose proof (expire_eq m (final m h0) s o c (J_final m h0) K (has_nth _ _ _ _ N) HB) as Y. fold (expire m (final m h0) c) in NX. cbv zeta in NX. rewrite Y in NX.
      pose proof (nth_lt _ _ _ N) as LT.
      destruct m.
      + destruct (IH (fuel - 1)) with (h0 := h0 ++ [(t, AStep)]) (x0 := Em t e (e_val x0) (S (e_cur x0)) None) as (n & l & k' & s' & v & H1 & H2).
        * rewrite Nat.add_0_r in LE. lia.
        * rewrite NX. destruct (owned _ s); cbn; rewrite NT; rewrite ?length_blank; rewrite Nat.add_0_r in *; lia.
        * rewrite NX. destruct (owned _ s); exact C0.
        * rewrite NX. cbn. rewrite T0, N0. reflexivity.
        * reflexivity.
        * reflexivity.
        * reflexivity.
        * unfold trace at 1. rewrite NX. destruct (owned _ s); cbn; fold (trace Multi h0); rewrite L0, <- ?app_assoc; eexists; reflexivity.
        * exists (S n), l, k', s', v. cbn [steps]. replace (h0 ++ (t, AStep) :: steps t n) with ((h0 ++ [(t, AStep)]) ++ steps t n) by (rewrite <- app_assoc; reflexivity). auto.
      + exists 1. cbn [steps]. unfold trace at 1. rewrite NX. destruct (owned _ s); cbn; fold (trace Single h0); rewrite L0, T0, N0, <- ?app_assoc; eexists; exists 0, 0, 0; (split; [reflexivity|]); right; apply in_or_app; right; cbn; auto.
    - unfold step in NX. rewrite N in NX. pose proof (nth_lt _ _ _ N) as LT.
      destruct (IH (fuel - 1)) with (h0 := h0 ++ [(t, AStep)]) (x0 := x0) as (n & l & k' & s' & v & H1 & H2).
      + destruct m; rewrite Nat.add_0_r in LE; lia.
      + rewrite NX. cbn. rewrite length_drop by exact LT. destruct m; rewrite Nat.add_0_r in *; lia.
      + rewrite NX. exact C0.
      + rewrite NX. exact E0.
      + exact T0.
      + exact N0.
      + exact R0.
      + unfold trace at 1. rewrite NX. cbn. fold (trace m h0). eauto.
      + exists (S n), l, k', s', v. cbn [steps]. replace (h0 ++ (t, AStep) :: steps t n) with ((h0 ++ [(t, AStep)]) ++ steps t n) by (rewrite <- app_assoc; reflexivity). auto.
    - unfold step in NX. rewrite N in NX. exists 1, (l0 ++ [EEnd t e]), 0, 0, 0. cbn [steps]. unfold trace at 1. rewrite NX. cbn. fold (trace m h0). rewrite L0, <- app_assoc, T0, N0.
      split; [reflexivity|]. right. apply in_or_app. right. left. reflexivity. }
  destruct (G _ h x (le_n _) NC E T NO R) as (n & l & k & s & v & H1 & H2); [exists []; rewrite app_nil_r; reflexivity|].
  exists n, k, s, v. rewrite H1, skipn_app, skipn_all, Nat.sub_diag. exact H2.
Qed.
