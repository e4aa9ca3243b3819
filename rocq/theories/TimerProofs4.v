(** Timers: consequences, and the states nothing gets out of. *)
From Verif Require Import ListUtil TimerModel TimerSpec TimerProofs TimerProofs2 TimerProofs3.
From Verif Require Amap.

Lemma trace_snoc h l : exists new, trace (h ++ [l]) = trace h ++ new.
Proof. unfold trace. rewrite final_snoc. apply next_prefix. Qed.

(** The step in which an event of the trace happened. *)
Lemma happened h a e b : trace h = a ++ e :: b -> exists h1 l h2 new1 new2, h = h1 ++ l :: h2 /\ trace (h1 ++ [l]) = trace h1 ++ new1 ++ e :: new2 /\ a = trace h1 ++ new1.
Proof.
  revert b. induction h as [|l h IH] using rev_ind; intros b E; [destruct a; discriminate|]. destruct (trace_snoc h l) as (new & N). rewrite N in E.
  assert (C : (exists b', trace h = a ++ e :: b') \/ exists a', a = trace h ++ a' /\ new = a' ++ e :: b).
  { clear - E. revert a E. induction (trace h) as [|x t IHt]; intros a E; [right; exists a; cbn in E; auto|]. destruct a as [|y a]; cbn in E; injection E as -> E; [left; exists t; reflexivity|]. destruct (IHt a E) as [(b' & ->)|(a' & -> & ->)]; [left; exists b'; reflexivity|right; exists a'; auto]. }
  destruct C as [(b' & E')|(a' & -> & ->)].
  - destruct (IH b' E') as (h1 & l' & h2 & n1 & n2 & -> & X & Y). exists h1, l', (h2 ++ [l]), n1, n2. rewrite <- app_assoc. auto.
  - exists h, l, [], a', b. auto.
Qed.

Lemma fire_state h a r t b : trace h = a ++ EFire r t :: b -> exists h1 a', a = trace h1 ++ a' /\ t = now (final h1) /\ pc (final h1) = PWoken r /\ running (dat (final h1) r) = true /\ deadline (dat (final h1) r) <= t /\
  (forall e, In e a' -> match e with ELook q w => q = r /\ w = t | EBad => True | _ => False end) /\ In (ELook r t) a' /\ exists c, trace h = trace h1 ++ c.
Proof.
  intros E. destruct (happened h a (EFire r t) b E) as (h1 & l & h2 & n1 & n2 & -> & X & Y). exists h1, n1.
  assert (X' : tr (next (final h1) l) = tr (final h1) ++ n1 ++ EFire r t :: n2) by (unfold trace in X; rewrite final_snoc in X; exact X).
  destruct (fired (final h1) l _ r t X') as (a' & A & B & C & D & F & _ & G & G'); [apply in_or_app; right; left; reflexivity|].
  assert (N2 : n1 = a').
  { clear - A G. revert a' A G. induction n1 as [|x n1 IH]; intros a' A G; destruct a' as [|y a']; cbn in A; auto.
    - injection A as <- _. exfalso. specialize (G _ (or_introl eq_refl)). exact G.
    - injection A as _ A. destruct n1; discriminate.
    - injection A as <- A. f_equal. apply IH; [exact A|]. intros e X. apply G. right. exact X. }
  subst a'. split; [exact Y|]. split; [exact B|]. split; [exact C|]. split; [exact D|]. split; [lia|]. split; [exact G|]. split; [exact G'|]. exists (n1 ++ EFire r t :: b). rewrite E, Y, <- app_assoc. reflexivity.
Qed.

Lemma plan_app r a b : plan_of r (a ++ b) = fold_left (plan_step r) b (plan_of r a).
Proof. unfold plan_of. apply fold_left_app. Qed.
Lemma plan_quiet r b p : (forall e, In e b -> plan_step r p e = p) -> fold_left (plan_step r) b p = p.
Proof. induction b as [|e b IH]; intros H; [reflexivity|]. cbn. rewrite (H e) by (left; reflexivity). apply IH. intros e' X. apply H. right. exact X. Qed.
Lemma looks_plan q a a' r t : (forall e, In e a' -> match e with ELook q w => q = r /\ w = t | EBad => True | _ => False end) -> plan_of q (a ++ a') = plan_of q a.
Proof. intros H. rewrite plan_app. apply plan_quiet. intros e X. specialize (H e X). destruct e; try destruct H; reflexivity. Qed.
Lemma looks_since q a a' r t : (forall e, In e a' -> match e with ELook q w => q = r /\ w = t | EBad => True | _ => False end) -> since q (a ++ a') = since q a.
Proof.
  intros H. rewrite since_app. apply since_quiet; [intros t' d X|intros t' X]; specialize (H _ X); exact H.
Qed.

Lemma fires_running h a r t b : trace h = a ++ EFire r t :: b -> due r a <> None.
Proof. intros E. destruct (fire_state h a r t b E) as (h1 & a' & -> & _ & _ & R & _ & L & _). unfold due. rewrite (looks_plan _ _ _ _ _ L). apply (W_final h1 r). exact R. Qed.

Lemma fires_late h a r t b w : trace h = a ++ EFire r t :: b -> fst (since r a) = Some w -> w <= t.
Proof. intros E S. destruct (fire_state h a r t b E) as (h1 & a' & -> & _ & _ & R & D & L & _). rewrite (looks_since _ _ _ _ _ L) in S. destruct (W_final h1 r) as (_ & _ & _ & _ & H). specialize (H w S). lia. Qed.

Lemma interval_since h r : interval r (trace h) = snd (since r (trace h)).
Proof. destruct (W_final h r) as (_ & A & _ & B & _). unfold interval. congruence. Qed.

Lemma in_order h a r t b : ok (trace h) -> trace h = a ++ EFire r t :: b -> exists w, due r a = Some w /\ w <= t /\ forall q w', due q a = Some w' -> w <= w'.
Proof.
  intros K E. destruct (fire_state h a r t b E) as (h1 & a' & -> & B & P & R & D & L & LL & c & E'). assert (K1 : ok (trace h1)) by (rewrite E' in K; eapply ok_prefix; exact K).
  pose proof (T_final h1 K1) as TT. pose proof (t_good _ TT) as G. destruct G as (GP & GS & GF).
  assert (DU : forall q, due q (trace h1 ++ a') = if running (dat (final h1) q) then Some (deadline (dat (final h1) q)) else None) by (intros q; unfold due; rewrite (looks_plan _ _ _ _ _ L); unfold trace; rewrite GP; reflexivity).
  assert (SF : exists l, records (final h1) = r :: l).
  { apply still_first; [apply TT|apply (t_picked _ TT); rewrite P; reflexivity| |exact R|lia].
    destruct (happened h (trace h1 ++ a') (EFire r t) b E) as (h1' & l & h2 & n1 & n2 & _ & _ & _).
    rewrite <- B. destruct a' as [|e a']; [destruct LL|]. pose proof (L e (or_introl eq_refl)) as Le. destruct e; try destruct Le.
    - subst. rewrite E in K. rewrite <- app_assoc in K. cbn in K. eapply (ok_prefix _ (a' ++ EFire r _ :: b)). rewrite <- app_assoc. exact K.
    - exfalso. apply (t_bad _ (T_final h K)). unfold trace in E. rewrite E. apply in_or_app. left. apply in_or_app. right. left. reflexivity. }
  destruct SF as (l & RE). exists (deadline (dat (final h1) r)). rewrite DU, R. split; [reflexivity|]. split; [exact D|]. intros q w'. rewrite DU. destruct (running (dat (final h1) q)) eqn:RQ; [|discriminate]. intros X. injection X as <-.
  apply (GF r l q RE). apply GS. exact RQ.
Qed.

Lemma sleeps h u : ok (trace h) -> asleep (final h) u -> match u with None => forall r, due r (trace h) = None | Some w => (exists r, due r (trace h) = Some w) /\ forall r w', due r (trace h) = Some w' -> w <= w' end.
Proof.
  intros K (Q & C & P). pose proof (T_final h K) as TT. destruct (t_good _ TT) as (GP & [GN GI] & GF). destruct u as [w|].
  - destruct P as (r & P). destruct (t_wait _ TT r w P) as (_ & HD & DW). assert (RR : running (dat (final h) r) = true) by (apply GI; destruct (records (final h)); [discriminate|]; injection HD as ->; left; reflexivity). split.
    + exists r. unfold due, trace. rewrite GP. unfold view. rewrite RR, DW. reflexivity.
    + intros q w'. unfold due, trace. rewrite GP. unfold view. cbn. destruct (running (dat (final h) q)) eqn:RQ; [|discriminate]. intros X. injection X as <-. apply GI in RQ. destruct (records (final h)) as [|f l] eqn:RE; [discriminate|]. injection HD as ->. rewrite <- DW. apply (GF r l q eq_refl RQ).
  - intros r. unfold due, trace. rewrite GP. unfold view. cbn. destruct (running (dat (final h) r)) eqn:RR; [exfalso|reflexivity]. pose proof (t_queue _ TT C) as TQ. rewrite P, Q in TQ. apply (TQ Logic.I). intros RE. apply GI in RR. rewrite RE in RR. destruct RR.
Qed.

Lemma wakes h w k k' : ok (trace h) -> asleep (final h) (Some w) -> w <= now (final h) -> exists r, due r (trace h) = Some w /\ trace (h ++ [Step k; Step k']) = trace h ++ [ELook r (now (final h)); EFire r (now (final h))].
Proof.
  intros K (Q & C & r & P) L. pose proof (T_final h K) as TT. destruct (t_good _ TT) as (GP & [GN GI] & GF). destruct (t_wait _ TT r w P) as (_ & HD & DW).
  assert (RR : running (dat (final h) r) = true) by (apply GI; destruct (records (final h)); [discriminate|]; injection HD as ->; left; reflexivity).
  exists r. split; [unfold due, trace; rewrite GP; unfold view; rewrite RR, DW; reflexivity|]. unfold trace. replace (h ++ [Step k; Step k']) with ((h ++ [Step k]) ++ [Step k']) by (rewrite <- app_assoc; reflexivity). rewrite !final_snoc.
  set (s1 := next (final h) (Step k)). assert (E1 : s1 = with_pc (final h) (PWoken r)) by (unfold s1; cbn; unfold step; rewrite P, C, Q; apply Nat.leb_le in L; rewrite L; reflexivity). rewrite E1. cbn. unfold step. cbn. rewrite C. unfold expired. cbn. rewrite DW. assert (LB : Nat.leb w (now (final h)) = true) by (apply Nat.leb_le; exact L). rewrite LB, RR.
  destruct (records (final h)) as [|f l] eqn:RE; [discriminate|]. unfold on_expired. cbv zeta. cbn. destruct (cyclic (dat (final h) r)).
  - unfold update_shortest. cbn. rewrite RE. cbn. rewrite <- app_assoc. reflexivity.
  - unfold remove_shortest. set (z := refresh _ _). destruct (check_empty_same z) as (_ & _ & X & _). cbn. rewrite X. cbn. rewrite <- app_assoc. reflexivity.
Qed.

(** ** A processor that spins *)
Record spins (st : state) (r : nat) : Prop := {
  s_open : closed st = false;
  s_first : exists l, records st = r :: l;
  s_off : running (dat st r) = false;
  s_due : deadline (dat st r) <= now st;
  s_pc : pc st = PLoop \/ pc st = PWoken r
}.
Definition idle_event (e : event) : Prop := match e with EFire _ _ | EExec => False | _ => True end.
Lemma spins_next st r l : spins st r -> l <> StopProc -> spins (next st l) r /\ exists new, tr (next st l) = tr st ++ new /\ forall e, In e new -> idle_event e.
Proof.
  intros [A (l0 & B) C D E] NS. assert (Z : exists new, tr st = tr st ++ new /\ forall e, In e new -> idle_event e) by (exists []; rewrite app_nil_r; split; [reflexivity|intros e []]).
  assert (Z1 : forall x, idle_event x -> exists new, tr st ++ [x] = tr st ++ new /\ forall e, In e new -> idle_event e) by (intros x X; exists [x]; split; [reflexivity|intros e [<-|[]]; exact X]).
  destruct l as [d| | |q|q b|k|o k]; cbn [next].
  - split; [|exact Z]. split; cbn; auto; [eauto|lia].
  - unfold async. rewrite A. split; [|exact Z]. split; cbn; auto. eauto.
  - congruence.
  - cbv zeta. destruct (running (dat st q)) eqn:R; [|split; [split; auto; eauto|exact Z]]. assert (N : Nat.eqb r q = false) by (apply Nat.eqb_neq; intros ->; congruence). split; [|cbn; apply Z1; exact Logic.I]. split; cbn; rewrite ?N; auto. eauto.
  - cbv zeta. split; [|cbn; apply Z1; exact Logic.I]. split; cbn; auto; [eauto|destruct (Nat.eqb r q) eqn:N; cbn; auto|destruct (Nat.eqb r q) eqn:N; cbn; auto]; apply Nat.eqb_eq in N; subst q; auto.
  - unfold step. assert (EX : expired st r = true) by (apply Nat.leb_le; exact D). destruct E as [E|E]; rewrite E.
    + rewrite B, EX. split; [|cbn; apply Z1; exact Logic.I]. split; cbn; auto. eauto.
    + cbv zeta. rewrite A, EX, C. split; [|cbn; apply Z1; exact Logic.I]. split; cbn; auto. eauto.
  - replace (in_user (pc st)) with false by (destruct E as [E|E]; rewrite E; reflexivity). split; [split; auto; eauto|exact Z].
Qed.
Lemma spins_forever h r h' : spins (final h) r -> ~ In StopProc h' -> spins (final (h ++ h')) r /\ exists new, trace (h ++ h') = trace h ++ new /\ forall e, In e new -> idle_event e.
Proof.
  intros S. induction h' as [|l h' IH] using rev_ind; intros N; [rewrite app_nil_r; split; [exact S|]; exists []; rewrite app_nil_r; split; [reflexivity|intros e []]|].
  destruct IH as (S1 & n1 & E1 & I1); [intros X; apply N; apply in_or_app; left; exact X|]. rewrite app_assoc, final_snoc.
  destruct (spins_next _ r l S1) as (S2 & n2 & E2 & I2); [intros ->; apply N; apply in_or_app; right; left; reflexivity|]. split; [exact S2|]. exists (n1 ++ n2). unfold trace in *. rewrite final_snoc, E2, E1, <- app_assoc. split; [reflexivity|].
  intros e X. apply in_app_or in X as [X|X]; auto.
Qed.

(** ** A timer that runs but is in no heap *)
Record ghost (st : state) (r : nat) : Prop := {
  g_on : running (dat st r) = true;
  g_out : ~ In r (records st);
  g_pc : match pc st with PWait q _ | PUserIn q | PWoken q => q <> r | _ => True end
}.
Definition stops (r : nat) (l : label) : Prop := match l with Foreign q => q = r | U (Stop q) _ => q = r | _ => False end.
Lemma heap_out k f l r : ~ In r l -> ~ In r (heap k f l).
Proof. rewrite heap_in. auto. Qed.
Lemma ghost_remove k q r st : ~ In r (records st) -> ~ In r (records (remove_timer k q st)).
Proof.
  intros N. unfold remove_timer. destruct (records st) as [|f t] eqn:RE; [rewrite RE; exact N|]. destruct (Nat.eqb f q).
  - unfold remove_shortest. set (z := refresh _ _). destruct (check_empty_same z) as (_ & -> & _). unfold z. cbn. rewrite RE. apply heap_out. intros X. apply N. right. exact X.
  - destruct (Amap.mem q (f :: t)); [|rewrite RE; exact N]. set (z := check_empty _). destruct (check_empty_same (with_records st (drop_one q (f :: t)))) as (_ & X & _). fold z in X. cbn. rewrite X. apply heap_out. cbn [records with_records]. intros Y. apply N. eapply drop_cons_in. exact Y.
Qed.
Lemma ghost_next st r l : ghost st r -> ~ stops r l -> ghost (next st l) r.
Proof.
  intros [A B C] NS. destruct l as [d| | |q|q b|k|o k]; cbn [next].
  - split; auto.
  - destruct (async_same st QUser) as (E1 & E2 & _ & _ & E3 & _). split; rewrite ?E1, ?E2, ?E3; auto.
  - split; auto.
  - cbv zeta. destruct (running (dat st q)); [|split; auto]. assert (N : Nat.eqb r q = false) by (apply Nat.eqb_neq; intros ->; apply NS; reflexivity). split; cbn; rewrite ?N; auto.
  - cbv zeta. split; cbn; auto. destruct (Nat.eqb r q) eqn:N; auto. apply Nat.eqb_eq in N. subst q. exact A.
  - unfold step. destruct (pc st) as [| | |q w|q|q|q] eqn:PC; try (split; auto; rewrite PC; auto; fail).
    + destruct (closed st); [split; auto; rewrite PC; auto|]. destruct (queue st) as [|[| |] z]; try (split; cbn; auto; rewrite PC; auto; fail). destruct (mst st); split; cbn; auto; rewrite PC; auto.
    + destruct (records st) as [|f l] eqn:RE; [split; cbn; rewrite ?RE; auto|]. assert (NE : f <> r) by (intros ->; apply B; left; reflexivity). destruct (expired st f); split; cbn; rewrite ?RE; auto.
    + destruct (closed st); [split; cbn; auto|]. destruct (queue st) as [|[| |] z]; try (split; cbn; auto; fail); [destruct (Nat.leb w (now st)); split; cbn; auto; rewrite PC; auto|]. destruct (mst st); split; cbn; auto; rewrite PC; auto.
    + cbv zeta. destruct (closed st); [split; cbn; auto|]. destruct (expired st q); [|split; cbn; auto]. destruct (running (dat st q)); [|split; cbn; auto]. set (st2 := emit _ _).
      assert (N : Nat.eqb r q = false) by (apply Nat.eqb_neq; auto). unfold on_expired. cbv zeta. destruct (cyclic (dat st2 q)).
      * unfold update_shortest. destruct (records st2) as [|f t] eqn:RE; [split; cbn; auto; rewrite RE; auto|]. change (records st2) with (records st) in RE. split; cbn; auto.
        -- destruct (Nat.eqb r f) eqn:RF; auto. apply Nat.eqb_eq in RF. subst f. exact A.
        -- apply heap_out. exact B.
      * unfold remove_shortest. set (z := refresh _ _). destruct (check_empty_same z) as (X & Y & _). split; cbn; auto.
        -- rewrite X. cbn. rewrite N. exact A.
        -- rewrite Y. apply heap_out. cbn. intros V. apply B. destruct (records st); [destruct V|right; exact V].
  - destruct (in_user (pc st)) eqn:U; [|split; auto]. destruct o as [q d|q|q|]; cbn [user_op].
    + unfold start. cbv zeta. set (s0 := match pc st with PCall z => if Nat.eqb z q then emit st [EDead q] else st | _ => st end).
      assert (S0 : dat s0 = dat st /\ records s0 = records st /\ pc s0 = pc st) by (unfold s0; destruct (pc st) eqn:PC; auto; destruct (Nat.eqb r0 q); auto). destruct S0 as (D0 & R0 & P0).
      set (s2 := if running (dat s0 q) then _ else _). set (s3 := emit s2 _). destruct (async_same s3 QCheck) as (E1 & E2 & _ & _ & E3 & _). 
      assert (S2 : dat s2 = upd (dat s0) q (TD (now s0 + d) d (cyclic (dat s0 q)) true) /\ pc s2 = pc s0) by (unfold s2; destruct (running (dat s0 q)); split; reflexivity). destruct S2 as (D2 & P2). split; rewrite ?E1, ?E2, ?E3; cbn.
      * rewrite D2. unfold upd. destruct (Nat.eqb r q); [reflexivity|]. rewrite D0. exact A.
      * unfold s2. rewrite D0. destruct (running (dat st q)) eqn:RQ; cbn; apply heap_out; rewrite R0; auto. intros X. apply in_app_or in X as [X|[X|[]]]; [auto|]. subst q. congruence.
      * rewrite P2, P0. exact C.
    + assert (N : Nat.eqb r q = false) by (apply Nat.eqb_neq; intros ->; apply NS; reflexivity). unfold stop. cbv zeta. destruct (running (dat st q)); [|split; auto]. set (st1 := emit _ _). destruct (remove_same k q st1) as (D1 & _ & _ & _ & P1 & _).
      assert (G : ghost (remove_timer k q st1) r) by (split; [rewrite D1; cbn; rewrite N; exact A|apply ghost_remove; exact B|rewrite P1; exact C]). set (st2 := remove_timer k q st1) in *.
      destruct (records st1) as [|f t], (records st2) eqn:RE, (mst st2); try exact G. destruct (Nat.eqb f q); [|exact G]. destruct G as [GA GB GC]. destruct (async_same st2 QEmpty) as (E1 & E2 & _ & _ & E3 & _). split; rewrite ?E1, ?E2, ?E3; auto.
    + unfold restart. cbv zeta. set (st1 := emit _ _). set (st2 := match records st1 with [] => emit st1 [EBad] | _ => refresh k st1 end). destruct (async_same st2 QCheck) as (E1 & E2 & _ & _ & E3 & _).
      assert (S2 : dat st2 = dat st1 /\ pc st2 = pc st1 /\ ~ In r (records st2)).
      { unfold st2. destruct (records st1) eqn:RE; [repeat split; cbn; auto; change (records st1) with (records st) in RE; rewrite RE; auto|]. repeat split; cbn; auto. apply heap_out. exact B. }
      destruct S2 as (D2 & P2 & R2). split; rewrite ?E1, ?E2, ?E3; auto; [rewrite D2; cbn; destruct (Nat.eqb r q); [reflexivity|exact A]|rewrite P2; exact C].
    + destruct (pc st) eqn:PC; split; cbn; auto; rewrite ?PC; auto.
Qed.
Lemma ghost_forever h r h' : ghost (final h) r -> (forall l, In l h' -> ~ stops r l) -> ghost (final (h ++ h')) r /\ exists new, trace (h ++ h') = trace h ++ new /\ forall t, ~ In (EFire r t) new.
Proof.
  intros S. induction h' as [|l h' IH] using rev_ind; intros N; [rewrite app_nil_r; split; [exact S|]; exists []; rewrite app_nil_r; split; [reflexivity|intros t []]|].
  destruct IH as (S1 & n1 & E1 & I1); [intros l' X; apply N; apply in_or_app; left; exact X|]. rewrite app_assoc. split; [rewrite final_snoc; apply ghost_next; [exact S1|apply N; apply in_or_app; right; left; reflexivity]|].
  destruct (trace_snoc (h ++ h') l) as (n2 & E2). exists (n1 ++ n2). rewrite E2, E1, <- app_assoc. split; [reflexivity|]. intros t X. apply in_app_or in X as [X|X]; [eapply I1; exact X|].
  unfold trace in E2. rewrite final_snoc in E2. destruct (fired _ l n2 r t E2 X) as (_ & _ & _ & P & _). destruct S1 as [_ _ C]. rewrite P in C. congruence.
Qed.
