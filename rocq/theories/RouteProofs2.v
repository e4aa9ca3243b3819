(** Routing: agents and objects against the trace. *)
From Verif Require Import ListUtil Amap RouteModel RouteSpec RouteProofs.

Definition quiet (k : list event) : Prop := (forall a c, ~ In (ECall a c) k) /\ (forall a r, ~ In (ERet a r) k).
Lemma quiet_map a m l : quiet (map (fun o => EPost a o m) l).
Proof. split; intros x y I; apply in_map_iff in I as [z [Z _]]; discriminate. Qed.
Lemma quiet_told s a m : quiet (told s a m).
Proof. apply quiet_map. Qed.
Lemma quiet_informed s a o : quiet (informed s a o).
Proof. unfold informed. destruct (takes _ _ _); split; intros x y I; try destruct I; apply in_map_iff in I as [z [Z _]]; discriminate. Qed.
Lemma quiet_app k l : quiet k -> quiet l -> quiet (k ++ l).
Proof. intros [A B] [C D]. split; intros x y I; apply in_app_iff in I as [I|I]; firstorder. Qed.
Lemma quiet_one e : match e with ECall _ _ | ERet _ _ => False | _ => True end -> quiet [e].
Proof. intros H. split; intros x y [E|[]]; subst; exact H. Qed.
Lemma quiet_nil : quiet [].
Proof. split; intros x y []. Qed.

(** How a step changes the agents and the trace. *)
Inductive shape (s s' : state) : Prop :=
| sh_call c : callable s c = true -> agents s' = agents s ++ [(c, PStart)] -> tr s' = tr s ++ [ECall (length (agents s)) c] -> shape s s'
| sh_run a c p p' k : nth_error (agents s) a = Some (c, p) -> (forall r, p <> PRet r) -> (forall r, p' <> PRet r) ->
    agents s' = set_nth a (c, p') (agents s) -> tr s' = tr s ++ k -> quiet k -> shape s s'
| sh_ret a c p k r : nth_error (agents s) a = Some (c, p) -> (forall r, p <> PRet r) ->
    agents s' = set_nth a (c, PRet r) (agents s) -> tr s' = (tr s ++ k) ++ [ERet a r] -> quiet k -> shape s s'
| sh_nest a self m i : nth_error (agents s) a = Some (KSendAll self m, PHandler) ->
    agents s' = set_nth a (KSendAll self m, PNested (length (agents s))) (agents s) ++ [(KFind i, PStart)] ->
    tr s' = tr s ++ [ECall (length (agents s)) (KFind i)] -> shape s s'.

Lemma step_shape s s' : step s s' -> shape s s'.
Proof.
  intros S. inversion S; subst.
  - eapply sh_call; [eassumption|reflexivity|reflexivity].
  - eapply (sh_ret _ _ a (KCreate 0) PStart []); [assumption|intros ? ?E; discriminate E|reflexivity|cbn; rewrite app_nil_r; reflexivity|apply quiet_nil].
  - eapply (sh_ret _ _ a (KCreate id) PStart []); [assumption|intros ? ?E; discriminate E|reflexivity|cbn; rewrite app_nil_r; reflexivity|apply quiet_nil].
  - eapply (sh_run _ _ a (KCreate id) PStart _ []); [assumption|intros ? ?E; discriminate E| |reflexivity|cbn; rewrite app_nil_r; reflexivity|apply quiet_nil]; intros ? ?E; discriminate E.
  - eapply (sh_ret _ _ a (KCreate id) (PAdd o) []); [assumption|intros ? ?E; discriminate E|reflexivity|cbn; rewrite app_nil_r; reflexivity|apply quiet_nil].
  - eapply (sh_ret _ _ a (KCreate id) (PAdd o) ((informed s a o ++ told s a (MStatus true o)) ++ [EJoin a id o])); [assumption|intros ? ?E; discriminate E|reflexivity|cbn; rewrite <- !app_assoc; reflexivity|].
    repeat apply quiet_app; [apply quiet_informed|apply quiet_told|apply quiet_one; exact I].
  - eapply (sh_ret _ _ a (KStop o) PStart []); [assumption|intros ? ?E; discriminate E|reflexivity|cbn; rewrite app_nil_r; reflexivity|apply quiet_nil].
  - eapply (sh_run _ _ a (KStop o) PStart _ []); [assumption|intros ? ?E; discriminate E| |reflexivity|cbn; rewrite app_nil_r; reflexivity|apply quiet_nil]; intros ? ?E; discriminate E.
  - eapply (sh_run _ _ a (KStop o) PClosing _ [EClose o]); [assumption|intros ? ?E; discriminate E| |reflexivity|reflexivity|apply quiet_one; exact I]; intros ? ?E; discriminate E.
  - eapply (sh_ret _ _ a (KStop o) PErase []); [assumption|intros ? ?E; discriminate E|reflexivity|cbn; rewrite app_nil_r; reflexivity|apply quiet_nil].
  - eapply (sh_run _ _ a (KStop o) PErase _ _); [assumption|intros ? ?E; discriminate E| |reflexivity|reflexivity|apply quiet_one; exact I]; intros ? ?E; discriminate E.
  - eapply (sh_ret _ _ a (KStop o) PTell (told s a (MStatus false o))); [assumption|intros ? ?E; discriminate E|reflexivity|reflexivity|apply quiet_told].
  - eapply (sh_ret _ _ a (KReuse o) PStart [EOpen o]); [assumption|intros ? ?E; discriminate E|reflexivity|reflexivity|apply quiet_one; exact I].
  - eapply (sh_ret _ _ a (KFind id) PStart []); [assumption|intros ? ?E; discriminate E|reflexivity|cbn; rewrite app_nil_r; reflexivity|apply quiet_nil].
  - eapply (sh_ret _ _ a (KPost id m) PStart []); [assumption|intros ? ?E; discriminate E|reflexivity|cbn; rewrite app_nil_r; reflexivity|apply quiet_nil].
  - eapply (sh_run _ _ a (KPost id m) PStart _ []); [assumption|intros ? ?E; discriminate E| |reflexivity|cbn; rewrite app_nil_r; reflexivity|apply quiet_nil]; intros ? ?E; discriminate E.
  - eapply (sh_ret _ _ a (KPost id m) (PHand o) [EPost a o m]); [assumption|intros ? ?E; discriminate E|reflexivity|reflexivity|apply quiet_one; exact I].
  - eapply (sh_ret _ _ a (KPost id m) (PHand o) []); [assumption|intros ? ?E; discriminate E|reflexivity|cbn; rewrite app_nil_r; reflexivity|apply quiet_nil].
  - eapply (sh_ret _ _ a (KPostAll m) PStart (told s a m)); [assumption|intros ? ?E; discriminate E|reflexivity|reflexivity|apply quiet_told].
  - eapply (sh_ret _ _ a (KSendAll self m) PStart _); [assumption|intros ? ?E; discriminate E|reflexivity|reflexivity|apply quiet_map].
  - eapply (sh_run _ _ a (KSendAll (Some x) m) PStart PHandler _); [assumption|intros ? ?E; discriminate E| |reflexivity|reflexivity|apply quiet_map]; intros ? ?E; discriminate E.
  - eapply (sh_ret _ _ a (KSendAll self m) PHandler []); [assumption|intros ? ?E; discriminate E|reflexivity|cbn; rewrite app_nil_r; reflexivity|apply quiet_nil].
  - eapply (sh_nest _ _ a self m i); [assumption|reflexivity|reflexivity].
  - eapply (sh_run _ _ a (KSendAll self m) (PNested b) PHandler []); [assumption|intros ? ?E; discriminate E| |reflexivity|cbn; rewrite app_nil_r; reflexivity|apply quiet_nil]; intros ? ?E; discriminate E.
  - eapply (sh_ret _ _ a (KConnect o ty) PStart [EConnect o ty]); [assumption|intros ? ?E; discriminate E|reflexivity|reflexivity|apply quiet_one; exact I].
  - eapply (sh_ret _ _ a (KDisconnect o ty) PStart [EDisconnect o ty]); [assumption|intros ? ?E; discriminate E|reflexivity|reflexivity|apply quiet_one; exact I].
Qed.


Lemma agents_trace h :
  (forall a c, In (ECall a c) (tr (final h)) <-> exists p, nth_error (agents (final h)) a = Some (c, p)) /\
  (forall a r, In (ERet a r) (tr (final h)) <-> exists c, nth_error (agents (final h)) a = Some (c, PRet r)).
Proof.
  revert h. refine (state_ind (fun s => (forall a c, In (ECall a c) (tr s) <-> exists p, nth_error (agents s) a = Some (c, p)) /\
    (forall a r, In (ERet a r) (tr s) <-> exists c, nth_error (agents s) a = Some (c, PRet r))) _ _).
  { split; intros a x; (split; [intros []|intros [y Y]; destruct a; discriminate]). }
  intros h s' [IC IR] S. destruct (step_shape _ _ S) as [c C A T|a c p p' k N NP NP' A T Q|a c p k r N NP A T Q|a self m i N A T]; rewrite A, T.
  - split; intros b y; rewrite in_app_iff, nth_snoc.
    + rewrite IC. split.
      * intros [[p P]|[[= <- <-]|[]]]; [|rewrite Nat.eqb_refl; eauto].
        assert (b <> length (agents (final h))) by (apply nth_lt in P; lia). destruct (Nat.eqb_spec b (length (agents (final h)))); [contradiction|eauto].
      * intros [p P]. destruct (Nat.eqb_spec b (length (agents (final h)))) as [->|]; [|eauto]. injection P as <- <-. right. left. reflexivity.
    + rewrite IR. split.
      * intros [[p P]|[E|[]]]; [|discriminate E].
        assert (b <> length (agents (final h))) by (apply nth_lt in P; lia). destruct (Nat.eqb_spec b (length (agents (final h)))); [contradiction|eauto].
      * intros [p P]. destruct (Nat.eqb_spec b (length (agents (final h)))) as [->|]; [discriminate P|eauto].
  - destruct Q as [Q1 Q2]. split; intros b y; rewrite in_app_iff, (nth_set _ _ _ _ _ N).
    + rewrite IC. destruct (Nat.eqb_spec a b) as [<-|D].
      * split; [intros [[q P]|I]; [|destruct (Q1 _ _ I)]; rewrite N in P; injection P as <- <-; eauto|intros [q [= <- <-]]; left; eauto].
      * split; [intros [P|I]; [exact P|destruct (Q1 _ _ I)]|auto].
    + rewrite IR. destruct (Nat.eqb_spec a b) as [<-|D].
      * split; [intros [[q P]|I]; [|destruct (Q2 _ _ I)]; rewrite N in P; injection P as <- ->; destruct (NP _ eq_refl)|intros [q [= <- E]]; destruct (NP' _ E)].
      * split; [intros [P|I]; [exact P|destruct (Q2 _ _ I)]|auto].
  - destruct Q as [Q1 Q2]. split; intros b y; rewrite !in_app_iff, (nth_set _ _ _ _ _ N).
    + rewrite IC. destruct (Nat.eqb_spec a b) as [<-|D].
      * split; [intros [[[q P]|I]|[E|[]]]; [|destruct (Q1 _ _ I)|discriminate E]; rewrite N in P; injection P as <- <-; eauto|intros [q [= <- <-]]; left; left; eauto].
      * split; [intros [[P|I]|[E|[]]]; [exact P|destruct (Q1 _ _ I)|discriminate E]|auto].
    + rewrite IR. destruct (Nat.eqb_spec a b) as [<-|D].
      * split; [intros [[[q P]|I]|[E|[]]]; [|destruct (Q2 _ _ I)|injection E as <-; eauto]; rewrite N in P; injection P as <- ->; destruct (NP _ eq_refl)|intros [q [= <- E]]; subst; right; left; reflexivity].
      * split; [intros [[P|I]|[E|[]]]; [exact P|destruct (Q2 _ _ I)|congruence]|auto].
  - split; intros b y; rewrite in_app_iff, nth_snoc, length_set_nth, (nth_set _ _ _ _ _ N).
    + rewrite IC. destruct (Nat.eqb_spec b (length (agents (final h)))) as [->|L].
      * split; [intros [[q P]|[[= <-]|[]]]; [apply nth_lt in P; lia|eauto]|intros [q [= <- <-]]; right; left; reflexivity].
      * destruct (Nat.eqb_spec a b) as [<-|D].
        -- split; [intros [[q P]|[[= E]|[]]]; [rewrite N in P; injection P as <- <-; eauto|congruence]|intros [q [= <- <-]]; left; eauto].
        -- split; [intros [P|[[= E]|[]]]; [exact P|congruence]|auto].
    + rewrite IR. destruct (Nat.eqb_spec b (length (agents (final h)))) as [->|L].
      * split; [intros [[q P]|[E|[]]]; [apply nth_lt in P; lia|discriminate E]|intros [q [= <- E]]].
      * destruct (Nat.eqb_spec a b) as [<-|D].
        -- split; [intros [[q P]|[E|[]]]; [rewrite N in P; discriminate P|discriminate E]|intros [q [= <- E]]].
        -- split; [intros [P|[E|[]]]; [exact P|discriminate E]|auto].
Qed.

Lemma call_agent h a c : In (ECall a c) (tr (final h)) <-> exists p, nth_error (agents (final h)) a = Some (c, p).
Proof. apply agents_trace. Qed.
Lemma ret_agent h a r : In (ERet a r) (tr (final h)) <-> exists c, nth_error (agents (final h)) a = Some (c, PRet r).
Proof. apply agents_trace. Qed.
Lemma call_unique h a c c' : In (ECall a c) (tr (final h)) -> In (ECall a c') (tr (final h)) -> c = c'.
Proof. rewrite !call_agent. intros [p P] [q Q]. congruence. Qed.
Lemma ret_unique h a r r' : In (ERet a r) (tr (final h)) -> In (ERet a r') (tr (final h)) -> r = r'.
Proof. rewrite !ret_agent. intros [p P] [q Q]. congruence. Qed.
