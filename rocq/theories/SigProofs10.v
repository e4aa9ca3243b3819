(** The signal model: the exact effects of connect, disconnect, emit and of the calls with a SlotPtr. *)
From Verif Require Import SigModel SigSpec SigProofs SigProofs2 SigProofs3 SigProofs4 SigProofs5 SigProofs6 SigProofs7 SigProofs8 SigProofs9.

Lemma is_alive m h o : ~ In (EKilled o) (trace m h) -> is_dead (final m h) o = false.
Proof.
  intros D. unfold is_dead. destruct (existsb (Nat.eqb o) (dead (final m h))) eqn:X; [|reflexivity]. exfalso. apply existsb_exists in X as (y & X & Q). apply Nat.eqb_eq in Q. subst y.
  apply D. apply (f_dead _ (F_final m h)). exact X.
Qed.
Lemma owned_grow st st0 : entries st0 = entries st -> held st0 = held st -> (conns st0 = conns st \/ exists x, conns st0 = conns st ++ [x]) -> forall x, owned st x = true -> owned st0 x = true.
Proof.
  intros E1 E2 E3 x O. unfold owned in *. rewrite E1, E2. destruct E3 as [->|[y ->]]; [exact O|]. rewrite existsb_app. apply orb_true_iff in O as [O|O]; rewrite O; [|rewrite orb_true_r]; reflexivity.
Qed.
Lemma fresh_slot m h : ~ In (length (kinds (final m h))) (slots (live (trace m h))).
Proof. intros X. apply has_live in X. apply (j_ent _ (J_final m h)) in X. lia. Qed.

Theorem eff_connect h t k : may_call Multi h t -> signal_alive Multi h -> (forall o, k = CTracked o -> ~ In (EKilled o) (trace Multi h)) ->
  exists c s, trace Multi (h ++ [(t, AConnect k)]) = trace Multi h ++ [EJoin s; ERet t (AConnect k) (RCon c s true)] /\ ~ In s (slots (live (trace Multi h))) /\
    forall s', made_for Multi h c s' -> False.
Proof.
  intros MC A D. rewrite trace_snoc by exact MC. destruct MC as [FR _]. pose proof (alive_hub Multi h A) as HB.
  assert (NEW : forall c s', length (conns (final Multi h)) <= c -> made_for Multi h c s' -> False).
  { intros c s' L (t' & a' & X). destruct (given_final Multi h) as [G _]. destruct (G t' a' c s' X) as (? & ? & ? & ? & ?). lia. }
  assert (W : forall st0, tr st0 = trace Multi h -> entries st0 = entries (final Multi h) -> held st0 = held (final Multi h) -> (conns st0 = conns (final Multi h) \/ exists x, conns st0 = conns (final Multi h) ++ [x]) ->
    exists c s, tr (watch (final Multi h) (save Multi st0 t (AConnect k) (length (kinds (final Multi h))))) = trace Multi h ++ [EJoin s; ERet t (AConnect k) (RCon c s true)] /\ ~ In s (slots (live (trace Multi h))) /\ forall s', made_for Multi h c s' -> False).
  { intros st0 T E1 E2 E3. exists (length (conns st0)), (length (kinds (final Multi h))). rewrite watch_owned by (intros x X; apply owned_save; apply (owned_grow _ _ E1 E2 E3); exact X).
    rewrite tr_save, T. split; [reflexivity|]. split; [apply fresh_slot|]. intros s'. apply NEW. destruct E3 as [->|[y ->]]; [apply le_n|rewrite app_length; lia]. }
  unfold act, call. rewrite FR, HB. destruct k as [| |o].
  - apply W; try reflexivity. left. reflexivity.
  - apply W; try reflexivity. right. eexists. reflexivity.
  - rewrite (is_alive Multi h o (D o eq_refl)). apply W; try reflexivity. right. eexists. reflexivity.
Qed.

Lemma held_act m st t a s : (forall s', a = ADropPtr s' -> s' <> s) -> In s (held st) -> In s (held (act m st t a)).
Proof.
  intros N X. destruct a as [k| |s'|s'|s'| | | |c|c|c|c|c|o| |v| | |]; cbn [act];
    try (destruct (free st t); [|exact X]; unfold call).
  - assert (S : forall st0 s1, held st0 = held st -> In s (held (save m st0 t (AConnect k) s1))) by (intros st0 s1 E; unfold save; destruct (can_add m (entries st0)); cbn; rewrite E; exact X).
    destruct k as [| |o]; [destruct (hub st)|destruct (hub st)|destruct (hub st && _)]; try exact X; apply S; reflexivity.
  - right. exact X.
  - destruct (hub st && _); [|exact X]. unfold save. destruct (can_add m (entries st)); exact X.
  - cbn. apply filter_In. split; [exact X|]. apply negb_true_iff, Nat.eqb_neq. apply (N s' eq_refl).
  - destruct (hub st && _); [|exact X]. destruct (has s' (entries st)); exact X.
  - destruct (hub st); [|exact X]. destruct m; [destruct (em st)|]; exact X.
  - destruct (hub st); exact X.
  - destruct (hub st); exact X.
  - destruct (hidden st c); [exact X|]. destruct (disconnect m st c) as [st' b] eqn:E. cbn. destruct (kinds_disconnect m st c) as (_ & H & _). rewrite E in H. cbn in H. rewrite H. exact X.
  - destruct (hidden st c); [exact X|]. destruct (reconnect m st c) as [st' b] eqn:E. cbn. destruct (kinds_reconnect m st c) as (_ & H & _). rewrite E in H. cbn in H. rewrite H. exact X.
  - destruct (hidden st c); exact X.
  - destruct (internal st c || _); exact X.
  - destruct (internal st c || _); [exact X|]. destruct (is_connected st c); [|exact X]. cbn. destruct (kinds_disconnect m st c) as (_ & H & _). rewrite H. exact X.
  - exact X.
  - destruct (hub st); [destruct (em st)|]; exact X.
  - destruct (hub st); [|exact X]. destruct (entries st); [exact X|]. destruct (notif st); exact X.
  - destruct (em st) as [e|]; [|exact X]. destruct (Nat.eqb _ t); [|exact X]. destruct (e_run e); [exact X|]. unfold step. destruct (nth_error (entries st) (e_cur e)) as [[[k s']|]|]; [|exact X|exact X].
    destruct (nth_error (kinds st) s') as [[| |c|o c]|]; try exact X. destruct (is_dead st o); [|exact X].
    destruct (kinds_disconnect m st c) as (_ & H & _). set (st1 := fst (disconnect m st c)) in *.
    assert (Y : In s (held (match nth_error (conns st1) c with Some (CPtr _) => set_con st1 c (CRef None) | _ => st1 end))) by (destruct (nth_error (conns st1) c) as [[]|]; cbn; rewrite H; exact X).
    set (st2 := match nth_error (conns st1) c with Some (CPtr _) => set_con st1 c (CRef None) | _ => st1 end) in *. destruct (owned st2 s'), m; exact Y.
  - destruct (em st) as [e|]; [|exact X]. destruct (Nat.eqb _ t); [|exact X]. destruct (e_run e) as [[k s']|]; [|exact X]. unfold slot_return, go_on.
    destruct (nth_error (kinds st) s') as [[| |c|o c]|]; try (destruct m; exact X); destruct (nth_error (conns st) c) as [[]|]; destruct m; exact X.
  - destruct (em st) as [e|]; [|exact X]. destruct (Nat.eqb _ t); [|exact X]. destruct (e_run e); exact X.
Qed.
Lemma held_next m st l s : (forall s', snd l = ADropPtr s' -> s' <> s) -> In s (held st) -> In s (held (next m st l)).
Proof.
  intros N X. unfold next. destruct (crashed st); [exact X|]. destruct (watch_cases st (act m st (fst l) (snd l))) as [->|[s' ->]]; cbn; apply held_act; auto.
Qed.
Lemma new_ptr m st t a s : J st -> length (kinds st) <= s -> nth_error (kinds (act m st t a)) s = Some KPtr -> a = AMakePtr /\ s = length (kinds st).
Proof.
  intros I L K. destruct (grows_act m st t a I) as (l & T & OK). destruct (flag_act m st t a I) as [l' _ _ (ks & E & N) _|t' _ E T'|o _ E _|_ E _ _|_ E _].
  - exfalso. rewrite E, nth_error_app2 in K by exact L. apply nth_error_In in K. exact (N _ K eq_refl).
  - rewrite T' in T. apply app_inv_head in T. subst l. destruct (OK _ (or_introl eq_refl)) as (_ & <- & _). split; [reflexivity|].
    rewrite E, nth_error_app2 in K by exact L. destruct (s - length (kinds st)) as [|n] eqn:Q; [lia|destruct n; discriminate].
  - exfalso. rewrite E in K. apply nth_error_None in L. congruence.
  - exfalso. rewrite E in K. apply nth_error_None in L. congruence.
  - exfalso. rewrite E in K. apply nth_error_None in L. congruence.
Qed.
Lemma holds_held m h s : holds m h s -> In s (held (final m h)).
Proof.
  intros [U D]. assert (K : nth_error (kinds (final m h)) s = Some KPtr) by (apply (f_made _ (F_final m h)); exact U). clear U.
  induction h as [|l h IH] using rev_ind; [destruct s; discriminate|]. rewrite final_snoc in *.
  assert (D' : forall t, ~ In (t, ADropPtr s) h) by (intros t X; apply (D t); apply in_or_app; left; exact X).
  destruct (nth_error (kinds (final m h)) s) as [k|] eqn:N.
  - assert (k = KPtr).
    { unfold next in K. destruct (crashed (final m h)); [congruence|]. destruct (grow_act m (final m h) (fst l) (snd l) (J_final m h)) as (_ & G).
      assert (KK : nth_error (kinds (act m (final m h) (fst l) (snd l))) s = Some KPtr) by (destruct (watch_cases (final m h) (act m (final m h) (fst l) (snd l))) as [E|[s' E]]; rewrite E in K; exact K).
      destruct G as [G|(k' & G & _)]; rewrite G in KK; [congruence|]. rewrite nth_error_app1 in KK by (apply nth_error_Some; congruence). congruence. }
    subst k. apply held_next; [|apply IH; [exact D'|reflexivity]]. intros s' E ->. destruct l as [t a]. cbn in E. subst a. apply (D t). apply in_or_app. right. left. reflexivity.
  - unfold next in *. destruct (crashed (final m h)); [congruence|]. apply nth_error_None in N. destruct (watch_cases (final m h) (act m (final m h) (fst l) (snd l))) as [E|[s' E]]; rewrite E in *; cbn in K |- *;
    destruct (new_ptr _ _ _ _ _ (J_final m h) N K) as [-> ->]; left; reflexivity.
Qed.

Lemma held_true st s : In s (held st) -> existsb (Nat.eqb s) (held st) = true.
Proof. intros X. apply existsb_exists. exists s. split; [exact X|apply Nat.eqb_refl]. Qed.

Theorem eff_connect_ptr h t s : may_call Multi h t -> signal_alive Multi h -> holds Multi h s ->
  exists c, trace Multi (h ++ [(t, AConnectPtr s)]) = trace Multi h ++ [EJoin s; ERet t (AConnectPtr s) (RCon c s true)].
Proof.
  intros MC A H. exists (length (conns (final Multi h))). rewrite trace_snoc by exact MC. destruct MC as [FR _]. unfold act, call. rewrite FR, (alive_hub Multi h A), (held_true _ _ (holds_held _ _ _ H)). cbn [andb].
  rewrite watch_owned by (intros x X; apply owned_save; exact X). rewrite tr_save. reflexivity.
Qed.
Theorem eff_disconnect_ptr m h t s : may_call m h t -> signal_alive m h -> holds m h s ->
  (In s (slots (live (trace m h))) -> exists f, trace m (h ++ [(t, ADisconnectPtr s)]) = trace m h ++ [ELeave s; ERet t (ADisconnectPtr s) (RBool true)] ++ f /\ (f = [] \/ exists s' e, f = [EFreed s'] /\ running m h t e s' )) /\
  (~ In s (slots (live (trace m h))) -> trace m (h ++ [(t, ADisconnectPtr s)]) = trace m h ++ [ERet t (ADisconnectPtr s) (RBool false)]).
Proof.
  intros MC A H. rewrite trace_snoc by exact MC. destruct MC as [FR _]. unfold act, call. rewrite FR, (alive_hub m h A), (held_true _ _ (holds_held _ _ _ H)). cbn [andb]. split; intros L.
  - apply has_live in L. rewrite L. destruct (watch_tr (final m h) (emit (remove m (final m h) s) [ERet t (ADisconnectPtr s) (RBool true)])) as [E|(s' & E & x & k & E1 & E2)]; rewrite E.
    + exists []. split; [cbn; rewrite <- app_assoc; reflexivity|left; reflexivity].
    + exists [EFreed s']. split; [cbn; rewrite <- !app_assoc; reflexivity|]. right. exists s', (e_no x). split; [reflexivity|]. exists x, k. unfold free in FR. rewrite E1 in FR. apply andb_true_iff in FR as [FR _]. apply Nat.eqb_eq in FR. auto.
  - destruct (has s (entries (final m h))) eqn:E; [apply has_live in E; contradiction|]. rewrite watch_owned by (intros x X; exact X). reflexivity.
Qed.

Theorem eff_clear m h t : may_call m h t -> signal_alive m h -> ~ emitting m h -> trace m (h ++ [(t, AClear)]) = trace m h ++ [EClear].
Proof.
  intros MC A N. rewrite trace_snoc by exact MC. destruct MC as [FR _]. unfold act, call. rewrite FR, (alive_hub m h A). unfold emitting in N. unfold watch.
  destruct (em (final m h)); [exfalso; apply N; discriminate|]. destruct m; reflexivity.
Qed.

(** Without exceptions the flag follows the emission. *)
Lemma follows_final m h : (forall t, ~ In (t, AThrow) h) -> follows (final m h).
Proof.
  induction h as [|l h IH] using rev_ind; intros N; [intros _; reflexivity|]. rewrite final_snoc. unfold next. destruct (crashed (final m h)) eqn:C.
  - apply IH. intros t X. apply (N t). apply in_or_app. left. exact X.
  - destruct (watch_fields (final m h) (act m (final m h) (fst l) (snd l))) as (E1 & E2 & _). unfold follows. rewrite E1, E2. apply follows_act; [apply J_final| |].
    + apply IH. intros t X. apply (N t). apply in_or_app. left. exact X.
    + intros E. destruct l as [t a]. cbn in E. subst a. apply (N t). apply in_or_app. right. left. reflexivity.
Qed.

(** Emissions have different numbers; an emission ends once and calls nobody afterwards. *)
Definition QE (a : list event) (x : event) : Prop :=
  match x with
  | EEmit _ e _ => (forall t v, ~ In (EEmit t e v) a) /\ forall t k s v, ~ In (ECall t e k s v) a
  | ECall _ e _ _ _ | EEnd _ e => forall t, ~ In (EEnd t e) a
  | _ => True
  end.
Record NI (st : state) : Prop := {
  n_emit : forall t e v, In (EEmit t e v) (tr st) -> e < emno st;
  n_end : forall t e, In (EEnd t e) (tr st) -> e < emno st /\ forall x, em st = Some x -> e_no x <> e;
  n_good : forall a x b, tr st = a ++ x :: b -> QE a x }.

Lemma goodE_snoc (T : list event) x : (forall a y b, T = a ++ y :: b -> QE a y) -> QE T x -> forall a y b, T ++ [x] = a ++ y :: b -> QE a y.
Proof.
  intros G H a y b E. destruct b as [|z b].
  - apply app_inj_tail in E as [-> ->]. exact H.
  - destruct (exists_last (l := z :: b)) as (b' & w & W); [discriminate|]. rewrite W in E.
    change (y :: b' ++ [w]) with ((y :: b') ++ [w]) in E. rewrite app_assoc in E. apply app_inj_tail in E as [E _]. eapply G. exact E.
Qed.
Definition dull (e : event) : bool := match e with EEmit _ _ _ | ECall _ _ _ _ _ | EEnd _ _ => false | _ => true end.
Lemma goodE_dull l : forall T, (forall e, In e l -> dull e = true) -> (forall a y b, T = a ++ y :: b -> QE a y) -> forall a y b, T ++ l = a ++ y :: b -> QE a y.
Proof.
  induction l as [|x l IH]; intros T D G; [rewrite app_nil_r; exact G|]. change (x :: l) with ([x] ++ l). rewrite app_assoc. apply IH; [intros e X; apply D; right; exact X|].
  apply goodE_snoc; [exact G|]. specialize (D x (or_introl eq_refl)). destruct x; try discriminate; exact I.
Qed.

Lemma NI_quiet st st' l : NI st -> (forall e, In e l -> dull e = true) -> em st' = em st \/ em st' = None \/ (exists x x', em st = Some x /\ em st' = Some x' /\ e_no x' = e_no x) -> emno st' = emno st -> tr st' = tr st ++ l -> NI st'.
Proof.
  intros [A B C] D E1 E2 T. split.
  - intros t e v X. rewrite E2. rewrite T in X. apply in_app_or in X as [X|X]; [eapply A; exact X|]. apply D in X. discriminate.
  - intros t e X. rewrite E2. assert (Y : In (EEnd t e) (tr st)) by (rewrite T in X; apply in_app_or in X as [X|X]; [exact X|apply D in X; discriminate]).
    destruct (B t e Y) as [B1 B2]. split; [exact B1|]. intros x Z. destruct E1 as [E1|[E1|(y & y' & E1 & E1' & E1'')]]; rewrite ?E1, ?E1' in Z; [apply B2; exact Z|discriminate|]. injection Z as <-. rewrite E1''. apply B2. exact E1.
  - rewrite T. apply goodE_dull; assumption.
Qed.
Lemma NI_mic m st st' : CI m st -> NI st -> mic m st st' -> NI st'.
Proof.
  intros CC N M. destruct N as [A B C].
  assert (N : NI st) by (split; assumption).
  destruct M as [l QL E|s _ E _|s _ E _|_ E _|t v _ _ E|t v _ E|e Em R _ E|e _ Em R E|e Em R _ E|e k s Em R _ E|e _ Em R E|e k s l QL Em R _ _ E|e Em R E]; unfold core in E; injection E as e1 e2 e3 e4 e5 e6.
  - apply (NI_quiet _ _ l N); auto. intros e X. apply QL in X. destruct e; try discriminate; reflexivity.
  - refine (NI_quiet _ _ _ N _ (or_introl e3) e5 e6). intros x [<-|[]]. reflexivity.
  - refine (NI_quiet _ _ _ N _ (or_introl e3) e5 e6). intros x [<-|[]]. reflexivity.
  - refine (NI_quiet _ _ _ N _ (or_introl e3) e5 e6). intros x [<-|[]]. reflexivity.
  - split; rewrite e6.
    + intros t' e v' X. rewrite e5. apply in_app_or in X as [X|[X|[]]]; [apply A in X; lia|]. injection X as -> -> ->. lia.
    + intros t' e X. rewrite e5, e3. apply in_app_or in X as [X|[X|[]]]; [|discriminate]. destruct (B t' e X) as [B1 _]. split; [lia|]. intros x Y. injection Y as <-. cbn. lia.
    + apply goodE_snoc; [exact C|]. cbn. split; [intros t' v' X; apply A in X; lia|]. intros t' k s v' X. apply (c_no _ _ CC) in X. lia.
  - split; rewrite e6.
    + intros t' e v' X. rewrite e5. apply in_app_or in X as [X|[X|[X|[]]]]; [apply A in X; lia| |discriminate]. injection X as -> -> ->. lia.
    + intros t' e X. rewrite e5, e3. apply in_app_or in X as [X|[X|[X|[]]]]; [|discriminate|].
      * destruct (B t' e X) as [B1 B2]. split; [lia|exact B2].
      * injection X as <- <-. split; [lia|]. intros x Y. apply (c_em _ _ CC) in Y as (_ & Y & _). lia.
    + change [EEmit t (emno st) v; EEnd t (emno st)] with ([EEmit t (emno st) v] ++ [EEnd t (emno st)]). rewrite app_assoc. apply goodE_snoc; [apply goodE_snoc; [exact C|]|].
      * cbn. split; [intros t' v' X; apply A in X; lia|]. intros t' k s v' X. apply (c_no _ _ CC) in X. lia.
      * cbn. intros t' X. apply in_app_or in X as [X|[X|[]]]; [|discriminate]. apply B in X as [X _]. lia.
  - assert (NO : forall t, ~ In (EEnd t (e_no e)) (tr st)) by (intros t X; destruct (B t _ X) as [_ Y]; apply (Y e Em); reflexivity). split; rewrite e6.
    + intros t' e' v' X. rewrite e5. apply in_app_or in X as [X|[X|[]]]; [apply A in X; lia|discriminate].
    + intros t' e' X. rewrite e5, e3. split; [|discriminate]. apply in_app_or in X as [X|[X|[]]]; [apply B in X as [X _]; exact X|]. injection X as <- <-. apply (c_em _ _ CC) in Em as (_ & Em & _). exact Em.
    + apply goodE_snoc; [exact C|]. exact NO.
  - assert (NO : forall t, ~ In (EEnd t (e_no e)) (tr st)) by (intros t X; destruct (B t _ X) as [_ Y]; apply (Y e Em); reflexivity). split; rewrite e6.
    + intros t' e' v' X. rewrite e5. apply in_app_or in X as [X|[X|[]]]; [apply A in X; lia|discriminate].
    + intros t' e' X. rewrite e5, e3. split; [|discriminate]. apply in_app_or in X as [X|[X|[]]]; [apply B in X as [X _]; exact X|]. injection X as <- <-. apply (c_em _ _ CC) in Em as (_ & Em & _). exact Em.
    + apply goodE_snoc; [exact C|]. exact NO.
  - apply (NI_quiet _ _ [] N); [intros e0 []|left; exact e3|exact e5|rewrite app_nil_r; exact e6].
  - assert (NO : forall t, ~ In (EEnd t (e_no e)) (tr st)) by (intros t X; destruct (B t _ X) as [_ Y]; apply (Y e Em); reflexivity). split; rewrite e6.
    + intros t' e' v' X. rewrite e5. apply in_app_or in X as [X|[X|[]]]; [apply A in X; lia|discriminate].
    + intros t' e' X. rewrite e5, e3. apply in_app_or in X as [X|[X|[]]]; [|discriminate]. destruct (B t' e' X) as [B1 B2]. split; [exact B1|]. intros x Y. injection Y as <-. cbn. apply B2. exact Em.
    + apply goodE_snoc; [exact C|]. exact NO.
  - apply (NI_quiet _ _ [] N); [intros e0 []| |exact e5|rewrite app_nil_r; exact e6]. right. right. rewrite Em, e3. eexists. eexists. split; [reflexivity|]. split; reflexivity.
  - destruct m.
    + apply (NI_quiet _ _ (ELeave s :: l) N); [|right; right; rewrite Em, e3; eexists; eexists; split; [reflexivity|]; split; reflexivity|exact e5|rewrite e6, app_nil_r; reflexivity].
      intros x [<-|X]; [reflexivity|]. apply QL in X. destruct x; try discriminate; reflexivity.
    + assert (NO : forall t, ~ In (EEnd t (e_no e)) (tr st)) by (intros t X; destruct (B t _ X) as [_ Y]; apply (Y e Em); reflexivity).
      change (ELeave s :: l ++ [EEnd (e_thread e) (e_no e)]) with ((ELeave s :: l) ++ [EEnd (e_thread e) (e_no e)]) in e6. rewrite app_assoc in e6.
      assert (DU : forall x, In x (ELeave s :: l) -> dull x = true) by (intros x [<-|X]; [reflexivity|]; apply QL in X; destruct x; try discriminate; reflexivity).
      assert (IN : forall x, dull x = false -> In x (tr st ++ ELeave s :: l) -> In x (tr st)) by (intros x Dx X; apply in_app_or in X as [X|X]; [exact X|]; apply DU in X; congruence).
      split; rewrite e6.
      * intros t' e' v' X. rewrite e5. apply in_app_or in X as [X|[X|[]]]; [|discriminate]. apply IN in X; [apply A in X; lia|reflexivity].
      * intros t' e' X. rewrite e5, e3. split; [|discriminate]. apply in_app_or in X as [X|[X|[]]]; [apply IN in X; [apply B in X as [X _]; exact X|reflexivity]|]. injection X as <- <-. apply (c_em _ _ CC) in Em as (_ & Em & _). exact Em.
      * apply goodE_snoc; [apply goodE_dull; assumption|]. intros t X. apply IN in X; [exact (NO _ X)|reflexivity].
  - refine (NI_quiet _ _ _ N _ (or_intror (or_introl e3)) e5 e6). intros x [<-|[]]. reflexivity.
Qed.
Lemma NI_core st st' : NI st -> core st' = core st -> NI st'.
Proof. intros N E. unfold core in E. injection E as e1 e2 e3 e4 e5 e6. apply (NI_quiet _ _ [] N); [intros e []|left; exact e3|exact e5|rewrite app_nil_r; exact e6]. Qed.
Lemma NI_mics m st st' : CI m st -> NI st -> mics m st st' -> NI st'.
Proof.
  intros CC N H. enough (CI m st' /\ NI st') as [_ X] by exact X. induction H as [a b E|a b c H IH M]; [split; [eapply CI_core; eauto|eapply NI_core; eauto]|].
  destruct (IH CC N) as [C1 N1]. split; [eapply CI_mic; eauto|eapply NI_mic; eauto].
Qed.
Theorem NI_final m h : NI (final m h).
Proof.
  induction h as [|l h IH] using rev_ind.
  - split; [intros t e v []|intros t e []|intros a x b E; destruct a; discriminate].
  - rewrite final_snoc. eapply NI_mics; [apply (CI_final m h)|exact IH|]. apply mics_next; [apply J_final|].
    intros E. destruct (em (final m h)) as [e|] eqn:X; [|contradiction]. eapply (c_em _ _ (CI_final m h) e X).
Qed.
