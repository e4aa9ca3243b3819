(** The signal model: emissions. *)
From Verif Require Import SigModel SigSpec SigProofs.
From Coq Require Import Sorting.Sorted.

(** ** Entries that are still connected *)
Definition somes (l : list entry) : list (nat * nat) := flat_map (fun x => match x with Some p => [p] | None => [] end) l.
Lemma somes_app l1 l2 : somes (l1 ++ l2) = somes l1 ++ somes l2.
Proof. apply flat_map_app. Qed.
Lemma somes_erase s l : somes (erase s l) = drop_first s (somes l).
Proof.
  induction l as [|[[k s']|] l IH]; cbn; [reflexivity| |exact IH]. destruct (Nat.eqb s s'); cbn; [reflexivity|]. unfold somes in IH. rewrite IH. reflexivity.
Qed.
Lemma somes_blank s l : somes (blank s l) = drop_first s (somes l).
Proof.
  induction l as [|[[k s']|] l IH]; cbn; [reflexivity| |exact IH]. destruct (Nat.eqb s s'); cbn; [reflexivity|]. unfold somes in IH. rewrite IH. reflexivity.
Qed.
Lemma somes_nth l i p : nth_error l i = Some (Some p) -> In p (somes l).
Proof. intros N. apply in_flat_map. exists (Some p). split; [eapply nth_error_In; eauto|left; reflexivity]. Qed.
Lemma somes_in l p : In p (somes l) -> exists i, nth_error l i = Some (Some p).
Proof.
  intros I. apply in_flat_map in I as (x & I & J). destruct x as [q|]; [|destruct J]. destruct J as [<-|[]]. apply In_nth_error in I. exact I.
Qed.
Lemma nth_drop (l : list entry) c i : nth_error (drop_nth c l) i = if Nat.ltb i c then nth_error l i else nth_error l (S i).
Proof.
  revert c i. induction l as [|x l IH]; intros c i; unfold drop_nth in *.
  - rewrite firstn_nil, skipn_nil. destruct (Nat.ltb i c), i; reflexivity.
  - destruct c as [|c]; [reflexivity|]. destruct i as [|i]; [reflexivity|]. cbn [firstn app nth_error]. change (skipn (S (S c)) (x :: l)) with (skipn (S c) l). rewrite (IH c i). reflexivity.
Qed.
Lemma length_drop (l : list entry) c : c < length l -> length (drop_nth c l) = length l - 1.
Proof. intros L. unfold drop_nth. rewrite app_length, firstn_length, skipn_length. lia. Qed.
Lemma somes_drop l c : nth_error l c = Some None -> somes (drop_nth c l) = somes l.
Proof.
  revert c. induction l as [|x l IH]; intros [|c] N; cbn in N; try discriminate.
  - injection N as ->. reflexivity.
  - specialize (IH c N). exact (f_equal (fun z => (match x with Some p => [p] | None => [] end) ++ z) IH).
Qed.
Lemma nth_blank s l i p : nth_error (blank s l) i = Some (Some p) -> nth_error l i = Some (Some p).
Proof.
  revert i. induction l as [|x l IH]; intros [|i]; cbn; auto; destruct (is_slot s x) eqn:E; cbn; auto; try discriminate.
Qed.
Lemma length_blank s l : length (blank s l) = length l.
Proof. induction l as [|x l IH]; cbn; [reflexivity|]. destruct (is_slot s x); cbn; congruence. Qed.

Definition sorted (l : list (nat * nat)) : Prop := StronglySorted lt (map fst l).
Lemma sorted_snoc l k s : sorted l -> (forall p, In p l -> fst p < k) -> sorted (l ++ [(k, s)]).
Proof.
  unfold sorted. intros S B. induction l as [|p l IH]; cbn; [repeat constructor|]. inversion S; subst. constructor.
  - apply IH; [assumption|]. intros q Q. apply B. right. exact Q.
  - rewrite map_app. apply Forall_app. split; [assumption|]. constructor; [|constructor]. apply B. left. reflexivity.
Qed.
Lemma drop_first_incl s l : incl (drop_first s l) l.
Proof.
  induction l as [|[k s'] l IH]; cbn; [apply incl_refl|]. destruct (Nat.eqb s s'); [apply incl_tl, incl_refl|].
  intros x [<-|X]; [left; reflexivity|right; apply IH; exact X].
Qed.
Lemma sorted_drop s l : sorted l -> sorted (drop_first s l).
Proof.
  unfold sorted. induction l as [|[k s'] l IH]; cbn; intros S; [constructor|]. inversion S; subst. destruct (Nat.eqb s s'); [assumption|].
  cbn. constructor; [auto|]. rewrite Forall_forall in *. intros x X. apply in_map_iff in X as (p & <- & X). apply H2. apply in_map. eapply drop_first_incl; eauto.
Qed.
Lemma sorted_nth (l : list entry) : sorted (somes l) -> forall i j p q, nth_error l i = Some (Some p) -> nth_error l j = Some (Some q) -> i < j -> fst p < fst q.
Proof.
  unfold sorted. induction l as [|x l IH]; intros S [|i] [|j] p q Ni Nj L; cbn in *; try discriminate; try lia.
  - injection Ni as ->. cbn in S. inversion S; subst. rewrite Forall_forall in H2. apply H2. apply in_map. eapply somes_nth; eauto.
  - apply (IH) with (i := i) (j := j); auto; [|lia]. destruct x; cbn in S; [inversion S; subst|]; assumption.
Qed.

(** ** What a step does to the keeper and to the emission *)
Definition neutral (e : event) : bool :=
  match e with EJoin _ | ELeave _ | EClear | EEmit _ _ _ | ECall _ _ _ _ _ | EEnd _ _ => false | _ => true end.
Definition quiet (l : list event) : Prop := forall e, In e l -> neutral e = true.
Definition core (st : state) := (entries st, notif st, em st, serial st, emno st, tr st).

Inductive mic (m : mode) (st st' : state) : Prop :=
| m_quiet l : quiet l -> core st' = (entries st, notif st, em st, serial st, emno st, tr st ++ l) -> mic m st st'
| m_join s : can_add m (entries st) = true ->
    core st' = (entries st ++ [Some (serial st, s)], notif st, em st, S (serial st), emno st, tr st ++ [EJoin s]) ->
    (forall e, em st = Some e -> e_run e <> None) -> mic m st st'
| m_leave s : has s (entries st) = true -> core st' = (rest m (notif st) s (entries st), notif st, em st, serial st, emno st, tr st ++ [ELeave s]) ->
    (forall e, em st = Some e -> e_run e <> None) -> mic m st st'
| m_clear : m = Single \/ em st = None -> core st' = ([], notif st, em st, serial st, emno st, tr st ++ [EClear]) ->
    (forall e, em st = Some e -> e_run e <> None) -> mic m st st'
| m_begin t v : entries st <> [] -> notif st = false ->
    core st' = (entries st, true, Some (Em t (emno st) v 0 None), serial st, S (emno st), tr st ++ [EEmit t (emno st) v]) -> mic m st st'
| m_nothing t v : entries st = [] ->
    core st' = (entries st, notif st, em st, serial st, S (emno st), tr st ++ [EEmit t (emno st) v; EEnd t (emno st)]) -> mic m st st'
| m_end e : em st = Some e -> e_run e = None -> nth_error (entries st) (e_cur e) = None ->
    core st' = (entries st, false, None, serial st, emno st, tr st ++ [EEnd (e_thread e) (e_no e)]) -> mic m st st'
| m_end1 e : m = Single -> em st = Some e -> e_run e <> None ->
    core st' = (entries st, false, None, serial st, emno st, tr st ++ [EEnd (e_thread e) (e_no e)]) -> mic m st st'
| m_skip e : em st = Some e -> e_run e = None -> nth_error (entries st) (e_cur e) = Some None ->
    core st' = (drop_nth (e_cur e) (entries st), notif st, em st, serial st, emno st, tr st) -> mic m st st'
| m_call e k s : em st = Some e -> e_run e = None -> nth_error (entries st) (e_cur e) = Some (Some (k, s)) ->
    core st' = (entries st, true, Some (Em (e_thread e) (e_no e) (e_val e) (e_cur e) (Some (k, s))), serial st, emno st,
                tr st ++ [ECall (e_thread e) (e_no e) k s (e_val e)]) -> mic m st st'
| m_on e : m = Multi -> em st = Some e -> e_run e <> None ->
    core st' = (entries st, true, Some (Em (e_thread e) (e_no e) (e_val e) (S (e_cur e)) None), serial st, emno st, tr st) -> mic m st st'
| m_expire e k s l : quiet l -> em st = Some e -> e_run e = None -> nth_error (entries st) (e_cur e) = Some (Some (k, s)) -> cnt (is_slot s) (entries st) = 1 ->
    core st' = (match m with Multi => blank s (entries st) | Single => [] end, match m with Multi => true | Single => false end,
                match m with Multi => Some (Em (e_thread e) (e_no e) (e_val e) (S (e_cur e)) None) | Single => None end, serial st, emno st,
                tr st ++ ELeave s :: l ++ match m with Multi => [] | Single => [EEnd (e_thread e) (e_no e)] end) -> mic m st st'
| m_throw e : em st = Some e -> e_run e <> None ->
    core st' = (entries st, notif st, None, serial st, emno st, tr st ++ [EThrown (e_thread e) (e_no e)]) -> mic m st st'.

Inductive mics (m : mode) : state -> state -> Prop :=
| mics_refl st st' : core st' = core st -> mics m st st'
| mics_step st st1 st' : mics m st st1 -> mic m st1 st' -> mics m st st'.
Lemma mics_one m st st' : mic m st st' -> mics m st st'.
Proof. intros H. eapply mics_step; [apply mics_refl; reflexivity|exact H]. Qed.
Lemma mics_trans m a b c : mics m a b -> mics m b c -> mics m a c.
Proof.
  intros H K. induction K as [b c E|b b1 c K1 IH M].
  - destruct H as [a b E'|a b1 b H M].
    + apply mics_refl. congruence.
    + eapply mics_step; [exact H|]. clear -M E. unfold core in E. injection E as e1 e2 e3 e4 e5 e6. 
      destruct M; [eapply m_quiet|eapply m_join|eapply m_leave|eapply m_clear|eapply m_begin|eapply m_nothing|eapply m_end|eapply m_end1|eapply m_skip|eapply m_call|eapply m_on|eapply m_expire|eapply m_throw];
        eauto; unfold core in *; rewrite e1, e2, e3, e4, e5, e6; eassumption.
  - eapply mics_step; [apply IH; exact H|exact M].
Qed.

Lemma quiet_nil : quiet [].
Proof. intros e []. Qed.
Lemma quiet_one e : neutral e = true -> quiet [e].
Proof. intros N x [<-|[]]. exact N. Qed.

(** Connections do not touch the emission. *)
Definition busy (st : state) : Prop := forall e, em st = Some e -> e_run e <> None.

Lemma mics_emit m st st' l : mics m st st' -> quiet l -> mics m st (emit st' l).
Proof. intros H Q. eapply mics_step; [exact H|]. apply (m_quiet m st' _ l Q). reflexivity. Qed.

Lemma mics_disconnect m st c : busy st -> mics m st (fst (disconnect m st c)).
Proof.
  intros B. unfold disconnect. destruct (nth_error (conns st) c) as [[[s|]|s|]|]; try (apply mics_refl; reflexivity).
  destruct (owned st s); [|apply mics_refl; reflexivity]. destruct (hub st); [|apply mics_refl; reflexivity].
  destruct (has s (entries st)) eqn:P; [|apply mics_refl; reflexivity]. apply mics_one. apply (m_leave m st _ s P); [reflexivity|exact B].
Qed.
Lemma mics_reconnect m st c : busy st -> mics m st (fst (reconnect m st c)).
Proof.
  intros B. unfold reconnect. destruct (nth_error (conns st) c) as [[|s|]|]; try (apply mics_refl; reflexivity).
  destruct (hub st); [|apply mics_refl; reflexivity]. destruct (can_add_unique m (entries st) s) eqn:P; [|apply mics_refl; reflexivity].
  apply mics_one. apply (m_join m st _ s); [|reflexivity|exact B]. unfold can_add_unique, can_add in *. destruct m; auto.
Qed.
Ltac quietm := eapply m_quiet; cycle 1; [reflexivity|apply quiet_one; reflexivity].
Lemma mics_save m st t a s : busy st -> mics m st (save m st t a s).
Proof.
  intros B. unfold save. destruct (can_add m (entries st)) eqn:P.
  - eapply mics_step; [apply mics_one; apply (m_join m st (add st s) s P); [reflexivity|exact B]|].
    quietm.
  - apply mics_one. quietm.
Qed.

Ltac quiet1 := apply mics_one; quietm.

Lemma mics_call m st t a : busy st -> mics m st (call m st t a).
Proof.
  intros B. unfold call. destruct a as [k| |s|s|s| | | |c|c|c|c|c|o| |v| | |]; try (apply mics_refl; reflexivity).
  - destruct k as [| |o].
    + destruct (hub st); [|apply mics_refl; reflexivity]. eapply mics_trans; [|apply mics_save; exact B]. apply mics_refl; reflexivity.
    + destruct (hub st); [|apply mics_refl; reflexivity]. eapply mics_trans; [|apply mics_save; exact B]. apply mics_refl; reflexivity.
    + destruct (hub st && _); [|apply mics_refl; reflexivity]. eapply mics_trans; [|apply mics_save; exact B]. apply mics_refl; reflexivity.
  - destruct (hub st && _); [|apply mics_refl; reflexivity]. apply mics_save. exact B.
  - destruct (hub st && _); [|apply mics_refl; reflexivity]. destruct (has s (entries st)) eqn:P; [|quiet1].
    apply mics_emit; [|apply quiet_one; reflexivity]. apply mics_one. apply (m_leave m st _ s P); [reflexivity|exact B].
  - destruct (hub st); [|apply mics_refl; reflexivity]. destruct m; [destruct (em st) eqn:E|].
    + apply mics_one. eapply m_quiet; [apply (quiet_one ECrash); reflexivity|]. reflexivity.
    + apply mics_one. apply m_clear; auto.
    + apply mics_one. apply m_clear; auto.
  - destruct (hub st); [quiet1|apply mics_refl; reflexivity].
  - destruct (hub st); [quiet1|apply mics_refl; reflexivity].
  - destruct (hidden st c); [apply mics_refl; reflexivity|]. pose proof (mics_disconnect m st c B) as X. destruct (disconnect m st c). apply mics_emit; [exact X|apply quiet_one; reflexivity].
  - destruct (hidden st c); [apply mics_refl; reflexivity|]. pose proof (mics_reconnect m st c B) as X. destruct (reconnect m st c). apply mics_emit; [exact X|apply quiet_one; reflexivity].
  - destruct (hidden st c); [apply mics_refl; reflexivity|]. quiet1.
  - destruct (internal st c || _); [apply mics_refl; reflexivity|]. apply mics_emit; [|apply quiet_one; reflexivity]. destruct (is_connected st c); [|apply mics_refl; reflexivity].
    eapply mics_trans; [apply (mics_disconnect m st c B)|]. apply mics_refl; reflexivity.
  - destruct (hub st); [|apply mics_refl; reflexivity]. destruct (em st) eqn:E.
    + apply mics_one. eapply m_quiet; [apply (quiet_one ECrash); reflexivity|]. reflexivity.
    + eapply mics_step; [apply mics_one; apply (m_clear m st (emit (with_hub (with_entries st []) false) [EClear])); auto|].
      eapply (m_quiet m _ _ [ESignalEnd]); [apply quiet_one; reflexivity|]. unfold core. cbn. rewrite <- app_assoc. reflexivity.
  - destruct (hub st); [|apply mics_refl; reflexivity]. destruct (entries st) as [|x r] eqn:E.
    + apply mics_one. apply (m_nothing m st _ t v E). unfold core. cbn. rewrite E. reflexivity.
    + destruct (notif st) eqn:N.
      * apply mics_one. eapply m_quiet; [apply (quiet_one ECrash); reflexivity|]. reflexivity.
      * apply mics_one. apply (m_begin m st _ t v); [congruence|exact N|reflexivity].
Qed.

Lemma free_busy st t : free st t = true -> busy st.
Proof. unfold free, busy. intros F e E. rewrite E in F. apply andb_true_iff in F as [_ F]. destruct (e_run e); [discriminate|discriminate F]. Qed.

Lemma mics_on m st e : em st = Some e -> e_run e <> None -> mics m st (go_on m st e).
Proof.
  intros E R. unfold go_on. destruct m; apply mics_one; [eapply m_on|eapply m_end1]; eauto.
Qed.

Lemma one_slot st i k s : J st -> nth_error (entries st) i = Some (Some (k, s)) -> nth_error (kinds st) s <> Some KPtr -> cnt (is_slot s) (entries st) = 1.
Proof. intros I N K. pose proof (j_one _ I s K). pose proof (has_pos _ _ (has_nth _ _ _ _ N)). unfold strong in *. lia. Qed.

Lemma mics_step_em m st e : J st -> em st = Some e -> e_run e = None -> notif st = true -> mics m st (step m st e).
Proof.
  intros I E R NT. assert (HB : hub st = true) by (apply (j_hub _ I); congruence). unfold step.
  destruct (nth_error (entries st) (e_cur e)) as [[[k s]|]|] eqn:N.
  - assert (G : mics m st (emit (with_em st true (Some (Em (e_thread e) (e_no e) (e_val e) (e_cur e) (Some (k, s))))) [ECall (e_thread e) (e_no e) k s (e_val e)])).
    { apply mics_one. eapply m_call; eauto. }
    destruct (nth_error (kinds st) s) as [[| | |o c]|] eqn:K; try exact G.
    destruct (is_dead st o); [|exact G].
    pose proof (expire_eq m st s o c I K (has_nth _ _ _ _ N) HB) as Y. fold (expire m st c). cbv zeta. rewrite Y in *.
    assert (C1 : cnt (is_slot s) (entries st) = 1) by (eapply one_slot; eauto; congruence).
    set (st2 := set_con (remove m st s) c (CRef None)) in *.
    assert (G2 : forall l, quiet l -> mics m st (go_on m (emit st2 l) e)).
    { intros l Q. apply mics_one. eapply (m_expire m st _ e k s l); eauto.
      unfold st2, core. cbn. destruct m; cbn; rewrite ?NT, <- ?app_assoc, ?app_nil_r; reflexivity. }
    destruct (owned st2 s).
    + pose proof (G2 [] quiet_nil) as X. eapply mics_trans; [exact X|]. apply mics_refl. unfold core. destruct m; cbn; rewrite ?app_nil_r; reflexivity.
    + apply G2. apply quiet_one. reflexivity.
  - apply mics_one. eapply m_skip; eauto.
  - apply mics_one. eapply m_end; eauto.
Qed.
