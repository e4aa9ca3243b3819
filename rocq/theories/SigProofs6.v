(** The signal model: the answers of connections; objects; safety. *)
From Verif Require Import SigModel SigSpec SigProofs SigProofs2 SigProofs3 SigProofs4 SigProofs5.

(** ** Connections given to the user *)
Definition is_rcon (e : event) : bool := match e with ERet _ _ (RCon _ _ true) => true | _ => false end.

Lemma nth_kinds_app st ks s k : nth_error (kinds st) s = Some k -> nth_error (kinds st ++ ks) s = Some k.
Proof. intros N. rewrite nth_error_app1; [exact N|eapply nth_lt; eauto]. Qed.

(** How an action extends the kinds and the connections. *)
Lemma grow_act m st t a : J st -> length (conns st) <= length (conns (act m st t a)) /\
  (kinds (act m st t a) = kinds st \/ exists k, kinds (act m st t a) = kinds st ++ [k] /\ (forall c, owns_con c k = true -> c = length (conns st))).
Proof.
  intros I. unfold act.
  assert (SV : forall st0 a0 s, length (conns st) <= length (conns st0) -> length (conns st) <= length (conns (save m st0 t a0 s))).
  { intros st0 a0 s L. unfold save. destruct (can_add m (entries st0)); cbn; rewrite app_length; cbn; lia. }
  destruct a as [k| |s|s|s| | | |c|c|c|c|c|o| |v| | |]; try (destruct (free st t); [unfold call|split; [apply le_n|left; reflexivity]]); try (split; [apply le_n|left; reflexivity]).
  - destruct k as [| |o].
    + destruct (hub st); [|split; [apply le_n|left; reflexivity]]. split; [apply SV; apply le_n|right]. exists KPlain. split; [apply kinds_save|discriminate].
    + destruct (hub st); [|split; [apply le_n|left; reflexivity]]. split; [apply SV; cbn; rewrite app_length; lia|right]. exists (KAware (length (conns st))). split; [apply kinds_save|].
      intros c X. cbn in X. apply Nat.eqb_eq in X. exact X.
    + destruct (hub st && _); [|split; [apply le_n|left; reflexivity]]. split; [apply SV; cbn; rewrite app_length; lia|right]. exists (KTracked o (length (conns st))). split; [apply kinds_save|].
      intros c X. cbn in X. apply Nat.eqb_eq in X. exact X.
  - split; [apply le_n|right]. exists KPtr. split; [reflexivity|discriminate].
  - destruct (hub st && _); [|split; [apply le_n|left; reflexivity]]. split; [apply SV; apply le_n|left; apply kinds_save].
  - destruct (hub st && _); [|split; [apply le_n|left; reflexivity]]. destruct (has s (entries st)); split; try apply le_n; left; reflexivity.
  - destruct (hub st); [|split; [apply le_n|left; reflexivity]]. destruct m; [destruct (em st)|]; split; try apply le_n; left; reflexivity.
  - destruct (hub st); split; try apply le_n; left; reflexivity.
  - destruct (hub st); split; try apply le_n; left; reflexivity.
  - destruct (hidden st c); [split; [apply le_n|left; reflexivity]|]. destruct (kinds_disconnect m st c) as (A1 & A2 & A3 & A4 & A5 & A6). destruct (disconnect m st c). cbn in *. split; [lia|left; exact A1].
  - destruct (hidden st c); [split; [apply le_n|left; reflexivity]|]. destruct (kinds_reconnect m st c) as (A1 & A2 & A3 & A4 & A5 & A6). destruct (reconnect m st c). cbn in *. split; [lia|left; exact A1].
  - destruct (hidden st c); split; try apply le_n; left; reflexivity.
  - destruct (internal st c || _); split; try apply le_n; try (left; reflexivity). cbn. rewrite length_set_nth. apply le_n.
  - destruct (internal st c || _); [split; [apply le_n|left; reflexivity]|]. destruct (kinds_disconnect m st c) as (A1 & A2 & A3 & A4 & A5 & A6).
    destruct (is_connected st c); split; cbn; rewrite ?length_set_nth; try lia; left; auto.
  - destruct (hub st); [|split; [apply le_n|left; reflexivity]]. destruct (em st); split; try apply le_n; left; reflexivity.
  - destruct (hub st); [|split; [apply le_n|left; reflexivity]]. destruct (entries st); [|destruct (notif st)]; split; try apply le_n; left; reflexivity.
  - destruct (em st) as [e|] eqn:E; [|split; [apply le_n|left; reflexivity]]. destruct (Nat.eqb (e_thread e) t); [|split; [apply le_n|left; reflexivity]].
    destruct (e_run e); [split; [apply le_n|left; reflexivity]|].
    assert (HB : hub st = true) by (apply (j_hub _ I); congruence). unfold step.
    destruct (nth_error (entries st) (e_cur e)) as [[[k s]|]|] eqn:N; try (split; [apply le_n|left; reflexivity]).
    destruct (nth_error (kinds st) s) as [[| | |o c]|] eqn:K; try (split; [apply le_n|left; reflexivity]). destruct (is_dead st o); [|split; [apply le_n|left; reflexivity]].
    pose proof (expire_eq m st s o c I K (has_nth _ _ _ _ N) HB) as Y. fold (expire m st c). cbv zeta. rewrite Y.
    destruct (owned _ s); destruct m; cbn; rewrite length_set_nth; split; try apply le_n; left; reflexivity.
  - destruct (em st) as [e|] eqn:E; [|split; [apply le_n|left; reflexivity]]. destruct (Nat.eqb (e_thread e) t); [|split; [apply le_n|left; reflexivity]].
    destruct (e_run e) as [[k s]|]; [|split; [apply le_n|left; reflexivity]]. unfold slot_return.
    destruct (nth_error (kinds st) s) as [[| |c|o c]|]; destruct m; try destruct (nth_error (conns st) c) as [[| |]|]; cbn; rewrite ?length_set_nth; split; try apply le_n; left; reflexivity.
  - destruct (em st) as [e|] eqn:E; [|split; [apply le_n|left; reflexivity]]. destruct (Nat.eqb (e_thread e) t); [|split; [apply le_n|left; reflexivity]].
    destruct (e_run e) as [[k s]|]; split; try apply le_n; left; reflexivity.
Qed.

Lemma internal_act m st t a c : J st -> c < length (conns st) -> internal st c = false -> internal (act m st t a) c = false.
Proof.
  intros I L H. destruct (grow_act m st t a I) as [_ [E|(k & E & W)]]; unfold internal in *; rewrite E; [exact H|].
  rewrite existsb_app, H. cbn. rewrite orb_false_r. destruct (owns_con c k) eqn:O; [|reflexivity]. apply W in O. lia.
Qed.

(** A new connection is given only by connect. *)
Definition new_con (st : state) (l : list event) : Prop := forall e, In e l -> is_rcon e = false.
Lemma con_event m st t a : J st -> (exists l, tr (act m st t a) = tr st ++ l /\ forall e, In e l -> is_rcon e = false) \/
  (hub st = true /\ free st t = true /\ exists st0 s, act m st t a = save m st0 t a s /\ tr st0 = tr st /\ can_add m (entries st0) = true /\ J (act m st t a) /\ hub st0 = true /\
    s < length (kinds st0) /\ internal st0 (length (conns st0)) = false /\
    match a with AConnect CPlain => kinds st0 = kinds st ++ [KPlain] /\ s = length (kinds st) | AConnect CAware => kinds st0 = kinds st ++ [KAware (length (conns st))] /\ s = length (kinds st)
    | AConnect (CTracked o) => kinds st0 = kinds st ++ [KTracked o (length (conns st))] /\ s = length (kinds st) | AConnectPtr s' => st0 = st /\ nth_error (kinds st) s = Some KPtr | _ => False end).
Proof.
  intros I. pose proof (J_act m st t a I) as JJ.
  assert (NEW : forall st0 s, act m st t a = save m st0 t a s -> tr st0 = tr st -> (can_add m (entries st0) = true -> hub st = true /\ free st t = true /\ hub st0 = true /\ s < length (kinds st0) /\ internal st0 (length (conns st0)) = false /\
     match a with AConnect CPlain => kinds st0 = kinds st ++ [KPlain] /\ s = length (kinds st) | AConnect CAware => kinds st0 = kinds st ++ [KAware (length (conns st))] /\ s = length (kinds st)
    | AConnect (CTracked o) => kinds st0 = kinds st ++ [KTracked o (length (conns st))] /\ s = length (kinds st) | AConnectPtr s' => st0 = st /\ nth_error (kinds st) s = Some KPtr | _ => False end) ->
     (exists l, tr (act m st t a) = tr st ++ l /\ forall e, In e l -> is_rcon e = false) \/
  (hub st = true /\ free st t = true /\ exists st0 s, act m st t a = save m st0 t a s /\ tr st0 = tr st /\ can_add m (entries st0) = true /\ J (act m st t a) /\ hub st0 = true /\
    s < length (kinds st0) /\ internal st0 (length (conns st0)) = false /\
    match a with AConnect CPlain => kinds st0 = kinds st ++ [KPlain] /\ s = length (kinds st) | AConnect CAware => kinds st0 = kinds st ++ [KAware (length (conns st))] /\ s = length (kinds st)
    | AConnect (CTracked o) => kinds st0 = kinds st ++ [KTracked o (length (conns st))] /\ s = length (kinds st) | AConnectPtr s' => st0 = st /\ nth_error (kinds st) s = Some KPtr | _ => False end)).
  { intros st0 s E1 E2 W. destruct (can_add m (entries st0)) eqn:CA.
    - right. destruct (W eq_refl) as (W1 & W2 & W3 & W4 & W5 & W6). split; [exact W1|]. split; [exact W2|]. exists st0, s. auto 10.
    - left. rewrite E1, tr_save, E2, CA. eexists. split; [reflexivity|]. intros e [<-|[]]. reflexivity. }
  assert (SAME : act m st t a = st -> exists l, tr (act m st t a) = tr st ++ l /\ forall e, In e l -> is_rcon e = false).
  { intros ->. exists (@nil event). rewrite app_nil_r. split; [reflexivity|]. intros e []. }
  assert (LIST : forall l, tr (act m st t a) = tr st ++ l -> (forall e, In e l -> is_rcon e = false) -> exists l, tr (act m st t a) = tr st ++ l /\ forall e, In e l -> is_rcon e = false) by eauto.
  assert (IF : forall c k, owns_con c k = true -> In k (kinds st) -> c < length (conns st)).
  { intros c k O X. apply In_nth_error in X as (s & X). exact (j_own _ I s k c X O). }
  assert (INT : forall c, length (conns st) <= c -> internal st c = false).
  { intros c L. unfold internal. destruct (existsb (owns_con c) (kinds st)) eqn:X; [|reflexivity]. apply existsb_exists in X as (k & X & Y). specialize (IF c k Y X). lia. }
  destruct a as [k| |s|s|s| | | |c|c|c|c|c|o| |v| | |].
  - destruct (free st t) eqn:FR; [|left; apply SAME; unfold act; rewrite FR; reflexivity]. destruct k as [| |o].
    + destruct (hub st) eqn:HB; [|left; apply SAME; unfold act, call; rewrite FR, HB; reflexivity].
      eapply NEW; [unfold act, call; rewrite FR, HB; reflexivity|reflexivity|]. intros _. cbn. rewrite app_length. cbn. repeat split; auto; try lia.
      unfold internal in *. cbn. rewrite existsb_app. cbn. rewrite orb_false_r. apply INT. apply le_n.
    + destruct (hub st) eqn:HB; [|left; apply SAME; unfold act, call; rewrite FR, HB; reflexivity].
      eapply NEW; [unfold act, call; rewrite FR, HB; reflexivity|reflexivity|]. intros _. cbn. rewrite !app_length. cbn. repeat split; auto; try lia.
      unfold internal in *. cbn. rewrite existsb_app. cbn. rewrite orb_false_r, INT by lia. apply Nat.eqb_neq. lia.
    + destruct (hub st && negb (is_dead st o)) eqn:HB; [|left; apply SAME; unfold act, call; rewrite FR, HB; reflexivity].
      eapply NEW; [unfold act, call; rewrite FR, HB; reflexivity|reflexivity|]. intros _. apply andb_true_iff in HB as [HB _]. cbn. rewrite !app_length. cbn. repeat split; auto; try lia.
      unfold internal in *. cbn. rewrite existsb_app. cbn. rewrite orb_false_r, INT by lia. apply Nat.eqb_neq. lia.
  - left. eapply LIST; [reflexivity|]. intros e [<-|[]]. reflexivity.
  - destruct (free st t) eqn:FR; [|left; apply SAME; unfold act; rewrite FR; reflexivity].
    destruct (hub st && existsb (Nat.eqb s) (held st)) eqn:HB; [|left; apply SAME; unfold act, call; rewrite FR, HB; reflexivity].
    eapply NEW; [unfold act, call; rewrite FR, HB; reflexivity|reflexivity|]. intros _. apply andb_true_iff in HB as [HB X].
    apply existsb_exists in X as (s' & X & Q). apply Nat.eqb_eq in Q. subst s'. apply (j_held _ I) in X. repeat split; auto; try (eapply nth_lt; eauto).
  - left. apply (LIST []); [cbn; rewrite app_nil_r; reflexivity|intros e []].
  - left. unfold act, call in *. destruct (free st t); [|apply SAME; reflexivity]. destruct (hub st && _); [|apply SAME; reflexivity]. destruct (has s (entries st)).
    + apply (LIST [ELeave s; ERet t (ADisconnectPtr s) (RBool true)]); [cbn; rewrite <- app_assoc; reflexivity|]. plains.
    + eapply LIST; [reflexivity|]. plains.
  - left. unfold act, call in *. destruct (free st t); [|apply SAME; reflexivity]. destruct (hub st); [|apply SAME; reflexivity].
    destruct m; [destruct (em st)|]; (eapply LIST; [reflexivity|plains]).
  - left. unfold act, call in *. destruct (free st t); [|apply SAME; reflexivity]. destruct (hub st); [|apply SAME; reflexivity]. eapply LIST; [reflexivity|plains].
  - left. unfold act, call in *. destruct (free st t); [|apply SAME; reflexivity]. destruct (hub st); [|apply SAME; reflexivity]. eapply LIST; [reflexivity|plains].
  - left. unfold act, call in *. destruct (free st t); [|apply SAME; reflexivity]. destruct (hidden st c); [apply SAME; reflexivity|].
    destruct (tr_disconnect m st c) as (l & T & W). destruct (disconnect m st c) as [st' b]. cbn [fst] in *. apply (LIST (l ++ [ERet t (ADisconnect c) (RBool b)])); [cbn; rewrite T, app_assoc; reflexivity|].
    intros e X. apply in_app_or in X as [X|[<-|[]]]; [destruct W as [->|[s2 ->]]; [destruct X|destruct X as [<-|[]]; reflexivity]|reflexivity].
  - left. unfold act, call in *. destruct (free st t); [|apply SAME; reflexivity]. destruct (hidden st c); [apply SAME; reflexivity|].
    destruct (tr_reconnect m st c) as (l & T & W). destruct (reconnect m st c) as [st' b]. cbn [fst] in *. apply (LIST (l ++ [ERet t (AReconnect c) (RBool b)])); [cbn; rewrite T, app_assoc; reflexivity|].
    intros e X. apply in_app_or in X as [X|[<-|[]]]; [destruct W as [->|[s2 ->]]; [destruct X|destruct X as [<-|[]]; reflexivity]|reflexivity].
  - left. unfold act, call in *. destruct (free st t); [|apply SAME; reflexivity]. destruct (hidden st c); [apply SAME; reflexivity|]. eapply LIST; [reflexivity|plains].
  - left. unfold act, call in *. destruct (internal st c || _); [apply SAME; reflexivity|]. eapply LIST; [reflexivity|plains].
  - left. unfold act, call in *. destruct (free st t); [|apply SAME; reflexivity]. destruct (internal st c || _); [apply SAME; reflexivity|].
    destruct (tr_disconnect m st c) as (l & T & W). destruct (is_connected st c).
    + apply (LIST (l ++ [EDestroy c])); [cbn; rewrite T, app_assoc; reflexivity|].
      intros e X. apply in_app_or in X as [X|[<-|[]]]; [destruct W as [->|[s2 ->]]; [destruct X|destruct X as [<-|[]]; reflexivity]|reflexivity].
    + apply (LIST [EDestroy c]); [reflexivity|plains].
  - left. eapply LIST; [reflexivity|plains].
  - left. unfold act, call in *. destruct (free st t); [|apply SAME; reflexivity]. destruct (hub st); [|apply SAME; reflexivity]. destruct (em st); (eapply LIST; [reflexivity|plains]).
  - left. unfold act, call in *. destruct (free st t); [|apply SAME; reflexivity]. destruct (hub st); [|apply SAME; reflexivity].
    destruct (entries st); [|destruct (notif st)]; (eapply LIST; [reflexivity|plains]).
  - left. unfold act in *. destruct (em st) as [e|] eqn:E; [|apply SAME; reflexivity]. destruct (Nat.eqb (e_thread e) t); [|apply SAME; reflexivity].
    destruct (e_run e); [apply SAME; reflexivity|]. assert (HB : hub st = true) by (apply (j_hub _ I); congruence). unfold step in *.
    destruct (nth_error (entries st) (e_cur e)) as [[[k s]|]|] eqn:N.
    + destruct (nth_error (kinds st) s) as [[| | |o c]|] eqn:K; try (eapply LIST; [reflexivity|plains]). destruct (is_dead st o); [|eapply LIST; [reflexivity|plains]].
      pose proof (expire_eq m st s o c I K (has_nth _ _ _ _ N) HB) as Y. fold (expire m st c) in *. cbv zeta in *. rewrite Y in *.
      destruct (owned _ s).
      * apply (LIST (ELeave s :: match m with Multi => [] | Single => [EEnd (e_thread e) (e_no e)] end)); [destruct m; cbn; rewrite <- ?app_assoc; reflexivity|destruct m; plains].
      * apply (LIST (ELeave s :: EFreed s :: match m with Multi => [] | Single => [EEnd (e_thread e) (e_no e)] end)); [destruct m; cbn; rewrite <- ?app_assoc; reflexivity|destruct m; plains].
    + apply (LIST []); [cbn; rewrite app_nil_r; reflexivity|plains].
    + eapply LIST; [reflexivity|plains].
  - left. unfold act in *. destruct (em st) as [e|] eqn:E; [|apply SAME; reflexivity]. destruct (Nat.eqb (e_thread e) t); [|apply SAME; reflexivity].
    destruct (e_run e) as [[k s]|]; [|apply SAME; reflexivity]. unfold slot_return in *.
    apply (LIST (match m with Multi => [] | Single => [EEnd (e_thread e) (e_no e)] end)); [|destruct m; plains].
    destruct (nth_error (kinds st) s) as [[| |c|o c]|]; destruct m; try destruct (nth_error (conns st) c) as [[| |]|]; cbn; rewrite ?app_nil_r; reflexivity.
  - left. unfold act in *. destruct (em st) as [e|] eqn:E; [|apply SAME; reflexivity]. destruct (Nat.eqb (e_thread e) t); [|apply SAME; reflexivity].
    destruct (e_run e) as [[k s]|]; [|apply SAME; reflexivity]. eapply LIST; [reflexivity|plains].
Qed.

Definition given (st : state) : Prop := forall t a c s, In (ERet t a (RCon c s true)) (tr st) ->
  c < length (conns st) /\ internal st c = false /\ s < length (kinds st) /\ (nth_error (kinds st) s <> Some KPtr -> M st c s) /\
  match a with
  | AConnect CPlain => nth_error (kinds st) s = Some KPlain
  | AConnect CAware => exists c', nth_error (kinds st) s = Some (KAware c')
  | AConnect (CTracked o) => exists c', nth_error (kinds st) s = Some (KTracked o c')
  | AConnectPtr _ => nth_error (kinds st) s = Some KPtr
  | _ => False
  end.
Lemma given_emit st l : given st -> (forall e, In e l -> is_rcon e = false /\ forall c, cuts c e = false) -> given (emit st l).
Proof.
  intros G H t a c s X. cbn in X. apply in_app_or in X as [X|X]; [|apply H in X as [X _]; discriminate].
  destruct (G t a c s X) as (G1 & G2 & G3 & G4 & G5). repeat split; auto. intros K. apply (M_same st _ c s l); auto. intros e E. apply H. exact E.
Qed.

Lemma cut_fresh_list c a l : cut c a = false -> (forall e, In e l -> match e with ERet _ (ADisconnect c') (RBool true) => c' <> c | _ => True end) -> cut c (a ++ l) = false.
Proof.
  intros H W. rewrite cut_app. revert H. generalize (cut c a). induction l as [|e l IH]; intros b H; [exact H|]. cbn. apply IH; [intros; apply W; right; assumption|].
  specialize (W e (or_introl eq_refl)). subst b. destruct e; try reflexivity. destruct a0; try reflexivity; cbn.
  - destruct r as [[|]| | |]; try reflexivity. rewrite (proj2 (Nat.eqb_neq c c0)); [reflexivity|congruence].
  - apply andb_false_r.
Qed.

(** The trace grows, and the answers in it are to the action made. *)
Definition ev_ok (st : state) (t : nat) (a : action) (e : event) : Prop :=
  match e with ERet t' a' r => t' = t /\ a' = a /\ match a, r with ADisconnect c, RBool true => c < length (conns st) | _, _ => True end | _ => True end.
Ltac evs := let x := fresh in let X := fresh in intros x X; repeat (destruct X as [<-|X]; [first [exact Logic.I|repeat split]|]); destruct X.

Lemma grows_act m st t a : J st -> exists l, tr (act m st t a) = tr st ++ l /\ forall e, In e l -> ev_ok st t a e.
Proof.
  intros I. assert (Z : exists l, tr st = tr st ++ l /\ forall e, In e l -> ev_ok st t a e) by (exists (@nil event); rewrite app_nil_r; split; [reflexivity|intros e []]).
  assert (SAVE : forall st0 s, tr st0 = tr st -> (match a with ADisconnect _ => False | _ => True end) -> exists l, tr (save m st0 t a s) = tr st ++ l /\ forall e, In e l -> ev_ok st t a e).
  { intros st0 s E N. rewrite tr_save, E. eexists. split; [reflexivity|]. intros e X. apply in_app_or in X as [X|[<-|[]]]; [destruct (can_add m (entries st0)); [destruct X as [<-|[]]; exact Logic.I|destruct X]|].
    cbn. split; [reflexivity|]. split; [reflexivity|]. destruct a; auto. }
  unfold act. destruct a as [k| |s|s|s| | | |c|c|c|c|c|o| |v| | |]; try (destruct (free st t); [unfold call|exact Z]); try exact Z.
  - destruct k as [| |o]; [destruct (hub st)|destruct (hub st)|destruct (hub st && _)]; try exact Z; apply SAVE; auto.
  - eexists; split; [reflexivity|evs].
  - destruct (hub st && _); [|exact Z]. apply SAVE; auto.
  - destruct (hub st && _); [|exact Z]. destruct (has s (entries st)).
    + exists [ELeave s; ERet t (ADisconnectPtr s) (RBool true)]. split; [cbn; rewrite <- app_assoc; reflexivity|evs].
    + eexists; split; [reflexivity|evs].
  - destruct (hub st); [|exact Z]. destruct m; [destruct (em st)|]; (eexists; split; [reflexivity|evs]).
  - destruct (hub st); [|exact Z]. eexists; split; [reflexivity|evs].
  - destruct (hub st); [|exact Z]. eexists; split; [reflexivity|evs].
  - destruct (hidden st c); [exact Z|]. destruct (tr_disconnect m st c) as (l & T & W). assert (L : snd (disconnect m st c) = true -> c < length (conns st)).
    { unfold disconnect. destruct (nth_error (conns st) c) eqn:N; [intros _; eapply nth_lt; eauto|discriminate]. }
    destruct (disconnect m st c) as [st' b]. cbn [fst snd] in *. exists (l ++ [ERet t (ADisconnect c) (RBool b)]). split; [cbn; rewrite T, app_assoc; reflexivity|].
    intros e X. apply in_app_or in X as [X|[<-|[]]]; [destruct W as [->|[s2 ->]]; [destruct X|destruct X as [<-|[]]; exact Logic.I]|]. cbn. destruct b; auto.
  - destruct (hidden st c); [exact Z|]. destruct (tr_reconnect m st c) as (l & T & W).
    destruct (reconnect m st c) as [st' b]. cbn [fst snd] in *. exists (l ++ [ERet t (AReconnect c) (RBool b)]). split; [cbn; rewrite T, app_assoc; reflexivity|].
    intros e X. apply in_app_or in X as [X|[<-|[]]]; [destruct W as [->|[s2 ->]]; [destruct X|destruct X as [<-|[]]; exact Logic.I]|]. cbn. auto.
  - destruct (hidden st c); [exact Z|]. eexists; split; [reflexivity|evs].
  - destruct (internal st c || _); [exact Z|]. eexists; split; [reflexivity|evs].
  - destruct (internal st c || _); [exact Z|]. destruct (tr_disconnect m st c) as (l & T & W). destruct (is_connected st c).
    + exists (l ++ [EDestroy c]). split; [cbn; rewrite T, app_assoc; reflexivity|].
      intros e X. apply in_app_or in X as [X|[<-|[]]]; [destruct W as [->|[s2 ->]]; [destruct X|destruct X as [<-|[]]; exact Logic.I]|]. exact Logic.I.
    + exists [EDestroy c]. split; [reflexivity|evs].
  - eexists; split; [reflexivity|evs].
  - destruct (hub st); [|exact Z]. destruct (em st); (eexists; split; [reflexivity|evs]).
  - destruct (hub st); [|exact Z]. destruct (entries st); [|destruct (notif st)]; (eexists; split; [reflexivity|evs]).
  - destruct (em st) as [e|] eqn:E; [|exact Z]. destruct (Nat.eqb (e_thread e) t); [|exact Z]. destruct (e_run e); [exact Z|].
    assert (HB : hub st = true) by (apply (j_hub _ I); congruence). unfold step.
    destruct (nth_error (entries st) (e_cur e)) as [[[k s]|]|] eqn:N.
    + destruct (nth_error (kinds st) s) as [[| | |o c]|] eqn:K; try (eexists; split; [reflexivity|evs]). destruct (is_dead st o); [|eexists; split; [reflexivity|evs]].
      pose proof (expire_eq m st s o c I K (has_nth _ _ _ _ N) HB) as Y. fold (expire m st c). cbv zeta. rewrite Y.
      destruct (owned _ s).
      * exists (ELeave s :: match m with Multi => [] | Single => [EEnd (e_thread e) (e_no e)] end). split; [destruct m; cbn; rewrite <- ?app_assoc; reflexivity|destruct m; evs].
      * exists (ELeave s :: EFreed s :: match m with Multi => [] | Single => [EEnd (e_thread e) (e_no e)] end). split; [destruct m; cbn; rewrite <- ?app_assoc; reflexivity|destruct m; evs].
    + exact Z.
    + eexists; split; [reflexivity|evs].
  - destruct (em st) as [e|] eqn:E; [|exact Z]. destruct (Nat.eqb (e_thread e) t); [|exact Z]. destruct (e_run e) as [[k s]|]; [|exact Z]. unfold slot_return.
    exists (match m with Multi => [] | Single => [EEnd (e_thread e) (e_no e)] end). split; [|destruct m; evs].
    destruct (nth_error (kinds st) s) as [[| |c|o c]|]; destruct m; try destruct (nth_error (conns st) c) as [[| |]|]; cbn; rewrite ?app_nil_r; reflexivity.
  - destruct (em st) as [e|] eqn:E; [|exact Z]. destruct (Nat.eqb (e_thread e) t); [|exact Z]. destruct (e_run e) as [[k s]|]; [|exact Z]. eexists; split; [reflexivity|evs].
Qed.

Definition cut_fresh (st : state) : Prop := forall c, length (conns st) <= c -> cut c (tr st) = false.
Lemma cut_fresh_act m st t a : J st -> cut_fresh st -> cut_fresh (act m st t a).
Proof.
  intros I H c L. destruct (grow_act m st t a I) as [G _]. destruct (grows_act m st t a I) as (l & -> & W). apply cut_fresh_list; [apply H; lia|].
  intros e X. specialize (W e X). destruct e; auto. destruct a0; auto. destruct r as [[|]| | |]; auto. cbn in W. destruct W as (_ & <- & W). lia.
Qed.

Lemma given_act m st t a : J st -> F st -> cut_fresh st -> given st -> given (act m st t a).
Proof.
  intros I FF CF G t' a' c s X. destruct (grow_act m st t a I) as [GL GK].
  assert (OLD : In (ERet t' a' (RCon c s true)) (tr st) -> c < length (conns (act m st t a)) /\ internal (act m st t a) c = false /\ s < length (kinds (act m st t a)) /\
     (nth_error (kinds (act m st t a)) s <> Some KPtr -> M (act m st t a) c s) /\ match a' with
  | AConnect CPlain => nth_error (kinds (act m st t a)) s = Some KPlain
  | AConnect CAware => exists c', nth_error (kinds (act m st t a)) s = Some (KAware c')
  | AConnect (CTracked o) => exists c', nth_error (kinds (act m st t a)) s = Some (KTracked o c')
  | AConnectPtr _ => nth_error (kinds (act m st t a)) s = Some KPtr
  | _ => False
  end).
  { intros O. destruct (G t' a' c s O) as (G1 & G2 & G3 & G4 & G5).
    assert (KK : forall k, nth_error (kinds st) s = Some k -> nth_error (kinds (act m st t a)) s = Some k).
    { intros k K. destruct GK as [->|(k' & -> & _)]; [exact K|apply nth_kinds_app; exact K]. }
    split; [lia|]. split; [apply internal_act; auto|]. split; [destruct GK as [->|(k' & -> & _)]; rewrite ?app_length; lia|]. split.
    - intros K. assert (K0 : nth_error (kinds st) s <> Some KPtr) by (intros Y; apply K; apply KK; exact Y). apply M_act; auto.
    - destruct a' as [[| |o]| | | | | | | | | | | | | | | | | |]; try exact G5; try (apply KK; exact G5); destruct G5 as [c' G5]; exists c'; apply KK; exact G5. }
  destruct (con_event m st t a I) as [(l & T & W)|(HB & FR & st0 & s0 & E & T & CA & JJ & HB0 & L0 & IN0 & KK)].
  - rewrite T in X. apply in_app_or in X as [X|X]; [exact (OLD X)|]. apply W in X. discriminate.
  - rewrite E in X. rewrite tr_save, CA, T in X. apply in_app_or in X as [X|X]; [exact (OLD X)|]. destruct X as [X|[X|[]]]; [discriminate|]. injection X as <- <- <- <-.
    destruct (kinds_save m st0 t a s0) as (K1 & K2 & K3 & K4).
    assert (LC : length (conns (save m st0 t a s0)) = S (length (conns st0))) by (unfold save; rewrite CA; cbn; rewrite app_length; cbn; lia).
    assert (L1 : length (conns st) <= length (conns st0)).
    { destruct (Nat.le_gt_cases (length (conns st)) (length (conns st0))) as [Y|Y]; [exact Y|]. exfalso.
      destruct a as [[| |o]| |s1| | | | | | | | | | | | | | | |]; try destruct KK; subst; try lia; unfold act, call in E; rewrite FR, HB in E.
      - apply (f_equal (fun x => length (conns x))) in E. rewrite LC in E. unfold save in E. destruct (can_add m _); cbn in E; rewrite app_length in E; cbn in E; lia.
      - apply (f_equal (fun x => length (conns x))) in E. rewrite LC in E. unfold save in E. destruct (can_add m _); cbn in E; rewrite !app_length in E; cbn in E; lia.
      - cbn [andb] in E. destruct (negb (is_dead st o)); [|exfalso; apply (f_equal (fun x => length (tr x))) in E; rewrite tr_save, T, !app_length in E; cbn in E; lia].
        apply (f_equal (fun x => length (conns x))) in E. rewrite LC in E. unfold save in E. destruct (can_add m _); cbn in E; rewrite !app_length in E; cbn in E; lia. }
    rewrite E. rewrite K1. split; [rewrite LC; lia|]. split; [unfold internal; rewrite K1; exact IN0|]. split; [exact L0|]. split.
    + intros K. exists (CRef (Some s0)). split.
      * unfold save. rewrite CA. cbn. rewrite nth_error_app2, Nat.sub_diag by apply le_n. reflexivity.
      * split; [reflexivity|]. left. rewrite tr_save, T. apply cut_fresh_list; [apply CF; exact L1|]. rewrite CA. intros e X. destruct X as [<-|[<-|[]]]; [exact Logic.I|]. destruct a; auto.
    + destruct a as [[| |o]| |s1| | | | | | | | | | | | | | | |]; try destruct KK as [KK1 KK2]; try contradiction.
      * rewrite KK1, KK2, nth_snoc, Nat.eqb_refl. reflexivity.
      * rewrite KK1, KK2, nth_snoc, Nat.eqb_refl. eauto.
      * rewrite KK1, KK2, nth_snoc, Nat.eqb_refl. eauto.
      * subst st0. exact KK2.
Qed.

Theorem given_final m h : given (final m h) /\ cut_fresh (final m h).
Proof.
  induction h as [|l h [IH1 IH2]] using rev_ind.
  - split; [intros t a c s []|intros c L; reflexivity].
  - rewrite final_snoc. unfold next. destruct (crashed (final m h)); [auto|].
    pose proof (given_act m _ (fst l) (snd l) (J_final m h) (F_final m h) IH2 IH1) as A. pose proof (cut_fresh_act m _ (fst l) (snd l) (J_final m h) IH2) as B.
    destruct (watch_cases (final m h) (act m (final m h) (fst l) (snd l))) as [->|[s ->]]; [auto|]. split.
    + apply given_emit; [exact A|]. intros e [<-|[]]. auto.
    + intros c L. cbn in *. apply cut_fresh_list; [apply B; exact L|]. intros e [<-|[]]. exact Logic.I.
Qed.
