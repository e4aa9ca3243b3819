(** The signal model: the connections in the hands of the user. *)
From Verif Require Import SigModel SigSpec SigProofs SigProofs2 SigProofs3.

(** ** Owners never come from nowhere *)
Lemma strong_set_le st c s x : is_ptr s x = false -> strong (set_con st c x) s <= strong st s.
Proof.
  intros P. destruct (nth_error (conns st) c) as [y|] eqn:N.
  - pose proof (strong_set st c s x y N) as E. rewrite P in E. cbn [b2n] in E. lia.
  - unfold strong. cbn. assert (set_nth c x (conns st) = conns st) as ->; [|lia].
    clear -N. revert c N. induction (conns st) as [|z l IH]; intros [|c] N; cbn in *; try discriminate; try reflexivity. f_equal. apply IH. exact N.
Qed.
Lemma strong_remove_le m st s s' : strong (remove m st s') s <= strong st s.
Proof. unfold strong. cbn. pose proof (cnt_rest m (notif st) s' s (entries st)) as X. unfold rest in X. lia. Qed.
Lemma strong_disconnect_le m st c s : strong (fst (disconnect m st c)) s <= strong st s.
Proof.
  unfold disconnect. destruct (nth_error (conns st) c) as [[[s'|]|s'|]|] eqn:N; try (cbn; lia). destruct (owned st s'); [|cbn; lia]. destruct (hub st).
  - destruct (has s' (entries st)) eqn:P; [|cbn; lia]. cbn [fst].
    pose proof (strong_set (remove m st s') c s (CPtr s') (CRef (Some s')) N) as E. cbn [is_ptr b2n] in E.
    destruct (Nat.eqb s s') eqn:Q; cbn [b2n] in E.
    + apply Nat.eqb_eq in Q. subst s'. pose proof (cnt_rest_same m (notif st) s (entries st) P) as X. pose proof (has_pos _ _ P).
      unfold strong in *. cbn in E |- *. unfold rest in X. lia.
    + pose proof (strong_remove_le m st s s'). lia.
  - cbn [fst]. apply strong_set_le. reflexivity.
Qed.
Lemma strong_reconnect_le m st c s : strong (fst (reconnect m st c)) s <= strong st s.
Proof.
  unfold reconnect. destruct (nth_error (conns st) c) as [[|s'|]|] eqn:N; try (cbn; lia). destruct (hub st); [|cbn; lia].
  destruct (can_add_unique m (entries st) s'); cbn [fst]; [|apply strong_set_le; reflexivity].
  pose proof (strong_set (add st s') c s (CRef (Some s')) (CPtr s') N) as E. cbn [is_ptr b2n] in E.
  unfold strong in *. cbn in E |- *. rewrite cnt_app, cnt_cons, cnt_nil in *. cbn [is_slot] in *. destruct (Nat.eqb s s'); cbn in *; lia.
Qed.
Lemma strong_save m st t a s' s : s <> s' -> strong (save m st t a s') s = strong st s.
Proof.
  intros NE. unfold save, strong. apply Nat.eqb_neq in NE. destruct (can_add m (entries st)); cbn; rewrite ?cnt_app, ?cnt_cons, ?cnt_nil; cbn [is_ptr is_slot b2n]; rewrite ?NE; cbn [b2n]; lia.
Qed.
Lemma strong_nil st s : cnt (is_ptr s) (conns st) <= strong st s.
Proof. unfold strong. lia. Qed.

Lemma strong_call m st t a s : J st -> s < length (kinds st) -> nth_error (kinds st) s <> Some KPtr -> strong (call m st t a) s <= strong st s.
Proof.
  intros I L K. unfold call. destruct a as [k| |s'|s'|s'| | | |c|c|c|c|c|o| |v| | |]; try (apply le_n).
  - destruct k as [| |o].
    + destruct (hub st); [|apply le_n]. rewrite strong_save by lia. apply le_n.
    + destruct (hub st); [|apply le_n]. rewrite strong_save by lia. unfold strong. cbn. rewrite cnt_app, cnt_cons, cnt_nil. cbn. lia.
    + destruct (hub st && _); [|apply le_n]. rewrite strong_save by lia. unfold strong. cbn. rewrite cnt_app, cnt_cons, cnt_nil. cbn. lia.
  - destruct (hub st && existsb (Nat.eqb s') (held st)) eqn:X; [|apply le_n]. apply andb_true_iff in X as [_ X].
    apply existsb_exists in X as (s2 & X & Q). apply Nat.eqb_eq in Q. subst s2. apply (j_held _ I) in X.
    rewrite strong_save; [apply le_n|]. intros ->. contradiction.
  - destruct (hub st && _); [|apply le_n]. destruct (has s' (entries st)); [|apply le_n]. apply (strong_remove_le m st s s').
  - destruct (hub st); [|apply le_n]. destruct m; [destruct (em st); [apply le_n|]|]; unfold strong; cbn; rewrite cnt_nil; lia.
  - destruct (hub st); apply le_n.
  - destruct (hub st); apply le_n.
  - destruct (hidden st c); [apply le_n|]. pose proof (strong_disconnect_le m st c s) as X. destruct (disconnect m st c). exact X.
  - destruct (hidden st c); [apply le_n|]. pose proof (strong_reconnect_le m st c s) as X. destruct (reconnect m st c). exact X.
  - destruct (hidden st c); apply le_n.
  - destruct (internal st c || _); [apply le_n|]. destruct (is_connected st c).
    + etransitivity; [apply (strong_set_le (fst (disconnect m st c)) c s CGone eq_refl)|apply strong_disconnect_le].
    + apply (strong_set_le st c s CGone eq_refl).
  - destruct (hub st); [|apply le_n]. destruct (em st); [apply le_n|]. unfold strong; cbn; rewrite cnt_nil; lia.
  - destruct (hub st); [|apply le_n]. destruct (entries st) eqn:E; [unfold strong; cbn; rewrite E; apply le_n|]. destruct (notif st); unfold strong; cbn; rewrite E; apply le_n.
Qed.

Lemma strong_go_on m st e s : strong (go_on m st e) s = strong st s.
Proof. destruct m; reflexivity. Qed.

Lemma strong_step m st e s : J st -> em st = Some e -> strong (step m st e) s <= strong st s.
Proof.
  intros I E. assert (HB : hub st = true) by (apply (j_hub _ I); congruence). unfold step.
  destruct (nth_error (entries st) (e_cur e)) as [[[k s']|]|] eqn:N.
  - destruct (nth_error (kinds st) s') as [[| | |o c]|] eqn:K; try apply le_n. destruct (is_dead st o); [|apply le_n].
    pose proof (expire_eq m st s' o c I K (has_nth _ _ _ _ N) HB) as Y. fold (expire m st c). cbv zeta. rewrite Y, strong_go_on.
    destruct (owned _ s'); (etransitivity; [|apply (strong_remove_le m st s s')]); apply (strong_set_le (remove m st s') c s (CRef None) eq_refl).
  - unfold strong. cbn. pose proof (cnt_drop (is_slot s) (e_cur e) (entries st)). lia.
  - apply le_n.
Qed.

Lemma strong_act m st t a s : J st -> s < length (kinds st) -> nth_error (kinds st) s <> Some KPtr -> strong (act m st t a) s <= strong st s.
Proof.
  intros I L K. unfold act. destruct a as [k| |s'|s'|s'| | | |c|c|c|c|c|o| |v| | |]; try (destruct (free st t); [apply strong_call; auto|apply le_n]).
  - apply le_n.
  - apply le_n.
  - destruct (internal st c || _); [apply le_n|]. apply (strong_set_le st c s CGone eq_refl).
  - apply le_n.
  - destruct (em st) as [e|] eqn:E; [|apply le_n]. destruct (Nat.eqb (e_thread e) t); [|apply le_n]. destruct (e_run e); [apply le_n|]. apply strong_step; auto.
  - destruct (em st) as [e|] eqn:E; [|apply le_n]. destruct (Nat.eqb (e_thread e) t); [|apply le_n]. destruct (e_run e) as [[k s']|]; [|apply le_n].
    unfold slot_return. rewrite strong_go_on. destruct (nth_error (kinds st) s') as [[| |c|o c]|]; try apply le_n;
      (destruct (nth_error (conns st) c) as [[|s2|]|]; try apply le_n; apply strong_set_le; reflexivity).
  - destruct (em st) as [e|] eqn:E; [|apply le_n]. destruct (Nat.eqb (e_thread e) t); [|apply le_n]. destruct (e_run e); apply le_n.
Qed.

(** ** Kinds never change *)
Lemma kinds_disconnect m st c : kinds (fst (disconnect m st c)) = kinds st /\ held (fst (disconnect m st c)) = held st /\ dead (fst (disconnect m st c)) = dead st
  /\ hub (fst (disconnect m st c)) = hub st /\ crashed (fst (disconnect m st c)) = crashed st /\ length (conns (fst (disconnect m st c))) = length (conns st).
Proof.
  unfold disconnect. destruct (nth_error (conns st) c) as [[[s'|]|s'|]|] eqn:N; try (cbn; repeat split; reflexivity). destruct (owned st s'); [|cbn; repeat split; reflexivity].
  destruct (hub st) eqn:HB; [destruct (has s' (entries st))|]; cbn; rewrite ?length_set_nth, ?HB; repeat split; auto.
Qed.
Lemma kinds_reconnect m st c : kinds (fst (reconnect m st c)) = kinds st /\ held (fst (reconnect m st c)) = held st /\ dead (fst (reconnect m st c)) = dead st
  /\ hub (fst (reconnect m st c)) = hub st /\ crashed (fst (reconnect m st c)) = crashed st /\ length (conns (fst (reconnect m st c))) = length (conns st).
Proof.
  unfold reconnect. destruct (nth_error (conns st) c) as [[|s'|]|] eqn:N; try (cbn; repeat split; reflexivity).
  destruct (hub st) eqn:HB; [destruct (can_add_unique m (entries st) s')|]; cbn; rewrite ?length_set_nth, ?HB; repeat split; auto.
Qed.

Lemma kinds_save m st t a s : kinds (save m st t a s) = kinds st /\ dead (save m st t a s) = dead st /\ hub (save m st t a s) = hub st /\ crashed (save m st t a s) = crashed st.
Proof. unfold save. destruct (can_add m (entries st)); repeat split; reflexivity. Qed.

(** The events of an action that the flags follow. *)
Definition plain_ev (e : event) : bool := match e with ESignalEnd | EKilled _ | ECrash | ERet _ AMakePtr _ => false | _ => true end.
Definition plain (l : list event) : Prop := forall e, In e l -> plain_ev e = true.
Definition flags (st : state) := (dead st, hub st, crashed st).

(** How an action changes the flags, the kinds and the trace. *)
Inductive flag_step (st st' : state) : Prop :=
| f_plain l : plain l -> flags st' = flags st -> (exists ks, kinds st' = kinds st ++ ks /\ forall k, In k ks -> k <> KPtr) -> tr st' = tr st ++ l -> flag_step st st'
| f_ptr t : flags st' = flags st -> kinds st' = kinds st ++ [KPtr] -> tr st' = tr st ++ [ERet t AMakePtr (RPtr (length (kinds st)))] -> flag_step st st'
| f_kill o : flags st' = (o :: dead st, hub st, crashed st) -> kinds st' = kinds st -> tr st' = tr st ++ [EKilled o] -> flag_step st st'
| f_end : flags st' = (dead st, false, crashed st) -> kinds st' = kinds st -> tr st' = tr st ++ [EClear; ESignalEnd] -> entries st' = [] -> flag_step st st'
| f_crash : flags st' = (dead st, hub st, true) -> kinds st' = kinds st -> tr st' = tr st ++ [ECrash] -> flag_step st st'.

Lemma f_refl st : flag_step st st.
Proof. apply (f_plain st st []); [intros e []|reflexivity|exists (@nil kind); rewrite app_nil_r; split; [reflexivity|intros k []]|rewrite app_nil_r; reflexivity]. Qed.
Lemma f_same st st' l : plain l -> flags st' = flags st -> kinds st' = kinds st -> tr st' = tr st ++ l -> flag_step st st'.
Proof. intros P F K T. apply (f_plain st st' l P F); [exists (@nil kind); rewrite app_nil_r; split; [exact K|intros k []]|exact T]. Qed.
Ltac plains := let x := fresh in let X := fresh in intros x X; repeat (destruct X as [<-|X]; [reflexivity|]); destruct X.

Lemma tr_disconnect m st c : exists l, tr (fst (disconnect m st c)) = tr st ++ l /\ (l = [] \/ exists s, l = [ELeave s]).
Proof.
  unfold disconnect. destruct (nth_error (conns st) c) as [[[s'|]|s'|]|] eqn:N; try solve [exists (@nil event); rewrite app_nil_r; auto]. destruct (owned st s'); [|exists (@nil event); rewrite app_nil_r; auto].
  destruct (hub st); [destruct (has s' (entries st))|]; cbn; [exists [ELeave s']; split; [reflexivity|eauto]|exists (@nil event); rewrite app_nil_r; auto|exists (@nil event); rewrite app_nil_r; auto].
Qed.
Lemma tr_reconnect m st c : exists l, tr (fst (reconnect m st c)) = tr st ++ l /\ (l = [] \/ exists s, l = [EJoin s]).
Proof.
  unfold reconnect. destruct (nth_error (conns st) c) as [[|s'|]|] eqn:N; try solve [exists (@nil event); rewrite app_nil_r; auto].
  destruct (hub st); [destruct (can_add_unique m (entries st) s')|]; cbn; [exists [EJoin s']; split; [reflexivity|eauto]|exists (@nil event); rewrite app_nil_r; auto|exists (@nil event); rewrite app_nil_r; auto].
Qed.
Lemma tr_save m st t a s : tr (save m st t a s) = tr st ++ (if can_add m (entries st) then [EJoin s] else []) ++ [ERet t a (RCon (length (conns st)) s (can_add m (entries st)))].
Proof. unfold save. destruct (can_add m (entries st)); cbn; rewrite <- ?app_assoc; reflexivity. Qed.

Lemma plain_save (st : state) m t a s : a <> AMakePtr -> plain ((if can_add m (entries st) then [EJoin s] else []) ++ [ERet t a (RCon (length (conns st)) s (can_add m (entries st)))]).
Proof.
  intros NE x X. apply in_app_or in X as [X|[<-|[]]].
  - destruct (can_add m (entries st)); [destruct X as [<-|[]]; reflexivity|destruct X].
  - destruct a; try reflexivity. contradiction.
Qed.

Lemma flag_call m st t a : flag_step st (call m st t a).
Proof.
  unfold call. destruct a as [k| |s|s|s| | | |c|c|c|c|c|o| |v| | |]; try apply f_refl.
  - assert (S : forall st0 k0, kinds st0 = kinds st ++ [k0] -> k0 <> KPtr -> flags st0 = flags st -> tr st0 = tr st -> forall s, flag_step st (save m st0 t (AConnect k) s)).
    { intros st0 k0 E1 E2 E3 E4 s. destruct (kinds_save m st0 t (AConnect k) s) as (A & B & C & D).
      eapply (f_plain _ _ _ (plain_save st0 m t (AConnect k) s ltac:(discriminate))).
      - unfold flags in *. congruence.
      - exists [k0]. split; [congruence|]. intros k1 [<-|[]]. exact E2.
      - rewrite tr_save, E4. reflexivity. }
    destruct k as [| |o].
    + destruct (hub st); [|apply f_refl]. eapply S; try reflexivity. discriminate.
    + destruct (hub st); [|apply f_refl]. eapply S; try reflexivity. discriminate.
    + destruct (hub st && _); [|apply f_refl]. eapply S; try reflexivity. discriminate.
  - destruct (hub st && _); [|apply f_refl]. destruct (kinds_save m st t (AConnectPtr s) s) as (A & B & C & D).
    eapply (f_same _ _ _ (plain_save st m t (AConnectPtr s) s ltac:(discriminate))); [unfold flags; congruence|exact A|apply tr_save].
  - destruct (hub st && _); [|apply f_refl]. destruct (has s (entries st)).
    + apply (f_same _ _ [ELeave s; ERet t (ADisconnectPtr s) (RBool true)]); try reflexivity; [plains|]. cbn. rewrite <- app_assoc. reflexivity.
    + apply (f_same _ _ [ERet t (ADisconnectPtr s) (RBool false)]); try reflexivity. plains.
  - destruct (hub st); [|apply f_refl]. destruct m; [destruct (em st)|].
    + apply f_crash; reflexivity.
    + apply (f_same _ _ [EClear]); try reflexivity. plains.
    + apply (f_same _ _ [EClear]); try reflexivity. plains.
  - destruct (hub st); [|apply f_refl]. eapply f_same; cycle 1; try reflexivity. plains.
  - destruct (hub st); [|apply f_refl]. eapply f_same; cycle 1; try reflexivity. plains.
  - destruct (hidden st c); [apply f_refl|]. destruct (kinds_disconnect m st c) as (A1 & A2 & A3 & A4 & A5 & A6). destruct (tr_disconnect m st c) as (l & T & W).
    destruct (disconnect m st c) as [st' b]. cbn [fst] in *. apply (f_same _ _ (l ++ [ERet t (ADisconnect c) (RBool b)])).
    + intros x X. apply in_app_or in X as [X|[<-|[]]]; [|reflexivity]. destruct W as [->|[s ->]]; [destruct X|destruct X as [<-|[]]; reflexivity].
    + unfold flags. cbn. congruence.
    + exact A1.
    + cbn. rewrite T, <- app_assoc. reflexivity.
  - destruct (hidden st c); [apply f_refl|]. destruct (kinds_reconnect m st c) as (A1 & A2 & A3 & A4 & A5 & A6). destruct (tr_reconnect m st c) as (l & T & W).
    destruct (reconnect m st c) as [st' b]. cbn [fst] in *. apply (f_same _ _ (l ++ [ERet t (AReconnect c) (RBool b)])).
    + intros x X. apply in_app_or in X as [X|[<-|[]]]; [|reflexivity]. destruct W as [->|[s ->]]; [destruct X|destruct X as [<-|[]]; reflexivity].
    + unfold flags. cbn. congruence.
    + exact A1.
    + cbn. rewrite T, <- app_assoc. reflexivity.
  - destruct (hidden st c); [apply f_refl|]. eapply f_same; cycle 1; try reflexivity. plains.
  - destruct (internal st c || _); [apply f_refl|]. destruct (kinds_disconnect m st c) as (A1 & A2 & A3 & A4 & A5 & A6). destruct (tr_disconnect m st c) as (l & T & W).
    destruct (is_connected st c).
    + apply (f_same _ _ (l ++ [EDestroy c])).
      * intros x X. apply in_app_or in X as [X|[<-|[]]]; [|reflexivity]. destruct W as [->|[s ->]]; [destruct X|destruct X as [<-|[]]; reflexivity].
      * unfold flags. cbn. congruence.
      * exact A1.
      * cbn. rewrite T, <- app_assoc. reflexivity.
    + apply (f_same _ _ [EDestroy c]); try reflexivity. plains.
  - destruct (hub st); [|apply f_refl]. destruct (em st); [apply f_crash; reflexivity|]. apply f_end; reflexivity.
  - destruct (hub st); [|apply f_refl]. destruct (entries st); [|destruct (notif st); [apply f_crash; reflexivity|]].
    + eapply f_same; cycle 1; try reflexivity. plains.
    + eapply f_same; cycle 1; try reflexivity. plains.
Qed.

Lemma flag_go_on m st st0 e l : plain l -> flags st0 = flags st -> kinds st0 = kinds st -> tr st0 = tr st ++ l -> flag_step st (go_on m st0 e).
Proof.
  intros P F K T. destruct m.
  - apply (f_same _ _ l); auto.
  - apply (f_same _ _ (l ++ [EEnd (e_thread e) (e_no e)])); auto.
    + intros x X. apply in_app_or in X as [X|[<-|[]]]; [auto|reflexivity].
    + cbn. rewrite T, <- app_assoc. reflexivity.
Qed.

Lemma flag_act m st t a : J st -> flag_step st (act m st t a).
Proof.
  intros I. unfold act. destruct a as [k| |s|s|s| | | |c|c|c|c|c|o| |v| | |]; try (destruct (free st t); [apply flag_call|apply f_refl]).
  - eapply f_ptr; reflexivity.
  - apply (f_same _ _ []); try reflexivity; [plains|cbn; rewrite app_nil_r; reflexivity].
  - destruct (internal st c || _); [apply f_refl|]. apply (f_same _ _ [EDestroy c]); try reflexivity. plains.
  - eapply f_kill; reflexivity.
  - destruct (em st) as [e|] eqn:E; [|apply f_refl]. destruct (Nat.eqb (e_thread e) t); [|apply f_refl]. destruct (e_run e); [apply f_refl|].
    assert (HB : hub st = true) by (apply (j_hub _ I); congruence). unfold step.
    assert (NO : forall e' l, plain l -> flag_step st (emit (with_em st true e') l)) by (intros e' l P; apply (f_same _ _ l); auto).
    destruct (nth_error (entries st) (e_cur e)) as [[[k s]|]|] eqn:N.
    + destruct (nth_error (kinds st) s) as [[| | |o c]|] eqn:K; try (apply NO; plains). destruct (is_dead st o); [|apply NO; plains].
      pose proof (expire_eq m st s o c I K (has_nth _ _ _ _ N) HB) as Y. fold (expire m st c). cbv zeta. rewrite Y.
      destruct (owned _ s).
      * apply (flag_go_on m st _ e [ELeave s]); try reflexivity. plains.
      * apply (flag_go_on m st _ e [ELeave s; EFreed s]); try reflexivity; [plains|]. cbn. rewrite <- app_assoc. reflexivity.
    + apply (f_same _ _ []); try reflexivity; [plains|cbn; rewrite app_nil_r; reflexivity].
    + eapply f_same; cycle 1; try reflexivity. plains.
  - destruct (em st) as [e|] eqn:E; [|apply f_refl]. destruct (Nat.eqb (e_thread e) t); [|apply f_refl]. destruct (e_run e) as [[k s]|]; [|apply f_refl]. unfold slot_return.
    apply (flag_go_on m st _ e []); [plains| | |]; destruct (nth_error (kinds st) s) as [[| |c|o c]|]; try destruct (nth_error (conns st) c) as [[| |]|]; cbn; rewrite ?app_nil_r; reflexivity.
  - destruct (em st) as [e|] eqn:E; [|apply f_refl]. destruct (Nat.eqb (e_thread e) t); [|apply f_refl]. destruct (e_run e); [|apply f_refl].
    eapply f_same; cycle 1; try reflexivity. plains.
Qed.
