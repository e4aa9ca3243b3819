(** Properties C49-C52 and C66-C68: signals, slots and connections.
    [trace m h] is what happens in history [h] of a signal with keeper [m]; [live] lists the connected slots with the numbers of their
    connections (see SigSpec). *)
From Verif Require Import SigModel SigSpec SigProofs SigProofs2 SigProofs3 SigProofs4 SigProofs5 SigProofs6 SigProofs7 SigProofs8 SigProofs9.

Ltac intr := vm_compute; repeat (first [left; reflexivity|right]).

(** ** C49: an emission calls exactly the connected slots, in order. *)
(** Whenever a slot is called it is connected, by the thread that emits, with the value emitted; the calls of an emission follow the order
    of connection (so that no connection is served twice); and whoever was connected before it and still is has already been called. *)
Theorem C49_only_connected_slots_in_order m h a t e k s v b : trace m h = a ++ ECall t e k s v :: b ->
  In (k, s) (live a) /\ In (EEmit t e v) a /\
  (forall t' k' s' v', In (ECall t' e k' s' v') a -> k' < k) /\
  (forall k' s', In (k', s') (live a) -> k' < k -> In (ECall t e k' s' v) a).
Proof.
  intros E. pose proof (c_good _ _ (CI_final m h) a _ b E) as (A & B & C & D). repeat split; auto. intros t' k' s' v' X. apply (C t' k' s' v' X).
Qed.
Print Assumptions C49_only_connected_slots_in_order.

(** When an emission returns, every slot then connected, even one connected during the emission, has been called. *)
Theorem C49_nobody_is_missed h a t e b : trace Multi h = a ++ EEnd t e :: b ->
  exists v, In (EEmit t e v) a /\ forall k s, In (k, s) (live a) -> In (ECall t e k s v) a.
Proof. intros E. exact (c_good _ _ (CI_final Multi h) a _ b E). Qed.
Print Assumptions C49_nobody_is_missed.

(** Between two slots an emission goes on until it calls the next slot or returns. *)
Theorem C49_emission_goes_on m h t e : between m h t e -> ~ In ECrash (trace m h) -> exists n k s v,
  let after := skipn (length (trace m h)) (trace m (h ++ steps t n)) in In (ECall t e k s v) after \/ In (EEnd t e) after.
Proof. intros B C. exact (emission_progress m h t e B C). Qed.
Print Assumptions C49_emission_goes_on.

(** Three slots; the first disconnects the second and connects a fourth while it runs. *)
Definition h49 : history := [(0, AConnect CPlain); (0, AConnect CPlain); (1, AConnect CPlain); (2, AEmit 7); (2, AStep); (2, ADisconnect 1);
  (2, AConnect CPlain); (2, AReturn); (2, AStep); (2, AStep); (2, AReturn); (2, AStep); (2, AReturn)].
Example C49_applies :
  filter (fun e => match e with ECall _ _ _ _ _ | EEnd _ _ => true | _ => false end) (trace Multi (h49 ++ [(2, AStep)])) =
    [ECall 2 0 0 0 7; ECall 2 0 2 2 7; ECall 2 0 3 3 7; EEnd 2 0] /\ between Multi h49 2 0.
Proof. split; [vm_compute; reflexivity|]. exists (Em 2 0 7 3 None). vm_compute. auto. Qed.

(** ** C50: connections can be cut and restored. *)
Theorem C50_connected_is_exact m h t c s : may_call m h t -> made_for m h c s -> ~ user_slot m h s -> in_use m h c -> signal_alive m h ->
  exists b, trace m (h ++ [(t, AConnected c)]) = trace m h ++ [ERet t (AConnected c) (RBool b)] /\ (b = true <-> In s (slots (live (trace m h)))).
Proof. exact (ans_connected m h t c s). Qed.
Print Assumptions C50_connected_is_exact.

(** disconnect() cuts a connected slot and answers true; on a slot that is not connected it does nothing and answers false. *)
Theorem C50_disconnect m h t c s : may_call m h t -> made_for m h c s -> ~ user_slot m h s -> in_use m h c -> signal_alive m h ->
  (In s (slots (live (trace m h))) -> trace m (h ++ [(t, ADisconnect c)]) = trace m h ++ [ELeave s; ERet t (ADisconnect c) (RBool true)]) /\
  (~ In s (slots (live (trace m h))) -> trace m (h ++ [(t, ADisconnect c)]) = trace m h ++ [ERet t (ADisconnect c) (RBool false)]).
Proof. exact (ans_disconnect m h t c s). Qed.
Print Assumptions C50_disconnect.

(** reconnect() restores a connection that was cut (in a single-slot signal: if the place is still free) and otherwise does nothing. *)
Theorem C50_reconnect m h t c s : may_call m h t -> made_for m h c s -> ~ user_slot m h s -> in_use m h c -> signal_alive m h ->
  (cut c (trace m h) = true -> (m = Multi \/ live (trace m h) = []) ->
     trace m (h ++ [(t, AReconnect c)]) = trace m h ++ [EJoin s; ERet t (AReconnect c) (RBool true)]) /\
  (cut c (trace m h) = false -> trace m (h ++ [(t, AReconnect c)]) = trace m h ++ [ERet t (AReconnect c) (RBool false)]) /\
  (cut c (trace m h) = true -> m = Single -> live (trace m h) <> [] -> exists f,
     trace m (h ++ [(t, AReconnect c)]) = trace m h ++ [ERet t (AReconnect c) (RBool false)] ++ f /\ (f = [] \/ exists e, f = [EFreed s] /\ running m h t e s)).
Proof. exact (ans_reconnect m h t c s). Qed.
Print Assumptions C50_reconnect.

(** The end of a scoped connection disconnects its slot. *)
Theorem C50_scoped_connection m h t c s : may_call m h t -> made_for m h c s -> ~ user_slot m h s -> in_use m h c -> signal_alive m h -> exists f,
  (In s (slots (live (trace m h))) -> trace m (h ++ [(t, AScopedEnd c)]) = trace m h ++ [ELeave s; EDestroy c] ++ f) /\
  (~ In s (slots (live (trace m h))) -> trace m (h ++ [(t, AScopedEnd c)]) = trace m h ++ [EDestroy c] ++ f) /\
  (f = [] \/ exists e s', f = [EFreed s'] /\ running m h t e s').
Proof. exact (ans_scoped m h t c s). Qed.
Print Assumptions C50_scoped_connection.

(** A slot bound to an object is never called once the object is gone, and no slot of a destroyed signal is called. *)
Theorem C50_dead_objects_are_not_called m h a t e k s v b o : trace m h = a ++ ECall t e k s v :: b -> tracks m h s o -> ~ In (EKilled o) a.
Proof. exact (dead_never_called m h a t e k s v b o). Qed.
Print Assumptions C50_dead_objects_are_not_called.
Theorem C50_destroyed_signal_calls_nobody m h a t e k s v b : trace m h = a ++ ECall t e k s v :: b -> ~ In ESignalEnd a.
Proof. intros E. exact (proj1 (call_split m h a t e k s v b E)). Qed.
Print Assumptions C50_destroyed_signal_calls_nobody.

(** A slot that cuts itself, is restored, and one bound to an object that dies between two emissions. *)
Definition h50 : history := [(0, AConnect CPlain); (0, AConnect (CTracked 5)); (0, AEmit 1); (0, AStep); (0, ADisconnect 0); (0, AReturn); (0, AStep); (0, AReturn); (0, AStep);
  (1, AKill 5); (1, AEmit 2); (1, AStep); (1, AStep); (1, AStep)].
Ltac decide_in := vm_compute; intros X; repeat (destruct X as [X|X]; [discriminate X|]); exact X.
Example C50_applies : may_call Multi h50 1 /\ made_for Multi h50 0 0 /\ made_for Multi h50 2 1 /\ tracks Multi h50 1 5 /\ ~ user_slot Multi h50 0 /\ in_use Multi h50 0 /\ signal_alive Multi h50 /\
  cut 0 (trace Multi h50) = true /\ live (trace Multi h50) = [] /\
  filter (fun e => match e with ECall _ _ _ _ _ => true | _ => false end) (trace Multi h50) = [ECall 0 0 0 0 1; ECall 0 0 1 1 1] /\
  live (trace Multi (h50 ++ [(1, AReconnect 0)])) = [(2, 0)].
Proof.
  split; [split; [vm_compute; reflexivity|decide_in]|]. split; [exists 0, (AConnect CPlain); intr|]. split; [exists 0, (AConnect (CTracked 5)); intr|]. split; [exists 0, 2; intr|].
  split; [intros [t X]; revert X; decide_in|]. split; [decide_in|]. split; [decide_in|]. repeat split; vm_compute; reflexivity.
Qed.

(** ** C51: re-entrancy and exceptions. *)
(** As long as no slot throws and none clears, destroys or emits the signal that is calling it, nothing undefined happens. *)
Theorem C51_safe_partial m h : well_behaved m h -> ~ In ECrash (trace m h).
Proof. exact (no_crash m h). Qed.
Print Assumptions C51_safe_partial.

(** Clearing a signal from one of its slots destroys the list the emission is walking over. *)
Theorem C51_clear_inside_a_slot_refuted : exists h, In ECrash (trace Multi h) /\ always h (fun h1 t a => match a with AClear => inside Multi h1 t | AThrow | ASignalEnd => False | AEmit _ => ~ inside Multi h1 t | _ => True end).
Proof.
  exists [(0, AConnect CPlain); (0, AEmit 1); (0, AStep); (0, AClear)]. split; [intr|]. intros h1 t a h2 E.
  destruct h1 as [|x0 [|x1 [|x2 [|x3 [|x4 h1]]]]]; inversion E; subst; auto; [intros (x & X & _); discriminate|exists (Em 0 0 1 0 (Some (0, 0))); split; reflexivity].
Qed.
Print Assumptions C51_clear_inside_a_slot_refuted.

(** After a slot threw, the next emission fails although nobody is emitting. *)
Theorem C51_throwing_slot_refuted : exists h v, em (final Multi h) = None /\ live (trace Multi h) <> [] /\ ~ In ECrash (trace Multi h) /\ In ECrash (trace Multi (h ++ [(1, AEmit v)])).
Proof.
  exists [(0, AConnect CPlain); (0, AEmit 1); (0, AStep); (0, AThrow)], 2. split; [reflexivity|]. split; [discriminate|]. split; [decide_in|intr].
Qed.
Print Assumptions C51_throwing_slot_refuted.

Example C51_applies : well_behaved Multi h49.
Proof.
  intros h1 t a h2 E. unfold h49 in E.
  repeat match type of E with _ = ?h ++ _ => destruct h as [|? h]; [injection E as <- <- <-; auto; intros (x & X & _); discriminate|injection E as <- E] end.
  destruct h1; discriminate.
Qed.

(** ** C52: a single-slot signal keeps its first slot. *)
Theorem C52_at_most_one_slot h : length (live (trace Single h)) <= 1.
Proof. rewrite live_entries. pose proof (one_entry Single h eq_refl). pose proof (somes_le (entries (final Single h))). lia. Qed.
Print Assumptions C52_at_most_one_slot.

Theorem C52_first_slot_is_kept h t k : may_call Single h t -> signal_alive Single h -> (forall o, k = CTracked o -> ~ In (EKilled o) (trace Single h)) ->
  exists c s, (live (trace Single h) = [] -> trace Single (h ++ [(t, AConnect k)]) = trace Single h ++ [EJoin s; ERet t (AConnect k) (RCon c s true)]) /\
    (live (trace Single h) <> [] -> trace Single (h ++ [(t, AConnect k)]) = trace Single h ++ [ERet t (AConnect k) (RCon c s false)]).
Proof.
  intros MC A D. rewrite trace_snoc by exact MC. destruct MC as [FR _]. pose proof (alive_hub Single h A) as HB.
  assert (CA : can_add Single (entries (final Single h)) = true <-> live (trace Single h) = []).
  { rewrite live_entries. pose proof (c_one _ _ (CI_final Single h) eq_refl) as [_ C]. destruct (entries (final Single h)) as [|[p|] l]; cbn; split; try reflexivity; try discriminate.
    intros _. exfalso. apply (C None); [left; reflexivity|reflexivity]. }
  assert (W : forall st0 s, tr st0 = trace Single h -> entries st0 = entries (final Single h) -> (forall x, owned (final Single h) x = true -> owned st0 x = true) ->
    exists c s', (live (trace Single h) = [] -> tr (watch (final Single h) (save Single st0 t (AConnect k) s)) = trace Single h ++ [EJoin s'; ERet t (AConnect k) (RCon c s' true)]) /\
    (live (trace Single h) <> [] -> tr (watch (final Single h) (save Single st0 t (AConnect k) s)) = trace Single h ++ [ERet t (AConnect k) (RCon c s' false)])).
  { intros st0 s T E O. exists (length (conns st0)), s. rewrite watch_owned by (intros x X; apply owned_save; apply O; exact X). rewrite tr_save, T, E.
    destruct (can_add Single (entries (final Single h))) eqn:CC; split; intros X; try reflexivity.
    - exfalso. apply X. apply CA. reflexivity.
    - apply CA in X. discriminate. }
  assert (OW : forall st0, entries st0 = entries (final Single h) -> held st0 = held (final Single h) -> (conns st0 = conns (final Single h) \/ exists x, conns st0 = conns (final Single h) ++ [x]) ->
    forall x, owned (final Single h) x = true -> owned st0 x = true).
  { intros st0 E1 E2 E3 x O. unfold owned in *. rewrite E1, E2. destruct E3 as [->|[y ->]]; [exact O|]. rewrite existsb_app. apply orb_true_iff in O as [O|O]; rewrite O; [|rewrite orb_true_r]; reflexivity. }
  unfold act, call. rewrite FR, HB. destruct k as [| |o].
  - apply W; try reflexivity. apply OW; [reflexivity|reflexivity|left; reflexivity].
  - apply W; try reflexivity. apply OW; [reflexivity|reflexivity|right; eexists; reflexivity].
  - assert (DD : is_dead (final Single h) o = false).
    { unfold is_dead. destruct (existsb (Nat.eqb o) (dead (final Single h))) eqn:X; [|reflexivity]. exfalso. apply existsb_exists in X as (y & X & Q). apply Nat.eqb_eq in Q. subst y.
      apply (D o eq_refl). apply (f_dead _ (F_final Single h)). exact X. }
    rewrite DD. apply W; try reflexivity. apply OW; [reflexivity|reflexivity|right; eexists; reflexivity].
Qed.
Print Assumptions C52_first_slot_is_kept.

(** An emission of a single-slot signal calls at most one slot. *)
Theorem C52_one_call_per_emission h a t e k s v b t' k' s' v' : trace Single h = a ++ ECall t e k s v :: b -> ~ In (ECall t' e k' s' v') a.
Proof. intros E X. pose proof (c_good _ _ (CI_final Single h) a _ b E) as (_ & _ & C & _). destruct (C _ _ _ _ X) as [_ Y]. discriminate. Qed.
Print Assumptions C52_one_call_per_emission.

(** An emission that returns called the slot, or there was none (any more). *)
Theorem C52_the_slot_is_called h a t e b : trace Single h = a ++ EEnd t e :: b -> exists v, In (EEmit t e v) a /\ (live a = [] \/ exists k s, In (ECall t e k s v) a).
Proof. intros E. exact (c_good _ _ (CI_final Single h) a _ b E). Qed.
Print Assumptions C52_the_slot_is_called.

Definition h52 : history := [(0, AConnect CPlain); (0, AConnect CPlain); (0, ADisconnect 0); (0, AConnect CAware); (0, AEmit 4); (0, AStep)].
Example C52_applies : trace Single h52 = [EJoin 0; ERet 0 (AConnect CPlain) (RCon 0 0 true); ERet 0 (AConnect CPlain) (RCon 1 1 false); ELeave 0; ERet 0 (ADisconnect 0) (RBool true);
  EJoin 2; ERet 0 (AConnect CAware) (RCon 3 2 true); EEmit 0 0 4; ECall 0 0 1 2 4] /\ may_call Single h52 0 /\ signal_alive Single h52 /\
  trace Single (h52 ++ [(0, AReturn)]) = trace Single h52 ++ [EEnd 0 0].
Proof. split; [vm_compute; reflexivity|]. split; [split; [vm_compute; reflexivity|decide_in]|]. split; [decide_in|vm_compute; reflexivity]. Qed.

(** ** C67: every single-slot signal type holds at most one slot. *)
Theorem C67_except_the_shared_mutex_one_partial ty h : ty = TSCSignal -> length (live (trace (keeper_of ty) h)) <= 1.
Proof. intros ->. exact (C52_at_most_one_slot h). Qed.
Print Assumptions C67_except_the_shared_mutex_one_partial.
Theorem C67_refuted : exists h, length (live (trace (keeper_of TSharedMutexSCSignal) h)) = 2.
Proof. exists [(0, AConnect CPlain); (0, AConnect CPlain)]. vm_compute. reflexivity. Qed.
Print Assumptions C67_refuted.
Example C67_applies : length (live (trace (keeper_of TSCSignal) [(0, AConnect CPlain); (0, AConnect CPlain)])) = 1.
Proof. vm_compute. reflexivity. Qed.

(** ** C66: connectionCount() and connected() of the signal. *)
(** The count is never too small; it is exact in a single-slot signal, and as long as nothing is disconnected during an emission. *)
Theorem C66_count_partial m h t : may_call m h t -> signal_alive m h -> exists n,
  trace m (h ++ [(t, ACount)]) = trace m h ++ [ERet t ACount (RNum n)] /\ length (live (trace m h)) <= n /\ (m = Single \/ no_cut_inside m h -> n = length (live (trace m h))).
Proof.
  intros MC A. exists (length (entries (final m h))). split; [apply ans_count; assumption|]. rewrite live_entries. split; [apply somes_le|].
  intros W. symmetry. apply somes_eq. destruct W as [->|W]; [apply (c_one _ _ (CI_final Single h) eq_refl)|apply full_final; exact W].
Qed.
Print Assumptions C66_count_partial.
Theorem C66_connected_partial m h t : may_call m h t -> signal_alive m h -> exists b,
  trace m (h ++ [(t, AHasAny)]) = trace m h ++ [ERet t AHasAny (RBool b)] /\ (live (trace m h) <> [] -> b = true) /\ (m = Single \/ no_cut_inside m h -> live (trace m h) = [] -> b = false).
Proof.
  intros MC A. eexists. split; [apply ans_any; assumption|]. rewrite live_entries. split.
  - intros W. destruct (entries (final m h)); [contradiction|reflexivity].
  - intros W L. assert (E : length (somes (entries (final m h))) = length (entries (final m h))).
    { apply somes_eq. destruct W as [->|W]; [apply (c_one _ _ (CI_final Single h) eq_refl)|apply full_final; exact W]. }
    rewrite L in E. destruct (entries (final m h)); [reflexivity|discriminate].
Qed.
Print Assumptions C66_connected_partial.

(** A slot that disconnects itself is still counted when the emission is over. *)
Theorem C66_refuted : exists h, em (final Multi h) = None /\ live (trace Multi h) = [] /\ signal_alive Multi h /\
  trace Multi (h ++ [(0, ACount)]) = trace Multi h ++ [ERet 0 ACount (RNum 1)] /\ trace Multi (h ++ [(0, AHasAny)]) = trace Multi h ++ [ERet 0 AHasAny (RBool true)].
Proof.
  exists [(0, AConnect CPlain); (0, AEmit 1); (0, AStep); (0, ADisconnect 0); (0, AReturn); (0, AStep)]. split; [reflexivity|]. split; [reflexivity|]. split; [decide_in|]. split; vm_compute; reflexivity.
Qed.
Print Assumptions C66_refuted.
Example C66_applies : may_call Multi [(0, AConnect CPlain); (0, AConnect CAware)] 3 /\ no_cut_inside Multi [(0, AConnect CPlain); (0, AConnect CAware)] /\
  trace Multi ([(0, AConnect CPlain); (0, AConnect CAware)] ++ [(3, ACount)]) = trace Multi [(0, AConnect CPlain); (0, AConnect CAware)] ++ [ERet 3 ACount (RNum 2)].
Proof.
  split; [split; [reflexivity|decide_in]|]. split; [|vm_compute; reflexivity]. intros h1 t a h2 E. destruct h1 as [|x [|y h1]]; inversion E; subst; auto. destruct h1; discriminate.
Qed.

(** ** C68: a slot is not destroyed while it runs. *)
(** With plain slots and SlotPtr whose connections and pointers are kept, it never is, whatever the slots do. *)
Theorem C68_kept_connections_partial h s : kept h -> ~ In (EFreed s) (trace Multi h).
Proof. exact (never_freed h s). Qed.
Print Assumptions C68_kept_connections_partial.

(** The closure of a slot bound to a dead object destroys itself while it runs, and so does a slot that is told its connection and cuts it. *)
Theorem C68_dead_object_refuted : exists h s o, tracks Multi h s o /\ In (EFreed s) (trace Multi h) /\ well_behaved Multi h.
Proof.
  exists [(0, AConnect (CTracked 5)); (0, AKill 5); (0, AEmit 1); (0, AStep)], 0, 5. split; [exists 0, 1; intr|]. split; [intr|].
  intros h1 t a h2 E. destruct h1 as [|x0 [|x1 [|x2 [|x3 h1]]]]; inversion E; subst; auto; [intros (x & X & _); discriminate|destruct h1; discriminate].
Qed.
Print Assumptions C68_dead_object_refuted.
Theorem C68_self_cutting_slot_refuted : exists h s, In (EFreed s) (trace Multi h) /\ always h (fun _ _ a => match a with ADisconnect 0 => True | AConnect CAware | AEmit _ | AStep | AReturn => True | _ => False end).
Proof.
  exists [(0, AConnect CAware); (0, AEmit 1); (0, AStep); (0, ADisconnect 0); (0, AReturn)], 0. split; [intr|].
  intros h1 t a h2 E. destruct h1 as [|x0 [|x1 [|x2 [|x3 [|x4 h1]]]]]; inversion E; subst; auto. destruct h1; discriminate.
Qed.
Print Assumptions C68_self_cutting_slot_refuted.
Example C68_applies : kept h49.
Proof.
  intros h1 t a h2 E. unfold h49 in E.
  repeat match type of E with _ = ?h ++ _ => destruct h as [|? h]; [injection E as <- <- <-; exact Logic.I|injection E as <- E] end.
  destruct h1; discriminate.
Qed.
