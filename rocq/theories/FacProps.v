(** C125, C126: csmgmt - who gets which requester or provider, what a shutdown does.
    Histories are arbitrary: any number of calls on any threads, interleaved in any way, with any of the inits failing. *)
From Verif Require Import ListUtil FacModel FacSpec FacProofs FacProofs2 FacProofs3 FacProofs4 FacProofs5 FacProofs6.

Lemma got_on h t r ty a sid k : got h t r ty a sid k ->
  exists o, In (EMade r k o sid) (trace h) /\ serves (trace h) r ty a o.
Proof.
  intros [Hc Hg]. destruct (c_got _ _ (i_calls _ _ (inv_final h)) _ _ Hg) as (r' & ty' & a' & sid' & o & Hn & Hm & Hs).
  apply pc_call in Hn. rewrite Hc in Hn. inversion Hn; subst. eauto.
Qed.
Lemma itc_zero h r a o : serves (trace h) r Itc a o -> o = 0.
Proof. intro H. exact (o_init _ _ (i_objs _ _ (inv_final h)) _ _ _ _ _ H). Qed.
Lemma local_pos h r a o : serves (trace h) r LocalIpc a o -> 1 <= o < nobjs (side (final h) r).
Proof. intro H. exact (o_init _ _ (i_objs _ _ (inv_final h)) _ _ _ _ _ H). Qed.
Lemma serves_fun h r ty a o o' : r = Client \/ never_shut r h -> serves (trace h) r ty a o -> serves (trace h) r ty a o' -> o = o'.
Proof.
  intros Hr H1 H2. assert (E : EInit r ty a o true = EInit r ty a o' true); [|inversion E; reflexivity].
  apply (cnt_unique (inits_ok r ty a) (trace h)); try assumption; cbn; rewrite ?role_eqb_refl, ?ctype_eqb_refl, ?Nat.eqb_refl; auto.
  apply (s_cnt _ _ (sub_final h)). destruct Hr; [auto|right; apply quiet_never; assumption].
Qed.

(** The same type, address and service give the same requester (provider), whoever asks, as long as nobody shuts down. *)
Theorem C125_same_for_everyone h t t' r ty a sid k k' : never_shut r h ->
  got h t r ty a sid k -> got h t' r ty a sid k' -> k = k'.
Proof.
  intros Hq G1 G2. destruct (got_on _ _ _ _ _ _ _ G1) as (o & M1 & S1). destruct (got_on _ _ _ _ _ _ _ G2) as (o' & M2 & S2).
  assert (o = o') by (eapply serves_fun; eauto). subst o'.
  assert (K := i_kids _ _ (inv_final h)). assert (Hd := s_down _ _ (sub_final h)). apply quiet_never in Hq.
  destruct (k_alive _ _ K _ _ _ _ M1) as [A1|A1]; [|apply (Hd _ _ Hq) in A1; congruence].
  destruct (k_alive _ _ K _ _ _ _ M2) as [A2|A2]; [|apply (Hd _ _ Hq) in A2; congruence].
  exact (k_key _ _ K _ _ _ _ _ A1 A2).
Qed.
Print Assumptions C125_same_for_everyone.

(** Inside the process there is one per service: the same one whatever the address, even across shutdowns. *)
Theorem C125_one_inside_the_process h t t' r a a' sid k k' : got h t r Itc a sid k -> got h t' r Itc a' sid k' -> k = k'.
Proof.
  intros G1 G2. destruct (got_on _ _ _ _ _ _ _ G1) as (o & M1 & S1). destruct (got_on _ _ _ _ _ _ _ G2) as (o' & M2 & S2).
  apply itc_zero in S1, S2. subst. assert (K := i_kids _ _ (inv_final h)).
  exact (k_key _ _ K _ _ _ _ _ (k_itc _ _ K _ _ _ M1) (k_itc _ _ K _ _ _ M2)).
Qed.
Print Assumptions C125_one_inside_the_process.

(** Different services, different types, or different addresses between processes: never the same one. *)
Theorem C125_different_otherwise h t t' r ty ty' a a' sid sid' k k' : got h t r ty a sid k -> got h t' r ty' a' sid' k' ->
  sid <> sid' \/ ty <> ty' \/ (ty = LocalIpc /\ a <> a') -> k <> k'.
Proof.
  intros G1 G2 D ->. destruct (got_on _ _ _ _ _ _ _ G1) as (o & M1 & S1). destruct (got_on _ _ _ _ _ _ _ G2) as (o' & M2 & S2).
  destruct (made_unique _ _ _ _ _ _ _ _ (i_kids _ _ (inv_final h)) M1 M2) as [-> ->].
  assert (Ob := i_objs _ _ (inv_final h)).
  assert (Et : ty = ty').
  { destruct ty, ty'; try reflexivity; try (apply itc_zero in S1); try (apply itc_zero in S2); try (apply local_pos in S1);
      try (apply local_pos in S2); try lia; try (exact (False_ind _ (o_init _ _ Ob _ _ _ _ _ S1)));
      exact (False_ind _ (o_init _ _ Ob _ _ _ _ _ S2)). }
  destruct D as [D|[D|[-> D]]]; [congruence|congruence|]. subst ty'. destruct (o_addr _ _ Ob _ _ _ _ _ _ S1 S2). congruence.
Qed.
Print Assumptions C125_different_otherwise.

(** A null pointer is returned only for an unknown connection type, or when the init that this very call did failed; *)
Theorem C125_null_only_when h l1 t l2 : trace h = l1 ++ EGot t None :: l2 ->
  exists r ty a sid, call_no h t = Some (CGet r ty a sid) /\
    (ty = OtherType \/ ty = LocalIpc /\ exists o l0, l1 = l0 ++ [EInit r LocalIpc a o false]).
Proof. apply null_why. Qed.
Print Assumptions C125_null_only_when.
(** for an unknown type nothing but a null pointer is. *)
Theorem C125_unknown_type_null h t r a sid k : ~ got h t r OtherType a sid k.
Proof.
  intro G. destruct (got_on _ _ _ _ _ _ _ G) as (o & _ & S1). exact (o_init _ _ (i_objs _ _ (inv_final h)) _ _ _ _ _ S1).
Qed.
Print Assumptions C125_unknown_type_null.

(** A requester that is returned belongs to a client that was initialised successfully for this type and address, and started;
    a client whose init failed is never started. *)
Theorem C125_got_is_connected h t r ty a sid k : got h t r ty a sid k ->
  exists o, In (EMade r k o sid) (trace h) /\ serves (trace h) r ty a o /\ In (EStart r o) (trace h).
Proof.
  intro G. destruct (got_on _ _ _ _ _ _ _ G) as (o & M & S1). exists o. split; [exact M|]. split; [exact S1|].
  exact (k_start _ _ (i_kids _ _ (inv_final h)) _ _ _ _ M).
Qed.
Print Assumptions C125_got_is_connected.
Theorem C125_failed_never_started h r a o : In (EInit r LocalIpc a o false) (trace h) -> ~ In (EStart r o) (trace h).
Proof.
  intros Hi Hs. assert (Ob := i_objs _ _ (inv_final h)). pose proof (o_init _ _ Ob _ _ _ _ _ Hi) as B. cbn in B.
  destruct (o_start _ _ Ob _ _ Hs) as (ty & a' & Hv). destruct ty.
  - apply itc_zero in Hv. lia.
  - destruct (o_addr _ _ Ob _ _ _ _ _ _ Hi Hv). discriminate.
  - exact (o_init _ _ Ob _ _ _ _ _ Hv).
Qed.
Print Assumptions C125_failed_never_started.

(** However many threads ask at once, there is one connection per type and address: one successful init, one start. *)
Theorem C125_connected_once h r ty a : r = Client \/ never_shut r h -> cnt (inits_ok r ty a) (trace h) <= 1.
Proof. intro H. apply (s_cnt _ _ (sub_final h)). destruct H; [auto|right; apply quiet_never; assumption]. Qed.
Print Assumptions C125_connected_once.
Theorem C125_started_once h r a o : serves (trace h) r LocalIpc a o -> cnt (starts r o) (trace h) <= 1.
Proof. intro H. apply local_pos in H. apply (o_once _ _ (i_objs _ _ (inv_final h))). lia. Qed.
Print Assumptions C125_started_once.

(** Nothing is stopped or taken down unless a shutdown is called; nothing is taken down twice. *)
Theorem C125_only_shutdown_closes h r o k : never_shut r h ->
  ~ In (EStop r o) (trace h) /\ ~ In (EDeinit r o) (trace h) /\ ~ In (EDown r k) (trace h).
Proof.
  intro H. apply quiet_never in H. assert (Hd := s_down _ _ (sub_final h) r).
  repeat split; intro Hin; apply (Hd _ H) in Hin; congruence.
Qed.
Print Assumptions C125_only_shutdown_closes.
Theorem C125_taken_down_once h r k : cnt (downs r k) (trace h) <= 1.
Proof. apply (k_down1 _ _ (i_kids _ _ (inv_final h))). Qed.
Print Assumptions C125_taken_down_once.

(** A shutdown that has returned stopped and deinitialised everything that was started before it was called, stopping each before
    deinitialising it, and took down the requesters and providers that were made before (between processes; a provider that was
    made on a server that was already closed is missed: C126). *)
Theorem C125_shutdown_complete h1 rs h2 r : let h := h1 ++ LCall (CShut rs) :: h2 in
  In (EShut (length (calls_made h1))) (trace h) -> In r rs ->
  (forall o, In (EStart r o) (trace h1) -> In (EStop r o) (trace h) /\ In (EDeinit r o) (trace h)) /\
  (forall k o sid, In (EMade r k o sid) (trace h1) -> (exists a, serves (trace h1) r LocalIpc a o) ->
     r = Client \/ ~ made_too_late (trace h1) r k o sid -> In (EDown r k) (trace h)).
Proof.
  cbv zeta. intros He Hr. destruct (shut_done h1 rs h2 r He Hr) as (A & _ & C). split; [exact A|].
  intros k o sid Hm [a Hs] Hl. apply (C k o sid). apply local_pos in Hs. split; [lia|auto].
Qed.
Print Assumptions C125_shutdown_complete.
Theorem C125_stop_before_deinit h r o l1 l2 : trace h = l1 ++ EDeinit r o :: l2 -> In (EStop r o) l1.
Proof. apply (z_after _ _ (close_final h)). Qed.
Print Assumptions C125_stop_before_deinit.

(** After shutdownAllServers has returned, a later getServiceProvider makes its provider on a new server. *)
Theorem C125_new_server_after_shutdown h1 rs h2 a sid h3 k :
  let h := h1 ++ LCall (CShut rs) :: h2 in let h' := h ++ LCall (CGet Server LocalIpc a sid) :: h3 in
  In (EShut (length (calls_made h1))) (trace h) -> In Server rs ->
  In (EGot (length (calls_made h)) (Some k)) (trace h') ->
  exists o, In (EMade Server k o sid) (trace h') /\ serves (trace h') Server LocalIpc a o /\ In (EStart Server o) (trace h') /\
            ~ In (EStart Server o) (trace h1).
Proof.
  cbv zeta. intros He Hr Hg. destruct (shut_done h1 rs h2 Server He Hr) as (_ & B & _).
  set (h := h1 ++ LCall (CShut rs) :: h2) in *.
  destruct (fresh_get h Server LocalIpc a sid h3) as [_ F]. destruct (F k Hg) as (o & Hm & Hl).
  set (h' := h ++ LCall (CGet Server LocalIpc a sid) :: h3) in *.
  assert (G : got h' (length (calls_made h)) Server LocalIpc a sid k).
  { split; [|exact Hg]. unfold call_no, h'. unfold calls_made at 1. rewrite flat_map_app. rewrite nth_error_app2 by (fold (calls_made h); lia).
    fold (calls_made h). rewrite Nat.sub_diag. reflexivity. }
  destruct (C125_got_is_connected _ _ _ _ _ _ _ G) as (o' & Hm' & Hs & Ht).
  destruct (made_unique _ _ _ _ _ _ _ _ (i_kids _ _ (inv_final h')) Hm Hm') as [<- _].
  exists o. split; [exact Hm|]. split; [exact Hs|]. split; [exact Ht|].
  intro Hold. apply Hl. apply local_pos in Hs. split.
  - split; [lia|]. destruct (trace_app h1 (LCall (CShut rs) :: h2)) as [ev E]. eapply start_lt; [apply (i_objs _ _ (inv_final h))|].
    unfold h. rewrite E. apply in_or_app. auto.
  - apply B; auto. lia.
Qed.
Print Assumptions C125_new_server_after_shutdown.

(** Every call returns at most once; and nothing ever deadlocks: from any point on, any call that was made can return. *)
Theorem C125_returns_once h t : cnt (returns t) (trace h) <= 1.
Proof. apply (c_once _ _ (i_calls _ _ (inv_final h))). Qed.
Print Assumptions C125_returns_once.
Theorem C125_never_deadlocks h t c : call_no h t = Some c ->
  exists h', (forall l, In l h' -> exists u ok, l = LStep u ok) /\ exists e, In e (trace (h ++ h')) /\ returns t e = true.
Proof.
  intro Hc. destruct (call_ends _ _ _ Hc) as (h' & A & Hn). exists h'. split; [exact A|].
  assert (C := i_calls _ _ (inv_final (h ++ h'))). destruct c as [r ty a sid|rs].
  - destruct (c_done _ _ C _ _ _ _ _ Hn) as [x Hx]. exists (EGot t x). split; [exact Hx|apply Nat.eqb_refl].
  - exists (EShut t). split; [exact (c_sdone _ _ C _ _ Hn)|apply Nat.eqb_refl].
Qed.
Print Assumptions C125_never_deadlocks.

(** *** What the shutdowns do not do *)
(** shutdownAllClients leaves the closed clients in the factory: a later getServiceRequester for an address that was in use gets a
    requester on the client that was stopped and deinitialised, which nobody initialises or starts again. *)
Theorem C126_closed_clients_are_handed_out_refuted h1 rs h2 a sid h3 o k :
  let h := h1 ++ LCall (CShut rs) :: h2 in let h' := h ++ LCall (CGet Client LocalIpc a sid) :: h3 in
  serves (trace h1) Client LocalIpc a o -> In (EStart Client o) (trace h1) ->
  In (EShut (length (calls_made h1))) (trace h) -> In Client rs ->
  In (EGot (length (calls_made h)) (Some k)) (trace h') ->
  In (EMade Client k o sid) (trace h') /\ In (EStop Client o) (trace h) /\ In (EDeinit Client o) (trace h) /\
  exists ev, trace h' = trace h ++ ev /\ ~ In (EStart Client o) ev /\ forall b, ~ In (EInit Client LocalIpc a b true) ev.
Proof.
  cbv zeta. intros Hs Hst He Hr Hg. destruct (C125_shutdown_complete h1 rs h2 Client He Hr) as [A _].
  destruct (A o Hst) as [A1 A2]. clear A.
  set (h := h1 ++ LCall (CShut rs) :: h2) in *. set (h' := h ++ LCall (CGet Client LocalIpc a sid) :: h3) in *.
  destruct (trace_app h1 (LCall (CShut rs) :: h2)) as [ev1 E1]. fold h in E1.
  destruct (trace_app h (LCall (CGet Client LocalIpc a sid) :: h3)) as [ev2 E2]. fold h' in E2.
  assert (G : got h' (length (calls_made h)) Client LocalIpc a sid k).
  { split; [|exact Hg]. unfold call_no, h'. unfold calls_made at 1. rewrite flat_map_app. rewrite nth_error_app2 by (fold (calls_made h); lia).
    fold (calls_made h). rewrite Nat.sub_diag. reflexivity. }
  destruct (got_on _ _ _ _ _ _ _ G) as (o' & Hm & Hs').
  assert (Hsh : serves (trace h) Client LocalIpc a o) by (unfold serves; rewrite E1; apply in_or_app; auto).
  assert (Hsh' : serves (trace h') Client LocalIpc a o) by (unfold serves; rewrite E2; apply in_or_app; auto).
  assert (o' = o) by (eapply serves_fun; eauto). subst o'.
  split; [exact Hm|]. split; [exact A1|]. split; [exact A2|]. exists ev2. split; [exact E2|]. split.
  - intro Hin. pose proof (C125_started_once _ _ _ _ Hsh') as Hc. rewrite E2, cnt_app in Hc.
    assert (1 <= cnt (starts Client o) ev2) by (eapply cnt_pos; [exact Hin|cbn; apply Nat.eqb_refl]).
    assert (1 <= cnt (starts Client o) (trace h)).
    { eapply cnt_pos; [rewrite E1; apply in_or_app; left; exact Hst|cbn; apply Nat.eqb_refl]. }
    lia.
  - intros b Hin. pose proof (C125_connected_once h' Client LocalIpc a (or_introl eq_refl)) as Hc. rewrite E2, cnt_app in Hc.
    assert (1 <= cnt (inits_ok Client LocalIpc a) ev2) by (eapply cnt_pos; [exact Hin|cbn; apply Nat.eqb_refl]).
    assert (1 <= cnt (inits_ok Client LocalIpc a) (trace h)) by (eapply cnt_pos; [exact Hsh|cbn; apply Nat.eqb_refl]).
    lia.
Qed.
Print Assumptions C126_closed_clients_are_handed_out_refuted.

(** No shutdown ever takes down a requester or provider inside the process. *)
Theorem C126_in_process_never_taken_down_refuted h t r a sid k : got h t r Itc a sid k -> ~ In (EDown r k) (trace h).
Proof.
  intros G Hd. destruct (got_on _ _ _ _ _ _ _ G) as (o & M & S1). apply itc_zero in S1. subst o.
  assert (K := i_kids _ _ (inv_final h)). destruct (k_down _ _ K _ _ Hd) as (o & sid' & Hpos & M').
  destruct (made_unique _ _ _ _ _ _ _ _ K M M'). lia.
Qed.
Print Assumptions C126_in_process_never_taken_down_refuted.

(** A getServiceProvider that overlaps with shutdownAllServers can return a provider on a server that is already closed, and no
    later shutdown takes that provider down. *)
Definition overlap : history :=
  [LCall (CGet Server LocalIpc 5 1); LStep 0 true;                       (* finds server 1 *)
   LCall (CShut [Server])] ++ repeat (LStep 1 true) 6 ++                 (* shutdownAllServers returns *)
  [LStep 0 true] ++                                                      (* the provider is made *)
  [LCall (CShut [Server; Client])] ++ repeat (LStep 2 true) 6.           (* shutdownAll returns *)
Theorem C126_provider_on_closed_server_refuted :
  exists h l1 l2 k o sid, trace h = l1 ++ EMade Server k o sid :: EGot 0 (Some k) :: l2 /\
    In (EDeinit Server o) l1 /\ In (EShut 2) l2 /\ call_no h 2 = Some (CShut [Server; Client]) /\ ~ In (EDown Server k) (trace h).
Proof.
  exists overlap, [EInit Server LocalIpc 5 1 true; EStart Server 1; EStop Server 1; EDeinit Server 1; EShut 1], [EShut 2], 0, 1, 1.
  assert (E : trace overlap = [EInit Server LocalIpc 5 1 true; EStart Server 1; EStop Server 1; EDeinit Server 1; EShut 1;
              EMade Server 0 1 1; EGot 0 (Some 0); EShut 2]) by (vm_compute; reflexivity).
  rewrite E. split; [reflexivity|]. split; [cbn; auto|]. split; [cbn; auto|]. split; [vm_compute; reflexivity|].
  cbn. intros [H|[H|[H|[H|[H|[H|[H|[H|[]]]]]]]]]; discriminate.
Qed.
Print Assumptions C126_provider_on_closed_server_refuted.

(** *** The hypotheses are met *)
(** Two threads ask for the same requester at the same time, a third for another service; then everything is shut down and the
    first asks again. *)
Definition busy : history :=
  [LCall (CGet Client LocalIpc 5 1); LCall (CGet Client LocalIpc 5 1); LCall (CGet Client LocalIpc 5 2);
   LStep 1 true; LStep 0 true; LStep 2 true; LStep 0 true; LStep 2 true; LStep 1 true].
Example C125_applies :
  trace busy = [EInit Client LocalIpc 5 1 true; EStart Client 1; EMade Client 0 1 1; EGot 0 (Some 0);
                EMade Client 1 1 2; EGot 2 (Some 1); EGot 1 (Some 0)] /\
  got busy 0 Client LocalIpc 5 1 0 /\ got busy 1 Client LocalIpc 5 1 0 /\ got busy 2 Client LocalIpc 5 2 1 /\
  never_shut Client busy /\
  (exists h2, let h := busy ++ LCall (CShut [Server; Client]) :: h2 in In (EShut (length (calls_made busy))) (trace h) /\
     let h' := h ++ [LCall (CGet Client LocalIpc 5 1); LStep 4 true; LStep 4 true] in
     In (EGot (length (calls_made h)) (Some 2)) (trace h')) /\
  trace [LCall (CGet Server LocalIpc 5 1); LStep 0 false; LCall (CGet Server Itc 5 1); LStep 1 true; LStep 1 true] =
    [EInit Server LocalIpc 5 1 false; EGot 0 None; EInit Server Itc 5 0 true; EStart Server 0; EMade Server 0 0 1; EGot 1 (Some 0)].
Proof.
  assert (E : trace busy = [EInit Client LocalIpc 5 1 true; EStart Client 1; EMade Client 0 1 1; EGot 0 (Some 0);
                EMade Client 1 1 2; EGot 2 (Some 1); EGot 1 (Some 0)]) by (vm_compute; reflexivity).
  split; [exact E|]. unfold got. rewrite E.
  split; [split; [reflexivity|cbn; auto 8]|]. split; [split; [reflexivity|cbn; auto 10]|]. split; [split; [reflexivity|cbn; auto 10]|].
  split.
  { intros rs Hin. unfold busy in Hin. cbn in Hin. repeat (destruct Hin as [Hin|Hin]; [discriminate|]). contradiction. }
  split.
  { exists (repeat (LStep 3 true) 8). cbv zeta. split.
    - assert (E2 : exists l, trace (busy ++ LCall (CShut [Server; Client]) :: repeat (LStep 3 true) 8) = l ++ [EShut 3]).
      { exists [EInit Client LocalIpc 5 1 true; EStart Client 1; EMade Client 0 1 1; EGot 0 (Some 0);
                EMade Client 1 1 2; EGot 2 (Some 1); EGot 1 (Some 0); EStop Client 1; EDown Client 0; EDown Client 1; EDeinit Client 1].
        vm_compute. reflexivity. }
      destruct E2 as [l E2]. rewrite E2. apply in_or_app. right. now left.
    - set (h' := _ ++ [LCall _; _; _]). assert (E3 : exists l, trace h' = l ++ [EMade Client 2 1 1; EGot 4 (Some 2)]).
      { exists [EInit Client LocalIpc 5 1 true; EStart Client 1; EMade Client 0 1 1; EGot 0 (Some 0);
                EMade Client 1 1 2; EGot 2 (Some 1); EGot 1 (Some 0); EStop Client 1; EDown Client 0; EDown Client 1; EDeinit Client 1; EShut 3].
        vm_compute. reflexivity. }
      destruct E3 as [l E3]. rewrite E3. apply in_or_app. right. right. now left. }
  vm_compute. reflexivity.
Qed.
Example C126_applies :
  exists h1 rs h2 h3 k, let h := h1 ++ LCall (CShut rs) :: h2 in let h' := h ++ LCall (CGet Client LocalIpc 5 1) :: h3 in
    serves (trace h1) Client LocalIpc 5 1 /\ In (EStart Client 1) (trace h1) /\
    In (EShut (length (calls_made h1))) (trace h) /\ In Client rs /\ In (EGot (length (calls_made h)) (Some k)) (trace h').
Proof.
  destruct C125_applies as (E & _ & _ & _ & _ & (h2 & A & B) & _). exists busy, [Server; Client], h2, [LStep 4 true; LStep 4 true], 2.
  cbv zeta. unfold serves. rewrite E. split; [cbn; auto|]. split; [cbn; auto|]. split; [exact A|]. split; [cbn; auto|]. exact B.
Qed.
(** After shutdownAllServers there is a new server. *)
Example C125_new_server_applies :
  exists h1 h2 h3, let h := h1 ++ LCall (CShut [Server]) :: h2 in let h' := h ++ LCall (CGet Server LocalIpc 5 1) :: h3 in
    In (EStart Server 1) (trace h1) /\ In (EShut (length (calls_made h1))) (trace h) /\
    In (EGot (length (calls_made h)) (Some 1)) (trace h') /\ In (EStart Server 2) (trace h').
Proof.
  exists [LCall (CGet Server LocalIpc 5 1); LStep 0 true; LStep 0 true], (repeat (LStep 1 true) 6), [LStep 2 true; LStep 2 true].
  vm_compute. auto 20.
Qed.
