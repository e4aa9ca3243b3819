(** Theorems C37, C38, C91-C93 for the server (ServerBase.cpp, LocalIPCServer.cpp). *)
From Verif Require Import ListUtil SrvModel SrvSpec SrvProofs SrvProofs2 SrvProofs3 SrvProofs4 SrvProofs5.

(** ** C37: one provider per service; messages go to the provider of their service. *)
Theorem C37_same_provider : forall h sid o o', no_deinit (trace h) -> got (trace h) sid o -> got (trace h) sid o' -> o = o'.
Proof. exact same_provider. Qed.
Theorem C37_one_service_per_provider : forall h sid sid' o, got (trace h) sid o -> got (trace h) sid' o -> sid = sid'.
Proof. exact own_service. Qed.

(** A message is handed exactly once, to the provider of its service; it is refused (the call returns false, nobody is handed
    anything) only when the service had no provider. *)
Theorem C37_server_dispatch : forall h t m, In (ECall t (CIn m)) (trace h) -> ordinary m -> returned (trace h) t ->
  (exists sid o, s_sid m = Some sid /\ got (trace h) sid o /\ dispatched (trace h) t = [(o, m)]) \/
  (dispatched (trace h) t = [] /\ exists l1 l2, trace h = l1 ++ ERet t false :: l2 /\ (no_deinit l1 -> forall sid o, s_sid m = Some sid -> ~ got l1 sid o)).
Proof.
  intros h t m I O [v R]. pose proof (invT h) as IT. destruct (t_ret _ IT _ _ R) as (th & N & D). pose proof (invDisp h t th m N I O) as X. unfold disp_ok in X. rewrite D in X.
  destruct X as [(o & sid & A & B & C)|[A (l1 & l2 & E & B)]].
  - left. exists sid, o. auto.
  - right. split; [exact A|]. exists l1, l2. split; [exact E|]. intros ND sid o SI. apply (B ND sid SI).
Qed.

(** ** C38: registered clients are told what is served. *)

(** A client registers at any time, services are started and stopped (each service by one call at a time, different services
    concurrently), every send is accepted: whenever no start/stop of the service is under way, the messages sent to the client
    say about it what the last start/stop asked for. *)
Theorem C38_clients_are_told : forall h a sid o, no_deinit (trace h) -> one_at_a_time (trace h) o -> reliable (trace h) a ->
  never_unregistered (trace h) a -> registered (trace h) a -> got (trace h) sid o -> idle (trace h) o ->
  says (sent_to a (trace h)) sid = wanted (trace h) o.
Proof. intros h a sid o. apply told_right. Qed.
Theorem C38_nothing_told_without_provider : forall h a sid, no_deinit (trace h) -> reliable (trace h) a -> never_unregistered (trace h) a ->
  registered (trace h) a -> (forall o, ~ got (trace h) sid o) -> says (sent_to a (trace h)) sid = Unavailable.
Proof. intros h a sid. apply told_none. Qed.

(** Examples. *)
Definition go (t n : nat) : list label := repeat (LRun t Success true) n.
Definition reg (a : nat) : call := CIn (SMsg None RegisterServiceStatus a).

(** Service 5 is started, client 7 registers, service 6 is started while 5 is stopped. *)
Definition day : list label :=
  LCall (CGet 5) :: go 0 2 ++ LCall (CStart 0) :: go 1 9 ++ LCall (reg 7) :: go 2 9 ++ LCall (CGet 6) :: go 3 2 ++
  LCall (CStart 1) :: LCall (CStop 0) :: go 5 1 ++ go 4 3 ++ go 5 2 ++ go 4 9 ++ go 5 9 ++
  LCall (CIn (SMsg (Some 5) OpRequest 7)) :: go 6 5 ++ LCall (CIn (SMsg (Some 9) OpRequest 7)) :: go 7 5.

Fixpoint called_b (l : list event) (t : nat) : bool :=
  match l with [] => false | ERet t' _ :: l' => if Nat.eqb t t' then true else called_b l' t | _ :: l' => called_b l' t end.
Lemma called_b_ok l t : called_b l t = true -> returned l t.
Proof.
  induction l as [|e l IH]; [discriminate|]. cbn. intros H. destruct e; try (destruct (IH H) as [v I]; exists v; right; exact I).
  destruct (Nat.eqb_spec t t0) as [->|]; [exists v; left; reflexivity|destruct (IH H) as [v' I]; exists v'; right; exact I].
Qed.
Definition all_back (l : list event) : bool := forallb (fun e => match e with ECall t _ => called_b l t | _ => true end) l.
Lemma all_back_ok l : all_back l = true -> forall t c, In (ECall t c) l -> returned l t.
Proof. intros H t c I. unfold all_back in H. rewrite forallb_forall in H. apply called_b_ok. exact (H _ I). Qed.
Definition calls (l : list event) : list (nat * call) := flat_map (fun e => match e with ECall t c => [(t, c)] | _ => [] end) l.
Lemma in_calls l t c : In (ECall t c) l -> In (t, c) (calls l).
Proof. intros I. apply in_flat_map. eexists. split; [exact I|left; reflexivity]. Qed.
Definition sends (l : list event) : list (nat * nat * availability * acs) := flat_map (fun e => match e with ESend a sid av r => [(a, sid, av, r)] | _ => [] end) l.
Lemma in_sends l a sid av r : In (ESend a sid av r) l -> In (a, sid, av, r) (sends l).
Proof. intros I. apply in_flat_map. eexists. split; [exact I|left; reflexivity]. Qed.

(** Checks the side conditions on a concrete trace. *)
Definition reliable_b (l : list event) (a : nat) : bool := forallb (fun x => match x with (a', _, _, r) => negb (Nat.eqb a a') || match r with Success => true | _ => false end end) (sends l).
Lemma reliable_ok l a : reliable_b l a = true -> reliable l a.
Proof.
  intros H sid av r I. unfold reliable_b in H. rewrite forallb_forall in H. specialize (H _ (in_sends _ _ _ _ _ I)). cbn in H. rewrite Nat.eqb_refl in H. destruct r; try discriminate H. reflexivity.
Qed.
Definition nodeinit_b (l : list event) : bool := forallb (fun x => match snd x with CDeinit => false | _ => true end) (calls l).
Lemma nodeinit_ok l : nodeinit_b l = true -> no_deinit l.
Proof. intros H t I. unfold nodeinit_b in H. rewrite forallb_forall in H. specialize (H _ (in_calls _ _ _ I)). discriminate H. Qed.
Definition unreg_b (l : list event) : bool := forallb (fun x => match snd x with CIn (SMsg None UnregisterServiceStatus _) => false | _ => true end) (calls l).
Lemma unreg_ok l a : unreg_b l = true -> never_unregistered l a.
Proof.
  intros H t m I (A & B & C). unfold unreg_b in H. rewrite forallb_forall in H. specialize (H _ (in_calls _ _ _ I)). destruct m as [i c s]. cbn in *. subst. discriminate H.
Qed.
Lemma registered_ok l a : all_back l = true -> (exists t, In (ECall t (reg a)) l) -> registered l a.
Proof. intros H [t I]. split; [exists t, (SMsg None RegisterServiceStatus a); split; [exact I|split; reflexivity]|]. intros t' m I' _. exact (all_back_ok _ H _ _ I'). Qed.
Lemma idle_ok l o : all_back l = true -> idle l o.
Proof. intros H t c I _. exact (all_back_ok _ H _ _ I). Qed.
Fixpoint one_b (seen l : list event) (o : nat) : bool :=
  match l with
  | [] => true
  | e :: l' => (match e with ECall t c => match c with CStart o' | CStop o' => if Nat.eqb o o' then forallb (fun e' => match e' with ECall t' (CStart o'') | ECall t' (CStop o'') => if Nat.eqb o o'' then called_b seen t' else true | _ => true end) seen else true | _ => true end | _ => true end)
               && one_b (seen ++ [e]) l' o
  end.
Lemma one_b_ok o l : forall seen, one_b seen l o = true -> forall l1 t c l2, l = l1 ++ ECall t c :: l2 -> serve_call c o -> idle (seen ++ l1) o.
Proof.
  induction l as [|e l IH]; intros seen H l1 t c l2 E SC; [destruct l1; discriminate|]. cbn in H. apply andb_true_iff in H as [H1 H2].
  destruct l1 as [|e1 l1].
  - injection E as -> _. rewrite app_nil_r. intros t' c' I SC'.
    assert (X : forallb (fun e' => match e' with ECall t' (CStart o'') | ECall t' (CStop o'') => if Nat.eqb o o'' then called_b seen t' else true | _ => true end) seen = true).
    { destruct SC as [-> | ->]; rewrite Nat.eqb_refl in H1; exact H1. }
    rewrite forallb_forall in X. specialize (X _ I). apply called_b_ok. destruct SC' as [-> | ->]; cbn in X; rewrite Nat.eqb_refl in X; exact X.
  - injection E as <- E. specialize (IH _ H2 _ _ _ _ E SC). rewrite <- app_assoc in IH. exact IH.
Qed.
Lemma one_ok l o : one_b [] l o = true -> one_at_a_time l o.
Proof. intros H l1 t c l2 E SC. exact (one_b_ok o l [] H l1 t c l2 E SC). Qed.

Ltac inlist := vm_compute; repeat first [left; reflexivity|right].

Example C37_applies : no_deinit (trace day) /\ got (trace day) 5 0 /\ got (trace day) 6 1 /\
  dispatched (trace day) 6 = [(0, SMsg (Some 5) OpRequest 7)] /\ dispatched (trace day) 7 = [] /\ returned (trace day) 7.
Proof.
  split; [apply nodeinit_ok; vm_compute; reflexivity|]. split; [exists 0; inlist|]. split; [exists 3; inlist|]. split; [vm_compute; reflexivity|].
  split; [vm_compute; reflexivity|exists false; inlist].
Qed.
Example C38_applies : no_deinit (trace day) /\ one_at_a_time (trace day) 0 /\ one_at_a_time (trace day) 1 /\ reliable (trace day) 7 /\ never_unregistered (trace day) 7 /\ registered (trace day) 7 /\
  idle (trace day) 0 /\ idle (trace day) 1 /\ says (sent_to 7 (trace day)) 5 = Unavailable /\ says (sent_to 7 (trace day)) 6 = Available.
Proof.
  split; [apply nodeinit_ok; vm_compute; reflexivity|]. split; [apply one_ok; vm_compute; reflexivity|]. split; [apply one_ok; vm_compute; reflexivity|].
  split; [apply reliable_ok; vm_compute; reflexivity|]. split; [apply unreg_ok; vm_compute; reflexivity|].
  split; [apply registered_ok; [vm_compute; reflexivity|exists 2; inlist]|]. split; [apply idle_ok; vm_compute; reflexivity|]. split; [apply idle_ok; vm_compute; reflexivity|].
  split; vm_compute; reflexivity.
Qed.

(** ** C91: server deinit: clients are not told that the services are gone. *)
Definition closing : list label := LCall (CGet 5) :: go 0 2 ++ LCall (CStart 0) :: go 1 9 ++ LCall (reg 7) :: go 2 9 ++ LCall CDeinit :: go 3 20.
Theorem C91_deinit_tells_nobody_refuted : exists h a sid o, all_back (trace h) = true /\ got (trace h) sid o /\ registered (trace h) a /\ never_unregistered (trace h) a /\
  reliable (trace h) a /\ In (EFree o) (trace h) /\ says (sent_to a (trace h)) sid = Available.
Proof.
  exists closing, 7, 5, 0. split; [vm_compute; reflexivity|]. split; [exists 0; inlist|]. split; [apply registered_ok; [vm_compute; reflexivity|exists 2; inlist]|].
  split; [apply unreg_ok; vm_compute; reflexivity|]. split; [apply reliable_ok; vm_compute; reflexivity|]. split; [inlist|vm_compute; reflexivity].
Qed.

(** ** C92: start and stop of one service at the same time: registered clients are left with different views. *)
Definition race : list label := LCall (CGet 5) :: go 0 2 ++ LCall (reg 7) :: go 1 9 ++ LCall (CStart 0) :: LCall (CStop 0) :: go 2 1 ++ go 3 9 ++ go 2 9 ++ LCall (reg 8) :: go 4 9.
Theorem C92_start_stop_race_refuted : exists h sid a b, no_deinit (trace h) /\ all_back (trace h) = true /\
  registered (trace h) a /\ reliable (trace h) a /\ never_unregistered (trace h) a /\ registered (trace h) b /\ reliable (trace h) b /\ never_unregistered (trace h) b /\
  says (sent_to a (trace h)) sid <> says (sent_to b (trace h)) sid.
Proof.
  exists race, 5, 7, 8. split; [apply nodeinit_ok; vm_compute; reflexivity|]. split; [vm_compute; reflexivity|].
  split; [apply registered_ok; [vm_compute; reflexivity|exists 1; inlist]|]. split; [apply reliable_ok; vm_compute; reflexivity|]. split; [apply unreg_ok; vm_compute; reflexivity|].
  split; [apply registered_ok; [vm_compute; reflexivity|exists 4; inlist]|]. split; [apply reliable_ok; vm_compute; reflexivity|]. split; [apply unreg_ok; vm_compute; reflexivity|].
  vm_compute. discriminate.
Qed.
(** The true version: any two registered clients agree about a service started and stopped by one call at a time. *)
Theorem C92_clients_agree_partial : forall h a b sid o, no_deinit (trace h) -> one_at_a_time (trace h) o -> got (trace h) sid o -> idle (trace h) o ->
  reliable (trace h) a -> never_unregistered (trace h) a -> registered (trace h) a ->
  reliable (trace h) b -> never_unregistered (trace h) b -> registered (trace h) b ->
  says (sent_to a (trace h)) sid = says (sent_to b (trace h)) sid.
Proof.
  intros h a b sid o ND ONE G ID RA UA GA RB UB GB. rewrite (told_right a sid h o), (told_right b sid h o) by assumption. reflexivity.
Qed.

(** ** C93: a status message that is refused by the transport is not repeated. *)
Definition taken (a : nat) (l : list event) : list (nat * availability) :=
  flat_map (fun e => match e with ESend a' sid av Success => if Nat.eqb a a' then [(sid, av)] else [] | _ => [] end) l.
Definition busy : list label := LCall (CGet 5) :: go 0 2 ++ LCall (reg 7) :: go 1 9 ++ LCall (CStart 0) :: go 2 3 ++ LRun 2 ReceiverBusy true :: go 2 9.
Theorem C93_refused_update_is_lost_refuted : exists h a sid o, no_deinit (trace h) /\ all_back (trace h) = true /\ one_at_a_time (trace h) o /\
  registered (trace h) a /\ never_unregistered (trace h) a /\ got (trace h) sid o /\ says (taken a (trace h)) sid <> wanted (trace h) o.
Proof.
  exists busy, 7, 5, 0. split; [apply nodeinit_ok; vm_compute; reflexivity|]. split; [vm_compute; reflexivity|]. split; [apply one_ok; vm_compute; reflexivity|].
  split; [apply registered_ok; [vm_compute; reflexivity|exists 1; inlist]|]. split; [apply unreg_ok; vm_compute; reflexivity|]. split; [exists 0; inlist|]. vm_compute. discriminate.
Qed.

Print Assumptions C37_same_provider.
Print Assumptions C37_one_service_per_provider.
Print Assumptions C37_server_dispatch.
Print Assumptions C38_clients_are_told.
Print Assumptions C38_nothing_told_without_provider.
Print Assumptions C91_deinit_tells_nobody_refuted.
Print Assumptions C92_start_stop_race_refuted.
Print Assumptions C92_clients_agree_partial.
Print Assumptions C93_refused_update_is_lost_refuted.
