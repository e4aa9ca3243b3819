(** Theorems C37, C38, C95, C96 for the client (ClientBase.cpp, LocalIPCClient.cpp). *)
From Verif Require Import ListUtil CliModel CliSpec CliProofs CliProofs2 CliProofs3 CliProofs4.

(** ** C37: one requester per service; messages go to the requester of their service. *)
Theorem C37_same_requester : forall h sid o o', no_deinit (trace h) -> got (trace h) sid o -> got (trace h) sid o' -> o = o'.
Proof. exact same_requester. Qed.
Theorem C37_one_service_per_requester : forall h sid sid' o, got (trace h) sid o -> got (trace h) sid' o -> sid = sid'.
Proof. exact own_service. Qed.
Theorem C37_client_dispatch : forall h t sid code, In (ECall t (CIn (MOther sid code))) (trace h) -> returned (trace h) t ->
  (exists x o, sid = Some x /\ got (trace h) x o /\ dispatched (trace h) t = [(o, sid, code)]) \/
  (dispatched (trace h) t = [] /\ exists l1 l2, trace h = l1 ++ ERet t false :: l2 /\ (no_deinit l1 -> forall x o, sid = Some x -> ~ got l1 x o)).
Proof.
  intros h t sid code I R. apply (t_ret _ (invT h)) in R. destruct (invDisp h t QDone sid code R I) as [(o & x & A & B & C)|[A (l1 & l2 & E & B)]].
  - left. exists x, o. auto.
  - right. split; [exact A|]. exists l1, l2. split; [exact E|]. intros ND x o SI. apply (B ND x SI).
Qed.

(** ** C38: what the client answers and tells its requesters is what it was told. *)
Theorem C38_answers : forall h l1 t sid av l2, no_deinit (trace h) -> one_thread (trace h) -> trace h = l1 ++ EAns t sid av :: l2 -> quiet l1 -> av = knows l1 sid.
Proof. exact answer_right. Qed.
Theorem C38_requesters_are_told : forall h sid o, no_deinit (trace h) -> one_thread (trace h) -> quiet (trace h) -> got (trace h) sid o -> told (trace h) o = knows (trace h) sid.
Proof. exact told_right. Qed.

(** ** C95: the registration is sent by every look at the server that finds it present, until it was sent successfully, and then
    not again until the server was found absent. *)
Theorem C95_registers_until_sent : forall h l1 t l2, no_deinit (trace h) -> one_thread (trace h) -> trace h = l1 ++ ECall t (CPoll true) :: l2 -> returned (trace h) t ->
  present l1 <> Available -> exists r l3 l4, l2 = l3 ++ ERegister r :: ERet t true :: l4 /\ no_register l3.
Proof. intros h l1 t l2 ND ONE E R P. destruct (poll_registers _ _ _ _ ND ONE E R) as [[Q _]|[_ Q]]; [contradiction|exact Q]. Qed.
Theorem C95_registers_once : forall h l1 t l2, no_deinit (trace h) -> one_thread (trace h) -> trace h = l1 ++ ECall t (CPoll true) :: l2 -> returned (trace h) t ->
  present l1 = Available -> exists l3 l4, l2 = l3 ++ ERet t true :: l4 /\ no_register l3.
Proof. intros h l1 t l2 ND ONE E R P. destruct (poll_registers _ _ _ _ ND ONE E R) as [[_ Q]|[Q _]]; [exact Q|contradiction]. Qed.

(** Example: the server appears, the first registration fails, the second succeeds; services 5 and 6 come up, 5 goes down. *)
Definition go (t n : nat) : list label := repeat (LRun t Success true) n.
Definition day : list label :=
  LCall (CPoll true) :: go 0 1 ++ [LRun 0 ReceiverBusy true] ++ LCall (CGet 5) :: go 1 2 ++ LCall (CPoll true) :: go 2 4 ++
  LCall (CIn (MStatus 5 (Some Available))) :: go 3 1 ++ LCall (CGet 6) :: go 4 2 ++ go 3 4 ++ LCall (CIn (MStatus 6 (Some Available))) :: go 5 5 ++
  LCall (CIn (MStatus 5 (Some Unavailable))) :: go 6 5 ++ LCall (CAsk 6) :: go 7 2 ++ LCall (CIn (MOther (Some 5) OpRequest)) :: go 8 3 ++ LCall (CIn (MOther (Some 9) OpRequest)) :: go 9 3.

Fixpoint called_b (l : list event) (t : nat) : bool :=
  match l with [] => false | ERet t' _ :: l' => if Nat.eqb t t' then true else called_b l' t | _ :: l' => called_b l' t end.
Lemma called_b_ok l t : called_b l t = true -> returned l t.
Proof.
  induction l as [|e l IH]; [discriminate|]. cbn. intros H. destruct e; try (destruct (IH H) as [v' I]; exists v'; right; exact I).
  destruct (Nat.eqb_spec t t0) as [->|]; [exists v; left; reflexivity|destruct (IH H) as [v' I]; exists v'; right; exact I].
Qed.
Definition own_b (c : call) : bool := match c with CIn (MStatus _ _) | CPoll _ => true | _ => false end.
Lemma own_b_ok c : own_work c -> own_b c = true.
Proof. destruct c as [| | |[]| |]; cbn; intros []; reflexivity. Qed.
Definition quiet_b (l : list event) : bool := forallb (fun e => match e with ECall t c => negb (own_b c) || called_b l t | _ => true end) l.
Lemma quiet_ok l : quiet_b l = true -> quiet l.
Proof. intros H t c I O. unfold quiet_b in H. rewrite forallb_forall in H. specialize (H _ I). cbn in H. rewrite (own_b_ok _ O) in H. apply called_b_ok. exact H. Qed.
Fixpoint one_b (seen l : list event) : bool :=
  match l with [] => true | e :: l' => (match e with ECall t c => negb (own_b c) || quiet_b seen | _ => true end) && one_b (seen ++ [e]) l' end.
Lemma one_b_ok l : forall seen, one_b seen l = true -> forall l1 t c l2, l = l1 ++ ECall t c :: l2 -> own_work c -> quiet (seen ++ l1).
Proof.
  induction l as [|e l IH]; intros seen H l1 t c l2 E O; [destruct l1; discriminate|]. cbn in H. apply andb_true_iff in H as [H1 H2]. destruct l1 as [|e1 l1].
  - injection E as -> _. rewrite app_nil_r. rewrite (own_b_ok _ O) in H1. apply quiet_ok. exact H1.
  - injection E as <- E. specialize (IH _ H2 _ _ _ _ E O). rewrite <- app_assoc in IH. exact IH.
Qed.
Lemma one_ok l : one_b [] l = true -> one_thread l.
Proof. intros H l1 t c l2 E O. exact (one_b_ok l [] H l1 t c l2 E O). Qed.
Definition nodeinit_b (l : list event) : bool := forallb (fun e => match e with ECall _ CDeinit => false | _ => true end) l.
Lemma nodeinit_ok l : nodeinit_b l = true -> no_deinit l.
Proof. intros H t I. unfold nodeinit_b in H. rewrite forallb_forall in H. specialize (H _ I). discriminate H. Qed.
Definition neverlost_b (l : list event) : bool := forallb (fun e => match e with ECall _ (CPoll false) => false | _ => true end) l.
Lemma neverlost_ok l : neverlost_b l = true -> never_lost l.
Proof. intros H t I. unfold neverlost_b in H. rewrite forallb_forall in H. specialize (H _ I). discriminate H. Qed.

Ltac inlist := vm_compute; repeat first [left; reflexivity|right].

Example C37_client_applies : no_deinit (trace day) /\ got (trace day) 5 0 /\ got (trace day) 6 1 /\ dispatched (trace day) 8 = [(0, Some 5, OpRequest)] /\ dispatched (trace day) 9 = [] /\ returned (trace day) 9.
Proof.
  split; [apply nodeinit_ok; vm_compute; reflexivity|]. split; [exists 1; inlist|]. split; [exists 4; inlist|]. split; [vm_compute; reflexivity|]. split; [vm_compute; reflexivity|]. exists false. inlist.
Qed.
Example C38_client_applies : no_deinit (trace day) /\ one_thread (trace day) /\ quiet (trace day) /\ never_lost (trace day) /\ In (EAns 7 6 Available) (trace day) /\
  told (trace day) 0 = Unavailable /\ told (trace day) 1 = Available /\ knows (trace day) 5 = Unavailable /\ knows (trace day) 6 = Available.
Proof.
  split; [apply nodeinit_ok; vm_compute; reflexivity|]. split; [apply one_ok; vm_compute; reflexivity|]. split; [apply quiet_ok; vm_compute; reflexivity|].
  split; [apply neverlost_ok; vm_compute; reflexivity|]. split; [inlist|]. split; [vm_compute; reflexivity|]. split; [vm_compute; reflexivity|]. split; vm_compute; reflexivity.
Qed.
Example C95_applies : no_deinit (trace day) /\ one_thread (trace day) /\ exists l1 l2, trace day = l1 ++ ECall 2 (CPoll true) :: l2 /\ present l1 <> Available /\ returned (trace day) 2.
Proof.
  split; [apply nodeinit_ok; vm_compute; reflexivity|]. split; [apply one_ok; vm_compute; reflexivity|].
  exists (firstn 6 (trace day)), (skipn 7 (trace day)). split; [vm_compute; reflexivity|]. split; [vm_compute; discriminate|exists true; inlist].
Qed.

(** The server disappears: every requester is told, and the client says the services are not available. *)
Example C38_server_lost : let h := day ++ LCall (CPoll false) :: go 10 9 in
  no_deinit (trace h) /\ one_thread (trace h) /\ quiet (trace h) /\ knows (trace h) 6 = Unavailable /\ told (trace h) 1 = Unavailable /\ told (trace day) 1 = Available.
Proof.
  split; [apply nodeinit_ok; vm_compute; reflexivity|]. split; [apply one_ok; vm_compute; reflexivity|]. split; [apply quiet_ok; vm_compute; reflexivity|].
  split; [vm_compute; reflexivity|]. split; vm_compute; reflexivity.
Qed.

Print Assumptions C37_same_requester.
Print Assumptions C37_one_service_per_requester.
Print Assumptions C37_client_dispatch.
Print Assumptions C38_answers.
Print Assumptions C38_requesters_are_told.
Print Assumptions C95_registers_until_sent.
Print Assumptions C95_registers_once.
