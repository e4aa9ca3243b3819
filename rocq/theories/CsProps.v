(** Theorems C38, C94, C96: a server and a client together.  The server runs history [hs], the client [hc]; [a] is the client's address. *)
From Verif Require Import ListUtil CsTypes.
From Verif Require SrvModel SrvSpec SrvProofs5 SrvProps CliModel CliSpec CliProofs CliProofs3 CliProofs4 CliProps.

(** The status messages the server sent to the client are those that arrived there, in the same order. *)
Definition delivered (a : nat) (ls : list SrvModel.event) (lc : list CliModel.event) : Prop := CliSpec.arrived lc = SrvSpec.sent_to a ls.

(** ** C38: end to end: the client's answer about a service is what the last start/stop of it asked for. *)
Theorem C38_end_to_end : forall hs hc a sid o lc t av lc',
  SrvSpec.no_deinit (SrvModel.trace hs) -> SrvSpec.one_at_a_time (SrvModel.trace hs) o -> SrvSpec.reliable (SrvModel.trace hs) a ->
  SrvSpec.never_unregistered (SrvModel.trace hs) a -> SrvSpec.registered (SrvModel.trace hs) a -> SrvSpec.got (SrvModel.trace hs) sid o -> SrvSpec.idle (SrvModel.trace hs) o ->
  CliSpec.no_deinit (CliModel.trace hc) -> CliSpec.one_thread (CliModel.trace hc) -> CliModel.trace hc = lc ++ CliModel.EAns t sid av :: lc' ->
  CliSpec.quiet lc -> CliSpec.never_lost lc -> delivered a (SrvModel.trace hs) lc ->
  av = SrvSpec.wanted (SrvModel.trace hs) o.
Proof.
  intros hs hc a sid o lc t av lc' S1 S2 S3 S4 S5 S6 S7 C1 C2 C3 C4 C5 D.
  rewrite (CliProofs3.answer_right hc lc t sid av lc' C1 C2 C3 C4), (CliProofs4.never_lost_knows lc sid C5), D.
  exact (SrvProofs5.told_right a sid hs o S1 S2 S3 S4 S5 S6 S7).
Qed.
(** ... and so is what its requester was told last. *)
Theorem C38_end_to_end_requester : forall hs hc a sid o oc,
  SrvSpec.no_deinit (SrvModel.trace hs) -> SrvSpec.one_at_a_time (SrvModel.trace hs) o -> SrvSpec.reliable (SrvModel.trace hs) a ->
  SrvSpec.never_unregistered (SrvModel.trace hs) a -> SrvSpec.registered (SrvModel.trace hs) a -> SrvSpec.got (SrvModel.trace hs) sid o -> SrvSpec.idle (SrvModel.trace hs) o ->
  CliSpec.no_deinit (CliModel.trace hc) -> CliSpec.one_thread (CliModel.trace hc) -> CliSpec.quiet (CliModel.trace hc) -> CliSpec.never_lost (CliModel.trace hc) ->
  CliSpec.got (CliModel.trace hc) sid oc -> delivered a (SrvModel.trace hs) (CliModel.trace hc) ->
  CliSpec.told (CliModel.trace hc) oc = SrvSpec.wanted (SrvModel.trace hs) o.
Proof.
  intros hs hc a sid o oc S1 S2 S3 S4 S5 S6 S7 C1 C2 C3 C4 C5 D.
  rewrite (CliProofs3.told_right hc sid oc C1 C2 C3 C5), (CliProofs4.never_lost_knows _ sid C4), D.
  exact (SrvProofs5.told_right a sid hs o S1 S2 S3 S4 S5 S6 S7).
Qed.

Ltac inlist := vm_compute; repeat first [left; reflexivity|right].

(** The two example days fit together once the server's first message is there. *)
Definition day : list CliModel.label :=
  CliModel.LCall (CliModel.CPoll true) :: CliProps.go 0 4 ++ CliModel.LCall (CliModel.CGet 6) :: CliProps.go 1 2 ++
  CliModel.LCall (CliModel.CIn (CliModel.MStatus 5 (Some Available))) :: CliProps.go 2 4 ++
  CliModel.LCall (CliModel.CIn (CliModel.MStatus 6 (Some Available))) :: CliProps.go 3 4 ++
  CliModel.LCall (CliModel.CIn (CliModel.MStatus 5 (Some Unavailable))) :: CliProps.go 4 4.
Example C38_end_to_end_applies : delivered 7 (SrvModel.trace SrvProps.day) (CliModel.trace day) /\ CliSpec.got (CliModel.trace day) 6 0 /\
  CliSpec.told (CliModel.trace day) 0 = Available /\ SrvSpec.wanted (SrvModel.trace SrvProps.day) 1 = Available /\
  CliSpec.no_deinit (CliModel.trace day) /\ CliSpec.one_thread (CliModel.trace day) /\ CliSpec.quiet (CliModel.trace day) /\ CliSpec.never_lost (CliModel.trace day).
Proof.
  split; [vm_compute; reflexivity|]. split; [exists 1; inlist|]. split; [vm_compute; reflexivity|]. split; [vm_compute; reflexivity|].
  split; [apply CliProps.nodeinit_ok; vm_compute; reflexivity|]. split; [apply CliProps.one_ok; vm_compute; reflexivity|].
  split; [apply CliProps.quiet_ok; vm_compute; reflexivity|apply CliProps.neverlost_ok; vm_compute; reflexivity].
Qed.

(** ** C94: a client that deinitialises stays registered with the server. *)
(** The messages client [a] sends to take leave, as the server gets them. *)
Definition leave_msgs (a : nat) (lc : list CliModel.event) : list SrvModel.smsg :=
  flat_map (fun e => match e with CliModel.EUnregister sid _ => [SrvModel.SMsg (Some sid) UnregisterServiceStatus a] | _ => [] end) lc.

(** No such message makes the server forget the client. *)
Theorem C94_leaving_never_unregisters : forall hc a m, In m (leave_msgs a (CliModel.trace hc)) -> forall b, ~ SrvSpec.is_unregister m b.
Proof.
  intros hc a m I b (_ & N & _). unfold leave_msgs in I. apply in_flat_map in I as (e & _ & I). destruct e; try destruct I as [<-|[]]; try destruct I. discriminate.
Qed.
Definition hc94 : list CliModel.label := day ++ CliModel.LCall CliModel.CDeinit :: CliProps.go 5 9.
Definition hs94 : list SrvModel.label := SrvProps.day ++
  SrvModel.LCall (SrvModel.CIn (SrvModel.SMsg (Some 5) UnregisterServiceStatus 7)) :: SrvProps.go 8 5 ++
  SrvModel.LCall (SrvModel.CIn (SrvModel.SMsg (Some 6) UnregisterServiceStatus 7)) :: SrvProps.go 9 5.
Theorem C94_gone_client_still_notified_refuted : exists hc hs a hs',
  CliSpec.returned (CliModel.trace hc) 5 /\ In (CliModel.ECall 5 CliModel.CDeinit) (CliModel.trace hc) /\
  leave_msgs a (CliModel.trace hc) <> [] /\
  (forall m, In m (leave_msgs a (CliModel.trace hc)) -> exists t, In (SrvModel.ECall t (SrvModel.CIn m)) (SrvModel.trace hs) /\ SrvSpec.returned (SrvModel.trace hs) t) /\
  exists k, SrvModel.trace (hs ++ hs') = SrvModel.trace hs ++ k /\ exists sid av, In (SrvModel.ESend a sid av Success) k.
Proof.
  exists hc94, hs94, 7, (SrvModel.LCall (SrvModel.CStart 0) :: SrvProps.go 10 9). split; [exists true; inlist|]. split; [inlist|]. split; [vm_compute; discriminate|].
  split.
  - intros m I. assert (X : m = SrvModel.SMsg (Some 5) UnregisterServiceStatus 7 \/ m = SrvModel.SMsg (Some 6) UnregisterServiceStatus 7).
    { assert (Y : leave_msgs 7 (CliModel.trace hc94) = [SrvModel.SMsg (Some 5) UnregisterServiceStatus 7; SrvModel.SMsg (Some 6) UnregisterServiceStatus 7]) by (vm_compute; reflexivity).
      rewrite Y in I. destruct I as [<-|[<-|[]]]; auto. }
    destruct X as [-> | ->]; [exists 8|exists 9]; (split; [inlist|exists true; inlist]).
  - exists (skipn (length (SrvModel.trace hs94)) (SrvModel.trace (hs94 ++ SrvModel.LCall (SrvModel.CStart 0) :: SrvProps.go 10 9))). split; [vm_compute; reflexivity|].
    exists 5, Available. inlist.
Qed.

(** ** C96: a server that is replaced between two looks is not noticed: the client keeps the old server's view and never
    registers with the new one. *)
Definition hs_new : list SrvModel.label := SrvModel.LCall (SrvModel.CGet 5) :: SrvProps.go 0 2.
Definition hc96 : list CliModel.label := day ++ CliModel.LCall (CliModel.CPoll true) :: CliProps.go 5 4 ++ CliModel.LCall (CliModel.CPoll true) :: CliProps.go 6 4.
Definition noreg_b (l : list CliModel.event) : bool := forallb (fun e => match e with CliModel.ERegister _ => false | _ => true end) l.
Lemma noreg_ok l : noreg_b l = true -> CliSpec.no_register l.
Proof. intros H r I. unfold noreg_b in H. rewrite forallb_forall in H. specialize (H _ I). discriminate H. Qed.
Theorem C96_restarted_server_unnoticed_refuted : exists hs_old hs_new hc a sid,
  (* the old server told the client what it serves, and was then replaced by one that serves nothing and nobody registered with *)
  delivered a (SrvModel.trace hs_old) (CliModel.trace hc) /\ SrvSpec.sent_to a (SrvModel.trace hs_new) = [] /\ (forall o, SrvSpec.wanted (SrvModel.trace hs_new) o = Unavailable) /\
  (* the client looked at the server again, twice, found it there and finished *)
  (exists l1 l2, CliModel.trace hc = l1 ++ l2 /\ CliSpec.arrived l1 = CliSpec.arrived (CliModel.trace hc) /\ In (CliModel.ECall 5 (CliModel.CPoll true)) l2 /\ In (CliModel.ECall 6 (CliModel.CPoll true)) l2 /\ CliSpec.no_register l2) /\
  CliSpec.quiet (CliModel.trace hc) /\ CliSpec.knows (CliModel.trace hc) sid = Available.
Proof.
  exists SrvProps.day, hs_new, hc96, 7, 6. split; [vm_compute; reflexivity|]. split; [vm_compute; reflexivity|]. split; [intros o; vm_compute; reflexivity|].
  split; [|split; [apply CliProps.quiet_ok; vm_compute; reflexivity|vm_compute; reflexivity]].
  exists (CliModel.trace day), (skipn (length (CliModel.trace day)) (CliModel.trace hc96)). split; [vm_compute; reflexivity|]. split; [vm_compute; reflexivity|]. split; [inlist|]. split; [inlist|].
  apply noreg_ok. vm_compute. reflexivity.
Qed.

Print Assumptions C38_end_to_end.
Print Assumptions C38_end_to_end_requester.
Print Assumptions C94_leaving_never_unregisters.
Print Assumptions C94_gone_client_still_notified_refuted.
Print Assumptions C96_restarted_server_unnoticed_refuted.
