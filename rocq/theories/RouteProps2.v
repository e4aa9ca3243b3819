(** Theorem C110: what each routing call does, and who causes what. *)
From Verif Require Import ListUtil Amap RouteModel RouteSpec RouteSpec2 RouteProofs RouteProofs2 RouteProofs10 RouteProps.

(** sendToAll() posts the message once to every joined processor that takes it, except the calling one, and to nobody else. *)
Theorem C110_send_to_all : forall h l1 l2 a self m r, trace h = l1 ++ ERet a r :: l2 -> called (trace h) a (KSendAll self m) ->
  r = RUnit /\ exists l0 l3 os, served l1 a self m l0 l3 os.
Proof. intros h l1 l2 a self m r. apply send_all_result. Qed.

(** postToAll() posts nothing besides what C44_post_to_all says. *)
Theorem C110_post_to_all_once : forall h l1 l2 a m r, trace h = l1 ++ ERet a r :: l2 -> called (trace h) a (KPostAll m) ->
  exists l0 os, l1 = l0 ++ map (fun o => EPost a o m) os /\ audience l0 m os /\ In (ECall a (KPostAll m)) l0 /\ r = RBool (negb (Nat.eqb (length os) 0)) /\ forall x m', ~ In (EPost a x m') l0.
Proof. intros h l1 l2 a m r. apply post_all_once. Qed.

(** When stop() returns, the processor was stopped at a moment of the call. *)
Theorem C110_stop_closes : forall h l1 l2 a o r, trace h = l1 ++ ERet a r :: l2 -> called (trace h) a (KStop o) -> was_closed l1 a o.
Proof. intros h l1 l2 a o r. apply stop_result. Qed.

(** reuse(), connect() and disconnect() have taken effect when they return. *)
Theorem C110_reuse_opens : forall h l1 l2 a o r, trace h = l1 ++ ERet a r :: l2 -> called (trace h) a (KReuse o) -> is_open l1 o = true.
Proof. intros h l1 l2 a o r E C. destruct (reuse_result _ _ _ _ _ _ E C) as (l0 & -> & _). rewrite open_snoc, Nat.eqb_refl. reflexivity. Qed.
Theorem C110_connect_listens : forall h l1 l2 a o ty r, trace h = l1 ++ ERet a r :: l2 -> called (trace h) a (KConnect o ty) -> listens l1 o ty = true.
Proof. intros h l1 l2 a o ty r E C. destruct (connect_result _ _ _ _ _ _ _ E C) as (l0 & -> & _). unfold listens. rewrite rev_unit. cbn. rewrite !Nat.eqb_refl. reflexivity. Qed.
Theorem C110_disconnect_silences : forall h l1 l2 a o ty r, trace h = l1 ++ ERet a r :: l2 -> called (trace h) a (KDisconnect o ty) -> listens l1 o ty = false.
Proof. intros h l1 l2 a o ty r E C. destruct (disconnect_result _ _ _ _ _ _ _ E C) as (l0 & -> & _). unfold listens. rewrite rev_unit. cbn. rewrite !Nat.eqb_refl. reflexivity. Qed.

(** A processor is stopped, reopened, connected or disconnected only by a call of that function on it that is being executed. *)
Theorem C110_causes : forall h l1 e l2, trace h = l1 ++ e :: l2 -> match e with EConnect _ _ | EDisconnect _ _ | EOpen _ | EClose _ => True | _ => False end ->
  exists a c, cause e c /\ called l1 a c /\ running l1 a.
Proof. intros h l1 e l2. apply caused. Qed.

(** Every message that reaches a processor is the argument of the call that posted it, or a status message of a create() or stop(). *)
Theorem C110_who_posts : forall h a o m, In (EPost a o m) (trace h) -> exists c, called (trace h) a c /\ may_post c m.
Proof. intros h a o m. apply posted. Qed.

(** Processors 0, 1 and 2 (ids 5, 6, 7) listen to type 3; processor 1 calls sendToAll() and handles the message itself; then 1 is
    disconnected, 2 stopped and reopened. *)
Definition sending : history :=
  [LCall (KCreate 5); LRun 0 0; LRun 0 0; LCall (KCreate 6); LRun 1 0; LRun 1 0; LCall (KCreate 7); LRun 2 0; LRun 2 0;
   LCall (KConnect 0 3); LRun 3 0; LCall (KConnect 1 3); LRun 4 0; LCall (KConnect 2 3); LRun 5 0;
   LCall (KSendAll (Some 1) (MUser 2 9)); LRun 6 0; LRun 6 0; LCall (KDisconnect 1 3); LRun 7 0;
   LCall (KStop 2); LRun 8 0; LRun 8 0; LRun 8 0; LRun 8 0; LCall (KReuse 2); LRun 9 0; LCall (KSendAll None (MUser 2 8)); LRun 10 0].
Example C110_applies : trace sending =
  [ECall 0 (KCreate 5); EJoin 0 5 0; ERet 0 (RProc 0); ECall 1 (KCreate 6); EJoin 1 6 1; ERet 1 (RProc 1); ECall 2 (KCreate 7); EJoin 2 7 2; ERet 2 (RProc 2);
   ECall 3 (KConnect 0 3); EConnect 0 3; ERet 3 RUnit; ECall 4 (KConnect 1 3); EConnect 1 3; ERet 4 RUnit; ECall 5 (KConnect 2 3); EConnect 2 3; ERet 5 RUnit;
   ECall 6 (KSendAll (Some 1) (MUser 2 9)); EPost 6 0 (MUser 2 9); EPost 6 2 (MUser 2 9); ERet 6 RUnit; ECall 7 (KDisconnect 1 3); EDisconnect 1 3; ERet 7 RUnit;
   ECall 8 (KStop 2); EClose 2; ELeave 8 7 2; ERet 8 RUnit; ECall 9 (KReuse 2); EOpen 2; ERet 9 RUnit;
   ECall 10 (KSendAll None (MUser 2 8)); EPost 10 0 (MUser 2 8); ERet 10 RUnit].
Proof. vm_compute. reflexivity. Qed.

Print Assumptions C110_send_to_all.
Print Assumptions C110_post_to_all_once.
Print Assumptions C110_stop_closes.
Print Assumptions C110_reuse_opens.
Print Assumptions C110_connect_listens.
Print Assumptions C110_disconnect_silences.
Print Assumptions C110_causes.
Print Assumptions C110_who_posts.
