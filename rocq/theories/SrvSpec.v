(** What a user of the server can say, in terms of the calls made, their results and the messages sent (the trace). *)
From Verif Require Import ListUtil.
From Verif Require Export SrvModel.

(** Call [t] has returned. *)
Definition returned (l : list event) (t : nat) : Prop := exists v, In (ERet t v) l.

(** [getServiceProvider sid] returned object [o]. *)
Definition got (l : list event) (sid o : nat) : Prop := exists t, In (EGot t sid o) l.

(** Calls that change whether provider [o] serves. *)
Definition serve_call (c : call) (o : nat) : Prop := c = CStart o \/ c = CStop o.

(** No startServing / stopServing of [o] is under way. *)
Definition idle (l : list event) (o : nat) : Prop :=
  forall t c, In (ECall t c) l -> serve_call c o -> returned l t.

(** startServing / stopServing of [o] are called one at a time. *)
Definition one_at_a_time (l : list event) (o : nat) : Prop :=
  forall l1 t c l2, l = l1 ++ ECall t c :: l2 -> serve_call c o -> idle l1 o.

(** Whether [o] is meant to serve: what the latest startServing / stopServing asked for. *)
Definition wanted1 (o : nat) (v : availability) (e : event) : availability :=
  match e with
  | ECall _ (CStart o') => if Nat.eqb o o' then Available else v
  | ECall _ (CStop o') => if Nat.eqb o o' then Unavailable else v
  | _ => v
  end.
Definition wanted (l : list event) (o : nat) : availability := fold_left (wanted1 o) l Unavailable.

(** The messages about services sent to client [a], oldest first, and what they say about [sid]
    (a service never mentioned is unavailable). *)
Definition sent_to (a : nat) (l : list event) : list (nat * availability) :=
  flat_map (fun e => match e with ESend a' sid av _ => if Nat.eqb a a' then [(sid, av)] else [] | _ => [] end) l.
Definition says (ms : list (nat * availability)) (sid : nat) : availability :=
  fold_left (fun v m => if Nat.eqb sid (fst m) then snd m else v) ms Unavailable.

(** Every message sent to [a] was accepted by the transport. *)
Definition reliable (l : list event) (a : nat) : Prop := forall sid av r, In (ESend a sid av r) l -> r = Success.

Definition is_register (m : smsg) (a : nat) : Prop := s_code m = RegisterServiceStatus /\ s_src m = a.
Definition is_unregister (m : smsg) (a : nat) : Prop :=
  s_code m = UnregisterServiceStatus /\ s_sid m = None /\ s_src m = a.

(** [a] registered: a registration of it was handled to the end, and none is under way. *)
Definition registered (l : list event) (a : nat) : Prop :=
  (exists t m, In (ECall t (CIn m)) l /\ is_register m a) /\
  (forall t m, In (ECall t (CIn m)) l -> is_register m a -> returned l t).
Definition never_unregistered (l : list event) (a : nat) : Prop :=
  forall t m, In (ECall t (CIn m)) l -> ~ is_unregister m a.
Definition no_deinit (l : list event) : Prop := forall t, ~ In (ECall t CDeinit) l.

(** Messages that are for one provider. *)
Definition ordinary (m : smsg) : Prop := (forall a, ~ is_register m a) /\ (forall a, ~ is_unregister m a).

(** What call [t] handed to providers. *)
Definition dispatched (l : list event) (t : nat) : list (nat * smsg) :=
  flat_map (fun e => match e with EDisp t' o m => if Nat.eqb t t' then [(o, m)] else [] | _ => [] end) l.
