(** Composition of one client's requester (any threads, any schedule: ReqModel) with the provider (any calls, any
    other clients: ProvModel) through a network.  Nothing is assumed about order, loss or duplication: the network only
    never invents a message.  The client is reached at address [a]; the server stamps arriving messages with it
    (CSMessage::setSourceAddress). *)
From Verif Require Import CsTypes.
From Verif Require ReqModel ReqSpec ProvModel ProvSpec.

(** Same message up to the address stamped on it. *)
Definition same_content (m m' : msg) : Prop :=
  m_code m = m_code m' /\ m_op m = m_op m' /\ m_rid m = m_rid m' /\ m_pay m = m_pay m'.

Definition to_server (a : nat) (hr : ReqSpec.history) (hp : ProvSpec.history) : Prop :=
  forall m, In (ProvModel.OIn m) (ProvSpec.ops_of hp) -> m_src m = a ->
    exists t m', In (ReqModel.ESend t m') (ReqSpec.trace hr) /\ same_content m m'.
Definition to_client (a : nat) (hr : ReqSpec.history) (hp : ProvSpec.history) : Prop :=
  forall m, In (ReqModel.CIncoming true m) (ReqSpec.calls hr) ->
    exists m' res, In (ProvModel.ESend a m' res) (ProvSpec.trace hp) /\ same_content m m'.
Definition network (a : nat) (hr : ReqSpec.history) (hp : ProvSpec.history) : Prop :=
  to_server a hr hp /\ to_client a hr hp.

(** The server's application gave [p] as an answer (or partial update) to the request with id [rid], operation [o] and
    input [pl] from client [a]: its handler was called with request object [r] for that message, and it later
    responded on [r] with [p]. *)
Definition app_answered (hp : ProvSpec.history) (a o : nat) (rid : N) (pl p : option payload) : Prop :=
  exists h0 n0 f r h1 n1 b h2,
    hp = (h0 ++ (n0, ProvModel.OIn (Msg OpRequest o rid pl a)) :: h1) ++ (n1, ProvModel.OReply r p b) :: h2 /\
    In (ProvModel.EHandler f r) (ProvSpec.next h0 n0 (ProvModel.OIn (Msg OpRequest o rid pl a))).
(** The server refused that request: no handler for the operation. *)
Definition refused (hp : ProvSpec.history) (a o : nat) (rid : N) (pl : option payload) : Prop :=
  exists h1 n1 h2, hp = h1 ++ (n1, ProvModel.OIn (Msg OpRequest o rid pl a)) :: h2 /\ ProvSpec.handler_after h1 o = None.
(** Property [o] had value [p] when the server processed the get with id [rid]. *)
Definition value_read (hp : ProvSpec.history) (a o : nat) (rid : N) (p : option payload) : Prop :=
  exists h1 n1 h2, hp = h1 ++ (n1, ProvModel.OIn (Msg StatusGet o rid None a)) :: h2 /\ ProvSpec.value_after h1 o = p.
