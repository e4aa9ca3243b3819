(** Model of src/common/maf/messaging/client-server/{ServiceProvider,Request}.cpp.
    One operation at a time (every method call is atomic; racing replies are in ProvRace).
    Handlers, abort callbacks and server-side listeners are user code: they appear as events; what they do on the
    provider is a later operation of the history.
    Simplifications: std::map<Address,...> is keyed by address equality (sound for addresses sharing a port, C15);
    the address of the provider's own server, logging and the expiry of the server pointer are not modelled
    (an expired server is a send that fails with ReceiverUnavailable). *)
From Verif Require Export CsTypes.

(** Request (Request.h:14-20). *)
Record request := Rq
  { q_src : nat; q_op : nat; q_rid : N; q_input : option payload; q_valid : bool; q_abort : option nat }.

(** ServiceProvider data members (ServiceProvider.h:95-102).  [heap] holds the Request objects (by identity);
    [ub]: undefined behaviour happened. *)
Record prov := Prov
  { regs : amap (list nat);              (* regEntriesMap_: address -> operation ids *)
    reqs : amap (list nat);              (* requestsMap_: operation id -> requests *)
    props : amap (option payload);       (* propertyMap_ *)
    handlers : amap nat;                 (* requestHandlerMap_ *)
    listeners : amap (list nat);         (* serverSideListenersMap_ *)
    avail : availability;                (* availability_ *)
    heap : list request;
    ub : bool }.

Definition prov_new : prov := Prov [] [] [] [] [] Unavailable [] false.

Definition set_regs (s : prov) x := Prov x (reqs s) (props s) (handlers s) (listeners s) (avail s) (heap s) (ub s).
Definition set_reqs (s : prov) x := Prov (regs s) x (props s) (handlers s) (listeners s) (avail s) (heap s) (ub s).
Definition set_props (s : prov) x := Prov (regs s) (reqs s) x (handlers s) (listeners s) (avail s) (heap s) (ub s).
Definition set_handlers (s : prov) x := Prov (regs s) (reqs s) (props s) x (listeners s) (avail s) (heap s) (ub s).
Definition set_listeners (s : prov) x := Prov (regs s) (reqs s) (props s) (handlers s) x (avail s) (heap s) (ub s).
Definition set_avail (s : prov) x := Prov (regs s) (reqs s) (props s) (handlers s) (listeners s) x (heap s) (ub s).
Definition set_heap (s : prov) x := Prov (regs s) (reqs s) (props s) (handlers s) (listeners s) (avail s) x (ub s).
Definition set_ub (s : prov) := Prov (regs s) (reqs s) (props s) (handlers s) (listeners s) (avail s) (heap s) true.

(** The transport during one operation: result of the first / second send to an address
    (ServerIF::sendMessageToClient, ServiceProvider.cpp:231-238). *)
Record net := Net { first : nat -> acs; second : nat -> acs }.

Inductive retval := RUnit | RStatus (a : acs) | RBool (b : bool) | RPayload (p : option payload).

Inductive event :=
| ESend (dest : nat) (m : msg) (res : acs)  (* sendMessageToClient *)
| EHandler (h r : nat)                      (* request handler h called with request object r *)
| EAbortCb (cb : nat)                       (* an abort callback ran *)
| EListener (l : nat) (p : option payload)  (* server-side listener called *)
| EAvail (old new : availability)           (* server->onServiceStatusChanged *)
| EReturn (v : retval).                     (* return value of the call *)

(** The public operations. *)
Inductive op :=
| OIn (m : msg)                                       (* onIncomingMessage *)
| OReply (r : nat) (p : option payload) (partial : bool) (* Request::respond / update *)
| OOnAborted (r cb : nat)                             (* Request::onAborted *)
| OSetStatus (o : nat) (p : option payload)
| OGetStatus (o : nat)
| ORemoveProperty (o : nat) (notify : bool)
| OSignal (o : nat) (p : option payload)              (* broadcastSignal *)
| ORegHandler (o : nat) (h : option nat)
| OUnregHandler (o : nat)
| OListen (o l : nat) | OUnlisten (o l : nat)         (* registerNotification / disconnecting the connection *)
| ODeinit | OStart | OStop.

(** sendBackMessageToClient (ServiceProvider.cpp:240-243). *)
Definition send_back (n : net) (m : msg) : list event * acs :=
  ([ESend (m_src m) m (first n (m_src m))], first n (m_src m)).

(** Request::invalidate (Request.cpp:82-91) on heap cell [r]. *)
Definition invalidate_q (q : request) : request :=
  Rq (q_src q) (q_op q) (q_rid q) (q_input q) false (q_abort q).
Fixpoint upd {A} (i : nat) (f : A -> A) (l : list A) : list A :=
  match l, i with
  | [], _ => []
  | x :: l', O => f x :: l'
  | x :: l', S i' => x :: upd i' f l'
  end.
Definition invalidate (s : prov) (r : nat) : prov := set_heap s (upd r invalidate_q (heap s)).

(** list::erase(iterator) of the first element equal to [r]. *)
Fixpoint remove1 (r : nat) (l : list nat) : list nat :=
  match l with [] => [] | x :: l' => if Nat.eqb r x then l' else x :: remove1 r l' end.

(** getRequestInfo (ServiceProvider.cpp:263-283): first request in the operation's list with the same request id;
    the client address is not compared. *)
Definition has_rid (s : prov) (rid : N) (r : nat) : bool :=
  match nth_error (heap s) r with Some q => N.eqb (q_rid q) rid | None => false end.
Definition find_req (s : prov) (m : msg) : option nat :=
  find (has_rid s (m_rid m)) (get_or [] (m_op m) (reqs s)).
Definition pick_out (s : prov) (m : msg) (r : nat) : prov :=
  set_reqs s (put (m_op m) (remove1 r (get_or [] (m_op m) (reqs s))) (reqs s)).

(** respondToRequest (ServiceProvider.cpp:68-81): a null request is dereferenced when the final response finds no
    entry. *)
Definition respond_to_request (n : net) (s : prov) (m : msg) : prov * list event * acs :=
  if opcode_eqb (m_code m) PartialRequestUpdate then
    match find_req s m with
    | Some _ => let '(e, a) := send_back n m in (s, e, a)
    | None => (s, [], FailedUnknown)
    end
  else
    match find_req s m with
    | Some r => let s' := invalidate (pick_out s m r) r in
                let '(e, a) := send_back n m in (s', e, a)
    | None => (set_ub s, [], FailedUnknown)
    end.

(** Request::reply (Request.cpp:42-66). *)
Definition reply (n : net) (s : prov) (q : request) (p : option payload) (code : opcode) : prov * list event * acs :=
  if q_valid q then respond_to_request n s (Msg code (q_op q) (q_rid q) p (q_src q))
  else (s, [], InvalidCall).

(** saveRequestInfo (ServiceProvider.cpp:256-261). *)
Definition save_request (s : prov) (m : msg) : prov * nat :=
  let r := length (heap s) in
  (set_reqs (set_heap s (heap s ++ [Rq (m_src m) (m_op m) (m_rid m) (m_pay m) true None]))
            (put (m_op m) (get_or [] (m_op m) (reqs s) ++ [r]) (reqs s)), r).

Definition with_payload (m : msg) (p : option payload) : msg := Msg (m_code m) (m_op m) (m_rid m) p (m_src m).

(** onActionRequest (ServiceProvider.cpp:328-338). *)
Definition on_action_request (n : net) (s : prov) (m : msg) : prov * list event :=
  match get (m_op m) (handlers s) with
  | Some h => let '(s', r) := save_request s m in (s', [EHandler h r])
  | None => (s, fst (send_back n (with_payload m (Some (Err EHandlerUnavailable)))))
  end.

(** getAbortCallback (Request.cpp:14-17) followed by the call. *)
Definition abort_event (s : prov) (r : nat) : list event :=
  match nth_error (heap s) r with
  | Some q => match q_abort q with Some cb => [EAbortCb cb] | None => [] end
  | None => []
  end.

(** onRequestAborted (ServiceProvider.cpp:316-326). *)
Definition on_request_aborted (s : prov) (m : msg) : prov * list event :=
  match find_req s m with
  | Some r => let s' := invalidate (pick_out s m r) r in (s', abort_event s' r)
  | None => (s, [])
  end.

(** getStatus (ServiceProvider.cpp:195-203). *)
Definition get_status (s : prov) (o : nat) : option payload := get_or None o (props s).

(** saveRegisterInfo / removeRegisterInfo (ServiceProvider.cpp:298-306): operator[] creates an empty set. *)
Definition save_register (s : prov) (m : msg) : prov :=
  set_regs s (put (m_src m) (set_add (m_op m) (get_or [] (m_src m) (regs s))) (regs s)).
Definition remove_register (s : prov) (m : msg) : prov :=
  set_regs s (put (m_src m) (set_del (m_op m) (get_or [] (m_src m) (regs s))) (regs s)).

(** updateLatestStatus (ServiceProvider.cpp:367-372). *)
Definition update_latest (n : net) (s : prov) (m : msg) : list event :=
  match get_status s (m_op m) with
  | Some p => fst (send_back n (with_payload m (Some p)))
  | None => []
  end.

(** onIncomingMessage (ServiceProvider.cpp:21-57) with onStatusChangeRegister (245-250), onStatusChangeUnregister
    (252-254), onClientGoesOff (340-342), onStatusGetRequest (374-383). *)
Definition on_incoming (n : net) (s : prov) (m : msg) : prov * list event :=
  match m_code m with
  | StatusRegister => let s' := save_register s m in (s', update_latest n s' m ++ [EReturn (RBool true)])
  | SignalRegister => (save_register s m, [EReturn (RBool true)])
  | Unregister => (remove_register s m, [EReturn (RBool true)])
  | UnregisterServiceStatus => (set_regs s (del (m_src m) (regs s)), [EReturn (RBool true)])
  | OpRequest => let '(s', e) := on_action_request n s m in (s', e ++ [EReturn (RBool true)])
  | StatusGet => (s, fst (send_back n (with_payload m (get_status s (m_op m)))) ++ [EReturn (RBool true)])
  | Abort => let '(s', e) := on_request_aborted s m in (s', e ++ [EReturn (RBool true)])
  | _ => (s, [EReturn (RBool false)])
  end.

(** trySendToDestinations (ServiceProvider.cpp:157-179): returns the remaining registrations, the busy receivers
    and the sends. *)
Fixpoint try_send (f : nat -> acs) (m : msg) (addrs : list nat) (rg : amap (list nat))
  : amap (list nat) * list nat * list event :=
  match addrs with
  | [] => (rg, [], [])
  | a :: addrs' =>
      let '(rg', busy) := match f a with
                          | Success => (rg, [])
                          | ReceiverBusy => (rg, [a])
                          | _ => (del a rg, [])
                          end in
      let '(rg2, busy2, ev) := try_send f m addrs' rg' in
      (rg2, busy ++ busy2, ESend a m (f a) :: ev)
  end.

(** Addresses registered for an operation (ServiceProvider.cpp:141-149). *)
Definition addresses_of (o : nat) (rg : amap (list nat)) : list nat :=
  map fst (filter (fun e => mem o (snd e)) rg).

(** broadcastToClients (ServiceProvider.cpp:135-193).  The message has no source address (default Address). *)
Definition no_address : nat := 0.
Definition broadcast_to_clients (n : net) (s : prov) (o : nat) (code : opcode) (p : option payload)
  : prov * list event * acs :=
  let addrs := addresses_of o (regs s) in
  match addrs with
  | [] => (s, [], Success)
  | _ =>
      let m := Msg code o rid_invalid p no_address in
      let '(rg1, busy1, ev1) := try_send (first n) m addrs (regs s) in
      let '(rg2, busy2, ev2) := match busy1 with [] => (rg1, [], []) | _ => try_send (second n) m busy1 rg1 end in
      let success := negb (Nat.eqb (length busy2) (length addrs)) in
      (set_regs s rg2, ev1 ++ ev2, if success then ReceiverUnavailable else Success)
  end.

(** broadcastServerSide (ServiceProvider.cpp:126-133), broadcast (119-124). *)
Definition broadcast (n : net) (s : prov) (o : nat) (code : opcode) (p : option payload) : prov * list event * acs :=
  let ev0 := map (fun l => EListener l p) (get_or [] o (listeners s)) in
  let '(s', ev, a) := broadcast_to_clients n s o code p in (s', ev0 ++ ev, a).

(** setStatus (ServiceProvider.cpp:83-102); the condition of line 89. *)
Definition differs (cur p : option payload) : bool :=
  match cur, p with
  | None, _ => true
  | Some c, Some x => negb (payload_eqb c x)
  | Some _, None => true
  end.
Definition set_status (n : net) (s : prov) (o : nat) (p : option payload) : prov * list event * acs :=
  let cur := get_or None o (props s) in
  if differs cur p
  then broadcast n (set_props s (put o p (props s))) o StatusRegister p
  else (set_props s (put o cur (props s)), [], NoAction).

(** invalidateAndRemoveAllRequests (ServiceProvider.cpp:285-296): clears regEntriesMap_, not requestsMap_. *)
Definition invalidate_all (s : prov) : prov * list event :=
  fold_left (fun '(s, ev) r => let s' := invalidate s r in (s', ev ++ abort_event s' r))
            (flat_map snd (reqs s)) (s, []).
(** deinit (ServiceProvider.cpp:209-213). *)
Definition deinit (s : prov) : prov * list event :=
  let '(s1, ev) := invalidate_all (set_regs s []) in
  (set_props (set_regs s1 []) [], ev).

Definition ret (x : prov * list event * acs) : prov * list event :=
  let '(s, ev, a) := x in (s, ev ++ [EReturn (RStatus a)]).

(** One operation.  After undefined behaviour nothing is specified any more: the state is kept and nothing
    observable is added. *)
Definition step (n : net) (s : prov) (o : op) : prov * list event :=
  if ub s then (s, []) else
  match o with
  | OIn m => on_incoming n s m
  | OReply r p partial =>
      match nth_error (heap s) r with
      | Some q => ret (reply n s q p (if partial then PartialRequestUpdate else OpRequest))
      | None => (s, [])
      end
  | OOnAborted r cb =>
      (* Request::onAborted (Request.cpp:73-80) *)
      match nth_error (heap s) r with
      | Some q => if q_valid q
                  then (set_heap s (upd r (fun q => Rq (q_src q) (q_op q) (q_rid q) (q_input q) (q_valid q) (Some cb))
                                        (heap s)), [])
                  else (s, [EAbortCb cb])
      | None => (s, [])
      end
  | OSetStatus o p => ret (set_status n s o p)
  | OGetStatus o => (s, [EReturn (RPayload (get_status s o))])
  | ORemoveProperty o notify =>
      (* removeProperty (ServiceProvider.cpp:104-112) *)
      let s' := set_props s (del o (props s)) in
      if notify then ret (broadcast n s' o StatusRegister None) else ret (s', [], Success)
  | OSignal o p => ret (broadcast n s o SignalRegister p)
  | ORegHandler o h =>
      (* registerRequestHandler (ServiceProvider.cpp:344-355) *)
      match h with
      | None => (s, [EReturn (RBool false)])
      | Some h => match get o (handlers s) with
                  | Some _ => (s, [EReturn (RBool false)])
                  | None => (set_handlers s (put o h (handlers s)), [EReturn (RBool true)])
                  end
      end
  | OUnregHandler o =>
      (* unregisterRequestHandler (ServiceProvider.cpp:357-359) *)
      (set_handlers s (del o (handlers s)),
       [EReturn (RBool (match get o (handlers s) with Some _ => true | None => false end))])
  | OListen o l => (set_listeners s (put o (get_or [] o (listeners s) ++ [l]) (listeners s)), [])
  | OUnlisten o l => (set_listeners s (put o (remove1 l (get_or [] o (listeners s))) (listeners s)), [])
  | ODeinit => deinit s
  (* startServing / stopServing (ServiceProvider.cpp:215-229) *)
  | OStart => (set_avail s Available, [EAvail Unavailable Available])
  | OStop => (set_avail s Unavailable, [EAvail Available Unavailable])
  end.

(** A history: operations with the behaviour of the transport during each. *)
Fixpoint run (s : prov) (h : list (net * op)) : prov * list (list event) :=
  match h with
  | [] => (s, [])
  | (n, o) :: h' => let '(s1, e) := step n s o in let '(s2, es) := run s1 h' in (s2, e :: es)
  end.
