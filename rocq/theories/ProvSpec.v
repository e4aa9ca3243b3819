(** Specification vocabulary for the service provider: what a history of calls asks for, computed from the history
    alone (no model state), and what an event list shows. *)
From Verif Require Import ProvModel.

Definition history := list (net * op).
Definition ops_of (h : history) : list op := map snd h.
(** All events of a run, in order. *)
Definition trace (h : history) : list event := concat (snd (run prov_new h)).
Definition final (h : history) : prov := fst (run prov_new h).
(** Events of one further operation after a history. *)
Definition next (h : history) (n : net) (o : op) : list event := snd (step n (final h) o).

(** ** Requests *)
(** The handler in charge of operation [o]: the first one registered since the last unregistration. *)
Definition handler_step (o : nat) (cur : option nat) (x : op) : option nat :=
  match x with
  | ORegHandler o' (Some f) => if Nat.eqb o o' then match cur with None => Some f | Some _ => cur end else cur
  | OUnregHandler o' => if Nat.eqb o o' then None else cur
  | _ => cur
  end.
Definition handler_after (h : history) (o : nat) : option nat := fold_left (handler_step o) (ops_of h) None.

(** Key of a request message: operation id and request id. *)
Definition key := (nat * N)%type.
Definition key_eqb (a b : key) : bool := Nat.eqb (fst a) (fst b) && N.eqb (snd a) (snd b).
Definition is_request (x : op) : option key :=
  match x with
  | OIn m => match m_code m with OpRequest => Some (m_op m, m_rid m) | _ => None end
  | _ => None
  end.
Fixpoint requests_received (l : list op) : list key :=
  match l with
  | [] => []
  | x :: l' => match is_request x with Some k => k :: requests_received l' | None => requests_received l' end
  end.
Definition countb {A} (f : A -> bool) (l : list A) : nat := length (filter f l).
(** Messages handed to the transport for request [k]: final responses, partial updates. *)
Definition reply_for (c : opcode) (k : key) (e : event) : bool :=
  match e with
  | ESend _ m _ => opcode_eqb (m_code m) c && key_eqb (m_op m, m_rid m) k
  | _ => false
  end.
Definition final_responses (k : key) (ev : list event) : nat := countb (reply_for OpRequest k) ev.
Definition any_reply (k : key) (e : event) : bool := reply_for OpRequest k e || reply_for PartialRequestUpdate k e.
Definition is_send (e : event) : bool := match e with ESend _ _ _ => true | _ => false end.
Definition abort_runs (cb : nat) (ev : list event) : nat :=
  countb (fun e => match e with EAbortCb c => Nat.eqb c cb | _ => false end) ev.
Definition abort_registrations (cb : nat) (l : list op) : nat :=
  countb (fun x => match x with OOnAborted _ c => Nat.eqb c cb | _ => false end) l.
Definition is_deinit (x : op) : bool := match x with ODeinit => true | _ => false end.

(** ** Status properties and subscriptions *)
(** Last value set for property [o]. *)
Definition value_step (o : nat) (v : option payload) (x : op) : option payload :=
  match x with
  | OSetStatus o' p => if Nat.eqb o o' then p else v
  | ORemoveProperty o' _ => if Nat.eqb o o' then None else v
  | ODeinit => None
  | _ => v
  end.
Definition value_after (h : history) (o : nat) : option payload := fold_left (value_step o) (ops_of h) None.

(** What one call broadcasts, given the value of the property before it. *)
Definition broadcasts (v : nat -> option payload) (x : op) : option (opcode * nat * option payload) :=
  match x with
  | OSetStatus o p =>
      match v o, p with
      | Some a, Some b => if payload_eqb a b then None else Some (StatusRegister, o, p)
      | _, _ => Some (StatusRegister, o, p)
      end
  | ORemoveProperty o true => Some (StatusRegister, o, None)
  | OSignal o p => Some (SignalRegister, o, p)
  | _ => None
  end.
(** The attempts to reach address [a] in one broadcast and whether it stays registered. *)
Definition attempts (n : net) (a : nat) : list acs :=
  match first n a with ReceiverBusy => [ReceiverBusy; second n a] | x => [x] end.
Definition stays (n : net) (a : nat) : bool :=
  match last (attempts n a) Success with Success | ReceiverBusy => true | _ => false end.

(** Is [a] registered for [o]?  [v] = property values before the call. *)
Definition sub_step (a : nat) (v : nat -> option payload) (sub : nat -> bool) (nx : net * op) (o : nat) : bool :=
  let '(n, x) := nx in
  match x with
  | OIn m => if Nat.eqb a (m_src m) then
               match m_code m with
               | StatusRegister | SignalRegister => Nat.eqb o (m_op m) || sub o
               | Unregister => negb (Nat.eqb o (m_op m)) && sub o
               | UnregisterServiceStatus => false
               | _ => sub o
               end
             else sub o
  | ODeinit => false
  | _ => match broadcasts v x with
         | Some (_, o', _) => if sub o' then stays n a && sub o else sub o
         | None => sub o
         end
  end.
Fixpoint sub_fold (a : nat) (v : nat -> option payload) (sub : nat -> bool) (h : history) (o : nat) : bool :=
  match h with
  | [] => sub o
  | nx :: h' => sub_fold a (fun o => value_step o (v o) (snd nx)) (sub_step a v sub nx) h' o
  end.
Definition subscribed (h : history) (a o : nat) : bool := sub_fold a (fun _ => None) (fun _ => false) h o.

(** Notifications to address [a] in an event list: (code, operation, payload, result of the send). *)
Definition note := (opcode * nat * option payload * acs)%type.
Fixpoint notes_to (a : nat) (ev : list event) : list note :=
  match ev with
  | [] => []
  | ESend d m r :: ev' =>
      if Nat.eqb a d then
        match m_code m with
        | StatusRegister | SignalRegister => (m_code m, m_op m, m_pay m, r) :: notes_to a ev'
        | _ => notes_to a ev'
        end
      else notes_to a ev'
  | _ :: ev' => notes_to a ev'
  end.
(** What [a] must be sent during one call. *)
Definition expected_notes (v : nat -> option payload) (sub : nat -> bool) (a : nat) (n : net) (x : op) : list note :=
  match x with
  | OIn m => if Nat.eqb a (m_src m) then
               match m_code m, v (m_op m) with
               | StatusRegister, Some p => [(StatusRegister, m_op m, Some p, first n a)]
               | _, _ => []
               end
             else []
  | _ => match broadcasts v x with
         | Some (c, o, p) => if sub o then map (fun r => (c, o, p, r)) (attempts n a) else []
         | None => []
         end
  end.

(** ** Server side listeners currently connected to operation [o] *)
Definition listen_step (o : nat) (l : list nat) (x : op) : list nat :=
  match x with
  | OListen o' i => if Nat.eqb o o' then l ++ [i] else l
  | OUnlisten o' i => if Nat.eqb o o' then remove1 i l else l
  | _ => l
  end.
Definition listening (h : history) (o : nat) : list nat := fold_left (listen_step o) (ops_of h) [].
Fixpoint listener_calls (ev : list event) : list (nat * option payload) :=
  match ev with
  | [] => []
  | EListener l p :: ev' => (l, p) :: listener_calls ev'
  | _ :: ev' => listener_calls ev'
  end.

(** Value returned by a call. *)
Fixpoint returned_value (ev : list event) : option retval :=
  match ev with
  | [] => None
  | EReturn v :: ev' => match returned_value ev' with Some w => Some w | None => Some v end
  | _ :: ev' => returned_value ev'
  end.

(** ** Life of one request: request object [r] created by message [m]. *)
Definition closes (r : nat) (m : msg) (x : op) : bool :=
  match x with
  | OReply r' _ partial => Nat.eqb r' r && negb partial
  | OIn a => opcode_eqb (m_code a) Abort && key_eqb (m_op a, m_rid a) (m_op m, m_rid m)
  | ODeinit => true
  | _ => false
  end.
Definition closed_by (r : nat) (m : msg) (h : history) : bool := existsb (closes r m) (ops_of h).
(** The abort callback in force: the last one installed. *)
Definition abort_step (r : nat) (cur : option nat) (x : op) : option nat :=
  match x with OOnAborted r' cb => if Nat.eqb r' r then Some cb else cur | _ => cur end.
Definition installed_abort (r : nat) (h : history) : option nat := fold_left (abort_step r) (ops_of h) None.

(** ** A subscriber's view of a property: the payload of the last status notification it was sent. *)
Fixpoint view_from (v : option payload) (o : nat) (l : list note) : option payload :=
  match l with
  | [] => v
  | (c, o', p, _) :: l' => view_from (if opcode_eqb c StatusRegister && Nat.eqb o o' then p else v) o l'
  end.
(** Calls after which subscriber [a] of property [o] is no longer in step by design: it unregisters, the provider is
    shut down, or the property is removed silently. *)
Definition detaches (a o : nat) (x : op) : bool :=
  match x with
  | OIn m => Nat.eqb a (m_src m) &&
             (opcode_eqb (m_code m) UnregisterServiceStatus || (opcode_eqb (m_code m) Unregister && Nat.eqb o (m_op m)))
  | ODeinit => true
  | ORemoveProperty o' false => Nat.eqb o o'
  | _ => false
  end.
