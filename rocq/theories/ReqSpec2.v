(** Specification of the requester's calls: everything a call does, from its beginning to its return. *)
From Verif Require Import ReqModel ReqSpec ReqSerSpec.

(** The call an event belongs to. *)
Definition doer (e : event) : nat :=
  match e with EAlloc t _ | ESend t _ | ECb t _ _ | EThrow t | EStatus t _ | ENotify t _ _ _ | ERet t _ => t end.
(** What call [t] did, in order. *)
Definition doings (h : history) (t : nat) : list event := filter (fun e => Nat.eqb (doer e) t) (trace h).

(** At some moment of call [t], serviceStatus() answered [a]. *)
Definition seen (h : history) (t : nat) (a : availability) : Prop :=
  exists h1 h2, h = h1 ++ h2 /\ t < length (calls h1) /\ ~ returned h1 t /\ svc h1 = a.

(** The RegID made of an id and an operation, as far as it is valid. *)
Definition regid (rid : N) (o : nat) : option (N * nat) := if regid_ok rid o then Some (rid, o) else None.

(** The codes of messages a requester handles. *)
Definition handled (c : opcode) : bool :=
  match c with SignalRegister | StatusRegister | PartialRequestUpdate | OpRequest | StatusGet => true | _ => false end.

(** All a call that has returned (or thrown) did, given which service statuses there were during the call. *)
Definition course (was : availability -> Prop) (t : nat) (c : call) (l : list event) : Prop :=
  let up := was Available in
  let down := exists a, a <> Available /\ was a in
  let request code o rid pl := [EAlloc t rid; ESend t (Msg code o rid pl 0)] in
  (* the end of a synchronous request: what it returned, or a timeout with an Abort for the provider *)
  let waited o rid l' := (exists p a, l' = [ERet t (RVPay p (Some a))]) \/ l' = [ESend t (Msg Abort o rid None 0); ERet t (RVPay None (Some Timeout))] in
  match c with
  | CSendAsync o pl _ =>
      (down /\ l = [ERet t (RVReg None (Some ServiceUnavailable))]) \/
      (up /\ exists rid, l = request OpRequest o rid pl ++ [ERet t (RVReg (regid rid o) (Some Success))] \/
                         exists a, a <> Success /\ l = request OpRequest o rid pl ++ [ERet t (RVReg None (Some a))])
  | CSendSync o pl _ =>
      (down /\ l = [ERet t (RVPay None (Some ServiceUnavailable))]) \/
      (up /\ exists rid l', l = request OpRequest o rid pl ++ l' /\ waited o rid l')
  | CGetAsync o =>
      (exists p, (up /\ l = [ECb t t p; ERet t (RVStatus Success)]) \/ (down /\ l = [ECb t t p; ERet t (RVStatus ServiceUnavailable)])) \/
      (up /\ exists rid, l = request StatusGet o rid None ++ [ERet t (RVStatus Success)])
  | CGetSync o _ =>
      (exists p, (up /\ l = [ERet t (RVPay p (Some Success))]) \/ (down /\ l = [ERet t (RVPay p (Some ServiceUnavailable))])) \/
      (up /\ exists rid l', l = request StatusGet o rid None ++ l' /\ waited o rid l')
  | CAbort rid o =>
      if regid_ok rid o then l = [ERet t (RVOut None)] \/ exists a, l = [ESend t (Msg Abort o rid None 0); ERet t (RVOut (Some a))]
      else l = [ERet t (RVOut (Some InvalidParam))]
  | CReg st o hc =>
      (down /\ l = [ERet t (RVReg None (Some ServiceUnavailable))]) \/
      (up /\ hc = false /\ l = [ERet t (RVReg None (Some InvalidParam))]) \/
      (up /\ hc = true /\ exists rid l', l = EAlloc t rid :: l' /\
         (l' = [ERet t (RVReg (regid rid o) (if st then Some Success else None))] \/
          (st = true /\ exists p, l' = [ECb t t (Some p); ERet t (RVReg (regid rid o) (Some Success))]) \/
          exists a, l' = [ESend t (Msg (if st then StatusRegister else SignalRegister) o rid None 0);
                          ERet t (RVReg (match a with Success => regid rid o | _ => None end) (Some a))]))
  | CUnregister rid o =>
      if regid_ok rid o then
        l = [ERet t (RVStatus Success)] \/ (down /\ l = [ERet t (RVStatus ServiceUnavailable)]) \/
        (up /\ l = [ESend t (Msg Unregister o rid_invalid None 0); ERet t (RVStatus Success)])
      else l = [ERet t (RVStatus InvalidParam)]
  | CUnregisterAll o =>
      (down /\ l = [ERet t (RVStatus ServiceUnavailable)]) \/
      (up /\ l = [ESend t (Msg Unregister o rid_invalid None 0); ERet t (RVStatus Success)])
  | CIncoming ok m =>
      if ok then
        if handled (m_code m) then exists os e, l = map (fun o => ECb t o (m_pay m)) os ++ [e] /\ (e = ERet t (RVBool true) \/ e = EThrow t)
        else l = [ERet t (RVBool false)]
      else l = [ERet t (RVBool true)]
  | CServiceStatus ok old new =>
      ((ok = false \/ was new) /\ l = [ERet t RVUnit]) \/
      (ok = true /\ (exists a, a <> new /\ was a) /\ exists xs, l = EStatus t new :: map (fun x => ENotify t x old new) xs ++ [ERet t RVUnit])
  | CObserve None => l = [ERet t RVUnit]
  | CObserve (Some x) => (down /\ l = [ERet t RVUnit]) \/ (up /\ l = [ENotify t x Unknown Available; ERet t RVUnit])
  | CUnobserve _ | CDeinit => l = [ERet t RVUnit]
  end.

(** No call registering [x] is being executed. *)
Definition settled (h : history) (x : nat) : Prop := forall r, call_of h r = Some (CObserve (Some x)) -> returned h r.
