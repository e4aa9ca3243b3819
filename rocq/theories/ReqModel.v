(** Model of src/common/maf/messaging/client-server/ServiceRequester.{h,cpp}, with any number of threads calling it.
    Every public call is a small program whose steps are the code's critical sections (one lock_guard block, one
    atomic access of serviceStatus_, one call into the transport, one call of a user callback); a history is any
    interleaving of the steps of any number of calls.  A transport that delivers the answer before the send returned
    (ITC does, on the same thread) is the interleaving in which the incoming-message call runs between the two steps of
    the sending call (the message being handed over, the send returning).
    A callback is identified by the call it was passed to: callback [t] is the one given to call number [t].
    Simplifications: the payload is immutable, so payload->clone() is the payload; the client pointer having expired is
    a send with result ReceiverUnavailable; user callbacks do not throw; an observer either returns or throws
    UnavailableException; the callback of getStatus is not null; operation id 0 stands for OpIDInvalid (""). *)
From Verif Require Export CsTypes ListUtil.

(** The callback of a RegEntry (ServiceRequester.h:22-30): none, the user's, or the one completing the promise of a
    synchronous request (ServiceRequester.cpp:201-206). *)
Inductive cbkind := KNull | KUser | KPromise.
Record entry := Ent { e_id : N; e_owner : nat; e_kind : cbkind }.

(** Data members (ServiceRequester.h:136-143).  [promises]: values stored in the promises of synchronous calls.
    [ub]: a null cached payload was dereferenced. *)
Record rq := Rq
  { registers : amap (list entry); requests : amap (list entry); observers : list nat;
    cache : amap (option payload); counter : N; status : availability;
    promises : amap (option payload); ub : bool }.
Definition rq_new : rq := Rq [] [] [] [] 0 Unavailable [] false.

Definition set_registers (s : rq) x :=
  Rq x (requests s) (observers s) (cache s) (counter s) (status s) (promises s) (ub s).
Definition set_requests (s : rq) x :=
  Rq (registers s) x (observers s) (cache s) (counter s) (status s) (promises s) (ub s).
Definition set_observers (s : rq) x :=
  Rq (registers s) (requests s) x (cache s) (counter s) (status s) (promises s) (ub s).
Definition set_cache (s : rq) x :=
  Rq (registers s) (requests s) (observers s) x (counter s) (status s) (promises s) (ub s).
Definition set_counter (s : rq) x :=
  Rq (registers s) (requests s) (observers s) (cache s) x (status s) (promises s) (ub s).
Definition set_status (s : rq) x :=
  Rq (registers s) (requests s) (observers s) (cache s) (counter s) x (promises s) (ub s).
Definition set_promises (s : rq) x :=
  Rq (registers s) (requests s) (observers s) (cache s) (counter s) (status s) x (ub s).
Definition set_ub (s : rq) :=
  Rq (registers s) (requests s) (observers s) (cache s) (counter s) (status s) (promises s) true.

(** The public calls. *)
Inductive call :=
| CSendAsync (o : nat) (p : option payload) (has_cb : bool)   (* sendRequestAsync *)
| CSendSync (o : nat) (p : option payload) (bounded : bool)   (* sendRequest; bounded: timeout > 0 *)
| CGetAsync (o : nat)                                         (* getStatus(id, callback) *)
| CGetSync (o : nat) (bounded : bool)                         (* getStatus(id, callStatus, timeout) *)
| CAbort (rid : N) (o : nat)                                  (* abortRequest *)
| CReg (is_status : bool) (o : nat) (has_cb : bool)           (* registerStatus / registerSignal *)
| CUnregister (rid : N) (o : nat)
| CUnregisterAll (o : nat)
| CIncoming (sid_ok : bool) (m : msg)                         (* onIncomingMessage; sid_ok: addressed to this service *)
| CServiceStatus (sid_ok : bool) (old new : availability)     (* onServiceStatusChanged *)
| CObserve (x : option nat)                                   (* registerServiceStatusObserver *)
| CUnobserve (x : nat)
| CDeinit.

(** What a call hands back; the out-parameter callStatus is None when the call leaves it unassigned;
    a RegID is None when it is not valid. *)
Inductive retval :=
| RVUnit | RVBool (b : bool) | RVStatus (a : acs) | RVOut (a : option acs)
| RVReg (r : option (N * nat)) (a : option acs) | RVPay (p : option payload) (a : option acs).

Inductive event :=
| EAlloc (t : nat) (rid : N)                  (* call t obtained the id rid (it is part of the RegID / message) *)
| ESend (t : nat) (m : msg)                   (* call t handed m to client->sendMessageToServer *)
| ECb (t owner : nat) (p : option payload)    (* call t ran the callback given to call owner *)
| EThrow (t : nat)                            (* call t left by std::future_error *)
| EStatus (t : nat) (a : availability)        (* call t made serviceStatus() answer a *)
| ENotify (t x : nat) (old new : availability) (* call t notified observer x *)
| ERet (t : nat) (v : retval).                (* call t returned *)

(** Where a running call stands. *)
Inductive pc :=
| PStart (c : call)
| PAlloc (code : opcode) (o : nat) (p : option payload) (k : cbkind) (b : bool)
| PStore (code : opcode) (o : nat) (p : option payload) (k : cbkind) (b : bool) (rid : N)
| PSend (code : opcode) (o : nat) (p : option payload) (k : cbkind) (b : bool) (rid : N)
| PSent (code : opcode) (o : nat) (k : cbkind) (b : bool) (rid : N)
| PUndo (code : opcode) (o : nat) (k : cbkind) (rid : N) (a : acs)
| PWait (o : nat) (rid : N) (b : bool)
| PExpErase (o : nat) (rid : N) | PExpSend (o : nat) (rid : N)
| PAbortErase (o : nat) (rid : N) | PAbortSend (o : nat) (rid : N)
| PRegAlloc (st : bool) (o : nat) | PRegStore (st : bool) (o : nat) (rid : N)
| PRegSend (st : bool) (o : nat) (rid : N) | PRegSent (o : nat) (rid : N) | PRegUndo (o : nat) (rid : N) (a : acs)
| PRegCached (o : nat) (rid : N) | PRegCall (o : nat) (rid : N) (p : payload)
| PUnregErase (o : nat) (rid : N)
| PUnregUncache (o : nat) | PUnregCheck (o : nat) | PUnregSend (o : nat)
| PUallErase (o : nat) | PUallSend (o : nat) | PUallUncache (o : nat)
| PGetSub (sync b : bool) (o : nat) | PGetCheck (b : bool) (o : nat)
| PGetCached (sync : bool) (a : acs) (o : nat) | PGetCall (a : acs) (p : option payload)
| PInTake (m : msg)
| PInRun (m : msg) (todo : list entry) (keep : bool)   (* callbacks still to run; then cache the payload if keep *)
| PSvcSet (old new : availability) | PSvcClearReq (old new : availability) | PSvcClearReg (old new : availability)
| PSvcForward (old new : availability)
| PObsPush (x : nat) | PObsCall (x : nat)
| PDone.

(** The outside world during one step: result of a send, whether the timeout elapsed, which observers throw
    UnavailableException. *)
Record oracle := Orc { o_res : acs; o_expired : bool; o_gone : nat -> bool }.

(** ** Helper functions of the class *)
(** serviceUnavailable (ServiceRequester.cpp:172-174). *)
Definition available (s : rq) : bool := match status s with Available => true | _ => false end.

(** RegID::valid (RegID.h:20-22). *)
Definition regid_ok (rid : N) (o : nat) : bool := negb (N.eqb rid rid_invalid) && negb (Nat.eqb o 0).

(** Erase the first entry with this id (the loops at ServiceRequester.cpp:97-104, 453-463, 541-547). *)
Fixpoint remove_id (rid : N) (l : list entry) : list entry :=
  match l with [] => [] | e :: l' => if N.eqb (e_id e) rid then l' else e :: remove_id rid l' end.
Definition find_id (rid : N) (l : list entry) : option entry := find (fun e => N.eqb (e_id e) rid) l.

(** storeRegEntry after the id was allocated (ServiceRequester.cpp:528-533): append; the result is the list size. *)
Definition store_entry (m : amap (list entry)) (o : nat) (e : entry) : amap (list entry) * nat :=
  let l := get_or [] o m ++ [e] in (put o l m, length l).

(** removeRegEntry (ServiceRequester.cpp:535-559): returns the number of entries left, 0 if there was no list. *)
Definition remove_entry (m : amap (list entry)) (o : nat) (rid : N) : amap (list entry) * nat :=
  match get o m with
  | Some l => match remove_id rid l with [] => (del o m, 0) | l' => (put o l' m, length l') end
  | None => (m, 0)
  end.

(** The critical section of abortRequest (ServiceRequester.cpp:90-106): the emptied list stays. *)
Definition erase_request (m : amap (list entry)) (o : nat) (rid : N) : amap (list entry) * bool :=
  match get o m with
  | Some l => match find_id rid l with Some _ => (put o (remove_id rid l) m, true) | None => (m, false) end
  | None => (m, false)
  end.

(** The critical section of onRequestResult (ServiceRequester.cpp:444-468). *)
Definition take_request (m : amap (list entry)) (o : nat) (rid : N) (partial : bool)
  : amap (list entry) * option entry :=
  match get o m with
  | Some l =>
      let r := find_id rid l in
      let l' := match r with Some _ => if partial then l else remove_id rid l | None => l end in
      (match l' with [] => del o m | _ => put o l' m end, r)
  | None => (m, None)
  end.

(** getCachedProperty (ServiceRequester.cpp:561-569): a cached null payload is dereferenced. *)
Definition cached (s : rq) (o : nat) : rq * option payload :=
  match get o (cache s) with
  | Some (Some p) => (s, Some p)
  | Some None => (set_ub s, None)
  | None => (s, None)
  end.

(** subscribingProperty (ServiceRequester.cpp:585-588). *)
Definition subscribing (s : rq) (o : nat) : bool := match get o (registers s) with Some _ => true | None => false end.

Definition avail_eqb (a b : availability) : bool :=
  match a, b with Available, Available | Unavailable, Unavailable | Unknown, Unknown => true | _, _ => false end.

Definition is_partial (c : opcode) : bool := match c with PartialRequestUpdate => true | _ => false end.

Definition out (k : cbkind) (r : option (N * nat)) (a : acs) (code : opcode) : retval :=
  match k, code with
  | KPromise, _ => RVPay None (Some a)
  | _, StatusGet => RVStatus Success          (* getStatus(id, callback) passes no callStatus (cpp:409-412) *)
  | _, _ => RVReg r (Some a)
  end.

Definition has_promise (t : nat) (l : list entry) : bool :=
  existsb (fun e => Nat.eqb (e_owner e) t && match e_kind e with KPromise => true | _ => false end) l.

(** One step of call [t] standing at [p].  [alive]: some stored or running callback still owns the promise of call [t]
    (the promise is broken otherwise, ServiceRequester.cpp:194-199). *)
Definition run1 (w : oracle) (alive : bool) (s : rq) (t : nat) (p : pc) : rq * pc * list event :=
  match p with
  | PStart c =>
      match c with
      (* sendRequestAsync (cpp:70-79), sendRequest (cpp:149-158): refused unless the service is available *)
      | CSendAsync o pl h =>
          if available s then (s, PAlloc OpRequest o pl (if h then KUser else KNull) false, [])
          else (s, PDone, [ERet t (RVReg None (Some ServiceUnavailable))])
      | CSendSync o pl b =>
          if available s then (s, PAlloc OpRequest o pl KPromise b, [])
          else (s, PDone, [ERet t (RVPay None (Some ServiceUnavailable))])
      (* getStatus (cpp:381-397, 399-413) *)
      | CGetAsync o => if available s then (s, PGetSub false false o, []) else (s, PGetCached false ServiceUnavailable o, [])
      | CGetSync o b => if available s then (s, PGetSub true b o, []) else (s, PGetCached true ServiceUnavailable o, [])
      (* abortRequest (cpp:81-86) *)
      | CAbort rid o => if regid_ok rid o then (s, PAbortErase o rid, [])
                        else (s, PDone, [ERet t (RVOut (Some InvalidParam))])
      (* registerStatus, registerSignal (cpp:325-343), registerNotification (cpp:287-291) *)
      | CReg st o h =>
          if available s then
            if h then (s, PRegAlloc st o, []) else (s, PDone, [ERet t (RVReg None (Some InvalidParam))])
          else (s, PDone, [ERet t (RVReg None (Some ServiceUnavailable))])
      (* unregister (cpp:345-349, 361-364) *)
      | CUnregister rid o => if regid_ok rid o then (s, PUnregErase o rid, [])
                             else (s, PDone, [ERet t (RVStatus InvalidParam)])
      (* unregisterAll (cpp:368-372) *)
      | CUnregisterAll o => if available s then (s, PUallErase o, [])
                            else (s, PDone, [ERet t (RVStatus ServiceUnavailable)])
      (* onIncomingMessage (cpp:25-59) *)
      | CIncoming ok m =>
          if ok then
            match m_code m with
            | SignalRegister | StatusRegister | PartialRequestUpdate | OpRequest | StatusGet => (s, PInTake m, [])
            | _ => (s, PDone, [ERet t (RVBool false)])
            end
          else (s, PDone, [ERet t (RVBool true)])
      (* onServiceStatusChanged (cpp:244-248) *)
      | CServiceStatus ok old new =>
          if ok && negb (avail_eqb new (status s))
          then (s, PSvcSet old new, []) else (s, PDone, [ERet t RVUnit])
      | CObserve (Some x) => (s, PObsPush x, [])
      | CObserve None => (s, PDone, [ERet t RVUnit])
      (* unregisterServiceStatusObserver (cpp:143-147) *)
      | CUnobserve x => (set_observers s (filter (fun y => negb (Nat.eqb y x)) (observers s)), PDone, [ERet t RVUnit])
      (* deinit (cpp:166-170) *)
      | CDeinit => (set_requests s [], PDone, [ERet t RVUnit])
      end
  (* storeAndSendRequestToServer (cpp:501-519): allocateUniqueID (IDManager.h:49-54, one fetch_add per step) *)
  | PAlloc code o pl k b =>
      let id := counter s in
      let s' := set_counter s ((id + 1) mod 2 ^ 64)%N in
      if N.eqb id rid_invalid then (s', PAlloc code o pl k b, []) else (s', PStore code o pl k b id, [EAlloc t id])
  | PStore code o pl k b rid =>
      (set_requests s (fst (store_entry (requests s) o (Ent rid t k))), PSend code o pl k b rid, [])
  (* sendMessageToServer (cpp:492-499, 510-518); sendMessageSync goes on with waiting if the RegID is valid (cpp:211) *)
  | PSend code o pl k b rid => (s, PSent code o k b rid, [ESend t (Msg code o rid pl 0)])
  | PSent code o k b rid =>
      match o_res w with
      | Success =>
          match k with
          | KPromise => if regid_ok rid o then (s, PWait o rid b, [])
                        else (s, PDone, [ERet t (RVPay None (Some Success))])
          | _ => (s, PDone, [ERet t (out k (if regid_ok rid o then Some (rid, o) else None) Success code)])
          end
      | a => (s, PUndo code o k rid a, [])
      end
  | PUndo code o k rid a =>
      (set_requests s (fst (remove_entry (requests s) o rid)), PDone, [ERet t (out k None a code)])
  (* sendMessageSync (cpp:211-239) *)
  | PWait o rid b =>
      match get t (promises s) with
      | Some p => (s, PDone, [ERet t (RVPay p (Some Success))])
      | None => if negb alive then (s, PDone, [ERet t (RVPay None (Some ActionBroken))])
                else if b && o_expired w then (s, PExpErase o rid, []) else (s, PWait o rid b, [])
      end
  | PExpErase o rid =>
      let '(m, found) := erase_request (requests s) o rid in
      let s' := set_requests s m in
      if found then (s', PExpSend o rid, []) else (s', PDone, [ERet t (RVPay None (Some Timeout))])
  | PExpSend o rid =>
      (s, PDone, [ESend t (Msg Abort o rid None 0); ERet t (RVPay None (Some Timeout))])
  (* abortRequest (cpp:88-117) *)
  | PAbortErase o rid =>
      let '(m, found) := erase_request (requests s) o rid in
      let s' := set_requests s m in
      if found then (s', PAbortSend o rid, []) else (s', PDone, [ERet t (RVOut None)])
  | PAbortSend o rid =>
      (s, PDone, [ESend t (Msg Abort o rid None 0); ERet t (RVOut (Some (o_res w)))])
  (* registerNotification (cpp:287-316) *)
  | PRegAlloc st o =>
      let id := counter s in
      let s' := set_counter s ((id + 1) mod 2 ^ 64)%N in
      if N.eqb id rid_invalid then (s', PRegAlloc st o, []) else (s', PRegStore st o id, [EAlloc t id])
  | PRegStore st o rid =>
      let '(m, n) := store_entry (registers s) o (Ent rid t KUser) in
      let s' := set_registers s m in
      let r := if regid_ok rid o then Some (rid, o) else None in
      if Nat.eqb n 1 then (s', PRegSend st o rid, [])
      else if st then (s', PRegCached o rid, [])
      else (s', PDone, [ERet t (RVReg r None)])
  | PRegSend st o rid =>
      (s, PRegSent o rid, [ESend t (Msg (if st then StatusRegister else SignalRegister) o rid None 0)])
  | PRegSent o rid =>
      match o_res w with
      | Success => (s, PDone, [ERet t (RVReg (if regid_ok rid o then Some (rid, o) else None) (Some Success))])
      | a => (s, PRegUndo o rid a, [])
      end
  | PRegUndo o rid a =>
      (set_registers s (fst (remove_entry (registers s) o rid)), PDone, [ERet t (RVReg None (Some a))])
  | PRegCached o rid =>
      let r := if regid_ok rid o then Some (rid, o) else None in
      match cached s o with
      | (s', Some p) => (s', PRegCall o rid p, [])
      | (s', None) => (s', PDone, [ERet t (RVReg r (Some Success))])
      end
  | PRegCall o rid p =>
      (s, PDone, [ECb t t (Some p); ERet t (RVReg (if regid_ok rid o then Some (rid, o) else None) (Some Success))])
  (* unregister (cpp:347-360) *)
  | PUnregErase o rid =>
      let '(m, n) := remove_entry (registers s) o rid in
      let s' := set_registers s m in
      if Nat.eqb n 0 then (s', PUnregUncache o, []) else (s', PDone, [ERet t (RVStatus Success)])
  | PUnregUncache o => (set_cache s (del o (cache s)), PUnregCheck o, [])
  | PUnregCheck o =>
      if available s then (s, PUnregSend o, []) else (s, PDone, [ERet t (RVStatus ServiceUnavailable)])
  | PUnregSend o =>
      (s, PDone, [ESend t (Msg Unregister o rid_invalid None 0); ERet t (RVStatus Success)])
  (* unregisterAll (cpp:373-378) *)
  | PUallErase o => (set_registers s (del o (registers s)), PUallSend o, [])
  | PUallSend o => (s, PUallUncache o, [ESend t (Msg Unregister o rid_invalid None 0)])
  | PUallUncache o => (set_cache s (del o (cache s)), PDone, [ERet t (RVStatus Success)])
  (* getStatus (cpp:381-413) *)
  | PGetSub sync b o =>
      if subscribing s o then (s, PGetCached sync Success o, [])
      else if sync then (s, PGetCheck b o, []) else (s, PAlloc StatusGet o None KUser false, [])
  | PGetCheck b o =>
      if available s then (s, PAlloc StatusGet o None KPromise b, [])
      else (s, PDone, [ERet t (RVPay None (Some ServiceUnavailable))])
  | PGetCached sync a o =>
      let '(s', p) := cached s o in
      if sync then (s', PDone, [ERet t (RVPay p (Some a))]) else (s', PGetCall a p, [])
  | PGetCall a p => (s, PDone, [ECb t t p; ERet t (RVStatus a)])
  (* onRegistersUpdated (cpp:415-440), onRequestResult (cpp:442-482), cachePropertyStatus (cpp:571-574) *)
  | PInTake m =>
      match m_code m with
      | SignalRegister => (s, PInRun m (get_or [] (m_op m) (registers s)) false, [])
      | StatusRegister =>
          let l := get_or [] (m_op m) (registers s) in
          (s, PInRun m l (match l with [] => false | _ => true end), [])
      | _ =>
          let '(r, e) := take_request (requests s) (m_op m) (m_rid m) (is_partial (m_code m)) in
          (set_requests s r, PInRun m (match e with Some x => [x] | None => [] end) false, [])
      end
  | PInRun m (e :: todo) keep =>
      match e_kind e with
      | KNull => (s, PInRun m todo keep, [])
      | KUser => (s, PInRun m todo keep, [ECb t (e_owner e) (m_pay m)])
      | KPromise =>
          match get (e_owner e) (promises s) with
          | None => (set_promises s (put (e_owner e) (m_pay m) (promises s)), PInRun m todo keep,
                     [ECb t (e_owner e) (m_pay m)])
          | Some _ => (s, PDone, [EThrow t])
          end
      end
  | PInRun m [] keep =>
      (if keep then set_cache s (put (m_op m) (m_pay m) (cache s)) else s, PDone, [ERet t (RVBool true)])
  (* onServiceStatusChanged (cpp:248-256), clearAllRequests, clearAllRegisterEntries (cpp:484-490) *)
  | PSvcSet old new =>
      (set_status s new, match new with Unavailable => PSvcClearReq old new | _ => PSvcForward old new end, [EStatus t new])
  | PSvcClearReq old new => (set_requests s [], PSvcClearReg old new, [])
  | PSvcClearReg old new => (set_registers s [], PSvcForward old new, [])
  (* forwardServiceStatusToObservers (cpp:259-285), under the lock *)
  | PSvcForward old new =>
      (set_observers s (filter (fun x => negb (o_gone w x)) (observers s)), PDone,
       map (fun x => ENotify t x old new) (observers s) ++ [ERet t RVUnit])
  (* registerServiceStatusObserver (cpp:120-141) *)
  | PObsPush x =>
      let s' := set_observers s (observers s ++ [x]) in
      if available s then (s', PObsCall x, []) else (s', PDone, [ERet t RVUnit])
  | PObsCall x => (s, PDone, [ENotify t x Unknown Available; ERet t RVUnit])
  | PDone => (s, PDone, [])
  end.

(** ** Histories *)
Record st := St { sh : rq; thr : list pc }.
Definition st_new : st := St rq_new [].

Inductive label := LCall (c : call) | LRun (t : nat) (w : oracle).

(** The promise of call [t] still has an owner: an entry of the request table or a callback about to run. *)
Definition alive (s : st) (t : nat) : bool :=
  existsb (fun kv => has_promise t (snd kv)) (requests (sh s))
  || existsb (fun p => match p with PInRun _ l _ => has_promise t l | _ => false end) (thr s).

Definition step (s : st) (l : label) : st * list event :=
  match l with
  | LCall c => (St (sh s) (thr s ++ [PStart c]), [])
  | LRun t w =>
      match nth_error (thr s) t with
      | None => (s, [])
      | Some p => let '(sh', p', e) := run1 w (alive s t) (sh s) t p in (St sh' (set_nth t p' (thr s)), e)
      end
  end.

Fixpoint run (s : st) (h : list label) : st * list event :=
  match h with
  | [] => (s, [])
  | l :: h' => let '(s1, e1) := step s l in let '(s2, e2) := run s1 h' in (s2, e1 ++ e2)
  end.
