(** Model of the typed client side: BasicProxy.h and ResponseT.h, on top of the requester model (ReqModel).
    Several proxies (made by createProxy and with) may share one requester; any number of calls run concurrently, see
    ReqModel.  Simplifications: the translation of outgoing parameters is not modelled (the payload is given); the
    translation of incoming content is a function of the content (a C++ type is described by whether it is encodable
    and by that function); an executor is a queue of accepted tasks of which it may run or discard any, or it refuses a
    task (execute() returning false or throwing nothing away is ignored by the proxy); status observers are passed on
    to the requester (onServiceStatusChanged with a callback, BasicProxy.h:212-224, is not modelled). *)
From Verif Require Import CsTypes ListUtil.
From Verif Require Export ReqModel.

(** TranslationStatus (ParamTranslatingStatus.h:10-15). *)
Inductive tstatus := TSuccess | TNoSource | TCorrupted | TMismatch.
(** A parameter type: encodable<CSParam>() (ParamTraitBase.h:28-31), and translate<CSParam> of content [n]: the pointer
    returned and the translation status, [None]: left unassigned. *)
Record ptype := PT { enc : bool; dec : nat -> option nat * option tstatus }.

(** ResponseT (ResponseT.h:11-54): nothing, a (possibly null) output, an error. *)
Inductive resp := NoValue | Output (v : option nat) | RError (c : errcode).

(** convert (BasicProxy.h:304-326): the status variable starts with DestSrcMismatch. *)
Definition convert (ty : ptype) (p : option payload) : option nat :=
  if enc ty then
    match p with
    | Some (Data n) =>
        let '(v, st) := dec ty n in
        match match st with Some x => x | None => TMismatch end with TMismatch => None | _ => v end
    | _ => None
    end
  else None.
(** getResposne (BasicProxy.h:271-292). *)
Definition get_response (ty : ptype) (p : option payload) : resp :=
  match p with
  | None => Output None
  | Some (Err c) => RError c
  | Some (Data _) => if enc ty then Output (convert ty p) else NoValue
  end.

(** The user's callback inside a wrapper, and what it is called with. *)
Inductive usercb := UResp (ty : ptype) (f : nat) | UUpd (ty : ptype) (f : nat) | UVoid (f : nat).
Inductive arg := AResp (r : resp) | AUpd (v : option nat) | AVoid.
(** The tasks' bodies (BasicProxy.h:233-239, 257-260, 374-377). *)
Definition argument (cb : usercb) (p : option payload) : nat * arg :=
  match cb with
  | UResp ty f => (f, AResp (get_response ty p))
  | UUpd ty f => (f, AUpd (convert ty p))
  | UVoid f => (f, AVoid)
  end.

(** A wrapper (the lambdas at BasicProxy.h:232-240, 256-261, 374-377): the captured executor and the user's callback;
    [None]: moved out.  Calling it hands a task to the executor; the first two lambdas move their callback into it. *)
Record wrapper := Wrap { w_ex : nat; w_cb : option usercb }.
Definition call_wrapper (w : wrapper) : wrapper * option usercb :=
  match w_cb w with
  | Some (UVoid f) => (w, Some (UVoid f))
  | Some cb => (Wrap (w_ex w) None, Some cb)
  | None => (w, None)
  end.

(** What the proxy keeps for a running call of the requester: the wrapper given with it, and what becomes of its result. *)
Inductive post := Plain | PostSend (ty : ptype) | PostGet (ty : ptype).
Record info := Info { i_wrap : option wrapper; i_post : post }.

Record task := Task { k_owner : nat; k_cb : option usercb; k_pay : option payload }.

Record px := Px
  { rs : st;                          (* the requester *)
    execs : list (option nat);        (* executor_ of each proxy *)
    infos : list info;                (* one for each call of the requester *)
    queues : nat -> list task }.      (* accepted by each executor, not yet run *)
Definition px_new (x : option nat) : px := Px st_new [x] [] (fun _ => []).

(** The calls of a proxy. *)
Inductive pcall :=
| QSend (ty : ptype) (o : nat) (p : option payload) (cb : option nat)   (* sendRequestAsync; [None]: empty callback *)
| QSendSync (ty : ptype) (o : nat) (p : option payload) (bounded : bool)
| QRegStatus (ty : ptype) (o : nat) (cb : option nat)
| QRegSignal (ty : ptype) (o : nat) (cb : option nat)
| QRegVoid (o : nat) (cb : option nat)                                  (* registerSignal<Signal>(std::function<void()>) *)
| QGet (ty : ptype) (o : nat) (cb : option nat)
| QGetSync (ty : ptype) (o : nat) (bounded : bool)
| QUnregister (rid : N) (o : nat) | QUnregisterAll (o : nat) | QAbort (rid : N) (o : nat)
| QObserve (x : option nat) | QUnobserve (x : nat).

(** What a proxy call returns. *)
Inductive pret := PRaw (v : retval) | PResponse (r : resp) (a : acs) | PStatus (v : option nat) (a : option acs).

Inductive pevent :=
| QEv (e : event)                                 (* at the requester *)
| QRefused (v : retval)                           (* a call that did not reach the requester returned v *)
| QRet (t : nat) (v : pret)                       (* the call returned *)
| QSubmit (x t : nat) (p : option payload) (ok : bool)  (* the callback of call t was handed to executor x *)
| QCall (x t f : nat) (a : arg)                   (* executor x ran callback f, given with call t *)
| QBad (x t : nat)                                (* it called an empty std::function: std::bad_function_call *)
| QDropped (x t : nat) (p : option payload).      (* executor x destroyed the task without running it *)

Inductive plabel :=
| LProxy (i : nat) (c : pcall)                    (* a call on proxy i begins *)
| LRequester (c : call)                           (* a call on the requester itself begins: messages, service status, deinit *)
| LStep (t : nat) (w : oracle) (accept : nat -> bool)  (* a step of requester call t; which executors accept tasks *)
| LExec (x i : nat) | LDrop (x i : nat)           (* executor x runs / destroys its i-th task *)
| LSetExecutor (i : nat) (x : option nat)         (* setExecutor *)
| LWith (i : nat) (x : nat).                      (* with: a new proxy *)

(** createResponseMsgHandlerCallback, createUpdateMsgHandlerCallback (BasicProxy.h:226-269), and registerSignal's own
    wrapper (lines 371-377): empty without callback or executor. *)
Definition wrap (x : option nat) (mk : nat -> usercb) (cb : option nat) : option wrapper :=
  match cb, x with Some f, Some e => Some (Wrap e (Some (mk f))) | _, _ => None end.
Definition given {A} (o : option A) : bool := match o with Some _ => true | None => false end.

(** What a proxy call asks of the requester, or the value it returns at once. *)
Definition ask (x : option nat) (c : pcall) : (call * info) + retval :=
  match c with
  (* BasicProxy.h:437-462: an empty wrapper is passed on *)
  | QSend ty o p cb => let w := wrap x (UResp ty) cb in inl (CSendAsync o p (given w), Info w Plain)
  (* BasicProxy.h:464-508 *)
  | QSendSync ty o p b => inl (CSendSync o p b, Info None (PostSend ty))
  (* BasicProxy.h:328-345 *)
  | QRegStatus ty o cb =>
      match wrap x (UUpd ty) cb with
      | Some w => inl (CReg true o true, Info (Some w) Plain)
      | None => inr (RVReg None (Some InvalidParam))
      end
  (* BasicProxy.h:347-365 *)
  | QRegSignal ty o cb =>
      match wrap x (UUpd ty) cb with
      | Some w => inl (CReg false o true, Info (Some w) Plain)
      | None => inr (RVReg None (Some InvalidParam))
      end
  (* BasicProxy.h:367-392: callStatus is not assigned *)
  | QRegVoid o cb =>
      match wrap x UVoid cb with
      | Some w => inl (CReg false o true, Info (Some w) Plain)
      | None => inr (RVReg None None)
      end
  (* BasicProxy.h:423-435 *)
  | QGet ty o cb =>
      match wrap x (UUpd ty) cb with
      | Some w => inl (CGetAsync o, Info (Some w) Plain)
      | None => inr (RVStatus InvalidParam)
      end
  (* BasicProxy.h:411-421 *)
  | QGetSync ty o b => inl (CGetSync o b, Info None (PostGet ty))
  (* BasicProxy.h:200-210, 394-410 *)
  | QUnregister rid o => inl (CUnregister rid o, Info None Plain)
  | QUnregisterAll o => inl (CUnregisterAll o, Info None Plain)
  | QAbort rid o => inl (CAbort rid o, Info None Plain)
  | QObserve y => inl (CObserve y, Info None Plain)
  | QUnobserve y => inl (CUnobserve y, Info None Plain)
  end.

(** The value returned, from the requester's (BasicProxy.h:411-421, 485-508). *)
Definition result (k : post) (v : retval) : pret :=
  match k, v with
  | PostSend ty, RVPay p a =>
      let a := match a with Some x => x | None => FailedUnknown end in
      PResponse (match a with Success => get_response ty p | _ => RError EOperationFailed end) a
  | PostGet ty, RVPay p a => PStatus (match p with Some _ => convert ty p | None => None end) a
  | _, _ => PRaw v
  end.

Definition set_rs (s : px) r := Px r (execs s) (infos s) (queues s).
Definition set_execs (s : px) e := Px (rs s) e (infos s) (queues s).
Definition set_infos (s : px) i := Px (rs s) (execs s) i (queues s).
Definition set_queues (s : px) q := Px (rs s) (execs s) (infos s) q.
Definition enqueue (x : nat) (k : task) (q : nat -> list task) : nat -> list task :=
  fun y => if Nat.eqb y x then q y ++ [k] else q y.

(** What happens at an event of the requester.  A callback is run through a copy of the stored one
    (ServiceRequester.cpp:415-440, 442-482, and registerNotification's own copy, line 296 and 311), except that getStatus
    calls the one it was given (lines 403-406), once. *)
Definition on_event (acc : nat -> bool) (s : px) (e : event) : px * list pevent :=
  match e with
  | ECb t owner p =>
      match nth_error (infos s) owner with
      | Some (Info (Some w) _) =>
          let '(_, cb) := call_wrapper w in
          if acc (w_ex w) then (set_queues s (enqueue (w_ex w) (Task owner cb p) (queues s)), [QEv e; QSubmit (w_ex w) owner p true])
          else (s, [QEv e; QSubmit (w_ex w) owner p false])
      | _ => (s, [QEv e])
      end
  | ERet t v =>
      match nth_error (infos s) t with
      | Some i => (s, [QEv e; QRet t (result (i_post i) v)])
      | None => (s, [QEv e])
      end
  | _ => (s, [QEv e])
  end.
Fixpoint on_events (acc : nat -> bool) (s : px) (l : list event) : px * list pevent :=
  match l with
  | [] => (s, [])
  | e :: l' => let '(s1, a) := on_event acc s e in let '(s2, b) := on_events acc s1 l' in (s2, a ++ b)
  end.

Definition begin (s : px) (c : call) (i : info) : px :=
  set_infos (set_rs s (fst (step (rs s) (LCall c)))) (infos s ++ [i]).
Definition remove_nth {A} (i : nat) (l : list A) : list A := firstn i l ++ skipn (S i) l.
Definition set_queue (x : nat) (l : list task) (q : nat -> list task) : nat -> list task := fun y => if Nat.eqb y x then l else q y.

Definition pstep (s : px) (l : plabel) : px * list pevent :=
  match l with
  | LProxy i c =>
      match nth_error (execs s) i with
      | Some x => match ask x c with inl (c', inf) => (begin s c' inf, []) | inr v => (s, [QRefused v]) end
      | None => (s, [])
      end
  | LRequester c => (begin s c (Info None Plain), [])
  | LStep t w acc =>
      let '(r, ev) := step (rs s) (LRun t w) in on_events acc (set_rs s r) ev
  | LExec x i =>
      match nth_error (queues s x) i with
      | Some k =>
          (set_queues s (set_queue x (remove_nth i (queues s x)) (queues s)),
           match k_cb k with
           | Some cb => let '(f, a) := argument cb (k_pay k) in [QCall x (k_owner k) f a]
           | None => [QBad x (k_owner k)]
           end)
      | None => (s, [])
      end
  | LDrop x i =>
      match nth_error (queues s x) i with
      | Some k => (set_queues s (set_queue x (remove_nth i (queues s x)) (queues s)), [QDropped x (k_owner k) (k_pay k)])
      | None => (s, [])
      end
  (* BasicProxy.h:509-530 *)
  | LSetExecutor i x => (match nth_error (execs s) i with Some _ => set_execs s (set_nth i x (execs s)) | None => s end, [])
  | LWith i x => (match nth_error (execs s) i with Some _ => set_execs s (execs s ++ [Some x]) | None => s end, [])
  end.

Fixpoint prun (s : px) (h : list plabel) : px * list pevent :=
  match h with
  | [] => (s, [])
  | l :: h' => let '(s1, e1) := pstep s l in let '(s2, e2) := prun s1 h' in (s2, e1 ++ e2)
  end.
