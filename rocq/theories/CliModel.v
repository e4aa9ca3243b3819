(** The client object that owns the requesters and keeps track of which services are available:
    client-server/ClientBase.cpp:13-135 and client-server/ipc/LocalIPCClient.cpp:88-141.

    Threads call the API concurrently; a step is one lock-protected section, one socket send or one call into a
    requester.  Simplified: std::map iterates in insertion order instead of key order; service ids are opaque names
    and [None] is ServiceIDInvalid; what a requester does with a message is in ReqModel.v: here it is one event with an
    arbitrary result; ServiceRequester::onServiceStatusChanged (ServiceRequester.cpp:244-257) is reduced to the status it
    stores; the status the connection check reports is Available or Unavailable
    (LocalIPCBufferSenderImpl.cpp:40-41); send results are arbitrary inputs. *)
From Verif Require Import ListUtil.
From Verif Require Export CsTypes.

(** A message arriving at the client: a service status update for a valid service id, or anything else. *)
Inductive cmsg :=
  | MStatus (sid : nat) (op : option availability)  (* ServiceStatusUpdate: OpID_ServiceAvailable / _ServiceUnavailable / other *)
  | MOther (sid : option nat) (code : opcode).

Inductive call :=
  | CGet (sid : nat)            (* client->getServiceRequester(sid) *)
  | CHas (sid : nat)            (* client->hasServiceRequester(sid) *)
  | CAsk (sid : nat)            (* client->getServiceStatus(sid) *)
  | CIn (m : cmsg)              (* a message from the server: client->onIncomingMessage(msg) *)
  | CPoll (up : bool)           (* monitorServerStatus(): the connection check reports up *)
  | CDeinit.                    (* client->deinit() *)

Inductive pc :=
  | QGet (sid : nat)                                 (* ClientBase.cpp:81-102 *)
  | QHas (sid : nat)                                 (* ClientBase.cpp:40-42 *)
  | QAsk (sid : nat)                                 (* ClientBase.cpp:104-112 *)
  | QStore (sid : nat) (av : availability)           (* ClientBase.cpp:50/54,77-79 *)
  | QStore2 (sid : nat) (av : availability)          (* ClientBase.cpp:30 *)
  | QTell (sid : nat) (av : availability)            (* ClientBase.cpp:31-37 *)
  | QTrue                                            (* ClientBase.cpp:58: other operation ids *)
  | QFind (sid : option nat) (code : opcode)         (* ClientBase.cpp:61-67 *)
  | QDisp (o : nat) (sid : option nat) (code : opcode) (* ClientBase.cpp:69-71 *)
  | QPoll (up : bool)                                (* LocalIPCClient.cpp:128-129 *)
  | QClear                                           (* ClientBase.cpp:16 *)
  | QTellAll                                         (* ClientBase.cpp:17-20 *)
  | QDown                                            (* LocalIPCClient.cpp:123 *)
  | QRegister                                        (* LocalIPCClient.cpp:109-116 *)
  | QDeinit                                          (* ClientBase.cpp:117-124 *)
  | QUnreg (todo : list nat)                         (* ClientBase.cpp:126-134; that the lock of _serviceStatusMap is
                                                        held meanwhile is not modelled: more interleavings are allowed *)
  | QDone.

Inductive event :=
  | ECall (t : nat) (c : call)
  | ERet (t : nat) (v : bool)
  | EGot (t : nat) (sid o : nat)                     (* getServiceRequester(sid) returned requester o *)
  | EAns (t : nat) (sid : nat) (av : availability)   (* getServiceStatus(sid) returned av *)
  | ETold (o : nat) (av : availability)              (* requester o is told its service is av *)
  | EDisp (t : nat) (o : nat) (sid : option nat) (code : opcode)  (* requester o is given the message *)
  | ERegister (r : acs)                              (* RegisterServiceStatus sent to the server, with result *)
  | EUnregister (sid : nat) (r : acs)                (* UnregisterServiceStatus with service id sid sent to the server *)
  | EFree (o : nat).                                 (* requester o is deinitialised *)

(** A requester: its service and ServiceRequester::serviceStatus_ (ServiceRequester.h:146). *)
Record req := Req { r_sid : nat; r_av : availability }.

Record state := St {
  objs : list req;               (* every requester ever made *)
  reqs : amap nat;               (* _requestersMap *)
  stats : amap availability;     (* _serviceStatusMap *)
  cur : availability;            (* currentServerStatus_ *)
  ths : list pc;
  tr : list event }.

Definition init : state := St [] [] [] Unavailable [] [].

Definition goto (s : state) (t : nat) (q : pc) : state := St (objs s) (reqs s) (stats s) (cur s) (set_nth t q (ths s)) (tr s).
Definition say (s : state) (es : list event) : state := St (objs s) (reqs s) (stats s) (cur s) (ths s) (tr s ++ es).
Definition set_objs (s : state) x := St x (reqs s) (stats s) (cur s) (ths s) (tr s).
Definition set_reqs (s : state) x := St (objs s) x (stats s) (cur s) (ths s) (tr s).
Definition set_stats (s : state) x := St (objs s) (reqs s) x (cur s) (ths s) (tr s).
Definition set_cur (s : state) x := St (objs s) (reqs s) (stats s) x (ths s) (tr s).
Definition ret (s : state) (t : nat) (v : bool) : state := say (goto s t QDone) [ERet t v].

(** requester->onServiceStatusChanged(sid, _, av) (ServiceRequester.cpp:248-249). *)
Definition tell (s : state) (av : availability) (o : nat) : state :=
  match nth_error (objs s) o with
  | Some x => say (set_objs s (set_nth o (Req (r_sid x) av) (objs s))) [ETold o av]
  | None => s
  end.

(** ClientBase::onIncomingMessage (ClientBase.cpp:44-75): where the call starts. *)
Definition incoming (m : cmsg) : pc :=
  match m with
  | MStatus sid (Some av) => QStore sid av
  | MStatus _ None => QTrue
  | MOther sid code => QFind sid code
  end.

Definition start_pc (c : call) : pc :=
  match c with
  | CGet sid => QGet sid
  | CHas sid => QHas sid
  | CAsk sid => QAsk sid
  | CIn m => incoming m
  | CPoll up => QPoll up
  | CDeinit => QDeinit
  end.

Definition is_av (a : availability) : bool := match a with Available => true | _ => false end.
Definition is_ok (r : acs) : bool := match r with Success => true | _ => false end.
Definition find (s : state) (sid : option nat) : option nat := match sid with Some x => get x (reqs s) | None => None end.

Definition run (s : state) (t : nat) (r : acs) (ok : bool) : state :=
  match nth_error (ths s) t with
  | None => s
  | Some q =>
    match q with
    | QGet sid =>
        match get sid (reqs s) with
        | Some o => ret (say s [EGot t sid o]) t true
        | None =>
            let o := length (objs s) in
            let s1 := set_reqs (set_objs s (objs s ++ [Req sid Unavailable])) (put sid o (reqs s)) in
            let s2 := match get sid (stats s) with Some av => tell s1 av o | None => s1 end in
            ret (say s2 [EGot t sid o]) t true
        end
    | QHas sid => ret s t (match get sid (reqs s) with Some _ => true | None => false end)
    | QAsk sid => ret (say s [EAns t sid (get_or Unavailable sid (stats s))]) t true
    | QStore sid av => goto (set_stats s (put sid av (stats s))) t (QStore2 sid av)
    | QStore2 sid av => goto (set_stats s (put sid av (stats s))) t (QTell sid av)
    | QTell sid av => ret (match get sid (reqs s) with Some o => tell s av o | None => s end) t true
    | QTrue => ret s t true
    | QFind sid code => match find s sid with Some o => goto s t (QDisp o sid code) | None => ret s t false end
    | QDisp o sid code => ret (say s [EDisp t o sid code]) t ok
    | QPoll true => if is_av (cur s) then ret s t true else goto s t QRegister
    | QPoll false => match cur s with Unavailable => ret s t true | _ => goto s t QClear end
    | QClear => goto (set_stats s []) t QTellAll
    | QTellAll => goto (fold_left (fun s' x => tell s' Unavailable (snd x)) (reqs s) s) t QDown
    | QDown => ret (set_cur s Unavailable) t true
    | QRegister => ret (say (if is_ok r then set_cur s Available else s) [ERegister r]) t true
    | QDeinit => goto (say (set_reqs s []) (map (fun x => EFree (snd x)) (reqs s))) t (QUnreg (keys (stats s)))
    | QUnreg [] => ret (set_stats s []) t true
    | QUnreg (sid :: l) => say (goto s t (QUnreg l)) [EUnregister sid r]
    | QDone => s
    end
  end.

Inductive label := LCall (c : call) | LRun (t : nat) (r : acs) (ok : bool).

Definition next (s : state) (l : label) : state :=
  match l with
  | LCall c => say (St (objs s) (reqs s) (stats s) (cur s) (ths s ++ [start_pc c]) (tr s)) [ECall (length (ths s)) c]
  | LRun t r ok => run s t r ok
  end.

Definition final (h : list label) : state := fold_left next h init.
Definition trace (h : list label) : list event := tr (final h).
