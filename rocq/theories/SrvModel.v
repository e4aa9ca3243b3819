(** The server object that owns the providers and tells clients which services are served:
    client-server/ServerBase.cpp:11-55, client-server/ipc/LocalIPCServer.cpp:46-136,153-172 and
    ServiceProvider::startServing / stopServing (ServiceProvider.cpp:215-229).

    Threads call the API concurrently; a step of a thread is the work it does between two points where another thread
    can interfere (one lock-protected section, one socket send, one access to the atomic availability_).
    Simplified: std::map / std::set iterate in insertion order instead of key order; service ids and addresses are
    opaque names; a service id of [None] is ServiceIDInvalid; what a provider does with a message handed to it is in
    ProvModel.v: here it is one event with an arbitrary result; the server object outlives the calls
    (server_.lock() succeeds); the result of every socket send is an arbitrary input. *)
From Verif Require Import ListUtil.
From Verif Require Export CsTypes.

(** A message arriving at the server (CSMessage.h:51-56): the fields that decide who handles it. *)
Record smsg := SMsg { s_sid : option nat; s_code : opcode; s_src : nat }.

(** ServerIF.h / ServiceProviderIF.h: the calls of the API.  Providers are named by their index of creation. *)
Inductive call :=
  | CGet (sid : nat)            (* server->getServiceProvider(sid) *)
  | CHas (sid : nat)            (* server->hasServiceProvider(sid) *)
  | CStart (o : nat)            (* provider->startServing() *)
  | CStop (o : nat)             (* provider->stopServing() *)
  | CIn (m : smsg)              (* a message from a client: server->onIncomingMessage(msg) *)
  | CDeinit.                    (* server->deinit() *)

Inductive pc :=
  | QGet (sid : nat)                                       (* ServerBase.cpp:11-18 *)
  | QHas (sid : nat)                                       (* ServerBase.cpp:20-22 *)
  | QSet (o : nat) (av : availability)                     (* ServiceProvider.cpp:216/224: availability_ = ... *)
  | QCheck (sid : nat) (av : availability)                 (* ServerBase.cpp:50-51 *)
  | QNotify (sid : nat) (av : availability)                (* LocalIPCServer.cpp:68-75: about to lock registedClAddrs_ *)
  | QLoop (sid : nat) (av : availability) (todo : list nat)(* LocalIPCServer.cpp:76-90: holds the lock of registedClAddrs_ *)
  | QRegIns (a : nat)                                      (* LocalIPCServer.cpp:102 *)
  | QRegLock (a : nat)                                     (* LocalIPCServer.cpp:104 *)
  | QRegLoop (a : nat) (todo : list (nat * nat))           (* LocalIPCServer.cpp:105-106: holds the lock of providers_ *)
  | QRegSend (a : nat) (sid : nat) (todo : list (nat * nat)) (* LocalIPCServer.cpp:107-109,157-170 *)
  | QUnErase (m : smsg)                                    (* LocalIPCServer.cpp:121 *)
  | QUnLock (m : smsg)                                     (* LocalIPCServer.cpp:122 *)
  | QUnLoop (m : smsg) (todo : list (nat * nat))           (* LocalIPCServer.cpp:123-126: holds the lock of providers_ *)
  | QFind (m : smsg)                                       (* ServerBase.cpp:25-27 *)
  | QDisp (o : nat) (m : smsg)                             (* ServerBase.cpp:28 *)
  | QMove                                                  (* ServerBase.cpp:37 *)
  | QFree (os : list nat)                                  (* ServerBase.cpp:42-44 *)
  | QDone.

(** [rest]: the providers deinit() still has to stop (ServerBase.cpp:39-41); [fin]: those it deinitialises afterwards. *)
Record thread := Th { at_ : pc; rest : list nat; fin : list nat }.

(** Observable effects. *)
Inductive event :=
  | ECall (t : nat) (c : call)
  | ERet (t : nat) (v : bool)
  | EGot (t : nat) (sid o : nat)                          (* getServiceProvider(sid) returned provider o *)
  | ESend (a sid : nat) (av : availability) (r : acs)     (* a ServiceStatusUpdate for sid is sent to client a *)
  | EDisp (t : nat) (o : nat) (m : smsg)                  (* provider o is given message m *)
  | EFree (o : nat).                                      (* provider o is deinitialised *)

(** A provider object: its service and availability_ (ServiceProvider.h:102). *)
Record prov := Prov { p_sid : nat; p_av : availability }.

Record state := St {
  objs : list prov;                (* every provider ever made *)
  provs : amap nat;                (* ServerBase::providers_ *)
  addrs : list nat;                (* LocalIPCServer::registedClAddrs_ *)
  plock : option nat;              (* who holds the lock of providers_ across steps *)
  alock : option nat;              (* who holds the lock of registedClAddrs_ across steps *)
  ths : list thread;
  tr : list event }.

Definition init : state := St [] [] [] None None [] [].

Definition goto (s : state) (t : nat) (th : thread) (q : pc) : state :=
  St (objs s) (provs s) (addrs s) (plock s) (alock s) (set_nth t (Th q (rest th) (fin th)) (ths s)) (tr s).
Definition say (s : state) (es : list event) : state :=
  St (objs s) (provs s) (addrs s) (plock s) (alock s) (ths s) (tr s ++ es).
Definition set_objs (s : state) o := St o (provs s) (addrs s) (plock s) (alock s) (ths s) (tr s).
Definition set_provs (s : state) p := St (objs s) p (addrs s) (plock s) (alock s) (ths s) (tr s).
Definition set_addrs (s : state) a := St (objs s) (provs s) a (plock s) (alock s) (ths s) (tr s).
Definition set_plock (s : state) l := St (objs s) (provs s) (addrs s) l (alock s) (ths s) (tr s).
Definition set_alock (s : state) l := St (objs s) (provs s) (addrs s) (plock s) l (ths s) (tr s).
Definition set_th (s : state) (t : nat) (th : thread) :=
  St (objs s) (provs s) (addrs s) (plock s) (alock s) (set_nth t th (ths s)) (tr s).

(** A call returns. *)
Definition ret (s : state) (t : nat) (th : thread) (v : bool) : state := say (goto s t th QDone) [ERet t v].

(** startServing() / stopServing() is over: return, or go on with deinit() (ServerBase.cpp:39-44). *)
Definition served (s : state) (t : nat) (th : thread) : state :=
  match rest th, fin th with
  | o :: r, _ => set_th s t (Th (QSet o Unavailable) r (fin th))
  | [], [] => ret s t th true
  | [], os => goto s t th (QFree os)
  end.

(** LocalIPCServer::onIncomingMessage (LocalIPCServer.cpp:96-136): the switch; the result is where the call starts. *)
Definition incoming (m : smsg) : pc :=
  match s_code m with
  | RegisterServiceStatus => QRegIns (s_src m)
  | UnregisterServiceStatus => match s_sid m with None => QUnErase m | Some _ => QFind m end
  | _ => QFind m
  end.

Definition start_pc (s : state) (c : call) : option pc :=
  match c with
  | CGet sid => Some (QGet sid)
  | CHas sid => Some (QHas sid)
  | CStart o => match nth_error (objs s) o with Some _ => Some (QSet o Available) | None => None end
  | CStop o => match nth_error (objs s) o with Some _ => Some (QSet o Unavailable) | None => None end
  | CIn m => Some (incoming m)
  | CDeinit => Some QMove
  end.

(** util::get(providers_, msg->serviceID()) (ServerBase.cpp:26). *)
Definition find (s : state) (m : smsg) : option nat :=
  match s_sid m with Some sid => get sid (provs s) | None => None end.

(** LocalIPCServer.cpp:81-82: results after which the address is forgotten. *)
Definition gone (r : acs) : bool := match r with ReceiverUnavailable | FailedUnknown => true | _ => false end.

(** ServiceProvider::availability() (ServiceProvider.cpp:205). *)
Definition av_of (s : state) (o : nat) : availability :=
  match nth_error (objs s) o with Some p => p_av p | None => Unavailable end.
Definition is_av (a : availability) : bool := match a with Available => true | _ => false end.

(** One step of thread [t]: [r] is the result of the send it makes, [ok] the result of the provider it calls. *)
Definition run (s : state) (t : nat) (r : acs) (ok : bool) : state :=
  match nth_error (ths s) t with
  | None => s
  | Some th =>
    match at_ th with
    | QGet sid =>
        match plock s with Some _ => s | None =>
          match get sid (provs s) with
          | Some o => ret (say s [EGot t sid o]) t th true
          | None => ret (say (set_provs (set_objs s (objs s ++ [Prov sid Unavailable])) (put sid (length (objs s)) (provs s)))
                             [EGot t sid (length (objs s))]) t th true
          end end
    | QHas sid =>
        match plock s with Some _ => s | None =>
          ret s t th (match get sid (provs s) with Some _ => true | None => false end) end
    | QSet o av =>
        match nth_error (objs s) o with
        | None => s
        | Some p => goto (set_objs s (set_nth o (Prov (p_sid p) av) (objs s))) t th (QCheck (p_sid p) av)
        end
    | QCheck sid av =>
        match plock s with Some _ => s | None =>
          match get sid (provs s) with Some _ => goto s t th (QNotify sid av) | None => served s t th end end
    | QNotify sid av =>
        match alock s with Some _ => s | None => goto (set_alock s (Some t)) t th (QLoop sid av (addrs s)) end
    | QLoop sid av [] => served (set_alock s None) t th
    | QLoop sid av (a :: l) =>
        say (goto (if gone r then set_addrs s (set_del a (addrs s)) else s) t th (QLoop sid av l)) [ESend a sid av r]
    | QRegIns a =>
        match alock s with Some _ => s | None => goto (set_addrs s (set_add a (addrs s))) t th (QRegLock a) end
    | QRegLock a =>
        match plock s with Some _ => s | None => goto (set_plock s (Some t)) t th (QRegLoop a (provs s)) end
    | QRegLoop a [] => ret (set_plock s None) t th true
    | QRegLoop a ((sid, o) :: l) =>
        goto s t th (if is_av (av_of s o) then QRegSend a sid l else QRegLoop a l)
    | QRegSend a sid l => say (goto s t th (QRegLoop a l)) [ESend a sid Available r]
    | QUnErase m =>
        match alock s with Some _ => s | None => goto (set_addrs s (set_del (s_src m) (addrs s))) t th (QUnLock m) end
    | QUnLock m =>
        match plock s with Some _ => s | None => goto (set_plock s (Some t)) t th (QUnLoop m (provs s)) end
    | QUnLoop m [] => ret (set_plock s None) t th true
    | QUnLoop m ((sid, o) :: l) =>
        say (goto s t th (QUnLoop m l)) [EDisp t o (SMsg (Some sid) (s_code m) (s_src m))]
    | QFind m =>
        match plock s with Some _ => s | None =>
          match find s m with Some o => goto s t th (QDisp o m) | None => ret s t th false end end
    | QDisp o m => ret (say s [EDisp t o m]) t th ok
    | QMove =>
        match plock s with Some _ => s | None =>
          let os := map snd (provs s) in
          match os with
          | [] => ret s t th true
          | o :: l => set_th (set_provs s []) t (Th (QSet o Unavailable) l os)
          end end
    | QFree [] => ret s t th true
    | QFree (o :: l) => say (goto s t th (QFree l)) [EFree o]
    | QDone => s
    end
  end.

(** A history: API calls are made and threads make steps, in any order. *)
Inductive label := LCall (c : call) | LRun (t : nat) (r : acs) (ok : bool).

Definition next (s : state) (l : label) : state :=
  match l with
  | LCall c =>
      match start_pc s c with
      | None => s
      | Some q => say (St (objs s) (provs s) (addrs s) (plock s) (alock s) (ths s ++ [Th q [] []]) (tr s)) [ECall (length (ths s)) c]
      end
  | LRun t r ok => run s t r ok
  end.

Definition final (h : list label) : state := fold_left next h init.
Definition trace (h : list label) : list event := tr (final h).
