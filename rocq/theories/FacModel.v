(** Model of csmgmt (src/common/maf/messaging/client-server/CSMgmt.cpp:11-57) and of the factories behind it
    (ClientFactory.cpp:15-73, ServerFactory.cpp:15-73, include/maf/utils/containers/Map2D.h:14-25): who hands out service
    requesters and providers.

    Any number of threads; every API call is an agent (number [t] = the [t]-th call made).  A step is one critical section:
    getClient / getServer run with the factory locked from beginning to end; close() keeps the factory locked too, but what it
    does to each client is a step of its own, because clients and servers can be used meanwhile; getServiceRequester /
    getServiceProvider on the client / server found is a step of its own.
    Clients and servers are numbered; number 0 is the itc singleton (itc/Client.cpp:20-23, itc/Server.cpp:24-27), whose start,
    stop and deinit do nothing (itc/Client.cpp:13-15, itc/Server.cpp:18-20) and whose init succeeds (ClientBase.cpp:114,
    ServerBase.cpp:36).  For local ipc, init succeeds or fails (LocalIPCClient.cpp:55-67, LocalIPCServer.cpp:26-32).
    Simplified: the addresses of one connection type are closed in the order in which they were added (std::map: in the order
    of the addresses); requesters and providers are only numbers here, their life is modelled elsewhere. *)
From Verif Require Import ListUtil.

Inductive ctype := Itc | LocalIpc | OtherType.
Inductive role := Client | Server.

Inductive call :=
| CGet (r : role) (ty : ctype) (addr sid : nat)  (* Client: getServiceRequester (CSMgmt.cpp:20-35); Server: getServiceProvider (37-46) *)
| CShut (rs : list role).                        (* shutdownAllClients (48), shutdownAllServers (55), shutdownAll (50-53): [Server; Client] *)

Inductive action := AStop (o : nat) | ADeinit (o : nat).

Inductive pc :=
| PStart
| PHave (o : nat)                                        (* the client / server was found, its requester / provider is next *)
| PShut (rs : list role)                                 (* factories still to close *)
| PClosing (r : role) (acts : list action) (rs : list role)  (* in close(), factory locked *)
| PDone.

(** A factory with the clients (servers) it ever made: locked by close()?; _clientMap / serverMap_; the number of the next local
    client; the requesters they have: (client, service, requester); the number of the next requester. *)
Record fside := FS
  { locked : bool; memo : list (ctype * nat * nat); nobjs : nat; kids : list (nat * nat * nat); nkids : nat }.
Definition fside_new : fside := FS false [] 1 [] 0.

Record st := St { side : role -> fside; calls : list (call * pc) }.
Definition st_new : st := St (fun _ => fside_new) [].

Inductive label :=
| LCall (c : call)
| LStep (t : nat) (init_ok : bool).   (* call t goes on; does init, if it is called, succeed? *)

Inductive event :=
| EInit (r : role) (ty : ctype) (addr o : nat) (ok : bool)
| EStart (r : role) (o : nat)
| EStop (r : role) (o : nat)
| EDeinit (r : role) (o : nat)
| EMade (r : role) (k o sid : nat)     (* requester / provider k was made, for service sid, on client / server o *)
| EDown (r : role) (k : nat)           (* it was deinitialised (a provider: stopServing first) *)
| EGot (t : nat) (k : option nat)      (* call t returns k; None: a null pointer *)
| EShut (t : nat).                     (* the shutdown returns *)

Definition role_eqb (a b : role) : bool := match a, b with Client, Client | Server, Server => true | _, _ => false end.
Definition ctype_eqb (a b : ctype) : bool :=
  match a, b with Itc, Itc | LocalIpc, LocalIpc | OtherType, OtherType => true | _, _ => false end.

(** Map2D's find (Map2D.h:14-25). *)
Fixpoint lookup (ty : ctype) (a : nat) (m : list (ctype * nat * nat)) : option nat :=
  match m with
  | [] => None
  | (ty', a', o) :: m' => if ctype_eqb ty ty' && Nat.eqb a a' then Some o else lookup ty a m'
  end.
(** The requester of a client for a service (ClientBase.cpp:83-89), the provider of a server (ServerBase.cpp:11-14). *)
Fixpoint kid_of (o sid : nat) (l : list (nat * nat * nat)) : option nat :=
  match l with
  | [] => None
  | (o', sid', k) :: l' => if Nat.eqb o o' && Nat.eqb sid sid' then Some k else kid_of o sid l'
  end.

Definition set_side (s : st) (r : role) (f : fside) : st := St (fun r' => if role_eqb r' r then f else side s r') (calls s).
Definition at_pc (s : st) (t : nat) (c : call) (p : pc) : st := St (side s) (set_nth t (c, p) (calls s)).

Definition add_memo (f : fside) (ty : ctype) (a o n : nat) : fside := FS (locked f) (memo f ++ [(ty, a, o)]) n (kids f) (nkids f).
Definition set_locked (f : fside) (b : bool) : fside := FS b (memo f) (nobjs f) (kids f) (nkids f).
Definition set_nobjs (f : fside) (n : nat) : fside := FS (locked f) (memo f) n (kids f) (nkids f).
Definition add_kid (f : fside) (o sid : nat) : fside :=
  FS (locked f) (memo f) (nobjs f) (kids f ++ [(o, sid, nkids f)]) (S (nkids f)).
Definition clear_memo (f : fside) : fside := FS (locked f) [] (nobjs f) (kids f) (nkids f).

(** getClient (ClientFactory.cpp:35-49), getServer (ServerFactory.cpp:35-53), the factory being unlocked. *)
Definition get_object (s : st) (t : nat) (r : role) (ty : ctype) (a sid : nat) (ok : bool) : st * list event :=
  let c := CGet r ty a sid in
  let f := side s r in
  match lookup ty a (memo f) with
  | Some o => (at_pc s t c (PHave o), [])
  | None =>
      match ty with
      | Itc => (at_pc (set_side s r (add_memo f Itc a 0 (nobjs f))) t c (PHave 0), [EInit r Itc a 0 true; EStart r 0])
      | LocalIpc =>
          let o := nobjs f in
          if ok then (at_pc (set_side s r (add_memo f LocalIpc a o (S o))) t c (PHave o), [EInit r LocalIpc a o true; EStart r o])
          else (at_pc (set_side s r (set_nobjs f (S o))) t c PDone, [EInit r LocalIpc a o false; EGot t None])
      | OtherType => (at_pc s t c PDone, [EGot t None])
      end
  end.

(** client->getServiceRequester (ClientBase.cpp:80-100), server->getServiceProvider (ServerBase.cpp:11-18). *)
Definition get_kid (s : st) (t : nat) (r : role) (ty : ctype) (a sid o : nat) : st * list event :=
  let c := CGet r ty a sid in
  let f := side s r in
  match kid_of o sid (kids f) with
  | Some k => (at_pc s t c PDone, [EGot t (Some k)])
  | None => (at_pc (set_side s r (add_kid f o sid)) t c PDone, [EMade r (nkids f) o sid; EGot t (Some (nkids f))])
  end.

(** The loops of close() (ClientFactory.cpp:50-60, ServerFactory.cpp:55-66): for each connection type ("itc..." sorts before
    "local..."), all are stopped, then all are deinitialised. *)
Definition of_type (ty : ctype) (m : list (ctype * nat * nat)) : list nat :=
  map snd (filter (fun x => ctype_eqb ty (fst (fst x))) m).
Definition plan (m : list (ctype * nat * nat)) : list action :=
  let two ty := map AStop (of_type ty m) ++ map ADeinit (of_type ty m) in two Itc ++ two LocalIpc.

(** deinit of client / server [o]: nothing for itc; ClientBase.cpp:106-127; ServerBase.cpp:38-47. *)
Definition own (o : nat) (x : nat * nat * nat) : bool := Nat.eqb o (fst (fst x)).
Definition deinit (r : role) (f : fside) (o : nat) : fside * list event :=
  match o with
  | 0 => (f, [])
  | _ => (FS (locked f) (memo f) (nobjs f) (filter (fun x => negb (own o x)) (kids f)) (nkids f),
          map (fun x => EDown r (snd x)) (filter (own o) (kids f)))
  end.

Definition step (s : st) (l : label) : st * list event :=
  match l with
  | LCall c => (St (side s) (calls s ++ [(c, PStart)]), [])
  | LStep t ok =>
      match nth_error (calls s) t with
      | Some (CGet r ty a sid, PStart) => if locked (side s r) then (s, []) else get_object s t r ty a sid ok
      | Some (CGet r ty a sid, PHave o) => get_kid s t r ty a sid o
      | Some (CShut rs, PStart) => (at_pc s t (CShut rs) (PShut rs), [])
      | Some (CShut rs, PShut []) => (at_pc s t (CShut rs) PDone, [EShut t])
      | Some (CShut rs, PShut (r :: rest)) =>
          if locked (side s r) then (s, [])
          else (at_pc (set_side s r (set_locked (side s r) true)) t (CShut rs) (PClosing r (plan (memo (side s r))) rest), [])
      | Some (CShut rs, PClosing r (AStop o :: acts) rest) => (at_pc s t (CShut rs) (PClosing r acts rest), [EStop r o])
      | Some (CShut rs, PClosing r (ADeinit o :: acts) rest) =>
          let '(f, ev) := deinit r (side s r) o in
          (at_pc (set_side s r f) t (CShut rs) (PClosing r acts rest), ev ++ [EDeinit r o])
      | Some (CShut rs, PClosing r [] rest) =>
          (* only the server factory forgets its servers: ServerFactory.cpp:65 *)
          let f := match r with Client => side s r | Server => clear_memo (side s r) end in
          (at_pc (set_side s r (set_locked f false)) t (CShut rs) (PShut rest), [])
      | _ => (s, [])
      end
  end.

Fixpoint run (s : st) (h : list label) : st * list event :=
  match h with
  | [] => (s, [])
  | l :: h' => let (s1, e1) := step s l in let (s2, e2) := run s1 h' in (s2, e1 ++ e2)
  end.
