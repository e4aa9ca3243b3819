(** Model of message routing between processors: src/common/maf/messaging/Router.{h,cpp}, Routing.cpp and the parts of
    Processor.cpp that use it (create 165-186, findProcessor 188-190, stop 249-254, reuse 256).

    Every call is an agent whose atomic steps are interleaved arbitrarily with those of the others.  The router's mutex
    (Router.h:48, Lockable::atomic) is held during one step, except by sendToAll() while it runs a handler inline.
    std::set<ProcessorInstance, ProcessorCompare> (Router.h:17-34) compares by id, so that find, count, insert and erase all
    identify a processor with any other one of the same id: the set is a finite map from ids to processors.
    Ids are numbers, 0 is the empty id: such processors get a generated unique id and are never put into the set
    (create 166-173); user ids that begin with the prefix of generated ids are excluded (assert, 168).
    A processor is reduced to its flag "stopped" and to the message types it has handlers for: post() takes a message iff the
    processor is not stopped and has a handler (the processor itself is modelled in ProcModel.v).
    Simplifications: the check for a handler and the push in one post() are one step; a processor destroyed because create()
    found its id in use is never allocated; the order in which postToAll serves the processors is that of joining instead of
    that of the ids; lifetimes are not modelled. *)
From Verif Require Import ListUtil Amap.

Inductive message :=
| MUser (ty : nat) (payload : nat)     (* ty > 0 *)
| MStatus (up : bool) (o : nat).       (* ProcessorStatusUpdateMsg: o is now Reachable / UnReachable *)
Definition mtype (m : message) : nat := match m with MUser ty _ => S ty | MStatus _ _ => 0 end.

Record proc := Proc { oid : nat; closed : bool; handlers : list nat }.

Inductive call :=
| KCreate (id : nat)
| KStop (o : nat)
| KReuse (o : nat)
| KFind (id : nat)
| KPost (id : nat) (m : message)                     (* routing::post *)
| KPostAll (m : message)                             (* routing::postToAll *)
| KSendAll (self : option nat) (m : message)         (* routing::sendToAll, called by an execution of processor self *)
| KConnect (o : nat) (ty : nat)
| KDisconnect (o : nat) (ty : nat).

Inductive res := RNull | RProc (o : nat) | RBool (b : bool) | RUnit.

Inductive pc :=
| PStart
| PAdd (o : nat)        (* create: the id was not found; next: addProcessor (Processor.cpp:182) *)
| PClosing              (* stop: not stopped yet; next: close the queue (251) *)
| PErase                (* stop: closed; next: removeProcessor (252) *)
| PTell                 (* stop: erased; next: postToAll UnReachable (Router.cpp:83-84) *)
| PHand (o : nat)       (* post: o was found; next: post on it (Router.cpp:20) *)
| PHandler              (* sendToAll: the handler of the calling processor runs, the router's mutex is held *)
| PNested (a : nat)     (* ... and waits for its own call a *)
| PRet (r : res).

Inductive event :=
| ECall (a : nat) (c : call)
| ERet (a : nat) (r : res)
| EJoin (a id o : nat)                 (* call a puts o into the set, its id is id *)
| ELeave (a id o : nat)                (* call a removes o, whose id is id, from the set *)
| EPost (a o : nat) (m : message)      (* call a puts m into the queue of o *)
| EClose (o : nat) | EOpen (o : nat)   (* the queue of o is closed / opened again *)
| EConnect (o ty : nat) | EDisconnect (o ty : nat).

Record state := St { objs : list proc; table : list (nat * nat); agents : list (call * pc); lock : option nat; tr : list event }.
Definition init : state := St [] [] [] None [].

Definition set_pc (s : state) (a : nat) (c : call) (p : pc) : state :=
  St (objs s) (table s) (set_nth a (c, p) (agents s)) (lock s) (tr s).
Definition ret (s : state) (a : nat) (c : call) (r : res) : state :=
  St (objs s) (table s) (set_nth a (c, PRet r) (agents s)) (lock s) (tr s ++ [ERet a r]).
Definition with_objs (s : state) (l : list proc) := St l (table s) (agents s) (lock s) (tr s).
Definition with_table (s : state) (l : list (nat * nat)) := St (objs s) l (agents s) (lock s) (tr s).
Definition with_lock (s : state) (l : option nat) := St (objs s) (table s) (agents s) l (tr s).
Definition with_agents (s : state) (l : list (call * pc)) := St (objs s) (table s) l (lock s) (tr s).
Definition emit (s : state) (l : list event) := St (objs s) (table s) (agents s) (lock s) (tr s ++ l).

Definition free (s : state) : bool := match lock s with None => true | _ => false end.

(** Processor::post: not stopped and connected (Processor.cpp:260-270). *)
Definition takes (s : state) (o : nat) (m : message) : bool :=
  match nth_error (objs s) o with Some x => negb (closed x) && mem (mtype m) (handlers x) | None => false end.
(** Router::postToAll (Router.cpp:33-40), also notifyAllAboutNewProcessor (104-112). *)
Definition receivers (s : state) (m : message) : list nat := filter (fun o => takes s o m) (map snd (table s)).
Definition post_all (s : state) (a : nat) (m : message) : state := emit s (map (fun o => EPost a o m) (receivers s m)).

(** informNewProcessorAboutJoinedOnes (Router.cpp:114-122) *)
Definition inform_new (s : state) (a o : nat) : state :=
  if takes s o (MStatus true o) then emit s (map (fun x => EPost a o (MStatus true (snd x))) (table s)) else s.

Definition set_closed (s : state) (o : nat) (b : bool) : state :=
  match nth_error (objs s) o with Some x => with_objs s (set_nth o (Proc (oid x) b (handlers x)) (objs s)) | None => s end.
Definition set_handlers (s : state) (o : nat) (f : list nat -> list nat) : state :=
  match nth_error (objs s) o with Some x => with_objs s (set_nth o (Proc (oid x) (closed x) (f (handlers x))) (objs s)) | None => s end.
Definition id_of (s : state) (o : nat) : nat := match nth_error (objs s) o with Some x => oid x | None => 0 end.
Definition closedb (s : state) (o : nat) : bool := match nth_error (objs s) o with Some x => closed x | None => true end.

(** Processor::create (Processor.cpp:165-186), Router::addProcessor (Router.cpp:70-80; its result is ignored). *)
Definition create_step (s : state) (a : nat) (id : nat) (p : pc) : state :=
  let c := KCreate id in
  match p with
  | PStart =>
      let o := length (objs s) in
      let s' := with_objs s (objs s ++ [Proc id false []]) in
      if Nat.eqb id 0 then ret s' a c (RProc o)
      else if free s then match get id (table s) with Some _ => ret s a c RNull | None => set_pc s' a c (PAdd o) end
      else s
  | PAdd o =>
      if free s then
        match get id (table s) with
        | Some _ => ret s a c (RProc o)
        | None => ret (emit (with_table (post_all (inform_new s a o) a (MStatus true o)) (table s ++ [(id, o)])) [EJoin a id o]) a c (RProc o)
        end
      else s
  | _ => s
  end.

(** Processor::stop (Processor.cpp:249-254), leaveRoutingIfNotAnonymous (154-158), Router::removeProcessor (Router.cpp:82-89). *)
Definition stop_step (s : state) (a : nat) (o : nat) (p : pc) : state :=
  let c := KStop o in
  match p with
  | PStart => if closedb s o then ret s a c RUnit else set_pc s a c PClosing
  | PClosing => set_pc (emit (set_closed s o true) [EClose o]) a c PErase
  | PErase =>
      if Nat.eqb (id_of s o) 0 then ret s a c RUnit
      else if free s then
        match get (id_of s o) (table s) with
        | Some o' => set_pc (emit (with_table s (del (id_of s o) (table s))) [ELeave a (id_of s o) o']) a c PTell
        | None => ret s a c RUnit
        end
      else s
  | PTell => if free s then ret (post_all s a (MStatus false o)) a c RUnit else s
  | _ => s
  end.

(** Router::post (Router.cpp:18-23) *)
Definition post_step (s : state) (a : nat) (id : nat) (m : message) (p : pc) : state :=
  let c := KPost id m in
  match p with
  | PStart => if free s then match get id (table s) with Some o => set_pc s a c (PHand o) | None => ret s a c (RBool false) end else s
  | PHand o => if takes s o m then ret (emit s [EPost a o m]) a c (RBool true) else ret s a c (RBool false)
  | _ => s
  end.

(** Router::sendToAll (Router.cpp:42-60): waitablePost on each connected processor with the mutex held; for the processor whose
    thread makes the call the handlers are run at once.  [choice]: 0: the handler returns, i + 1: it asks the router for id i. *)
Definition send_step (s : state) (a : nat) (self : option nat) (m : message) (p : pc) (choice : nat) : state :=
  let c := KSendAll self m in
  match p with
  | PStart =>
      if free s then
        let others := filter (fun o => match self with Some x => negb (Nat.eqb o x) | None => true end) (receivers s m) in
        let s' := emit s (map (fun o => EPost a o m) others) in
        match self with
        | Some x => if existsb (Nat.eqb x) (receivers s m) then with_lock (set_pc s' a c PHandler) (Some a) else ret s' a c RUnit
        | None => ret s' a c RUnit
        end
      else s
  | PHandler =>
      match choice with
      | O => with_lock (ret s a c RUnit) None
      | S i => emit (with_agents (set_pc s a c (PNested (length (agents s)))) (set_nth a (c, PNested (length (agents s))) (agents s) ++ [(KFind i, PStart)])) [ECall (length (agents s)) (KFind i)]
      end
  | PNested b => match nth_error (agents s) b with Some (_, PRet _) => set_pc s a c PHandler | _ => s end
  | _ => s
  end.

Definition step_at (s : state) (a : nat) (c : call) (p : pc) (choice : nat) : state :=
  match c with
  | KCreate id => create_step s a id p
  | KStop o => stop_step s a o p
  | KReuse o => match p with PStart => ret (emit (set_closed s o false) [EOpen o]) a c RUnit | _ => s end
  | KFind id =>
      match p with
      | PStart => if free s then ret s a c (match get id (table s) with Some o => RProc o | None => RNull end) else s
      | _ => s
      end
  | KPost id m => post_step s a id m p
  | KPostAll m =>
      match p with
      | PStart => if free s then ret (post_all s a m) a c (RBool (negb (Nat.eqb (length (receivers s m)) 0))) else s
      | _ => s
      end
  | KSendAll self m => send_step s a self m p choice
  | KConnect o ty => match p with PStart => ret (emit (set_handlers s o (set_add ty)) [EConnect o ty]) a c RUnit | _ => s end
  | KDisconnect o ty => match p with PStart => ret (emit (set_handlers s o (set_del ty)) [EDisconnect o ty]) a c RUnit | _ => s end
  end.

Inductive label := LCall (c : call) | LRun (a : nat) (choice : nat).
Definition history := list label.

(** A member function can only be called on a processor that some call has returned: the status messages that carry a new
    processor are posted in the same atomic step as that in which its create() returns. *)
Definition given (s : state) (o : nat) : bool :=
  existsb (fun e => match e with ERet _ (RProc x) => Nat.eqb x o | _ => false end) (tr s).
Definition callable (s : state) (c : call) : bool :=
  match c with
  | KStop o | KReuse o | KConnect o _ | KDisconnect o _ | KSendAll (Some o) _ => given s o
  | _ => true
  end.

Definition next (s : state) (l : label) : state :=
  match l with
  | LCall c => if callable s c then emit (with_agents s (agents s ++ [(c, PStart)])) [ECall (length (agents s)) c] else s
  | LRun a choice => match nth_error (agents s) a with Some (c, p) => step_at s a c p choice | None => s end
  end.

Definition final (h : history) : state := fold_left next h init.
Definition trace (h : history) : list event := tr (final h).
