(** Model of the typed server side: BasicStub.h (registerRequestHandler, executors) and RequestT.h (the request object
    given to user handlers), on top of the provider model.
    Simplifications: the typed translation of inputs and outputs is not modelled here (payloads are opaque, see
    IpcModel); the executor is a bag of accepted tasks that it may run in any order or discard, or it refuses a task
    (ExecutorIF::execute returning false, or a Processor executor whose processor is gone or stopped); the abort
    callback's executor variant (RequestT.h:48-55) is not modelled. *)
From Verif Require Import CsTypes ListUtil.
From Verif Require Import ProvModel.

(** A handler closure (BasicStub.h:214-221): the captured user function; [None]: an empty std::function.
    Calling it moves the captured function into the task (line 218: [callback = std::move(handlerFunction)]). *)
Definition closure := option nat.
Definition call_closure (c : closure) : closure * option nat := (None, c).

(** The task handed to the executor (BasicStub.h:217-220): request object and user function. *)
Record task := Task { t_req : nat; t_fn : option nat }.

(** RequestT (RequestT.h:120): the delegate; [None]: moved from.  The list of handles has [None] for a handle that was
    destroyed. *)
Definition handle := option nat.

Record stub := Stub
  { sp : prov;                      (* provider_ *)
    exec : bool;                    (* executor_ is not null *)
    closures : list closure;        (* wrapped handlers; requestHandlerMap_ refers to them by number *)
    tasks : list task;              (* accepted by the executor, not yet run *)
    handles : list (option handle) }.

Definition stub_new (e : bool) : stub := Stub prov_new e [] [] [].

Inductive sevent :=
| PEv (e : event)                 (* at the provider, including the return values of its calls *)
| SRet (b : bool)                 (* value returned by a call that does not reach the provider *)
| SSubmit (r : nat) (ok : bool)   (* request r handed to the executor; accepted? *)
| SCall (f k r : nat)             (* user handler f called with handle k of request r *)
| SBadCall (r : nat)              (* an empty std::function was called: std::bad_function_call *)
| SDiscarded (r : nat)            (* the executor destroyed the task without running it *)
| SOverwritten (r : nat)          (* the handle of request r was overwritten by a move assignment *)
| SDestroyed (k r : nat)          (* handle k of request r was destroyed *)
| SNull (k : nat).                (* a moved-from handle was used: undefined behaviour *)

(** The calls.  [SProv]: messages coming in and the calls that BasicStub only forwards. *)
Inductive sop :=
| SReg (o : nat) (f : option nat)         (* registerRequestHandler *)
| SSetExecutor (nonnull : bool)           (* setExecutor *)
| SProv (x : op)
| SRun (i : nat) | SDiscard (i : nat)     (* the executor runs / destroys its i-th task *)
| HValid (k : nat) | HRespond (k : nat) (p : option payload) | HUpdate (k : nat) (p : option payload)
| HError (k : nat) (c : errcode) | HOnAborted (k cb : nat)
| HMove (k : nat)                         (* move construction of a new handle from handle k *)
| HAssign (k j : nat)                     (* handle k = std::move(handle j) *)
| HDestroy (k : nat).

Record env := Env { e_net : net; e_accept : bool }.  (* transport and executor during one call *)

Definition set_sp (s : stub) p := Stub p (exec s) (closures s) (tasks s) (handles s).
Definition set_exec (s : stub) b := Stub (sp s) b (closures s) (tasks s) (handles s).
Definition set_closures (s : stub) c := Stub (sp s) (exec s) c (tasks s) (handles s).
Definition set_tasks (s : stub) t := Stub (sp s) (exec s) (closures s) t (handles s).
Definition set_handles (s : stub) h := Stub (sp s) (exec s) (closures s) (tasks s) h.

(** What the stub does on the provider's events: the provider calls a copy of the stored handler
    (getRequestHandlerCallback returns by value, ServiceProvider.cpp:329-330,385-393), the copy submits the task
    (BasicStub.h:217-220). *)
Definition on_event (ok : bool) (s : stub) (e : event) : stub * list sevent :=
  match e with
  | EHandler c r =>
      let copy := match nth_error (closures s) c with Some x => x | None => None end in
      let '(_, cb) := call_closure copy in
      if ok then (set_tasks s (tasks s ++ [Task r cb]), [PEv e; SSubmit r true])
      else (s, [PEv e; SSubmit r false])
  | _ => (s, [PEv e])
  end.
Fixpoint on_events (ok : bool) (s : stub) (ev : list event) : stub * list sevent :=
  match ev with
  | [] => (s, [])
  | e :: ev' => let '(s1, l1) := on_event ok s e in let '(s2, l2) := on_events ok s1 ev' in (s2, l1 ++ l2)
  end.
(** A call on the provider. *)
Definition call (e : env) (s : stub) (x : op) : stub * list sevent :=
  let '(p, ev) := step (e_net e) (sp s) x in on_events (e_accept e) (set_sp s p) ev.

(** Calls on the provider that BasicStub forwards unchanged (BasicStub.h:128-206, 235-302), and incoming messages. *)
Definition forwarded (x : op) : bool :=
  match x with OReply _ _ _ | OOnAborted _ _ | ORegHandler _ _ => false | _ => true end.

(** Request::valid (Request.cpp:29-32). *)
Definition valid (s : stub) (r : nat) : bool :=
  match nth_error (heap (sp s)) r with Some q => q_valid q | None => false end.

(** ~RequestT (RequestT.h:40-45). *)
Definition destroy_handle (e : env) (s : stub) (h : handle) : stub * list sevent :=
  match h with
  | None => (s, [])
  | Some r => if valid s r then call e s (OReply r (Some (Err EResponseIgnored)) false) else (s, [])
  end.

(** A call through handle [k] (delegate_->...): RequestT.h:46-49, 56-59, 70-118. *)
Definition through (s : stub) (k : nat) (f : nat -> stub * list sevent) : stub * list sevent :=
  match nth_error (handles s) k with
  | Some (Some (Some r)) => f r
  | Some (Some None) => (s, [SNull k])
  | _ => (s, [])
  end.

Definition remove_nth {A} (i : nat) (l : list A) : list A := firstn i l ++ skipn (S i) l.

Definition sstep (e : env) (s : stub) (x : sop) : stub * list sevent :=
  match x with
  | SReg o f =>
      (* BasicStub.h:208-233 *)
      if exec s then call e (set_closures s (closures s ++ [f])) (ORegHandler o (Some (length (closures s))))
      else (s, [SRet false])
  | SSetExecutor b => (if b then set_exec s true else s, [])   (* BasicStub.h:304-309 *)
  | SProv x => if forwarded x then call e s x else (s, [])
  | SRun i =>
      match nth_error (tasks s) i with
      | Some t =>
          let s1 := set_tasks s (remove_nth i (tasks s)) in
          match t_fn t with
          | Some f => (set_handles s1 (handles s1 ++ [Some (Some (t_req t))]), [SCall f (length (handles s1)) (t_req t)])
          | None =>
              (* the argument is constructed, the call throws, the argument is destroyed *)
              let k := length (handles s1) in
              let '(s2, l) := destroy_handle e (set_handles s1 (handles s1 ++ [None])) (Some (t_req t)) in
              (s2, SBadCall (t_req t) :: l ++ [SDestroyed k (t_req t)])
          end
      | None => (s, [])
      end
  | SDiscard i =>
      match nth_error (tasks s) i with
      | Some t => (set_tasks s (remove_nth i (tasks s)), [SDiscarded (t_req t)])
      | None => (s, [])
      end
  | HValid k => through s k (fun r => (s, [SRet (valid s r)]))
  | HRespond k p => through s k (fun r => call e s (OReply r p false))
  | HUpdate k p => through s k (fun r => call e s (OReply r p true))
  | HError k c => through s k (fun r => call e s (OReply r (Some (Err c)) false))
  | HOnAborted k cb => through s k (fun r => call e s (OOnAborted r cb))
  | HMove k =>
      (* RequestT.h:37: the new handle takes the delegate *)
      match nth_error (handles s) k with
      | Some (Some h) => (set_handles s (set_nth k (Some None) (handles s) ++ [Some h]), [])
      | _ => (s, [])
      end
  | HAssign k j =>
      (* RequestT.h:38: defaulted, so the old delegate is released without ~RequestT *)
      match nth_error (handles s) k, nth_error (handles s) j with
      | Some (Some old), Some (Some h) =>
          if Nat.eqb k j then (s, [])
          else (set_handles s (set_nth j (Some None) (set_nth k (Some h) (handles s))),
                match old with Some r => [SOverwritten r] | None => [] end)
      | _, _ => (s, [])
      end
  | HDestroy k =>
      match nth_error (handles s) k with
      | Some (Some h) =>
          let '(s1, l) := destroy_handle e (set_handles s (set_nth k None (handles s))) h in
          (s1, l ++ match h with Some r => [SDestroyed k r] | None => [] end)
      | _ => (s, [])
      end
  end.

Fixpoint srun (s : stub) (h : list (env * sop)) : stub * list sevent :=
  match h with
  | [] => (s, [])
  | (e, x) :: h' => let '(s1, l1) := sstep e s x in let '(s2, l2) := srun s1 h' in (s2, l1 ++ l2)
  end.
