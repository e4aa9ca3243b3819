(** Model of maf::messaging::Processor (src/common/maf/messaging/Processor.cpp, include/maf/messaging/Processor.h).

    Any number of processors and threads.  A history is a list of (thread, action); each thread has a stack of frames: calls of the API in
    progress, run loops, executions and message handlers being run.  Whenever the top of its stack is user code (an execution, a handler, or
    the thread's own code) a thread may make any call, so re-entrancy is not restricted.
    The pending executions are the queue of QueueModel.v and the handlers of a message type are a signal of SigModel.v: a processor keeps the
    history of its queue, a signal is its history, and every operation on them is a step of those models.  The mutex of the handlers map is
    explicit; a step that needs a lock another thread holds does nothing.
    Executions are numbered by the call that made them.
    Simplified: std::bad_alloc (94) and exceptions of user code are not modelled; a processor is not destroyed while it is used; the wait on a
    CompleteSignal is not a step (the user may do it anywhere); the MsgConnection of a handler is never moved; routing is in RouteModel.v. *)
From Verif Require Export ListUtil Amap.
From Verif Require QueueModel SigModel.

(** run 194-211; runFor, runUntil 213-227; runOnceFor, runOnceUntil 229-247. *)
Inductive kind := Forever | Timed | Once.

Inductive call :=
| KAsync (p : nat)          (* executeAsync 299-301 *)
| KExecute (p : nat)        (* execute 303-314 *)
| KWait (p : nat)           (* waitableExecute 316-329 *)
| KPost (p m : nat)         (* post 260-271 *)
| KWaitPost (p m : nat)     (* waitablePost 273-293 *)
| KConnect (p m : nat)      (* connect 367-376 *)
| KForget (p m : nat)       (* disconnect(msgid) 378-382 *)
| KKnows (p m : nat)        (* connected 295-297 *)
| KCut (g s : nat)          (* MsgConnection::disconnect 536-540 *)
| KRestore (g s : nat)      (* MsgConnection::reconnect 542-546 *)
| KStop (p : nat)           (* stop 249-254 *)
| KReuse (p : nat)          (* reuse 256 *)
| KStopped (p : nat)        (* stopped 258 *)
| KPending (p : nat)        (* pendingCout 384 *)
| KRun (p : nat) (k : kind).

Inductive result := RBool (b : bool) | RHandler (g s : nat) | RFuture (valid : bool) | RNum (n : nat) | RUnit.

(** Where a call is. *)
Inductive pc :=
| PStart
| PAsync                    (* next: the stopped() of executeAsync (300) *)
| PAdd                      (* next: enter push (91) *)
| PPush (q : nat)           (* inside push, queue call q *)
| PMap                      (* next: take the mutex of the handlers map (115, 296, 370, 379) *)
| PSig (g : nat)            (* msgConnected: map mutex held; next: ask the signal (117) *)
| PConn (g : nat)           (* connect: map mutex held; next: add the slot (375) *)
| PClean (l : list nat)     (* cleanupUnconnectedMsgHandlers: map mutex held; message types still to be looked at (121-127) *)
| PClose (q : nat)          (* inside close (131) *)
| PClear (q : nat)          (* inside clear (132) *)
| PSize (q : nat)
| PInline.                  (* the execution runs inside the call (307, 286, 325) *)

(** Where a run loop is: inside wait (208, 224, 241), about to invoke (209, 225, 242), the execution is running. *)
Inductive phase := LWait (q : nat) | LGot (e : nat) | LBusy.
(** Where processMessage is: before the look-up (102-106), before notify (110), between two handlers, inside handler s. *)
Inductive mstate := MLook | MWait (g : nat) | MAt (g : nat) | MIn (g s : nat).

Inductive frame :=
| FCall (n : nat) (k : pc)
| FLoop (n p : nat) (just : bool) (k : kind) (ph : phase)
| FExec (p e : nat)
| FEmit (p e m : nat) (st : mstate).

Inductive action :=
| ACreate (id : nat)        (* a processor with this id is created (165-186, routing apart) *)
| ACall (c : call)
| AGo (choice : nat)        (* the thread makes its next step *)
| AReturn                   (* the running execution or handler returns *)
| ATimeout                  (* the deadline of a sleeping runFor/runUntil/runOnce passes *)
| AWake.                    (* a spurious wake-up of a sleeping run loop *)

Inductive event :=
| ECreate (p id : nat)
| ECall (t n : nat) (c : call)                (* thread t makes call number n *)
| ERet (t n : nat) (r : result)               (* it returns *)
| EAccept (t p e : nat)                       (* execution e joins the queue of p *)
| ETake (t p e : nat)                         (* a run loop of p takes it out *)
| EDrop (t p : nat) (es : list nat)           (* stop() throws these away *)
| EStart (t p e : nat) (inline : bool)        (* execution e of processor p starts on thread t *)
| EEnd (t p e : nat)
| ELook (t p m e : nat) (g : option nat)      (* message e of type m is to be handled by the handlers of signal g *)
| EHandle (t e g k s : nat)                   (* handler s of signal g, connected as number k there, gets message e *)
| EHandled (t e g s : nat)                    (* and returns *)
| EAbort (t : nat).                           (* failed assertion *)

Record proc := Pr { p_id : nat; p_q : QueueModel.history nat; p_map : list (nat * nat); p_lock : option nat }.
(** [procs] and [sigs] are total; the first [np] processors and [ns] signals exist. *)
Record state := St { procs : nat -> proc; np : nat; sigs : nat -> SigModel.history; ns : nat; stk : nat -> list frame; tl : nat -> option nat;
  calls : list (nat * call); dead : bool; tr : list event }.

Definition no_proc : proc := Pr 0 [] [] None.
Definition init : state := St (fun _ => no_proc) 0 (fun _ => []) 0 (fun _ => []) (fun _ => None) [] false [].

Definition upd {A} (f : nat -> A) (t : nat) (x : A) : nat -> A := fun t' => if Nat.eqb t t' then x else f t'.

Definition emit (st : state) (l : list event) : state := St (procs st) (np st) (sigs st) (ns st) (stk st) (tl st) (calls st) (dead st) (tr st ++ l).
Definition set_proc (st : state) (p : nat) (x : proc) : state := St (upd (procs st) p x) (np st) (sigs st) (ns st) (stk st) (tl st) (calls st) (dead st) (tr st).
(** The next processor gets its id; its queue and map are still those of [no_proc], since calls are made on existing processors only ([valid]). *)
Definition new_proc (st : state) (id : nat) : state :=
  let x := procs st (np st) in St (upd (procs st) (np st) (Pr id (p_q x) (p_map x) (p_lock x))) (S (np st)) (sigs st) (ns st) (stk st) (tl st) (calls st) (dead st) (tr st).
Definition set_sig (st : state) (g : nat) (x : SigModel.history) : state := St (procs st) (np st) (upd (sigs st) g x) (ns st) (stk st) (tl st) (calls st) (dead st) (tr st).
(** The next signal exists; its history is still empty, since only existing signals are used. *)
Definition new_sig (st : state) : state := St (procs st) (np st) (sigs st) (S (ns st)) (stk st) (tl st) (calls st) (dead st) (tr st).
Definition with_stk (st : state) (t : nat) (l : list frame) : state := St (procs st) (np st) (sigs st) (ns st) (upd (stk st) t l) (tl st) (calls st) (dead st) (tr st).
Definition with_tl (st : state) (t : nat) (x : option nat) : state := St (procs st) (np st) (sigs st) (ns st) (stk st) (upd (tl st) t x) (calls st) (dead st) (tr st).
Definition with_calls (st : state) (l : list (nat * call)) : state := St (procs st) (np st) (sigs st) (ns st) (stk st) (tl st) l (dead st) (tr st).
Definition abort (st : state) (t : nat) : state := St (procs st) (np st) (sigs st) (ns st) (stk st) (tl st) (calls st) true (tr st ++ [EAbort t]).

(** The queue of a processor. *)
Definition q_state (q : QueueModel.history nat) : QueueModel.state nat := QueueModel.final QueueModel.fifo q.
Definition q_closed (q : QueueModel.history nat) : bool := QueueModel.closed (q_state q).
Definition q_next (q : QueueModel.history nat) : nat := length (QueueModel.tasks (q_state q)).
Definition q_result (q : QueueModel.history nat) (i : nat) : option (QueueModel.res nat) :=
  match nth_error (QueueModel.tasks (q_state q)) i with Some (_, QueueModel.PReturned r) => Some r | _ => None end.

(** The signal of a message type; may thread [t] lock it? *)
Definition s_state (h : SigModel.history) : SigModel.state := SigModel.final SigModel.Multi h.
Definition s_free (h : SigModel.history) (t : nat) : bool := SigModel.free (s_state h) t.
Definition s_any (h : SigModel.history) : bool := match SigModel.entries (s_state h) with [] => false | _ => true end.

Definition proc_at (st : state) (p : nat) : proc := procs st p.
Definition set_q (st : state) (p : nat) (q : QueueModel.history nat) : state :=
  let x := proc_at st p in set_proc st p (Pr (p_id x) q (p_map x) (p_lock x)).
Definition set_map (st : state) (p : nat) (m : list (nat * nat)) : state :=
  let x := proc_at st p in set_proc st p (Pr (p_id x) (p_q x) m (p_lock x)).
Definition set_lock (st : state) (p : nat) (l : option nat) : state :=
  let x := proc_at st p in set_proc st p (Pr (p_id x) (p_q x) (p_map x) l).
Definition queue (st : state) (p : nat) : QueueModel.history nat := p_q (proc_at st p).
Definition sig_at (st : state) (g : nat) : SigModel.history := sigs st g.
Definition sig_do (st : state) (g : nat) (l : nat * SigModel.action) : state := set_sig st g (sig_at st g ++ [l]).

(** stopped 258. *)
Definition is_stopped (st : state) (p : nat) : bool := q_closed (queue st p).
Definition lock_free (st : state) (p : nat) : bool := match p_lock (proc_at st p) with None => true | Some _ => false end.

(** this_processor::instance().get() == this (306). *)
Definition on_own (st : state) (t p : nat) : bool := match tl st t with Some p' => Nat.eqb p' p | None => false end.
(** this_processor::id() == id() (283, 322; 500-505): the ids are compared. *)
Definition same_id (st : state) (t p : nat) : bool :=
  match tl st t with Some p' => Nat.eqb (p_id (proc_at st p')) (p_id (proc_at st p)) | None => false end.

(** The call on top of thread [t]'s stack goes on at [k] / returns. *)
Definition goto (st : state) (t n : nat) (k : pc) (rest : list frame) : state := with_stk st t (FCall n k :: rest).
Definition ret (st : state) (t n : nat) (r : result) (rest : list frame) : state := emit (with_stk st t rest) [ERet t n r].

(** What post, waitablePost, execute, ... return when the execution was handed over / the processor was found stopped later / is not handled. *)
Definition fin (c : call) (b : bool) : result := match c with KWait _ | KWaitPost _ _ => RFuture true | _ => RBool b end.
Definition no (c : call) : result := match c with KWait _ | KWaitPost _ _ => RFuture false | _ => RBool false end.

(** The execution made by call [n]: a callable, or the processing of a message (265, 280). *)
Definition body (c : call) (p n : nat) : frame := match c with KPost _ m | KWaitPost _ m => FEmit p n m MLook | _ => FExec p n end.

Definition start_inline (st : state) (t n : nat) (c : call) (p : nat) (rest : list frame) : state :=
  emit (with_stk st t (body c p n :: FCall n PInline :: rest)) [EStart t p n true].

(** Making a queue call. *)
Definition q_call (st : state) (p : nat) (o : QueueModel.op nat) : state := set_q st p (queue st p ++ [QueueModel.LCall o]).
Definition q_run (st : state) (p i choice : nat) : state := set_q st p (queue st p ++ [QueueModel.LRun i choice]).

(** The loop asks for the next execution. *)
Definition timed (k : kind) : bool := match k with Forever => false | _ => true end.
Definition ask (st : state) (t n p : nat) (just : bool) (k : kind) (rest : list frame) : state :=
  with_stk (q_call st p (QueueModel.OWait (timed k))) t (FLoop n p just k (LWait (q_next (queue st p))) :: rest).
(** The loop is left: 200-205, 220-222, 237-239, 396-400. *)
Definition leave (st : state) (t n : nat) (just : bool) (r : result) (rest : list frame) : state :=
  let st1 := ret st t n r rest in if just then with_tl st1 t None else st1.

(** The body of execution [e] is over. *)
Definition finish (st : state) (t p e : nat) (rest : list frame) : state :=
  let st1 := emit st [EEnd t p e] in
  match rest with
  | FLoop n p' just Once LBusy :: rest' => leave st1 t n just (RBool true) rest'                       (* 243 *)
  | FLoop n p' just k LBusy :: rest' => ask st1 t n p' just k rest'                                    (* 208, 224 *)
  | FCall n PInline :: rest' =>
      ret st1 t n (match nth_error (calls st) n with Some (_, c) => fin c true | None => RUnit end) rest' (* 308, 328 *)
  | _ => with_stk st1 t rest
  end.

Definition target (c : call) : nat :=
  match c with
  | KAsync p | KExecute p | KWait p | KPost p _ | KWaitPost p _ | KConnect p _ | KForget p _ | KKnows p _ | KStop p | KReuse p | KStopped p
  | KPending p | KRun p _ => p
  | KCut _ _ | KRestore _ _ => 0
  end.

(** One step of call [n] = [c] of thread [t], at [k]. *)
Definition go_call (st : state) (t n : nat) (c : call) (k : pc) (choice : nat) (rest : list frame) : state :=
  let p := target c in
  match k with
  | PStart =>
      match c with
      | KAsync _ => if is_stopped st p then ret st t n (RBool false) rest else goto st t n PAdd rest                       (* 300 *)
      | KExecute _ =>
          if is_stopped st p then ret st t n (RBool false) rest
          else if on_own st t p then start_inline st t n c p rest else goto st t n PAdd rest                               (* 305-311 *)
      | KWait _ =>
          if is_stopped st p then ret st t n (RFuture false) rest
          else if same_id st t p then start_inline st t n c p rest else goto st t n PAsync rest                            (* 319-326 *)
      | KPost _ _ | KWaitPost _ _ => if is_stopped st p then ret st t n (no c) rest else goto st t n PMap rest             (* 262, 276 *)
      | KConnect _ _ | KForget _ _ | KKnows _ _ => goto st t n PMap rest
      | KCut g s => if s_free (sig_at st g) t then ret (sig_do st g (t, SigModel.ADisconnect s)) t n RUnit rest else st
      | KRestore g s => if s_free (sig_at st g) t then ret (sig_do st g (t, SigModel.AReconnect s)) t n RUnit rest else st
      | KStop _ =>
          if is_stopped st p then ret st t n RUnit rest
          else goto (q_call st p QueueModel.OClose) t n (PClose (q_next (queue st p))) rest                                (* 250, 131 *)
      | KReuse _ => ret (q_run (q_call st p QueueModel.OReOpen) p (q_next (queue st p)) 0) t n RUnit rest
      | KStopped _ => ret st t n (RBool (is_stopped st p)) rest
      | KPending _ => goto (q_call st p QueueModel.OSize) t n (PSize (q_next (queue st p))) rest
      | KRun _ _ => st
      end
  | PAsync => if is_stopped st p then ret st t n (fin c false) rest else goto st t n PAdd rest                             (* 300 *)
  | PAdd => (* push reads closed_ first and silently drops the execution (ThreadSafeQueue.h:32); addExecution returns true all the same (92) *)
      let i := q_next (queue st p) in
      let st1 := q_run (q_call st p (QueueModel.OPush n)) p i choice in
      match q_result (queue st1 p) i with Some _ => ret st1 t n (fin c true) rest | None => goto st1 t n (PPush i) rest end
  | PPush i =>
      let st1 := q_run st p i choice in
      match q_result (queue st1 p) i with Some _ => ret (emit st1 [EAccept t p n]) t n (fin c true) rest | None => st1 end
  | PMap =>
      if lock_free st p then
        match c with
        | KPost _ m | KWaitPost _ m =>
            match get m (p_map (proc_at st p)) with
            | None => ret st t n (no c) rest
            | Some g => goto (set_lock st p (Some t)) t n (PSig g) rest
            end
        | KConnect _ m =>
            match get m (p_map (proc_at st p)) with
            | Some g => goto (set_lock st p (Some t)) t n (PConn g) rest
            | None => let g := ns st in
                goto (set_lock (set_map (new_sig st) p (put m g (p_map (proc_at st p)))) p (Some t)) t n (PConn g) rest
            end
        | KForget _ m =>
            let l := del m (p_map (proc_at st p)) in goto (set_lock (set_map st p l) p (Some t)) t n (PClean (map fst l)) rest
        | KKnows _ m => ret st t n (RBool (match get m (p_map (proc_at st p)) with Some _ => true | None => false end)) rest
        | _ => st
        end
      else st
  | PSig g =>
      if s_free (sig_at st g) t then
        let st1 := set_lock st p None in
        if s_any (sig_at st g) then
          match c with KWaitPost _ _ => if same_id st t p then start_inline st1 t n c p rest else goto st1 t n PAsync rest (* 283-287 *)
                     | _ => goto st1 t n PAsync rest end                                                                   (* 265 *)
        else ret st1 t n (no c) rest
      else st
  | PConn g =>
      if s_free (sig_at st g) t then
        ret (set_lock (sig_do st g (t, SigModel.AConnect SigModel.CPlain)) p None) t n (RHandler g (length (SigModel.conns (s_state (sig_at st g))))) rest
      else st
  | PClean l =>
      match l with
      | [] => ret (set_lock st p None) t n RUnit rest
      | m :: l' =>
          match get m (p_map (proc_at st p)) with
          | Some g => if s_free (sig_at st g) t then
              goto (if s_any (sig_at st g) then st else set_map st p (del m (p_map (proc_at st p)))) t n (PClean l') rest else st
          | None => goto st t n (PClean l') rest
          end
      end
  | PClose i =>
      let st1 := q_run st p i choice in
      match q_result (queue st1 p) i with
      | Some _ => goto (q_call st1 p (QueueModel.OClear false)) t n (PClear (q_next (queue st1 p))) rest
      | None => st1
      end
  | PClear i =>
      let st1 := q_run st p i choice in
      match q_result (queue st1 p) i with
      | Some _ => ret (emit st1 [EDrop t p (QueueModel.items (q_state (queue st p)))]) t n RUnit rest
      | None => st1
      end
  | PSize i =>
      let st1 := q_run st p i choice in
      match q_result (queue st1 p) i with Some (QueueModel.RNum x) => ret st1 t n (RNum x) rest | Some _ => ret st1 t n RUnit rest | None => st1 end
  | PInline => st
  end.

(** One step of processMessage (99-112) for message [e]. *)
Definition go_emit (st : state) (t p e m : nat) (x : mstate) (rest : list frame) : state :=
  match x with
  | MLook =>
      if lock_free st p then
        match get m (p_map (proc_at st p)) with
        | None => finish (emit st [ELook t p m e None]) t p e rest
        | Some g => with_stk (emit st [ELook t p m e (Some g)]) t (FEmit p e m (MWait g) :: rest)
        end
      else st
  | MWait g =>
      if s_free (sig_at st g) t then
        let st1 := sig_do st g (t, SigModel.AEmit e) in
        let s' := s_state (sig_at st1 g) in
        if SigModel.crashed s' then abort st1 t
        else match SigModel.em s' with None => finish st1 t p e rest | Some _ => with_stk st1 t (FEmit p e m (MAt g) :: rest) end
      else st
  | MAt g =>
      let st1 := sig_do st g (t, SigModel.AStep) in
      match SigModel.em (s_state (sig_at st1 g)) with
      | None => finish st1 t p e rest
      | Some em => match SigModel.e_run em with
                   | Some (k, s) => with_stk (emit st1 [EHandle t e g k s]) t (FEmit p e m (MIn g s) :: rest)
                   | None => st1
                   end
      end
  | MIn g s => st
  end.

(** Does user code run on top of the stack? *)
Definition user (l : list frame) : bool :=
  match l with [] | FExec _ _ :: _ | FEmit _ _ _ (MIn _ _) :: _ => true | _ => false end.

(** Only calls on processors and handlers that exist are made. *)
Definition valid (st : state) (c : call) : bool :=
  match c with KCut g _ | KRestore g _ => Nat.ltb g (ns st) | _ => Nat.ltb (target c) (np st) end.

Definition act (st : state) (t : nat) (a : action) : state :=
  match a with
  | ACreate id => if user (stk st t) then emit (new_proc st id) [ECreate (np st) id] else st
  | ACall c =>
      if user (stk st t) && valid st c then
        let n := length (calls st) in
        let st1 := emit (with_calls st (calls st ++ [(t, c)])) [ECall t n c] in
        match c with
        | KRun p k => (* testAndSetThreadLocalInstance 195, 219, 236, 388-394 *)
            let just := match tl st t with None => true | Some _ => false end in
            ask (if just then with_tl st1 t (Some p) else st1) t n p just k (stk st t)
        | _ => goto st1 t n PStart (stk st t)
        end
      else st
  | AGo choice =>
      match stk st t with
      | FCall n k :: rest => match nth_error (calls st) n with Some (_, c) => go_call st t n c k choice rest | None => st end
      | FLoop n p just kd ph :: rest =>
          match ph with
          | LWait i =>
              let st1 := q_run st p i choice in
              match q_result (queue st1 p) i with
              | Some (QueueModel.RTook e) => with_stk (emit st1 [ETake t p e]) t (FLoop n p just kd (LGot e) :: rest)
              | Some _ => leave st1 t n just (match kd with Once => RBool false | _ => RUnit end) rest
              | None => st1
              end
          | LGot e =>
              match nth_error (calls st) e with
              | Some (_, c) => emit (with_stk st t (body c p e :: FLoop n p just kd LBusy :: rest)) [EStart t p e false]
              | None => st
              end
          | LBusy => st
          end
      | FEmit p e m x :: rest => go_emit st t p e m x rest
      | _ => st
      end
  | AReturn =>
      match stk st t with
      | FExec p e :: rest => finish st t p e rest
      | FEmit p e m (MIn g s) :: rest =>
          with_stk (emit (sig_do st g (t, SigModel.AReturn)) [EHandled t e g s]) t (FEmit p e m (MAt g) :: rest)
      | _ => st
      end
  | ATimeout =>
      match stk st t with FLoop _ p _ _ (LWait i) :: _ => set_q st p (queue st p ++ [QueueModel.LTimeout i]) | _ => st end
  | AWake =>
      match stk st t with FLoop _ p _ _ (LWait i) :: _ => set_q st p (queue st p ++ [QueueModel.LSpurious i]) | _ => st end
  end.

Definition next (st : state) (l : nat * action) : state := if dead st then st else act st (fst l) (snd l).
Definition history := list (nat * action).
Definition final (h : history) : state := fold_left next h init.
Definition trace (h : history) : list event := tr (final h).
