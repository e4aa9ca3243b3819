(** Vocabulary for the processor properties. *)
From Verif Require Import ListUtil Amap ProcModel.
From Verif Require QueueModel QueueSpec SigModel SigSpec.

(** The executions that joined the queue of processor [p], in that order. *)
Definition accept_of (p : nat) (e : event) : list nat := match e with EAccept _ p' x => if Nat.eqb p p' then [x] else [] | _ => [] end.
Definition accepted (p : nat) (l : list event) : list nat := flat_map (accept_of p) l.
(** The executions a run loop of [p] took out, in that order; and all that left the queue, taken or thrown away by stop(). *)
Definition take_of (p : nat) (e : event) : list nat := match e with ETake _ p' x => if Nat.eqb p p' then [x] else [] | _ => [] end.
Definition taken (p : nat) (l : list event) : list nat := flat_map (take_of p) l.
Definition out_of (p : nat) (e : event) : list nat :=
  match e with ETake _ p' x => if Nat.eqb p p' then [x] else [] | EDrop _ p' xs => if Nat.eqb p p' then xs else [] | _ => [] end.
Definition gone (p : nat) (l : list event) : list nat := flat_map (out_of p) l.
(** What is still pending. *)
Definition pending (h : history) (p : nat) : list nat := QueueSpec.content QueueModel.fifo (queue (final h) p).
(** The executions of [p] started by its run loops, in that order. *)
Definition start_of (p : nat) (e : event) : list nat := match e with EStart _ p' x false => if Nat.eqb p p' then [x] else [] | _ => [] end.
Definition started (p : nat) (l : list event) : list nat := flat_map (start_of p) l.

Definition starts (e : nat) (x : event) : bool := match x with EStart _ _ e' _ => Nat.eqb e e' | _ => false end.
Definition ends (e : nat) (x : event) : bool := match x with EEnd _ _ e' => Nat.eqb e e' | _ => false end.
Definition returns (n : nat) (x : event) : bool := match x with ERet _ n' _ => Nat.eqb n n' | _ => false end.

(** Calls made and finished. *)
Definition called (h : history) (t n : nat) (c : call) : Prop := In (ECall t n c) (trace h).
Definition returned (h : history) (n : nat) (r : result) : Prop := exists t, In (ERet t n r) (trace h).
Definition never_called (h : history) (bad : call -> bool) : Prop := forall t n c, called h t n c -> bad c = false.
Definition stops (p : nat) (c : call) : bool := match c with KStop p' => Nat.eqb p p' | _ => false end.
Definition reuses (p : nat) (c : call) : bool := match c with KReuse p' => Nat.eqb p p' | _ => false end.
Definition runs (p : nat) (c : call) : bool := match c with KRun p' _ => Nat.eqb p p' | _ => false end.
Definition submits (c : call) : bool := match c with KAsync _ | KExecute _ | KWait _ | KPost _ _ | KWaitPost _ _ => true | _ => false end.

(** Only thread [t] runs processor [p]. *)
Definition only_runner (h : history) (p t : nat) : Prop := forall t' n c, called h t' n c -> runs p c = true -> t' = t.
(** What thread [t] is executing: started and not ended yet, the innermost first. *)
Definition opening (t : nat) (l : list (nat * nat * bool)) (e : event) : list (nat * nat * bool) :=
  match e with
  | EStart t' p x i => if Nat.eqb t t' then (p, x, i) :: l else l
  | EEnd t' _ _ => if Nat.eqb t t' then List.tl l else l
  | _ => l
  end.
Definition open (t : nat) (l : list event) : list (nat * nat * bool) := fold_left (opening t) l [].
(** No execution of [p] that its run loop took out runs [p] again. *)
Definition not_nested (h : history) (p : nat) : Prop := forall a t n k b x, trace h = a ++ ECall t n (KRun p k) :: b -> ~ In (p, x, false) (open t a).
(** The executions of [p] that were taken out of its queue and are being executed. *)
Definition open_of (p : nat) (l : list (nat * nat * bool)) : list nat :=
  flat_map (fun x => match x with (p', e, false) => if Nat.eqb p p' then [e] else [] | _ => [] end) l.

(** The processor whose run loop is the outermost of thread [t]: what this_processor::instance() gives. *)
Definition inst (t : nat) (x : option (nat * nat)) (e : event) : option (nat * nat) :=
  match e, x with
  | ECall t' n (KRun p _), None => if Nat.eqb t t' then Some (n, p) else x
  | ERet t' n _, Some (n', _) => if Nat.eqb t t' && Nat.eqb n n' then None else x
  | _, _ => x
  end.
Definition instance (t : nat) (l : list event) : option nat := option_map snd (fold_left (inst t) l None).
(** Thread [t] is in user code: its own, an execution or a handler. *)
Definition in_user_code (h : history) (t : nat) : Prop := user (stk (final h) t) = true /\ dead (final h) = false.
Definition exists_proc (h : history) (p : nat) : Prop := exists id, In (ECreate p id) (trace h).

(** The signal in charge of message type [m] of processor [p], and the handlers connected to a signal, in connection order, each with the number of its connection. *)
Definition table (h : history) (p m : nat) : option nat := get m (p_map (proc_at (final h) p)).
Definition handlers_of (h : history) (g : nat) : list (nat * nat) := SigSpec.live (SigModel.trace SigModel.Multi (sig_at (final h) g)).
Definition handlers (h : history) (p m : nat) : list (nat * nat) := match table h p m with Some g => handlers_of h g | None => [] end.

(** Thread [t] sleeps in a run loop of [p]; it is in user code or sleeps in a run loop. *)
Definition asleep_in (h : history) (t p : nat) : Prop :=
  exists n just k i r, stk (final h) t = FLoop n p just k (LWait i) :: r /\ QueueSpec.asleep QueueModel.fifo (queue (final h) p) i.
Definition resting (h : history) (t : nat) : Prop := user (stk (final h) t) = true \/ exists p, asleep_in h t p.

(** [h1] is a moment of [h] at which call [n] was under way. *)
Definition during (h h1 : history) (t n : nat) (c : call) : Prop := (exists h2, h = h1 ++ h2) /\ called h1 t n c /\ forall r, ~ returned h1 n r.

(** Call [c] posts a message of type [m] to [p]; thread [t] is inside a handler of signal [g]. *)
Definition posting (p m : nat) (c : call) : Prop := c = KPost p m \/ c = KWaitPost p m.
Definition in_handler (h : history) (t g : nat) : Prop := exists p e m s, In (FEmit p e m (MIn g s)) (stk (final h) t).
(** No handler of [g] is disconnected by a handler of [g]. *)
Definition cuts_outside (h : history) (g : nat) : Prop := forall h1 t s h2, h = h1 ++ (t, ACall (KCut g s)) :: h2 -> ~ in_handler h1 t g.
(** [h1] is the last moment of [h] before event [x] first happened. *)
Definition just_before (h h1 : history) (x : event) : Prop := exists l h2, h = h1 ++ l :: h2 /\ ~ In x (trace h1) /\ In x (trace (h1 ++ [l])).
(** At some moment after thread [t] started to process message [e] of type [m], signal [g] was in charge of that type. *)
Definition looked_up (h : history) (t p m e g : nat) : Prop := exists h0 h2 i, h = h0 ++ h2 /\ In (EStart t p e i) (trace h0) /\ table h0 p m = Some g.
(** May the execution made by call [c] run in the call, if [x] is what this_processor::instance() gives? *)
Definition own_thread (h : history) (x : option nat) (c : call) : Prop :=
  match c, x with
  | KExecute p, Some p' => p' = p
  | KWait p, Some p' | KWaitPost p _, Some p' => exists id, In (ECreate p' id) (trace h) /\ In (ECreate p id) (trace h)
  | _, _ => False
  end.
(** The execution made by call [n] was neither queued nor run. *)
Definition never_ran (h : history) (n : nat) : Prop := (forall t p, ~ In (EAccept t p n) (trace h)) /\ (forall t p i, ~ In (EStart t p n i) (trace h)).
(** No assertion failed. *)
Definition unaborted (h : history) : Prop := forall t, ~ In (EAbort t) (trace h).
(** stopped() is true / returns true. *)
Definition stopped_now (h : history) (p : nat) : Prop := is_stopped (final h) p = true.
