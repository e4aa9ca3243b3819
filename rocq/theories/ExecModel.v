(** Model of slots that are connected with an executor (include/maf/utils/SignalSlots.h:329-389, 498-516; the executors of a processor,
    src/common/maf/messaging/Processor.cpp:37-80, 299-329; src/common/maf/utils/DirectExecutor.cpp:7-21).

    One Signal (MultiSlotKeeper in an AtomicObject with a recursive mutex), one processor run by one thread, any number of calls on any other
    threads and by code that runs on the processor (number [t] = the [t]-th call made).  A step is what is done between two
    points where another thread may interfere; an emission keeps the mutex of the signal until it returns (322, AtomicObject.h:16) and hands
    the slots over one by one, in connection order (112-119).
    Simplified: the arguments are one number; slots do not use the signal, do not throw, and count as one step (what slots may do inside a
    notification: SigModel); a connection is not reconnected; the queue of the processor never overflows; stopped() and the following push
    are one step (303-314: between them the queue may be closed, and push refuses as stopped() would have); the calls stop(), reuse() and the
    destructor of the processor are one step (QueueModel, ProcModel). *)
From Verif Require Import ListUtil.

Inductive kind :=
| Direct      (* directExecutor(), or no executor *)
| Async       (* getAsyncExecutor 335 *)
| Default     (* getExecutor 331 *)
| Blocking.   (* getBlockingExecutor 339 *)
Inductive call := CConnect (k : kind) | CCut (c : nat) (* Connection::disconnect *) | CNotify (v : nat).
Inductive pc :=
| PStart
| PRun (rest : list nat)            (* an emission: the slots it still has to hand over *)
| PHeld (c : nat) (rest : list nat) (* it waits for the execution it posted for connection c (72) *)
| PDone.
(** A call; is it made by code on the processor? *)
Record agent := Ag { a_call : call; a_proc : bool; a_pc : pc }.
(** An execution in the queue: the emission, the connection, the copied argument. *)
Record task := Tk { k_em : nat; k_conn : nat; k_val : nat }.
(** [busy]: the processor runs code of the user.  [closed]: the queue is closed.  [gone]: the processor is destroyed. *)
Record st := St { lock : option nat; keeper : list nat; kinds : list kind; queue : list task; busy : bool; closed : bool; gone : bool; ags : list agent }.
Definition st_new : st := St None [] [] [] false false false [].

Inductive label :=
| LCall (c : call) (on_proc : bool)
| LStep (t : nat)        (* call t goes on *)
| LLoop                  (* the processor takes the next execution and runs it *)
| LBegin | LFinish       (* the processor starts, ends running other code *)
| LStop | LReuse | LGone.

(** What becomes of a notification for one slot when the emission gets to it: the slot is run by the emission; it is posted to the processor;
    the executor refuses it (the result of execute is not looked at, 511). *)
Inductive fate := Ran | Posted | Lost.
Inductive event :=
| ECall (t : nat) (c : call) (on_proc : bool)
| ERet (t : nat)
| ECon (t c : nat) (k : kind)      (* call t made connection c *)
| ECut (c : nat)
| EEmit (e v : nat)                (* notify begins, has the mutex *)
| ESend (e c v : nat) (f : fate)
| EEnd (e : nat)
| EProc (e c v : nat)              (* the slot of c is run by the processor with the argument v of emission e *)
| EDrop (e c v : nat)              (* the posted execution is thrown away *)
| EBegin | EFinish | EStop | EReuse | EGone.

Definition is_done (a : agent) : bool := match a_pc a with PDone => true | _ => false end.
(** Is there an unfinished call made by code on the processor? *)
Definition proc_calls (s : st) : bool := existsb (fun a => a_proc a && negb (is_done a)) (ags s).
Definition at_pc (s : st) (t : nat) (a : agent) (p : pc) : list agent := set_nth t (Ag (a_call a) (a_proc a) p) (ags s).
Definition waits_for (s : st) (e : nat) : bool := existsb (fun k => Nat.eqb (k_em k) e && match nth_error (kinds s) (k_conn k) with Some Blocking => true | _ => false end) (queue s).
Definition dropped (s : st) : list event := map (fun k => EDrop (k_em k) (k_conn k) (k_val k)) (queue s).
Definition remove_conn (c : nat) (l : list nat) : list nat := filter (fun x => negb (Nat.eqb x c)) l.

(** execute of the executor of connection [c], called by emission [e]. *)
Definition send (s : st) (e : nat) (a : agent) (v c : nat) (rest : list nat) : st * list event :=
  let ran := (St (lock s) (keeper s) (kinds s) (queue s) (busy s) (closed s) (gone s) (at_pc s e a (PRun rest)), [ESend e c v Ran]) in
  let lost := (St (lock s) (keeper s) (kinds s) (queue s) (busy s) (closed s) (gone s) (at_pc s e a (PRun rest)), [ESend e c v Lost]) in
  let posted p := (St (lock s) (keeper s) (kinds s) (queue s ++ [Tk e c v]) (busy s) (closed s) (gone s) (at_pc s e a p), [ESend e c v Posted]) in
  match nth_error (kinds s) c with
  | None => (s, [])
  | Some Direct => ran
  | Some k =>
      if gone s || closed s then lost else    (* 43, 57, 70; stopped() 300, 305, 318 *)
      match k with
      | Default => if a_proc a then ran else posted (PRun rest)          (* 306-310 *)
      | Blocking => if a_proc a then ran else posted (PHeld c rest)      (* 320-327 *)
      | _ => posted (PRun rest)
      end
  end.

Definition step (s : st) (l : label) : st * list event :=
  match l with
  | LCall c p =>
      if (if p then busy s && negb (proc_calls s) else true) &&
         match c with CCut c' => Nat.ltb c' (length (kinds s)) | _ => true end
      then (St (lock s) (keeper s) (kinds s) (queue s) (busy s) (closed s) (gone s) (ags s ++ [Ag c p PStart]), [ECall (length (ags s)) c p])
      else (s, [])
  | LStep t =>
      match nth_error (ags s) t with
      | None => (s, [])
      | Some a =>
          match a_pc a, a_call a with
          | PStart, CConnect k =>     (* 334-349 *)
              match lock s with
              | Some _ => (s, [])
              | None => let c := length (kinds s) in
                  (St None (keeper s ++ [c]) (kinds s ++ [k]) (queue s) (busy s) (closed s) (gone s) (at_pc s t a PDone), [ECon t c k; ERet t])
              end
          | PStart, CCut c =>         (* 194-203, 122-128 *)
              match lock s with
              | Some _ => (s, [])
              | None => (St None (remove_conn c (keeper s)) (kinds s) (queue s) (busy s) (closed s) (gone s) (at_pc s t a PDone),
                         (if existsb (Nat.eqb c) (keeper s) then [ECut c] else []) ++ [ERet t])
              end
          | PStart, CNotify v =>
              match lock s with
              | Some _ => (s, [])
              | None => (St (Some t) (keeper s) (kinds s) (queue s) (busy s) (closed s) (gone s) (at_pc s t a (PRun (keeper s))), [EEmit t v])
              end
          | PRun (c :: rest), CNotify v => send s t a v c rest
          | PRun [], CNotify v =>
              (St None (keeper s) (kinds s) (queue s) (busy s) (closed s) (gone s) (at_pc s t a PDone), [EEnd t; ERet t])
          | PHeld c rest, CNotify v =>
              if waits_for s t then (s, [])
              else (St (lock s) (keeper s) (kinds s) (queue s) (busy s) (closed s) (gone s) (at_pc s t a (PRun rest)), [])
          | _, _ => (s, [])
          end
      end
  | LLoop =>
      match busy s, queue s with
      | false, k :: q => (St (lock s) (keeper s) (kinds s) q (busy s) (closed s) (gone s) (ags s), [EProc (k_em k) (k_conn k) (k_val k)])
      | _, _ => (s, [])
      end
  | LBegin =>
      if busy s || gone s then (s, []) else (St (lock s) (keeper s) (kinds s) (queue s) true (closed s) (gone s) (ags s), [EBegin])
  | LFinish =>
      if busy s && negb (proc_calls s) then (St (lock s) (keeper s) (kinds s) (queue s) false (closed s) (gone s) (ags s), [EFinish]) else (s, [])
  | LStop =>   (* 249-254, 130-133 *)
      if closed s || gone s then (s, [])
      else (St (lock s) (keeper s) (kinds s) [] (busy s) true (gone s) (ags s), EStop :: dropped s)
  | LReuse => if gone s then (s, []) else (St (lock s) (keeper s) (kinds s) (queue s) (busy s) false (gone s) (ags s), [EReuse])
  | LGone =>   (* 163 *)
      if busy s || gone s then (s, [])
      else (St (lock s) (keeper s) (kinds s) [] (busy s) true true (ags s), EGone :: dropped s)
  end.

Fixpoint run (s : st) (h : list label) : st * list event :=
  match h with
  | [] => (s, [])
  | l :: h' => let (s1, e1) := step s l in let (s2, e2) := run s1 h' in (s2, e1 ++ e2)
  end.
