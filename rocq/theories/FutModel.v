(** Model of waitableConnect and FutureInvocation (include/maf/utils/SignalSlots.h:604-694): connect to a signal for one
    notification, which is waited for and handled on the waiting thread.

    A Signal (MultiSlotKeeper in an AtomicObject with a recursive mutex) to which only waitable connections are made; any number of
    calls on any threads (number [t] = the [t]-th call made); a step is one critical section.  An emission keeps the mutex until it
    returns (322, AtomicObject.h:16) and goes on until no slot is left (112-119: a slot that is connected meanwhile is visited too).  A
    call made by code that runs inside emission [e] (a slot of another kind) carries [Some e] and may lock the mutex; the emission waits
    for its return.  Emitting and disconnecting all inside an emission are forbidden (SigModel), so such calls are not made here.
    The slot (679-684) disconnects itself, which needs no further locking, and fulfils the promise; it is destroyed when it returns,
    because the connection of the FutureInvocation refers to it weakly - but that connection keeps the slot, and with it the promise,
    if it is the one that disconnects (194-203).
    The destructor of the signal is disconnect() (318), that of a FutureInvocation is cancel() (622).
    Simplified: the arguments are one number; the slots of an emission may be called in any order (they have the same arguments); at
    most one wait at a time on one FutureInvocation (it is not protected); slots given by the user do not throw.  What becomes of the
    memory of a slot that disconnects itself is treated in SigModel (C68). *)
From Verif Require Import ListUtil.

Inductive prom := Pend | Val (v : nat) | Broken.
(** A waitable connection: the slot is in the keeper; the connection keeps the slot for a reconnect; the promise; the future is valid;
    the user has got the FutureInvocation. *)
Record wt := Wt { w_in : bool; w_held : bool; w_prom : prom; w_fut : bool; w_pub : bool }.

Inductive call :=
| CConnect                (* waitableConnect, 673-694 *)
| CEmit (v : nat)         (* notify, 322 *)
| CClear                  (* disconnect(), 467 *)
| CCancel (w : nat)       (* 663 *)
| CWait (w : nat)         (* 653-662 *)
| CWaitFor (w : nat).     (* waitFor 626-637, waitUtil 640-651 *)
Inductive pc :=
| PStart
| PCheck (w : nat)        (* the slot is connected, connection.connected() is next (688) *)
| PRun                    (* in notify *)
| PBlock                  (* in future::wait / get *)
| PSlot (v : nat)         (* runs the user's slot *)
| PDone.
Record agent := Ag { a_call : call; a_in : option nat; a_pc : pc }.
Record st := St { lock : option nat; wts : list wt; ags : list agent }.
Definition st_new : st := St None [] [].

Inductive label :=
| LCall (c : call) (inside : option nat)
| LStep (t : nat) (pick : option nat) (expired : bool).  (* call t goes on; pick: the slot an emission visits; expired: the time is up *)

Inductive result := RUnit | RBool (b : bool) | RFut (w : option nat).  (* RFut None: an empty FutureInvocation *)
Inductive event :=
| ECall (t : nat) (c : call)
| EJoin (t w : nat)        (* waitable connection w was made by call t *)
| EEmit (e v : nat)        (* emission e begins to notify *)
| EFire (e w v : nat)      (* emission e calls the slot of w with v *)
| EEnd (e : nat)           (* emission e returns *)
| EBroke (w : nat)         (* the slot of w is destroyed without having been called *)
| ECancel (w : nat)        (* w was disconnected by cancel *)
| ESlot (t w v : nat)      (* wait t on w calls the user's slot with v *)
| ERet (t : nat) (r : result).

Definition is_done (a : agent) : bool := match a_pc a with PDone => true | _ => false end.
Definition waits_on (c : call) : option nat := match c with CWait w | CWaitFor w => Some w | _ => None end.
Definition eqo (a b : option nat) : bool :=
  match a, b with Some x, Some y => Nat.eqb x y | None, None => true | _, _ => false end.

(** Unfinished calls made inside emission [e]. *)
Definition busy_in (s : st) (e : nat) : bool := existsb (fun a => eqo (a_in a) (Some e) && negb (is_done a)) (ags s).
Definition waited (s : st) (w : nat) : bool := existsb (fun a => eqo (waits_on (a_call a)) (Some w) && negb (is_done a)) (ags s).
Definition known (s : st) (w : nat) : bool := match nth_error (wts s) w with Some x => w_pub x | None => false end.

Definition may_call (s : st) (c : call) (i : option nat) : bool :=
  match i with
  | None => true
  | Some e => eqo (lock s) (Some e) && match c with CEmit _ | CClear => false | _ => true end
  end &&
  match c with
  | CCancel w => known s w
  | CWait w | CWaitFor w => known s w && negb (waited s w)
  | _ => true
  end.

(** A call made inside emission [i] locks the mutex that the emission holds. *)
Definition can_lock (s : st) (i : option nat) : bool := match lock s with None => true | Some e => eqo i (Some e) end.

Definition upd (s : st) (t : nat) (a : agent) (p : pc) : st := St (lock s) (wts s) (set_nth t (Ag (a_call a) (a_in a) p) (ags s)).
Definition set_wt (s : st) (w : nat) (x : wt) : st := St (lock s) (set_nth w x (wts s)) (ags s).
Definition set_lock (s : st) (l : option nat) : st := St l (wts s) (ags s).

(** The keeper is emptied; the slots are destroyed, and with them their promises. *)
Definition broke (x : wt) : wt := if w_in x then Wt false (w_held x) Broken (w_fut x) (w_pub x) else x.
Definition break_all (s : st) : st := St (lock s) (map broke (wts s)) (ags s).
Definition broken_now (s : st) : list event :=
  flat_map (fun w => match nth_error (wts s) w with Some x => if w_in x then [EBroke w] else [] | None => [] end) (seq 0 (length (wts s))).

(** wait: get() on a future that is ready invalidates it; a broken promise throws future_error. *)
Definition wait_step (s : st) (t : nat) (a : agent) (w : nat) (x : wt) (timed expired : bool) : st * list event :=
  let taken := Wt (w_in x) (w_held x) (w_prom x) false (w_pub x) in
  match a_pc a with
  | PStart => if w_fut x then (upd s t a PBlock, []) else (upd s t a PDone, [ERet t (RBool false)])
  | PBlock =>
      match w_prom x with
      | Val v => (upd (set_wt s w taken) t a (PSlot v), [ESlot t w v])
      | Broken => (upd (set_wt s w taken) t a PDone, [ERet t (RBool false)])
      | Pend => if timed && expired then (upd s t a PDone, [ERet t (RBool false)]) else (s, [])
      end
  | PSlot v => (upd s t a PDone, [ERet t (RBool true)])
  | _ => (s, [])
  end.

Definition step (s : st) (l : label) : st * list event :=
  match l with
  | LCall c i => if may_call s c i then (St (lock s) (wts s) (ags s ++ [Ag c i PStart]), [ECall (length (ags s)) c]) else (s, [])
  | LStep t pick expired =>
      match nth_error (ags s) t with
      | None => (s, [])
      | Some a =>
          match a_call a, a_pc a with
          | CConnect, PStart =>   (* connect 334-349 *)
              if can_lock s (a_in a) then
                let w := length (wts s) in
                (upd (St (lock s) (wts s ++ [Wt true false Pend true false]) (ags s)) t a (PCheck w), [EJoin t w])
              else (s, [])
          | CConnect, PCheck w => (* 688-693 *)
              if can_lock s (a_in a) then
                match nth_error (wts s) w with
                | Some x =>
                    if w_in x then (upd (set_wt s w (Wt true (w_held x) (w_prom x) (w_fut x) true)) t a PDone, [ERet t (RFut (Some w))])
                    else (upd s t a PDone, [ERet t (RFut None)])
                | None => (s, [])
                end
              else (s, [])
          | CEmit v, PStart => if can_lock s None then (upd (set_lock s (Some t)) t a PRun, [EEmit t v]) else (s, [])
          | CEmit v, PRun =>
              if busy_in s t then (s, []) else
              match pick with
              | Some w =>
                  match nth_error (wts s) w with
                  | Some x => if w_in x then (set_wt s w (Wt false (w_held x) (Val v) (w_fut x) (w_pub x)), [EFire t w v]) else (s, [])
                  | None => (s, [])
                  end
              | None =>
                  if existsb w_in (wts s) then (s, []) else (upd (set_lock s None) t a PDone, [EEnd t; ERet t RUnit])
              end
          | CClear, PStart => if can_lock s None then (upd (break_all s) t a PDone, broken_now s ++ [ERet t RUnit]) else (s, [])
          | CCancel w, PStart =>
              match nth_error (wts s) w with
              | Some x =>
                  if w_in x then
                    if can_lock s (a_in a) then (upd (set_wt s w (Wt false true (w_prom x) (w_fut x) (w_pub x))) t a PDone, [ECancel w; ERet t RUnit])
                    else (s, [])
                  else (upd s t a PDone, [ERet t RUnit])
              | None => (s, [])
              end
          | CWait w, _ => match nth_error (wts s) w with Some x => wait_step s t a w x false expired | None => (s, []) end
          | CWaitFor w, _ => match nth_error (wts s) w with Some x => wait_step s t a w x true expired | None => (s, []) end
          | _, _ => (s, [])
          end
      end
  end.

Fixpoint run (s : st) (h : list label) : st * list event :=
  match h with
  | [] => (s, [])
  | l :: h' => let (s1, e1) := step s l in let (s2, e2) := run s1 h' in (s2, e1 ++ e2)
  end.
