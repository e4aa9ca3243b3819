(** Model of observables (include/maf/utils/Observable.h): a signal (SigModel) whose keeper also holds a value.

    The signal part is not modelled again: an observable carries the history [sig] of calls made on its signal, and the state of its
    keeper is [SigModel.final m sig].  The recursive mutex of the keeper is held by a thread from the first to the last of its frames
    ([hold]); it alone may then use the observable, re-entrantly and without restriction.
    Simplified: slots do not throw (C51 says what happens if they do); observers are plain slots; the observable is not destroyed;
    ++, += etc. of arithmetic observables (88-101) are [OSet]: they take a reference, change the value and drop the reference at once. *)
From Verif Require Import ListUtil.
From Verif Require SigModel.
Import SigModel (mode, Multi, Single).

Section Obs.
Variable V : Type.
Variable eqb : V -> V -> bool. (* operator== of the sub-states *)
Variable m : mode.             (* the keeper: M_StateBasedKeeper_ or S_StateBasedKeeper_ (74-79) *)

(** How a slot is passed to connect(): a callable object binds to the forwarding overload 120-123, which tells the new observer the current
    value; an std::function of the slot type, and an object with a method, bind to the overloads inherited by line 114
    (SignalSlots.h:324, 414-420), which do not; nor does silentlyConnect (125-128). *)
Inductive form := FCallable | FFunction | FMethod | FSilently.
Definition tells (f : form) : bool := match f with FCallable => true | _ => false end.

Inductive action :=
| OConnect (f : form)          (* 120-154 *)
| OTell                        (* the second half of connect_, 146-147 *)
| OTellDone                    (* the slot called by it returns *)
| OSet (l : list (nat * V))    (* set<idx...> 269-272, 39-47 *)
| OSetAll (v : list V)         (* set 265-267, 49-55 *)
| OSilentSet (l : list (nat * V)) (* 57-62, 274-281, silentMutable *)
| ORef (l : list nat)          (* mutable_<idx>() 222-225, mutable_() 252: a reference to these sub-states is created *)
| OModify (v : list V)         (* the value is changed through it *)
| ORefEnd                      (* ~StateRef 311-315, ~SubStateRefBase_ 173-177 *)
| OStep                        (* the emission goes on to its next slot *)
| OReturn                      (* the slot called by the emission returns *)
| OPass (a : SigModel.action). (* calls on the signal and its connections that are not particular to observables *)

Inductive frame :=
| FTold (s : nat)                     (* running slot s, called by connect_ *)
| FEmit (args : option (list V))      (* emitting; the slots are given [args] (53) or references to the value (64-68) *)
| FRef (old : list (nat * V)).        (* a mutable reference, with the sub-states at its creation *)

Inductive event :=
| VChange (t : nat) (v : list V) (announced : bool) (* the value is now v *)
| VTold (s : nat) (v : list V)        (* slot s is called with the value v *)
| VConnect (t s : nat) (f : form)     (* slot s was accepted, passed in form f *)
| VSig (e : SigModel.event).          (* what happens to the signal *)

Record state := St { sig : SigModel.history; val : list V; hold : option (nat * list frame); pend : list (nat * nat); tr : list event }.
Definition init (v0 : list V) : state := St [] v0 None [] [].
Definition keeper (st : state) : SigModel.state := SigModel.final m (sig st).

Definition emit (st : state) (l : list event) : state := St (sig st) (val st) (hold st) (pend st) (tr st ++ l).
Definition with_val (st : state) (v : list V) : state := St (sig st) v (hold st) (pend st) (tr st).
Definition with_pend (st : state) (l : list (nat * nat)) : state := St (sig st) (val st) (hold st) l (tr st).
Definition with_hold (st : state) (h : option (nat * list frame)) : state := St (sig st) (val st) h (pend st) (tr st).

Definition frames (st : state) (t : nat) : list frame := match hold st with Some (t', fs) => if Nat.eqb t t' then fs else [] | None => [] end.
Definition push (st : state) (t : nat) (f : frame) : state := with_hold st (Some (t, f :: frames st t)).
Definition pop (st : state) (t : nat) : state := with_hold st (match tl (frames st t) with [] => None | fs => Some (t, fs) end).

(** A call on the signal; what happens there is seen.  A slot called by the emission is given the arguments or the value. *)
Definition given (st : state) (t : nat) : list V := match frames st t with FEmit (Some a) :: _ => a | _ => val st end.
Definition seen (v : list V) (e : SigModel.event) : list event := match e with SigModel.ECall _ _ _ s _ => [VSig e; VTold s v] | _ => [VSig e] end.
Definition on_signal (st : state) (t : nat) (a : SigModel.action) : state :=
  let h := sig st ++ [(t, a)] in
  let new := skipn (length (SigModel.trace m (sig st))) (SigModel.trace m h) in
  St h (val st) (hold st) (pend st) (tr st ++ flat_map (seen (given st t)) new).

(** May thread [t] run user code / take the mutex? *)
Definition waiting (st : state) (t : nat) : bool := existsb (fun p => Nat.eqb t (fst p)) (pend st).
Definition runs (st : state) (t : nat) : bool :=
  negb (waiting st t) && match frames st t with FEmit _ :: _ => match SigModel.em (keeper st) with Some e => match SigModel.e_run e with Some _ => true | None => false end | None => false end | _ => true end.
Definition gets_lock (st : state) (t : nat) : bool := match hold st with None => true | Some (t', _) => Nat.eqb t t' end.
Definition may (st : state) (t : nat) : bool := runs st t && gets_lock st t.

(** != of tuples (43, 51, 174, 312). *)
Definition differs (cur : list V) (l : list (nat * V)) : bool :=
  existsb (fun p => match nth_error cur (fst p) with Some w => negb (eqb w (snd p)) | None => false end) l.
Definition update (cur : list V) (l : list (nat * V)) : list V := fold_left (fun c p => set_nth (fst p) (snd p) c) l cur.
Fixpoint number (i : nat) (l : list V) : list (nat * V) := match l with [] => [] | x :: r => (i, x) :: number (S i) r end.
Definition differs_all (cur v : list V) : bool := differs cur (number 0 v).

(** The assertion of notify() failed, or the slots were cleared under an emission. *)
Definition crashed (st : state) : bool := SigModel.crashed (keeper st).
(** notify(): if there is a slot the emission begins, otherwise it is over (60-61, 107-108 of SignalSlots.h). *)
Definition notify (st : state) (t : nat) (args : option (list V)) : state :=
  let st1 := on_signal st t (SigModel.AEmit 0) in
  match SigModel.em (keeper st), SigModel.em (keeper st1) with None, Some _ => push st1 t (FEmit args) | _, _ => st1 end.

(** The calls that go through unchanged. *)
Definition passes (a : SigModel.action) : bool :=
  match a with SigModel.AClear | SigModel.AHasAny | SigModel.ACount | SigModel.ADisconnect _ | SigModel.AReconnect _ | SigModel.AConnected _
  | SigModel.ADestroy _ | SigModel.AScopedEnd _ => true | _ => false end.

Definition act (st : state) (t : nat) (a : action) : state :=
  match a with
  | OConnect f =>
      if may st t then
        let s := length (SigModel.kinds (keeper st)) in
        let ok := SigModel.can_add m (SigModel.entries (keeper st)) in (* saveSlot, SignalSlots.h:521-527 *)
        let st1 := on_signal st t (SigModel.AConnect SigModel.CPlain) in
        let st2 := if ok then emit st1 [VConnect t s f] else st1 in
        if tells f && ok then with_pend st2 ((t, s) :: pend st2) else st2 (* no slot: nothing to call (22-24) *)
      else st
  | OTell =>
      match find (fun p => Nat.eqb t (fst p)) (pend st) with
      | Some (_, s) =>
          if gets_lock st t then
            let st1 := with_pend st (filter (fun p => negb (Nat.eqb t (fst p))) (pend st)) in
            if SigModel.owned (keeper st) s then emit (push st1 t (FTold s)) [VTold s (val st)] else st1
          else st
      | None => st
      end
  | OTellDone => match frames st t with FTold _ :: _ => if runs st t then pop st t else st | _ => st end
  | OSet l =>
      if may st t && differs (val st) l then
        let v := update (val st) l in notify (emit (with_val st v) [VChange t v true]) t None
      else st
  | OSetAll v =>
      if may st t && Nat.eqb (length v) (length (val st)) && differs_all (val st) v then
        notify (emit (with_val st v) [VChange t v true]) t (Some v)
      else st
  | OSilentSet l => if may st t then let v := update (val st) l in emit (with_val st v) [VChange t v false] else st
  | ORef l => if may st t then push st t (FRef (flat_map (fun i => match nth_error (val st) i with Some w => [(i, w)] | None => [] end) l)) else st
  | OModify v => if runs st t && existsb (fun f => match f with FRef _ => true | _ => false end) (frames st t) && Nat.eqb (length v) (length (val st))
                 then emit (with_val st v) [VChange t v false] else st
  | ORefEnd =>
      match frames st t with
      | FRef old :: _ =>
          if runs st t then
            if differs (val st) old then notify (emit (pop st t) [VChange t (val st) true]) t None else pop st t
          else st
      | _ => st
      end
  | OStep =>
      match frames st t with
      | FEmit _ :: _ => if negb (runs st t) && negb (waiting st t) then
          let st1 := on_signal st t SigModel.AStep in match SigModel.em (keeper st1) with None => pop st1 t | Some _ => st1 end else st
      | _ => st
      end
  | OReturn =>
      match frames st t with
      | FEmit _ :: _ => if runs st t then
          let st1 := on_signal st t SigModel.AReturn in match SigModel.em (keeper st1) with None => pop st1 t | Some _ => st1 end else st
      | _ => st
      end
  | OPass a => if may st t && passes a then on_signal st t a else st
  end.

Definition next (st : state) (l : nat * action) : state := if crashed st then st else act st (fst l) (snd l).
Definition history := list (nat * action).
Definition final (v0 : list V) (h : history) : state := fold_left next h (init v0).
Definition trace (v0 : list V) (h : history) : list event := tr (final v0 h).
End Obs.
