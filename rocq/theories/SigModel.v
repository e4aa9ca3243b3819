(** Model of the signals and connections of include/maf/utils/SignalSlots.h.

    One signal with any number of slots, connections and threads.  A history is a list of (thread, action).  The keeper sits in an
    AtomicObject, so a call that needs its (recursive) mutex is possible only while no other thread is inside an emission
    (notify() keeps the mutex during the whole emission, 322 and AtomicObject.h:16); such a call is otherwise simply not made at that
    point of the history.  An emission is made of steps, and between two steps the emitting thread, running a slot, may make any call
    on the signal or on its connections: re-entrancy is not restricted.
    Slots are numbered in order of creation, connections too; [held] are the SlotPtr the user keeps.
    The number in an entry of the keeper ([serial]) and the events are ghost.
    Simplified: the arguments of the signal are one number that is only passed on; a slot with an executor is a slot (the call is the
    hand-over); each call of the API is atomic apart from emissions; moving a Connection is not a step; signals connected to signals
    (a slot that emits another signal) and FutureInvocation are not modelled. *)
From Verif Require Export ListUtil.

(** SingleSlotKeeper 36-86, MultiSlotKeeper 88-154. *)
Inductive mode := Multi | Single.

(** What a slot is: connect(SlotType) 324-327, connect(SlotPtrType) 383-386, connect(ConnectionAwareSlotType) 334-349 (owner of
    connection [c]), connect(obj, slot) 356-366 (the same, calling the slot only while the object lives). *)
Inductive kind := KPlain | KPtr | KAware (c : nat) | KTracked (o c : nat).

(** Connection 175-274: variant<weak_ptr, shared_ptr>; CGone: the Connection was destroyed. *)
Inductive cstate := CRef (s : option nat) | CPtr (s : nat) | CGone.

Inductive ckind := CPlain | CAware | CTracked (o : nat).
Inductive action :=
| AConnect (k : ckind)        (* 324-366 *)
| AMakePtr                    (* the user makes a SlotPtr *)
| AConnectPtr (s : nat)       (* 383-386 *)
| ADropPtr (s : nat)          (* the user lets go of a SlotPtr *)
| ADisconnectPtr (s : nat)    (* signal.disconnect(ps), 465 *)
| AClear                      (* signal.disconnect(), 467 *)
| AHasAny                     (* signal.connected(), 469 *)
| ACount                      (* signal.connectionCount(), 471 *)
| ADisconnect (c : nat)       (* 194-209 *)
| AReconnect (c : nat)        (* 223-239 *)
| AConnected (c : nat)        (* 211-221 *)
| ADestroy (c : nat)          (* ~Connection *)
| AScopedEnd (c : nat)        (* ~ScopedConnection 289-296 *)
| AKill (o : nat)             (* the last owner of a tracked object lets it go *)
| ASignalEnd                  (* ~BasicSignal_ 318 *)
| AEmit (v : nat)             (* notify 322 *)
| AStep                       (* the emission goes on to its next slot *)
| AReturn                     (* the running slot returns *)
| AThrow.                     (* the running slot throws *)

Inductive result := RBool (b : bool) | RNum (n : nat) | RCon (c s : nat) (ok : bool) | RPtr (s : nat).
Inductive event :=
| EJoin (s : nat)             (* slot s was connected *)
| ELeave (s : nat)            (* slot s was disconnected *)
| EClear                      (* all were disconnected *)
| EEmit (t e v : nat)         (* thread t begins emission number e *)
| ECall (t e k s v : nat)     (* slot s, connected as number k, is called *)
| EEnd (t e : nat)            (* the emission returns *)
| EThrown (t e : nat)         (* the emission is left by an exception *)
| EKilled (o : nat)
| EDestroy (c : nat)          (* connection c is destroyed *)
| ESignalEnd                  (* the signal is destroyed *)
| EFreed (s : nat)            (* slot s is destroyed while it runs: undefined behaviour *)
| ECrash                      (* failed assertion or other undefined behaviour *)
| ERet (t : nat) (a : action) (r : result).

Record emis := Em { e_thread : nat; e_no : nat; e_val : nat; e_cur : nat; e_run : option (nat * nat) }.
Definition entry := option (nat * nat).
Record state := St { entries : list entry; notif : bool; em : option emis; kinds : list kind; held : list nat; conns : list cstate;
  dead : list nat; hub : bool; crashed : bool; serial : nat; emno : nat; tr : list event }.

Definition init : state := St [] false None [] [] [] [] true false 0 0 [].

Definition emit (st : state) (l : list event) : state :=
  St (entries st) (notif st) (em st) (kinds st) (held st) (conns st) (dead st) (hub st) (crashed st) (serial st) (emno st) (tr st ++ l).
Definition with_entries (st : state) (l : list entry) : state :=
  St l (notif st) (em st) (kinds st) (held st) (conns st) (dead st) (hub st) (crashed st) (serial st) (emno st) (tr st).
Definition with_em (st : state) (b : bool) (e : option emis) : state :=
  St (entries st) b e (kinds st) (held st) (conns st) (dead st) (hub st) (crashed st) (serial st) (emno st) (tr st).
Definition with_kinds (st : state) (l : list kind) : state :=
  St (entries st) (notif st) (em st) l (held st) (conns st) (dead st) (hub st) (crashed st) (serial st) (emno st) (tr st).
Definition with_held (st : state) (l : list nat) : state :=
  St (entries st) (notif st) (em st) (kinds st) l (conns st) (dead st) (hub st) (crashed st) (serial st) (emno st) (tr st).
Definition with_conns (st : state) (l : list cstate) : state :=
  St (entries st) (notif st) (em st) (kinds st) (held st) l (dead st) (hub st) (crashed st) (serial st) (emno st) (tr st).
Definition with_dead (st : state) (l : list nat) : state :=
  St (entries st) (notif st) (em st) (kinds st) (held st) (conns st) l (hub st) (crashed st) (serial st) (emno st) (tr st).
Definition with_hub (st : state) (b : bool) : state :=
  St (entries st) (notif st) (em st) (kinds st) (held st) (conns st) (dead st) b (crashed st) (serial st) (emno st) (tr st).
Definition with_serial (st : state) (n : nat) : state :=
  St (entries st) (notif st) (em st) (kinds st) (held st) (conns st) (dead st) (hub st) (crashed st) n (emno st) (tr st).
Definition with_emno (st : state) (n : nat) : state :=
  St (entries st) (notif st) (em st) (kinds st) (held st) (conns st) (dead st) (hub st) (crashed st) (serial st) n (tr st).
Definition crash (st : state) : state :=
  St (entries st) (notif st) (em st) (kinds st) (held st) (conns st) (dead st) (hub st) true (serial st) (emno st) (tr st ++ [ECrash]).
Definition set_con (st : state) (c : nat) (x : cstate) : state := with_conns st (set_nth c x (conns st)).

(** has: 73, 143-145. *)
Definition is_slot (s : nat) (e : entry) : bool := match e with Some (_, s') => Nat.eqb s s' | None => false end.
Definition has (s : nat) (l : list entry) : bool := existsb (is_slot s) l.

(** Erase the first entry with this slot (126-129), or blank it (131-134). *)
Fixpoint erase (s : nat) (l : list entry) : list entry :=
  match l with [] => [] | x :: r => if is_slot s x then r else x :: erase s r end.
Fixpoint blank (s : nat) (l : list entry) : list entry :=
  match l with [] => [] | x :: r => if is_slot s x then None :: r else x :: blank s r end.

(** add: 42-48, 94-97.  The caller has checked [can_add]. *)
Definition can_add (m : mode) (l : list entry) : bool := match m with Multi => true | Single => match l with [] => true | _ => false end end.
Definition add (st : state) (s : nat) : state :=
  emit (with_serial (with_entries st (entries st ++ [Some (serial st, s)])) (S (serial st))) [EJoin s].
(** addUnique: 50, 99-105. *)
Definition can_add_unique (m : mode) (l : list entry) (s : nat) : bool :=
  match m with Multi => negb (has s l) | Single => can_add m l end.
(** remove: 52-58, 124-138.  The caller has checked [has]. *)
Definition remove (m : mode) (st : state) (s : nat) : state :=
  emit (with_entries st (match m with Single => [] | Multi => if notif st then blank s (entries st) else erase s (entries st) end)) [ELeave s].

(** Who keeps slot [s] alive: the keeper, a connection that was disconnected, the user. *)
Definition is_ptr (s : nat) (c : cstate) : bool := match c with CPtr s' => Nat.eqb s s' | _ => false end.
Definition owned (st : state) (s : nat) : bool :=
  has s (entries st) || existsb (Nat.eqb s) (held st) || existsb (is_ptr s) (conns st).

(** Connections owned by a slot (336-339) cannot be destroyed by the user. *)
Definition owns_con (c : nat) (k : kind) : bool := match k with KAware c' | KTracked _ c' => Nat.eqb c c' | _ => false end.
Definition internal (st : state) (c : nat) : bool := existsb (owns_con c) (kinds st).

(** The connection owned by the slot of a tracked object is never shown to the user (358-365). *)
Definition hides_con (c : nat) (k : kind) : bool := match k with KTracked _ c' => Nat.eqb c c' | _ => false end.
Definition hidden (st : state) (c : nat) : bool := existsb (hides_con c) (kinds st).

(** Connection::connected 211-221. *)
Definition is_connected (st : state) (c : nat) : bool :=
  match nth_error (conns st) c with Some (CRef (Some s)) => owned st s && hub st && has s (entries st) | _ => false end.
(** Connection::disconnect 194-209. *)
Definition disconnect (m : mode) (st : state) (c : nat) : state * bool :=
  match nth_error (conns st) c with
  | Some (CRef (Some s)) =>
      if owned st s then
        if hub st then
          if has s (entries st) then (set_con (remove m st s) c (CPtr s), true) else (st, false)
        else (set_con st c (CRef None), false)
      else (st, false)
  | _ => (st, false)
  end.
(** Connection::reconnect 223-239. *)
Definition reconnect (m : mode) (st : state) (c : nat) : state * bool :=
  match nth_error (conns st) c with
  | Some (CPtr s) =>
      if hub st then
        if can_add_unique m (entries st) s then (set_con (add st s) c (CRef (Some s)), true)
        else (set_con st c (CRef None), false)
      else (st, false)
  | _ => (st, false)
  end.

(** saveSlot 521-527: the Connection given to the caller is the next one. *)
Definition save (m : mode) (st : state) (t : nat) (a : action) (s : nat) : state :=
  let ok := can_add m (entries st) in
  let st1 := if ok then add st s else st in
  let c := length (conns st1) in
  emit (with_conns st1 (conns st1 ++ [CRef (if ok then Some s else None)])) [ERet t a (RCon c s ok)].

Definition is_dead (st : state) (o : nat) : bool := existsb (Nat.eqb o) (dead st).

(** Calls that need the keeper's mutex, made by a thread that can get it. *)
Definition call (m : mode) (st : state) (t : nat) (a : action) : state :=
  match a with
  | AConnect CPlain => if hub st then save m (with_kinds st (kinds st ++ [KPlain])) t a (length (kinds st)) else st
  | AConnect CAware =>
      if hub st then save m (with_conns (with_kinds st (kinds st ++ [KAware (length (conns st))])) (conns st ++ [CRef (Some (length (kinds st)))]))
        t a (length (kinds st)) else st
  | AConnect (CTracked o) =>
      if hub st && negb (is_dead st o) then save m (with_conns (with_kinds st (kinds st ++ [KTracked o (length (conns st))])) (conns st ++ [CRef (Some (length (kinds st)))]))
        t a (length (kinds st)) else st
  | AConnectPtr s => if hub st && existsb (Nat.eqb s) (held st) then save m st t a s else st
  | ADisconnectPtr s =>
      if hub st && existsb (Nat.eqb s) (held st) then
        if has s (entries st) then emit (remove m st s) [ERet t a (RBool true)] else emit st [ERet t a (RBool false)]
      else st
  | AClear => (* clearing the list an emission iterates over: undefined behaviour (112-119); the single slot is just reset *)
      if hub st then
        match m, em st with Multi, Some _ => crash st | _, _ => emit (with_entries st []) [EClear] end
      else st
  | AHasAny => if hub st then emit st [ERet t a (RBool (match entries st with [] => false | _ => true end))] else st
  | ACount => if hub st then emit st [ERet t a (RNum (length (entries st)))] else st
  | ADisconnect c => if hidden st c then st else let '(st', b) := disconnect m st c in emit st' [ERet t a (RBool b)]
  | AReconnect c => if hidden st c then st else let '(st', b) := reconnect m st c in emit st' [ERet t a (RBool b)]
  | AConnected c => if hidden st c then st else emit st [ERet t a (RBool (is_connected st c))]
  | AScopedEnd c =>
      if internal st c || Nat.leb (length (conns st)) c then st else
      let st' := if is_connected st c then fst (disconnect m st c) else st in emit (set_con st' c CGone) [EDestroy c]
  | ASignalEnd => if hub st then match em st with Some _ => crash st | None => emit (with_hub (with_entries st []) false) [EClear; ESignalEnd] end else st
  | AEmit v =>
      if hub st then
        match entries st with
        | [] => emit (with_emno st (S (emno st))) [EEmit t (emno st) v; EEnd t (emno st)]
        | _ => if notif st then crash st (* assert(!notifying_) 62, 109 *)
               else emit (with_emno (with_em st true (Some (Em t (emno st) v 0 None))) (S (emno st))) [EEmit t (emno st) v]
        end
      else st
  | _ => st
  end.

(** May thread [t] call now?  Not while another thread emits, nor while it is itself between two slots. *)
Definition free (st : state) (t : nat) : bool :=
  match em st with None => true | Some e => Nat.eqb (e_thread e) t && match e_run e with Some _ => true | None => false end end.

(** The emission moves behind the current slot; SingleSlotKeeper::notify has only one (60-67). *)
Definition go_on (m : mode) (st : state) (e : emis) : state :=
  match m with
  | Multi => with_em st true (Some (Em (e_thread e) (e_no e) (e_val e) (S (e_cur e)) None))
  | Single => emit (with_em st false None) [EEnd (e_thread e) (e_no e)]
  end.

Definition drop_nth (i : nat) (l : list entry) : list entry := firstn i l ++ skipn (S i) l.

(** One turn of the loop 112-119. *)
Definition step (m : mode) (st : state) (e : emis) : state :=
  match nth_error (entries st) (e_cur e) with
  | None => emit (with_em st false None) [EEnd (e_thread e) (e_no e)]                                   (* 120-121 *)
  | Some None => with_entries st (drop_nth (e_cur e) (entries st))                                      (* 113-114 *)
  | Some (Some (k, s)) =>
      match nth_error (kinds st) s with
      | Some (KTracked o c) =>
          if is_dead st o then (* 362-364: con->disconnect(); 344-346: con->clear() *)
            let st1 := fst (disconnect m st c) in
            let st2 := match nth_error (conns st1) c with Some (CPtr _) => set_con st1 c (CRef None) | _ => st1 end in
            go_on m (if owned st2 s then st2 else emit st2 [EFreed s]) e
          else emit (with_em st true (Some (Em (e_thread e) (e_no e) (e_val e) (e_cur e) (Some (k, s))))) [ECall (e_thread e) (e_no e) k s (e_val e)]
      | _ => emit (with_em st true (Some (Em (e_thread e) (e_no e) (e_val e) (e_cur e) (Some (k, s))))) [ECall (e_thread e) (e_no e) k s (e_val e)]
      end
  end.

(** The running slot returns: the closure of an aware slot clears its connection if that keeps the slot (344-346). *)
Definition slot_return (m : mode) (st : state) (e : emis) (s : nat) : state :=
  go_on m (match nth_error (kinds st) s with
           | Some (KAware c) | Some (KTracked _ c) =>
               match nth_error (conns st) c with Some (CPtr _) => set_con st c (CRef None) | _ => st end
           | _ => st
           end) e.

Definition act (m : mode) (st : state) (t : nat) (a : action) : state :=
  match a with
  | AMakePtr => emit (with_held (with_kinds st (kinds st ++ [KPtr])) (length (kinds st) :: held st)) [ERet t a (RPtr (length (kinds st)))]
  | ADropPtr s => with_held st (filter (fun x => negb (Nat.eqb s x)) (held st))
  | ADestroy c => if internal st c || Nat.leb (length (conns st)) c then st else emit (set_con st c CGone) [EDestroy c]
  | AKill o => emit (with_dead st (o :: dead st)) [EKilled o]
  | AStep => match em st with Some e => if Nat.eqb (e_thread e) t then match e_run e with None => step m st e | Some _ => st end else st | None => st end
  | AReturn => match em st with Some e => if Nat.eqb (e_thread e) t then match e_run e with Some (_, s) => slot_return m st e s | None => st end else st | None => st end
  | AThrow => (* the exception leaves notify(): [notifying_] keeps its value, the mutex is released *)
      match em st with Some e => if Nat.eqb (e_thread e) t then match e_run e with Some _ => emit (with_em st (notif st) None) [EThrown t (e_no e)] | None => st end else st | None => st end
  | _ => if free st t then call m st t a else st
  end.

(** A slot that loses its last owner while it runs. *)
Definition watch (st st' : state) : state :=
  match em st with
  | Some e => match e_run e with Some (_, s) => if owned st s && negb (owned st' s) then emit st' [EFreed s] else st' | None => st' end
  | None => st'
  end.

Definition next (m : mode) (st : state) (l : nat * action) : state := if crashed st then st else watch st (act m st (fst l) (snd l)).
Definition history := list (nat * action).
Definition final (m : mode) (h : history) : state := fold_left (next m) h init.
Definition trace (m : mode) (h : history) : list event := tr (final m h).

(** Which keeper each signal type uses: Signal, SignalST 583-585, 594-595; SCSignal, SCSignalST 587-592; SharedMutexSignal 597-599;
    SharedMutexSCSignal 600-602 is a BasicSignalTS, that is a multi-slot signal. *)
Inductive signal_type := TSignal | TSCSignal | TSharedMutexSignal | TSharedMutexSCSignal.
Definition keeper_of (t : signal_type) : mode := match t with TSignal | TSharedMutexSignal | TSharedMutexSCSignal => Multi | TSCSignal => Single end.

Arguments has : simpl never.
Arguments owned : simpl never.
