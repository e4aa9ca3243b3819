(** Vocabulary for the signal properties C49-C52, C66-C68. *)
From Verif Require Import SigModel.

(** The connected slots in connection order, each with the number of its connection, as told by the successful connects (and
    reconnects) and disconnects of the history alone. *)
Fixpoint drop_first (s : nat) (l : list (nat * nat)) : list (nat * nat) :=
  match l with [] => [] | (k, s') :: r => if Nat.eqb s s' then r else (k, s') :: drop_first s r end.
Definition account (x : nat * list (nat * nat)) (e : event) : nat * list (nat * nat) :=
  match e with
  | EJoin s => (S (fst x), snd x ++ [(fst x, s)])
  | ELeave s => (fst x, drop_first s (snd x))
  | EClear => (fst x, [])
  | _ => x
  end.
Definition live (tr : list event) : list (nat * nat) := snd (fold_left account tr (0, [])).

(** Kinds of histories. *)
Definition emitting (m : mode) (h : history) : Prop := em (final m h) <> None.

(** Slot [s] calls only while object [o] lives. *)
Definition tracks (m : mode) (h : history) (s o : nat) : Prop := exists t c, In (ERet t (AConnect (CTracked o)) (RCon c s true)) (trace m h).
(** Connection [c] was given for slot [s]. *)
Definition made_for (m : mode) (h : history) (c s : nat) : Prop := exists t a, In (ERet t a (RCon c s true)) (trace m h).
(** Slot [s] is a SlotPtr the user may connect several times. *)
Definition user_slot (m : mode) (h : history) (s : nat) : Prop := exists t, In (ERet t AMakePtr (RPtr s)) (trace m h).
(** The user still holds the SlotPtr: it was made and never let go of. *)
Definition holds (m : mode) (h : history) (s : nat) : Prop := user_slot m h s /\ forall t, ~ In (t, ADropPtr s) h.
Definition slots (l : list (nat * nat)) : list nat := map snd l.

(** The connection [c] was cut with its own disconnect() and not reconnected since. *)
Definition cut_by (c : nat) (b : bool) (e : event) : bool :=
  match e with
  | ERet _ (ADisconnect c') (RBool true) => Nat.eqb c c' || b
  | ERet _ (AReconnect c') _ => negb (Nat.eqb c c') && b
  | _ => b
  end.
Definition cut (c : nat) (tr : list event) : bool := fold_left (cut_by c) tr false.
Arguments cut : simpl never.
Definition in_use (m : mode) (h : history) (c : nat) : Prop := ~ In (EDestroy c) (trace m h).
Definition signal_alive (m : mode) (h : history) : Prop := ~ In ESignalEnd (trace m h).
(** Thread [t] may call the signal: nothing went wrong before and no other thread is emitting, and [t] is not itself between two slots. *)
Definition may_call (m : mode) (h : history) (t : nat) : Prop := free (final m h) t = true /\ ~ In ECrash (trace m h).
(** Slot [s] is running. *)
Definition running (m : mode) (h : history) (t e s : nat) : Prop :=
  exists x k, em (final m h) = Some x /\ e_thread x = t /\ e_no x = e /\ e_run x = Some (k, s).
(** Thread [t] is inside a slot (or between two slots) of an emission. *)
Definition inside (m : mode) (h : history) (t : nat) : Prop := exists x, em (final m h) = Some x /\ e_thread x = t.
(** Thread [t] is between two slots of emission [e]. *)
Definition between (m : mode) (h : history) (t e : nat) : Prop :=
  exists x, em (final m h) = Some x /\ e_thread x = t /\ e_no x = e /\ e_run x = None.
(** Every action [a] of the history, made by [t] after [h1], satisfies [P h1 t a]. *)
Definition always (h : history) (P : history -> nat -> action -> Prop) : Prop := forall h1 t a h2, h = h1 ++ (t, a) :: h2 -> P h1 t a.
(** No slot throws, and none clears, emits or destroys the signal that is calling it. *)
Definition well_behaved (m : mode) (h : history) : Prop := always h (fun h1 t a =>
  match a with AThrow => False | AClear | ASignalEnd | AEmit _ => ~ inside m h1 t | _ => True end).
(** No slot throws, no tracked object dies, and no slot disconnects anything from the signal that is calling it. *)
Definition no_cut_inside (m : mode) (h : history) : Prop := always h (fun h1 t a =>
  match a with AThrow | AKill _ => False | ADisconnect _ | ADisconnectPtr _ | AScopedEnd _ => ~ inside m h1 t | _ => True end).
(** Only plain slots and SlotPtr are connected, and their connections and pointers are kept. *)
Definition kept (h : history) : Prop := always h (fun _ _ a =>
  match a with AConnect CAware | AConnect (CTracked _) | ADestroy _ | AScopedEnd _ | ADropPtr _ => False | _ => True end).
