(** Vocabulary for the queue properties C39, C40, C56, C64. *)
From Verif Require Import ListUtil QueueModel.

Section Spec.
Variable V : Type.
Variable fr : list V -> nat -> bool.

(** The elements put in, in the order in which they were put in. *)
Definition put_of (e : event V) : list V := match e with EPut _ vs => vs | _ => [] end.
Definition puts (l : list (event V)) : list V := flat_map put_of l.

(** The elements that left the queue, in the order in which they left: taken by a consumer or discarded by clear(). *)
Definition out_of (e : event V) : list V := match e with ETake _ v => [v] | EClear _ vs => vs | _ => [] end.
Definition outs (l : list (event V)) : list V := flat_map out_of l.

(** What a call did. *)
Definition put_by (t : nat) (e : event V) : bool := match e with EPut t' _ => Nat.eqb t t' | _ => false end.
Definition took_by (t : nat) (e : event V) : bool := match e with ETake t' _ => Nat.eqb t t' | _ => false end.

Definition returned (h : history V) (t : nat) (r : res V) : Prop := In (ERet t r) (trace fr h).
Definition done (h : history V) (t : nat) : Prop := exists r, returned h t r.

(** What the queue still holds. *)
Definition content (h : history V) : list V := items (final fr h).

(** Call [t] sleeps in the condition variable; the mutex is free. *)
Definition asleep (h : history V) (t : nat) : Prop := exists o, nth_error (tasks (final fr h)) t = Some (o, PAsleep).
Definition mutex_free (h : history V) : Prop := mutex (final fr h) = None.

Definition is_push (o : op V) : bool := match o with OPush _ | OPushSeq _ => true | _ => false end.
Definition takes_out (o : op V) : bool := match o with OWait _ | OTryPop => true | _ => false end.

(** Kinds of histories. *)
Definition no_call (bad : op V -> bool) (h : history V) : Prop := forall t o, call_of fr h t = Some o -> bad o = false.
Definition closes (o : op V) : bool := match o with OClose => true | _ => false end.
Definition reopens (o : op V) : bool := match o with OReOpen => true | _ => false end.
Definition clears (o : op V) : bool := match o with OClear _ => true | _ => false end.
Definition is_run (l : label V) : bool := match l with LRun _ _ => true | _ => false end.
End Spec.

Arguments puts {V}. Arguments outs {V}. Arguments put_by {V}. Arguments took_by {V}. Arguments returned {V}. Arguments done {V}.
Arguments content {V}. Arguments asleep {V}. Arguments mutex_free {V}. Arguments is_push {V}. Arguments takes_out {V}.
Arguments no_call {V}. Arguments closes {V}. Arguments reopens {V}. Arguments clears {V}. Arguments is_run {V}.
Arguments put_of {V}. Arguments out_of {V}.
