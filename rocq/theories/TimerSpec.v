(** Vocabulary for the timer properties C46-C48: what the user asked of a timer, told from the trace alone. *)
From Verif Require Import ListUtil TimerModel.

(** When a timer is due, its interval, and whether it is cyclic.  A one-shot timer is no longer due once it fired. *)
Record plan := Plan { due_at : option nat; every : nat; again : bool }.
Definition plan_step (r : nat) (p : plan) (e : event) : plan :=
  match e with
  | EStart q t d => if Nat.eqb q r then Plan (Some (t + d)) d (again p) else p
  | EStop q | EForeign q => if Nat.eqb q r then Plan None (every p) (again p) else p
  | ERestart q t => if Nat.eqb q r then Plan (Some (t + every p)) (every p) (again p) else p
  | ECyclic q b => if Nat.eqb q r then Plan (due_at p) (every p) b else p
  | EFire q _ => if Nat.eqb q r then Plan (if again p then option_map (fun w => w + every p) (due_at p) else None) (every p) (again p) else p
  | _ => p
  end.
Definition plan_of (r : nat) (tr : list event) : plan := fold_left (plan_step r) tr (Plan None 0 false).
Definition due (r : nat) (tr : list event) : option nat := due_at (plan_of r tr).
Definition interval (r : nat) (tr : list event) : nat := every (plan_of r tr).

(** Timers are stopped and destroyed on the thread they run on. *)
Definition own_thread (tr : list event) : Prop := forall r, ~ In (EForeign r) tr.
(** Only running timers are restarted. *)
Definition restarts_running (tr : list event) : Prop := forall a r t b, tr = a ++ ERestart r t :: b -> due r a <> None.
(** If the processor comes back to a timer [r] it was waiting for when that timer is due already, then no timer was started, stopped or
    restarted meanwhile, or [r] is still the first one due. *)
Definition is_op (e : event) : Prop := match e with EStart _ _ _ | EStop _ | ERestart _ _ => True | _ => False end.
Definition is_pick (e : event) : Prop := match e with EPick _ _ => True | _ => False end.
Definition punctual (tr : list event) : Prop :=
  forall a r w b t c w', tr = a ++ EPick r w :: b ++ ELook r t :: c -> (forall e, In e b -> ~ is_pick e) ->
  due r (a ++ EPick r w :: b) = Some w' -> w' <= t ->
  (forall e, In e b -> ~ is_op e) \/ forall q w'', q <> r -> due q (a ++ EPick r w :: b) = Some w'' -> w' < w''.

(** The processor sleeps: until something is given to it ([None]), or until then at the latest ([Some w]). *)
Definition asleep (st : state) (until : option nat) : Prop :=
  queue st = [] /\ closed st = false /\ match until with None => pc st = PIdle | Some w => exists r, pc st = PWait r w end.
