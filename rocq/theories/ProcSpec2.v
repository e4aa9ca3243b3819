(** Vocabulary for what a run loop did between its call and its return. *)
From Verif Require Import ListUtil Amap ProcModel ProcSpec.

(** The calls, returns and executions of thread [t]. *)
Definition by_thread (t : nat) (e : event) : bool :=
  match e with
  | ECall t' _ _ | ERet t' _ _ | EAccept t' _ _ | ETake t' _ _ | EDrop t' _ _ | EStart t' _ _ _ | EEnd t' _ _ => Nat.eqb t t'
  | ECreate _ _ | ELook _ _ _ _ _ | EHandle _ _ _ _ _ | EHandled _ _ _ _ | EAbort _ => false
  end.
Definition of_thread (t : nat) (l : list event) : list event := filter (by_thread t) l.

(** [c] times, thread [t] took an execution of [p], started it and ran it to its end; [mid] is what the execution did. *)
Inductive rounds (t p : nat) : nat -> list event -> Prop :=
| R_none : rounds t p 0 []
| R_one c l e mid : rounds t p c l -> rounds t p (S c) (l ++ ETake t p e :: EStart t p e false :: mid ++ [EEnd t p e]).

(** What a run loop answers after [c] rounds: runOnceFor/runOnceUntil say whether they executed something; the others return nothing. *)
Definition result_ok (k : kind) (c : nat) (r : result) : Prop := match k with Once => r = RBool false /\ c = 0 \/ r = RBool true /\ c = 1 | _ => r = RUnit end.

(** [h1 ++ [l]] is the moment of [h] at which call [n] returned [r]; [l] is the step that made it return. *)
Definition returning (h : history) (n : nat) (r : result) (h1 : history) (l : nat * action) : Prop :=
  (exists h2, h = h1 ++ l :: h2) /\ ~ returned h1 n r /\ returned (h1 ++ [l]) n r.
(** Call [c] disconnects all handlers of a message type of [p]. *)
Definition forgets (p : nat) (c : call) : bool := match c with KForget p' _ => Nat.eqb p p' | _ => false end.
