(** Vocabulary for the stub properties: read off the calls made and the events seen. *)
From Verif Require Import CsTypes ProvModel ProvSpec StubModel.

Definition shistory := list (env * sop).
Definition sfinal (h : shistory) : stub := fst (srun (stub_new true) h).
Definition strace (h : shistory) : list sevent := snd (srun (stub_new true) h).
Definition snext (h : shistory) (e : env) (x : sop) : list sevent := snd (sstep e (sfinal h) x).

(** What the provider saw: the messages it received and its other calls, and its events. *)
Fixpoint provider_events (l : list sevent) : list event :=
  match l with [] => [] | PEv e :: l' => e :: provider_events l' | _ :: l' => provider_events l' end.
Fixpoint provider_calls (h : shistory) : list op :=
  match h with [] => [] | (_, SProv x) :: h' => x :: provider_calls h' | _ :: h' => provider_calls h' end.

(** Request messages received: their keys. *)
Definition received (h : shistory) : list key := requests_received (provider_calls h).
Definition aborted (h : shistory) (k : key) : Prop :=
  exists m, In (OIn m) (provider_calls h) /\ m_code m = Abort /\ (m_op m, m_rid m) = k.
Definition deinited (h : shistory) : Prop := In ODeinit (provider_calls h).
Definition final_answers (k : key) (h : shistory) : nat := final_responses k (provider_events (strace h)).

(** Ways in which the stub loses a request without telling anybody. *)
Definition loses (e : sevent) : bool :=
  match e with SSubmit _ false | SDiscarded _ | SOverwritten _ => true | _ => false end.
(** The executor has nothing left to run and the user holds no request any more. *)
Definition quiescent (h : shistory) : Prop :=
  tasks (sfinal h) = [] /\ forall k r, nth_error (handles (sfinal h)) k <> Some (Some (Some r)).

(** Handing over of request object [r], and the places where it can be. *)
Definition handed (r : nat) (e : sevent) : bool := match e with SSubmit r' _ => Nat.eqb r r' | _ => false end.
Definition lost (r : nat) (e : sevent) : bool :=
  match e with SSubmit r' false => Nat.eqb r r' | SDiscarded r' => Nat.eqb r r' | SOverwritten r' => Nat.eqb r r' | _ => false end.
Definition gone (r : nat) (e : sevent) : bool := match e with SDestroyed _ r' => Nat.eqb r r' | _ => false end.
Definition waits (r : nat) (t : task) : bool := Nat.eqb r (t_req t).
Definition holds (r : nat) (h : option handle) : bool :=
  match h with Some (Some r') => Nat.eqb r r' | _ => false end.

(** The user function in charge of operation [o]: the first one registered since the last unregistration. *)
Definition user_step (o : nat) (cur : option (option nat)) (x : sop) : option (option nat) :=
  match x with
  | SReg o' f => if Nat.eqb o o' then match cur with None => Some f | Some _ => cur end else cur
  | SProv (OUnregHandler o') => if Nat.eqb o o' then None else cur
  | _ => cur
  end.
Definition user_handler (h : shistory) (o : nat) : option (option nat) := fold_left (user_step o) (map snd h) None.

(** The user function was run (or failed to run) for request object [r]. *)
Definition runs_for (r : nat) (e : sevent) : bool := match e with SCall _ _ r' => Nat.eqb r r' | SBadCall r' => Nat.eqb r r' | _ => false end.
(** Handle [k] refers to request object [r]. *)
Definition has_request (h : shistory) (k r : nat) : Prop := nth_error (handles (sfinal h)) k = Some (Some (Some r)).
(** Request object [r] was made for the request message [m], which came after the calls [h1]. *)
Definition made_for (h1 : shistory) (e : env) (m : msg) (r : nat) : Prop :=
  m_code m = OpRequest /\ exists c, In (PEv (EHandler c r)) (snext h1 e (SProv (OIn m))).
