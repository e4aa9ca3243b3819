(** What a user of the client can say, in terms of the calls made, the messages that arrived and the answers given. *)
From Verif Require Import ListUtil.
From Verif Require Export CliModel.

Definition returned (l : list event) (t : nat) : Prop := exists v, In (ERet t v) l.
Definition got (l : list event) (sid o : nat) : Prop := exists t, In (EGot t sid o) l.
Definition no_deinit (l : list event) : Prop := forall t, ~ In (ECall t CDeinit) l.

(** The work done by the client's own thread: handling status messages and watching the server. *)
Definition own_work (c : call) : Prop := match c with CIn (MStatus _ _) | CPoll _ => True | _ => False end.

(** None of that work is under way. *)
Definition quiet (l : list event) : Prop := forall t c, In (ECall t c) l -> own_work c -> returned l t.

(** The client's own thread does one thing at a time (SingleThreadPool.cpp: one thread; LocalIPCClient.cpp:76,138,144). *)
Definition one_thread (l : list event) : Prop :=
  forall l1 t c l2, l = l1 ++ ECall t c :: l2 -> own_work c -> quiet l1.

(** What the client has been told about [sid] since the server was last lost: the server is taken for present after a
    registration was sent, and lost when it is then found absent. *)
Definition knows1 (sid : nat) (k : availability * availability) (e : event) : availability * availability :=
  match e with
  | ECall _ (CIn (MStatus x (Some av))) => if Nat.eqb sid x then (fst k, av) else k
  | ECall _ (CPoll false) => match fst k with Unavailable => k | _ => (Unavailable, Unavailable) end
  | ERegister Success => (Available, snd k)
  | _ => k
  end.
Definition knows (l : list event) (sid : nat) : availability := snd (fold_left (knows1 sid) l (Unavailable, Unavailable)).

(** What requester [o] was told last. *)
Definition told (l : list event) (o : nat) : availability :=
  fold_left (fun v e => match e with ETold o' av => if Nat.eqb o o' then av else v | _ => v end) l Unavailable.

(** The status messages that arrived, oldest first. *)
Definition arrived (l : list event) : list (nat * availability) :=
  flat_map (fun e => match e with ECall _ (CIn (MStatus sid (Some av))) => [(sid, av)] | _ => [] end) l.
(** The server was never found absent. *)
Definition never_lost (l : list event) : Prop := forall t, ~ In (ECall t (CPoll false)) l.

Definition dispatched (l : list event) (t : nat) : list (nat * option nat * opcode) :=
  flat_map (fun e => match e with EDisp t' o sid c => if Nat.eqb t t' then [(o, sid, c)] else [] | _ => [] end) l.

(** Whether the client believes to be registered with the server: it sent a registration successfully and did not find the
    server absent since. *)
Definition present1 (b : availability) (e : event) : availability :=
  match e with
  | ECall _ (CPoll false) => Unavailable
  | ERegister Success => Available
  | _ => b
  end.
Definition present (l : list event) : availability := fold_left present1 l Unavailable.
Definition no_register (l : list event) : Prop := forall r, ~ In (ERegister r) l.
