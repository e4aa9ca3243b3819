(** Vocabulary for the proxy properties: read off the calls made and the events seen. *)
From Verif Require Import CsTypes ListUtil ReqSpec ProxyModel.

Definition phistory := list plabel.
(** [x0]: the executor of the first proxy. *)
Definition pfinal (x0 : option nat) (h : phistory) : px := fst (prun (px_new x0) h).
Definition ptrace (x0 : option nat) (h : phistory) : list pevent := snd (prun (px_new x0) h).
Definition pnext (x0 : option nat) (h : phistory) (l : plabel) : list pevent := snd (pstep (pfinal x0 h) l).

(** The executors of the proxies. *)
Definition exec_step (ex : list (option nat)) (l : plabel) : list (option nat) :=
  match l with
  | LSetExecutor i x => if Nat.ltb i (length ex) then set_nth i x ex else ex
  | LWith i x => if Nat.ltb i (length ex) then ex ++ [Some x] else ex
  | _ => ex
  end.
Definition executors (x0 : option nat) (h : phistory) : list (option nat) := fold_left exec_step h [x0].

(** The callback given with a call; the calls that are refused without one, or without an executor for it. *)
Definition callback (c : pcall) : option nat :=
  match c with QSend _ _ _ cb | QRegStatus _ _ cb | QRegSignal _ _ cb | QRegVoid _ cb | QGet _ _ cb => cb | _ => None end.
Definition needs_callback (c : pcall) : bool :=
  match c with QRegStatus _ _ _ | QRegSignal _ _ _ | QRegVoid _ _ | QGet _ _ _ => true | _ => false end.
Definition usable (x : option nat) (c : pcall) : bool := given (callback c) && given x.

(** The requester's calls: which proxy call (on a proxy with which executor) each comes from. *)
Inductive origin := FromProxy (x : option nat) (c : pcall) | FromElsewhere (c : call).
Definition origin_now (ex : list (option nat)) (l : plabel) : list origin :=
  match l with
  | LProxy i c =>
      match nth_error ex i with
      | Some x => if needs_callback c && negb (usable x c) then [] else [FromProxy x c]
      | None => []
      end
  | LRequester c => [FromElsewhere c]
  | _ => []
  end.
Fixpoint origins_from (ex : list (option nat)) (h : phistory) : list origin :=
  match h with [] => [] | l :: h' => origin_now ex l ++ origins_from (exec_step ex l) h' end.
Definition origin_of (x0 : option nat) (h : phistory) (t : nat) : option origin := nth_error (origins_from [x0] h) t.

(** The requester call a proxy call makes. *)
Definition request (x : option nat) (c : pcall) : call :=
  match c with
  | QSend _ o p _ => CSendAsync o p (usable x c)
  | QSendSync _ o p b => CSendSync o p b
  | QRegStatus _ o _ => CReg true o true
  | QRegSignal _ o _ | QRegVoid o _ => CReg false o true
  | QGet _ o _ => CGetAsync o
  | QGetSync _ o b => CGetSync o b
  | QUnregister rid o => CUnregister rid o
  | QUnregisterAll o => CUnregisterAll o
  | QAbort rid o => CAbort rid o
  | QObserve y => CObserve y
  | QUnobserve y => CUnobserve y
  end.
Definition origin_call (o : origin) : call := match o with FromProxy x c => request x c | FromElsewhere c => c end.
(** The history of the requester underneath. *)
Fixpoint below_from (ex : list (option nat)) (h : phistory) : history :=
  match h with
  | [] => []
  | l :: h' =>
      match l with LStep t w _ => [LRun t w] | _ => map (fun o => LCall (origin_call o)) (origin_now ex l) end
      ++ below_from (exec_step ex l) h'
  end.
Definition below (x0 : option nat) (h : phistory) : history := below_from [x0] h.
Fixpoint requester_events (l : list pevent) : list event :=
  match l with [] => [] | QEv e :: l' => e :: requester_events l' | _ :: l' => requester_events l' end.

(** What content [n] means as a parameter of type [ty]: nothing unless the translation says what it found. *)
Definition content (ty : ptype) (n : nat) : option nat :=
  match dec ty n with (_, None) | (_, Some TMismatch) => None | (v, _) => v end.
Definition response (ty : ptype) (p : option payload) : resp :=
  match p with
  | None => Output None
  | Some (Err c) => RError c
  | Some (Data n) => if enc ty then Output (content ty n) else NoValue
  end.
Definition update (ty : ptype) (p : option payload) : option nat :=
  match p with Some (Data n) => if enc ty then content ty n else None | _ => None end.
(** What the callback of call [c] is to be called with for payload [p]. *)
Definition meaning (c : pcall) (p : option payload) : arg :=
  match c with
  | QSend ty _ _ _ => AResp (response ty p)
  | QRegStatus ty _ _ | QRegSignal ty _ _ | QGet ty _ _ => AUpd (update ty p)
  | _ => AVoid
  end.
(** What call [c] is to return when the requester returned [v]. *)
Definition returns (c : pcall) (v : retval) : pret :=
  match c, v with
  | QSendSync ty _ _ _, RVPay p (Some Success) => PResponse (response ty p) Success
  | QSendSync ty _ _ _, RVPay p (Some a) => PResponse (RError EOperationFailed) a
  | QSendSync ty _ _ _, RVPay p None => PResponse (RError EOperationFailed) FailedUnknown
  | QGetSync ty _ _, RVPay p a => PStatus (update ty p) a
  | _, _ => PRaw v
  end.

(** Counting what became of the runs of call [t]'s callback whose argument satisfies [g]. *)
Definition ran (t : nat) (g : option payload -> bool) (e : event) : bool := match e with ECb _ o p => Nat.eqb o t && g p | _ => false end.
Definition called (t : nat) (g : arg -> bool) (e : pevent) : bool := match e with QCall _ o _ a => Nat.eqb o t && g a | _ => false end.
Definition missed (t : nat) (g : option payload -> bool) (e : pevent) : bool :=
  match e with QSubmit _ o p false => Nat.eqb o t && g p | QDropped _ o p => Nat.eqb o t && g p | _ => false end.
Definition queued (t : nat) (g : option payload -> bool) (k : task) : bool := Nat.eqb (k_owner k) t && g (k_pay k).

(** The callbacks an executor ran, and those the requester ran that belong to executor [x], in order. *)
Fixpoint calls_on (x : nat) (l : list pevent) : list (nat * nat * arg) :=
  match l with
  | [] => []
  | QCall y t f a :: l' => if Nat.eqb y x then (t, f, a) :: calls_on x l' else calls_on x l'
  | _ :: l' => calls_on x l'
  end.
Definition due (x : nat) (os : nat -> option origin) (e : event) : list (nat * nat * arg) :=
  match e with
  | ECb _ t p =>
      match os t with
      | Some (FromProxy (Some y) c) => match callback c with Some f => if Nat.eqb y x then [(t, f, meaning c p)] else [] | None => [] end
      | _ => []
      end
  | _ => []
  end.
(** Executor [x] takes every task and runs its tasks first come, first served. *)
Definition fifo (x : nat) (h : phistory) : Prop :=
  forall l, In l h -> match l with LStep _ _ acc => acc x = true | LExec y i => y = x -> i = 0 | LDrop y _ => y <> x | _ => True end.
