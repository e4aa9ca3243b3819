(** Specification of subscriptions for histories in which the calls of one class do not overlap: who is subscribed and
    which status is the last one received, read off the trace. *)
From Verif Require Import ReqModel ReqSpec.
From Coq Require Import NArith.

(** Every call of class [f] has returned. *)
Definition idle (f : call -> bool) (h : history) : Prop :=
  forall t c, call_of h t = Some c -> f c = true -> returned h t.
(** Calls of class [f] do not overlap (all others may). *)
Definition serial (f : call -> bool) (h : history) : Prop :=
  forall h1 c h2, h = h1 ++ LCall c :: h2 -> f c = true -> idle f h1.

(** Calls that change who is subscribed. *)
Definition reg_call (c : call) : bool :=
  match c with CReg _ _ _ | CUnregister _ _ | CUnregisterAll _ | CServiceStatus _ _ _ => true | _ => false end.
(** These, the arrival of a status update, and the reading of a status. *)
Definition cache_call (c : call) : bool :=
  reg_call c ||
  match c with
  | CIncoming true m => match m_code m with StatusRegister => true | _ => false end
  | CGetAsync _ | CGetSync _ _ => true
  | _ => false
  end.

(** Remove the first occurrence. *)
Fixpoint rem (rid : N) (l : list N) : list N :=
  match l with [] => [] | x :: l' => if N.eqb x rid then l' else x :: rem rid l' end.

(** Ids of the subscribers of operation [o], oldest first: a registration that returned a valid id adds it, unregister
    (unless refused) removes it, unregisterAll and the service becoming unavailable remove all. *)
Definition sub_ev (h : history) (o : nat) (l : list N) (e : event) : list N :=
  match e with
  | ERet t v =>
      match call_of h t, v with
      | Some (CReg _ o' _), RVReg (Some (rid, _)) _ => if Nat.eqb o' o then l ++ [rid] else l
      | Some (CUnregister _ _), RVStatus InvalidParam => l
      | Some (CUnregister rid o'), _ => if Nat.eqb o' o then rem rid l else l
      | Some (CUnregisterAll o'), RVStatus Success => if Nat.eqb o' o then [] else l
      | _, _ => l
      end
  | EStatus _ Unavailable => []
  | _ => l
  end.
Definition subs (h : history) (o : nat) : list N := fold_left (sub_ev h o) (trace h) [].

(** The status a subscribed client knows of operation [o]: the payload of the last update processed while somebody was
    subscribed; forgotten when the last subscriber unregisters. *)
Definition lat_ev (h : history) (o : nat) (x : list N * option (option payload)) (e : event)
  : list N * option (option payload) :=
  let l' := sub_ev h o (fst x) e in
  (l',
   match e with
   | ERet t v =>
       match call_of h t, v with
       | Some (CIncoming true m), _ =>
           match m_code m with
           | StatusRegister =>
               if Nat.eqb (m_op m) o && negb (match fst x with [] => true | _ => false end) then Some (m_pay m) else snd x
           | _ => snd x
           end
       | Some (CUnregister _ _), RVStatus InvalidParam => snd x
       | Some (CUnregister rid o'), _ =>
           if Nat.eqb o' o && match l' with [] => true | _ => false end then None else snd x
       | Some (CUnregisterAll o'), RVStatus Success => if Nat.eqb o' o then None else snd x
       | _, _ => snd x
       end
   | _ => snd x
   end).
Definition latest (h : history) (o : nat) : option (option payload) :=
  snd (fold_left (lat_ev h o) (trace h) ([], None)).

(** Messages call [t] handed to the transport, in order. *)
Definition sends_by (h : history) (t : nat) : list msg :=
  flat_map (fun e => match e with ESend t' m => if Nat.eqb t' t then [m] else [] | _ => [] end) (trace h).

(** What serviceStatus() answers: the last status the requester was told. *)
Definition svc (h : history) : availability :=
  fold_left (fun a e => match e with EStatus _ a' => a' | _ => a end) (trace h) Unavailable.
