(** Model of ids, addresses and registration ids:
    include/maf/utils/IDManager.h:42-61, src/common/maf/messaging/client-server/Address.cpp:10-24,
    include/maf/messaging/client-server/RegID.h:11-62. *)
From Coq Require Export List NArith Lia Bool ZArith.
Export ListNotations.
Local Open Scope N_scope.

(** * IDManager<IDType>, IDType an unsigned type of [w] bits *)

(** INVALID_ID = static_cast<IDType>(-1) (IDManager.h:45). *)
Definition invalid_id (w : N) : N := 2 ^ w - 1.

(** State: idCounter_ and the ids returned so far with the thread they were returned to. *)
Record idmgr := IdMgr { counter : N; returned : list (nat * N) }.
Definition idmgr_new : idmgr := IdMgr 0 [].

(** One iteration of the loop in allocateNewID by thread [tid] (IDManager.h:49-54): an atomic fetch_add; the call
    returns unless the fetched value is INVALID_ID, in which case the thread stays in its loop. *)
Definition fetch_step (w : N) (m : idmgr) (tid : nat) : idmgr :=
  let id := counter m in
  IdMgr ((id + 1) mod 2 ^ w)
        (if id =? invalid_id w then returned m else returned m ++ [(tid, id)]).

(** Any interleaving of any number of threads allocating is a list of thread ids. *)
Definition run_alloc (w : N) (sched : list nat) (m : idmgr) : idmgr := fold_left (fetch_step w) sched m.

(** isValidID (IDManager.h:57). *)
Definition is_valid_id (w : N) (id : N) : bool := negb (id =? invalid_id w).

(** * Address *)
Fixpoint str_lt (x y : list N) : bool :=
  match x, y with
  | _, [] => false
  | [], _ :: _ => true
  | a :: x', b :: y' => if a <? b then true else if b <? a then false else str_lt x' y'
  end.

Record address := Addr { a_name : list N; a_port : N }.

(** Address::operator== (Address.cpp:10-12), operator< (Address.cpp:18-20), valid (Address.cpp:22-24). *)
Definition addr_eq (a b : address) : Prop := a_name a = a_name b /\ a_port a = a_port b.
Definition addr_lt (a b : address) : bool := str_lt (a_name a) (a_name b) || (a_port a <? a_port b).
Definition addr_valid (a : address) : bool :=
  negb (a_port a =? 65535) || match a_name a with [] => false | _ => true end.

(** * RegID: operator< (RegID.h:58-60), valid (RegID.h:20-22) *)
Record regid := RegId { r_id : N; r_op : list N }.
Definition regid_lt (a b : regid) : bool := (r_id a <? r_id b) && str_lt (r_op a) (r_op b).
Definition regid_valid (r : regid) : bool :=
  is_valid_id 64 (r_id r) && match r_op r with [] => false | _ => true end.
