(** Property theorems about ids, addresses, registration ids: C14 - C16. *)
From Verif Require Import IdModel IdSpec IdProofs.
Local Open Scope N_scope.

(** ** C14 : any interleaving of any number of allocating threads; w = 64 for request ids. *)
Theorem C14_ids_unique w sched : 0 < w -> N.of_nat (length sched) <= 2 ^ w ->
  let ids := map snd (returned (run_alloc w sched idmgr_new)) in
  NoDup ids /\ Forall (fun i => i < 2 ^ w /\ is_valid_id w i = true) ids /\
  N.of_nat (length ids) = N.min (N.of_nat (length sched)) (2 ^ w - 1).
Proof. exact (alloc_lemma w sched). Qed.
Print Assumptions C14_ids_unique.

Theorem C14_allocation_terminates w c l t : 0 < w -> c < 2 ^ w ->
  exists n, (1 <= n <= 2)%nat /\ length (returned (run_alloc w (repeat t n) (IdMgr c l))) = S (length l).
Proof. exact (alloc_terminates w c l t). Qed.
Print Assumptions C14_allocation_terminates.

Example C14_applies : N.of_nat (length [1; 2; 1; 1]%nat) <= 2 ^ 2 /\
  returned (run_alloc 64 [1; 2; 1; 1]%nat idmgr_new) = [(1%nat, 0); (2%nat, 1); (1%nat, 2); (1%nat, 3)] /\
  returned (run_alloc 2 [1; 2; 1; 1]%nat idmgr_new) = [(1%nat, 0); (2%nat, 1); (1%nat, 2)].
Proof. repeat split; vm_compute; congruence. Qed.

(** ** C15 *)
Theorem C15_address_order_same_port_partial p :
  strict_weak_order (fun a => a_port a = p) addr_lt /\
  forall a b, a_port a = p -> a_port b = p -> (incomparable addr_lt a b <-> addr_eq a b).
Proof. exact (addr_same_port_lemma p). Qed.
Print Assumptions C15_address_order_same_port_partial.

Theorem C15_address_order_same_name_partial n :
  strict_weak_order (fun a => a_name a = n) addr_lt /\
  forall a b, a_name a = n -> a_name b = n -> (incomparable addr_lt a b <-> addr_eq a b).
Proof. exact (addr_same_name_lemma n). Qed.
Print Assumptions C15_address_order_same_name_partial.

Theorem C15_address_order_refuted : ~ strict_weak_order (fun _ => True) addr_lt.
Proof. exact addr_refuted_lemma. Qed.
Print Assumptions C15_address_order_refuted.

Example C15_applies : addr_lt (Addr [97] 2) (Addr [98] 1) = true /\ addr_lt (Addr [98] 1) (Addr [97] 2) = true /\
  addr_lt (Addr [97] 7) (Addr [98] 7) = true /\ addr_lt (Addr [98] 7) (Addr [97] 7) = false.
Proof. repeat split. Qed.

(** ** C16 *)
Theorem C16_regid_order_partial :
  (forall a, regid_lt a a = false) /\
  (forall a b c, regid_lt a b = true -> regid_lt b c = true -> regid_lt a c = true).
Proof. exact regid_partial_lemma. Qed.
Print Assumptions C16_regid_order_partial.

Theorem C16_regid_order_refuted : ~ strict_weak_order (fun _ => True) regid_lt.
Proof. exact regid_refuted_lemma. Qed.
Print Assumptions C16_regid_order_refuted.

Theorem C16_same_operation_equivalent_refuted a b : r_op a = r_op b -> incomparable regid_lt a b.
Proof. exact (regid_same_op_lemma a b). Qed.
Print Assumptions C16_same_operation_equivalent_refuted.

Example C16_applies : regid_lt (RegId 1 [97]) (RegId 2 [98]) = true /\ RegId 1 [97] <> RegId 2 [97].
Proof. split; [reflexivity|discriminate]. Qed.
