(** Theorems C44, C45, C86-C90: message routing between processors. *)
From Verif Require Import ListUtil Amap RouteModel RouteSpec RouteProofs RouteProofs2 RouteProofs3 RouteProofs4 RouteProofs5 RouteProofs6 RouteProofs7 RouteProofs8 RouteProofs9.

(** ** C44: at most one processor is joined under an id, and everything goes to that one. *)

(** A processor joins only while its id is free, and only by the create() that returns it. *)
Theorem C44_join_only_when_free : forall h l1 l2 a id o, trace h = l1 ++ EJoin a id o :: l2 ->
  id <> 0 /\ joined l1 id = None /\ called l1 a (KCreate id) /\ (exists l3, l2 = ERet a (RProc o) :: l3).
Proof.
  intros h l1 l2 a id o E. destruct (join_told _ _ _ _ _ _ E) as (l0 & os & -> & A & C & P & J & Z & R & F).
  split; [exact Z|]. split; [rewrite joined_posts by apply posts_map; exact J|]. split; [apply in_app_iff; auto|exact R].
Qed.

(** A processor leaves only when a stop() of a processor with the same id removes it. *)
Theorem C44_leave_only_by_stop : forall h l1 l2 a id o, trace h = l1 ++ ELeave a id o :: l2 ->
  id <> 0 /\ joined l1 id = Some o /\ exists o1 b, called l1 a (KStop o1) /\ called l1 b (KCreate id) /\ returned l1 b (RProc o1).
Proof.
  intros h l1 l2 a id o E. destruct (leave_facts _ _ _ _ _ _ E) as (A & B & o1 & C & b & D & F). split; [exact A|]. split; [exact B|]. exists o1, b. auto.
Qed.

Theorem C44_find_tells_the_joined_one : forall h l1 l2 a id r, trace h = l1 ++ ERet a r :: l2 -> called (trace h) a (KFind id) ->
  r = match joined l1 id with Some o => RProc o | None => RNull end.
Proof. intros h l1 l2 a id r. apply find_tells. Qed.

Theorem C44_second_creation_yields_null : forall h l1 l2 a id, trace h = l1 ++ ERet a RNull :: l2 -> called (trace h) a (KCreate id) -> id <> 0 /\ joined l1 id <> None.
Proof. intros h l1 l2 a id. apply create_null. Qed.

(** A create() that returns a processor has made it the joined one, unless another create() for the same id ran at the same time. *)
Theorem C44_created_is_joined : forall h l1 l2 a id o, trace h = l1 ++ ERet a (RProc o) :: l2 -> called (trace h) a (KCreate id) -> id <> 0 ->
  (forall b, called (trace h) b (KCreate id) -> ~ overlap (trace h) a b) -> joined l1 id = Some o.
Proof.
  intros h l1 l2 a id o E C Z NO. destruct (create_proc _ _ _ _ _ _ E C) as [Z'|[[l ->]|(b & o2 & k1 & k2 & D & -> & R1 & R2)]]; [contradiction|rewrite joined_snoc, Nat.eqb_refl; reflexivity|].
  exfalso. unfold trace in *. assert (J : In (EJoin b id o2) (tr (final h))) by (rewrite E, <- app_assoc; apply in_app_iff; right; left; reflexivity).
  apply (ow_join _ (owns_final h)) in J as [_ J]. apply (NO b); [apply call_agent; eauto|]. split; [auto|].
  exists k1, (EJoin b id o2 :: k2 ++ ERet a (RProc o) :: l2). rewrite E, <- app_assoc. auto.
Qed.

(** post(id) hands the message to a processor that was joined under id during the call, and says whether that one took it. *)
Theorem C44_post_reaches_the_joined_one : forall h l1 l2 a id m r, trace h = l1 ++ ERet a r :: l2 -> called (trace h) a (KPost id m) ->
  exists l0 l0', l1 = l0 ++ l0' /\ called l0 a (KPost id m) /\
    match joined l0 id with
    | None => r = RBool false /\ forall o m', ~ In (EPost a o m') l1
    | Some o => (r = RBool true /\ exists l, l1 = l ++ [EPost a o m] /\ wants l o m = true /\ forall o' m', ~ In (EPost a o' m') l) \/
                (r = RBool false /\ wants l1 o m = false /\ forall o' m', ~ In (EPost a o' m') l1)
    end.
Proof. intros h l1 l2 a id m r. apply post_result. Qed.

(** postToAll() reaches every joined processor that takes the message once, and nobody else. *)
Theorem C44_post_to_all : forall h l1 l2 a m r, trace h = l1 ++ ERet a r :: l2 -> called (trace h) a (KPostAll m) ->
  exists l0 os, l1 = l0 ++ map (fun o => EPost a o m) os /\ audience l0 m os /\ called l0 a (KPostAll m) /\ r = RBool (negb (Nat.eqb (length os) 0)).
Proof. intros h l1 l2 a m r. apply post_all_result. Qed.

Definition two : history :=   (* processors 0 and 1 with ids 5 and 6, both listening; a second create(5); post, postToAll *)
  [LCall (KCreate 5); LRun 0 0; LRun 0 0; LCall (KConnect 0 0); LRun 1 0; LCall (KConnect 0 3); LRun 2 0;
   LCall (KCreate 6); LRun 3 0; LRun 3 0; LCall (KConnect 1 3); LRun 4 0; LCall (KConnect 1 0); LRun 5 0;
   LCall (KCreate 5); LRun 6 0; LCall (KPost 6 (MUser 2 9)); LRun 7 0; LRun 7 0; LCall (KPostAll (MUser 2 8)); LRun 8 0;
   LCall (KFind 5); LRun 9 0; LCall (KFind 7); LRun 10 0; LCall (KStop 0); LRun 11 0; LRun 11 0; LRun 11 0; LRun 11 0].
Example C44_applies : trace two =
  [ECall 0 (KCreate 5); EJoin 0 5 0; ERet 0 (RProc 0); ECall 1 (KConnect 0 0); EConnect 0 0; ERet 1 RUnit; ECall 2 (KConnect 0 3); EConnect 0 3; ERet 2 RUnit;
   ECall 3 (KCreate 6); EPost 3 0 (MStatus true 1); EJoin 3 6 1; ERet 3 (RProc 1); ECall 4 (KConnect 1 3); EConnect 1 3; ERet 4 RUnit; ECall 5 (KConnect 1 0); EConnect 1 0; ERet 5 RUnit;
   ECall 6 (KCreate 5); ERet 6 RNull; ECall 7 (KPost 6 (MUser 2 9)); EPost 7 1 (MUser 2 9); ERet 7 (RBool true);
   ECall 8 (KPostAll (MUser 2 8)); EPost 8 0 (MUser 2 8); EPost 8 1 (MUser 2 8); ERet 8 (RBool true);
   ECall 9 (KFind 5); ERet 9 (RProc 0); ECall 10 (KFind 7); ERet 10 RNull;
   ECall 11 (KStop 0); EClose 0; ELeave 11 5 0; EPost 11 1 (MStatus false 0); ERet 11 RUnit].
Proof. vm_compute. reflexivity. Qed.

(** ** C45: under careful use stop() removes the stopped processor and nobody else. *)
Theorem C45_stop_removes_only_itself : forall h l1 l2 a id o, careful (trace h) -> trace h = l1 ++ ELeave a id o :: l2 -> called l1 a (KStop o).
Proof. intros h l1 l2 a id o. apply stop_removes_itself. Qed.

Theorem C45_stopped_has_left : forall h a o r id, careful (trace h) -> called (trace h) a (KStop o) -> returned (trace h) a r -> joined (trace h) id <> Some o.
Proof. intros h a o r id. apply stopped_left. Qed.

(** ... so a processor that nobody has stopped stays reachable. *)
Theorem C45_stays_joined : forall h a id o, careful (trace h) -> called (trace h) a (KCreate id) -> returned (trace h) a (RProc o) -> id <> 0 ->
  is_open (trace h) o = true -> joined (trace h) id = Some o.
Proof.
  intros h a id o CF C R Z O. unfold trace in *. apply ret_agent in R as [c R]. apply call_agent in C as [p C]. rewrite R in C. injection C as -> _.
  destruct (ow_id _ (owns_final h) _ _ _ _ R eq_refl) as [L I]. rewrite <- table_joined, <- I. apply (st_open _ (settled_final _ CF)).
  - exists a, id. exact R.
  - rewrite closed_open, O by exact L. reflexivity.
  - congruence.
Qed.

(** A stop() never removes a processor with another id, however it is used. *)
Theorem C45_other_ids_untouched : forall h l1 l2 a id o o1 b id1, trace h = l1 ++ ELeave a id o :: l2 -> called (trace h) a (KStop o1) ->
  called (trace h) b (KCreate id1) -> returned (trace h) b (RProc o1) -> id = id1.
Proof.
  intros h l1 l2 a id o o1 b id1 E C CB RB. destruct (leave_facts _ _ _ _ _ _ E) as (_ & _ & o1' & C' & b' & CB' & RB').
  assert (IN : forall e, In e l1 -> In e (trace h)) by (intros e I; rewrite E; apply in_app_iff; auto). apply IN in C', CB', RB'.
  unfold trace, called, returned in *. pose proof (call_unique _ _ _ _ C C') as [= ->].
  apply ret_agent in RB as [c RB]. apply call_agent in CB as [p CB]. rewrite RB in CB. injection CB as -> _.
  apply ret_agent in RB' as [c RB']. apply call_agent in CB' as [p' CB']. rewrite RB' in CB'. injection CB' as -> _.
  destruct (ow_id _ (owns_final h) _ _ _ _ RB eq_refl) as [_ <-]. destruct (ow_id _ (owns_final h) _ _ _ _ RB' eq_refl) as [_ <-]. reflexivity.
Qed.

(** A decidable form of careful use, for examples: the calls do not overlap at all and nothing is reused. *)
Fixpoint sequential (cur : option nat) (l : list event) : bool :=
  match l with
  | [] => true
  | ECall a (KReuse _) :: _ => false
  | ECall a _ :: l => match cur with None => sequential (Some a) l | Some _ => false end
  | ERet a _ :: l => match cur with Some b => Nat.eqb a b && sequential None l | None => false end
  | _ :: l => sequential cur l
  end.
Lemma seq_prefix l1 : forall l2 cur, sequential cur (l1 ++ l2) = true -> exists cur', sequential cur' l2 = true /\
  forall a, running l1 a -> cur' = Some a.
Proof.
  induction l1 as [|e l1 IH] using rev_ind; intros l2 cur S.
  - exists cur. split; [exact S|]. intros a [[c []] _].
  - rewrite <- app_assoc in S. destruct (IH _ _ S) as (cur' & S' & R). cbn in S'.
    assert (RN : forall a, running (l1 ++ [e]) a -> (forall c, e <> ECall a c) -> running l1 a).
    { intros a [[c C] NR] NE. split; [|intros r I; apply (NR r), in_app_iff; auto]. apply in_app_iff in C as [C|[C|[]]]; [exists c; exact C|destruct (NE _ C)]. }
    destruct e as [a c|a r| | | | | | | ];
      try (exists cur'; split; [exact S'|]; intros b B; apply R, RN; [exact B|discriminate]).
    + destruct c; try discriminate S'; (destruct cur' as [x|]; [discriminate S'|]; exists (Some a); split; [exact S'|]; intros b B;
        destruct (Nat.eq_dec a b) as [->|D]; [reflexivity|]; exfalso; enough (None = Some b) by discriminate; apply R, RN; [exact B|intros c' [= E _]; exact (D E)]).
    + destruct cur' as [x|]; [|discriminate S']. apply andb_true_iff in S' as [E S']. apply Nat.eqb_eq in E as <-. exists None. split; [exact S'|].
      intros b B. exfalso. assert (RB : running l1 b) by (apply RN; [exact B|discriminate]). apply R in RB as [= ->]. destruct B as [_ B]. apply (B r), in_app_iff. right. left. reflexivity.
Qed.
Lemma seq_no_reuse l : forall cur a o, sequential cur l = true -> ~ In (ECall a (KReuse o)) l.
Proof.
  induction l as [|e l IH]; intros cur a o S I; [destruct I|]. destruct I as [->|I]; [discriminate S|].
  destruct e as [x c|x r| | | | | | | ]; cbn in S; try (exact (IH _ _ _ S I)).
  - destruct c; try discriminate S; (destruct cur; [discriminate S|exact (IH _ _ _ S I)]).
  - destruct cur; [|discriminate S]. apply andb_true_iff in S as [_ S]. exact (IH _ _ _ S I).
Qed.
Lemma sequential_careful l : sequential None l = true -> careful l.
Proof.
  intros S. assert (NO : forall a b, ~ overlap l a b).
  { intros a b [D (l1 & l2 & E & RA & RB)]. rewrite E in S. destruct (seq_prefix _ _ _ S) as (cur & _ & R). apply D. pose proof (R _ RA). pose proof (R _ RB). congruence. }
  split; [intros a o; apply (seq_no_reuse _ None _ _ S)|intros; apply NO|intros; apply NO].
Qed.
Example C45_applies : careful (trace two) /\ exists l1 l2, trace two = l1 ++ ELeave 11 5 0 :: l2.
Proof.
  split; [apply sequential_careful; vm_compute; reflexivity|]. exists (firstn 34 (trace two)), (skipn 35 (trace two)). vm_compute. reflexivity.
Qed.

Ltac inlist := vm_compute; repeat first [left; reflexivity|right].

(** ** C86: two concurrent creations of the same id. *)
Definition racing : history := [LCall (KCreate 5); LCall (KCreate 5); LRun 0 0; LRun 1 0; LRun 0 0; LRun 1 0].
Theorem C86_both_created_one_reachable_refuted :
  trace racing = [ECall 0 (KCreate 5); ECall 1 (KCreate 5); EJoin 0 5 0; ERet 0 (RProc 0); ERet 1 (RProc 1)] /\
  forall k id, joined (trace (racing ++ k)) id <> Some 1.
Proof.
  split; [vm_compute; reflexivity|]. intros k id. apply never_again; [exists 1, 5; vm_compute; reflexivity|].
  change (tr (final racing)) with (trace racing). replace (trace racing) with [ECall 0 (KCreate 5); ECall 1 (KCreate 5); EJoin 0 5 0; ERet 0 (RProc 0); ERet 1 (RProc 1)] by (vm_compute; reflexivity).
  unfold joined. cbn. destruct (Nat.eqb 5 id); [|]; destruct id as [|[|[|[|[|[|id]]]]]]; discriminate.
Qed.

(** ** C87: stop() of a processor that is not joined removes its namesake. *)
Definition namesake : history :=   (* create(5) = 0, stop, reuse, create(5) = 1, stop of 0 *)
  [LCall (KCreate 5); LRun 0 0; LRun 0 0; LCall (KStop 0); LRun 1 0; LRun 1 0; LRun 1 0; LRun 1 0; LCall (KReuse 0); LRun 2 0;
   LCall (KCreate 5); LRun 3 0; LRun 3 0; LCall (KStop 0); LRun 4 0; LRun 4 0; LRun 4 0].
Theorem C87_successor_removed_refuted :
  exists l1 l2, trace namesake = l1 ++ ELeave 4 5 1 :: l2 /\ called l1 4 (KStop 0) /\ joined (trace namesake) 5 = None /\ is_open (trace namesake) 1 = true /\
    forall a, ~ called (trace namesake) a (KStop 1).
Proof.
  exists (firstn 15 (trace namesake)), []. split; [vm_compute; reflexivity|]. split; [unfold called; inlist|].
  split; [vm_compute; reflexivity|]. split; [vm_compute; reflexivity|]. intros a. unfold called.
  enough (forallb (fun e => match e with ECall _ (KStop 1) => false | _ => true end) (trace namesake) = true) as F by (rewrite forallb_forall in F; intros I; apply F in I; discriminate).
  vm_compute. reflexivity.
Qed.

Definition twice : history :=   (* two threads stop processor 0, in between its successor is created *)
  [LCall (KCreate 5); LRun 0 0; LRun 0 0; LCall (KStop 0); LRun 1 0; LCall (KStop 0); LRun 2 0; LRun 1 0; LRun 1 0; LRun 1 0;
   LRun 2 0; LCall (KCreate 5); LRun 3 0; LRun 3 0; LRun 2 0].
Theorem C87_successor_removed_by_second_stop_refuted :
  (exists l1 l2, trace twice = l1 ++ ELeave 2 5 1 :: l2 /\ called l1 2 (KStop 0)) /\ (forall a o, ~ called (trace twice) a (KReuse o)) /\ joined (trace twice) 5 = None.
Proof.
  split; [|split].
  - exists (removelast (trace twice)), []. split; [vm_compute; reflexivity|]. unfold called. inlist.
  - intros a o. unfold called.
    enough (forallb (fun e => match e with ECall _ (KReuse _) => false | _ => true end) (trace twice) = true) as F by (rewrite forallb_forall in F; intros I; apply F in I; discriminate).
    vm_compute. reflexivity.
  - vm_compute. reflexivity.
Qed.

(** ** C88: a processor that has left routing never joins again, not even when it is reused. *)
Theorem C88_never_joins_again : forall h a id o k id', In (ELeave a id o) (trace h) -> joined (trace (h ++ k)) id' <> Some o.
Proof.
  intros h a id o k id' I. apply in_split in I as (l1 & l2 & E).
  destruct (split_step _ _ _ _ E) as (h1 & h2 & s' & k1 & k2 & t & -> & S & T & -> & -> & l & h3 & -> & EL).
  destruct (leave_step _ _ _ _ _ _ _ S T) as (o1 & N & F & EI & Z & G & -> & -> & TB). pose proof G as GI. apply get_in in GI.
  destruct (ow_table _ (owns_final h1) _ _ GI) as (_ & I & b & B).
  replace ((h1 ++ l :: h3) ++ k) with ((h1 ++ [l]) ++ (h3 ++ k)) by (rewrite <- !app_assoc; reflexivity).
  apply never_again; rewrite final_snoc, <- EL.
  - exists b, id. destruct (step_shape _ _ S) as [c0 C A T'|a0 c0 p0 p' k0 N0 NP NP' A T' Q|a0 c0 p0 k0 r0 N0 NP A T' Q|a0 self m j N0 A T']; rewrite A; assert (LT := nth_lt _ _ _ B).
    + rewrite nth_snoc. destruct (Nat.eqb_spec b (length (agents (final h1)))); [lia|exact B].
    + rewrite (nth_set _ _ _ _ _ N0). destruct (Nat.eqb_spec a0 b) as [<-|]; [|exact B]. rewrite B in N0. injection N0 as <- <-. destruct (NP _ eq_refl).
    + rewrite (nth_set _ _ _ _ _ N0). destruct (Nat.eqb_spec a0 b) as [<-|]; [|exact B]. rewrite B in N0. injection N0 as <- <-. destruct (NP _ eq_refl).
    + rewrite nth_snoc, length_set_nth, (nth_set _ _ _ _ _ N0). destruct (Nat.eqb_spec b (length (agents (final h1)))); [lia|].
      destruct (Nat.eqb_spec a0 b) as [<-|]; [rewrite B in N0; discriminate|exact B].
  - rewrite EL, <- final_snoc, <- table_joined. intros J. apply get_in in J. destruct (ow_table _ (owns_final (h1 ++ [l])) _ _ J) as (_ & I' & _).
    rewrite final_snoc, <- EL in J, I'. rewrite (id_step _ _ _ S) in I' by (eapply b_table; [apply bounds_final|exact GI]). rewrite I in I'. subst id'.
    rewrite TB in J. assert (K : In id (keys (del id (table (final h1))))) by (change id with (fst (id, o)); apply in_map; exact J).
    apply in_keys_del in K as [K _]. apply K. reflexivity.
Qed.

Definition reused : history := [LCall (KCreate 5); LRun 0 0; LRun 0 0; LCall (KConnect 0 3); LRun 1 0; LCall (KStop 0); LRun 2 0; LRun 2 0; LRun 2 0; LRun 2 0; LCall (KReuse 0); LRun 3 0].
Theorem C88_reused_not_reachable_refuted :
  wants (trace reused) 0 (MUser 2 9) = true /\ In (ERet 3 RUnit) (trace reused) /\ forall k id, joined (trace (reused ++ k)) id <> Some 0.
Proof.
  split; [vm_compute; reflexivity|]. split; [inlist|].
  intros k id. apply (C88_never_joins_again _ 2 5). inlist.
Qed.

(** ** C89: joined processors that listen are told when others join or leave; a new one is not told who is there. *)
Theorem C89_told_of_new_processor : forall h l1 l2 a id o, trace h = l1 ++ EJoin a id o :: l2 ->
  exists l0 os, l1 = l0 ++ map (fun x => EPost a x (MStatus true o)) os /\ audience l0 (MStatus true o) os /\ called l0 a (KCreate id) /\ forall x m, ~ In (EPost a x m) l0.
Proof. intros h l1 l2 a id o E. destruct (join_told _ _ _ _ _ _ E) as (l0 & os & A & B & C & D & _). exists l0, os. auto. Qed.

Theorem C89_told_of_leaving_processor : forall h l1 l2 a r o id o', trace h = l1 ++ ERet a r :: l2 -> called (trace h) a (KStop o) -> In (ELeave a id o') l1 ->
  exists l0 os, l1 = l0 ++ map (fun x => EPost a x (MStatus false o)) os /\ audience l0 (MStatus false o) os /\ In (ELeave a id o') l0 /\ forall x m, ~ In (EPost a x m) l0.
Proof. intros h l1 l2 a r o id o'. apply leave_told. Qed.

Theorem C89_new_processor_told_nothing_refuted : forall h a id o m, called (trace h) a (KCreate id) -> returned (trace h) a (RProc o) -> ~ In (EPost a o m) (trace h).
Proof. intros h a id o m. apply new_not_told. Qed.
Example C89_applies : called (trace two) 3 (KCreate 6) /\ returned (trace two) 3 (RProc 1) /\ joined (trace two) 6 = Some 1 /\ In (EPost 3 0 (MStatus true 1)) (trace two)
  /\ In (EPost 11 1 (MStatus false 0)) (trace two).
Proof.
  unfold called, returned. rewrite C44_applies. cbn [In]. split; [tauto|]. split; [tauto|]. split; [vm_compute; reflexivity|]. split; tauto.
Qed.

(** ** C90: calls return as long as handlers that sendToAll() runs on the calling thread do not use routing; otherwise they hang for ever. *)
Theorem C90_calls_return_partial : forall h a c, calm h -> called (trace h) a c -> exists k r, calm k /\ returned (trace (h ++ k)) a r.
Proof. intros h a c. apply calm_progress. Qed.
Example C90_applies : calm two /\ called (trace two) 11 (KStop 0).
Proof.
  split.
  - intros a n I. cbn in I. repeat destruct I as [I|I]; try discriminate I; try (injection I; auto). destruct I.
  - unfold called. rewrite C44_applies. cbn [In]. tauto.
Qed.

Definition inside : history :=   (* the handler of processor 0, run inside its own sendToAll(), calls findProcessor(5) *)
  [LCall (KCreate 5); LRun 0 0; LRun 0 0; LCall (KConnect 0 3); LRun 1 0; LCall (KSendAll (Some 0) (MUser 2 9)); LRun 2 0; LRun 2 6].
Theorem C90_send_to_all_hangs_refuted :
  called (trace inside) 2 (KSendAll (Some 0) (MUser 2 9)) /\
  forall k, (forall r, ~ returned (trace (inside ++ k)) 2 r) /\ (forall a id r, called (trace (inside ++ k)) a (KFind id) -> ~ returned (trace (inside ++ k)) a r).
Proof.
  split; [unfold called; inlist|].
  intros k. assert (K0 : stuck (final inside) 2 3).
  { split; [vm_compute; reflexivity|exists (Some 0), (MUser 2 9); vm_compute; reflexivity|exists 5; vm_compute; reflexivity|].
    intros c i r. destruct c as [|[|[|[|c]]]]; vm_compute; try discriminate. destruct c; discriminate. }
  apply (stuck_forever _ _ _ k) in K0 as [L [self [m A]] [i B] O]. split.
  - intros r R. apply ret_agent in R as [c R]. rewrite A in R. discriminate.
  - intros a id r C R. unfold called, returned, trace in *. apply ret_agent in R as [c R]. apply call_agent in C as [p C]. rewrite R in C. injection C as -> _. exact (O _ _ _ R).
Qed.

Print Assumptions C44_join_only_when_free.
Print Assumptions C44_leave_only_by_stop.
Print Assumptions C44_find_tells_the_joined_one.
Print Assumptions C44_second_creation_yields_null.
Print Assumptions C44_created_is_joined.
Print Assumptions C44_post_reaches_the_joined_one.
Print Assumptions C44_post_to_all.
Print Assumptions C45_stop_removes_only_itself.
Print Assumptions C45_stopped_has_left.
Print Assumptions C45_stays_joined.
Print Assumptions C45_other_ids_untouched.
Print Assumptions C86_both_created_one_reachable_refuted.
Print Assumptions C87_successor_removed_refuted.
Print Assumptions C87_successor_removed_by_second_stop_refuted.
Print Assumptions C88_never_joins_again.
Print Assumptions C88_reused_not_reachable_refuted.
Print Assumptions C89_told_of_new_processor.
Print Assumptions C89_told_of_leaving_processor.
Print Assumptions C89_new_processor_told_nothing_refuted.
Print Assumptions C90_calls_return_partial.
Print Assumptions C90_send_to_all_hangs_refuted.
