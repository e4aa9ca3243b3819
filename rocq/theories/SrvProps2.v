(** C113: the remaining calls of the server. *)
From Verif Require Import ListUtil SrvModel SrvSpec SrvSpec2 SrvProofs SrvProofs6 SrvProofs7 SrvProofs8 SrvProps.

(** hasServiceProvider *)
Theorem C113_has_provider : forall h t sid l1 v l2, In (ECall t (CHas sid)) (trace h) -> trace h = l1 ++ ERet t v :: l2 ->
  if v then exists o, got l1 sid o else no_deinit l1 -> forall o, ~ got l1 sid o.
Proof. exact has_exact. Qed.
Print Assumptions C113_has_provider.

(** Everything clients are told. *)
Theorem C113_everything_told : forall h l1 a sid av r l2, trace h = l1 ++ ESend a sid av r :: l2 ->
  (exists t m, In (ECall t (CIn m)) l1 /\ is_register m a) /\ exists o, got l1 sid o /\ asked l1 o av.
Proof. exact sent_source. Qed.
Print Assumptions C113_everything_told.

(** A client that unregistered is not told anything any more. *)
Theorem C113_unregistered_is_not_told : forall h1 h2 h3 e1 e2 t m a sid av r,
  trace (h1 ++ h2) = trace h1 ++ e1 -> trace (h1 ++ h2 ++ h3) = trace (h1 ++ h2) ++ e2 ->
  settled (trace h1) a -> In (ECall t (CIn m)) e1 -> is_unregister m a -> returned (trace (h1 ++ h2)) t -> no_reg a (e1 ++ e2) ->
  ~ In (ESend a sid av r) e2.
Proof. exact unregistered_silent. Qed.
Print Assumptions C113_unregistered_is_not_told.

(** Neither is one whose address turned out to be unreachable. *)
Theorem C113_unreachable_is_forgotten : forall h t r0 ok h2 e1 e2 a sid0 av0 c sid av r, let h1 := h ++ [LRun t r0 ok] in
  trace h1 = trace h ++ e1 -> In (ESend a sid0 av0 r0) e1 -> r0 = ReceiverUnavailable \/ r0 = FailedUnknown ->
  In (ECall t c) (trace h) -> (forall m, c <> CIn m) ->
  settled (trace h) a -> trace (h1 ++ h2) = trace h1 ++ e2 -> no_reg a e2 -> ~ In (ESend a sid av r) e2.
Proof. intros h t r0 ok h2 e1 e2 a sid0 av0 c sid av r h1 T I G. apply (gone_silent h t r0 ok h2 e1 e2 a sid0 av0 c sid av r T I). destruct G as [->| ->]; reflexivity. Qed.
Print Assumptions C113_unreachable_is_forgotten.

(** Unregistering is forwarded to every provider, once, as a message for its service. *)
Theorem C113_unregister_reaches_all : forall h t m a, In (ECall t (CIn m)) (trace h) -> is_unregister m a -> returned (trace h) t ->
  exists ps l1 v l2, trace h = l1 ++ ERet t v :: l2 /\ NoDup (map fst ps) /\
    dispatched (trace h) t = map (fun x => (snd x, SMsg (Some (fst x)) UnregisterServiceStatus a)) ps /\
    (forall sid o, In (sid, o) ps -> got l1 sid o) /\ (no_deinit l1 -> forall sid o, got l1 sid o -> In (sid, o) ps).
Proof. exact unregister_forwarded. Qed.
Print Assumptions C113_unregister_reaches_all.

(** deinit *)
Theorem C113_freed_at_most_once : forall h o, cnt (is_free o) (trace h) <= 1.
Proof. exact freed_once. Qed.
Print Assumptions C113_freed_at_most_once.
Theorem C113_deinit_frees_all : forall h l1 t l2 sid o, trace h = l1 ++ ECall t CDeinit :: l2 -> got l1 sid o ->
  (forall t', In (ECall t' CDeinit) (trace h) -> returned (trace h) t') -> cnt (is_free o) (trace h) = 1.
Proof. exact deinit_frees. Qed.
Print Assumptions C113_deinit_frees_all.
Theorem C113_freed_by_deinit_only : forall h l1 o l2, trace h = l1 ++ EFree o :: l2 -> (exists sid, got l1 sid o) /\ exists t, In (ECall t CDeinit) l1.
Proof. exact freed_by_deinit. Qed.
Print Assumptions C113_freed_by_deinit_only.
Theorem C113_new_after_deinit : forall h l1 t l2 v l3 t' sid o sid',
  trace h = l1 ++ ECall t CDeinit :: l2 ++ ERet t v :: l3 -> In (EGot t' sid o) l3 -> ~ got l1 sid' o.
Proof. exact fresh_after_deinit. Qed.
Print Assumptions C113_new_after_deinit.

(** Results of the other calls. *)
Theorem C113_results : forall h t c v, In (ECall t c) (trace h) -> In (ERet t v) (trace h) ->
  match c with
  | CGet sid => v = true /\ exists o, In (EGot t sid o) (trace h)
  | CHas _ => True
  | CStart _ | CStop _ | CDeinit => v = true
  | CIn m => (exists a, is_register m a) \/ (exists a, is_unregister m a) -> v = true
  end.
Proof. exact results. Qed.
Print Assumptions C113_results.

Definition unreg (a : nat) : call := CIn (SMsg None UnregisterServiceStatus a).
Definition day1 : list label := LCall (CGet 5) :: go 0 2 ++ LCall (CStart 0) :: go 1 9 ++ LCall (reg 7) :: go 2 9 ++ LCall (CGet 6) :: go 3 2.
Definition day2 : list label := LCall (unreg 7) :: go 4 9.
Definition day3 : list label := LCall (CStop 0) :: go 5 9 ++ LCall (CHas 5) :: go 6 2 ++ LCall (CHas 8) :: go 7 2 ++ LCall CDeinit :: go 8 20 ++ LCall (CGet 5) :: go 9 2.
Definition lostc : list label := LCall (CStop 0) :: go 4 3.
Example C113_applies :
  trace (day1 ++ day2) = trace day1 ++ [ECall 4 (unreg 7); EDisp 4 0 (SMsg (Some 5) UnregisterServiceStatus 7); EDisp 4 1 (SMsg (Some 6) UnregisterServiceStatus 7); ERet 4 true] /\
  trace (day1 ++ day2 ++ day3) = trace (day1 ++ day2) ++ [ECall 5 (CStop 0); ERet 5 true; ECall 6 (CHas 5); ERet 6 true; ECall 7 (CHas 8); ERet 7 false;
    ECall 8 CDeinit; EFree 0; EFree 1; ERet 8 true; ECall 9 (CGet 5); EGot 9 5 2; ERet 9 true] /\
  settled (trace day1) 7 /\ In (ESend 7 5 Available Success) (trace day1) /\
  trace ((day1 ++ lostc) ++ [LRun 4 ReceiverUnavailable true]) = trace (day1 ++ lostc) ++ [ESend 7 5 Unavailable ReceiverUnavailable] /\ settled (trace (day1 ++ lostc)) 7.
Proof.
  split; [vm_compute; reflexivity|]. split; [vm_compute; reflexivity|].
  assert (S : forall l a, all_back l = true -> settled l a) by (intros l a H t m I _; exact (all_back_ok _ H _ _ I)).
  split; [apply S; vm_compute; reflexivity|]. split; [inlist|]. split; [vm_compute; reflexivity|].
  assert (T : trace (day1 ++ lostc) = trace day1 ++ [ECall 4 (CStop 0)]) by (vm_compute; reflexivity). assert (A : all_back (trace day1) = true) by (vm_compute; reflexivity).
  rewrite T. clear T. generalize dependent (trace day1). intros x A t m I _. apply in_app_iff in I as [I|[I|[]]]; [|discriminate].
  destruct (all_back_ok _ A _ _ I) as [v R]. exists v. apply in_app_iff. auto.
Qed.
