(** C114: the remaining calls of the client. *)
From Verif Require Import ListUtil CliModel CliSpec CliSpec2 CliProofs CliProofs2 CliProofs5 CliProofs6 CliProofs7 CliProps.

(** hasServiceRequester *)
Theorem C114_has_requester : forall h t sid l1 v l2, In (ECall t (CHas sid)) (trace h) -> trace h = l1 ++ ERet t v :: l2 ->
  if v then exists o, got l1 sid o else no_deinit l1 -> forall o, ~ got l1 sid o.
Proof. exact has_exact. Qed.
Print Assumptions C114_has_requester.

(** Everything requesters are told. *)
Theorem C114_everything_told : forall h l1 o av l2, trace h = l1 ++ ETold o av :: l2 ->
  exists sid, got (trace h) sid o /\ (In (sid, av) (arrived l1) \/ (av = Unavailable /\ exists t, In (ECall t (CPoll false)) l1)).
Proof. exact told_source. Qed.
Print Assumptions C114_everything_told.

(** Everything sent to the server. *)
Theorem C114_registered_when_present : forall h l1 r l2, trace h = l1 ++ ERegister r :: l2 -> exists t, In (ECall t (CPoll true)) l1 /\ ~ returned l1 t.
Proof. exact register_source. Qed.
Print Assumptions C114_registered_when_present.
Theorem C114_unregistered_by_deinit : forall h l1 sid r l2, trace h = l1 ++ EUnregister sid r :: l2 ->
  (exists t, In (ECall t CDeinit) l1) /\ exists av, In (sid, av) (arrived l1).
Proof. exact unregister_source. Qed.
Print Assumptions C114_unregistered_by_deinit.
Theorem C114_deinit_unregisters_known : forall h l1 t l2 sid av, trace h = l1 ++ ECall t CDeinit :: l2 ->
  never_lost (trace h) -> only_deinit (trace h) t -> settled l1 sid -> In (sid, av) (arrived l1) -> returned (trace h) t ->
  cnt (is_unreg sid) (trace h) = 1.
Proof. exact deinit_unregisters. Qed.
Print Assumptions C114_deinit_unregisters_known.

(** deinit *)
Theorem C114_freed_at_most_once : forall h o, cnt (is_free o) (trace h) <= 1.
Proof. exact freed_once. Qed.
Print Assumptions C114_freed_at_most_once.
Theorem C114_deinit_frees_all : forall h l1 t l2 sid o, trace h = l1 ++ ECall t CDeinit :: l2 -> got l1 sid o -> returned (trace h) t -> cnt (is_free o) (trace h) = 1.
Proof. exact deinit_frees. Qed.
Print Assumptions C114_deinit_frees_all.
Theorem C114_freed_by_deinit_only : forall h l1 o l2, trace h = l1 ++ EFree o :: l2 ->
  (exists sid, got l1 sid o) /\ exists t, In (ECall t CDeinit) l1 /\ ~ returned l1 t.
Proof. exact freed_by_deinit. Qed.
Print Assumptions C114_freed_by_deinit_only.
Theorem C114_new_after_deinit : forall h l1 t l2 v l3 t' sid o sid',
  trace h = l1 ++ ECall t CDeinit :: l2 ++ ERet t v :: l3 -> In (EGot t' sid o) l3 -> ~ got l1 sid' o.
Proof. exact fresh_after_deinit. Qed.
Print Assumptions C114_new_after_deinit.
(** Until a status message arrives again, a service is not available after deinit. *)
Theorem C114_forgotten : forall h l1 t v l2 sid t' av, trace h = l1 ++ ERet t v :: l2 -> In (ECall t CDeinit) (trace h) -> settled l1 sid ->
  (forall t1 av1, ~ In (ECall t1 (CIn (MStatus sid (Some av1)))) l2) -> In (EAns t' sid av) l2 -> av = Unavailable.
Proof. exact forgotten. Qed.
Print Assumptions C114_forgotten.

(** Results. *)
Theorem C114_results : forall h t c v, In (ECall t c) (trace h) -> In (ERet t v) (trace h) ->
  match c with
  | CGet sid => v = true /\ exists o, In (EGot t sid o) (trace h)
  | CAsk sid => v = true /\ exists av, In (EAns t sid av) (trace h)
  | CHas _ | CIn (MOther _ _) => True
  | CIn (MStatus _ _) | CPoll _ | CDeinit => v = true
  end.
Proof. exact results. Qed.
Print Assumptions C114_results.

(** Example: the day of CliProps, then questions, then deinit, then another question. *)
Definition day2 : list label := day ++ LCall (CHas 5) :: go 10 2 ++ LCall (CHas 8) :: go 11 2.
Definition day3 : list label := day2 ++ LCall CDeinit :: go 12 9.
Definition day4 : list label := day3 ++ LCall (CAsk 6) :: go 13 2 ++ LCall (CGet 6) :: go 14 2.
Example C114_applies : trace day2 = trace day ++ [ECall 10 (CHas 5); ERet 10 true; ECall 11 (CHas 8); ERet 11 false] /\
  trace day4 = trace day2 ++ ECall 12 CDeinit :: [EFree 0; EFree 1; EUnregister 5 Success; EUnregister 6 Success; ERet 12 true; ECall 13 (CAsk 6); EAns 13 6 Unavailable; ERet 13 true;
    ECall 14 (CGet 6); EGot 14 6 2; ERet 14 true] /\
  never_lost (trace day4) /\ only_deinit (trace day4) 12 /\ settled (trace day2) 6 /\ In (6, Available) (arrived (trace day2)) /\ got (trace day2) 5 0 /\ In (ETold 1 Available) (trace day2) /\ In (ERegister Success) (trace day2).
Proof.
  split; [vm_compute; reflexivity|]. split; [vm_compute; reflexivity|]. split; [apply neverlost_ok; vm_compute; reflexivity|]. split.
  - assert (O : forallb (fun e => match e with ECall t CDeinit => Nat.eqb t 12 | _ => true end) (trace day4) = true) by (vm_compute; reflexivity).
    intros t' I. rewrite forallb_forall in O. specialize (O _ I). apply Nat.eqb_eq. exact O.
  - split; [assert (Q : quiet (trace day2)) by (apply quiet_ok; vm_compute; reflexivity); intros t av I; exact (Q _ _ I Logic.I)|].
    split; [inlist|]. split; [exists 1; inlist|]. split; inlist.
Qed.
