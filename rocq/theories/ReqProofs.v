(** Basic invariants of the requester model. *)
From Verif Require Import ReqModel ReqSpec.
From Coq Require Import NArith.

Lemma run_app s h1 h2 :
  run s (h1 ++ h2) = (fst (run (fst (run s h1)) h2), snd (run s h1) ++ snd (run (fst (run s h1)) h2)).
Proof.
  revert s. induction h1 as [|l h1 IH]; intros s; cbn [app run].
  - cbn. destruct (run s h2); reflexivity.
  - destruct (step s l) as [s1 e1]. rewrite IH. destruct (run s1 h1) as [s2 e2]. cbn.
    destruct (run s2 h2) as [s3 e3]. cbn. rewrite app_assoc. reflexivity.
Qed.

Lemma final_snoc h l : final (h ++ [l]) = fst (step (final h) l).
Proof. unfold final. rewrite run_app. cbn. destruct (step (fst (run st_new h)) l). reflexivity. Qed.
Lemma trace_snoc h l : trace (h ++ [l]) = trace h ++ snd (step (final h) l).
Proof.
  unfold trace, final. rewrite run_app. cbn. destruct (step (fst (run st_new h)) l). cbn. rewrite app_nil_r. reflexivity.
Qed.
Lemma trace_app h1 h2 : trace (h1 ++ h2) = trace h1 ++ snd (run (final h1) h2).
Proof. unfold trace, final. rewrite run_app. reflexivity. Qed.
Lemma in_trace_app h1 h2 e : In e (trace h1) -> In e (trace (h1 ++ h2)).
Proof. intros H. rewrite trace_app. apply in_or_app. auto. Qed.

Lemma calls_app h1 h2 : calls (h1 ++ h2) = calls h1 ++ calls h2.
Proof. induction h1 as [|[c|t w] h1 IH]; cbn; [reflexivity|rewrite IH; reflexivity|exact IH]. Qed.
Lemma call_of_app h1 h2 t c : call_of h1 t = Some c -> call_of (h1 ++ h2) t = Some c.
Proof. unfold call_of. intros H. rewrite calls_app, nth_error_app1; [exact H|eapply nth_lt; exact H]. Qed.

(** How call [c] maps to the request it may send. *)
Definition req_like (c : call) (code : opcode) (o : nat) (pl : option payload) (k : cbkind) (b : bool) : Prop :=
  match c with
  | CSendAsync o' p' hc => code = OpRequest /\ o = o' /\ pl = p' /\ k = (if hc then KUser else KNull) /\ b = false
  | CSendSync o' p' b' => code = OpRequest /\ o = o' /\ pl = p' /\ k = KPromise /\ b = b'
  | CGetAsync o' => code = StatusGet /\ o = o' /\ pl = None /\ k = KUser /\ b = false
  | CGetSync o' b' => code = StatusGet /\ o = o' /\ pl = None /\ k = KPromise /\ b = b'
  | _ => False
  end.
Lemma req_like_op c code o pl k b : req_like c code o pl k b -> request_op c = Some o.
Proof. destruct c; cbn; intros H; try contradiction; destruct H as (_ & -> & _); reflexivity. Qed.

Definition fits (c : call) (p : pc) : Prop :=
  match p with
  | PStart c' => c' = c
  | PAlloc code o pl k b | PStore code o pl k b _ | PSend code o pl k b _ => req_like c code o pl k b
  | PSent code o k b _ => exists pl, req_like c code o pl k b
  | PUndo code o k _ a => (exists pl b, req_like c code o pl k b) /\ a <> Success
  | PWait o _ b => exists code pl, req_like c code o pl KPromise b
  | PExpErase o _ | PExpSend o _ => exists code pl, req_like c code o pl KPromise true
  | PAbortErase o rid | PAbortSend o rid => c = CAbort rid o
  | PRegAlloc st o | PRegStore st o _ | PRegSend st o _ => c = CReg st o true
  | PRegSent o _ => exists st, c = CReg st o true
  | PRegUndo o _ a => (exists st, c = CReg st o true) /\ a <> Success
  | PRegCached o _ | PRegCall o _ _ => c = CReg true o true
  | PUnregErase o rid => c = CUnregister rid o
  | PUnregUncache o | PUnregCheck o | PUnregSend o => exists rid, c = CUnregister rid o
  | PUallErase o | PUallSend o | PUallUncache o => c = CUnregisterAll o
  | PGetSub sync b o => c = (if sync then CGetSync o b else CGetAsync o) /\ (sync = false -> b = false)
  | PGetCheck b o => c = CGetSync o b
  | PGetCached sync _ o => if sync then exists b, c = CGetSync o b else c = CGetAsync o
  | PGetCall _ _ => exists o, c = CGetAsync o
  | PInTake m => c = CIncoming true m /\
      (answer_code (m_code m) = true \/ m_code m = SignalRegister \/ m_code m = StatusRegister)
  | PInRun m _ _ => c = CIncoming true m
  | PSvcSet old new | PSvcForward old new => c = CServiceStatus true old new
  | PSvcClearReq old new | PSvcClearReg old new => c = CServiceStatus true old new /\ new = Unavailable
  | PObsPush x | PObsCall x => c = CObserve (Some x)
  | PDone => True
  end.

(** Case analysis on a step: destructs everything [run1] looks at. *)
Ltac break_run :=
  repeat match goal with
  | H : (_, _, _) = (_, _, _) |- _ => injection H as <- <- <-
  | H : (if ?b then _ else _) = (_, _, _) |- _ => destruct b eqn:?
  | H : match ?x with _ => _ end = (_, _, _) |- _ => destruct x eqn:?
  end.

Lemma fits_step c w al s t p s' p' e : fits c p -> run1 w al s t p = (s', p', e) -> fits c p'.
Proof.
  intros F R. destruct p; cbn in F; cbn in R.
  all: try solve [break_run; cbn; eauto].
  - subst. destruct c as [o pl hc|o pl b|o|o b|rid o|stt o hc|rid o|o|ok m|ok old new|[x|]|x|]; cbn in R;
      try solve [break_run; cbn; auto];
      try (break_run; cbn; repeat split; auto; fail).
    + break_run; cbn; eauto. split; [reflexivity|discriminate].
    + destruct ok; [|break_run; exact I]. destruct (m_code m) eqn:E; break_run; cbn; auto; split; auto; rewrite E; cbn; auto.
    + destruct ok; cbn in R; break_run; cbn; auto.
  - destruct F as [pl F]. break_run; cbn; eauto; repeat split; try congruence; try (eexists; eexists; exact F).
  - break_run; cbn; auto; destruct b; try discriminate; eauto.
  - break_run; cbn; auto; repeat split; try congruence; try exact F.
  - destruct F as [-> F]. destruct sync; break_run; cbn; eauto; repeat split; auto.
  - break_run; subst; cbn; auto 10.
  - destruct F as [-> F]. break_run; cbn; auto.
  - break_run. destruct new; cbn; auto.
  - destruct F as [-> ->]. break_run; cbn; auto.
Qed.

(** ** What a step does to the tables, seen through lookups *)
Definition rl (s : rq) (o : nat) : list entry := get_or [] o (requests s).
Definition gl (s : rq) (o : nat) : list entry := get_or [] o (registers s).

Inductive teffect :=
| TSame | TStore (o : nat) (e : entry) | TRemove (o : nat) (rid : N) | TDrop (o : nat) | TClear.
Definition teff (f f' : nat -> list entry) (x : teffect) : Prop :=
  match x with
  | TSame => forall o, f' o = f o
  | TStore o e => forall o', f' o' = if Nat.eqb o' o then f o ++ [e] else f o'
  | TRemove o rid => forall o', f' o' = if Nat.eqb o' o then remove_id rid (f o) else f o'
  | TDrop o => forall o', f' o' = if Nat.eqb o' o then [] else f o'
  | TClear => forall o, f' o = []
  end.

Lemma find_id_none rid l : find_id rid l = None -> remove_id rid l = l.
Proof.
  unfold find_id. induction l as [|e l IH]; cbn; [reflexivity|].
  destruct (N.eqb (e_id e) rid); [discriminate|]. intros H. rewrite (IH H). reflexivity.
Qed.
Lemma remove_nil_not_found rid l : find_id rid l = None -> remove_id rid l = l.
Proof. exact (find_id_none rid l). Qed.

Lemma remove_entry_look m o rid o' : get_or [] o' (fst (remove_entry m o rid)) =
  if Nat.eqb o' o then remove_id rid (get_or [] o m) else get_or [] o' m.
Proof.
  unfold remove_entry. destruct (get o m) as [l|] eqn:G.
  - assert (E : get_or [] o m = l) by (unfold get_or; rewrite G; reflexivity). rewrite E.
    destruct (remove_id rid l) as [|e l'] eqn:R; cbn.
    + rewrite get_or_del. destruct (Nat.eqb o' o); reflexivity.
    + rewrite get_or_put. reflexivity.
  - assert (E : get_or [] o m = []) by (unfold get_or; rewrite G; reflexivity). rewrite E. cbn.
    destruct (Nat.eqb_spec o' o); [subst; exact E|reflexivity].
Qed.
Lemma erase_request_look m o rid o' : get_or [] o' (fst (erase_request m o rid)) =
  if Nat.eqb o' o then remove_id rid (get_or [] o m) else get_or [] o' m.
Proof.
  unfold erase_request. destruct (get o m) as [l|] eqn:G.
  - assert (E : get_or [] o m = l) by (unfold get_or; rewrite G; reflexivity). rewrite E.
    destruct (find_id rid l) as [e|] eqn:R; cbn.
    + rewrite get_or_put. reflexivity.
    + rewrite (find_id_none _ _ R). destruct (Nat.eqb_spec o' o); [subst; reflexivity|reflexivity].
  - assert (E : get_or [] o m = []) by (unfold get_or; rewrite G; reflexivity). rewrite E. cbn.
    destruct (Nat.eqb_spec o' o); [subst; exact E|reflexivity].
Qed.
Lemma erase_request_found m o rid : snd (erase_request m o rid) = 
  match find_id rid (get_or [] o m) with Some _ => true | None => false end.
Proof.
  unfold erase_request, get_or. destruct (get o m) as [l|]; [|reflexivity]. destruct (find_id rid l); reflexivity.
Qed.
Lemma take_request_look m o rid pa o' : get_or [] o' (fst (take_request m o rid pa)) =
  if Nat.eqb o' o then (if pa then get_or [] o m else remove_id rid (get_or [] o m)) else get_or [] o' m.
Proof.
  unfold take_request. destruct (get o m) as [l|] eqn:G.
  - assert (E : get_or [] o m = l) by (unfold get_or; rewrite G; reflexivity). rewrite E.
    cbn [fst].
    assert (X : (match find_id rid l with Some _ => if pa then l else remove_id rid l | None => l end) =
                (if pa then l else remove_id rid l)).
    { destruct (find_id rid l) eqn:R; [reflexivity|]. rewrite (find_id_none _ _ R). destruct pa; reflexivity. }
    rewrite X. destruct (if pa then l else remove_id rid l) as [|e l'].
    + rewrite get_or_del. reflexivity.
    + rewrite get_or_put. reflexivity.
  - assert (E : get_or [] o m = []) by (unfold get_or; rewrite G; reflexivity). rewrite E. cbn.
    destruct (Nat.eqb_spec o' o); [subst; destruct pa; exact E|reflexivity].
Qed.
Lemma take_request_found m o rid pa : snd (take_request m o rid pa) = find_id rid (get_or [] o m).
Proof. unfold take_request, get_or. destruct (get o m) as [l|]; reflexivity. Qed.

Lemma cached_tables s o s' x : cached s o = (s', x) ->
  registers s' = registers s /\ requests s' = requests s /\ observers s' = observers s /\ cache s' = cache s /\ counter s' = counter s /\ status s' = status s /\ promises s' = promises s.
Proof.
  unfold cached. destruct (get o (cache s)) as [[q|]|]; intros H; injection H as <- <-; repeat split.
Qed.

(** Effect of a step on the request table. *)
Definition req_effect (t : nat) (p : pc) : teffect :=
  match p with
  | PStart CDeinit => TClear
  | PStore _ o _ k _ rid => TStore o (Ent rid t k)
  | PUndo _ o _ rid _ | PExpErase o rid | PAbortErase o rid => TRemove o rid
  | PInTake m => if final_code (m_code m) then TRemove (m_op m) (m_rid m) else TSame
  | PSvcClearReq _ _ => TClear
  | _ => TSame
  end.
Definition reg_effect (t : nat) (p : pc) : teffect :=
  match p with
  | PRegStore _ o rid => TStore o (Ent rid t KUser)
  | PRegUndo o rid _ | PUnregErase o rid => TRemove o rid
  | PUallErase o => TDrop o
  | PSvcClearReg _ _ => TClear
  | _ => TSame
  end.

Ltac same := intros ?; reflexivity.
Lemma run1_requests w al s t p s' p' e c : fits c p -> run1 w al s t p = (s', p', e) ->
  teff (rl s) (rl s') (req_effect t p).
Proof.
  intros F R. destruct p; cbn in R; cbn [req_effect].
  all: try (break_run; same).
  - break_run. intros o'. unfold rl. cbn. rewrite get_or_put. reflexivity.
  - break_run. intros o'. unfold rl. cbn. apply remove_entry_look.
  - destruct (erase_request (requests s) o rid) as [m f] eqn:E.
    assert (X : requests s' = m) by (destruct f; break_run; reflexivity).
    intros o'. unfold rl. rewrite X, <- erase_request_look, E. reflexivity.
  - destruct (erase_request (requests s) o rid) as [m f] eqn:E.
    assert (X : requests s' = m) by (destruct f; break_run; reflexivity).
    intros o'. unfold rl. rewrite X, <- erase_request_look, E. reflexivity.
  - destruct (cached s o) as [s1 [q|]] eqn:C; apply cached_tables in C; break_run; intros o'; unfold rl;
      destruct C as (_ & -> & _); reflexivity.
  - destruct (cached s o) as [s1 q] eqn:C; apply cached_tables in C; destruct sync; break_run; intros o'; unfold rl;
      destruct C as (_ & -> & _); reflexivity.
  - cbn in F. destruct F as [_ F].
    pose proof (take_request_look (requests s) (m_op m) (m_rid m) (is_partial (m_code m))) as L.
    destruct (take_request (requests s) (m_op m) (m_rid m) (is_partial (m_code m))) as [r x] eqn:T. cbn [fst] in L.
    destruct (m_code m) eqn:M; cbn in F; try (destruct F as [F|[F|F]]; discriminate);
      cbn; break_run; intros o'; unfold rl; cbn; try reflexivity; rewrite L; cbn;
      destruct (Nat.eqb_spec o' (m_op m)); subst; reflexivity.
  - destruct todo; [destruct keep|]; break_run; same.
Qed.

Lemma run1_registers w al s t p s' p' e : run1 w al s t p = (s', p', e) -> teff (gl s) (gl s') (reg_effect t p).
Proof.
  intros R. destruct p; cbn in R; cbn [reg_effect].
  all: try (break_run; same).
  - assert (X : registers s' = put o (get_or [] o (registers s) ++ [Ent rid t KUser]) (registers s)) by (break_run; reflexivity).
    intros o'. unfold gl. rewrite X, get_or_put. reflexivity.
  - break_run. intros o'. unfold gl. cbn. apply remove_entry_look.
  - destruct (cached s o) as [s1 [q|]] eqn:C; apply cached_tables in C; break_run; intros o'; unfold gl;
      destruct C as (-> & _); reflexivity.
  - destruct (remove_entry (registers s) o rid) as [m f] eqn:E.
    assert (X : registers s' = m) by (break_run; reflexivity).
    intros o'. unfold gl. rewrite X, <- remove_entry_look, E. reflexivity.
  - break_run. intros o'. unfold gl. cbn. rewrite get_or_del. reflexivity.
  - destruct (cached s o) as [s1 q] eqn:C; apply cached_tables in C; destruct sync; break_run; intros o'; unfold gl;
      destruct C as (-> & _); reflexivity.
  - destruct todo; [destruct keep|]; break_run; same.
Qed.
