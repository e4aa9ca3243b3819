(** End to end theorems: one client's requester, the provider and a network that loses, duplicates and reorders. *)
From Verif Require Import CsTypes Amap ListUtil E2eSpec E2eProofs E2eProofs2.
From Verif Require ReqModel ReqSpec ReqProofs ReqInv ReqIds ReqSyncSpec ReqProps ProvModel ProvSpec ProvProofs.
From Coq Require Import NArith.

Lemma origin a hr hp m owner c : network a hr hp -> ReqSpec.few hr -> In (ProvModel.OIn m) (ProvSpec.ops_of hp) -> m_src m = a ->
  ReqSpec.final_code (m_code m) = true -> In (ReqModel.EAlloc owner (m_rid m)) (ReqSpec.trace hr) -> ReqSpec.call_of hr owner = Some c ->
  exists k b, ReqProofs.req_like c (m_code m) (m_op m) (m_pay m) k b.
Proof.
  intros [Ts _] F I S Fc A C. destruct (Ts m I S) as (t & m' & Se & E1 & E2 & E3 & E4).
  rewrite E1 in Fc. destruct (sent_lemma _ _ _ Se Fc) as (A' & c' & k & b & C' & L). rewrite <- E3 in A'.
  pose proof (ReqIds.ids_unique _ _ _ _ F A A') as <-. rewrite C in C'. injection C' as <-.
  exists k, b. rewrite E1, E2, E4. exact L.
Qed.

Lemma in_ops h1 n x h2 : In x (ProvSpec.ops_of (h1 ++ (n, x) :: h2)).
Proof. unfold ProvSpec.ops_of. rewrite map_app. apply in_or_app. right. left. reflexivity. Qed.

(** ** C36: the callback of a request only sees answers the server gave to that very request *)
Definition request_of (c : ReqModel.call) (o : nat) (pl : option payload) : Prop :=
  (exists hc, c = ReqModel.CSendAsync o pl hc) \/ (exists b, c = ReqModel.CSendSync o pl b).

Theorem C36_answers_are_never_mixed_up a hr hp owner c o pl t p : network a hr hp -> ReqSpec.few hr ->
  ReqSpec.call_of hr owner = Some c -> request_of c o pl -> In (ReqModel.ECb t owner p) (ReqSpec.trace hr) ->
  exists rid, In (ReqModel.EAlloc owner rid) (ReqSpec.trace hr) /\
    (app_answered hp a o rid pl p \/ p = Some (Err EHandlerUnavailable) /\ refused hp a o rid pl).
Proof.
  intros N F C Rq I.
  assert (Ro : ReqSpec.request_op c = Some o) by (destruct Rq as [(hc & ->)|(b & ->)]; reflexivity).
  assert (Rl : forall code o' pl' k b, ReqProofs.req_like c code o' pl' k b -> code = OpRequest /\ pl' = pl)
    by (intros code o' pl' k b; destruct Rq as [(hc & ->)|(b' & ->)]; cbn; intros (-> & _ & -> & _); auto).
  destruct (ReqProps.C28_only_its_own_answers _ _ _ _ _ _ C Ro I) as [(m & Cm & Ac & Mo & Al & ->)|(-> & ->)];
    [|destruct Rq as [(? & D)|(? & D)]; discriminate].
  exists (m_rid m). split; [exact Al|].
  destruct (proj2 N m (nth_error_In _ _ Cm)) as (m' & res & Se & E1 & E2 & E3 & E4).
  assert (K : (m_code m' = OpRequest \/ m_code m' = PartialRequestUpdate) \/ m_code m' = StatusGet).
  { rewrite E1 in Ac. destruct (m_code m'); try discriminate; auto. }
  rewrite <- Mo, E2, E3, E4. rewrite E3 in Al. destruct K as [K|K].
  - destruct (answer_source _ _ _ _ Se K) as (pl' & [W|[Wp W]]).
    + assert (pl' = pl) as ->; [|left; exact W].
      destruct W as (h0 & n0 & f & r & h1 & n1 & b & h2 & -> & _).
      assert (X : In (ProvModel.OIn (Msg OpRequest (m_op m') (m_rid m') pl' a)) (ProvSpec.ops_of
          ((h0 ++ (n0, ProvModel.OIn (Msg OpRequest (m_op m') (m_rid m') pl' a)) :: h1) ++ (n1, ProvModel.OReply r (m_pay m') b) :: h2)))
        by (rewrite <- app_assoc; apply in_ops).
      destruct (origin _ _ _ _ owner c N F X eq_refl eq_refl Al C) as (k & b' & L). exact (proj2 (Rl _ _ _ _ _ L)).
    + assert (pl' = pl) as ->; [|right; split; assumption].
      destruct W as (h1 & n1 & h2 & -> & _).
      destruct (origin _ _ _ _ owner c N F (in_ops _ _ _ _) eq_refl eq_refl Al C) as (k & b' & L). exact (proj2 (Rl _ _ _ _ _ L)).
  - exfalso. destruct (get_source _ _ _ _ Se K) as (h1 & n1 & pl' & h2 & -> & _).
    destruct (origin _ _ _ _ owner c N F (in_ops _ _ _ _) eq_refl eq_refl Al C) as (k & b' & L).
    destruct (Rl _ _ _ _ _ L) as (D & _). discriminate.
Qed.
Print Assumptions C36_answers_are_never_mixed_up.

Theorem C36_at_most_one_final_answer hr owner : ReqSpec.final_runs hr owner <= 1.
Proof. exact (ReqProps.C28_at_most_one_final_answer hr owner). Qed.
Print Assumptions C36_at_most_one_final_answer.

(** The same for what a synchronous request returns. *)
Theorem C36_synchronous_result_is_the_servers a hr hp t o pl b p : network a hr hp -> ReqSpec.few hr -> o <> 0 ->
  ReqSpec.call_of hr t = Some (ReqModel.CSendSync o pl b) -> In (ReqModel.ERet t (ReqModel.RVPay p (Some Success))) (ReqSpec.trace hr) ->
  exists rid, In (ReqModel.EAlloc t rid) (ReqSpec.trace hr) /\
    (app_answered hp a o rid pl p \/ p = Some (Err EHandlerUnavailable) /\ refused hp a o rid pl).
Proof.
  intros N F Ho C R. destruct (ReqProps.C35_every_return_has_a_reason _ _ _ _ _ _ F Ho C R) as (p' & s & E & O).
  injection E as <- <-. inversion O as [u rid q A1 A2 A3 E1| | w s' ? ? Ns | |]; subst; try discriminate; try congruence.
  eapply C36_answers_are_never_mixed_up; try eassumption. right. eauto.
Qed.
Print Assumptions C36_synchronous_result_is_the_servers.

(** ** C97: a get answers with a value the property really had *)
(** [p] was the value of property [o] at the server at some point of its history. *)
Definition once_valued (hp : ProvSpec.history) (o : nat) (p : option payload) : Prop :=
  exists h1 h2, hp = h1 ++ h2 /\ ProvSpec.value_after h1 o = p.

Lemma received_once a hr hp o p : network a hr hp -> received hr o p -> once_valued hp o p.
Proof.
  intros [_ Tc] (t & m & C & E & <- & <-). destruct (Tc m (nth_error_In _ _ C)) as (m' & res & Se & E1 & E2 & E3 & E4).
  rewrite E in E1. destruct (note_source _ _ _ _ Se) as [(_ & h1 & h2 & -> & V)|(D & _)]; [auto| |congruence].
  exists h1, h2. rewrite E2, E4. auto.
Qed.

Definition get_of (c : ReqModel.call) (o : nat) : Prop := c = ReqModel.CGetAsync o \/ exists b, c = ReqModel.CGetSync o b.

Theorem C97_get_callback a hr hp owner c o t p : network a hr hp -> ReqSpec.few hr ->
  ReqSpec.call_of hr owner = Some c -> get_of c o -> In (ReqModel.ECb t owner p) (ReqSpec.trace hr) ->
  (exists rid, In (ReqModel.EAlloc owner rid) (ReqSpec.trace hr) /\ value_read hp a o rid p) \/
  (t = owner /\ (p = None \/ once_valued hp o p)).
Proof.
  intros N F C Rq I.
  assert (Ro : ReqSpec.request_op c = Some o) by (destruct Rq as [->|(b & ->)]; reflexivity).
  assert (Rl : forall code o' pl' k b, ReqProofs.req_like c code o' pl' k b -> code = StatusGet /\ pl' = None)
    by (intros code o' pl' k b; destruct Rq as [->|(b' & ->)]; cbn; intros (-> & _ & -> & _); auto).
  destruct (ReqProps.C28_only_its_own_answers _ _ _ _ _ _ C Ro I) as [(m & Cm & Ac & Mo & Al & ->)|(-> & ->)].
  - left. exists (m_rid m). split; [exact Al|].
    destruct (proj2 N m (nth_error_In _ _ Cm)) as (m' & res & Se & E1 & E2 & E3 & E4).
    assert (K : (m_code m' = OpRequest \/ m_code m' = PartialRequestUpdate) \/ m_code m' = StatusGet).
    { rewrite E1 in Ac. destruct (m_code m'); try discriminate; auto. }
    rewrite <- Mo, E2, E3, E4. rewrite E3 in Al. destruct K as [K|K].
    + exfalso.
      assert (X : exists pl, In (ProvModel.OIn (Msg OpRequest (m_op m') (m_rid m') pl a)) (ProvSpec.ops_of hp)).
      { destruct (answer_source _ _ _ _ Se K) as (pl & [W|[Wp W]]); exists pl.
        - destruct W as (h0 & n0 & f & r & h1 & n1 & b & h2 & -> & _). rewrite <- app_assoc. apply in_ops.
        - destruct W as (h1 & n1 & h2 & -> & _). apply in_ops. }
      destruct X as (pl & X). destruct (origin _ _ _ _ owner c N F X eq_refl eq_refl Al C) as (k & b' & L).
      destruct (Rl _ _ _ _ _ L) as (D & _). discriminate.
    + destruct (get_source _ _ _ _ Se K) as (h1 & n1 & pl & h2 & -> & V).
      destruct (origin _ _ _ _ owner c N F (in_ops _ _ _ _) eq_refl eq_refl Al C) as (k & b' & L).
      destruct (Rl _ _ _ _ _ L) as (_ & D). cbn in D. subst pl. exists h1, n1, h2. auto.
  - right. split; [reflexivity|]. destruct (s_cb _ (src_final hr) _ _ I) as [->|(o' & [K|K] & R)]; [auto| |].
    + rewrite C in K. discriminate.
    + rewrite C in K. injection K as <-. right. eapply received_once; eassumption.
Qed.
Print Assumptions C97_get_callback.

Theorem C97_get_result a hr hp t o b p s : network a hr hp -> ReqSpec.few hr ->
  ReqSpec.call_of hr t = Some (ReqModel.CGetSync o b) -> In (ReqModel.ERet t (ReqModel.RVPay (Some p) s)) (ReqSpec.trace hr) ->
  once_valued hp o (Some p).
Proof.
  intros N F C I. destruct (s_ret _ (src_final hr) _ _ _ _ _ C I) as [R|(u & U)]; [eapply received_once; eassumption|].
  destruct (C97_get_callback _ _ _ _ _ o _ _ N F C (or_intror (ex_intro _ b eq_refl)) U) as [(rid & _ & h1 & n1 & h2 & -> & V)|(_ & [D|V])];
    [|discriminate|exact V].
  eexists; eexists. split; [reflexivity|exact V].
Qed.
Print Assumptions C97_get_result.

(** ** C98: a subscriber only sees values the property really had, or signals really broadcast *)
Theorem C98_subscribers_see_real_values a hr hp owner stt o t p : network a hr hp ->
  ReqSpec.call_of hr owner = Some (ReqModel.CReg stt o true) -> In (ReqModel.ECb t owner p) (ReqSpec.trace hr) ->
  once_valued hp o p \/ In (ProvModel.OSignal o p) (ProvSpec.ops_of hp).
Proof.
  intros N C I. destruct (Nat.eq_dec t owner) as [->|NE].
  - left. destruct (s_cb _ (src_final hr) _ _ I) as [->|(o' & [K|K] & R)].
    + exists [], hp. split; reflexivity.
    + rewrite C in K. injection K as -> <-. eapply received_once; eassumption.
    + rewrite C in K. discriminate.
  - destruct (ReqProps.C32_only_its_own_updates _ _ _ _ _ _ C I NE) as (m & Cm & U & <- & ->).
    destruct (proj2 N m (nth_error_In _ _ Cm)) as (m' & res & Se & E1 & E2 & E3 & E4).
    assert (K : m_code m' = StatusRegister \/ m_code m' = SignalRegister) by (rewrite <- E1; destruct (m_code m); auto; discriminate).
    rewrite E2, E4. destruct (note_source _ _ _ _ Se K) as [(_ & h1 & h2 & -> & V)|(_ & S)]; [left; exists h1, h2; auto|auto].
Qed.
Print Assumptions C98_subscribers_see_real_values.

(** ** Non-vacuity: a client at address 3 whose request, get and subscription are served, one message duplicated, one
    answer lost *)
Section Example.
Import ReqModel ReqSpec.
Definition ok_ : oracle := Orc Success false (fun _ => false).
Definition go (t n : nat) : history := repeat (LRun t ok_) n.
Definition inc (c : opcode) (o : nat) (rid : N) (x : nat) : call := CIncoming true (Msg c o rid (Some (Data x)) 0).
Definition ehr : history :=
  LCall (CServiceStatus true Unavailable Available) :: go 0 4 ++
  LCall (CSendAsync 5 (Some (Data 1)) true) :: go 1 6 ++ LCall (CReg true 7 true) :: go 2 6 ++
  LCall (CSendSync 5 (Some (Data 2)) true) :: go 3 6 ++ LCall (inc OpRequest 5 2 20) :: go 4 4 ++
  go 3 2 ++ LCall (inc OpRequest 5 0 10) :: go 5 4 ++ LCall (inc OpRequest 5 0 10) :: go 6 4 ++
  LCall (inc StatusRegister 7 rid_invalid 70) :: go 7 4 ++ LCall (CGetAsync 8) :: go 8 7 ++ LCall (inc StatusGet 8 3 80) :: go 9 4.
End Example.
Section Example2.
Import ProvModel ProvSpec.
Definition fine : net := Net (fun _ => Success) (fun _ => Success).
Definition from (c : opcode) (o : nat) (rid : N) (p : option payload) (a : nat) : net * op := (fine, OIn (Msg c o rid p a)).
Definition ehp : history :=
  [(fine, ORegHandler 5 (Some 1)); from StatusRegister 7 1 None 3; from OpRequest 5 0 (Some (Data 99)) 4;
   from OpRequest 5 2 (Some (Data 2)) 3; from OpRequest 5 0 (Some (Data 1)) 3; from OpRequest 5 0 (Some (Data 1)) 3;
   (fine, OReply 1 (Some (Data 20)) false); (fine, OReply 2 (Some (Data 10)) false);
   (fine, OSetStatus 7 (Some (Data 70))); (fine, OSetStatus 8 (Some (Data 80))); from StatusGet 8 3 None 3].
End Example2.

Definition sends_r (hr : ReqSpec.history) : list msg :=
  flat_map (fun e => match e with ReqModel.ESend _ m => [m] | _ => [] end) (ReqSpec.trace hr).
Lemma sends_r_in hr m : In m (sends_r hr) -> exists t, In (ReqModel.ESend t m) (ReqSpec.trace hr).
Proof. intros I. apply in_flat_map in I as (e & I & J). destruct e; try destruct J as [<-|[]]; try destruct J. eauto. Qed.
Definition sends_p (a : nat) (hp : ProvSpec.history) : list msg :=
  flat_map (fun e => match e with ProvModel.ESend d m _ => if Nat.eqb d a then [m] else [] | _ => [] end) (ProvSpec.trace hp).
Lemma sends_p_in a hp m : In m (sends_p a hp) -> exists r, In (ProvModel.ESend a m r) (ProvSpec.trace hp).
Proof.
  intros I. apply in_flat_map in I as (e & I & J). destruct e; try solve [destruct J].
  destruct (Nat.eqb_spec dest a) as [EQ|NE]; [|destruct J]. subst. destruct J as [<-|[]]. eauto.
Qed.

Definition pay_eqb (p q : option payload) : bool :=
  match p, q with Some x, Some y => payload_eqb x y | None, None => true | _, _ => false end.
Definition sameb (m m' : msg) : bool :=
  opcode_eqb (m_code m) (m_code m') && Nat.eqb (m_op m) (m_op m') && N.eqb (m_rid m) (m_rid m') && pay_eqb (m_pay m) (m_pay m').
Lemma sameb_ok m m' : sameb m m' = true -> same_content m m'.
Proof.
  unfold sameb. intros H. apply andb_true_iff in H as [H P]. apply andb_true_iff in H as [H R]. apply andb_true_iff in H as [H O].
  destruct (opcode_eqb_spec (m_code m) (m_code m')); [|discriminate]. apply Nat.eqb_eq in O. apply N.eqb_eq in R.
  split; [assumption|]. split; [assumption|]. split; [assumption|].
  destruct (m_pay m) as [x|], (m_pay m') as [y|]; try discriminate; [|reflexivity]. cbn in P. f_equal.
  destruct (payload_eqb_spec x y); [assumption|discriminate].
Qed.

Example C36_applies : network 3 ehr ehp /\ ReqSpec.few ehr /\
  ReqSpec.call_of ehr 1 = Some (ReqModel.CSendAsync 5 (Some (Data 1)) true) /\ In (ReqModel.ECb 5 1 (Some (Data 10))) (ReqSpec.trace ehr) /\
  In (ReqModel.ERet 3 (ReqModel.RVPay (Some (Data 20)) (Some Success))) (ReqSpec.trace ehr) /\
  In (ReqModel.ECb 7 2 (Some (Data 70))) (ReqSpec.trace ehr) /\ In (ReqModel.ECb 9 8 (Some (Data 80))) (ReqSpec.trace ehr).
Proof.
  assert (A : forallb (fun x => match x with ProvModel.OIn m => negb (Nat.eqb (m_src m) 3) || existsb (sameb m) (sends_r ehr) | _ => true end)
                      (ProvSpec.ops_of ehp) = true) by (vm_compute; reflexivity).
  assert (B : forallb (fun c => match c with ReqModel.CIncoming true m => existsb (sameb m) (sends_p 3 ehp) | _ => true end)
                      (ReqSpec.calls ehr) = true) by (vm_compute; reflexivity).
  apply conj; [apply conj|].
  - intros m I S. rewrite forallb_forall in A. specialize (A _ I). cbn beta iota in A. rewrite S, Nat.eqb_refl in A. cbn [negb orb] in A.
    apply existsb_exists in A as (m' & J & K). destruct (sends_r_in _ _ J) as (t & T). exists t, m'. split; [exact T|apply sameb_ok; exact K].
  - intros m I. rewrite forallb_forall in B. specialize (B _ I). cbn beta iota in B.
    apply existsb_exists in B as (m' & J & K). destruct (sends_p_in _ _ _ J) as (r & T). exists m', r. split; [exact T|apply sameb_ok; exact K].
  - apply conj; [vm_compute; reflexivity|]. apply conj; [vm_compute; reflexivity|].
    do 3 (apply conj; [vm_compute; repeat first [left; reflexivity|right]|]). vm_compute. repeat first [left; reflexivity|right].
Qed.
