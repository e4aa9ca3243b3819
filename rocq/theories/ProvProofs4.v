(** Provider: registrations, notifications, broadcast results (C23 - C26). *)
From Verif Require Import ProvModel ProvSpec ProvProofs ProvProofs2 ProvProofs3.

Definition reg (s : prov) (a o : nat) : bool := mem o (get_or [] a (regs s)).

Definition is_busy (x : acs) : bool := match x with ReceiverBusy => true | _ => false end.
Definition is_gone (x : acs) : bool := match x with Success | ReceiverBusy => false | _ => true end.

Lemma try_send_eq f m addrs rg :
  let '(rg', busy, ev) := try_send f m addrs rg in
  (forall a, get a rg' = if mem a addrs && is_gone (f a) then None else get a rg) /\
  busy = filter (fun a => is_busy (f a)) addrs /\ ev = map (fun a => ESend a m (f a)) addrs.
Proof.
  revert rg. induction addrs as [|x addrs IH]; intros rg; [cbn; auto|]. cbn [try_send].
  destruct (match f x with Success => (rg, []) | ReceiverBusy => (rg, [x]) | _ => (del x rg, []) end) as [rg1 b1] eqn:E.
  specialize (IH rg1). destruct (try_send f m addrs rg1) as [[rg2 b2] ev2]. destruct IH as (H1 & H2 & H3).
  assert (G : forall a, get a rg1 = if Nat.eqb a x && is_gone (f x) then None else get a rg).
  { intros a. destruct (f x); cbn in E; injection E as <- <-; cbn [is_gone]; rewrite ?andb_false_r, ?andb_true_r; try reflexivity; apply get_del. }
  split; [|split].
  - intros a. rewrite H1, G. cbn [mem existsb]. fold (mem a addrs).
    destruct (Nat.eqb_spec a x) as [->|N]; cbn; [|reflexivity].
    destruct (is_gone (f x)); destruct (mem x addrs); reflexivity.
  - cbn [filter]. rewrite H2. destruct (f x); cbn in E; injection E as <- <-; reflexivity.
  - cbn. rewrite H3. reflexivity.
Qed.

Lemma addresses_of_spec o rg a : NoDup (keys rg) -> mem a (addresses_of o rg) = mem o (get_or [] a rg).
Proof.
  intros ND. apply eq_true_iff_eq. rewrite mem_in. unfold addresses_of. rewrite in_map_iff. split.
  - intros ([k l] & <- & J). apply filter_In in J as [J M]. cbn in *. unfold get_or. rewrite (in_get k l); assumption.
  - intros M. unfold get_or in M. destruct (get a rg) as [l|] eqn:G; [|discriminate].
    exists (a, l). split; [reflexivity|]. apply filter_In. split; [apply get_in; exact G|exact M].
Qed.

Lemma addresses_nodup o rg : NoDup (keys rg) -> NoDup (addresses_of o rg).
Proof.
  unfold addresses_of, keys. induction rg as [|[k l] rg IH]; intros ND; [constructor|]. cbn [map] in ND. inversion ND; subst. cbn [filter snd].
  destruct (mem o l); [|auto]. cbn [map]. constructor; [|auto]. cbn [fst]. intros J. apply H1. apply in_map_iff in J as (e & E & J). rewrite <- E.
  apply filter_In in J as [J _]. apply in_map. exact J.
Qed.

Lemma notes_app a l1 l2 : notes_to a (l1 ++ l2) = notes_to a l1 ++ notes_to a l2.
Proof.
  induction l1 as [|e l1 IH]; [reflexivity|]. destruct e as [d m r| | | | |]; cbn; try exact IH.
  destruct (Nat.eqb a d); [|exact IH]. destruct (m_code m); cbn; rewrite IH; reflexivity.
Qed.

Lemma notes_map a m f l : NoDup l -> m_code m = StatusRegister \/ m_code m = SignalRegister ->
  notes_to a (map (fun d => ESend d m (f d)) l) = if mem a l then [(m_code m, m_op m, m_pay m, f a)] else [].
Proof.
  intros ND C. induction l as [|d l IH]; [reflexivity|]. inversion ND; subst. cbn. fold (mem a l).
  destruct (Nat.eqb_spec a d).
  - subst. cbn. rewrite IH by assumption. assert (M : mem d l = false).
    { destruct (mem d l) eqn:M; [|reflexivity]. apply mem_in in M. contradiction. }
    rewrite M. destruct C as [C|C]; rewrite C; reflexivity.
  - cbn. apply IH. assumption.
Qed.

Lemma notes_listeners a p l : notes_to a (map (fun i => EListener i p) l) = [].
Proof. induction l; [reflexivity|exact IHl]. Qed.

Lemma mem_filter a f l : mem a (filter f l) = mem a l && f a.
Proof.
  apply eq_true_iff_eq. rewrite andb_true_iff, !mem_in, filter_In. reflexivity.
Qed.

Definition all_busy (n : net) (a : nat) : bool := is_busy (first n a) && is_busy (second n a).

Lemma filter_length_all {A} (f : A -> bool) l : Nat.eqb (length (filter f l)) (length l) = forallb f l.
Proof.
  apply eq_true_iff_eq. rewrite Nat.eqb_eq, forallb_forall. split.
  - induction l as [|x l IH]; [intros _ y []|]. cbn. destruct (f x) eqn:E; cbn; intros H.
    + intros y [<-|J]; [exact E|apply IH; [lia|exact J]].
    + exfalso. assert (length (filter f l) <= length l) by (clear; induction l as [|z l IH]; cbn; [lia|destruct (f z); cbn; lia]). lia.
  - intros H. induction l as [|x l IH]; [reflexivity|]. cbn. rewrite (H x) by (left; reflexivity). cbn. f_equal. apply IH.
    intros y J. apply H. right. exact J.
Qed.

Lemma filter_filter {A} (f g : A -> bool) l : filter f (filter g l) = filter (fun x => g x && f x) l.
Proof.
  induction l as [|x l IH]; [reflexivity|]. cbn. destruct (g x); cbn; [destruct (f x); rewrite IH; reflexivity|exact IH].
Qed.

Lemma forallb_ext_in {A} (f g : A -> bool) l : (forall x, In x l -> f x = g x) -> forallb f l = forallb g l.
Proof.
  induction l as [|x l IH]; intros H; [reflexivity|]. cbn. rewrite (H x) by (left; reflexivity). f_equal. apply IH.
  intros y J. apply H. right. exact J.
Qed.

Lemma stays_first n a : stays n a = match first n a with ReceiverBusy => negb (is_gone (second n a)) | x => negb (is_gone x) end.
Proof. unfold stays, attempts. destruct (first n a); cbn; try reflexivity. destruct (second n a); reflexivity. Qed.

Lemma broadcast_lemma n s o c p s' ev r : NoDup (keys (regs s)) -> c = StatusRegister \/ c = SignalRegister ->
  broadcast n s o c p = (s', ev, r) ->
  (forall a, notes_to a ev = if reg s a o then map (fun x => (c, o, p, x)) (attempts n a) else []) /\
  (forall a o', reg s' a o' = if reg s a o then stays n a && reg s a o' else reg s a o') /\
  r = (if forallb (all_busy n) (addresses_of o (regs s)) then Success else ReceiverUnavailable) /\
  listener_calls ev = map (fun l => (l, p)) (get_or [] o (listeners s)) /\
  (forall a m x, In (ESend a m x) ev -> reg s a o = true).
Proof.
  intros ND C. unfold broadcast. destruct (broadcast_to_clients n s o c p) as [[s1 ev1] r1] eqn:E. intros [= <- <- <-].
  assert (AD := fun a => addresses_of_spec o (regs s) a ND). pose proof (addresses_nodup o (regs s) ND) as AN.
  unfold reg. unfold broadcast_to_clients in E. set (addrs := addresses_of o (regs s)) in *.
  assert (LC : forall l, listener_calls (map (fun l => EListener l p) l) = map (fun l => (l, p)) l) by (induction l as [|i l IH]; cbn; congruence).
  assert (LCA : forall l1 l2, listener_calls (l1 ++ l2) = listener_calls l1 ++ listener_calls l2).
  { induction l1 as [|e l1 IH]; intros l2; [reflexivity|]. destruct e; cbn; rewrite IH; reflexivity. }
  assert (LCS : forall m f l, listener_calls (map (fun d => ESend d m (f d)) l) = []) by (induction l as [|i l IH]; cbn; congruence).
  assert (INL : forall a m x l, ~ In (ESend a m x) (map (fun l => EListener l p) l)).
  { intros a m x l J. apply in_map_iff in J as (y & J & _). discriminate. }
  destruct addrs as [|a0 al] eqn:EA.
  { injection E as <- <- <-.
    assert (Z : forall a, mem o (get_or [] a (regs s)) = false) by (intros a; rewrite <- AD; reflexivity).
    split; [|split; [|split; [|split]]].
    - intros a. rewrite Z, notes_app, notes_listeners. reflexivity.
    - intros a o'. rewrite Z. reflexivity.
    - reflexivity.
    - rewrite LCA, LC. cbn. rewrite app_nil_r. reflexivity.
    - intros a m x J. exfalso. apply in_app_or in J as [J|[]]. eapply INL; exact J. }
  rewrite <- EA in *. clear EA a0 al.
  set (m := Msg c o rid_invalid p no_address) in *.
  pose proof (try_send_eq (first n) m addrs (regs s)) as T1.
  destruct (try_send (first n) m addrs (regs s)) as [[rg1 b1] e1]. destruct T1 as (G1 & B1 & E1).
  assert (C2 : m_code m = StatusRegister \/ m_code m = SignalRegister) by exact C.
  assert (GEN : exists rg2 b2 e2, match b1 with [] => (rg1, [], []) | _ => try_send (second n) m b1 rg1 end = (rg2, b2, e2) /\
     (forall a, get a rg2 = if mem a b1 && is_gone (second n a) then None else get a rg1) /\
     b2 = filter (fun a => is_busy (second n a)) b1 /\ e2 = map (fun a => ESend a m (second n a)) b1).
  { destruct b1 as [|x b1']; [exists rg1, [], []; repeat split; reflexivity|].
    pose proof (try_send_eq (second n) m (x :: b1') rg1) as T2.
    destruct (try_send (second n) m (x :: b1') rg1) as [[rg2 b2] e2]. exists rg2, b2, e2. split; [reflexivity|exact T2]. }
  destruct GEN as (rg2 & b2 & e2 & EQ & G2 & B2 & E2).
  assert (E' : (set_regs s rg2, e1 ++ e2, if negb (length b2 =? length addrs) then ReceiverUnavailable else Success) = (s1, ev1, r1)).
  { rewrite EQ in E. destruct addrs; [exact E|exact E] || exact E. }
  clear E EQ. injection E' as <- <- <-.
  assert (MB : forall a, mem a b1 = mem a addrs && is_busy (first n a)) by (intros a; rewrite B1; apply mem_filter).
  assert (N1 : NoDup b1) by (rewrite B1; apply NoDup_filter; exact AN).
  split; [|split; [|split; [|split]]].
  - intros a. rewrite !notes_app, notes_listeners, E1, E2, !notes_map by assumption. cbn [app m_code m_op m_pay m].
    rewrite MB, AD. destruct (mem o (get_or [] a (regs s))); cbn [andb]; [|reflexivity].
    unfold attempts. destruct (first n a); reflexivity.
  - intros a o'. cbn [regs set_regs]. unfold get_or at 1. rewrite G2, G1, MB, AD. rewrite stays_first. unfold get_or.
    destruct (mem o match get a (regs s) with Some v => v | None => [] end); cbn [andb]; [|reflexivity].
    destruct (first n a); cbn [is_busy is_gone andb negb]; try reflexivity.
    destruct (is_gone (second n a)); reflexivity.
  - rewrite B2, B1, filter_filter, filter_length_all. unfold all_busy.
    destruct (forallb _ addrs); reflexivity.
  - rewrite !LCA, LC, E1, E2, !LCS, !app_nil_r. reflexivity.
  - intros a m2 x J. rewrite <- AD. apply in_app_or in J as [J|J]; [exfalso; eapply INL; exact J|].
    rewrite E1, E2 in J. apply in_app_or in J as [J|J]; apply in_map_iff in J as (y & J & K); injection J as <- <- <-.
    + apply mem_in. exact K.
    + apply mem_in in K. rewrite MB in K. apply andb_prop in K as [K _]. exact K.
Qed.

Lemma ret_snd x : snd (ret x) = snd (fst x) ++ [EReturn (RStatus (snd x))].
Proof. destruct x as [[s e] a]. reflexivity. Qed.

Lemma step_subs n s x a : Inv s ->
  notes_to a (snd (step n s x)) = expected_notes (fun o => get_or None o (props s)) (reg s a) a n x /\
  (forall o, reg (fst (step n s x)) a o = sub_step a (fun o => get_or None o (props s)) (reg s a) (n, x) o).
Proof.
  intros I. unfold step. rewrite (inv_ub _ I). pose proof (inv_regs s I) as ND.
  assert (BC : forall s2 o c p, regs s2 = regs s -> c = StatusRegister \/ c = SignalRegister ->
     notes_to a (snd (ret (broadcast n s2 o c p))) = (if reg s a o then map (fun r => (c, o, p, r)) (attempts n a) else []) /\
     (forall o', reg (fst (ret (broadcast n s2 o c p))) a o' = if reg s a o then stays n a && reg s a o' else reg s a o')).
  { intros s2 o c p HR HC. rewrite ret_fst, ret_snd. destruct (broadcast n s2 o c p) as [[s1 e1] r1] eqn:B. cbn [fst snd].
    apply broadcast_lemma in B; [|rewrite HR; exact ND|exact HC]. destruct B as (B1 & B2 & _).
    assert (RR : forall a o, reg s2 a o = reg s a o) by (intros; unfold reg; rewrite HR; reflexivity).
    split; [rewrite notes_app, B1, RR; cbn; apply app_nil_r|]. intros o'. rewrite B2, !RR. reflexivity. }
  destruct x as [m|r p pa|r cb|o p|o|o nf|o p|o h|o|o l|o l| | |];
    cbn [expected_notes sub_step broadcasts]; try (cbn; auto; fail).
  - (* OIn *)
    unfold on_incoming. destruct (m_code m) eqn:C.
    + (* StatusRegister *)
      cbn [fst snd]. unfold update_latest, get_status. cbn [props save_register set_regs].
      split.
      * destruct (get_or None (m_op m) (props s)) as [p|]; cbn; [|destruct (Nat.eqb a (m_src m)); reflexivity].
        destruct (Nat.eqb_spec a (m_src m)); [|reflexivity]. rewrite C. subst. reflexivity.
      * intros o. unfold reg. cbn. rewrite get_or_put. destruct (Nat.eqb_spec a (m_src m)); [subst; apply mem_set_add|reflexivity].
    + split; [destruct (Nat.eqb a (m_src m)); reflexivity|].
      intros o. unfold reg. cbn. rewrite get_or_put. destruct (Nat.eqb_spec a (m_src m)); [subst; apply mem_set_add|reflexivity].
    + split; [destruct (Nat.eqb a (m_src m)); reflexivity|].
      intros o. unfold reg. cbn. rewrite get_or_put. destruct (Nat.eqb_spec a (m_src m)); [subst; apply mem_set_del|reflexivity].
    + split; [cbn; rewrite C; destruct (Nat.eqb a (m_src m)); reflexivity|]. intros o. destruct (Nat.eqb a (m_src m)); reflexivity.
    + unfold on_action_request. destruct (get (m_op m) (handlers s)); cbn; rewrite ?C;
        (split; [destruct (Nat.eqb a (m_src m)); reflexivity|intros o; destruct (Nat.eqb a (m_src m)); reflexivity]).
    + split; [|intros o]; destruct (Nat.eqb a (m_src m)); reflexivity.
    + unfold on_request_aborted. destruct (find_req s m) as [r|]; cbn.
      * unfold abort_event. destruct (nth_error _ r) as [q|]; [destruct (q_abort q)|]; cbn;
          (split; [destruct (Nat.eqb a (m_src m)); reflexivity|intros o; destruct (Nat.eqb a (m_src m)); reflexivity]).
      * split; [|intros o]; destruct (Nat.eqb a (m_src m)); reflexivity.
    + split; [|intros o]; destruct (Nat.eqb a (m_src m)); reflexivity.
    + split; [destruct (Nat.eqb a (m_src m)); reflexivity|].
      intros o. unfold reg. cbn. rewrite get_or_del. destruct (Nat.eqb a (m_src m)); reflexivity.
    + split; [|intros o]; destruct (Nat.eqb a (m_src m)); reflexivity.
    + split; [|intros o]; destruct (Nat.eqb a (m_src m)); reflexivity.
  - (* OReply *)
    destruct (nth_error (heap s) r) as [q|]; [|cbn; auto]. rewrite ret_fst, ret_snd. unfold reply.
    destruct (q_valid q); [|cbn; auto]. unfold respond_to_request.
    destruct pa; cbn [m_code opcode_eqb]; destruct (find_req s _); cbn; auto; destruct (Nat.eqb a (q_src q)); auto.
  - destruct (nth_error (heap s) r) as [q|]; [|cbn; auto]. destruct (q_valid q); cbn; auto.
  - (* OSetStatus *)
    unfold set_status. destruct (get_or None o (props s)) as [c|] eqn:G; cbn [differs].
    + destruct p as [x|].
      * destruct (payload_eqb c x); cbn [negb]; [cbn; auto|]. apply BC; [reflexivity|auto].
      * apply BC; [reflexivity|auto].
    + destruct p; apply BC; auto.
  - destruct nf; [apply BC; auto|cbn; auto].
  - destruct h as [h|]; [destruct (get o (handlers s))|]; cbn; auto.
  - rewrite deinit_eq. cbn [fst snd]. split; [|reflexivity].
    induction (all_pending s) as [|r l IH]; [reflexivity|]. cbn [flat_map]. rewrite notes_app, IH. unfold abort_of.
    destruct (cell s r) as [q|]; [|reflexivity]. destruct (q_abort q); reflexivity.
Qed.

Lemma sub_step_ext a v v' s s' nx o : (forall o, v o = v' o) -> (forall o, s o = s' o) ->
  sub_step a v s nx o = sub_step a v' s' nx o.
Proof.
  intros Hv Hs. destruct nx as [n x]. unfold sub_step, broadcasts.
  destruct x as [m|r p pa|r cb|o' p|o'|o' nf|o' p|o' h|o'|o' l|o' l| | |]; rewrite ?Hs; try reflexivity.
  - rewrite (Hv o'). destruct (v' o') as [c|]; [destruct p as [x|]; [destruct (payload_eqb c x)|]|]; rewrite ?Hs; reflexivity.
  - destruct nf; rewrite ?Hs; reflexivity.
Qed.

Lemma expected_notes_ext a v v' s s' n x : (forall o, v o = v' o) -> (forall o, s o = s' o) ->
  expected_notes v s a n x = expected_notes v' s' a n x.
Proof.
  intros Hv Hs. unfold expected_notes, broadcasts.
  destruct x as [m|r p pa|r cb|o' p|o'|o' nf|o' p|o' h|o'|o' l|o' l| | |]; rewrite ?Hs, ?Hv; try reflexivity.
  - destruct (v' o') as [c|]; [destruct p as [x|]; [destruct (payload_eqb c x)|]|]; rewrite ?Hs; reflexivity.
  - destruct nf; rewrite ?Hs; reflexivity.
Qed.

Lemma sub_fold_ext a : forall h v v' s s' o, (forall o, v o = v' o) -> (forall o, s o = s' o) ->
  sub_fold a v s h o = sub_fold a v' s' h o.
Proof.
  induction h as [|nx h IH]; intros v v' s s' o Hv Hs; [apply Hs|]. cbn. apply IH.
  - intros o'. rewrite Hv. reflexivity.
  - intros o'. apply sub_step_ext; assumption.
Qed.

Lemma sub_fold_snoc a : forall h v s nx o,
  sub_fold a v s (h ++ [nx]) o = sub_step a (fun o => fold_left (value_step o) (ops_of h) (v o)) (sub_fold a v s h) nx o.
Proof.
  induction h as [|y h IH]; intros v s nx o; [reflexivity|]. cbn [app sub_fold]. rewrite IH. reflexivity.
Qed.

Lemma subscribed_snoc h n x a o :
  subscribed (h ++ [(n, x)]) a o = sub_step a (value_after h) (subscribed h a) (n, x) o.
Proof. unfold subscribed. rewrite sub_fold_snoc. reflexivity. Qed.

Lemma final_subs h a o : reg (final h) a o = subscribed h a o.
Proof.
  revert o. induction h as [|[n x] h IH] using rev_ind; intros o; [reflexivity|].
  rewrite final_snoc, subscribed_snoc. destruct (step_subs n (final h) x a (final_inv h)) as [_ S]. rewrite S.
  destruct (final_tables h) as (_ & T & _). apply sub_step_ext; [exact T|exact IH].
Qed.

Lemma notes_lemma h a n x : notes_to a (next h n x) = expected_notes (value_after h) (subscribed h a) a n x.
Proof.
  unfold next. destruct (step_subs n (final h) x a (final_inv h)) as [S _]. rewrite S.
  destruct (final_tables h) as (_ & T & _). apply expected_notes_ext; [exact T|]. intros o. apply final_subs.
Qed.

(** ** Results of broadcasting calls *)
Lemma returned_snoc ev v : returned_value (ev ++ [EReturn v]) = Some v.
Proof. induction ev as [|e ev IH]; [reflexivity|]. destruct e; cbn; rewrite ?IH; reflexivity. Qed.

Lemma result_lemma h n x c o p : broadcasts (value_after h) x = Some (c, o, p) ->
  exists s2 s3 ev r, (forall a o', reg s2 a o' = subscribed h a o') /\ NoDup (keys (regs s2)) /\
    get_or [] o (listeners s2) = listening h o /\
    broadcast n s2 o c p = (s3, ev, r) /\ next h n x = ev ++ [EReturn (RStatus r)] /\ (c = StatusRegister \/ c = SignalRegister).
Proof.
  intros B. destruct (final_tables h) as (_ & T & L). pose proof (final_inv h) as I. unfold next, step. rewrite (inv_ub _ I).
  assert (K : forall s2, regs s2 = regs (final h) -> listeners s2 = listeners (final h) -> c = StatusRegister \/ c = SignalRegister ->
    exists s2' s3 ev r, (forall a o', reg s2' a o' = subscribed h a o') /\ NoDup (keys (regs s2')) /\
    get_or [] o (listeners s2') = listening h o /\
    broadcast n s2' o c p = (s3, ev, r) /\ snd (ret (broadcast n s2 o c p)) = ev ++ [EReturn (RStatus r)] /\ (c = StatusRegister \/ c = SignalRegister)).
  { intros s2 HR HL HC. destruct (broadcast n s2 o c p) as [[s3 ev] r] eqn:E. exists s2, s3, ev, r. rewrite HR, HL. repeat split; auto.
    - intros a o'. rewrite <- final_subs. unfold reg. rewrite HR. reflexivity.
    - apply inv_regs. exact I. }
  destruct x as [m|r p0 pa|r cb|o0 p0|o0|o0 nf|o0 p0|o0 h0|o0|o0 l|o0 l| | |]; try discriminate B.
  - cbn in B. unfold set_status. rewrite (T o0).
    destruct (value_after h o0) as [v|]; cbn [differs].
    + destruct p0 as [y|].
      * destruct (payload_eqb v y); [discriminate|]. injection B as <- <- <-. apply K; auto.
      * injection B as <- <- <-. apply K; auto.
    + destruct p0; injection B as <- <- <-; apply K; auto.
  - destruct nf; [|discriminate]. injection B as <- <- <-. apply K; auto.
  - injection B as <- <- <-. apply K; auto.
Qed.

Lemma attempts_busy n a : all_busy n a = true <-> attempts n a = [ReceiverBusy; ReceiverBusy].
Proof.
  unfold all_busy, attempts. destruct (first n a); cbn; try (split; discriminate). destruct (second n a); cbn; split; congruence.
Qed.

Lemma broadcast_result_lemma h n x c o p : broadcasts (value_after h) x = Some (c, o, p) ->
  (returned_value (next h n x) = Some (RStatus Success) /\
     forall a, subscribed h a o = true -> attempts n a = [ReceiverBusy; ReceiverBusy]) \/
  (returned_value (next h n x) = Some (RStatus ReceiverUnavailable) /\
     exists a, subscribed h a o = true /\ attempts n a <> [ReceiverBusy; ReceiverBusy]).
Proof.
  intros B. destruct (result_lemma h n x c o p B) as (s2 & s3 & ev & r & HR & ND & _ & EB & -> & HC).
  rewrite returned_snoc. apply broadcast_lemma in EB; [|exact ND|exact HC]. destruct EB as (_ & _ & -> & _).
  assert (AD := fun a => addresses_of_spec o (regs s2) a ND).
  destruct (forallb (all_busy n) (addresses_of o (regs s2))) eqn:F.
  - left. split; [reflexivity|]. intros a S. rewrite forallb_forall in F. apply attempts_busy. apply F. apply mem_in. rewrite AD.
    rewrite <- HR in S. exact S.
  - right. split; [reflexivity|].
    assert (X : exists a, In a (addresses_of o (regs s2)) /\ all_busy n a = false).
    { clear - F. induction (addresses_of o (regs s2)) as [|y l IH]; [discriminate|]. cbn in F. destruct (all_busy n y) eqn:E.
      - destruct (IH F) as (a & J & K). exists a. split; [right; exact J|exact K].
      - exists y. split; [left; reflexivity|exact E]. }
    destruct X as (a & J & K). exists a. split.
    + rewrite <- HR. unfold reg. rewrite <- AD. apply mem_in. exact J.
    + intros E. apply attempts_busy in E. congruence.
Qed.

Lemma listeners_lemma h n x :
  listener_calls (next h n x) =
  match broadcasts (value_after h) x with Some (_, o, p) => map (fun l => (l, p)) (listening h o) | None => [] end.
Proof.
  destruct (broadcasts (value_after h) x) as [[[c o] p]|] eqn:B.
  - destruct (result_lemma h n x c o p B) as (s2 & s3 & ev & r & HR & ND & HL & EB & -> & HC).
    apply broadcast_lemma in EB; [|exact ND|exact HC]. destruct EB as (_ & _ & _ & LC & _). rewrite <- HL, <- LC.
    clear. induction ev as [|e ev IH]; [reflexivity|]. destruct e; cbn; rewrite ?IH; reflexivity.
  - pose proof (final_inv h) as I. destruct (final_tables h) as (_ & T & _). unfold next, step. rewrite (inv_ub _ I).
    destruct x as [m|r p0 pa|r cb|o0 p0|o0|o0 nf|o0 p0|o0 h0|o0|o0 l|o0 l| | |]; try reflexivity.
    + unfold on_incoming. destruct (m_code m); try reflexivity.
      * cbn. unfold update_latest. destruct (get_status _ _); reflexivity.
      * unfold on_action_request. destruct (get _ _); reflexivity.
      * unfold on_request_aborted. destruct (find_req _ m); [|reflexivity]. cbn. unfold abort_event.
        destruct (nth_error _ _) as [q|]; [|reflexivity]. destruct (q_abort q); reflexivity.
    + destruct (nth_error _ r) as [q|]; [|reflexivity]. rewrite ret_snd. unfold reply. destruct (q_valid q); [|reflexivity].
      unfold respond_to_request. destruct pa; cbn [m_code opcode_eqb]; destruct (find_req _ _); reflexivity.
    + destruct (nth_error _ r) as [q|]; [|reflexivity]. destruct (q_valid q); reflexivity.
    + cbn in B. unfold set_status. rewrite (T o0).
      destruct (value_after h o0) as [v|]; [|destruct p0; discriminate]. destruct p0 as [y|]; [|discriminate]. cbn [differs].
      destruct (payload_eqb v y); [reflexivity|discriminate].
    + destruct nf; [discriminate|reflexivity].
    + discriminate.
    + destruct h0; [destruct (get _ _)|]; reflexivity.
    + rewrite deinit_eq. cbn. generalize (all_pending (final h)). intros l. induction l as [|r l IH]; [reflexivity|]. cbn.
      unfold abort_of at 1. destruct (cell (final h) r) as [q|]; [|exact IH]. destruct (q_abort q); exact IH.
Qed.

(** ** Reading values *)
Lemma get_status_lemma h n o : next h n (OGetStatus o) = [EReturn (RPayload (value_after h o))].
Proof.
  unfold next, step. rewrite (inv_ub _ (final_inv h)). destruct (final_tables h) as (_ & T & _). unfold get_status. rewrite T. reflexivity.
Qed.

Lemma status_get_lemma h n m : m_code m = StatusGet ->
  next h n (OIn m) = [ESend (m_src m) (Msg StatusGet (m_op m) (m_rid m) (value_after h (m_op m)) (m_src m)) (first n (m_src m));
                      EReturn (RBool true)].
Proof.
  intros C. unfold next, step. rewrite (inv_ub _ (final_inv h)). destruct (final_tables h) as (_ & T & _). unfold on_incoming. rewrite C.
  unfold get_status. rewrite T. unfold with_payload. cbn. rewrite C. reflexivity.
Qed.

Lemma set_unchanged_lemma h n o p : value_after h o = Some p ->
  next h n (OSetStatus o (Some p)) = [EReturn (RStatus NoAction)].
Proof.
  intros V. unfold next, step. rewrite (inv_ub _ (final_inv h)). destruct (final_tables h) as (_ & T & _). unfold set_status. rewrite T, V.
  cbn [differs]. destruct (payload_eqb_spec p p); [reflexivity|contradiction].
Qed.

(** ** Staying in step *)
Lemma view_from_app o l1 l2 : forall v, view_from v o (l1 ++ l2) = view_from (view_from v o l1) o l2.
Proof. induction l1 as [|[[[c o'] p] r] l1 IH]; intros v; [reflexivity|]. cbn. apply IH. Qed.

Lemma run_events_snoc h0 h n x : concat (snd (run (final h0) (h ++ [(n, x)]))) =
  concat (snd (run (final h0) h)) ++ next (h0 ++ h) n x.
Proof.
  rewrite run_app. cbn. unfold next, final. rewrite run_app. cbn.
  destruct (step n (fst (run (fst (run prov_new h0)) h)) x) as [s e]. cbn. rewrite concat_app. cbn. rewrite app_nil_r. reflexivity.
Qed.

Lemma value_after_snoc h n x o : value_after (h ++ [(n, x)]) o = value_step o (value_after h o) x.
Proof. unfold value_after. rewrite ops_snoc, fold_left_app. reflexivity. Qed.

Lemma in_step_lemma h1 n a o m h2 :
  m_code m = StatusRegister -> m_op m = o -> m_src m = a ->
  existsb (detaches a o) (ops_of h2) = false ->
  (forall n' x, In (n', x) h2 -> first n' a = Success) ->
  let h := (n, OIn m) :: h2 in
  subscribed (h1 ++ h) a o = true /\
  view_from None o (notes_to a (concat (snd (run (final h1) h)))) = value_after (h1 ++ h) o.
Proof.
  intros Cm Ho Ha. subst o a. cbn zeta. induction h2 as [|[n2 x] h2 IH] using rev_ind; intros D R.
  - assert (S : subscribed (h1 ++ [(n, OIn m)]) (m_src m) (m_op m) = true).
    { rewrite subscribed_snoc. cbn. rewrite Nat.eqb_refl, Cm, Nat.eqb_refl. reflexivity. }
    split; [exact S|]. pose proof (run_events_snoc h1 [] n (OIn m)) as RE. cbn [app] in RE. rewrite RE. cbn [concat run snd app]. rewrite app_nil_r, notes_lemma.
    cbn. rewrite Nat.eqb_refl, Cm. unfold value_after. rewrite ops_snoc, fold_left_app. cbn.
    fold (value_after h1 (m_op m)). destruct (value_after h1 (m_op m)); cbn; rewrite ?Nat.eqb_refl; reflexivity.
  - unfold ops_of in D. rewrite map_app, existsb_app in D. apply orb_false_iff in D as [D1 D2]. cbn in D2. rewrite orb_false_r in D2.
    destruct IH as [S V]; [exact D1|intros; eapply R; apply in_or_app; left; eassumption|].
    assert (R2 : first n2 (m_src m) = Success) by (eapply R; apply in_or_app; right; left; reflexivity).
    assert (ST : stays n2 (m_src m) = true) by (unfold stays, attempts; rewrite R2; reflexivity).
    change ((n, OIn m) :: h2 ++ [(n2, x)]) with (((n, OIn m) :: h2) ++ [(n2, x)]). rewrite app_assoc.
    rewrite run_events_snoc, notes_app, view_from_app, V, notes_lemma.
    set (h := h1 ++ (n, OIn m) :: h2) in *. set (a := m_src m) in *. set (o := m_op m) in *.
    rewrite subscribed_snoc, value_after_snoc.
    assert (BC : forall c o' p, broadcasts (value_after h) x = Some (c, o', p) ->
       view_from (value_after h o) o (if subscribed h a o' then map (fun r => (c, o', p, r)) (attempts n2 a) else []) =
         if opcode_eqb c StatusRegister && Nat.eqb o o' then p else value_after h o).
    { intros c o' p _. unfold attempts. rewrite R2. destruct (Nat.eqb_spec o o').
      - subst o'. rewrite S. cbn. rewrite Nat.eqb_refl. reflexivity.
      - rewrite andb_false_r. destruct (subscribed h a o'); [|reflexivity]. cbn. destruct (Nat.eqb_spec o o'); [contradiction|].
        rewrite andb_false_r. reflexivity. }
    unfold sub_step, expected_notes.
    destruct x as [m2|r p pa|r cb|o' p|o'|o' nf|o' p|o' h0|o'|o' l|o' l| | |]; cbn [broadcasts value_step]; rewrite ?S; auto.
    + destruct (Nat.eqb_spec a (m_src m2)); [|auto].
      cbn in D2. destruct (Nat.eqb_spec a (m_src m2)); [|contradiction]. cbn in D2.
      split.
      * destruct (m_code m2); cbn in D2; auto; try discriminate.
        -- rewrite orb_true_r. reflexivity.
        -- rewrite orb_true_r. reflexivity.
        -- rewrite D2. reflexivity.
      * destruct (m_code m2); cbn; auto. destruct (value_after h (m_op m2)) as [v|] eqn:E; [|reflexivity]. cbn.
        destruct (Nat.eqb_spec o (m_op m2)); [congruence|reflexivity].
    + destruct (broadcasts (value_after h) (OSetStatus o' p)) as [[[c o2] p2]|] eqn:B.
      * cbn [broadcasts] in B. rewrite B. specialize (BC c o2 p2 eq_refl). rewrite BC. split.
        -- destruct (subscribed h a o2); [rewrite ST|]; reflexivity.
        -- destruct (value_after h o') as [v|]; [destruct p as [y|]; [destruct (payload_eqb v y); [discriminate|]|]|destruct p];
             injection B as <- <- <-; reflexivity.
      * cbn [broadcasts] in B. rewrite B. split; [reflexivity|]. cbn. destruct (Nat.eqb_spec o o'); [|reflexivity]. subst o'.
        destruct (value_after h o) as [v|]; [|destruct p; discriminate]. destruct p as [y|]; [|discriminate].
        destruct (payload_eqb_spec v y); [congruence|discriminate].
    + destruct nf.
      * specialize (BC StatusRegister o' None eq_refl). rewrite BC. split; [|reflexivity]. destruct (subscribed h a o'); [rewrite ST|]; reflexivity.
      * cbn in D2. rewrite D2. auto.
    + specialize (BC SignalRegister o' p eq_refl). rewrite BC. split; [|reflexivity]. destruct (subscribed h a o'); [rewrite ST|]; reflexivity.
    + discriminate.
Qed.
