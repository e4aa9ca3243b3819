(** A request that could not be sent leaves no trace: the later behaviour is that of a requester that only used up an id. *)
From Verif Require Import ReqModel ReqSpec ReqProofs ReqInv ReqIds ReqOnce ReqDeliver ReqGone2 ReqSerial ReqSerSpec ReqSerial2 ReqSync2.
From Coq Require Import NArith Lia.

(** Equal up to how the request table represents "no request". *)
Definition same (s s' : rq) : Prop := exists x, s' = set_requests s x /\ forall k, get_or [] k x = rl s k.

Ltac back := repeat match goal with E : ?b = _ |- context [?b] => rewrite E end.
Lemma run1_same w al s s' t p s1 p1 e1 : same s s' -> run1 w al s t p = (s1, p1, e1) ->
  exists s1', run1 w al s' t p = (s1', p1, e1) /\ same s1 s1'.
Proof.
  intros (x & -> & Hx) R. unfold rl in Hx.
  assert (Dn : forall y, (forall k, get_or [] k y = get_or [] k (requests s1)) -> s1 = set_requests s1 (requests s1) -> same s1 (set_requests s1 y)).
  { intros y Hy _. exists y. split; [reflexivity|exact Hy]. }
  clear Dn. destruct p; cbn [run1] in R |- *;
    change (available (set_requests s x)) with (available s); change (status (set_requests s x)) with (status s);
    change (counter (set_requests s x)) with (counter s); change (registers (set_requests s x)) with (registers s);
    change (cache (set_requests s x)) with (cache s); change (promises (set_requests s x)) with (promises s);
    change (observers (set_requests s x)) with (observers s); change (subscribing (set_requests s x)) with (subscribing s);
    change (requests (set_requests s x)) with x;
    try solve [break_run; back; (eexists; split; [reflexivity|]); exists x; (split; [reflexivity|exact Hx])].
  - destruct c; try solve [break_run; back; (eexists; split; [reflexivity|]); first [exists x; (split; [reflexivity|exact Hx])|exists []; (split; [reflexivity|reflexivity])]].
  - break_run. eexists. split; [reflexivity|]. cbn. exists (fst (store_entry x o (Ent rid t k))). split; [reflexivity|].
    intros k'. unfold rl. cbn. rewrite !get_or_put, !Hx. reflexivity.
  - break_run. eexists. split; [reflexivity|]. exists (fst (remove_entry x o rid)). split; [reflexivity|].
    intros k'. unfold rl. cbn. rewrite !remove_entry_look, !Hx. reflexivity.
  - pose proof (erase_request_found (requests s) o rid) as F1. pose proof (erase_request_found x o rid) as F2. rewrite Hx in F2.
    pose proof (fun k => erase_request_look (requests s) o rid k) as L1. pose proof (fun k => erase_request_look x o rid k) as L2.
    cbn [requests set_requests] in *.
    destruct (erase_request (requests s) o rid) as [m1 f1], (erase_request x o rid) as [m2 f2]. cbn in F1, F2, L1, L2.
    assert (f2 = f1) as -> by congruence.
    destruct f1; injection R as <- <- <-; (eexists; split; [reflexivity|]); exists m2; (split; [reflexivity|]); intros k'; unfold rl; cbn; rewrite L1, L2, !Hx; reflexivity.
  - pose proof (erase_request_found (requests s) o rid) as F1. pose proof (erase_request_found x o rid) as F2. rewrite Hx in F2.
    pose proof (fun k => erase_request_look (requests s) o rid k) as L1. pose proof (fun k => erase_request_look x o rid k) as L2.
    cbn [requests set_requests] in *.
    destruct (erase_request (requests s) o rid) as [m1 f1], (erase_request x o rid) as [m2 f2]. cbn in F1, F2, L1, L2.
    assert (f2 = f1) as -> by congruence.
    destruct f1; injection R as <- <- <-; (eexists; split; [reflexivity|]); exists m2; (split; [reflexivity|]); intros k'; unfold rl; cbn; rewrite L1, L2, !Hx; reflexivity.
  - unfold cached in *. cbn in *. destruct (get o (cache s)) as [[q|]|]; injection R as <- <- <-; (eexists; split; [reflexivity|]); exists x; (split; [reflexivity|exact Hx]).
  - unfold cached in *. cbn in *. destruct (get o (cache s)) as [[q|]|]; destruct sync; injection R as <- <- <-; (eexists; split; [reflexivity|]); exists x; (split; [reflexivity|exact Hx]).
  - pose proof (take_request_found (requests s) (m_op m) (m_rid m) (is_partial (m_code m))) as F1.
    pose proof (take_request_found x (m_op m) (m_rid m) (is_partial (m_code m))) as F2. rewrite Hx in F2.
    pose proof (fun k => take_request_look (requests s) (m_op m) (m_rid m) (is_partial (m_code m)) k) as L1.
    pose proof (fun k => take_request_look x (m_op m) (m_rid m) (is_partial (m_code m)) k) as L2.
    cbn [requests set_requests] in *.
    destruct (take_request (requests s) (m_op m) (m_rid m) (is_partial (m_code m))) as [m1 f1], (take_request x (m_op m) (m_rid m) (is_partial (m_code m))) as [m2 f2].
    cbn in F1, F2, L1, L2. assert (f2 = f1) as -> by congruence.
    destruct (m_code m); injection R as <- <- <-; (eexists; split; [reflexivity|]);
      first [exists x; (split; [reflexivity|exact Hx])|exists m2; (split; [reflexivity|]); intros k'; unfold rl; cbn [requests set_requests]; rewrite L1, L2, !Hx; reflexivity].
  - destruct todo as [|y todo].
    + injection R as <- <- <-. eexists. split; [reflexivity|]. exists x. destruct keep; (split; [reflexivity|exact Hx]).
    + cbn in *. destruct (e_kind y); break_run; (eexists; split; [reflexivity|]); exists x; (split; [reflexivity|exact Hx]).
  - break_run. eexists. split; [reflexivity|]. exists []. split; reflexivity.
Qed.

Lemma existsb_look (m : amap (list entry)) t : NoDup (keys m) ->
  existsb (fun kv => has_promise t (snd kv)) m = true <-> exists k, has_promise t (get_or [] k m) = true.
Proof.
  intros ND. split.
  - intros H. apply existsb_exists in H as ([k l] & I & H). exists k. unfold get_or. rewrite (in_get _ _ _ ND I). exact H.
  - intros (k & H). unfold get_or in H. destruct (get k m) as [l|] eqn:G; [|discriminate]. apply get_in in G.
    apply existsb_exists. exists (k, l). auto.
Qed.

Lemma alive_same s s' th t : same s s' -> NoDup (keys (requests s)) -> NoDup (keys (requests s')) -> alive (St s th) t = alive (St s' th) t.
Proof.
  intros (x & -> & Hx) N1 N2. unfold alive. cbn in *. f_equal. apply Bool.eq_iff_eq_true.
  rewrite !existsb_look by assumption. split; intros (k & H); exists k; [rewrite Hx|unfold rl in Hx; rewrite Hx in H]; exact H.
Qed.

Lemma run_same h s s' th : same s s' -> NoDup (keys (requests s)) -> NoDup (keys (requests s')) ->
  snd (run (St s th) h) = snd (run (St s' th) h).
Proof.
  revert s s' th. induction h as [|l h IH]; intros s s' th S N1 N2; [reflexivity|].
  cbn [run]. unfold step. destruct l as [c|t w]; cbn [thr sh].
  - specialize (IH s s' (th ++ [PStart c]) S N1 N2). destruct (run (St s (th ++ [PStart c])) h), (run (St s' (th ++ [PStart c])) h). exact IH.
  - destruct (nth_error th t) as [p|] eqn:N.
    + rewrite <- (alive_same s s' th t S N1 N2).
      destruct (run1 w (alive (St s th) t) s t p) as [[s1 p1] e1] eqn:R.
      destruct (run1_same _ _ _ _ _ _ _ _ _ S R) as (s1' & R' & S1). rewrite R'.
      specialize (IH s1 s1' (set_nth t p1 th) S1 (run1_nodup _ _ _ _ _ _ _ _ R N1) (run1_nodup _ _ _ _ _ _ _ _ R' N2)).
      destruct (run (St s1 (set_nth t p1 th)) h), (run (St s1' (set_nth t p1 th)) h). cbn in *. rewrite IH. reflexivity.
    + specialize (IH s s' th S N1 N2). destruct (run (St s th) h), (run (St s' th) h). cbn in *. rewrite IH. reflexivity.
Qed.

(** The requester after merely using up one id. *)
Definition skip_id (s : rq) : rq := set_counter s ((counter s + 1) mod 2 ^ 64)%N.

Lemma ids_below h o e : few h -> In e (rl (sh (final h)) o) -> (e_id e < counter (sh (final h)))%N.
Proof.
  intros F I. destruct (i_req h (inv_final h) _ _ I) as [_ A]. destruct (a_cnt h (ainv h) F) as [-> M].
  apply in_allocs in A. apply (in_map snd) in A. rewrite M in A. apply in_map_iff in A as (n & E & In). apply in_seq in In. cbn in E. lia.
Qed.

Lemma remove_last rid l e : (forall x, In x l -> e_id x <> rid) -> e_id e = rid -> remove_id rid (l ++ [e]) = l.
Proof.
  intros H E. induction l as [|a l IH]; cbn.
  - rewrite E, N.eqb_refl. reflexivity.
  - destruct (N.eqb_spec (e_id a) rid) as [Ea|_]; [exfalso; exact (H a (or_introl eq_refl) Ea)|]. rewrite IH; [reflexivity|].
    intros x I. apply H. right. exact I.
Qed.

Lemma set_nth_end {A} (x y : A) l : set_nth (length l) x (l ++ [y]) = l ++ [x].
Proof. induction l as [|a l IH]; cbn; [reflexivity|rewrite IH; reflexivity]. Qed.
Lemma nth_end {A} (y : A) l : nth_error (l ++ [y]) (length l) = Some y.
Proof. induction l as [|a l IH]; cbn; auto. Qed.

Lemma step_end s th p w s' p' e : run1 w (alive (St s (th ++ [p])) (length th)) s (length th) p = (s', p', e) ->
  step (St s (th ++ [p])) (LRun (length th) w) = (St s' (th ++ [p']), e).
Proof. intros R. unfold step. cbn [thr sh]. rewrite nth_end, R, set_nth_end. reflexivity. Qed.

Lemma run_step s l h s1 e1 s2 e2 : step s l = (s1, e1) -> run s1 h = (s2, e2) -> run s (l :: h) = (s2, e1 ++ e2).
Proof. intros A B. cbn. rewrite A, B. reflexivity. Qed.

(** The failing call, run without interference. *)
Lemma failed_call h o pl hc w1 w2 w3 w4 w5 w6 : few h -> svc h = Available -> o_res w5 <> Success ->
  let t := length (calls h) in
  let h' := h ++ [LCall (CSendAsync o pl hc); LRun t w1; LRun t w2; LRun t w3; LRun t w4; LRun t w5; LRun t w6] in
  let rid := counter (sh (final h)) in
  trace h' = trace h ++ [EAlloc t rid; ESend t (Msg OpRequest o rid pl 0); ERet t (RVReg None (Some (o_res w5)))] /\
  thr (final h') = thr (final h) ++ [PDone] /\ same (skip_id (sh (final h))) (sh (final h')).
Proof.
  intros Fw Sv Ne t h' rid. rewrite <- svc_status in Sv.
  pose proof (few_counter h Fw) as Hc. pose proof (fun e => ids_below h o e Fw) as Hb.
  assert (Ht : t = length (thr (final h))) by (symmetry; apply (i_len h (inv_final h))).
  assert (X : exists s', run (final h) [LCall (CSendAsync o pl hc); LRun t w1; LRun t w2; LRun t w3; LRun t w4; LRun t w5; LRun t w6]
     = (St s' (thr (final h) ++ [PDone]), [EAlloc t rid; ESend t (Msg OpRequest o rid pl 0); ERet t (RVReg None (Some (o_res w5)))])
     /\ same (skip_id (sh (final h))) s').
  { rewrite Ht. clear h' Ht t. subst rid. destruct (final h) as [s th]. cbn [sh thr] in *.
    set (k := if hc then KUser else KNull). set (rid := counter s) in *.
    assert (Er : N.eqb rid rid_invalid = false) by (apply N.eqb_neq; exact Hc).
    assert (Av : available s = true) by (unfold available; rewrite Sv; reflexivity).
    set (s2 := set_requests (skip_id s) (fst (store_entry (requests s) o (Ent rid (length th) k)))).
    exists (set_requests s2 (fst (remove_entry (requests s2) o rid))). split.
    - apply (run_step (St s th) (LCall (CSendAsync o pl hc)) _ (St s (th ++ [PStart (CSendAsync o pl hc)])) [] _ _ eq_refl).
      eapply (run_step _ _ _ _ [] _ [_; _; _]); [apply (step_end s th _ w1 s (PAlloc OpRequest o pl k false) []); cbn [run1]; rewrite Av; reflexivity|].
      eapply (run_step _ _ _ _ [_] _ [_; _]); [apply (step_end s th _ w2 (skip_id s) (PStore OpRequest o pl k false rid) [EAlloc (length th) rid]); cbn [run1]; fold rid; rewrite Er; reflexivity|].
      eapply (run_step _ _ _ _ [] _ [_; _]); [apply (step_end (skip_id s) th _ w3 s2 (PSend OpRequest o pl k false rid) []); reflexivity|].
      eapply (run_step _ _ _ _ [_] _ [_]); [apply (step_end s2 th _ w4 s2 (PSent OpRequest o k false rid) [ESend (length th) (Msg OpRequest o rid pl 0)]); reflexivity|].
      eapply (run_step _ _ _ _ [] _ [_]); [apply (step_end s2 th _ w5 s2 (PUndo OpRequest o k rid (o_res w5)) []); cbn [run1]; destruct (o_res w5); try reflexivity; congruence|].
      eapply (run_step _ _ _ _ [_] _ []); [|reflexivity].
      apply (step_end s2 th _ w6 (set_requests s2 (fst (remove_entry (requests s2) o rid))) PDone); cbn [run1]; unfold k; destruct hc; reflexivity.
    - exists (fst (remove_entry (requests s2) o rid)). split; [reflexivity|].
      intros k'. rewrite remove_entry_look. unfold s2. cbn [requests set_requests store_entry fst]. rewrite !get_or_put, Nat.eqb_refl.
      unfold rl. cbn. destruct (Nat.eqb_spec k' o) as [->|]; [|reflexivity].
      apply remove_last; [|reflexivity]. intros e I E. specialize (Hb e I). lia. }
  destruct X as (s' & X & S). assert (Y : run st_new h' = (St s' (thr (final h) ++ [PDone]), trace h ++ [EAlloc t rid; ESend t (Msg OpRequest o rid pl 0); ERet t (RVReg None (Some (o_res w5)))])).
  { unfold h'. rewrite run_app. fold (final h) (trace h). rewrite X. reflexivity. }
  assert (Tr : trace h' = snd (run st_new h')) by reflexivity. assert (Fi : final h' = fst (run st_new h')) by reflexivity. rewrite Tr, Fi, Y. cbn. repeat split. exact S.
Qed.

Lemma failed_invisible h o pl hc w1 w2 w3 w4 w5 w6 h2 : few h -> svc h = Available -> o_res w5 <> Success ->
  let t := length (calls h) in
  let h' := h ++ [LCall (CSendAsync o pl hc); LRun t w1; LRun t w2; LRun t w3; LRun t w4; LRun t w5; LRun t w6] in
  snd (run (final h') h2) = snd (run (St (skip_id (sh (final h))) (thr (final h) ++ [PDone])) h2).
Proof.
  intros Fw Sv Ne t h'. destruct (failed_call h o pl hc w1 w2 w3 w4 w5 w6 Fw Sv Ne) as (_ & Th & S). fold t h' in Th, S.
  symmetry. pose proof (requests_nodup h'). destruct (final h') as [s' th']. cbn in Th, S, H. subst th'.
  apply run_same; [exact S|exact (requests_nodup h)|exact H].
Qed.
