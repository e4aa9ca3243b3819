(** The cached status, when the calls touching it do not overlap. *)
From Verif Require Import ReqModel ReqSpec ReqProofs ReqInv ReqIds ReqOnce ReqDeliver ReqDeliver2 ReqGone ReqGone2 ReqSubs ReqSerSpec ReqSerial ReqSerial2.
From Coq Require Import NArith.

(** A call of the class is running: no other one is. *)
Lemma serial_other f h t p c t2 p2 c2 : serial f h -> nth_error (thr (final h)) t = Some p -> call_of h t = Some c -> f c = true -> p <> PDone ->
  nth_error (thr (final h)) t2 = Some p2 -> call_of h t2 = Some c2 -> f c2 = true -> t2 <> t -> p2 = PDone.
Proof.
  intros S N C Fc P N2 C2 F2 Ne.
  assert (Split : forall h u c, call_of h u = Some c -> exists a b, h = a ++ LCall c :: b /\ u = length (calls a)).
  { clear. intros h. induction h as [|l h IH]; intros u c H; [destruct u; discriminate|]. destruct l as [c0|u0 w].
    - destruct u as [|u]; [injection H as ->; exists [], h; auto|]. destruct (IH u c H) as (a & b & -> & ->).
      exists (LCall c0 :: a), b. auto.
    - destruct (IH u c H) as (a & b & -> & ->). exists (LRun u0 w :: a), b. auto. }
  destruct (Nat.lt_total t2 t) as [L|[L|L]]; [|congruence|].
  - destruct (Split _ _ _ C) as (a & b & -> & ->).
    assert (C2' : call_of a t2 = Some c2).
    { unfold call_of in *. rewrite calls_app, nth_error_app1 in C2 by exact L. exact C2. }
    destruct (S a c b eq_refl Fc t2 c2 C2' F2) as (v & V).
    apply (in_trace_app _ (LCall c :: b)) in V. apply cnt_ret_of in V. congruence.
  - exfalso. apply P. destruct (Split _ _ _ C2) as (a & b & -> & ->).
    assert (C' : call_of a t = Some c).
    { unfold call_of in *. rewrite calls_app, nth_error_app1 in C by exact L. exact C. }
    destruct (S a c2 b eq_refl F2 t c C' Fc) as (v & V).
    apply (in_trace_app _ (LCall c2 :: b)) in V. apply cnt_ret_of in V. congruence.
Qed.

Definition thread_of (e : event) : nat :=
  match e with EAlloc u _ | ESend u _ | ECb u _ _ | EThrow u | EStatus u _ | ENotify u _ _ _ | ERet u _ => u end.
(** Events of call [t]. *)
Definition evs (h : history) (t : nat) : list event := filter (fun e => Nat.eqb (thread_of e) t) (trace h).

Lemma evs_own w al s t p s' p' e : run1 w al s t p = (s', p', e) -> filter (fun e => Nat.eqb (thread_of e) t) e = e.
Proof.
  intros R. assert (G := fun x => ev_thread _ _ _ _ _ _ _ _ x R). clear R. induction e as [|x e IH]; [reflexivity|]. cbn.
  rewrite IH by (intros y I; apply G; right; exact I). specialize (G x (or_introl eq_refl)).
  assert (thread_of x = t) as -> by (destruct x; exact G). rewrite Nat.eqb_refl. reflexivity.
Qed.
Lemma evs_other w al s t p s' p' e t' : run1 w al s t p = (s', p', e) -> t' <> t -> filter (fun e => Nat.eqb (thread_of e) t') e = [].
Proof.
  intros R H. assert (G := fun x => ev_thread _ _ _ _ _ _ _ _ x R). clear R. induction e as [|x e IH]; [reflexivity|]. cbn.
  rewrite IH by (intros y I; apply G; right; exact I). specialize (G x (or_introl eq_refl)).
  assert (thread_of x = t) as -> by (destruct x; exact G). destruct (Nat.eqb_spec t t'); [congruence|reflexivity].
Qed.
Lemma evs_fresh h t : length (calls h) <= t -> evs h t = [].
Proof.
  induction h as [|h c IH|h u w IH N F T|h u w p s' p' e IH N R F T] using hist_ind; intros H.
  - reflexivity.
  - unfold evs. rewrite trace_call. apply IH. rewrite calls_call, app_length in H. cbn in H. lia.
  - unfold evs. rewrite T. apply IH. rewrite calls_run in H. exact H.
  - rewrite calls_run in H. unfold evs. rewrite T, filter_app. change (filter _ (trace h)) with (evs h t). rewrite (IH H).
    apply (evs_other _ _ _ _ _ _ _ _ t R). apply nth_lt in N. rewrite (i_len h (inv_final h)) in N. lia.
Qed.

Lemma keep_false h t m l k : nth_error (thr (final h)) t = Some (PInRun m l k) -> m_code m <> StatusRegister -> k = false.
Proof.
  revert t m l k.
  induction h as [|h c IH|h t0 w IH N F T|h t0 w p s' p' e IH N R F T] using hist_ind; intros t m l k H M.
  - destruct t; discriminate.
  - rewrite snoc_call in H. cbn [thr] in H. rewrite nth_snoc in H. destruct (Nat.eqb _ _); [discriminate|]. eapply IH; eauto.
  - rewrite F in H. eapply IH; eauto.
  - rewrite F in H. cbn [thr] in H. rewrite (nth_set _ _ _ _ _ N) in H. destruct (Nat.eqb_spec t0 t) as [->|]; [|eapply IH; eauto].
    injection H as ->. destruct p; cbn in R; try solve [break_run; discriminate].
    + destruct (m_code m0) eqn:E; try (injection R as <- <- <- <- <-; congruence);
        destruct (take_request (requests (sh (final h))) (m_op m0) (m_rid m0) _); injection R as <- <- <- <- <-; reflexivity.
    + destruct todo as [|y todo]; [break_run; discriminate|]. eapply (IH t m (y :: todo)); [|exact M].
      destruct (e_kind y); break_run; try discriminate; congruence.
    + break_run; destruct new; discriminate.
Qed.

(** Following one call of a class whose calls do not overlap. *)
Lemma phase_f (f : call -> bool) (Q : rq -> pc -> list event -> Prop) c h1 :
  f c = true -> Q (sh (final h1)) (PStart c) [] ->
  (forall w al s p s' p' e L, fits c p -> run1 w al s (length (calls h1)) p = (s', p', e) -> p <> PDone ->
     (forall rid, pc_id p = Some rid -> rid <> rid_invalid) -> Q s p L -> Q s' p' (L ++ e)) ->
  (forall w al s u p s' p' e c' q L, fits c' p -> f c' = false -> run1 w al s u p = (s', p', e) ->
     (forall m l k, p = PInRun m l k -> m_code m <> StatusRegister -> k = false) -> Q s q L -> Q s' q L) ->
  (forall s s' L, Q s PDone L -> Q s' PDone L) ->
  forall h2, serial f (h1 ++ LCall c :: h2) ->
  exists p, nth_error (thr (final (h1 ++ LCall c :: h2))) (length (calls h1)) = Some p /\
    Q (sh (final (h1 ++ LCall c :: h2))) p (evs (h1 ++ LCall c :: h2) (length (calls h1))).
Proof.
  intros Fc Q0 Qs Qo Qd h2. set (t := length (calls h1)) in *.
  induction h2 as [|l h2 IH] using rev_ind; intros S.
  - exists (PStart c). split.
    + rewrite snoc_call. cbn [thr]. rewrite nth_snoc, (i_len h1 (inv_final h1)), Nat.eqb_refl. reflexivity.
    + unfold evs. rewrite trace_call, snoc_call. change (filter _ (trace h1)) with (evs h1 t). rewrite evs_fresh by (subst t; lia). exact Q0.
  - change (h1 ++ LCall c :: h2 ++ [l]) with (h1 ++ (LCall c :: h2) ++ [l]) in *. rewrite app_assoc in *.
    set (h := h1 ++ LCall c :: h2) in *. specialize (IH (serial_snoc _ _ _ S)). destruct IH as (p & N & IH).
    assert (Ct : call_of h t = Some c).
    { unfold h, t, call_of. rewrite calls_app, nth_error_app2 by lia. rewrite Nat.sub_diag. reflexivity. }
    destruct l as [c'|u w].
    + exists p. split.
      * rewrite snoc_call. cbn [thr]. rewrite nth_error_app1; [exact N|eapply nth_lt; exact N].
      * rewrite snoc_call. unfold evs. rewrite trace_call. exact IH.
    + destruct (nth_error (thr (final h)) u) as [q|] eqn:Nu.
      2:{ assert (Tr : trace (h ++ [LRun u w]) = trace h ++ []) by (rewrite trace_snoc; cbn; rewrite Nu; reflexivity).
          exists p. rewrite final_snoc. cbn. rewrite Nu. split; [exact N|].
          unfold evs. rewrite Tr, app_nil_r. exact IH. }
      destruct (run1 w (alive (final h) u) (sh (final h)) u q) as [[s' q'] e] eqn:R.
      assert (Tr : trace (h ++ [LRun u w]) = trace h ++ e) by (rewrite trace_snoc; cbn; rewrite Nu, R; reflexivity).
      assert (Fi : final (h ++ [LRun u w]) = St s' (set_nth u q' (thr (final h)))) by (rewrite final_snoc; cbn; rewrite Nu, R; reflexivity).
      destruct (i_fit h (inv_final h) _ _ Nu) as (cu & Cu & Fu).
      rewrite Fi. cbn [thr sh]. rewrite (nth_set _ _ _ _ _ Nu).
      assert (Ev : evs (h ++ [LRun u w]) t = evs h t ++ filter (fun e => Nat.eqb (thread_of e) t) e)
        by (unfold evs; rewrite Tr; apply filter_app).
      rewrite Ev.
      destruct (match p with PDone => true | _ => false end) eqn:Dp.
      { destruct p; try discriminate. destruct (Nat.eqb_spec u t) as [->|Hu].
        - rewrite N in Nu. injection Nu as <-. cbn in R. injection R as <- <- <-. exists PDone. split; [reflexivity|].
          cbn. rewrite app_nil_r. exact IH.
        - exists PDone. split; [exact N|]. rewrite (evs_other _ _ _ _ _ _ _ _ t R) by congruence. rewrite app_nil_r. eapply Qd; exact IH. }
      assert (Pd : p <> PDone) by (intros ->; discriminate).
      destruct (Nat.eqb_spec u t) as [->|Hu].
      * rewrite N in Nu. injection Nu as <-. rewrite Ct in Cu. injection Cu as <-. exists q'. split; [reflexivity|].
        rewrite (evs_own _ _ _ _ _ _ _ _ R). eapply Qs; eauto.
        intros rid E. eapply id_valid. eapply (i_id h (inv_final h)); eauto.
      * exists p. split; [exact N|]. rewrite (evs_other _ _ _ _ _ _ _ _ t R) by congruence. rewrite app_nil_r.
        destruct (f cu) eqn:Ru.
        -- assert (q = PDone) as -> by (eapply (serial_other f h t p c); eauto using serial_snoc). cbn in R. injection R as <- <- <-. exact IH.
        -- eapply Qo; eauto. intros m l k -> M. eapply keep_false; eauto.
Qed.

(** ** The cache *)
Definition cv (s : rq) (o : nat) : option (option payload) := get o (cache s).
Lemma reg_cache c : reg_call c = true -> cache_call c = true.
Proof. intros H. unfold cache_call. rewrite H. reflexivity. Qed.

Lemma lat_fst h o l x : fst (fold_left (lat_ev h o) l x) = fold_left (sub_ev h o) l (fst x).
Proof. revert x. induction l as [|e l IH]; intros x; [reflexivity|]. cbn [fold_left]. rewrite IH. reflexivity. Qed.
Lemma lat_snoc h l o ev : trace (h ++ [l]) = trace h ++ ev ->
  latest (h ++ [l]) o = snd (fold_left (lat_ev (h ++ [l]) o) ev (subs h o, latest h o)).
Proof.
  intros T. unfold latest at 1. rewrite T, fold_left_app. do 2 f_equal.
  rewrite (fold_ext _ (lat_ev h o)) by (intros x y I; apply lat_ev_app; exact I).
  rewrite (surjective_pairing (fold_left _ _ _)), lat_fst. reflexivity.
Qed.
Lemma lat_call h c o : latest (h ++ [LCall c]) o = latest h o.
Proof. rewrite (lat_snoc h (LCall c) o []); [reflexivity|]. rewrite trace_call, app_nil_r. reflexivity. Qed.

Definition H_ (o : nat) (c : call) (p : pc) (k l : option (option payload)) (sb : list N) : Prop :=
  match p with
  | PUnregCheck o' | PUnregSend o' => if Nat.eqb o' o then k = None else k = l
  | PInRun m _ keep =>
      k = l /\ match m_code m with
               | StatusRegister => Nat.eqb (m_op m) o = true -> keep = negb (match sb with [] => true | _ => false end)
               | _ => keep = false
               end
  | _ => k = l
  end.

(** Calls outside the class leave the cache alone. *)
Lemma cache_neutral c w al s t p s' p' e o : fits c p -> run1 w al s t p = (s', p', e) -> cache_call c = false ->
  (forall m l k, p = PInRun m l k -> m_code m <> StatusRegister -> k = false) -> cv s' o = cv s o.
Proof.
  intros F R G K. unfold cv.
  assert (Cc : forall o, cache (fst (cached s o)) = cache s) by (intros o1; unfold cached; destruct (get o1 (cache s)) as [[?|]|]; reflexivity).
  destruct p; cbn in R; cbn in F; try solve [break_run; reflexivity].
  - pose proof (Cc o0) as X. destruct (cached s o0) as [s1 [q|]]; cbn in X; break_run; rewrite X; reflexivity.
  - destruct F as (? & ->). discriminate.
  - subst c. discriminate.
  - pose proof (Cc o0) as X. destruct (cached s o0) as [s1 q]; cbn in X; destruct sync; break_run; rewrite X; reflexivity.
  - destruct todo; [|break_run; reflexivity]. subst c. cbn in G. 
    assert (m_code m <> StatusRegister) by (intros E; rewrite E in G; discriminate).
    rewrite (K _ _ _ eq_refl H) in R. break_run. reflexivity.
Qed.

Lemma lat_neutral h o c w al s t p s' p' e x : call_of h t = Some c -> fits c p -> run1 w al s t p = (s', p', e) -> cache_call c = false ->
  fold_left (lat_ev h o) e x = x.
Proof.
  intros C F R G.
  assert (Gr : reg_call c = false) by (unfold cache_call in G; apply orb_false_iff in G as [G _]; exact G).
  assert (H : forall y, In y e -> forall x, lat_ev h o x y = x).
  { intros y I [l k]. pose proof (ev_thread _ _ _ _ _ _ _ _ _ R I) as X. unfold lat_ev. cbn [fst snd].
    destruct y; try reflexivity; subst.
    - destruct (status_thread _ _ _ _ _ _ _ _ _ _ R I) as [_ (old & ->)]. cbn in F. subst c. discriminate.
    - cbn. rewrite C. destruct c; try reflexivity; try discriminate.
      destruct sid_ok; [|reflexivity]. cbn in G. destruct (m_code m); try reflexivity; discriminate. }
  clear R. revert x. induction e as [|y e IH]; intros x; [reflexivity|]. cbn. rewrite (H y (or_introl eq_refl)). apply IH. intros z I. apply H. right. exact I.
Qed.

Lemma cstep h t w al s p s' p' e c o L S : o <> 0 ->
  call_of h t = Some c -> cache_call c = true -> p <> PDone -> fits c p -> run1 w al s t p = (s', p', e) ->
  (if reg_call c then G o c p (map e_id (gl s o)) S else map e_id (gl s o) = S) ->
  H_ o c p (cv s o) L S ->
  (forall m l k y, p = PInRun m l k -> m_code m = StatusRegister -> In y l -> e_kind y = KUser) ->
  let x := fold_left (lat_ev h o) e (S, L) in
  if match p' with PDone => true | _ => false end then cv s' o = snd x else H_ o c p' (cv s' o) (snd x) (fst x).
Proof.
  intros Ho C Cc P F R HG HH KU x. subst x.
  assert (Ck : forall o, cv (fst (cached s o)) = cv s) by (intros o1; unfold cv, cached; destruct (get o1 (cache s)) as [[?|]|]; reflexivity).
  assert (Req : forall q, (exists code o pl k b, req_like c code o pl k b) -> q = p -> exists o, (c = CGetAsync o \/ exists b, c = CGetSync o b)).
  { intros q (code & o1 & pl & k & b & Q) _. destruct c; try contradiction; try discriminate Cc; eauto. }
  destruct p; cbn in F; try congruence.
  (* request steps, only for getStatus *)
  all: try match type of F with
    | req_like _ _ _ _ _ _ => destruct (Req _ ltac:(eauto 8) eq_refl) as (o1 & [->|(b1 & ->)])
    | exists _, req_like _ _ _ _ _ _ => destruct F as (? & F); destruct (Req _ ltac:(eauto 8) eq_refl) as (o1 & [->|(b1 & ->)])
    | exists _ _, req_like _ _ _ _ _ _ => destruct F as (? & ? & F); destruct (Req _ ltac:(eauto 8) eq_refl) as (o1 & [->|(b1 & ->)])
    | (exists _ _, req_like _ _ _ _ _ _) /\ _ => destruct F as ((? & ? & F) & _); destruct (Req _ ltac:(eauto 8) eq_refl) as (o1 & [->|(b1 & ->)])
    end.
  all: clear Req.
  all: try match goal with H : exists _, _ |- _ => destruct H as (? & ->) | H : (exists _, _) /\ _ |- _ => destruct H as [(? & ->) ?] end.
  all: try match goal with H : _ = _ /\ _ |- _ => destruct H as [-> ?] end.
  all: try match goal with H : if ?b then exists _, _ else _ |- _ => destruct b; [destruct H as (? & ->)|] end.
  all: try subst c; try discriminate Cc.
  all: cbn [reg_call] in HG; cbn in R; cbn [H_] in HH.
  all: try solve [break_run; cbn; rewrite ?C; cbn; auto].
  - destruct c0; try discriminate Cc; try (break_run; cbn; rewrite ?C; cbn; auto; fail).
    destruct sid_ok; [|discriminate Cc]. cbn in Cc. destruct (m_code m) eqn:M; try discriminate Cc. break_run. cbn. exact HH.
  - pose proof (Ck o0) as X. destruct (cached s o0) as [s1 [q|]]; cbn in X; break_run; cbn; rewrite ?C, X; cbn; auto.
    all: destruct (if regid_ok rid o0 then Some (rid, o0) else None) as [[? ?]|]; exact HH.
  - destruct HG as [HG Hr].
    assert (X : snd (remove_entry (registers s) o0 rid) = length (remove_id rid (gl s o0))).
    { unfold remove_entry, gl, get_or. destruct (get o0 (registers s)) as [l|]; [|reflexivity]. destruct (remove_id rid l); reflexivity. }
    destruct (remove_entry (registers s) o0 rid) as [m n]. cbn in X. subst n.
    destruct (Nat.eqb_spec (length (remove_id rid (gl s o0))) 0) as [Z|Z]; break_run; cbn; [exact HH|]. rewrite C. cbn.
    destruct (Nat.eqb_spec o0 o) as [->|]; cbn; [|exact HH].
    rewrite <- HG, <- map_remove. destruct (remove_id rid (gl s o)); [cbn in Z; congruence|exact HH].
  - break_run. cbn. unfold cv in *. cbn. destruct (Nat.eqb_spec o0 o) as [->|]; [rewrite get_del, Nat.eqb_refl; reflexivity|].
    rewrite get_del. destruct (Nat.eqb_spec o o0); [congruence|exact HH].
  - unfold G in HG. break_run; cbn; [exact HH|]. rewrite C. cbn. destruct (Nat.eqb_spec o0 o) as [->|]; cbn; [|exact HH].
    destruct HG as [_ (r & Er & _ & X)]. injection Er as ->. rewrite X. exact HH.
  - unfold G in HG. break_run; cbn. rewrite C. cbn. destruct (Nat.eqb_spec o0 o) as [->|]; cbn; [|exact HH].
    destruct HG as [_ (r & Er & _ & X)]. injection Er as ->. rewrite X. exact HH.
  - break_run. cbn. rewrite C. cbn. unfold cv in *. cbn. destruct (Nat.eqb_spec o0 o) as [->|]; [rewrite get_del, Nat.eqb_refl; reflexivity|].
    rewrite get_del. destruct (Nat.eqb_spec o o0); [congruence|exact HH].
  - pose proof (Ck o0) as X. destruct (cached s o0) as [s1 q]; cbn in X; break_run; cbn; rewrite C, X; exact HH.
  - pose proof (Ck o0) as X. destruct (cached s o0) as [s1 q]; cbn in X; break_run; cbn; rewrite ?C, X; exact HH.
  - cbn in Cc. destruct (m_code m) eqn:M; try discriminate Cc. break_run. cbn. split; [exact HH|]. rewrite M. intros E. apply Nat.eqb_eq in E.
    rewrite E. unfold cv in HH. rewrite <- HG. change (get_or [] o (registers s)) with (gl s o). destruct (gl s o); reflexivity.
  - cbn in Cc. destruct (m_code m) eqn:M; try discriminate Cc. destruct HH as [HH K]. destruct todo as [|y todo].
    + break_run. cbn. rewrite C. cbn. rewrite M. destruct (Nat.eqb_spec (m_op m) o) as [E|E]; cbn [andb].
      * rewrite (K eq_refl). destruct S; cbn; [exact HH|]. unfold cv. cbn. rewrite E. apply get_put_same.
      * destruct keep; cbn; [|exact HH]. unfold cv in *. cbn. rewrite get_put_other by congruence. exact HH.
    + rewrite (KU _ _ _ y eq_refl M (or_introl eq_refl)) in R. break_run. cbn. split; [exact HH|]. rewrite M. exact K.
  - break_run. destruct new; cbn; exact HH.
  - break_run. rewrite fold_left_app. 
    assert (X : forall l a, fold_left (lat_ev h o) (map (fun x => ENotify t x old new) l) a = a).
    { induction l as [|y l IH]; intros [a b]; [reflexivity|]. cbn. apply IH. }
    rewrite X. cbn. rewrite C. exact HH.
Qed.

Definition CInv (h : history) (o : nat) : Prop :=
  (forall t p c, nth_error (thr (final h)) t = Some p -> call_of h t = Some c -> cache_call c = true -> p <> PDone ->
     H_ o c p (cv (sh (final h)) o) (latest h o) (subs h o)) /\
  ((forall t p c, nth_error (thr (final h)) t = Some p -> call_of h t = Some c -> cache_call c = true -> p = PDone) ->
   cv (sh (final h)) o = latest h o).

Lemma pdone_dec p : p = PDone \/ p <> PDone.
Proof. destruct p; auto; right; discriminate. Qed.

Lemma sinv_tables h : SInv h ->
  (forall t p c, nth_error (thr (final h)) t = Some p -> call_of h t = Some c -> reg_call c = true -> p = PDone) ->
  forall o, o <> 0 -> map e_id (gl (sh (final h)) o) = subs h o.
Proof. intros [(t & p & c & A & B & Q & D & _)|[_ H]] X; [exfalso; apply D; eapply X; eauto|exact H]. Qed.

Lemma serial_cinv h o : o <> 0 -> serial cache_call h -> CInv h o.
Proof.
  intros Ho. induction h as [|h c IH|h t w IH N F T|h t w p s' p' e IH N R F T] using hist_ind; intros S.
  - split; [intros [|t] p c H; discriminate|reflexivity].
  - specialize (IH (serial_snoc _ _ _ S)). destruct IH as [I1 I2].
    assert (Old : forall t p c', nth_error (thr (final (h ++ [LCall c]))) t = Some p -> call_of (h ++ [LCall c]) t = Some c' ->
       nth_error (thr (final h)) t = Some p /\ call_of h t = Some c' \/ t = length (calls h) /\ p = PStart c /\ c' = c).
    { intros t p c' A B. rewrite snoc_call in A. cbn [thr] in A. rewrite nth_snoc, (i_len h (inv_final h)) in A. rewrite call_of_call in B.
      destruct (Nat.eqb_spec t (length (calls h))); [right|left; auto]. injection A as <-. injection B as <-. auto. }
    assert (New : forall t p c', nth_error (thr (final h)) t = Some p -> call_of h t = Some c' ->
       nth_error (thr (final (h ++ [LCall c]))) t = Some p /\ call_of (h ++ [LCall c]) t = Some c').
    { intros t p c' A B. split; [|apply call_of_app; exact B]. rewrite snoc_call. cbn [thr]. rewrite nth_error_app1; [exact A|eapply nth_lt; exact A]. }
    split.
    + intros t p c' A B Q D. rewrite snoc_call. cbn [sh]. rewrite lat_call, subs_call.
      destruct (Old _ _ _ A B) as [[A' B']|(-> & -> & ->)]; [eapply I1; eauto|]. cbn. apply I2.
      intros t2 p2 c2 A2 B2 Q2. destruct (S h c [] eq_refl Q t2 c2 B2 Q2) as (v & V). apply cnt_ret_of in V. congruence.
    + intros X. rewrite snoc_call. cbn [sh]. rewrite lat_call. apply I2. intros t p c' A B Q. destruct (New _ _ _ A B) as [A' B']. eapply X; eauto.
  - specialize (IH (serial_snoc _ _ _ S)). destruct IH as [I1 I2].
    assert (Sb : subs (h ++ [LRun t w]) o = subs h o).
    { rewrite (subs_snoc h (LRun t w) o []); [reflexivity|]. rewrite T, app_nil_r. reflexivity. }
    assert (Lt : latest (h ++ [LRun t w]) o = latest h o).
    { rewrite (lat_snoc h (LRun t w) o []); [reflexivity|]. rewrite T, app_nil_r. reflexivity. }
    split.
    + intros u p c A B. rewrite F in *. rewrite call_of_run in B. rewrite Sb, Lt. eapply I1; eauto.
    + intros X. rewrite F in *. rewrite Lt. apply I2. intros u p c A B. eapply X; [exact A|]. rewrite call_of_run. exact B.
  - assert (S0 := serial_snoc _ _ _ S). specialize (IH S0). destruct IH as [I1 I2].
    destruct (i_fit h (inv_final h) _ _ N) as (c & C & Fc).
    assert (C' : call_of (h ++ [LRun t w]) t = Some c) by (rewrite call_of_run; exact C).
    pose proof (subs_snoc h (LRun t w) o e T) as Sb. pose proof (lat_snoc h (LRun t w) o e T) as Lt.
    assert (Sf : subs (h ++ [LRun t w]) o = fst (fold_left (lat_ev (h ++ [LRun t w]) o) e (subs h o, latest h o))) by (rewrite lat_fst; exact Sb).
    assert (Rs : serial reg_call h) by (eapply serial_mono; [exact reg_cache|exact S0]).
    destruct (cache_call c) eqn:Cc.
    + destruct (pdone_dec p) as [->|Pd].
      { cbn in R. injection R as <- <- <-. cbn in Lt, Sf, Sb.
        assert (FF : final (h ++ [LRun t w]) = final h).
        { rewrite F. rewrite set_nth_same by exact N. destruct (final h); reflexivity. }
        split.
        - intros u p c2 A B. rewrite FF in *. rewrite call_of_run in B. rewrite Lt, Sb. eapply I1; eauto.
        - intros X. rewrite FF in *. rewrite Lt. apply I2. intros u p c2 A B. eapply X; [exact A|]. rewrite call_of_run. exact B. }
      assert (Oth : forall t2 p2 c2, nth_error (thr (final h)) t2 = Some p2 -> call_of h t2 = Some c2 -> cache_call c2 = true -> t2 <> t -> p2 = PDone).
      { intros. eapply (serial_other cache_call h t p c); eauto. }
      assert (X := cstep (h ++ [LRun t w]) t w _ _ p s' p' e c o (latest h o) (subs h o) Ho C' Cc Pd Fc R).
      assert (Y : if reg_call c then G o c p (map e_id (gl (sh (final h)) o)) (subs h o) else map e_id (gl (sh (final h)) o) = subs h o).
      { destruct (reg_call c) eqn:Rc; [eapply sinv_quiet; eauto using serial_sinv|]. apply sinv_tables; [apply serial_sinv; exact Rs| |exact Ho].
        intros t2 p2 c2 A B Q. destruct (Nat.eq_dec t2 t) as [->|]; [congruence|]. eapply Oth; eauto using reg_cache. }
      specialize (X Y (I1 _ _ _ N C Cc Pd)).
      assert (KU : forall m l k y, p = PInRun m l k -> m_code m = StatusRegister -> In y l -> e_kind y = KUser).
      { intros m l k y -> M I. pose proof (i_run h (inv_final h) _ _ _ _ _ N I) as Z. unfold run_ok in Z. rewrite M in Z. apply Z. }
      specialize (X KU). cbn zeta in X. rewrite <- Lt, <- Sf in X.
      split.
      * intros u q c2 A B Q D. rewrite F in *. cbn [thr sh] in *. rewrite (nth_set _ _ _ _ _ N) in A. rewrite call_of_run in B.
        destruct (Nat.eqb_spec t u) as [->|]; [|exfalso; apply D; eapply Oth; eauto].
        injection A as ->. rewrite C in B. injection B as <-. destruct q; exact X.
      * intros Z. rewrite F in *. cbn [thr sh] in *.
        assert (p' = PDone) as ->. { eapply (Z t); [rewrite (nth_set _ _ _ _ _ N), Nat.eqb_refl; reflexivity|exact C'|exact Cc]. }
        exact X.
    + assert (Cn : cv s' o = cv (sh (final h)) o).
      { eapply cache_neutral; eauto. intros m l k -> M. eapply keep_false; eauto. }
      rewrite (lat_neutral _ o c _ _ _ _ _ _ _ _ _ C' Fc R Cc) in Lt, Sf. cbn in Lt, Sf.
      split.
      * intros u q c2 A B Q D. rewrite F in *. cbn [thr sh] in *. rewrite (nth_set _ _ _ _ _ N) in A. rewrite call_of_run in B.
        destruct (Nat.eqb_spec t u) as [->|]; [congruence|]. rewrite Lt, Sf, Cn. eapply I1; eauto.
      * intros Z. rewrite F in *. cbn [thr sh] in *. rewrite Lt, Cn. apply I2. intros u q c2 A B Q.
        eapply (Z u); [|rewrite call_of_run; exact B|exact Q]. rewrite (nth_set _ _ _ _ _ N). destruct (Nat.eqb_spec t u) as [->|]; [congruence|exact A].
Qed.

(** ** Reading it *)
Lemma registers_neutral c w al s t p s' p' e : fits c p -> run1 w al s t p = (s', p', e) -> reg_call c = false -> registers s' = registers s.
Proof.
  intros F R G. 
  assert (Cc : forall o, registers (fst (cached s o)) = registers s) by (intros o1; unfold cached; destruct (get o1 (cache s)) as [[?|]|]; reflexivity).
  destruct p; cbn in R; cbn in F;
    try solve [exfalso; repeat match goal with H : exists _, _ |- _ => destruct H | H : _ /\ _ |- _ => destruct H end; subst; discriminate];
    try solve [break_run; reflexivity].
  - pose proof (Cc o) as X. destruct (cached s o) as [s1 q]; cbn in X; destruct sync; break_run; rewrite X; reflexivity.
  - destruct todo; break_run; try destruct keep; reflexivity.
Qed.

Lemma reg_nonempty h o : get o (registers (sh (final h))) <> Some [].
Proof.
  revert o. induction h as [|h c IH|h t w IH N F T|h t w p s' p' e IH N R F T] using hist_ind; intros o'.
  - discriminate.
  - rewrite snoc_call. apply IH.
  - rewrite F. apply IH.
  - rewrite F. cbn [sh].
    assert (Rm : forall o rid, get o' (fst (remove_entry (registers (sh (final h))) o rid)) <> Some []).
    { intros o rid. unfold remove_entry. destruct (get o (registers (sh (final h)))) as [l|]; [|apply IH].
      destruct (remove_id rid l) eqn:E; cbn [fst]; [rewrite get_del|rewrite get_put]; destruct (Nat.eqb o' o); try discriminate; apply IH. }
    assert (Cc : forall s o, registers (fst (cached s o)) = registers s) by (intros s1 o1; unfold cached; destruct (get o1 (cache s1)) as [[?|]|]; reflexivity).
    destruct p; cbn in R; try solve [break_run; apply IH].
    + break_run; cbn; rewrite get_put; destruct (Nat.eqb o' o); try apply IH; destruct (get_or [] o (registers (sh (final h)))); discriminate.
    + break_run. apply Rm.
    + pose proof (Cc (sh (final h)) o) as X. destruct (cached (sh (final h)) o) as [s1 [q|]]; cbn in X; break_run; rewrite X; apply IH.
    + specialize (Rm o rid). destruct (remove_entry (registers (sh (final h))) o rid) as [m n]. break_run; exact Rm.
    + break_run. cbn. rewrite get_del. destruct (Nat.eqb o' o); [discriminate|apply IH].
    + pose proof (Cc (sh (final h)) o) as X. destruct (cached (sh (final h)) o) as [s1 q]; cbn in X; destruct sync; break_run; rewrite X; apply IH.
    + destruct todo; break_run; try destruct keep; apply IH.
    + break_run. discriminate.
Qed.

Lemma idle_done f h t p c : idle f h -> nth_error (thr (final h)) t = Some p -> call_of h t = Some c -> f c = true -> p = PDone.
Proof. intros I N C F. destruct (I _ _ C F) as (v & V). apply cnt_ret_of in V. congruence. Qed.

Lemma idle_state h o : o <> 0 -> serial cache_call h -> idle cache_call h ->
  map e_id (gl (sh (final h)) o) = subs h o /\ cv (sh (final h)) o = latest h o /\ status (sh (final h)) = svc h /\
  subscribing (sh (final h)) o = negb (match subs h o with [] => true | _ => false end).
Proof.
  intros Ho S I.
  assert (G1 : map e_id (gl (sh (final h)) o) = subs h o).
  { apply sinv_tables; [apply serial_sinv; eapply serial_mono; [exact reg_cache|exact S]| |exact Ho].
    intros t p c N C R. eapply idle_done; eauto using reg_cache. }
  split; [exact G1|]. split.
  { apply serial_cinv; [exact Ho|exact S|]. intros t p c N C R. eapply idle_done; eauto. }
  split; [apply svc_status|]. rewrite <- G1. unfold subscribing, gl, get_or. pose proof (reg_nonempty h o) as X.
  destruct (get o (registers (sh (final h)))) as [[|]|]; [congruence|reflexivity|reflexivity].
Qed.

Definition flat (x : option (option payload)) : option payload := match x with Some (Some p) => Some p | _ => None end.
Lemma cached_flat s o : snd (cached s o) = flat (cv s o).
Proof. unfold cached, cv. destruct (get o (cache s)) as [[?|]|]; reflexivity. Qed.

(** What a getStatus or a late registration does. *)
Definition get_spec (c : call) (o t : nat) (a : acs) (p : option payload) (L : list event) : Prop :=
  match c with
  | CGetSync _ _ => L = [ERet t (RVPay p (Some a))]
  | _ => L = [ECb t t p; ERet t (RVStatus a)]
  end.

Lemma get_known h1 h2 c o : o <> 0 -> (c = CGetAsync o \/ exists b, c = CGetSync o b) ->
  let h := h1 ++ LCall c :: h2 in let t := length (calls h1) in
  serial cache_call h -> returned h t ->
  (svc h1 = Available -> subs h1 o <> []) ->
  get_spec c o t (if avail_eqb (svc h1) Available then Success else ServiceUnavailable) (flat (latest h1 o)) (evs h t).
Proof.
  intros Ho Hc h t S (v & V) Sub.
  assert (Cc : cache_call c = true) by (destruct Hc as [->|(b & ->)]; reflexivity).
  assert (Id : idle cache_call h1) by (exact (S h1 c h2 eq_refl Cc)).
  assert (S1 : serial cache_call h1). { intros a c' b E. apply (S a c' (b ++ LCall c :: h2)). unfold h. rewrite E, <- app_assoc. reflexivity. }
  destruct (idle_state h1 o Ho S1 Id) as (_ & K & A & B).
  set (a0 := if avail_eqb (svc h1) Available then Success else ServiceUnavailable).
  set (Q := fun s p (L : list event) =>
    match p with
    | PDone => get_spec c o t a0 (flat (latest h1 o)) L
    | PGetCall a p => L = [] /\ a = a0 /\ p = flat (latest h1 o)
    | _ =>
        cv s o = latest h1 o /\ status s = svc h1 /\ (svc h1 = Available -> subscribing s o = true) /\ L = [] /\
        match p with PStart _ => True | PGetSub _ _ _ => svc h1 = Available | PGetCached _ a _ => a = a0 | _ => False end
    end).
  destruct (phase_f cache_call Q c h1 Cc) with (h2 := h2) as (p & N & H).
  - unfold Q. repeat split; auto. intros X. rewrite B. specialize (Sub X). destruct (subs h1 o); [congruence|reflexivity].
  - fold t. intros w al s p s' p' e L F R P _ HQ.
    assert (Ck : snd (cached s o) = flat (cv s o)) by apply cached_flat.
    assert (Ck2 : cv (fst (cached s o)) o = cv s o) by (unfold cached; destruct (get o (cache s)) as [[?|]|]; reflexivity).
    destruct p; try solve [exfalso; destruct HQ as (_ & _ & _ & _ & [])]; cbn in F; try congruence; cbn in R.
    + subst c0. destruct HQ as (K1 & A1 & B1 & -> & _).
      assert (Av : available s = avail_eqb (svc h1) Available). { unfold available. rewrite A1. destruct (svc h1); reflexivity. }
      destruct Hc as [->|(b & ->)]; rewrite Av in R; unfold a0 in *; destruct (svc h1) eqn:Sv; cbn in R; break_run; cbn; repeat split; auto; try congruence.
    + destruct HQ as (K1 & A1 & B1 & -> & Y). destruct F as [F _].
      assert (o0 = o) as ->. { destruct Hc as [->|(b' & ->)]; destruct sync; congruence. }
      rewrite (B1 Y) in R. break_run. cbn. unfold a0. rewrite Y. repeat split; auto. congruence.
    + destruct HQ as (K1 & A1 & B1 & -> & ->).
      assert (o0 = o) as ->. { destruct sync; [destruct F as (b' & F)|]; destruct Hc as [->|(b & ->)]; congruence. }
      destruct (cached s o) as [s1 q]. cbn in Ck, Ck2. rewrite Ck, K1 in R.
      destruct sync; break_run; cbn; [|auto]. destruct F as (b' & ->). reflexivity.
    + destruct HQ as (-> & -> & ->). destruct F as (o1 & ->). break_run. reflexivity.
  - intros w al s u p s' p' e c' q L F G R KF HQ.
    assert (Rg : registers s' = registers s). { eapply registers_neutral; eauto. unfold cache_call in G. apply orb_false_iff in G as [G _]. exact G. }
    assert (Cg : cv s' o = cv s o) by (eapply cache_neutral; eauto).
    assert (Sg : status s' = status s).
    { rewrite (run1_status _ _ _ _ _ _ _ _ R). eapply svc_neutral; eauto. unfold cache_call in G. apply orb_false_iff in G as [G _]. exact G. }
    assert (Su : subscribing s' o = subscribing s o) by (unfold subscribing; rewrite Rg; reflexivity).
    unfold Q in *. destruct q; try exact HQ; rewrite Cg, Sg, Su; exact HQ.
  - auto.
  - exact S.
  - fold h in N, H. fold t in N, H. rewrite (done_of_ret _ _ _ V) in N. injection N as <-. exact H.
Qed.

(** A status subscriber that is not the first one. *)
Lemma late_subscriber h1 h2 o : o <> 0 -> let h := h1 ++ LCall (CReg true o true) :: h2 in let t := length (calls h1) in
  serial cache_call h -> returned h t -> svc h1 = Available -> subs h1 o <> [] ->
  exists rid, evs h t = EAlloc t rid :: (match flat (latest h1 o) with Some p => [ECb t t (Some p)] | None => [] end)
                        ++ [ERet t (RVReg (Some (rid, o)) (Some Success))].
Proof.
  intros Ho h t S (v & V) Av Sub.
  assert (Id : idle cache_call h1) by (exact (S h1 _ h2 eq_refl eq_refl)).
  assert (S1 : serial cache_call h1). { intros a c' b E. apply (S a c' (b ++ LCall (CReg true o true) :: h2)). unfold h. rewrite E, <- app_assoc. reflexivity. }
  destruct (idle_state h1 o Ho S1 Id) as (G1 & K & A & _).
  assert (Gn : gl (sh (final h1)) o <> []) by (intros E; rewrite E in G1; cbn in G1; congruence).
  set (Q := fun s p (L : list event) =>
    match p with
    | PDone => exists rid, L = EAlloc t rid :: (match flat (latest h1 o) with Some p => [ECb t t (Some p)] | None => [] end)
                        ++ [ERet t (RVReg (Some (rid, o)) (Some Success))]
    | PRegCall _ rid p => rid <> rid_invalid /\ L = [EAlloc t rid] /\ flat (latest h1 o) = Some p
    | _ =>
        cv s o = latest h1 o /\ status s = Available /\ gl s o <> [] /\
        match p with PStart _ | PRegAlloc _ _ => L = [] | PRegStore _ _ rid | PRegCached _ rid => rid <> rid_invalid /\ L = [EAlloc t rid] | _ => False end
    end).
  destruct (phase_f cache_call Q (CReg true o true) h1 eq_refl) with (h2 := h2) as (p & N & H).
  - unfold Q. repeat split; auto. congruence.
  - fold t. intros w al s p s' p' e L F R P Vi HQ.
    assert (Ck : snd (cached s o) = flat (cv s o)) by apply cached_flat.
    assert (Ro : forall r, r <> rid_invalid -> regid_ok r o = true)
      by (intros r Hr; unfold regid_ok; rewrite (proj2 (N.eqb_neq _ _) Hr), (proj2 (Nat.eqb_neq _ _) Ho); reflexivity).
    destruct p; try solve [exfalso; destruct HQ as (_ & _ & _ & [])]; cbn in F; try congruence; cbn in R.
    + subst c. destruct HQ as (K1 & A1 & B1 & ->). unfold available in R. rewrite A1 in R. break_run. cbn. auto.
    + injection F as <- <-. destruct HQ as (K1 & A1 & B1 & ->). break_run; cbn; auto. repeat split; auto.
      apply N.eqb_neq. assumption.
    + injection F as <- <-. destruct HQ as (K1 & A1 & B1 & B2 & ->).
      change (get_or [] o (registers s)) with (gl s o) in R.
      assert (X : Nat.eqb (length (gl s o ++ [Ent rid t KUser])) 1 = false).
      { rewrite app_length. destruct (gl s o); [congruence|]. cbn. apply Nat.eqb_neq. lia. }
      rewrite X in R. break_run. cbn. repeat split; auto. unfold gl. cbn. rewrite get_or_put, Nat.eqb_refl. intros X'; apply app_eq_nil in X' as [_ X']; discriminate.
    + injection F as <-. destruct HQ as (K1 & A1 & B1 & B2 & ->). rewrite K1 in Ck. destruct (cached s o) as [s1 q]. cbn in Ck.
      subst q. destruct (flat (latest h1 o)) as [q|] eqn:Fl; break_run; cbn.
      * repeat split; auto.
      * exists rid. rewrite (Ro _ B2). reflexivity.
    + injection F as <-. destruct HQ as (B2 & -> & E). break_run. cbn. rewrite E. exists rid. rewrite (Ro _ B2). reflexivity.
  - intros w al s u p s' p' e c' q L F G R KF HQ.
    assert (Gr : reg_call c' = false) by (unfold cache_call in G; apply orb_false_iff in G as [G _]; exact G).
    assert (Rg : gl s' o = gl s o). { unfold gl. rewrite (registers_neutral _ _ _ _ _ _ _ _ _ F R Gr). reflexivity. }
    assert (Cg : cv s' o = cv s o) by (eapply cache_neutral; eauto).
    assert (Sg : status s' = status s).
    { rewrite (run1_status _ _ _ _ _ _ _ _ R). eapply svc_neutral; eauto. }
    unfold Q in *. destruct q; try exact HQ; rewrite Cg, Sg, Rg; exact HQ.
  - auto.
  - exact S.
  - fold h in N, H. fold t in N, H. rewrite (done_of_ret _ _ _ V) in N. injection N as <-. exact H.
Qed.
