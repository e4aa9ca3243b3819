(** Observers of the service status. *)
From Verif Require Import ReqModel ReqSpec ReqProofs ReqInv ReqIds ReqOnce ReqDeliver ReqDeliver2 ReqGone ReqGone2 ReqSubs ReqSerSpec ReqSerial ReqSerial2 ReqCache ReqObsSpec.
From Coq Require Import NArith.

Lemma run1_observers w al s t p s' p' e : run1 w al s t p = (s', p', e) ->
  observers s' = match p with
                 | PStart (CUnobserve x) => filter (fun y => negb (Nat.eqb y x)) (observers s)
                 | PSvcForward _ _ => filter (fun x => negb (o_gone w x)) (observers s)
                 | PObsPush x => observers s ++ [x]
                 | _ => observers s
                 end.
Proof.
  intros R.
  assert (Cc : forall o, observers (fst (cached s o)) = observers s) by (intros o1; unfold cached; destruct (get o1 (cache s)) as [[?|]|]; reflexivity).
  destruct p; cbn in R; try solve [break_run; reflexivity].
  - pose proof (Cc o) as X. destruct (cached s o) as [s1 [q|]]; cbn in X; break_run; rewrite X; reflexivity.
  - pose proof (Cc o) as X. destruct (cached s o) as [s1 q]; cbn in X; destruct sync; break_run; rewrite X; reflexivity.
  - destruct todo; break_run; try destruct keep; reflexivity.
Qed.

Lemma cnt_filter {A} (f g : A -> bool) l : (forall x, f x = true -> g x = true) -> cnt f (filter g l) = cnt f l.
Proof.
  intros H. induction l as [|x l IH]; [reflexivity|]. cbn [filter]. destruct (g x) eqn:E; rewrite ?cnt_cons, IH; [reflexivity|].
  destruct (f x) eqn:Fx; [rewrite (H _ Fx) in E; discriminate|reflexivity].
Qed.

(** An observer registered once, never unregistered and never throwing is in the list exactly once. *)
Lemma observer_in h x r : call_of h r = Some (CObserve (Some x)) ->
  (forall r', call_of h r' = Some (CObserve (Some x)) -> r' = r) ->
  (forall u, call_of h u <> Some (CUnobserve x)) -> never_throws h x ->
  cnt (Nat.eqb x) (observers (sh (final h))) =
    match nth_error (thr (final h)) r with Some (PStart _) | Some (PObsPush _) | None => 0 | _ => 1 end.
Proof.
  assert (X : forall h, (forall r, call_of h r <> Some (CObserve (Some x))) -> cnt (Nat.eqb x) (observers (sh (final h))) = 0).
  { clear h r. intros h. induction h as [|h c IH|h t w IH N F T|h t w p s' p' e IH N R F T] using hist_ind; intros Z.
    - reflexivity.
    - rewrite snoc_call. cbn [sh]. apply IH. intros r E. apply (Z r). apply call_of_app. exact E.
    - rewrite F. apply IH. intros r E. apply (Z r). rewrite call_of_run. exact E.
    - assert (Z' : forall r, call_of h r <> Some (CObserve (Some x))). { intros r E. apply (Z r). rewrite call_of_run. exact E. }
      specialize (IH Z'). rewrite F. cbn [sh]. rewrite (run1_observers _ _ _ _ _ _ _ _ R).
      assert (Y : forall g, cnt (Nat.eqb x) (filter g (observers (sh (final h)))) = 0).
      { intros g. revert IH. generalize (observers (sh (final h))) as l. induction l as [|y l IHl]; intros E; [reflexivity|].
        rewrite cnt_cons in E. cbn [filter]. destruct (g y); [rewrite cnt_cons|]; rewrite ?IHl; lia. }
      destruct p; try exact IH; try apply Y.
      + destruct c; try exact IH. apply Y.
      + rewrite cnt_app, cnt_cons, IH. destruct (i_fit h (inv_final h) _ _ N) as (c & C & Fc). cbn in Fc. subst c.
        destruct (Nat.eqb_spec x x0) as [->|]; [exfalso; eapply Z'; exact C|reflexivity]. }
  induction h as [|h c IH|h t w IH N F T|h t w p s' p' e IH N R F T] using hist_ind; intros C U V W.
  - destruct r; discriminate.
  - rewrite snoc_call. cbn [sh thr]. rewrite nth_snoc. rewrite call_of_call in C. rewrite (i_len h (inv_final h)).
    destruct (Nat.eqb_spec r (length (calls h))) as [->|].
    + apply X. intros r' E. assert (r' = length (calls h)). { apply U. apply call_of_app. exact E. } apply call_lt in E. lia.
    + apply IH; [exact C| | |].
      * intros r' E. apply U. apply call_of_app. exact E.
      * intros u E. apply (V u). apply call_of_app. exact E.
      * intros u w I. apply (W u w). apply in_or_app. auto.
  - rewrite F. rewrite call_of_run in C. apply IH; [exact C| | |].
    + intros r' E. apply U. rewrite call_of_run. exact E.
    + intros u E. apply (V u). rewrite call_of_run. exact E.
    + intros u w' I. apply (W u w'). apply in_or_app. auto.
  - rewrite call_of_run in C.
    assert (IH' : cnt (Nat.eqb x) (observers (sh (final h))) = match nth_error (thr (final h)) r with Some (PStart _) | Some (PObsPush _) | None => 0 | _ => 1 end).
    { apply IH; [exact C| | |].
      + intros r' E. apply U. rewrite call_of_run. exact E.
      + intros u E. apply (V u). rewrite call_of_run. exact E.
      + intros u w' I. apply (W u w'). apply in_or_app. auto. }
    clear IH. destruct (i_fit h (inv_final h) _ _ N) as (c & Ct & Fc).
    assert (Wx : o_gone w x = false) by (apply (W t w); apply in_or_app; right; left; reflexivity).
    rewrite F. cbn [sh thr]. rewrite (run1_observers _ _ _ _ _ _ _ _ R), (nth_set _ _ _ _ _ N).
    assert (Keep : forall g, (forall y, Nat.eqb x y = true -> g y = true) -> cnt (Nat.eqb x) (filter g (observers (sh (final h)))) = cnt (Nat.eqb x) (observers (sh (final h)))).
    { intros g Hg. apply cnt_filter. exact Hg. }
    destruct (Nat.eqb_spec t r) as [->|Hne].
    + rewrite N in IH'. rewrite C in Ct. injection Ct as <-.
      destruct p; cbn in Fc; try solve [exfalso; clear - Fc; repeat match goal with H : exists _, _ |- _ => destruct H | H : _ /\ _ |- _ => destruct H
                 | H : context [match ?b with true => _ | false => _ end] |- _ => destruct b end; cbn in *; intuition discriminate].
      * subst c. cbn in R. break_run. exact IH'.
      * injection Fc as <-. rewrite cnt_app, cnt_cons, IH', Nat.eqb_refl. cbn in R. break_run; reflexivity.
      * cbn in R. break_run. exact IH'.
      * cbn in R. break_run. exact IH'.
    + rewrite <- IH'. destruct p; try reflexivity.
      * destruct c0; try reflexivity. cbn in Fc. subst c. apply Keep. intros y E. apply Nat.eqb_eq in E. subst y.
        destruct (Nat.eqb_spec x x0); [|reflexivity]. subst. exfalso. eapply (V t). rewrite call_of_run. exact Ct.
      * apply Keep. intros y E. apply Nat.eqb_eq in E. subst y. rewrite Wx. reflexivity.
      * rewrite cnt_app, cnt_cons. cbn in Fc. subst c. destruct (Nat.eqb_spec x x0); [|rewrite cnt_nil; cbn [b2n]; lia]. subst. exfalso. apply Hne. apply U. rewrite call_of_run. exact Ct.
Qed.

Lemma observes_app h1 h x r l : observes h1 (h ++ [l]) x r -> (exists k, h = h1 ++ k) -> observes h1 h x r.
Proof.
  intros (C & Rt & U & V & W) (k & E).
  assert (C0 : call_of h r = Some (CObserve (Some x))).
  { destruct Rt as (v & Rt). destruct (ret_called _ _ _ Rt) as (c & Cc).
    assert (X : call_of h r = Some c) by (rewrite E; apply call_of_app; exact Cc). rewrite (call_of_app _ [l] _ _ X) in C. congruence. }
  split; [exact C0|]. split; [exact Rt|]. split; [intros r' E'; apply U; apply call_of_app; exact E'|].
  split; [intros u E'; apply (V u); apply call_of_app; exact E'|]. intros u w I. apply (W u w). apply in_or_app. auto.
Qed.

Lemma observer_once h1 h2 x r : observes h1 (h1 ++ h2) x r -> cnt (Nat.eqb x) (observers (sh (final (h1 ++ h2)))) = 1.
Proof.
  intros (C & (v & V) & U & Un & W). rewrite (observer_in _ _ _ C U Un W).
  rewrite (done_stays_app h1 h2 r (cnt_ret_of _ _ _ V)). reflexivity.
Qed.

Lemma cnt_notifs f t old new l : (forall x, f (ENotify t x old new) = Nat.eqb l x) ->
  forall os, cnt f (map (fun x => ENotify t x old new) os) = cnt (Nat.eqb l) os.
Proof. intros H os. induction os as [|y os IH]; [reflexivity|]. cbn [map]. rewrite !cnt_cons, H, IH. reflexivity. Qed.

(** A status change is told to every observer exactly once. *)
Lemma told_once h1 h2 ok old new x r : let h := h1 ++ LCall (CServiceStatus ok old new) :: h2 in let t := length (calls h1) in
  observes h1 h x r -> returned h t -> notified h t x = changed h t.
Proof.
  intros h t O (v & V).
  assert (G : forall k, observes h1 (h1 ++ LCall (CServiceStatus ok old new) :: k) x r ->
    match nth_error (thr (final (h1 ++ LCall (CServiceStatus ok old new) :: k))) t with
    | Some (PSvcClearReq _ _) | Some (PSvcClearReg _ _) | Some (PSvcForward _ _) =>
        notified (h1 ++ LCall (CServiceStatus ok old new) :: k) t x = 0 /\ changed (h1 ++ LCall (CServiceStatus ok old new) :: k) t = 1
    | Some PDone => notified (h1 ++ LCall (CServiceStatus ok old new) :: k) t x = changed (h1 ++ LCall (CServiceStatus ok old new) :: k) t
    | _ => notified (h1 ++ LCall (CServiceStatus ok old new) :: k) t x = 0 /\ changed (h1 ++ LCall (CServiceStatus ok old new) :: k) t = 0
    end).
  { intros k. induction k as [|l k IH] using rev_ind; intros Ok.
    - rewrite snoc_call. cbn [thr]. rewrite nth_snoc, (i_len h1 (inv_final h1)). fold t. rewrite Nat.eqb_refl.
      unfold notified, changed. rewrite trace_call. pose proof (evs_fresh h1 t (le_n _)) as E. unfold evs in E.
      split; apply cnt_zero; intros e I; assert (Z : In e (filter (fun e => Nat.eqb (thread_of e) t) (trace h1)) -> False) by (rewrite E; intros []);
        destruct e; try reflexivity; destruct (Nat.eqb_spec t0 t) as [->|]; try reflexivity; exfalso; apply Z; apply filter_In; (split; [exact I|apply Nat.eqb_refl]).
    - change (h1 ++ LCall (CServiceStatus ok old new) :: k ++ [l]) with (h1 ++ (LCall (CServiceStatus ok old new) :: k) ++ [l]) in *.
      rewrite app_assoc in *. set (hh := h1 ++ LCall (CServiceStatus ok old new) :: k) in *.
      assert (Oo : observes h1 hh x r) by (eapply observes_app; [exact Ok|eexists; reflexivity]).
      specialize (IH Oo). assert (One := observer_once h1 (LCall (CServiceStatus ok old new) :: k) x r Oo). fold hh in One.
      assert (Ct : call_of hh t = Some (CServiceStatus ok old new)).
      { unfold hh, t, call_of. rewrite calls_app, nth_error_app2 by lia. rewrite Nat.sub_diag. reflexivity. }
      destruct l as [c'|u w].
      + rewrite snoc_call. unfold notified, changed. rewrite trace_call. cbn [thr].
        rewrite nth_error_app1; [exact IH|]. rewrite (i_len hh (inv_final hh)). eapply call_lt; exact Ct.
      + destruct (nth_error (thr (final hh)) u) as [q|] eqn:Nu.
        2:{ assert (Tr : trace (hh ++ [LRun u w]) = trace hh) by (rewrite trace_snoc; cbn; rewrite Nu; apply app_nil_r).
            assert (Fi : final (hh ++ [LRun u w]) = final hh) by (rewrite final_snoc; cbn; rewrite Nu; reflexivity).
            unfold notified, changed. rewrite Fi, Tr. exact IH. }
        destruct (run1 w (alive (final hh) u) (sh (final hh)) u q) as [[s' q'] e] eqn:R.
        assert (Tr : trace (hh ++ [LRun u w]) = trace hh ++ e) by (rewrite trace_snoc; cbn; rewrite Nu, R; reflexivity).
        assert (Fi : final (hh ++ [LRun u w]) = St s' (set_nth u q' (thr (final hh)))) by (rewrite final_snoc; cbn; rewrite Nu, R; reflexivity).
        destruct (i_fit hh (inv_final hh) _ _ Nu) as (cu & Cu & Fu).
        unfold notified, changed in *. rewrite Fi, Tr, !cnt_app. cbn [thr]. rewrite (nth_set _ _ _ _ _ Nu).
        destruct (Nat.eqb_spec u t) as [->|Hu].
        2:{ assert (Z : forall f, (forall y, thread_of y = u -> f y = false) -> cnt f e = 0).
            { intros f Hf. apply cnt_zero. intros y I. apply Hf. pose proof (ev_thread _ _ _ _ _ _ _ _ _ R I) as X. destruct y; exact X. }
            rewrite !Z by (intros y E; destruct y; try reflexivity; cbn in E; subst; destruct (Nat.eqb_spec u t); [congruence|reflexivity]).
            rewrite !Nat.add_0_r. exact IH. }
        rewrite Nu in IH. rewrite Ct in Cu. injection Cu as <-.
        destruct q; cbn in Fu; try solve [exfalso; clear - Fu; repeat match goal with H : exists _, _ |- _ => destruct H | H : _ /\ _ |- _ => destruct H
                 | H : context [match ?b with true => _ | false => _ end] |- _ => destruct b end; cbn in *; intuition discriminate].
        all: cbn in R.
        * subst c. destruct IH as [I1 I2]. break_run; cbn; rewrite ?cnt_cons, ?cnt_nil; cbn [b2n]; lia.
        * injection Fu as -> -> ->. destruct IH as [I1 I2]. break_run; destruct new0; rewrite !cnt_cons, !cnt_nil, Nat.eqb_refl; cbn [b2n]; lia.
        * destruct IH as [I1 I2]. break_run; rewrite !cnt_nil. lia.
        * destruct IH as [I1 I2]. break_run; rewrite !cnt_nil. lia.
        * destruct IH as [I1 I2]. break_run. rewrite !cnt_app.
          rewrite (cnt_notifs _ _ _ _ x) by (intros y; cbn; rewrite Nat.eqb_refl, Nat.eqb_sym; reflexivity). rewrite One.
          rewrite (cnt_zero _ (map _ _)) by (intros y I; apply in_map_iff in I as (z & <- & _); reflexivity).
          rewrite !cnt_cons, !cnt_nil. cbn [b2n]. lia.
        * break_run. rewrite !cnt_nil. lia. }
  specialize (G h2 O). fold h in G. rewrite (cnt_ret_of _ _ _ V) in G. exact G.
Qed.

(** Registering an observer: told at once if the service is available. *)
Lemma observe_told h1 h2 x : let h := h1 ++ LCall (CObserve (Some x)) :: h2 in let t := length (calls h1) in
  serial obs_call h -> returned h t ->
  evs h t = if avail_eqb (svc h1) Available then [ENotify t x Unknown Available; ERet t RVUnit] else [ERet t RVUnit].
Proof.
  intros h t S (v & V).
  set (Q := fun s p (L : list event) =>
    match p with
    | PStart _ | PObsPush _ => L = [] /\ status s = svc h1
    | PObsCall _ => L = [] /\ svc h1 = Available
    | PDone => L = if avail_eqb (svc h1) Available then [ENotify t x Unknown Available; ERet t RVUnit] else [ERet t RVUnit]
    | _ => False
    end).
  destruct (phase_f obs_call Q (CObserve (Some x)) h1 eq_refl) with (h2 := h2) as (p & N & H).
  - cbn. split; [reflexivity|apply svc_status].
  - fold t. intros w al s p s' p' e L F R P _ HQ. destruct p; try contradiction; cbn in F; try congruence; cbn in R.
    + subst c. break_run. rewrite app_nil_r. exact HQ.
    + injection F as <-. destruct HQ as (-> & A). unfold available in R. rewrite A in R. destruct (svc h1) eqn:E; break_run; cbn; rewrite ?E; auto.
    + injection F as <-. destruct HQ as (-> & A). break_run. cbn. rewrite A. reflexivity.
  - intros w al s u p s' p' e c' q L F G R _ HQ.
    assert (Sg : status s' = status s).
    { rewrite (run1_status _ _ _ _ _ _ _ _ R).
      assert (X : forall y, In y e -> match y with EStatus _ _ => False | _ => True end).
      { intros y I. destruct y; try exact Logic.I. destruct (status_thread _ _ _ _ _ _ _ _ _ _ R I) as [_ (old & ->)]. cbn in F. subst c'. discriminate. }
      clear - X. unfold svc_of. generalize (status s) as a. induction e as [|y e IH]; intros a; [reflexivity|]. cbn.
      rewrite IH by (intros z I; apply X; right; exact I). specialize (X y (or_introl eq_refl)). destruct y; try reflexivity. contradiction. }
    unfold Q in *. destruct q; try exact HQ; rewrite Sg; exact HQ.
  - auto.
  - exact S.
  - fold h in N, H. fold t in N, H. rewrite (done_of_ret _ _ _ V) in N. injection N as <-. exact H.
Qed.

(** ** Order *)
(** At PSvcSet the new status differs from the current one, when status calls do not overlap. *)
Lemma set_differs h t old new : serial stat_call h -> nth_error (thr (final h)) t = Some (PSvcSet old new) -> new <> status (sh (final h)).
Proof.
  revert t old new. induction h as [|h c IH|h t0 w IH N F T|h t0 w p s' p' e IH N R F T] using hist_ind; intros t old new S H.
  - destruct t; discriminate.
  - rewrite snoc_call in *. cbn [thr sh] in *. rewrite nth_snoc in H. destruct (Nat.eqb _ _); [discriminate|]. eapply IH; eauto using serial_snoc.
  - rewrite F in *. eapply IH; eauto using serial_snoc.
  - rewrite F in *. cbn [thr sh] in *. rewrite (nth_set _ _ _ _ _ N) in H.
    destruct (i_fit h (inv_final h) _ _ N) as (c & C & Fc).
    destruct (Nat.eqb_spec t0 t) as [->|Hne].
    + injection H as ->. destruct p; cbn in R; try solve [break_run; discriminate].
      * destruct c0; try solve [break_run; discriminate]. destruct (sid_ok && negb (avail_eqb new0 (status (sh (final h))))) eqn:E; [|discriminate].
        injection R as <- <- <- <-. apply andb_true_iff in E as [_ E]. apply negb_true_iff in E. intros ->.
        destruct (status (sh (final h))); discriminate.
      * break_run; destruct new0; discriminate.
    + assert (S0 := serial_snoc _ _ _ S).
      destruct (i_fit h (inv_final h) _ _ H) as (c2 & C2 & Fc2). cbn in Fc2. subst c2.
      assert (Sg : status s' = status (sh (final h))).
      { destruct (pdone_dec p) as [->|Pd]; [cbn in R; injection R as <- <- <-; reflexivity|].
        rewrite (run1_status _ _ _ _ _ _ _ _ R).
        assert (X : forall y, In y e -> match y with EStatus _ _ => False | _ => True end).
        { intros y I. destruct y; try exact Logic.I. destruct (status_thread _ _ _ _ _ _ _ _ _ _ R I) as [_ (old' & ->)]. cbn in Fc. subst c.
          apply Pd. eapply (serial_other stat_call h t); [exact S0|exact H|exact C2|reflexivity|discriminate|exact N|exact C|reflexivity|exact Hne]. }
        clear - X. unfold svc_of. generalize (status (sh (final h))) as a. induction e as [|y e IH]; intros a; [reflexivity|]. cbn.
        rewrite IH by (intros z I; apply X; right; exact I). specialize (X y (or_introl eq_refl)). destruct y; try reflexivity. contradiction. }
      rewrite Sg. eapply IH; eauto.
Qed.

Lemma last_indep {A} (l : list A) a b : l <> [] -> last l a = last l b.
Proof. induction l as [|x l IH]; [congruence|]. intros _. destruct l as [|y l]; [reflexivity|]. apply IH. discriminate. Qed.
Lemma alternates_snoc a l b : alternates a l -> b <> last l a -> alternates a (l ++ [b]).
Proof.
  revert a. induction l as [|c l IH]; intros a; cbn [alternates app]; [cbn; auto|]. intros [H1 H2] H3. split; [exact H1|]. apply IH; [exact H2|].
  destruct l as [|d l]; [exact H3|]. rewrite (last_indep (d :: l) c a) by discriminate. exact H3.
Qed.
Lemma svc_last h : svc h = last (statuses (trace h)) Unavailable.
Proof.
  unfold svc, statuses. generalize Unavailable as a. induction (trace h) as [|e l IH]; intros a; [reflexivity|]. cbn.
  rewrite IH. destruct e; try reflexivity. cbn [app]. destruct (flat_map _ l) as [|y l'] eqn:E; [reflexivity|]. rewrite (last_indep (y :: l') a0 a) by discriminate. reflexivity.
Qed.

Lemma statuses_alternate h : serial stat_call h -> alternates Unavailable (statuses (trace h)).
Proof.
  induction h as [|h c IH|h t w IH N F T|h t w p s' p' e IH N R F T] using hist_ind; intros S.
  - exact I.
  - rewrite trace_call. apply IH. eauto using serial_snoc.
  - rewrite T. apply IH. eauto using serial_snoc.
  - rewrite T. unfold statuses. rewrite flat_map_app. fold (statuses (trace h)). specialize (IH (serial_snoc _ _ _ S)).
    assert (X : (exists old new, p = PSvcSet old new /\ e = [EStatus t new]) \/ flat_map (fun e => match e with EStatus _ a => [a] | _ => [] end) e = []).
    { destruct p; cbn in R; try solve [break_run; auto]; try solve [break_run; left; eauto].
      right. break_run. rewrite flat_map_app. cbn. rewrite app_nil_r. generalize (observers (sh (final h))) as os. induction os as [|y os IHo]; [reflexivity|exact IHo]. }
    destruct X as [(old & new & -> & ->)|X]; [|rewrite X, app_nil_r; exact IH].
    cbn. apply alternates_snoc; [exact IH|]. rewrite <- svc_last, <- svc_status. eapply set_differs; eauto using serial_snoc.
Qed.


Lemma ev_called h e : In e (trace h) -> exists c, call_of h (thread_of e) = Some c.
Proof.
  induction h as [|h c IH|h t w IH N F T|h t w p s' p' ev IH N R F T] using hist_ind; intros I.
  - destruct I.
  - rewrite trace_call in I. destruct (IH I) as (c' & C). exists c'. apply call_of_app. exact C.
  - rewrite T in I. rewrite call_of_run. auto.
  - rewrite T in I. rewrite call_of_run. apply in_app_iff in I as [I|I]; [auto|].
    pose proof (ev_thread _ _ _ _ _ _ _ _ _ R I) as X. assert (thread_of e = t) as -> by (destruct e; exact X).
    destruct (i_fit h (inv_final h) _ _ N) as (c & C & _). eauto.
Qed.

Lemma told_ext h l tr x : (forall e, In e tr -> exists c, call_of h (thread_of e) = Some c) -> told (h ++ [l]) tr x = told h tr x.
Proof.
  intros H. unfold told. induction tr as [|e tr IH]; [reflexivity|]. cbn [flat_map]. rewrite IH by (intros y I; apply H; right; exact I).
  destruct e; try reflexivity. destruct (H _ (or_introl eq_refl)) as (c & C). cbn [thread_of] in C. rewrite (call_of_app _ _ _ _ C), C. reflexivity.
Qed.
Lemma told_app h a b x : told h (a ++ b) x = told h a x ++ told h b x.
Proof. apply flat_map_app. Qed.
Lemma statuses_app a b : statuses (a ++ b) = statuses a ++ statuses b.
Proof. apply flat_map_app. Qed.

Definition forwarding (p : pc) : option availability :=
  match p with PSvcClearReq _ new | PSvcClearReg _ new | PSvcForward _ new => Some new | _ => None end.

Lemma fwd_stat c p a : fits c p -> forwarding p = Some a -> stat_call c = true.
Proof.
  intros Fc E. destruct p; try discriminate; cbn in Fc.
  - destruct Fc as [-> _]. reflexivity.
  - destruct Fc as [-> _]. reflexivity.
  - subst c. reflexivity.
Qed.

Lemma flat_one (x t : nat) (old new : availability) h os : cnt (Nat.eqb x) os = 1 -> (match call_of h t with Some c => stat_call c | None => false end) = true ->
  told h (map (fun y => ENotify t y old new) os) x = [new].
Proof.
  intros C S.
  assert (Z : forall os, cnt (Nat.eqb x) os = 0 -> told h (map (fun y => ENotify t y old new) os) x = []).
  { induction os0 as [|y os0 IH]; [reflexivity|]. rewrite cnt_cons. unfold told. cbn [map flat_map]. rewrite S, andb_true_r, (Nat.eqb_sym y x).
    destruct (Nat.eqb x y); cbn [b2n]; [intros; lia|]. exact IH. }
  induction os as [|y os IH]; [discriminate|]. rewrite cnt_cons in C. unfold told. cbn [map flat_map]. rewrite S, andb_true_r, (Nat.eqb_sym y x).
  destruct (Nat.eqb x y); cbn [b2n] in C; cbn [app].
  - f_equal. apply Z. lia.
  - apply IH. lia.
Qed.

Lemma told_inv h1 h2 x r tr : serial stat_call (h1 ++ h2) -> idle stat_call h1 -> observes h1 (h1 ++ h2) x r -> trace (h1 ++ h2) = trace h1 ++ tr ->
  (exists t p new, nth_error (thr (final (h1 ++ h2))) t = Some p /\ forwarding p = Some new /\ statuses tr = told (h1 ++ h2) tr x ++ [new]) \/
  ((forall t p, nth_error (thr (final (h1 ++ h2))) t = Some p -> forwarding p = None) /\ statuses tr = told (h1 ++ h2) tr x).
Proof.
  intros S Id. revert tr S. induction h2 as [|l h2 IH] using rev_ind; intros tr S O T.
  - rewrite app_nil_r in *. assert (tr = []) as -> by (apply (app_inv_head (trace h1)); rewrite app_nil_r; auto).
    right. split; [|reflexivity]. intros t p N. destruct (i_fit h1 (inv_final h1) _ _ N) as (c & C & Fc).
    destruct (forwarding p) eqn:E; [|reflexivity]. assert (stat_call c = true).
    { eapply fwd_stat; eauto. }
    rewrite (idle_done _ _ _ _ _ Id N C H) in E. discriminate.
  - rewrite app_assoc in *. set (h := h1 ++ h2) in *.
    assert (Oo : observes h1 h x r) by (eapply observes_app; [exact O|exists h2; reflexivity]).
    destruct (run (final h1) h2) as [fs tr0] eqn:Rn.
    assert (T0 : trace h = trace h1 ++ tr0). { unfold h. rewrite trace_app, Rn. reflexivity. }
    specialize (IH tr0 (serial_snoc _ _ _ S) Oo T0).
    assert (Ex : told (h ++ [l]) tr0 x = told h tr0 x).
    { apply told_ext. intros e I. apply ev_called. rewrite T0. apply in_or_app. auto. }
    destruct l as [c|u w].
    + rewrite trace_call in T. assert (tr = tr0) as ->. { apply (app_inv_head (trace h1)). congruence. }
      rewrite Ex. destruct IH as [(t & p & new & A & B & D)|[A D]]; [left; exists t, p, new|right].
      * split; [|auto]. rewrite snoc_call. cbn [thr]. rewrite nth_error_app1; [exact A|eapply nth_lt; exact A].
      * split; [|exact D]. intros t p N. rewrite snoc_call in N. cbn [thr] in N. rewrite nth_snoc in N.
        destruct (Nat.eqb _ _); [injection N as <-; reflexivity|]. eapply A; exact N.
    + destruct (nth_error (thr (final h)) u) as [q|] eqn:Nu.
      2:{ assert (Tr : trace (h ++ [LRun u w]) = trace h) by (rewrite trace_snoc; cbn; rewrite Nu; apply app_nil_r).
          assert (Fi : final (h ++ [LRun u w]) = final h) by (rewrite final_snoc; cbn; rewrite Nu; reflexivity).
          assert (tr = tr0) as ->. { apply (app_inv_head (trace h1)). congruence. }
          rewrite Ex, Fi. exact IH. }
      destruct (run1 w (alive (final h) u) (sh (final h)) u q) as [[s' q'] e] eqn:R.
      assert (Tr : trace (h ++ [LRun u w]) = trace h ++ e) by (rewrite trace_snoc; cbn; rewrite Nu, R; reflexivity).
      assert (Fi : final (h ++ [LRun u w]) = St s' (set_nth u q' (thr (final h)))) by (rewrite final_snoc; cbn; rewrite Nu, R; reflexivity).
      assert (tr = tr0 ++ e) as ->. { apply (app_inv_head (trace h1)). rewrite app_assoc. congruence. }
      destruct (i_fit h (inv_final h) _ _ Nu) as (cu & Cu & Fu).
      assert (Cu' : call_of (h ++ [LRun u w]) u = Some cu) by (rewrite call_of_run; exact Cu).
      rewrite told_app, Ex, statuses_app, Fi. cbn [thr].
      assert (Upd : forall t p, nth_error (set_nth u q' (thr (final h))) t = Some p -> t = u /\ p = q' \/ t <> u /\ nth_error (thr (final h)) t = Some p).
      { intros t p N. rewrite (nth_set _ _ _ _ _ Nu) in N. destruct (Nat.eqb_spec u t); [left; split; congruence|right; split; congruence]. }
      assert (Stay : forall t p, t <> u -> nth_error (thr (final h)) t = Some p -> nth_error (set_nth u q' (thr (final h))) t = Some p).
      { intros t p Hn N. rewrite (nth_set _ _ _ _ _ Nu). destruct (Nat.eqb_spec u t); [congruence|exact N]. }
      assert (At : nth_error (set_nth u q' (thr (final h))) u = Some q') by (rewrite (nth_set _ _ _ _ _ Nu), Nat.eqb_refl; reflexivity).
      destruct (stat_call cu) eqn:Sc.
      * destruct (pdone_dec q) as [->|Pd].
        { cbn in R. injection R as <- <- <-. cbn. rewrite !app_nil_r.
          destruct IH as [(t & p & new & A & B & D)|[A D]]; [left; exists t, p, new|right].
          - split; [|auto]. apply Stay; [|exact A]. intros ->. rewrite Nu in A. injection A as <-. discriminate.
          - split; [|exact D]. intros t p N. destruct (Upd _ _ N) as [[-> ->]|[_ N']]; [reflexivity|eauto]. }
        assert (Oth : forall t p, t <> u -> nth_error (thr (final h)) t = Some p -> forwarding p = None).
        { intros t p Hn N. destruct (forwarding p) eqn:E; [|reflexivity]. destruct (i_fit h (inv_final h) _ _ N) as (c & C & Fc).
          assert (stat_call c = true).
          { eapply fwd_stat; eauto. }
          rewrite (serial_other stat_call h u q cu t p c (serial_snoc _ _ _ S) Nu Cu Sc Pd N C H Hn) in E. discriminate. }
        assert (IH' : statuses tr0 = told h tr0 x ++ match forwarding q with Some new => [new] | None => [] end).
        { destruct IH as [(t & p & new & A & B & D)|[A D]].
          - destruct (Nat.eq_dec t u) as [->|Hn]; [|rewrite (Oth _ _ Hn A) in B; discriminate].
            rewrite Nu in A. injection A as <-. rewrite B. exact D.
          - rewrite (A _ _ Nu), app_nil_r. exact D. }
        assert (Goal' : statuses tr0 ++ statuses e = (told h tr0 x ++ told (h ++ [LRun u w]) e x) ++ match forwarding q' with Some new => [new] | None => [] end).
        { rewrite IH', <- !app_assoc. f_equal.
          destruct q; cbn in Fu; try solve [exfalso; clear - Fu Sc; repeat match goal with H : exists _, _ |- _ => destruct H | H : _ /\ _ |- _ => destruct H
                 | H : context [match ?b with true => _ | false => _ end] |- _ => destruct b end; subst; cbn in *; try discriminate; destruct cu; cbn in *; intuition discriminate].
          - subst c. destruct cu; try discriminate Sc. cbn in R. break_run; reflexivity.
          - cbn in R. break_run. destruct new; reflexivity.
          - cbn in R. break_run. reflexivity.
          - cbn in R. break_run. reflexivity.
          - cbn in R. break_run. rewrite told_app, statuses_app.
            rewrite flat_one; [|exact (observer_once h1 h2 x r Oo)|rewrite Cu'; exact Sc].
            cbn. rewrite app_nil_r. f_equal. assert (X : forall os, statuses (map (fun y => ENotify u y old new) os) = []) by (induction os; [reflexivity|assumption]).
            rewrite X. reflexivity.
          - congruence. }
        destruct (forwarding q') as [new|] eqn:Fq.
        -- left. exists u, q', new. auto.
        -- right. split; [|rewrite app_nil_r in Goal'; exact Goal']. intros t p N. destruct (Upd _ _ N) as [[-> ->]|[Hn N']]; [exact Fq|eauto].
      * assert (E1 : statuses e = []).
        { assert (X : forall y, In y e -> match y with EStatus _ _ => False | _ => True end).
          { intros y I. destruct y; try exact Logic.I. destruct (status_thread _ _ _ _ _ _ _ _ _ _ R I) as [_ (old & ->)]. cbn in Fu. subst cu. discriminate. }
          clear - X. induction e as [|y e IH]; [reflexivity|]. unfold statuses in *. cbn. rewrite IH by (intros z I; apply X; right; exact I).
          specialize (X y (or_introl eq_refl)). destruct y; try reflexivity. contradiction. }
        assert (E2 : told (h ++ [LRun u w]) e x = []).
        { assert (X := fun y => ev_thread _ _ _ _ _ _ _ _ y R). clear - X Cu' Sc. induction e as [|y e IH]; [reflexivity|]. unfold told in *. cbn [flat_map].
          rewrite IH by (intros z I; apply X; right; exact I). specialize (X y (or_introl eq_refl)). destruct y; try reflexivity. subst t.
          rewrite Cu', Sc, andb_false_r. reflexivity. }
        assert (Fn : forwarding q = None /\ forwarding q' = None).
        { pose proof (fits_step _ _ _ _ _ _ _ _ _ Fu R) as Fu'.
          assert (Y : forall p, fits cu p -> forwarding p = None).
          { intros p Fp. destruct (forwarding p) eqn:E; [|reflexivity]. rewrite (fwd_stat _ _ _ Fp E) in Sc. discriminate. }
          split; apply Y; assumption. }
        rewrite E1, E2, !app_nil_r. destruct IH as [(t & p & new & A & B & D)|[A D]]; [left; exists t, p, new|right].
        -- split; [|auto]. apply Stay; [|exact A]. intros ->. rewrite Nu in A. injection A as <-. destruct Fn. congruence.
        -- split; [|exact D]. intros t p N. destruct (Upd _ _ N) as [[-> ->]|[_ N']]; [apply Fn|eauto].
Qed.

Lemma told_order h1 h2 x r tr : serial stat_call (h1 ++ h2) -> idle stat_call h1 -> idle stat_call (h1 ++ h2) -> observes h1 (h1 ++ h2) x r ->
  trace (h1 ++ h2) = trace h1 ++ tr -> told (h1 ++ h2) tr x = statuses tr.
Proof.
  intros S I1 I2 O T. destruct (told_inv h1 h2 x r tr S I1 O T) as [(t & p & new & A & B & D)|[_ D]]; [|congruence].
  exfalso. destruct (i_fit _ (inv_final (h1 ++ h2)) _ _ A) as (c & C & Fc). assert (stat_call c = true).
  { eapply fwd_stat; eauto. }
  rewrite (idle_done _ _ _ _ _ I2 A C H) in B. discriminate.
Qed.
