(** Slots with executors: the steps as a relation; connections and calls. *)
From Coq Require Import Permutation.
From Verif Require Import ListUtil ExecModel ExecSpec.

Lemma run_app s h1 h2 : run s (h1 ++ h2) = let (s1, e1) := run s h1 in let (s2, e2) := run s1 h2 in (s2, e1 ++ e2).
Proof.
  revert s. induction h1 as [|l h1 IH]; intro s; cbn [run app].
  - destruct (run s h2); reflexivity.
  - destruct (step s l) as [s1 e1]. rewrite IH. destruct (run s1 h1) as [s2 e2]. destruct (run s2 h2) as [s3 e3].
    rewrite app_assoc. reflexivity.
Qed.
Lemma final_snoc h l : final (h ++ [l]) = fst (step (final h) l).
Proof. unfold final. rewrite run_app. destruct (run st_new h) as [s e]. cbn [run fst]. destruct (step s l). reflexivity. Qed.
Lemma trace_snoc h l : trace (h ++ [l]) = trace h ++ snd (step (final h) l).
Proof.
  unfold trace, final. rewrite run_app. destruct (run st_new h) as [s e]. cbn [run fst snd]. destruct (step s l).
  cbn [snd]. rewrite app_nil_r. reflexivity.
Qed.
Lemma trace_app h1 h2 : exists ev, trace (h1 ++ h2) = trace h1 ++ ev.
Proof.
  unfold trace. rewrite run_app. destruct (run st_new h1) as [s e]. destruct (run s h2) as [s2 e2]. exists e2. reflexivity.
Qed.
Lemma app_split {A} (tr ev l1 l2 : list A) e : tr ++ ev = l1 ++ e :: l2 ->
  (exists l2', tr = l1 ++ e :: l2') \/ (exists l3, l1 = tr ++ l3 /\ ev = l3 ++ e :: l2).
Proof.
  revert l1. induction tr as [|x tr IH]; intros l1 H; cbn in H.
  - right. exists l1. auto.
  - destruct l1 as [|y l1]; cbn in H; injection H as Hx H.
    + subst. left. exists tr. reflexivity.
    + subst y. apply IH in H as [[l2' ->]|[l3 [-> ->]]]; [left; exists l2'; reflexivity|right; exists l3; auto].
Qed.
Lemma one_eq {A} (y : A) l3 x l4 : [y] = l3 ++ x :: l4 -> l3 = [] /\ x = y.
Proof. destruct l3 as [|z l3]; cbn; intro H; inversion H; subst; [auto|destruct l3; discriminate]. Qed.

Definition to (s : st) (l : option nat) (k : list nat) (q : list task) (a : list agent) : st := St l k (kinds s) q (busy s) (closed s) (gone s) a.
Inductive pstep (s : st) : label -> st -> list event -> Prop :=
| XIdle l : pstep s l s []
| XCall c p : (p = true -> busy s = true /\ proc_calls s = false) -> (forall c', c = CCut c' -> c' < length (kinds s)) ->
    pstep s (LCall c p) (to s (lock s) (keeper s) (queue s) (ags s ++ [Ag c p PStart])) [ECall (length (ags s)) c p]
| XConn t a k c : nth_error (ags s) t = Some a -> a_call a = CConnect k -> a_pc a = PStart -> lock s = None -> c = length (kinds s) ->
    pstep s (LStep t) (St None (keeper s ++ [c]) (kinds s ++ [k]) (queue s) (busy s) (closed s) (gone s) (at_pc s t a PDone)) [ECon t c k; ERet t]
| XCut t a c : nth_error (ags s) t = Some a -> a_call a = CCut c -> a_pc a = PStart -> lock s = None ->
    pstep s (LStep t) (to s None (remove_conn c (keeper s)) (queue s) (at_pc s t a PDone))
      ((if existsb (Nat.eqb c) (keeper s) then [ECut c] else []) ++ [ERet t])
| XEmit t a v : nth_error (ags s) t = Some a -> a_call a = CNotify v -> a_pc a = PStart -> lock s = None ->
    pstep s (LStep t) (to s (Some t) (keeper s) (queue s) (at_pc s t a (PRun (keeper s)))) [EEmit t v]
| XRan t a v c rest k : nth_error (ags s) t = Some a -> a_call a = CNotify v -> a_pc a = PRun (c :: rest) -> nth_error (kinds s) c = Some k ->
    (k = Direct \/ k <> Async /\ a_proc a = true) ->
    pstep s (LStep t) (to s (lock s) (keeper s) (queue s) (at_pc s t a (PRun rest))) [ESend t c v Ran]
| XLost t a v c rest k : nth_error (ags s) t = Some a -> a_call a = CNotify v -> a_pc a = PRun (c :: rest) -> nth_error (kinds s) c = Some k ->
    k <> Direct -> gone s || closed s = true ->
    pstep s (LStep t) (to s (lock s) (keeper s) (queue s) (at_pc s t a (PRun rest))) [ESend t c v Lost]
| XPost t a v c rest k : nth_error (ags s) t = Some a -> a_call a = CNotify v -> a_pc a = PRun (c :: rest) -> nth_error (kinds s) c = Some k ->
    k <> Direct -> (a_proc a = true -> k = Async) ->
    pstep s (LStep t) (to s (lock s) (keeper s) (queue s ++ [Tk t c v]) (at_pc s t a (match k with Blocking => PHeld c rest | _ => PRun rest end)))
      [ESend t c v Posted]
| XEnd t a v : nth_error (ags s) t = Some a -> a_call a = CNotify v -> a_pc a = PRun [] ->
    pstep s (LStep t) (to s None (keeper s) (queue s) (at_pc s t a PDone)) [EEnd t; ERet t]
| XGo t a v c rest : nth_error (ags s) t = Some a -> a_call a = CNotify v -> a_pc a = PHeld c rest -> waits_for s t = false ->
    pstep s (LStep t) (to s (lock s) (keeper s) (queue s) (at_pc s t a (PRun rest))) []
| XLoop k q : busy s = false -> queue s = k :: q ->
    pstep s LLoop (to s (lock s) (keeper s) q (ags s)) [EProc (k_em k) (k_conn k) (k_val k)]
| XBegin : busy s = false ->
    pstep s LBegin (St (lock s) (keeper s) (kinds s) (queue s) true (closed s) (gone s) (ags s)) [EBegin]
| XFinish : proc_calls s = false ->
    pstep s LFinish (St (lock s) (keeper s) (kinds s) (queue s) false (closed s) (gone s) (ags s)) [EFinish]
| XStop : pstep s LStop (St (lock s) (keeper s) (kinds s) [] (busy s) true (gone s) (ags s)) (EStop :: dropped s)
| XReuse : gone s = false -> pstep s LReuse (St (lock s) (keeper s) (kinds s) (queue s) (busy s) false false (ags s)) [EReuse]
| XGone : busy s = false -> pstep s LGone (St (lock s) (keeper s) (kinds s) [] (busy s) true true (ags s)) (EGone :: dropped s).

Lemma send_pstep s t a v c rest : nth_error (ags s) t = Some a -> a_call a = CNotify v -> a_pc a = PRun (c :: rest) ->
  pstep s (LStep t) (fst (send s t a v c rest)) (snd (send s t a v c rest)).
Proof.
  intros Ha Hc Hp. unfold send. destruct (nth_error (kinds s) c) as [k|] eqn:K; [|apply XIdle].
  destruct k; cbn [fst snd].
  - eapply XRan; eauto.
  - destruct (gone s || closed s) eqn:G; cbn [fst snd]; [eapply XLost; eauto; discriminate|].
    eapply (XPost s t a v c rest Async); eauto; discriminate.
  - destruct (gone s || closed s) eqn:G; cbn [fst snd]; [eapply XLost; eauto; discriminate|].
    destruct (a_proc a) eqn:P; cbn [fst snd]; [eapply XRan; eauto; right; split; [discriminate|exact P]|].
    eapply (XPost s t a v c rest Default); eauto; [discriminate|congruence].
  - destruct (gone s || closed s) eqn:G; cbn [fst snd]; [eapply XLost; eauto; discriminate|].
    destruct (a_proc a) eqn:P; cbn [fst snd]; [eapply XRan; eauto; right; split; [discriminate|exact P]|].
    eapply (XPost s t a v c rest Blocking); eauto; [discriminate|congruence].
Qed.
Lemma step_pstep s l : pstep s l (fst (step s l)) (snd (step s l)).
Proof.
  destruct l as [c p|t| | | | | |]; cbn [step].
  - destruct (_ && _) eqn:E; [|apply XIdle]. apply andb_true_iff in E as [E1 E2]. apply XCall.
    + intros ->. apply andb_true_iff in E1 as [E1 E3]. apply negb_true_iff in E3. auto.
    + intros c' ->. apply Nat.ltb_lt. exact E2.
  - destruct (nth_error (ags s) t) as [a|] eqn:Ha; [|apply XIdle].
    destruct (a_pc a) as [|[|c rest]|c rest|] eqn:P; destruct (a_call a) as [k|c0|v] eqn:C; try apply XIdle.
    + destruct (lock s) eqn:L; [apply XIdle|]. eapply XConn; eauto.
    + destruct (lock s) eqn:L; [apply XIdle|]. eapply XCut; eauto.
    + destruct (lock s) eqn:L; [apply XIdle|]. eapply XEmit; eauto.
    + eapply XEnd; eauto.
    + apply send_pstep; auto.
    + destruct (waits_for s t) eqn:W; [apply XIdle|]. eapply XGo; eauto.
  - destruct (busy s) eqn:B; [apply XIdle|]. destruct (queue s) as [|k q] eqn:Q; [apply XIdle|]. cbn [fst snd]. rewrite <- B.
    apply XLoop; auto.
  - destruct (busy s) eqn:B; [apply XIdle|]. cbn [orb]. destruct (gone s) eqn:G; [apply XIdle|]. cbn [fst snd]. rewrite <- G. apply XBegin. exact B.
  - destruct (busy s); [|apply XIdle]. cbn [andb]. destruct (proc_calls s) eqn:P; [apply XIdle|]. apply XFinish. exact P.
  - destruct (closed s || gone s); [apply XIdle|apply XStop].
  - destruct (gone s) eqn:G; [apply XIdle|]. cbn [fst snd]. apply XReuse. exact G.
  - destruct (busy s || gone s) eqn:B; [apply XIdle|]. apply orb_false_iff in B as [B _]. cbn [fst snd]. apply XGone. exact B.
Qed.

Lemma history_ind (P : history -> st -> list event -> Prop) :
  P [] st_new [] ->
  (forall h l s' ev, P h (final h) (trace h) -> pstep (final h) l s' ev -> P (h ++ [l]) s' (trace h ++ ev)) ->
  forall h, P h (final h) (trace h).
Proof.
  intros H0 HS h. induction h as [|l h IH] using rev_ind; [exact H0|].
  rewrite trace_snoc, final_snoc. apply HS; [exact IH|apply step_pstep].
Qed.
Lemma hist_pos (P : list event -> event -> Prop) :
  (forall h l s' ev, pstep (final h) l s' ev -> forall l3 x l4, ev = l3 ++ x :: l4 -> P (trace h ++ l3) x) ->
  forall h l1 x l2, trace h = l1 ++ x :: l2 -> P l1 x.
Proof.
  intro H. apply (history_ind (fun _ _ tr => forall l1 x l2, tr = l1 ++ x :: l2 -> P l1 x)).
  - intros [|] ? ? E; discriminate.
  - intros h l s' ev IH Hp l1 x l2 E. apply app_split in E as [[l2' E]|[l3 [-> E]]]; [eauto|]. eapply H; eauto.
Qed.

(** ** Connections *)
Definition conn_event (x : event) : bool := match x with ECon _ _ _ | ECut _ => true | _ => false end.
Lemma conn_same tr ev : (forall x, In x ev -> conn_event x = false) -> connected (tr ++ ev) = connected tr.
Proof.
  unfold connected. rewrite fold_left_app. generalize (fold_left (fun l e => match e with ECon _ c _ => l ++ [c] | ECut c => filter (fun x => negb (Nat.eqb x c)) l | _ => l end) tr []).
  induction ev as [|x ev IH]; intros l H; cbn [fold_left]; [reflexivity|].
  assert (Hx := H x (or_introl eq_refl)). destruct x; try discriminate; apply IH; intros y Hy; apply H; right; exact Hy.
Qed.
Lemma dropped_in s x : In x (dropped s) -> exists k, In k (queue s) /\ x = EDrop (k_em k) (k_conn k) (k_val k).
Proof. unfold dropped. intro H. apply in_map_iff in H as (k & <- & Hk). eauto. Qed.

Record connI (s : st) (tr : list event) : Prop := {
  n_keep : keeper s = connected tr;
  n_nodup : NoDup (keeper s);
  n_lt : forall c, In c (keeper s) -> c < length (kinds s);
  n_kind : forall c k, nth_error (kinds s) c = Some k <-> has_kind tr c k;
  n_cut : forall c, In (ECut c) tr -> c < length (kinds s) /\ ~ In c (keeper s) }.

Lemma conn_frame s s' tr ev : connI s tr -> keeper s' = keeper s -> kinds s' = kinds s -> (forall x, In x ev -> conn_event x = false) -> connI s' (tr ++ ev).
Proof.
  intros [K N L D C] E1 E2 H. constructor; rewrite ?E1, ?E2.
  - rewrite conn_same by exact H. exact K.
  - exact N.
  - exact L.
  - intros c k. rewrite D. split; intros [t Ht]; exists t; [apply in_or_app; auto|].
    apply in_app_iff in Ht as [Ht|Ht]; [exact Ht|]. apply H in Ht. discriminate.
  - intros c Hc. apply in_app_iff in Hc as [Hc|Hc]; [auto|]. apply H in Hc. discriminate.
Qed.
Lemma remove_in c x l : In x (remove_conn c l) <-> In x l /\ x <> c.
Proof. unfold remove_conn. rewrite filter_In, negb_true_iff, Nat.eqb_neq. reflexivity. Qed.
Lemma remove_none c l : ~ In c l -> remove_conn c l = l.
Proof.
  unfold remove_conn. induction l as [|y l IH]; intro H; cbn; [reflexivity|]. destruct (Nat.eqb_spec y c) as [->|Hne]; cbn.
  - destruct H. now left.
  - rewrite IH; [reflexivity|]. intro Hc. apply H. now right.
Qed.
Lemma connected_con tr t c k ev : (forall x, In x ev -> conn_event x = false) -> connected (tr ++ ECon t c k :: ev) = connected tr ++ [c].
Proof.
  intro H. replace (tr ++ ECon t c k :: ev) with ((tr ++ [ECon t c k]) ++ ev) by (rewrite <- app_assoc; reflexivity).
  rewrite conn_same by exact H. unfold connected. rewrite fold_left_app. reflexivity.
Qed.
Lemma connected_cut tr c ev : (forall x, In x ev -> conn_event x = false) -> connected (tr ++ ECut c :: ev) = remove_conn c (connected tr).
Proof.
  intro H. replace (tr ++ ECut c :: ev) with ((tr ++ [ECut c]) ++ ev) by (rewrite <- app_assoc; reflexivity).
  rewrite conn_same by exact H. unfold connected. rewrite fold_left_app. reflexivity.
Qed.
Ltac noconn := let x := fresh "x" in let K := fresh "K" in intros x K; cbn in K;
  repeat (destruct K as [K|K]; [subst; reflexivity|]); first [contradiction | apply dropped_in in K as (? & _ & ->); reflexivity].

Lemma conn_step s l s' ev tr : connI s tr -> pstep s l s' ev -> connI s' (tr ++ ev).
Proof.
  intros I Hp. destruct Hp; try (eapply conn_frame; [exact I|reflexivity|reflexivity|noconn]).
  - (* XConn *)
    destruct I as [K N L D C]. subst c. assert (Hfresh : ~ In (length (kinds s)) (keeper s)) by (intro Hx; apply L in Hx; lia).
    constructor; cbn [keeper kinds].
    + rewrite connected_con by noconn. rewrite K. reflexivity.
    + apply (Permutation.Permutation_NoDup (l := length (kinds s) :: keeper s)); [apply Permutation.Permutation_cons_append|].
      constructor; assumption.
    + intros c Hc. rewrite app_length. cbn. apply in_app_iff in Hc as [Hc|[Hc|[]]]; [apply L in Hc|]; lia.
    + intros c k'. rewrite nth_snoc. unfold has_kind. split.
      * destruct (Nat.eqb_spec c (length (kinds s))) as [->|Hne]; intro Hx.
        -- inversion Hx; subst. exists t. apply in_or_app. right. now left.
        -- apply D in Hx as [t' Ht']. exists t'. apply in_or_app. auto.
      * intros [t' Ht']. apply in_app_iff in Ht' as [Ht'|[Ht'|[Ht'|[]]]]; [| |discriminate].
        -- assert (Hx : nth_error (kinds s) c = Some k') by (apply D; exists t'; exact Ht').
           assert (Hlt := nth_lt _ _ _ Hx). destruct (Nat.eqb_spec c (length (kinds s))); [lia|exact Hx].
        -- inversion Ht'; subst. rewrite Nat.eqb_refl. reflexivity.
    + intros c Hc. rewrite app_length. cbn. apply in_app_iff in Hc as [Hc|[Hc|[Hc|[]]]]; [|discriminate|discriminate].
      apply C in Hc as [Hlt Hni]. split; [lia|]. rewrite in_app_iff. intros [Hx|[Hx|[]]]; [auto|lia].
  - (* XCut *)
    destruct I as [K N L D C]. constructor; cbn [keeper kinds to].
    + destruct (existsb (Nat.eqb c) (keeper s)) eqn:E; cbn [app].
      * rewrite connected_cut by noconn. rewrite K. reflexivity.
      * rewrite conn_same by noconn. rewrite <- K. apply remove_none. intro Hin.
        assert (X : existsb (Nat.eqb c) (keeper s) = true); [|congruence]. apply existsb_exists. exists c. split; [exact Hin|apply Nat.eqb_refl].
    + apply NoDup_filter. exact N.
    + intros x Hx. apply remove_in in Hx as [Hx _]. auto.
    + intros x k. rewrite D. unfold has_kind. split; intros [t' Ht']; exists t'; [apply in_or_app; auto|].
      apply in_app_iff in Ht' as [Ht'|Ht']; [exact Ht'|]. destruct (existsb (Nat.eqb c) (keeper s)); cbn in Ht'; intuition discriminate.
    + intros x Hx. apply in_app_iff in Hx as [Hx|Hx].
      * apply C in Hx as [Hlt Hni]. split; [exact Hlt|]. rewrite remove_in. tauto.
      * destruct (existsb (Nat.eqb c) (keeper s)) eqn:E; cbn in Hx; [|intuition discriminate].
        destruct Hx as [Hx|[Hx|[]]]; [|discriminate]. inversion Hx; subst. apply existsb_exists in E as (y & Hy & Ey). apply Nat.eqb_eq in Ey. subst y.
        split; [auto|]. rewrite remove_in. tauto.
Qed.
