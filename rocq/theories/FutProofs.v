(** Waitable connections: the steps as a relation and the invariant. *)
From Verif Require Import ListUtil FutModel FutSpec.

Lemma run_app s h1 h2 : run s (h1 ++ h2) = let (s1, e1) := run s h1 in let (s2, e2) := run s1 h2 in (s2, e1 ++ e2).
Proof.
  revert s. induction h1 as [|l h1 IH]; intro s; cbn [run app].
  - destruct (run s h2); reflexivity.
  - destruct (step s l) as [s1 e1]. rewrite IH. destruct (run s1 h1) as [s2 e2]. destruct (run s2 h2) as [s3 e3].
    rewrite app_assoc. reflexivity.
Qed.
Lemma final_snoc h l : final (h ++ [l]) = fst (step (final h) l).
Proof. unfold final. rewrite run_app. destruct (run st_new h) as [s e]. cbn [run fst]. destruct (step s l). reflexivity. Qed.
Lemma trace_snoc h l : trace (h ++ [l]) = trace h ++ snd (step (final h) l).
Proof.
  unfold trace, final. rewrite run_app. destruct (run st_new h) as [s e]. cbn [run fst snd]. destruct (step s l).
  cbn [snd]. rewrite app_nil_r. reflexivity.
Qed.
Lemma trace_app h1 h2 : exists ev, trace (h1 ++ h2) = trace h1 ++ ev.
Proof.
  unfold trace. rewrite run_app. destruct (run st_new h1) as [s e]. destruct (run s h2) as [s2 e2]. exists e2. reflexivity.
Qed.
Lemma app_split {A} (tr ev l1 l2 : list A) e : tr ++ ev = l1 ++ e :: l2 ->
  (exists l2', tr = l1 ++ e :: l2') \/ (exists l3, l1 = tr ++ l3 /\ ev = l3 ++ e :: l2).
Proof.
  revert l1. induction tr as [|x tr IH]; intros l1 H; cbn in H.
  - right. exists l1. auto.
  - destruct l1 as [|y l1]; cbn in H; injection H as Hx H.
    + subst. left. exists tr. reflexivity.
    + subst y. apply IH in H as [[l2' ->]|[l3 [-> ->]]]; [left; exists l2'; reflexivity|right; exists l3; auto].
Qed.

Definition taken (x : wt) : wt := Wt (w_in x) (w_held x) (w_prom x) false (w_pub x).
Inductive pstep (s : st) : label -> st -> list event -> Prop :=
| XIdle l : pstep s l s []
| XCall c i : may_call s c i = true ->
    pstep s (LCall c i) (St (lock s) (wts s) (ags s ++ [Ag c i PStart])) [ECall (length (ags s)) c]
| XJoin t p b i w : nth_error (ags s) t = Some (Ag CConnect i PStart) -> can_lock s i = true -> w = length (wts s) ->
    pstep s (LStep t p b) (upd (St (lock s) (wts s ++ [Wt true false Pend true false]) (ags s)) t (Ag CConnect i PStart) (PCheck w)) [EJoin t w]
| XGot t p b i w x : nth_error (ags s) t = Some (Ag CConnect i (PCheck w)) -> nth_error (wts s) w = Some x -> w_in x = true ->
    pstep s (LStep t p b) (upd (set_wt s w (Wt true (w_held x) (w_prom x) (w_fut x) true)) t (Ag CConnect i (PCheck w)) PDone) [ERet t (RFut (Some w))]
| XMiss t p b i w x : nth_error (ags s) t = Some (Ag CConnect i (PCheck w)) -> nth_error (wts s) w = Some x -> w_in x = false ->
    pstep s (LStep t p b) (upd s t (Ag CConnect i (PCheck w)) PDone) [ERet t (RFut None)]
| XEmit t p b v i : nth_error (ags s) t = Some (Ag (CEmit v) i PStart) -> lock s = None ->
    pstep s (LStep t p b) (upd (set_lock s (Some t)) t (Ag (CEmit v) i PStart) PRun) [EEmit t v]
| XFire t b v i w x : nth_error (ags s) t = Some (Ag (CEmit v) i PRun) -> nth_error (wts s) w = Some x -> w_in x = true ->
    pstep s (LStep t (Some w) b) (set_wt s w (Wt false (w_held x) (Val v) (w_fut x) (w_pub x))) [EFire t w v]
| XEnd t b v i : nth_error (ags s) t = Some (Ag (CEmit v) i PRun) -> (forall w x, nth_error (wts s) w = Some x -> w_in x = false) ->
    pstep s (LStep t None b) (upd (set_lock s None) t (Ag (CEmit v) i PRun) PDone) [EEnd t; ERet t RUnit]
| XClear t p b i : nth_error (ags s) t = Some (Ag CClear i PStart) -> lock s = None ->
    pstep s (LStep t p b) (upd (break_all s) t (Ag CClear i PStart) PDone) (broken_now s ++ [ERet t RUnit])
| XCancel t p b i w x : nth_error (ags s) t = Some (Ag (CCancel w) i PStart) -> nth_error (wts s) w = Some x -> w_in x = true ->
    pstep s (LStep t p b) (upd (set_wt s w (Wt false true (w_prom x) (w_fut x) (w_pub x))) t (Ag (CCancel w) i PStart) PDone) [ECancel w; ERet t RUnit]
| XCancel0 t p b i w x : nth_error (ags s) t = Some (Ag (CCancel w) i PStart) -> nth_error (wts s) w = Some x -> w_in x = false ->
    pstep s (LStep t p b) (upd s t (Ag (CCancel w) i PStart) PDone) [ERet t RUnit]
| XNoFut t p b c i w x : nth_error (ags s) t = Some (Ag c i PStart) -> waits_on c = Some w -> nth_error (wts s) w = Some x -> w_fut x = false ->
    pstep s (LStep t p b) (upd s t (Ag c i PStart) PDone) [ERet t (RBool false)]
| XBlock t p b c i w x : nth_error (ags s) t = Some (Ag c i PStart) -> waits_on c = Some w -> nth_error (wts s) w = Some x -> w_fut x = true ->
    pstep s (LStep t p b) (upd s t (Ag c i PStart) PBlock) []
| XVal t p b c i w x v : nth_error (ags s) t = Some (Ag c i PBlock) -> waits_on c = Some w -> nth_error (wts s) w = Some x -> w_prom x = Val v ->
    pstep s (LStep t p b) (upd (set_wt s w (taken x)) t (Ag c i PBlock) (PSlot v)) [ESlot t w v]
| XBroken t p b c i w x : nth_error (ags s) t = Some (Ag c i PBlock) -> waits_on c = Some w -> nth_error (wts s) w = Some x -> w_prom x = Broken ->
    pstep s (LStep t p b) (upd (set_wt s w (taken x)) t (Ag c i PBlock) PDone) [ERet t (RBool false)]
| XExpired t p b i w x : nth_error (ags s) t = Some (Ag (CWaitFor w) i PBlock) -> nth_error (wts s) w = Some x -> w_prom x = Pend ->
    pstep s (LStep t p b) (upd s t (Ag (CWaitFor w) i PBlock) PDone) [ERet t (RBool false)]
| XTrue t p b c i w v : nth_error (ags s) t = Some (Ag c i (PSlot v)) -> waits_on c = Some w ->
    pstep s (LStep t p b) (upd s t (Ag c i (PSlot v)) PDone) [ERet t (RBool true)].

Lemma wait_pstep s t p b c i pc w x timed : nth_error (ags s) t = Some (Ag c i pc) -> nth_error (wts s) w = Some x ->
  (timed = false /\ c = CWait w \/ timed = true /\ c = CWaitFor w) ->
  let r := wait_step s t (Ag c i pc) w x timed b in pstep s (LStep t p b) (fst r) (snd r).
Proof.
  intros Ha Hx Hc. cbv zeta. assert (Hw : waits_on c = Some w) by (destruct Hc as [[_ ->]|[_ ->]]; reflexivity).
  unfold wait_step. cbn [a_pc]. destruct pc; try apply XIdle.
  - destruct (w_fut x) eqn:F; [eapply XBlock; eauto|eapply XNoFut; eauto].
  - destruct (w_prom x) as [|v|] eqn:P.
    + destruct (timed && b) eqn:T; [|apply XIdle]. apply andb_true_iff in T as [-> ->].
      destruct Hc as [[? _]|[_ ->]]; [discriminate|]. eapply XExpired; eauto.
    + cbn [fst snd]. rewrite <- P. eapply (XVal s t p b c i w x v); eauto.
    + cbn [fst snd]. rewrite <- P. eapply (XBroken s t p b c i w x); eauto.
  - eapply XTrue; eauto.
Qed.
Lemma step_pstep s l : pstep s l (fst (step s l)) (snd (step s l)).
Proof.
  destruct l as [c i|t p b]; cbn [step].
  { destruct (may_call s c i) eqn:E; [now apply XCall|apply XIdle]. }
  destruct (nth_error (ags s) t) as [[c i q]|] eqn:Ha; [|apply XIdle]. cbn [a_call a_pc a_in].
  destruct c as [|v| |w|w|w].
  - destruct q; try apply XIdle.
    + destruct (can_lock s i) eqn:L; [now apply XJoin|apply XIdle].
    + destruct (can_lock s i) eqn:L; [|apply XIdle]. destruct (nth_error (wts s) w) as [x|] eqn:Hx; [|apply XIdle].
      destruct (w_in x) eqn:W; [eapply XGot; eauto|eapply XMiss; eauto].
  - destruct q; try apply XIdle.
    + unfold can_lock. destruct (lock s) eqn:L; [apply XIdle|]. now apply XEmit.
    + destruct (busy_in s t); [apply XIdle|]. destruct p as [w|].
      * destruct (nth_error (wts s) w) as [x|] eqn:Hx; [|apply XIdle]. destruct (w_in x) eqn:W; [eapply XFire; eauto|apply XIdle].
      * destruct (existsb w_in (wts s)) eqn:X; [apply XIdle|]. apply XEnd; [exact Ha|]. intros w x Hx.
        destruct (w_in x) eqn:W; [|reflexivity]. assert (existsb w_in (wts s) = true); [|congruence].
        apply existsb_exists. exists x. split; [eapply nth_error_In; eauto|exact W].
  - destruct q; try apply XIdle. unfold can_lock. destruct (lock s) eqn:L; [apply XIdle|]. now apply XClear.
  - destruct q; try apply XIdle. destruct (nth_error (wts s) w) as [x|] eqn:Hx; [|apply XIdle].
    destruct (w_in x) eqn:W; [|eapply XCancel0; eauto]. destruct (can_lock s i); [eapply XCancel; eauto|apply XIdle].
  - destruct (nth_error (wts s) w) as [x|] eqn:Hx; [|apply XIdle]. eapply (wait_pstep s t p b (CWait w)); eauto.
  - destruct (nth_error (wts s) w) as [x|] eqn:Hx; [|apply XIdle]. eapply (wait_pstep s t p b (CWaitFor w)); eauto.
Qed.

Lemma history_ind (P : history -> st -> list event -> Prop) :
  P [] st_new [] ->
  (forall h l s' ev, P h (final h) (trace h) -> pstep (final h) l s' ev -> P (h ++ [l]) s' (trace h ++ ev)) ->
  forall h, P h (final h) (trace h).
Proof.
  intros H0 HS h. induction h as [|l h IH] using rev_ind; [exact H0|].
  rewrite trace_snoc, final_snoc. apply HS; [exact IH|apply step_pstep].
Qed.
Lemma hist_pos (P : list event -> event -> Prop) :
  (forall h l s' ev, pstep (final h) l s' ev -> forall l3 x l4, ev = l3 ++ x :: l4 -> P (trace h ++ l3) x) ->
  forall h l1 x l2, trace h = l1 ++ x :: l2 -> P l1 x.
Proof.
  intro H. apply (history_ind (fun _ _ tr => forall l1 x l2, tr = l1 ++ x :: l2 -> P l1 x)).
  - intros [|] ? ? E; discriminate.
  - intros h l s' ev IH Hp l1 x l2 E. apply app_split in E as [[l2' E]|[l3 [-> E]]]; [eauto|]. eapply H; eauto.
Qed.

(** ** Waitable connections *)
Definition about (w : nat) (e : event) : bool :=
  match e with EJoin _ w' | EFire _ w' _ | EBroke w' | ECancel w' | ESlot _ w' _ => Nat.eqb w w' | _ => false end.
Definition no_slot (tr : list event) (w : nat) : Prop := cnt (slot_for w) tr = 0.
Definition wt_ok (tr : list event) (w : nat) (x : wt) : Prop :=
  (exists t, In (EJoin t w) tr) /\ (w_held x = true -> w_pub x = true) /\
  match w_prom x with
  | Pend => w_in x = negb (w_held x) /\ w_fut x = true /\ cnt (fires w) tr = 0 /\ ~ In (EBroke w) tr /\ no_slot tr w /\
            (if w_held x then In (ECancel w) tr else ~ In (ECancel w) tr)
  | Val v => w_in x = false /\ cnt (fires w) tr = 1 /\ fired tr w v /\ ~ In (EBroke w) tr /\ ~ In (ECancel w) tr /\
             (if w_fut x then no_slot tr w else cnt (slot_for w) tr = 1)
  | Broken => w_in x = false /\ cnt (fires w) tr = 0 /\ In (EBroke w) tr /\ ~ In (ECancel w) tr /\ no_slot tr w
  end.

Lemma cnt_frame (f : event -> bool) tr ev : (forall e, In e ev -> f e = false) -> cnt f (tr ++ ev) = cnt f tr.
Proof. intro H. rewrite cnt_app, (cnt_zero f ev H). lia. Qed.
Lemma wt_frame tr ev w x : (forall e, In e ev -> about w e = false) -> wt_ok tr w x -> wt_ok (tr ++ ev) w x.
Proof.
  intros Ha ([t Hj] & Hh & H).
  assert (C1 : cnt (fires w) (tr ++ ev) = cnt (fires w) tr).
  { apply cnt_frame. intros e He. apply Ha in He. destruct e; auto. }
  assert (C2 : cnt (slot_for w) (tr ++ ev) = cnt (slot_for w) tr).
  { apply cnt_frame. intros e He. apply Ha in He. destruct e; auto. }
  assert (C3 : In (EBroke w) (tr ++ ev) <-> In (EBroke w) tr).
  { rewrite in_app_iff. split; [intros [?|He]; [auto|]|auto]. apply Ha in He. cbn in He. rewrite Nat.eqb_refl in He. discriminate. }
  assert (C4 : In (ECancel w) (tr ++ ev) <-> In (ECancel w) tr).
  { rewrite in_app_iff. split; [intros [?|He]; [auto|]|auto]. apply Ha in He. cbn in He. rewrite Nat.eqb_refl in He. discriminate. }
  split; [exists t; apply in_or_app; auto|]. split; [exact Hh|]. unfold no_slot in *. rewrite C1, C2. destruct (w_prom x) as [|v|].
  - destruct H as (? & ? & ? & ? & ? & ?). rewrite C3. repeat (split; [assumption|]). destruct (w_held x); rewrite C4; assumption.
  - destruct H as (? & ? & [e He] & ? & ? & ?). rewrite C3, C4. repeat (split; [assumption|]).
    split; [exists e; apply in_or_app; auto|]. auto.
  - destruct H as (? & ? & ? & ? & ?). rewrite C3, C4. auto 6.
Qed.

Record wtsI (s : st) (tr : list event) : Prop := {
  b_ok : forall w x, nth_error (wts s) w = Some x -> wt_ok tr w x;
  b_none : forall w e, length (wts s) <= w -> In e tr -> about w e = false }.

(** ** Calls *)
Record agsI (s : st) (tr : list event) : Prop := {
  g_call : forall t c, called tr t c <-> exists a, nth_error (ags s) t = Some a /\ a_call a = c;
  g_done : forall t, returned tr t <-> exists a, nth_error (ags s) t = Some a /\ a_pc a = PDone;
  g_once : forall t, cnt (rets t) tr <= 1;
  g_check : forall t a w, nth_error (ags s) t = Some a -> a_pc a = PCheck w -> In (EJoin t w) tr;
  g_slot : forall t a v, nth_error (ags s) t = Some a -> a_pc a = PSlot v -> exists w, waits_on (a_call a) = Some w /\ In (ESlot t w v) tr;
  g_said : forall t w v, In (ESlot t w v) tr -> exists a, nth_error (ags s) t = Some a /\ waits_on (a_call a) = Some w /\
             (a_pc a = PSlot v \/ In (ERet t (RBool true)) tr);
  g_run : forall t a, nth_error (ags s) t = Some a -> a_pc a = PRun -> exists v, a_call a = CEmit v /\ In (EEmit t v) tr;
  g_known : forall t a w, nth_error (ags s) t = Some a -> (a_call a = CCancel w \/ waits_on (a_call a) = Some w) -> known s w = true;
  g_block : forall t a, nth_error (ags s) t = Some a -> match a_pc a with PBlock => exists w, waits_on (a_call a) = Some w | _ => True end }.
