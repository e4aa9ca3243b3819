(** Invariants of the queue model. *)
From Verif Require Import ListUtil QueueModel QueueSpec.
From Coq Require Import Permutation.

Section P.
Variable V : Type.
Variable fr : list V -> nat -> bool.
Notation state := (state V). Notation task := (task V). Notation history := (history V).

Lemma final_snoc h l : final fr (h ++ [l]) = next fr (final fr h) l.
Proof. unfold final. rewrite fold_left_app. reflexivity. Qed.
Lemma final_app h1 h2 : final fr (h1 ++ h2) = fold_left (next fr) h2 (final fr h1).
Proof. unfold final. apply fold_left_app. Qed.

(** ** Waking *)
Definition woke1 (x y : task) : Prop := y = x \/ (snd x = PAsleep /\ y = (fst x, PEnter)).
Definition woke (l l' : list task) : Prop := Forall2 woke1 l l'.

Lemma woke_refl l : woke l l.
Proof. induction l; constructor; [left; reflexivity|assumption]. Qed.
Lemma woke_all l : woke l (wake_all l).
Proof.
  induction l as [|[o p] l IH]; cbn; constructor; [|exact IH].
  unfold wake1, woke1. cbn. destruct p; auto.
Qed.
Lemma woke_set l c o : nth_error l c = Some (o, PAsleep) -> woke l (set_nth c (o, PEnter) l).
Proof.
  revert c. induction l as [|x l IH]; intros [|c] H; cbn in *; try discriminate.
  - injection H as ->. constructor; [right; auto|apply woke_refl].
  - constructor; [left; reflexivity|apply IH; exact H].
Qed.
Lemma woke_one l c l' : wake_one c l = Some l' -> woke l l'.
Proof.
  unfold wake_one. destruct (nth_error l c) as [[o p]|] eqn:E.
  - destruct p; try (destruct (existsb asleepb l); intros H; inversion H; subst; apply woke_refl).
    intros [= <-]. apply woke_set. exact E.
  - destruct (existsb asleepb l); intros H; inversion H; subst; apply woke_refl.
Qed.
Lemma woke_length l l' : woke l l' -> length l' = length l.
Proof. induction 1; cbn; congruence. Qed.
Lemma woke_nth l l' : woke l l' -> forall t o p, nth_error l' t = Some (o, p) ->
  nth_error l t = Some (o, p) \/ (p = PEnter /\ nth_error l t = Some (o, PAsleep)).
Proof.
  induction 1 as [|[o1 p1] y l l' W F IH]; intros [|t] o p H; cbn in *; try discriminate.
  - injection H as ->. destruct W as [W|[W1 W2]]; cbn in *.
    + injection W as -> ->. auto.
    + injection W2 as -> ->. subst. auto.
  - apply IH. exact H.
Qed.
Lemma woke_nth' l l' : woke l l' -> forall t o p, nth_error l t = Some (o, p) ->
  nth_error l' t = Some (o, p) \/ (p = PAsleep /\ nth_error l' t = Some (o, PEnter)).
Proof.
  induction 1 as [|[o1 p1] y l l' W F IH]; intros [|t] o p H; cbn in *; try discriminate.
  - injection H as -> ->. destruct W as [W|[W1 W2]]; cbn in *; subst; auto.
  - apply IH. exact H.
Qed.
Lemma woke_fst l l' : woke l l' -> map fst l' = map fst l.
Proof.
  induction 1 as [|x y l l' W F IH]; cbn; [reflexivity|]. rewrite IH. f_equal.
  destruct W as [->|[_ ->]]; reflexivity.
Qed.

(** ** The possible steps *)
Inductive tstep (s : state) : state -> Prop :=
| TCall o : tstep s (with_tasks s (tasks s ++ [(o, PStart)]))
| TDrop t o : nth_error (tasks s) t = Some (o, PStart) -> is_push o = true -> closed s = true -> tstep s (ret s t o RDone)
| TOpen t o : nth_error (tasks s) t = Some (o, PStart) -> is_push o = true -> closed s = false -> tstep s (set_pc s t o PPush)
| TPut t o l : nth_error (tasks s) t = Some (o, PPush) -> mutex s = None -> woke (tasks s) l ->
    (match o with OPush _ => exists c, wake_one c (tasks s) = Some l | _ => l = wake_all (tasks s) end) ->
    tstep s (ret (emit (with_items (with_tasks s l) (items s ++ elems o)) (EPut t (elems o))) t o RDone)
| TWait t b : nth_error (tasks s) t = Some (OWait b, PStart) -> tstep s (set_pc s t (OWait b) PEnter)
| TEval t o p : nth_error (tasks s) t = Some (o, p) ->
    (p = PEnter \/ p = PTimeout \/ (p = PStart /\ o = OTryPop /\ items s <> [])) ->
    mutex s = None -> pred s = true -> tstep s (with_mutex (set_pc s t o PChecked) (Some t))
| TPre t o : nth_error (tasks s) t = Some (o, PEnter) -> mutex s = None -> items s = [] -> closed s = false ->
    tstep s (with_mutex (set_pc s t o PSleepPre) (Some t))
| TSleep t o : nth_error (tasks s) t = Some (o, PSleepPre) -> tstep s (with_mutex (set_pc s t o PAsleep) None)
| TNone t o p : nth_error (tasks s) t = Some (o, p) -> (p = PTimeout \/ (p = PStart /\ o = OTryPop)) ->
    mutex s = None -> items s = [] -> tstep s (ret s t o RNothing)
| TShut t o : nth_error (tasks s) t = Some (o, PChecked) -> closed s = true -> tstep s (with_mutex (ret s t o RNothing) None)
| TGo t o : nth_error (tasks s) t = Some (o, PChecked) -> closed s = false -> tstep s (set_pc s t o PPop)
| TTake t o c v : nth_error (tasks s) t = Some (o, PPop) -> nth_error (items s) c = Some v -> fr (items s) c = true ->
    tstep s (with_mutex (ret (emit (with_items s (remove_nth c (items s))) (ETake t v)) t o (RTook v)) None)
| TUndef t o : nth_error (tasks s) t = Some (o, PPop) -> items s = [] -> tstep s (emit s (EUndefined t))
| TClosed t : nth_error (tasks s) t = Some (OClose, PStart) -> closed s = true -> tstep s (ret s t OClose RDone)
| TClose t : nth_error (tasks s) t = Some (OClose, PStart) -> closed s = false ->
    tstep s (with_closed (set_pc s t OClose PNotify) true)
| TNotify t o : nth_error (tasks s) t = Some (o, PNotify) -> tstep s (ret (with_tasks s (wake_all (tasks s))) t o RDone)
| TReOpen t : nth_error (tasks s) t = Some (OReOpen, PStart) -> tstep s (with_closed (ret s t OReOpen RDone) false)
| TClear t b : nth_error (tasks s) t = Some (OClear b, PStart) -> mutex s = None ->
    tstep s (with_items (ret (emit s (EClear t (items s))) t (OClear b) RDone) [])
| TRead t o r : nth_error (tasks s) t = Some (o, PStart) -> (o = OSize \/ o = OEmpty \/ o = OIsClosed) ->
    (forall v, r <> RTook v) -> (o = OSize -> r = RNum (length (items s))) -> (o = OEmpty -> r = RBool (negb (nonempty s))) ->
    (o = OIsClosed -> r = RBool (closed s)) -> tstep s (ret s t o r)
| TTimeout t : nth_error (tasks s) t = Some (OWait true, PAsleep) -> tstep s (set_pc s t (OWait true) PTimeout)
| TSpurious t o : nth_error (tasks s) t = Some (o, PAsleep) -> tstep s (set_pc s t o PEnter).

Lemma free_none (s : state) : free s = true -> mutex s = None.
Proof. unfold free. destruct (mutex s); [discriminate|reflexivity]. Qed.
Lemma nonempty_true (s : state) : nonempty s = true -> items s <> [].
Proof. unfold nonempty. destruct (items s); [discriminate|congruence]. Qed.
Lemma nonempty_false (s : state) : nonempty s = false -> items s = [].
Proof. unfold nonempty. destruct (items s); [reflexivity|discriminate]. Qed.
Lemma pred_false (s : state) : pred s = false -> items s = [] /\ closed s = false.
Proof. unfold pred. intros H. apply orb_false_iff in H as [H1 H2]. split; [apply nonempty_false; exact H1|exact H2]. Qed.

Lemma next_cases s l : next fr s l = s \/ tstep s (next fr s l).
Proof.
  destruct l as [o|t c|t|t]; cbn.
  - right. constructor.
  - destruct (nth_error (tasks s) t) as [[o p]|] eqn:E; [|auto].
    destruct p; cbn; auto.
    + destruct o; auto.
      * destruct (closed s) eqn:C; right; [eapply TDrop; eauto|eapply TOpen; eauto].
      * destruct (closed s) eqn:C; right; [eapply TDrop; eauto|eapply TOpen; eauto].
      * right. eapply TWait; eauto.
      * destruct (free s) eqn:F; auto. apply free_none in F. destruct (nonempty s) eqn:N; right.
        -- eapply TEval; eauto; [do 2 right; auto using nonempty_true|unfold pred; rewrite N; reflexivity].
        -- eapply TNone; eauto using nonempty_false.
      * destruct (closed s) eqn:C; right; [eapply TClosed; eauto|eapply TClose; eauto].
      * right. eapply TReOpen; eauto.
      * destruct (free s) eqn:F; auto. right. eapply TClear; eauto using free_none.
      * destruct (free s) eqn:F; auto. right. eapply TRead; eauto; congruence.
      * destruct (free s) eqn:F; auto. right. eapply TRead; eauto; congruence.
      * right. eapply TRead; eauto; congruence.
    + destruct (free s) eqn:F; auto. apply free_none in F.
      destruct (match o with OPush _ => wake_one c (tasks s) | _ => Some (wake_all (tasks s)) end) as [l|] eqn:W; auto.
      right. apply TPut; auto.
      * destruct o; try (injection W as <-; apply woke_all). eapply woke_one; eauto.
      * destruct o; try (injection W as <-; reflexivity). eauto.
    + destruct (free s) eqn:F; auto. apply free_none in F. destruct (pred s) eqn:P; right.
      * eapply TEval; eauto.
      * apply pred_false in P as [P1 P2]. eapply TPre; eauto.
    + right. eapply TSleep; eauto.
    + destruct (free s) eqn:F; auto. apply free_none in F. destruct (pred s) eqn:P; right.
      * eapply TEval; eauto.
      * apply pred_false in P as [P1 P2]. eapply TNone; eauto.
    + destruct (closed s) eqn:C; right; [eapply TShut; eauto|eapply TGo; eauto].
    + destruct (nth_error (items s) c) as [v|] eqn:N.
      * destruct (fr (items s) c) eqn:F; auto. right. eapply TTake; eauto.
      * destruct (items s) eqn:I; auto. right. eapply TUndef; eauto.
    + right. eapply TNotify; eauto.
  - destruct (nth_error (tasks s) t) as [[o p]|] eqn:E; [|auto].
    destruct o as [| |[|]| | | | | | |]; auto. destruct p; auto. right. eapply TTimeout; eauto.
  - destruct (nth_error (tasks s) t) as [[o p]|] eqn:E; [|auto].
    destruct p; auto. right. eapply TSpurious; eauto.
Qed.

(** Induction over histories. *)
Lemma state_ind (P : state -> Prop) : P init -> (forall s s', P s -> tstep s s' -> P s') -> forall h, P (final fr h).
Proof.
  intros H0 HS h. induction h as [|l h IH] using rev_ind; [exact H0|].
  rewrite final_snoc. destruct (next_cases (final fr h) l) as [->|T]; [exact IH|]. eapply HS; eauto.
Qed.

(** ** Conservation and order *)
Lemma puts_app a b : puts (a ++ b) = puts a ++ puts (V := V) b.
Proof. apply flat_map_app. Qed.
Lemma outs_app a b : outs (a ++ b) = outs a ++ outs (V := V) b.
Proof. apply flat_map_app. Qed.

Lemma remove_nth_perm (l : list V) i v : nth_error l i = Some v -> Permutation l (v :: remove_nth i l).
Proof.
  revert i. induction l as [|x l IH]; intros [|i] H; cbn in *; try discriminate.
  - injection H as ->. reflexivity.
  - rewrite (IH _ H) at 1. apply perm_swap.
Qed.

Lemma puts_cons e b : puts (e :: b) = put_of e ++ puts (V := V) b.
Proof. reflexivity. Qed.
Lemma outs_cons e b : outs (e :: b) = out_of e ++ outs (V := V) b.
Proof. reflexivity. Qed.
Lemma puts_nil : puts (V := V) [] = [].
Proof. reflexivity. Qed.
Lemma outs_nil : outs (V := V) [] = [].
Proof. reflexivity. Qed.
Ltac norm := repeat rewrite ?puts_app, ?outs_app, ?puts_cons, ?outs_cons, ?puts_nil, ?outs_nil, ?app_nil_r in *; cbn [put_of out_of app] in *; rewrite ?app_nil_r in *.

Lemma conserve h : Permutation (puts (trace fr h)) (outs (trace fr h) ++ content fr h).
Proof.
  unfold trace, content. apply (state_ind (fun s => Permutation (puts (tr s)) (outs (tr s) ++ items s))); [reflexivity|].
  intros s s' IH T. destruct T; cbn [tr items ret emit set_pc with_items with_tasks with_mutex with_closed]; norm; try exact IH.
  - rewrite IH, app_assoc. reflexivity.
  - rewrite IH, <- app_assoc. apply Permutation_app_head. cbn. apply remove_nth_perm. assumption.
Qed.

End P.

(** For the FIFO container order is kept exactly. *)
Lemma in_order V h : puts (trace (V := V) fifo h) = outs (trace fifo h) ++ content fifo h.
Proof.
  unfold trace, content. apply (state_ind V fifo (fun s => puts (tr s) = outs (tr s) ++ items s)); [reflexivity|].
  intros s s' IH T. destruct T; cbn [tr items ret emit set_pc with_items with_tasks with_mutex with_closed];
    repeat rewrite ?puts_app, ?outs_app, ?puts_cons, ?outs_cons, ?puts_nil, ?outs_nil, ?app_nil_r in *; cbn [put_of out_of app] in *; rewrite ?app_nil_r in *; try exact IH.
  - rewrite IH, app_assoc. reflexivity.
  - rewrite IH. destruct (items s) as [|x l]; [destruct c; discriminate|].
    unfold fifo in *. destruct c; [|discriminate]. match goal with H : nth_error _ _ = Some _ |- _ => cbn in H; injection H as -> end. cbn. rewrite <- app_assoc. reflexivity.
Qed.
