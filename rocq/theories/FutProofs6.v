(** Waitable connections: a wait whose outcome is there returns. *)
From Verif Require Import ListUtil FutModel FutSpec FutProofs FutProofs2 FutProofs3 FutProofs4 FutProofs5.

Lemma in_before h x : In x (trace h) -> exists l1 l2, trace h = l1 ++ x :: l2 /\ before l1 x.
Proof. intro H. apply in_split in H as (l1 & l2 & E). exists l1, l2. split; [exact E|]. eapply before_ok; eauto. Qed.
Lemma prefix_in (tr l1 l2 : list event) x e : tr = l1 ++ x :: l2 -> In e l1 -> In e tr.
Proof. intros -> H. apply in_or_app. auto. Qed.
Lemma fired_prefix tr l1 l2 x w v : tr = l1 ++ x :: l2 -> fired l1 w v -> fired tr w v.
Proof. intros E [e H]. exists e. eapply prefix_in; eauto. Qed.

(** The record of a connection that occurs in the trace. *)
Lemma joined_wt h t w : In (EJoin t w) (trace h) -> exists x, nth_error (wts (final h)) w = Some x /\ wt_ok (trace h) w x.
Proof.
  intro H. destruct (inv_final h) as [B _ _]. destruct (nth_error (wts (final h)) w) as [x|] eqn:E.
  - exists x. split; [reflexivity|]. apply (b_ok _ _ B). exact E.
  - apply nth_error_None in E. assert (N := b_none _ _ B w _ E H). cbn in N. rewrite Nat.eqb_refl in N. discriminate.
Qed.
Lemma fired_once tr w : cnt (fires w) tr = 0 -> (exists v, fired tr w v) -> False.
Proof. intros D [v H]. exact (not_fired _ _ D v H). Qed.
Lemma slotted tr w : cnt (slot_for w) tr = 0 -> handled tr w -> False.
Proof. intros D (t & v & H). apply cnt_zero_inv with (x := ESlot t w v) in D; [|exact H]. cbn in D. rewrite Nat.eqb_refl in D. discriminate. Qed.

Lemma call_unique h t c c' : called (trace h) t c -> called (trace h) t c' -> c = c'.
Proof.
  destruct (inv_final h) as [_ G _]. intros H H'. apply (g_call _ _ G) in H as (a & Ha & <-). apply (g_call _ _ G) in H' as (a' & Ha' & <-). congruence.
Qed.
Lemma waits_agent h t w : waits (trace h) t w -> exists c i q, nth_error (ags (final h)) t = Some (Ag c i q) /\ (c = CWait w \/ c = CWaitFor w).
Proof.
  destruct (inv_final h) as [_ G _]. intros [H|H]; apply (g_call _ _ G) in H as ([c i q] & Ha & E); cbn in E; subst; eauto 6.
Qed.
Lemma waits_wt h t w : waits (trace h) t w -> exists x, nth_error (wts (final h)) w = Some x /\ wt_ok (trace h) w x.
Proof.
  intro H. destruct (waits_agent _ _ _ H) as (c & i & q & Ha & Hc). destruct (inv_final h) as [B G _].
  assert (K : known (final h) w = true) by (eapply (g_known _ _ G); [exact Ha|]; right; destruct Hc; subst; reflexivity).
  unfold known in K. destruct (nth_error (wts (final h)) w) as [x|] eqn:E; [|discriminate]. exists x. split; [reflexivity|].
  apply (b_ok _ _ B). exact E.
Qed.
Lemma wait_pc h t w c i q : nth_error (ags (final h)) t = Some (Ag c i q) -> (c = CWait w \/ c = CWaitFor w) ->
  q = PStart \/ q = PBlock \/ q = PDone \/ (exists v, q = PSlot v).
Proof.
  intros Ha Hc. destruct (inv_final h) as [_ G _]. destruct q; eauto 6; exfalso.
  - assert (J := g_check _ _ G _ _ _ Ha eq_refl). apply in_before in J as (l1 & l2 & E & [J _]).
    assert (J' : called (trace h) t CConnect) by (eapply prefix_in; eauto).
    assert (K : called (trace h) t c) by (eapply g_callI; eauto). assert (c = CConnect) by (eapply call_unique; eauto). destruct Hc; congruence.
  - destruct (g_run _ _ G _ _ Ha eq_refl) as (v & Hv & _). cbn in Hv. destruct Hc; congruence.
Qed.

(** One step of a wait. *)
Lemma wait_step_eq s t c i q w x b : nth_error (ags s) t = Some (Ag c i q) -> (c = CWait w \/ c = CWaitFor w) -> nth_error (wts s) w = Some x ->
  exists timed, step s (LStep t None b) = wait_step s t (Ag c i q) w x timed b /\ (c = CWaitFor w -> timed = true).
Proof.
  intros Ha Hc Hx. destruct Hc as [-> | ->]; [exists false|exists true]; cbn [step]; rewrite Ha; cbn [a_call a_pc]; rewrite Hx; (split; [reflexivity|congruence]).
Qed.
Lemma at_upd s t a p : nth_error (ags s) t = Some a -> nth_error (ags (upd s t a p)) t = Some (Ag (a_call a) (a_in a) p).
Proof. intro H. unfold upd. cbn [ags]. apply nth_set_same. eapply nth_lt; eauto. Qed.

Lemma ret_step h t b r ev : snd (step (final h) (LStep t None b)) = ev -> In (ERet t r) ev -> returned (trace (h ++ [LStep t None b])) t.
Proof. intros E H. exists r. rewrite trace_snoc, E. apply in_or_app. auto. Qed.

Lemma returned_app h h2 t : returned (trace h) t -> returned (trace (h ++ h2)) t.
Proof. intros [r H]. destruct (trace_app h h2) as [ev ->]. exists r. apply in_or_app. auto. Qed.

(** In its last step. *)
Lemma ends1 h t w c i v b : nth_error (ags (final h)) t = Some (Ag c i (PSlot v)) -> (c = CWait w \/ c = CWaitFor w) ->
  returned (trace (h ++ [LStep t None b])) t.
Proof.
  intros Ha Hc. assert (Hw : waits (trace h) t w).
  { destruct (inv_final h) as [_ G _]. eapply waits_call; [eapply g_callI; eauto|]. destruct Hc; subst; reflexivity. }
  destruct (waits_wt _ _ _ Hw) as (x & Hx & _). destruct (wait_step_eq _ _ _ _ _ _ _ b Ha Hc Hx) as (td & E & _).
  eapply (ret_step _ _ _ (RBool true)); [rewrite E; reflexivity|]. now left.
Qed.
Lemma ends2 h t w c i b : nth_error (ags (final h)) t = Some (Ag c i PBlock) -> (c = CWait w \/ c = CWaitFor w) ->
  (exists v, fired (trace h) w v) \/ In (EBroke w) (trace h) \/ (c = CWaitFor w /\ b = true) ->
  exists n, n <= 2 /\ returned (trace (h ++ repeat (LStep t None b) n)) t.
Proof.
  intros Ha Hc Hv. destruct (inv_final h) as [_ G _]. assert (Hw : waits (trace h) t w).
  { eapply waits_call; [eapply g_callI; eauto|]. destruct Hc; subst; reflexivity. }
  destruct (waits_wt _ _ _ Hw) as (x & Hx & (_ & _ & K)). destruct (wait_step_eq _ _ _ _ _ _ _ b Ha Hc Hx) as (td & E & Etd).
  unfold wait_step in E. cbn [a_pc] in E. destruct (w_prom x) as [|v|] eqn:P.
  - exists 1. split; [lia|]. cbn [repeat]. destruct Hv as [Hv|[Hv|[Hv ->]]].
    + destruct K as (_ & _ & K & _). destruct (fired_once _ _ K Hv).
    + destruct K as (_ & _ & _ & K & _). contradiction.
    + rewrite (Etd Hv) in E. cbn [andb] in E. eapply (ret_step _ _ _ (RBool false)); [rewrite E; reflexivity|]. now left.
  - exists 2. split; [lia|]. cbn [repeat]. change [LStep t None b; LStep t None b] with ([LStep t None b] ++ [LStep t None b]). rewrite app_assoc.
    eapply (ends1 _ t w c i v); [|exact Hc]. rewrite final_snoc, E. cbn [fst]. rewrite at_upd with (a := Ag c i PBlock); [reflexivity|]. exact Ha.
  - exists 1. split; [lia|]. cbn [repeat]. eapply (ret_step _ _ _ (RBool false)); [rewrite E; reflexivity|]. now left.
Qed.
Lemma ends3 h t w b : waits (trace h) t w ->
  (exists v, fired (trace h) w v) \/ In (EBroke w) (trace h) \/ (called (trace h) t (CWaitFor w) /\ b = true) ->
  exists n, n <= 3 /\ returned (trace (h ++ repeat (LStep t None b) n)) t.
Proof.
  intros Hw Hv. destruct (waits_agent _ _ _ Hw) as (c & i & q & Ha & Hc). destruct (inv_final h) as [_ G _].
  assert (Hcall : called (trace h) t c) by (eapply g_callI; eauto).
  assert (Hv' : (exists v, fired (trace h) w v) \/ In (EBroke w) (trace h) \/ (c = CWaitFor w /\ b = true)).
  { destruct Hv as [?|[?|[Hq ->]]]; auto. right. right. split; [|reflexivity]. eapply call_unique; eauto. }
  destruct (wait_pc _ _ _ _ _ _ Ha Hc) as [->|[->|[->|[v ->]]]].
  - destruct (waits_wt _ _ _ Hw) as (x & Hx & _). destruct (wait_step_eq _ _ _ _ _ _ _ b Ha Hc Hx) as (td & E & _).
    unfold wait_step in E. cbn [a_pc] in E. destruct (w_fut x).
    + destruct (ends2 (h ++ [LStep t None b]) t w c i b) as (n & Hn & Hr).
      * rewrite final_snoc, E. cbn [fst]. rewrite at_upd with (a := Ag c i PStart); [reflexivity|exact Ha].
      * exact Hc.
      * destruct (trace_app h [LStep t None b]) as [ev Ev]. rewrite Ev.
        destruct Hv' as [[v [e He]]|[He|He]]; [left; exists v, e; apply in_or_app; auto|right; left; apply in_or_app; auto|auto].
      * exists (S n). split; [lia|]. cbn [repeat]. rewrite <- app_assoc in Hr. exact Hr.
    + exists 1. split; [lia|]. eapply (ret_step _ _ _ (RBool false)); [rewrite E; reflexivity|]. now left.
  - destruct (ends2 _ _ _ _ _ _ Ha Hc Hv') as (n & Hn & Hr). exists n. split; [lia|exact Hr].
  - exists 0. split; [lia|]. cbn [repeat]. rewrite app_nil_r. apply (g_done _ _ G). eauto.
  - exists 1. split; [lia|]. eapply ends1; eauto.
Qed.
