(** What the theorems about processors need beside the invariants. *)
From Verif Require Import ListUtil Amap ProcModel ProcSpec ProcProofs ProcProofs2 ProcProofs3 ProcProofs4 ProcProofs5 ProcProofs6 ProcProofs7 ProcProofs8 ProcProofs9 ProcProofs10 ProcProofs11 ProcProofs12 ProcProofs13 ProcProofs14 ProcProofs15 ProcProofs16 ProcProofs17 ProcProofs18 ProcProofs19 ProcProofs20 ProcProofs21 ProcProofs22 ProcProofs23 ProcProofs24 ProcProofs25 ProcProofs26 ProcProofs27.
From Verif Require QueueModel SigModel SigSpec SigProofs2 SigProofs3 SigProofs7 SigProofs9.

Lemma called_iff h t n c : called h t n c <-> nth_error (calls (final h)) n = Some (t, c).
Proof. apply (c_in _ (calls_final h)). Qed.

Lemma none_ran h n : cnt (accepts n) (tr (final h)) = 0 -> cnt (starts n) (tr (final h)) = 0 -> never_ran h n.
Proof.
  intros A B. rewrite cnt_in in A, B. split; intros; intros I; [specialize (A _ I)|specialize (B _ I)]; cbn in *; rewrite Nat.eqb_refl in *; discriminate.
Qed.

Lemma returned_by h t n c r : called h t n c -> returned h n r -> In (ERet t n r) (trace h).
Proof.
  intros C (t' & R). destruct (c_ret _ (calls_final h) _ _ _ R) as (c' & C'). apply called_iff in C. rewrite C in C'. injection C' as <- _. exact R.
Qed.

Lemma refused_never_ran h t n c : called h t n c -> submits c = true -> returned h n (no c) -> never_ran h n.
Proof.
  intros C SB R. pose proof (returned_by _ _ _ _ _ C R) as R'. apply called_iff in C. pose proof (outcome_final h t n c _ R' C SB) as O.
  assert (F : no c <> fin c true) by (intros X; symmetry in X; revert X; apply fin_no; exact SB).
  destruct O as [(_ & A & B)|[(X & _)|[(X & _)|(_ & A & B & _)]]]; [apply none_ran; assumption|contradiction|contradiction|apply none_ran; assumption].
Qed.

Lemma stop_called h p n t : never_called h (stops p) -> nth_error (calls (final h)) n <> Some (t, KStop p).
Proof. intros N. apply never_stop. exact N. Qed.

Lemma told_true h t n c : called h t n c -> submits c = true -> never_called h (stops (target c)) -> returned h n (fin c true) ->
  In (EAccept t (target c) n) (trace h) \/ (In (EStart t (target c) n true) (trace h) /\ In (EEnd t (target c) n) (trace h)).
Proof.
  intros C SB N R. pose proof (returned_by _ _ _ _ _ C R) as R'. apply called_iff in C. pose proof (outcome_final h t n c _ R' C SB) as O.
  destruct O as [(X & _)|[(_ & A)|[(_ & A)|(_ & _ & _ & n' & t' & X)]]]; [exfalso; revert X; apply fin_no; exact SB|auto|auto|exfalso; revert X; apply never_stop; exact N].
Qed.

Lemma answers h t n c r : called h t n c -> submits c = true -> returned h n r -> r = fin c true \/ r = no c \/ ((r = fin c false) /\ exists t' n', called h t' n' (KStop (target c))).
Proof.
  intros C SB R. pose proof (returned_by _ _ _ _ _ C R) as R'. apply called_iff in C. pose proof (outcome_final h t n c _ R' C SB) as O.
  destruct O as [(X & _)|[(X & _)|[(X & _)|(X & _ & _ & n' & t' & Y)]]]; auto. destruct X; auto. right. right. split; [assumption|]. exists t', n'. apply called_iff. exact Y.
Qed.

(** Without stop(), only a message nobody handles is refused. *)
Lemma not_refused h t n c r : called h t n c -> submits c = true -> msg_of c = None -> never_called h (stops (target c)) -> returned h n r -> r = fin c true.
Proof.
  intros C SB M N R. destruct (answers h t n c r C SB R) as [|[->|(_ & t' & n' & X)]]; [assumption| |specialize (N _ _ _ X); cbn in N; rewrite Nat.eqb_refl in N; discriminate].
  exfalso. pose proof (returned_by _ _ _ _ _ C R) as R'. pose proof (proj1 (called_iff _ _ _ _) C) as C'. destruct (pi_no _ (post_inv_final h) t n c R' C' SB) as (h1 & ((h2 & ->) & _) & [U|(m & X & _)]); [|congruence].
  destruct (stopped_by h1 _ U) as (n' & t' & X). apply (ProcProofs11.calls_mono h1 h2) in X. revert X. apply never_stop. exact N.
Qed.

Lemma after_return h l n : cnt (returns n) (tr (final h)) >= 1 -> cnt (accepts n) (tr (final h)) = 0 -> cnt (starts n) (tr (final h)) = 0 ->
  cnt (returns n) (tr (final (h ++ l))) >= 1 /\ cnt (accepts n) (tr (final (h ++ l))) = 0 /\ cnt (starts n) (tr (final (h ++ l))) = 0.
Proof.
  induction l as [|x l IH] using rev_ind; [rewrite app_nil_r; auto|]. intros R A B. destruct (IH R A B) as (R1 & A1 & B1). rewrite app_assoc.
  pose proof (core_evt _ _ _ (good_final (h ++ l)) (qinv_final (h ++ l)) (ProcProofs11.final_step (h ++ l) x)) as V.
  pose proof (evt_stable _ _ _ n V R1 A1 B1) as (A2 & B2). split; [|auto]. destruct (grows (h ++ l) x) as (add & G). unfold trace in G. rewrite G, cnt_app. lia.
Qed.

(** ** Inline or queued *)
Lemma inline_thread h t p n : In (EStart t p n true) (trace h) -> exists c, nth_error (calls (final h)) n = Some (t, c) /\ submits c = true /\ target c = p.
Proof.
  intros I. destruct (start_target h t p n true I) as (t0 & c & C & SB & TG). exists c. split; [|auto]. revert C. induction h as [|l h IH] using rev_ind; [destruct I|]. intros C.
  pose proof (core_evt _ _ _ (good_final h) (qinv_final h) (ProcProofs11.final_step h l)) as V. destruct (evt_add _ _ _ V) as (add & T & _ & A & _). unfold trace in I. rewrite T in I. apply in_app_or in I as [I|I].
  - destruct (start_target h t p n true I) as (t1 & c1 & C1 & _ & _). pose proof (ProcProofs11.calls_mono h [l] _ _ C1) as C2. rewrite C in C2. injection C2 as <- <-. apply (ProcProofs11.calls_mono h [l]). apply IH; assumption.
  - destruct (A _ _ _ I) as (E & k & c1 & r & _ & _ & C1 & _). rewrite E. pose proof (ProcProofs11.calls_mono h [l] _ _ C1) as C2. rewrite C2 in C. injection C as _ <-. exact C2.
Qed.

Lemma own_homed h x c : (forall p, x = Some p -> p < np (final h)) -> (submits c = true -> target c < np (final h)) -> (homed_at (final h) x c = true <-> own_thread h x c).
Proof.
  intros X T. pose proof (n_create _ (named_final h)) as N.
  assert (IDS : forall p p', p < np (final h) -> p' < np (final h) -> (Nat.eqb (p_id (procs (final h) p')) (p_id (procs (final h) p)) = true <-> exists id, In (ECreate p' id) (trace h) /\ In (ECreate p id) (trace h))).
  { intros p p' L L'. rewrite Nat.eqb_eq. split.
    - intros E. exists (p_id (procs (final h) p)). split; apply N; auto.
    - intros (id & I & I'). apply N in I as [_ I], I' as [_ I']. congruence. }
  destruct c as [p|p|p|p m|p m| | | | | | | | | |]; cbn; destruct x as [p'|]; try (split; [discriminate|intros []]).
  - apply Nat.eqb_eq.
  - apply IDS; [apply T; reflexivity|apply X; reflexivity].
  - apply IDS; [apply T; reflexivity|apply X; reflexivity].
Qed.

Lemma inline_own h a t n c b t' p : trace h = a ++ ECall t n c :: b -> In (EStart t' p n true) (trace h) -> t' = t /\ p = target c /\ own_thread h (instance t a) c.
Proof.
  intros T I. pose proof (prefix_called _ _ _ _ _ _ T) as C. destruct (inline_thread _ _ _ _ I) as (c1 & C1 & SB & TG). rewrite C in C1. injection C1 as <- <-. split; [reflexivity|]. split; [auto|].
  apply own_homed; [intros p' X; eapply inst_exists; eauto|intros _; eapply submit_target; eauto|]. eapply (pl_inl _ (placed_final h)); eauto.
Qed.

Lemma queued_other h a t n c b t' p : trace h = a ++ ECall t n c :: b -> In (EAccept t' p n) (trace h) -> t' = t /\ p = target c /\ ~ own_thread h (instance t a) c.
Proof.
  intros T I. pose proof (prefix_called _ _ _ _ _ _ T) as C. destruct (accepted_of _ _ _ _ I) as (c1 & C1 & SB & TG). apply called_iff in C1. rewrite C in C1. injection C1 as <- <-. split; [reflexivity|]. split; [auto|].
  intros O. apply own_homed in O; [|intros p' X; eapply inst_exists; eauto|intros _; eapply submit_target; eauto]. rewrite (pl_acc _ (placed_final h) _ _ _ _ _ _ I T) in O. discriminate.
Qed.

(** Moments at which a call returns. *)
Lemma prefix_of h a x b : trace h = a ++ x :: b -> exists h1 h2, h = h1 ++ h2 /\ In x (trace h1) /\ exists y, trace h1 = a ++ x :: y.
Proof.
  intros T. destruct (ProcProofs24.happened h a x b T) as (h1 & l & h2 & a' & b' & E & A & T1). exists (h1 ++ [l]), h2. split; [rewrite <- app_assoc; exact E|].
  rewrite T1. split; [apply in_or_app; right; apply in_or_app; right; left; reflexivity|]. exists b'. rewrite A, <- app_assoc. reflexivity.
Qed.

Lemma told_before h a t n c b : called h t n c -> submits c = true -> never_called h (stops (target c)) -> trace h = a ++ ERet t n (fin c true) :: b ->
  In (EAccept t (target c) n) a \/ (In (EStart t (target c) n true) a /\ In (EEnd t (target c) n) a).
Proof.
  intros C SB N T. destruct (ret_step h a t n _ b T) as (h1 & T1).
  assert (R : In (ERet t n (fin c true)) (tr (final h1))) by (unfold trace in T1; rewrite T1; apply in_or_app; right; left; reflexivity).
  destruct (c_ret _ (calls_final h1) _ _ _ R) as (c1 & C1).
  assert (CC : c1 = c).
  { pose proof (proj2 (called_iff h1 t n c1) C1) as I. unfold called in I. rewrite T1 in I. apply in_app_or in I as [I|[I|[]]]; [|discriminate].
    assert (I' : called h t n c1) by (unfold called; rewrite T; apply in_or_app; left; exact I). apply called_iff in I', C. congruence. }
  subst c1. pose proof (outcome_final h1 t n c _ R C1 SB) as O.
  assert (X : forall x, In x (tr (final h1)) -> x <> ERet t n (fin c true) -> In x a) by (intros x I NE; unfold trace in T1; rewrite T1 in I; apply in_app_or in I as [I|[I|[]]]; [exact I|congruence]).
  destruct O as [(Y & _)|[(_ & A)|[(_ & A & B)|(_ & _ & _ & n' & t' & Y)]]]; [exfalso; revert Y; apply fin_no; exact SB|left; apply X; [exact A|discriminate]|right; split; apply X; assumption || discriminate|].
  exfalso. pose proof (proj2 (called_iff h1 t' n' _) Y) as I. assert (I' : called h t' n' (KStop (target c))).
  { unfold called in *. rewrite T. rewrite T1 in I. apply in_or_app. apply in_app_or in I as [I|[I|[]]]; [left; exact I|discriminate]. }
  specialize (N _ _ _ I'). cbn in N. rewrite Nat.eqb_refl in N. discriminate.
Qed.

(** ** Messages *)
Lemma posting_msg p m c : posting p m c <-> msg_of c = Some m /\ target c = p.
Proof. split; [intros [->| ->]; auto|]. destruct c; cbn; intros (E & T); try discriminate; injection E as ->; subst; [left|right]; reflexivity. Qed.
Lemma posting_submits p m c : posting p m c -> submits c = true. Proof. intros [->| ->]; reflexivity. Qed.

Lemma any_none st g : s_any (sig_at st g) = false -> SigModel.entries (sg_at st g) = [].
Proof. unfold s_any, sg_at. destruct (SigModel.entries _); [reflexivity|discriminate]. Qed.

Lemma refused_post h t n c p m : posting p m c -> called h t n c -> returned h n (no c) -> never_ran h n /\ exists h1, during h h1 t n c /\ (stopped_now h1 p \/ handlers h1 p m = []).
Proof.
  intros P C R. pose proof (posting_submits _ _ _ P) as SB. split; [eapply refused_never_ran; eauto|]. apply posting_msg in P as [M TG]. pose proof (returned_by _ _ _ _ _ C R) as R'. pose proof (proj1 (called_iff _ _ _ _) C) as C'.
  destruct (pi_no _ (post_inv_final h) t n c R' C' SB) as (h1 & D & [U|(m' & M' & U)]); exists h1; (split; [exact D|]).
  - left. rewrite <- TG. exact U.
  - right. rewrite M in M'. injection M' as <-. rewrite TG in U. unfold handlers. destruct (table h1 p m) as [g|]; [|reflexivity]. rewrite live_now, (any_none _ _ U). reflexivity.
Qed.

Lemma dead_aborts h : dead (final h) = true -> exists t, In (EAbort t) (trace h).
Proof.
  induction h as [|l h IH] using rev_ind; [discriminate|]. destruct (dead (final h)) eqn:D; [intros _; destruct (IH eq_refl) as (t & I); destruct (grows h l) as (add & G); exists t; rewrite G; apply in_or_app; left; exact I|]. intros E.
  destruct (next_sg h l) as [G|X]; [|congruence]. destruct G as [? ? ? X|? ? ? ? ? ? X|? ? ? ? ? ? ? ? ? ? X|? ? ? ? ? ? ? ? ? X|? ? ? ? ? ? ? X|p e m g r S FR ST NH R|? ? ? ? ? ? ? X ?|? ? ? ? ? ? ? ? ? ? X]; try congruence.
  cbv zeta in R. destruct R as [(_ & _ & T & _)|(_ & X & _)]; [|congruence]. exists (fst l). unfold trace. rewrite T. apply in_or_app. right. left. reflexivity.
Qed.

Lemma any_some h g : unaborted h -> cuts_outside h g -> s_any (sig_at (final h) g) = true -> handlers_of h g <> [].
Proof.
  intros NA CO A. assert (D : dead (final h) = false) by (destruct (dead (final h)) eqn:D; [destruct (dead_aborts h D) as (t & I); destruct (NA t I)|reflexivity]).
  rewrite live_now. assert (E : length (SigProofs2.somes (SigModel.entries (sg_at (final h) g))) = length (SigModel.entries (sg_at (final h) g))).
  { apply SigProofs9.somes_eq. unfold sg_at, s_state. apply SigProofs9.full_final. apply no_cut; assumption. }
  unfold s_any in A. fold (sg_at (final h) g) in A. intros X. rewrite X in E. destruct (SigModel.entries (sg_at (final h) g)); discriminate.
Qed.

Lemma accepted_post h t n c p m : posting p m c -> called h t n c -> (In (EAccept t p n) (trace h) \/ In (EStart t p n true) (trace h)) ->
  exists h1 g, during h h1 t n c /\ table h1 p m = Some g /\ (unaborted h1 -> cuts_outside h1 g -> handlers h1 p m <> []).
Proof.
  intros P C A. apply posting_msg in P as [M TG]. apply called_iff in C.
  assert (S : seen h t n c m) by (destruct A as [A|A]; [eapply (pi_acc _ (post_inv_final h)); eauto|eapply (pi_inl _ (post_inv_final h)); eauto]).
  destruct S as (h1 & g & D & TB & AN). rewrite TG in TB. exists h1, g. split; [exact D|]. split; [exact TB|]. intros NA CO. unfold handlers. rewrite TB. apply any_some; assumption.
Qed.

Lemma looked_is h t p m c e g t0 : called h t0 e c -> posting p m c -> (exists h1 h2, h = h1 ++ h2 /\ looked h1 t e g) -> looked_up h t p m e g.
Proof.
  intros C P (h1 & h2 & -> & h0 & h3 & c' & m' & i & -> & (t1 & C') & M & TB & ST). apply posting_msg in P as [M' TG]. apply (ProcProofs11.calls_mono _ h2) in C'. apply called_iff in C. rewrite C in C'. injection C' as <- <-. rewrite M in M'. injection M' as ->. rewrite TG in *.
  exists h0, (h3 ++ h2), i. split; [rewrite app_assoc; reflexivity|auto].
Qed.

Lemma handled_spec h a t0 t e c p m g k s b : called h t0 e c -> posting p m c -> trace h = a ++ EHandle t e g k s :: b -> exists h1 h2,
  h = h1 ++ h2 /\ trace h1 = a /\ In (k, s) (handlers_of h1 g) /\ looked_up h1 t p m e g /\
  (forall t' g' k' s', In (EHandle t' e g' k' s') a -> t' = t /\ g' = g /\ k' < k) /\
  (forall k' s', In (k', s') (handlers_of h1 g) -> k' < k -> In (EHandle t e g k' s') a).
Proof.
  intros C P T. destruct (handled h a t e g k s b T) as (h1 & h2 & E & T1 & I & L & A & B). exists h1, h2. split; [exact E|]. split; [exact T1|]. split; [exact I|]. split; [|auto].
  assert (C1 : called h1 t0 e c).
  { destruct L as (h0 & h3 & c' & m' & i & -> & (t1 & C') & _). pose proof C' as C''. apply (ProcProofs11.calls_mono _ h2) in C''. rewrite <- E in C''. apply called_iff in C. rewrite C in C''. injection C'' as <- <-. apply called_iff. exact C'. }
  eapply looked_is; eauto. exists h1, []. rewrite app_nil_r. auto.
Qed.

Lemma missed_spec h t p e t0 c m : called h t0 e c -> posting p m c -> In (EEnd t p e) (trace h) -> exists h1, just_before h h1 (EEnd t p e) /\
  (table h1 p m = None \/ exists g, looked_up h1 t p m e g /\ forall k s, In (k, s) (handlers_of h1 g) -> In (EHandle t e g k s) (trace h1)).
Proof.
  intros C P I. pose proof P as P'. apply posting_msg in P' as [M TG]. pose proof C as C'. apply called_iff in C'. destruct (nobody_missed h t p e t0 c m I C' M) as (h1 & l & h2 & E & N1 & N2 & X).
  exists h1. split; [exists l, h2; auto|]. destruct X as [X|(g & L & A)]; [left; exact X|]. right. exists g. split; [|exact A].
  assert (C1 : called h1 t0 e c).
  { destruct L as (h0 & h3 & c' & m' & i & -> & (t1 & C1) & _). pose proof C1 as C''. apply (ProcProofs11.calls_mono _ (l :: h2)) in C''. rewrite <- E in C''. rewrite C' in C''. injection C'' as <- <-. apply called_iff. exact C1. }
  eapply looked_is; eauto. exists h1, []. rewrite app_nil_r. auto.
Qed.
