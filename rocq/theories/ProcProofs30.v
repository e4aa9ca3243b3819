(** Corollaries. *)
From Verif Require Import ListUtil Amap ProcModel ProcSpec ProcProofs7 ProcProofs8 ProcProofs9 ProcProofs11 ProcProofs12 ProcProofs16 ProcProofs17 ProcProofs19 ProcProofs24 ProcProofs28.

Lemma own_runs h a t n c b a' b' : trace h = a ++ ECall t n c :: b -> submits c = true -> never_called h (stops (target c)) -> own_thread h (instance t a) c ->
  trace h = a' ++ ERet t n (fin c true) :: b' -> In (EStart t (target c) n true) a' /\ In (EEnd t (target c) n) a'.
Proof.
  intros T SB N O T'. assert (C : called h t n c) by (unfold called; rewrite T; apply in_or_app; right; left; reflexivity).
  destruct (told_before h a' t n c b' C SB N T') as [A|A]; [|exact A]. exfalso. assert (I : In (EAccept t (target c) n) (trace h)) by (rewrite T'; apply in_or_app; left; exact A).
  destruct (queued_other h a t n c b _ _ T I) as (_ & _ & X). exact (X O).
Qed.
Lemma other_queues h a t n c b a' b' : trace h = a ++ ECall t n c :: b -> submits c = true -> never_called h (stops (target c)) -> ~ own_thread h (instance t a) c ->
  trace h = a' ++ ERet t n (fin c true) :: b' -> In (EAccept t (target c) n) a'.
Proof.
  intros T SB N O T'. assert (C : called h t n c) by (unfold called; rewrite T; apply in_or_app; right; left; reflexivity).
  destruct (told_before h a' t n c b' C SB N T') as [A|[A _]]; [exact A|]. exfalso. assert (I : In (EStart t (target c) n true) (trace h)) by (rewrite T'; apply in_or_app; left; exact A).
  destruct (inline_own h a t n c b _ _ T I) as (_ & _ & X). exact (O X).
Qed.
Lemma callable_not_refused h t n c r : called h t n c -> (exists p, c = KAsync p \/ c = KExecute p \/ c = KWait p) -> never_called h (stops (target c)) -> returned h n r -> r = fin c true.
Proof. intros C (p & P). eapply not_refused; eauto; destruct P as [->|[->| ->]]; reflexivity. Qed.

Lemma started_grows h h' p : exists x, started p (trace (h ++ h')) = started p (trace h) ++ x.
Proof.
  induction h' as [|l h' IH] using rev_ind; [exists []; rewrite !app_nil_r; reflexivity|]. destruct IH as (x & E). rewrite app_assoc. destruct (grows (h ++ h') l) as (add & G). rewrite G, started_app, E, <- app_assoc. eauto.
Qed.
Lemma starts_after_stop h h' p t : only_runner (h ++ h') p t -> never_called (h ++ h') (reuses p) -> (exists t n, called h t n (KStop p)) -> (forall t n, called h t n (KStop p) -> exists r, returned h n r) ->
  exists last, started p (trace (h ++ h')) = started p (trace h) ++ last /\ length last <= 1.
Proof.
  intros R N S A. pose proof (nothing_taken_after_stop h h' p N S A) as E. destruct (taken_started _ _ _ R) as (x & X & _).
  assert (R1 : only_runner h p t) by (intros t' n c C; apply (R t' n c); apply called_app; exact C). destruct (taken_started _ _ _ R1) as (y & Y & LY).
  destruct (started_grows h h' p) as (z & Z). exists z. split; [exact Z|]. rewrite E, Y, Z, <- app_assoc in X. apply app_inv_head in X. subst y. rewrite app_length in LY. lia.
Qed.
