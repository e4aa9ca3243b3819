(** Handlers of a forgotten table entry. *)
From Verif Require Import ListUtil Amap ProcModel ProcSpec ProcSpec2 ProcProofs ProcProofs17 ProcProofs12 ProcProofs14 ProcProofs16 ProcProofs17 ProcProofs18 ProcProofs20 ProcProofs21 ProcProofs2 ProcProofs3 ProcProofs4 ProcProofs5 ProcProofs6 ProcProofs7 ProcProofs11 ProcProofs19 ProcProofs24 ProcProofs26 ProcProofs28 ProcProofs31 ProcProofs32 ProcProofs33 ProcProofs34 ProcProofs35 ProcProofs36.
From Verif Require QueueModel QueueSpec SigModel SigSpec.

(** A signal that no table refers to is never referred to again. *)
Lemma gone_step h l g : g < ns (final h) -> (forall p m, table h p m <> Some g) -> forall p m, table (h ++ [l]) p m <> Some g.
Proof.
  intros L N p m. change (table (h ++ [l]) p m) with (get m (mapat (final (h ++ [l])) p)). specialize (N p m) as N0. change (table h p m) with (get m (mapat (final h) p)) in N0.
  destruct (next_mp h l) as [MK|n0 t0 p0 m0 r0 S0 C0 GN MK S1 SG NN|n0 t0 p0 m0 r0 S0 C0 MK S1 _|n0 t0 p0 m0 m' g0 l0 r0 S0 C0 GM SA MK S1 _]; rewrite MK; [exact N0| | |];
    unfold upd; (destruct (Nat.eqb_spec p0 p) as [->|_]; [|exact N0]).
  - rewrite get_put. destruct (Nat.eqb_spec m m0) as [->|_]; [|exact N0]. intros X. injection X as X. lia.
  - rewrite get_del. destruct (Nat.eqb_spec m m0) as [->|_]; [discriminate|exact N0].
  - rewrite get_del. destruct (Nat.eqb_spec m m') as [->|_]; [discriminate|exact N0].
Qed.
Lemma gone_forever h g : g < ns (final h) -> (forall p m, table h p m <> Some g) -> forall h' p m, table (h ++ h') p m <> Some g.
Proof.
  intros L N h'. induction h' as [|l h' IH] using rev_ind; [rewrite app_nil_r; exact N|]. rewrite app_assoc. apply gone_step; [|exact IH]. pose proof (ns_mono h h'). lia.
Qed.

Lemma prefixes (a b c d : history) : a ++ b = c ++ d -> (exists e, c = a ++ e) \/ exists e, a = c ++ e.
Proof.
  revert c. induction a as [|x a IH]; intros c E; [left; eexists; reflexivity|]. destruct c as [|y c]; [right; eexists; reflexivity|].
  injection E as <- E. destruct (IH _ E) as [(e & ->)|(e & ->)]; [left|right]; eexists; reflexivity.
Qed.

(** No message posted from now on gets to a handler of such a signal. *)
Lemma gone_unhandled h g h' t n c p m : g < ns (final h) -> (forall p m, table h p m <> Some g) -> called (h ++ h') t n c -> ~ called h t n c -> posting p m c ->
  forall t' k s, ~ In (EHandle t' n g k s) (trace (h ++ h')).
Proof.
  intros L N C NC P t' k s I. apply in_split in I as (a & b & I). destruct (handled_spec _ _ _ _ _ _ _ _ _ _ _ _ C P I) as (h1 & h2 & E & _ & _ & (h0 & h3 & i & -> & ST & TB) & _).
  rewrite <- app_assoc in E. destruct (prefixes _ _ _ _ E) as [(e & ->)|(e & X)].
  - exact (gone_forever _ _ L N e p m TB).
  - apply NC. apply called_iff. destruct (start_target _ _ _ _ _ ST) as (t0 & c0 & CC & _). subst h. apply calls_mono. pose proof (calls_mono h0 (e ++ h') _ _ CC) as Y. apply called_iff in C. rewrite <- app_assoc in C. rewrite C in Y. injection Y as <- <-. exact CC.
Qed.

(** As long as nobody calls disconnect(msgid), a table entry stays. *)
Lemma table_stays h p m g : table h p m = Some g -> forall h', never_called (h ++ h') (forgets p) -> table (h ++ h') p m = Some g.
Proof.
  intros T h'. induction h' as [|l h' IH] using rev_ind; [rewrite app_nil_r; auto|]. intros N.
  assert (N' : never_called (h ++ h') (forgets p)) by (intros t n c C; apply (N t n c); apply called_iff; rewrite app_assoc; apply calls_mono; apply called_iff; exact C). specialize (IH N').
  rewrite app_assoc. destruct (table_changes (h ++ h') l p m) as [->|[(n & g' & _ & X & _)|(n & m' & (_ & C & _) & _)]]; [exact IH|congruence|].
  specialize (N' _ _ _ C). cbn in N'. rewrite Nat.eqb_refl in N'. discriminate.
Qed.

Lemma connect_table h t n p m g s : called h t n (KConnect p m) -> returned h n (RHandler g s) -> exists h1 l h2, h = h1 ++ l :: h2 /\ table (h1 ++ [l]) p m = Some g.
Proof.
  intros CA RE. pose proof (returned_by _ _ _ _ _ CA RE) as I. destruct (ret_moment _ _ _ _ I) as (h1 & l & h2 & c & -> & DD & N & I1 & C).
  apply called_iff in CA. apply (calls_mono _ (l :: h2)) in C as C'. rewrite CA in C'. injection C' as <-.
  pose proof (ret_sig h1 l t n _ _ DD N I1 C) as (g' & E & TB & _). injection E as <- _. exists h1, l, h2. split; [reflexivity|exact TB].
Qed.

Lemma reconnect_back h0 h' t n r g s t' n' p m : let h := h0 ++ h' in returned h n r -> called h t n (KRestore g s) -> ~ called h0 t n (KRestore g s) ->
  called h0 t' n' (KConnect p m) -> returned h0 n' (RHandler g s) -> never_called h (forgets p) -> exists h1 l, returning h n r h1 l /\ In s (SigSpec.slots (handlers (h1 ++ [l]) p m)).
Proof.
  intros h RE CA NC CA' RE' NV. pose proof (returned_by _ _ _ _ _ CA RE) as I.
  destruct (restore_exact h0 h' t n r g s t' n' p m I CA NC CA' RE') as (h1 & l & h2 & E & NR & RR & X). exists h1, l. split; [split; [exists h2; exact E|auto]|].
  assert (H0 : exists e, h1 ++ [l] = h0 ++ e).
  { destruct (prefixes h0 h' (h1 ++ [l]) h2) as [Y|(e & Y)]; [rewrite <- app_assoc; exact E|exact Y|]. exfalso. apply NC. subst h0. unfold h in CA. apply called_iff in CA. rewrite called_iff.
    assert (Z : exists c, nth_error (calls (final ((h1 ++ [l]) ++ e))) n = Some (t, c)).
    { assert (J : In (ERet t n r) (trace (h1 ++ [l]))).
      { destruct RR as (t1 & J). destruct (c_ret _ (calls_final (h1 ++ [l])) _ _ _ J) as (c & D). pose proof D as D'. apply (calls_mono _ e) in D. apply (calls_mono _ h') in D. rewrite CA in D. injection D as <- <-. exact J. }
      destruct (c_ret _ (calls_final (h1 ++ [l])) _ _ _ J) as (c & D). exists c. apply calls_mono. exact D. }
    destruct Z as (c & Z). pose proof Z as Z'. apply (calls_mono _ h') in Z'. rewrite CA in Z'. injection Z' as <-. exact Z. }
  destruct H0 as (e & H0). destruct (connect_table _ _ _ _ _ _ _ CA' RE') as (h3 & l3 & h4 & E3 & T3).
  assert (TB : table (h1 ++ [l]) p m = Some g).
  { rewrite H0, E3. replace ((h3 ++ l3 :: h4) ++ e) with ((h3 ++ [l3]) ++ (h4 ++ e)) by (rewrite <- !app_assoc; reflexivity). apply table_stays; [exact T3|].
    replace ((h3 ++ [l3]) ++ h4 ++ e) with (h1 ++ [l]) by (rewrite H0, E3, <- !app_assoc; reflexivity).
    intros t1 n1 c1 C1. apply (NV t1 n1 c1). apply called_iff. unfold h. rewrite E. replace (h1 ++ l :: h2) with ((h1 ++ [l]) ++ h2) by (rewrite <- app_assoc; reflexivity). apply calls_mono. apply called_iff. exact C1. }
  unfold handlers. rewrite TB. destruct X as [[X ->]|[_ (k & ->)]]; [exact X|]. unfold SigSpec.slots. rewrite map_app. apply in_or_app. right. left. reflexivity.
Qed.
