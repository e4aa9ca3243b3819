(** Connecting again; disconnecting one handler. *)
From Verif Require Import ListUtil Amap ProcModel ProcSpec ProcProofs ProcProofs2 ProcProofs3 ProcProofs4 ProcProofs5 ProcProofs6 ProcProofs7 ProcProofs9 ProcProofs11 ProcProofs14 ProcProofs16 ProcProofs17 ProcProofs18 ProcProofs19 ProcProofs20 ProcProofs21 ProcProofs22 ProcProofs23 ProcProofs24 ProcProofs25 ProcProofs26 ProcProofs28 ProcProofs31 ProcProofs32 ProcProofs33 ProcProofs34 ProcProofs35.
From Verif Require QueueModel QueueSpec SigModel SigSpec SigProofs2 SigProofs3 SigProofs7 SigProofs5.

Lemma cons_grow st l : PI st -> plain_action (snd l) = true -> length (SigModel.conns st) <= length (SigModel.conns (SigModel.next SigModel.Multi st l)).
Proof.
  intros H PA. unfold SigModel.next. destruct (SigModel.crashed st); [auto|].
  assert (W : forall a b, SigModel.conns (SigModel.watch a b) = SigModel.conns b) by (intros a b; destruct (SigProofs5.watch_cases a b) as [->|(s & ->)]; reflexivity). rewrite W.
  destruct l as [t a]. cbn [fst snd] in *. destruct a as [k| | | | | | | |c|c| | | | | |v| | |]; try discriminate PA.
  - destruct k; try discriminate PA. cbn. destruct (SigModel.free st t); [|auto]. rewrite (pl_hub _ H). cbn. rewrite app_length. lia.
  - cbn. destruct (SigModel.free st t); [|auto]. rewrite (hidden_plain _ _ H). assert (X : length (SigModel.conns (fst (SigModel.disconnect SigModel.Multi st c))) = length (SigModel.conns st)).
    { unfold SigModel.disconnect. destruct (nth_error (SigModel.conns st) c) as [[[s|]|s|]|]; try reflexivity. destruct (SigModel.owned st s); [|reflexivity]. rewrite (pl_hub _ H). destruct (SigModel.has s _); [|reflexivity]. cbn. apply length_set_nth. }
    destruct (SigModel.disconnect SigModel.Multi st c). cbn in *. rewrite X. auto.
  - cbn. destruct (SigModel.free st t); [|auto]. rewrite (hidden_plain _ _ H). assert (X : length (SigModel.conns (fst (SigModel.reconnect SigModel.Multi st c))) = length (SigModel.conns st)).
    { unfold SigModel.reconnect. destruct (nth_error (SigModel.conns st) c) as [[[s|]|s|]|]; try reflexivity. rewrite (pl_hub _ H). destruct (SigModel.can_add_unique _ _ _); cbn; apply length_set_nth. }
    destruct (SigModel.reconnect SigModel.Multi st c). cbn in *. rewrite X. auto.
  - cbn. destruct (SigModel.free st t); [|auto]. rewrite (pl_hub _ H). destruct (SigModel.entries st); [|destruct (SigModel.notif st)]; auto.
  - cbn. destruct (SigModel.em st) as [e|]; [|auto]. destruct (Nat.eqb (SigModel.e_thread e) t); [|auto]. destruct (SigModel.e_run e); [auto|]. unfold SigModel.step. destruct (nth_error (SigModel.entries st) (SigModel.e_cur e)) as [[[k s]|]|] eqn:N; auto.
    destruct (kind_plain st s H) as [-> | -> ]; auto.
  - cbn. destruct (SigModel.em st) as [e|]; [|auto]. destruct (Nat.eqb (SigModel.e_thread e) t); [|auto]. destruct (SigModel.e_run e) as [[k s]|]; [|auto]. unfold SigModel.slot_return. destruct (kind_plain st s H) as [-> | -> ]; auto.
Qed.
Lemma conns_step h l g : length (SigModel.conns (sg_at (final h) g)) <= length (SigModel.conns (sg_at (final (h ++ [l])) g)).
Proof.
  destruct (next_sg h l) as [G|E]; [|rewrite E; auto].
  assert (SAME : sig_same (final h) (final (h ++ [l])) -> length (SigModel.conns (sg_at (final h) g)) <= length (SigModel.conns (sg_at (final (h ++ [l])) g))) by (intros SS; unfold sg_at; rewrite (SS g); auto).
  assert (TO : forall g0 x, sig_to (final h) (final (h ++ [l])) g0 x -> plain_action (snd x) = true -> length (SigModel.conns (sg_at (final h) g)) <= length (SigModel.conns (sg_at (final (h ++ [l])) g))).
  { intros g0 x ST P. unfold sg_at. rewrite (ST g). unfold upd. destruct (Nat.eqb_spec g0 g) as [->|_]; [|auto]. unfold s_state at 2, SigModel.final. rewrite fold_left_app. cbn [fold_left]. apply (cons_grow _ x); [apply (PI_at h g)|exact P]. }
  destruct G; try (apply SAME; assumption); try (eapply TO; [eassumption|]); try reflexivity. destruct a as [[]| | | | | | | | | | | | | | | | | |]; try contradiction; reflexivity.
Qed.
Lemma conns_mono h h' g : length (SigModel.conns (sg_at (final h) g)) <= length (SigModel.conns (sg_at (final (h ++ h')) g)).
Proof. induction h' as [|l h' IH] using rev_ind; [rewrite app_nil_r; auto|]. rewrite app_assoc. pose proof (conns_step (h ++ h') l g). lia. Qed.

(** A MsgConnection that was handed out. *)
Lemma handed h t n p m g s : called h t n (KConnect p m) -> returned h n (RHandler g s) -> s < length (SigModel.conns (sg_at (final h) g)).
Proof.
  intros CA RE. pose proof (returned_by _ _ _ _ _ CA RE) as I. destruct (ret_moment _ _ _ _ I) as (h1 & l & h2 & c & -> & DD & N & I1 & C).
  apply called_iff in CA. apply (calls_mono _ (l :: h2)) in C as C'. rewrite CA in C'. injection C' as <-.
  assert (X : s < length (SigModel.conns (sg_at (final (h1 ++ [l])) g))).
  2:{ pose proof (conns_mono (h1 ++ [l]) h2 g) as Y. rewrite <- app_assoc in Y. cbn [app] in Y. lia. }
   pose proof (ret_sig h1 l t n _ _ DD N I1 C) as (g' & E & TB & SF & SG). injection E as <- ->. unfold sg_at. rewrite SG. unfold s_state, SigModel.final. rewrite fold_left_app. cbn [fold_left].
  change (fold_left (SigModel.next SigModel.Multi) (sig_at (final h1) g) SigModel.init) with (sg_at (final h1) g).
  pose proof (PI_at h1 g) as H. unfold SigModel.next. rewrite (hy_crash _ (i_ok _ (EI_final h1 DD) g)).
  assert (W : forall a b, SigModel.conns (SigModel.watch a b) = SigModel.conns b) by (intros a b; destruct (SigProofs5.watch_cases a b) as [->|(s0 & ->)]; reflexivity). rewrite W.
  cbn. unfold s_free in SF. change (s_state (sig_at (final h1) g)) with (sg_at (final h1) g) in SF. rewrite SF, (pl_hub _ H). cbn. rewrite app_length. cbn. lia.
Qed.

Lemma sg_at_next h l g0 x g : sig_to (final h) (final (h ++ [l])) g0 x -> g0 = g -> sg_at (final (h ++ [l])) g = SigModel.next SigModel.Multi (sg_at (final h) g) x.
Proof. intros ST ->. unfold sg_at. rewrite (ST g), upd_same. apply sg_next. Qed.

Lemma PJ_at h g : PJ (sg_at (final h) g).
Proof. apply PJ_final. apply sig_plain. Qed.

Lemma drop_filter s l : NoDup (SigSpec.slots l) -> SigSpec.drop_first s l = filter (fun x => negb (Nat.eqb (snd x) s)) l.
Proof.
  induction l as [|[k x] l IH]; cbn; [reflexivity|]. intros N. inversion N as [|? ? N1 N2]; subst. rewrite Nat.eqb_sym. destruct (Nat.eqb_spec x s) as [->|NE]; cbn.
  - clear - N1. symmetry. induction l as [|[k x] l IH]; cbn in *; [reflexivity|]. destruct (Nat.eqb_spec x s) as [->|NE]; [exfalso; apply N1; left; reflexivity|]. cbn. f_equal. apply IH. intros I. apply N1. right. exact I.
  - f_equal. apply IH. exact N2.
Qed.

(** disconnect() of a MsgConnection removes its handler, and no other. *)
Lemma cut_exact h t n r g s : In (ERet t n r) (trace h) -> called h t n (KCut g s) -> exists h1 l h2, h = h1 ++ l :: h2 /\ ~ returned h1 n r /\ returned (h1 ++ [l]) n r /\
  handlers_of (h1 ++ [l]) g = filter (fun x => negb (Nat.eqb (snd x) s)) (handlers_of h1 g).
Proof.
  intros I CA. destruct (ret_plain _ _ _ _ _ I CA eq_refl) as (h1 & ch & h2 & k & r0 & -> & D & DD & NR & RR & C & S & FT & E & R). exists h1, (t, AGo ch), h2. do 3 (split; [solve [auto]|]).
  destruct k; try discriminate FT. cbn in E. destruct (s_free (sig_at (final h1) g) t) eqn:SF; [|noret RR NR E]. rewrite !live_now.
  assert (SG : sg_at (final (h1 ++ [(t, AGo ch)])) g = SigModel.next SigModel.Multi (sg_at (final h1) g) (t, SigModel.ADisconnect s)) by (unfold sg_at; rewrite E; rewrite <- sg_next; f_equal; unfold sig_at; cbn; rewrite upd_same; reflexivity).
  rewrite SG, cut_plain_exact; [apply drop_filter, (pl_nd _ (PI_at h1 g))|apply (PI_at h1 g)|apply (PJ_at h1 g)|apply (hy_crash _ (i_ok _ (EI_final h1 DD) g))|exact SF].
Qed.

(** reconnect() puts the handler of a MsgConnection back, behind the others, unless it is still connected. *)
Lemma restore_exact h0 h' t n r g s t' n' p m : let h := h0 ++ h' in In (ERet t n r) (trace h) -> called h t n (KRestore g s) -> ~ called h0 t n (KRestore g s) ->
  called h0 t' n' (KConnect p m) -> returned h0 n' (RHandler g s) -> exists h1 l h2, h = h1 ++ l :: h2 /\ ~ returned h1 n r /\ returned (h1 ++ [l]) n r /\
  (In s (SigSpec.slots (handlers_of h1 g)) /\ handlers_of (h1 ++ [l]) g = handlers_of h1 g \/ ~ In s (SigSpec.slots (handlers_of h1 g)) /\ exists k, handlers_of (h1 ++ [l]) g = handlers_of h1 g ++ [(k, s)]).
Proof.
  intros h I CA NC CA' RE'. destruct (ret_plain _ _ _ _ _ I CA eq_refl) as (h1 & ch & h2 & k & r0 & EH & D & DD & NR & RR & C & S & FT & E & R). exists h1, (t, AGo ch), h2. do 3 (split; [solve [auto]|]).
  assert (LE : exists h3, h1 = h0 ++ h3).
  { unfold h in EH. clear - EH NC C. assert (X : (exists h3, h1 = h0 ++ h3) \/ exists h3, h0 = h1 ++ h3).
    { revert h1 EH C. generalize ((t, AGo ch) :: h2) as b. intros b h1 EH _. clear NC. revert h1 EH. induction h0 as [|x h0 IH]; intros h1 EH; [left; eexists; reflexivity|]. destruct h1 as [|y h1]; [right; eexists; reflexivity|].
      cbn in EH. injection EH as -> EH. destruct (IH h1 EH) as [(h3 & ->)|(h3 & ->)]; [left|right]; exists h3; reflexivity. }
    destruct X as [X|(h3 & ->)]; [exact X|]. exfalso. apply NC. apply called_iff. apply calls_mono. exact C. }
  destruct LE as (h3 & ->). pose proof (handed _ _ _ _ _ _ _ CA' RE') as L. pose proof (conns_mono h0 h3 g) as LM.
  destruct k; try discriminate FT. cbn in E. destruct (s_free (sig_at (final (h0 ++ h3)) g) t) eqn:SF; [|noret RR NR E]. rewrite !live_now.
  assert (SG : sg_at (final ((h0 ++ h3) ++ [(t, AGo ch)])) g = SigModel.next SigModel.Multi (sg_at (final (h0 ++ h3)) g) (t, SigModel.AReconnect s)) by (unfold sg_at; rewrite E; rewrite <- sg_next; f_equal; unfold sig_at; cbn; rewrite upd_same; reflexivity).
  rewrite SG.
  pose proof (restore_plain (sg_at (final (h0 ++ h3)) g) t s (PI_at _ g) (PJ_at _ g) (hy_crash _ (i_ok _ (EI_final _ DD) g)) SF ltac:(lia)) as X. exact X.
Qed.
