(** Two threads, each waiting for a mutex the other holds; when a message aborts the program. *)
From Verif Require Import ListUtil Amap ProcModel ProcSpec ProcProofs ProcProofs2 ProcProofs3 ProcProofs4 ProcProofs5 ProcProofs6 ProcProofs7 ProcProofs8 ProcProofs9 ProcProofs10 ProcProofs11 ProcProofs12 ProcProofs13 ProcProofs14 ProcProofs15 ProcProofs16 ProcProofs17 ProcProofs18 ProcProofs19 ProcProofs20 ProcProofs21 ProcProofs22 ProcProofs23 ProcProofs24 ProcProofs25 ProcProofs26 ProcProofs27 ProcProofs28.
From Verif Require QueueModel SigModel SigSpec SigProofs SigProofs2 SigProofs3 SigProofs4 SigProofs5 SigProofs6 SigProofs7 SigProofs9.

Record stuck (t1 t2 n1 n2 p g : nat) (st : state) : Prop := {
  sk_ne : t1 <> t2;
  sk_1 : exists r c, stk st t1 = FCall n1 PMap :: r /\ nth_error (calls st) n1 = Some (t1, c) /\ target c = p;
  sk_2 : exists r c, stk st t2 = FCall n2 (PSig g) :: r /\ nth_error (calls st) n2 = Some (t2, c) /\ target c = p;
  sk_em : exists x, SigModel.em (sg_at st g) = Some x /\ SigModel.e_thread x = t1 }.

Lemma stuck_step t1 t2 n1 n2 p g h l : stuck t1 t2 n1 n2 p g (final h) -> stuck t1 t2 n1 n2 p g (final (h ++ [l])).
Proof.
  intros K. pose proof K as [NE (r1 & c1 & S1 & C1 & T1) (r2 & c2 & S2 & C2 & T2) (x & EM & ET)].
  pose proof (li_held _ (lockinv_final h) _ _ _ _ _ S2 eq_refl C2) as LK. rewrite T2 in LK. destruct (dead (final h)) eqn:D.
  { assert (E : final (h ++ [l]) = final h) by (rewrite final_snoc; unfold next; rewrite D; reflexivity). rewrite E. exact K. }
  destruct (final_act h l) as [E|E]; [rewrite E; exact K|]. destruct l as [t a]. cbn [fst snd] in E.
  destruct (Nat.eq_dec t t1) as [->|N1].
  { assert (X : act (final h) t1 a = final h).
    { unfold act. rewrite S1. destruct a; try reflexivity. rewrite C1. unfold go_call. rewrite T1. unfold lock_free. change (p_lock (proc_at (final h) p)) with (lockat (final h) p). rewrite LK. reflexivity. }
    rewrite E, X. exact K. }
  destruct (Nat.eq_dec t t2) as [->|N2].
  { assert (X : act (final h) t2 a = final h).
    { unfold act. rewrite S2. destruct a; try reflexivity. rewrite C2. unfold go_call.
      assert (F : s_free (sig_at (final h) g) t2 = false) by (unfold s_free, SigModel.free; fold (sg_at (final h) g); rewrite EM, ET; destruct (Nat.eqb_spec t1 t2); [contradiction|reflexivity]). rewrite F. reflexivity. }
    rewrite E, X. exact K. }
  split; [exact NE| | |].
  - exists r1, c1. rewrite other_stacks by auto. split; [exact S1|]. split; [apply (ProcProofs11.calls_mono h [(t, a)]); exact C1|exact T1].
  - exists r2, c2. rewrite other_stacks by auto. split; [exact S2|]. split; [apply (ProcProofs11.calls_mono h [(t, a)]); exact C2|exact T2].
  - exists x. split; [|exact ET]. pose proof (EI_final h D) as J. destruct (next_sg h (t, a)) as [G|X]; [|rewrite X; exact EM]. cbn [fst] in G.
    assert (SAME : sig_same (final h) (final (h ++ [(t, a)])) -> SigModel.em (sg_at (final (h ++ [(t, a)])) g) = Some x) by (intros SS; unfold sg_at; rewrite (SS g); exact EM).
    assert (NF : s_free (sig_at (final h) g) t = true -> False).
    { unfold s_free, SigModel.free; fold (sg_at (final h) g); rewrite EM, ET; destruct (Nat.eqb_spec t1 t); [congruence|discriminate]. }
    destruct G as [SS _ _ _|p0 e i SS _ _ _|p0 e m g0 r _ _ SS _ _ _|p0 e m r _ _ SS _ _ _|g0 a0 FR UA ST _ _ _|p0 e m g0 r _ FR ST _ _|p0 e m g0 r S ST _ _|p0 e m g0 s r S ST _ _ _];
      try (apply SAME; exact SS); (destruct (Nat.eq_dec g g0) as [<-|N]; [exfalso|rewrite (sig_to_other _ _ _ _ _ ST N); exact EM]); try (apply NF; exact FR).
    + assert (I0 : In (e, MAt g) (fes (stk (final h) t))) by (rewrite S; left; reflexivity). destruct (i_at _ J _ _ _ I0) as (x0 & E1 & E2 & _). congruence.
    + assert (I0 : In (e, MIn g s) (fes (stk (final h) t))) by (rewrite S; left; reflexivity). destruct (i_in _ J _ _ _ _ I0) as (x0 & k & E1 & E2 & _). congruence.
Qed.

Lemma stuck_forever t1 t2 n1 n2 p g h h' : stuck t1 t2 n1 n2 p g (final h) -> (forall r, ~ returned (h ++ h') n1 r) /\ (forall r, ~ returned (h ++ h') n2 r).
Proof.
  intros K. assert (K' : stuck t1 t2 n1 n2 p g (final (h ++ h'))).
  { induction h' as [|l h' IH] using rev_ind; [rewrite app_nil_r; exact K|]. rewrite app_assoc. apply stuck_step. exact IH. }
  destruct K' as [_ (r1 & c1 & S1 & _ & _) (r2 & c2 & S2 & _ & _) _].
  assert (X : forall t n k r, stk (final (h ++ h')) t = FCall n k :: r -> forall res, ~ returned (h ++ h') n res).
  { intros t n k r S res (t' & R). pose proof (c_open _ (calls_final (h ++ h')) t n) as O. rewrite S in O. specialize (O (or_introl eq_refl)). apply ProcProofs12.ret_cnt in R. unfold trace in R. lia. }
  split; eapply X; eauto.
Qed.

(** A message aborts the program only if a handler of its type is processing another one on the same thread. *)
Definition NI (st : SigModel.state) : Prop := SigModel.em st = None -> SigModel.notif st = false.
Lemma NI_next st l : PI st -> NI st -> plain_action (snd l) = true -> NI (SigModel.next SigModel.Multi st l).
Proof.
  intros H N PA. unfold SigModel.next. destruct (SigModel.crashed st); [exact N|].
  assert (W : forall b, NI b -> NI (SigModel.watch st b)) by (intros b B; destruct (SigProofs5.watch_cases st b) as [->|(s & ->)]; exact B). apply W. clear W.
  assert (K : forall b, SigModel.em b = SigModel.em st -> SigModel.notif b = SigModel.notif st -> NI b) by (intros b E1 E2; unfold NI; rewrite E1, E2; exact N).
  destruct l as [t a]. cbn [fst snd] in *. destruct a as [k| | | | | | | |c|c| | | | | |v| | |]; try discriminate PA.
  - destruct k; try discriminate PA. cbn. destruct (SigModel.free st t); [|exact N]. rewrite (pl_hub _ H). apply K; reflexivity.
  - cbn. destruct (SigModel.free st t); [|exact N]. rewrite (hidden_plain _ _ H).
    assert (X : NI (fst (SigModel.disconnect SigModel.Multi st c))). { unfold SigModel.disconnect. repeat match goal with |- context [match ?x with _ => _ end] => destruct x end; apply K; reflexivity. }
    destruct (SigModel.disconnect SigModel.Multi st c). exact X.
  - cbn. destruct (SigModel.free st t); [|exact N]. rewrite (hidden_plain _ _ H).
    assert (X : NI (fst (SigModel.reconnect SigModel.Multi st c))). { unfold SigModel.reconnect. repeat match goal with |- context [match ?x with _ => _ end] => destruct x end; apply K; reflexivity. }
    destruct (SigModel.reconnect SigModel.Multi st c). exact X.
  - cbn. destruct (SigModel.free st t); [|exact N]. rewrite (pl_hub _ H). destruct (SigModel.entries st) eqn:EN; [|destruct (SigModel.notif st) eqn:NT]; try (apply K; [reflexivity|exact NT]); try (apply K; reflexivity). intros X. discriminate X.
  - cbn. destruct (SigModel.em st) as [e|] eqn:EM; [|exact N]. destruct (Nat.eqb (SigModel.e_thread e) t); [|exact N]. destruct (SigModel.e_run e); [exact N|]. unfold SigModel.step. destruct (nth_error (SigModel.entries st) (SigModel.e_cur e)) as [[[k s]|]|] eqn:NN.
    + destruct (kind_plain st s H) as [-> | -> ]; intros X; discriminate X.
    + apply K; [exact EM|reflexivity].
    + intros _. reflexivity.
  - cbn. destruct (SigModel.em st) as [e|]; [|exact N]. destruct (Nat.eqb (SigModel.e_thread e) t); [|exact N]. destruct (SigModel.e_run e) as [[k s]|]; [|exact N]. unfold SigModel.slot_return. destruct (kind_plain st s H) as [-> | -> ]; intros X; discriminate X.
Qed.
Lemma NI_at h g : NI (sg_at (final h) g).
Proof.
  assert (X : forall s, (forall l, In l s -> plain_action (snd l) = true) -> NI (SigModel.final SigModel.Multi s)).
  { induction s as [|l s IH] using rev_ind; intros P; [intros _; reflexivity|]. unfold SigModel.final. rewrite fold_left_app. cbn. assert (P' : forall x, In x s -> plain_action (snd x) = true) by (intros x I; apply P; apply in_or_app; left; exact I).
    apply NI_next; [apply PI_final; exact P'|apply IH; exact P'|apply P; apply in_or_app; right; left; reflexivity]. }
  apply X. apply sig_plain.
Qed.
Lemma keep_emit_idle st t v : NI st -> healthy st -> SigModel.em st = None -> SigModel.crashed (SigModel.next SigModel.Multi st (t, SigModel.AEmit v)) = false.
Proof.
  intros N [H D C] E. unfold SigModel.next. rewrite C. cbn [fst snd]. destruct (watch_keeps st (SigModel.act SigModel.Multi st t (SigModel.AEmit v))) as (_ & _ & _ & W4 & _). rewrite W4.
  unfold SigModel.act. destruct (SigModel.free st t) eqn:F; cbn; rewrite ?H; [|cbn; exact C].
  destruct (SigModel.entries st) eqn:EN; cbn; rewrite ?C; try reflexivity. rewrite (N E). cbn. exact C.
Qed.

Definition ab (st : state) : Prop := forall t, In (EAbort t) (tr st) -> dead st = true.
Lemma ab_emit st l : ab st -> existsb (fun e => match e with EAbort _ => true | _ => false end) l = false -> ab (emit st l).
Proof.
  intros A E t I. cbn in I. apply in_app_or in I as [I|I]; [exact (A t I)|]. assert (X : existsb (fun e => match e with EAbort _ => true | _ => false end) l = true) by (apply existsb_exists; eexists; split; [exact I|reflexivity]). congruence.
Qed.
Ltac abs := unfold ask, leave, start_inline, goto, ret, q_run, q_call, sig_do;
  repeat lazymatch goal with
    | |- ab (emit _ _) => apply ab_emit; [|reflexivity]
    | |- ab (with_stk ?b _ _) => change (ab b)
    | |- ab (with_tl ?b _ _) => change (ab b)
    | |- ab (with_calls ?b _) => change (ab b)
    | |- ab (set_sig ?b _ _) => change (ab b)
    | |- ab (new_sig ?b) => change (ab b)
    | |- ab (new_proc ?b _) => change (ab b)
    | |- ab (set_q ?b _ _) => change (ab b)
    | |- ab (set_map ?b _ _) => change (ab b)
    | |- ab (set_lock ?b _ _) => change (ab b)
    | |- ab (abort _ _) => intros ? ?; reflexivity
    | |- ab (if ?b then _ else _) => destruct b
    | |- ab (match ?x with _ => _ end) => destruct x
    end; try assumption.
Lemma finish_ab st t p e r : ab st -> ab (finish st t p e r).
Proof.
  intros K. unfold finish. cbv zeta. destruct r as [|[n k|n p' j k ph| |] r]; [abs| | |abs|abs].
  - destruct k; abs.
  - destruct ph, k; abs.
Qed.
Lemma act_ab st t a : ab st -> ab (act st t a).
Proof.
  intros K. unfold act. destruct a as [id|c|ch| | |].
  - abs.
  - cbv zeta. destruct (user (stk st t) && valid st c); [|exact K]. destruct c; abs.
  - destruct (stk st t) as [|f r] eqn:S; [exact K|]. destruct f as [n k|n p j kd ph|p e|p e m x].
    + destruct (nth_error (calls st) n) as [[t0 c]|]; [|abs]. unfold go_call. cbv zeta. destruct k; abs.
    + destruct ph as [i|e|]; cbv zeta; abs.
    + abs.
    + unfold go_emit. cbv zeta. destruct x; abs; apply finish_ab; abs.
  - destruct (stk st t) as [|[n k|n p j kd ph|p e|p e m []] r]; abs. apply finish_ab; abs.
  - destruct (stk st t) as [|[n k|n p j kd []|p e|p e m x] r]; abs.
  - destruct (stk st t) as [|[n k|n p j kd []|p e|p e m x] r]; abs.
Qed.
Lemma ab_final h : ab (final h).
Proof. induction h as [|l h IH] using rev_ind; [intros t []|]. destruct (final_act h l) as [-> | ->]; [exact IH|apply act_ab; exact IH]. Qed.

Lemma abort_nested h t : In (EAbort t) (trace h) -> exists h1 l h2 g p e m r, h = h1 ++ l :: h2 /\ unaborted h1 /\ in_handler h1 (fst l) g /\ stk (final h1) (fst l) = FEmit p e m (MWait g) :: r.
Proof.
  intros AB. apply ab_final in AB. clear t. revert AB. induction h as [|l h IH] using rev_ind; [discriminate|]. intros AB. destruct (dead (final h)) eqn:D.
  { destruct (IH eq_refl) as (h1 & l0 & h2 & g & p & e & m & r & -> & X). exists h1, l0, (h2 ++ [l]), g, p, e, m, r. split; [rewrite <- app_assoc; reflexivity|exact X]. }
  clear IH. exists h, l, []. pose proof (EI_final h D) as J. destruct (next_sg h l) as [G|X]; [|congruence].
  destruct G as [? ? ? X|? ? ? ? ? ? X|? ? ? ? ? ? ? ? ? ? X|? ? ? ? ? ? ? ? ? X|? ? ? ? ? ? ? X|p e m g r S FR ST NH R|? ? ? ? ? ? ? X ?|? ? ? ? ? ? ? ? ? ? X]; try congruence.
  exists g, p, e, m, r. split; [reflexivity|]. split; [intros t A; apply ab_final in A; congruence|]. split; [|exact S].
  cbv zeta in R. destruct R as [(CR & _)|(_ & X & _)]; [|congruence]. fold (sg_at (final (h ++ [l])) g) in CR. rewrite (sig_to_same _ _ _ _ ST) in CR.
  destruct (SigModel.em (sg_at (final h) g)) as [x|] eqn:EM; [|rewrite (keep_emit_idle _ _ _ (NI_at h g) (i_ok _ J g) EM) in CR; discriminate].
  destruct (em_frame h D g x EM) as (y & I & Y). unfold s_free, SigModel.free in FR. fold (sg_at (final h) g) in FR. rewrite EM in FR. apply andb_prop in FR as [F1 F2]. apply Nat.eqb_eq in F1.
  destruct (SigModel.e_run x) as [[k s]|]; [|discriminate]. subst y. rewrite F1 in I. apply in_fes in I as (p' & m' & I). exists p', (SigModel.e_val x), m', s. exact I.
Qed.
