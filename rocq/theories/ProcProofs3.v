(** The stacks of the threads are well formed. *)
From Verif Require Import ListUtil Amap ProcModel ProcSpec ProcProofs ProcProofs2.
From Verif Require QueueModel QueueSpec SigModel.

Definition link (b : option (nat * nat)) (g : frame) : Prop :=
  match g with
  | FLoop _ p' _ _ LBusy => exists e, b = Some (p', e)
  | FCall n PInline => exists p, b = Some (p, n)
  | FExec _ _ | FEmit _ _ _ (MIn _ _) => b = None
  | _ => False
  end.
Fixpoint chain (b : option (nat * nat)) (r : list frame) : Prop :=
  match r with [] => b = None | g :: r' => link b g /\ chain (body_of g) r' end.
Definition chained (l : list frame) : Prop := match l with [] => True | f :: r => chain (body_of f) r end.

Definition id_of (f : frame) : list nat := match f with FCall n _ | FLoop n _ _ _ _ => [n] | _ => [] end.
Definition ids (l : list frame) : list nat := flat_map id_of l.

Record good (cs : list (nat * call)) (t : nat) (l : list frame) : Prop := {
  g_call : forall n k, In (FCall n k) l -> exists c, nth_error cs n = Some (t, c) /\ fit c k = true;
  g_loop : forall n p just k ph, In (FLoop n p just k ph) l -> nth_error cs n = Some (t, KRun p k);
  g_chain : chained l;
  g_ids : NoDup (ids l) }.

Lemma good_nil cs t : good cs t [].
Proof. split; cbn; try tauto. constructor. Qed.
Lemma good_mono cs x t l : good cs t l -> good (cs ++ [x]) t l.
Proof.
  intros [A B C D]. split; auto.
  - intros n k I. destruct (A n k I) as (c & E & F). exists c. split; [|exact F]. rewrite nth_error_app1; auto. eapply nth_lt; eauto.
  - intros n p just k ph I. specialize (B _ _ _ _ _ I). rewrite nth_error_app1; auto. eapply nth_lt; eauto.
Qed.
Lemma ids_cons f r : ids (f :: r) = id_of f ++ ids r. Proof. reflexivity. Qed.
Lemma in_ids n l : In n (ids l) -> (exists k, In (FCall n k) l) \/ exists p just k ph, In (FLoop n p just k ph) l.
Proof.
  intros I. apply in_flat_map in I as (f & F & I). destruct f; cbn in I; try contradiction; destruct I as [<-|[]]; [left; eauto|right; eauto 6].
Qed.
Lemma ids_lt cs t l n : good cs t l -> In n (ids l) -> n < length cs.
Proof.
  intros G I. apply in_ids in I as [(k & I)|(p & just & k & ph & I)].
  - destruct (g_call _ _ _ G _ _ I) as (c & E & _). eapply nth_lt; eauto.
  - eapply nth_lt. eapply g_loop; eauto.
Qed.
Lemma ids_thread cs t t' l l' n : good cs t l -> good cs t' l' -> In n (ids l) -> In n (ids l') -> t = t'.
Proof.
  assert (X : forall t l, good cs t l -> In n (ids l) -> exists c, nth_error cs n = Some (t, c)).
  { intros t0 l0 G I. apply in_ids in I as [(k & I)|(p & just & k & ph & I)]; [destruct (g_call _ _ _ G _ _ I) as (c & E & _); eauto|eexists; eapply g_loop; eauto]. }
  intros G G' I I'. destruct (X _ _ G I) as (c & E), (X _ _ G' I') as (c' & E'). congruence.
Qed.
Lemma good_tail cs t f r : good cs t (f :: r) -> good cs t r.
Proof.
  intros [A B C D]. split; auto.
  - intros n k I. apply A. right. exact I.
  - intros n p just k ph I. eapply B. right. exact I.
  - destruct r as [|g r]; cbn in *; [exact I|tauto].
  - rewrite ids_cons in D. destruct f; cbn in D; auto; inversion D; assumption.
Qed.
(** Another frame on top. *)
Lemma good_top cs t f f' r : good cs t (f :: r) -> body_of f' = body_of f -> id_of f' = id_of f ->
  (forall n k, f' = FCall n k -> exists c, nth_error cs n = Some (t, c) /\ fit c k = true) ->
  (forall n p just k ph, f' = FLoop n p just k ph -> nth_error cs n = Some (t, KRun p k)) -> good cs t (f' :: r).
Proof.
  intros G B I X Y. pose proof (good_tail _ _ _ _ G) as T. split.
  - intros n k [E|E]; [apply X; exact E|eapply g_call; eauto].
  - intros n p just k ph [E|E]; [eapply Y; exact E|eapply g_loop; eauto].
  - cbn. rewrite B. apply (g_chain _ _ _ G).
  - rewrite ids_cons, I. apply (g_ids _ _ _ G).
Qed.
(** A call pushed on user code. *)
Lemma good_push cs t l f n c : good cs t l -> user l = true -> n = length cs -> id_of f = [n] -> body_of f = None ->
  (forall n' k, f = FCall n' k -> fit c k = true) -> (forall n' p just k ph, f = FLoop n' p just k ph -> c = KRun p k) -> good (cs ++ [(t, c)]) t (f :: l).
Proof.
  intros G U -> I B X Y. pose proof (good_mono cs (t, c) t l G) as M.
  assert (E : nth_error (cs ++ [(t, c)]) (length cs) = Some (t, c)) by (rewrite nth_error_app2, Nat.sub_diag by lia; reflexivity).
  split.
  - intros n k [H|H]; [|eapply g_call; eauto]. subst f. cbn in I. injection I as ->. exists c. split; [exact E|eapply X; reflexivity].
  - intros n p just k ph [H|H]; [|eapply g_loop; eauto]. subst f. cbn in I. injection I as ->. rewrite <- (Y _ _ _ _ _ eq_refl). exact E.
  - cbn. rewrite B. pose proof (g_chain _ _ _ G) as C. destruct l as [|g l]; cbn in *; [reflexivity|]. split; [|exact C].
    destruct g as [| | |? ? ? []]; try discriminate; reflexivity.
  - rewrite ids_cons, I. constructor; [|apply (g_ids _ _ _ G)]. intros H. pose proof (ids_lt _ _ _ _ G H). lia.
Qed.
Lemma body_body c p n : body_of (body c p n) = Some (p, n).
Proof. destruct c; reflexivity. Qed.
Lemma body_id c p n : id_of (body c p n) = [].
Proof. destruct c; reflexivity. Qed.
Lemma body_not c p n f : f = body c p n -> (forall m k, f <> FCall m k) /\ forall m q j k ph, f <> FLoop m q j k ph.
Proof. intros ->. destruct c; split; intros; discriminate. Qed.
(** A body pushed on the frame that waits for it. *)
Lemma good_body cs t f r c p n : good cs t (f :: r) -> body_of f = None -> link (Some (p, n)) f -> good cs t (body c p n :: f :: r).
Proof.
  intros G B L. destruct (body_not c p n _ eq_refl) as [N1 N2]. split.
  - intros m k [E|E]; [exfalso; eapply N1; exact E|eapply g_call; eauto].
  - intros m q j k ph [E|E]; [exfalso; eapply N2; exact E|eapply g_loop; eauto].
  - cbn. rewrite body_body. split; [exact L|]. apply (g_chain _ _ _ G).
  - rewrite ids_cons, body_id. apply (g_ids _ _ _ G).
Qed.

Definition all_good (st : state) : Prop := forall t, good (calls st) t (stk st t).
Lemma all_fits st : all_good st -> fits st.
Proof. intros G t n k I. eapply g_call; eauto. Qed.

Lemma good_step t st st' : core t st st' -> all_good st -> all_good st'.
Proof.
  intros K G t'. pose proof (G t) as GT.
  assert (EF : forall s' add, eff st st' t s' add -> good (calls st) t s' -> good (calls st') t' (stk st' t')).
  { intros s' add (S & _ & C) H. rewrite C, S. unfold upd. destruct (Nat.eqb_spec t t'); [subst; exact H|apply G]. }
  assert (EC : forall s' c, eff_call st st' t s' c -> good (calls st ++ [(t, c)]) t s' -> good (calls st') t' (stk st' t')).
  { intros s' c (S & _ & C) H. rewrite C, S. unfold upd. destruct (Nat.eqb_spec t t'); [subst; exact H|apply good_mono, G]. }
  destruct K as [l Q E N|p e m x x' r l S Q E N|c U N Q E|p k just U Q E|n t0 c k k' r S C F F' Q PS FT E|n t0 c k res r S C F Q R KS E|n t0 p r S C Q E
    |n t0 p r S C P Q E|n t0 p r S C Q E|n t0 c p ch r S C P q1 R Q E|n t0 c p ch r S C P q1 R Q E|n t0 c p i ch r S C P q1 R Q E|f r p i l S FQ L OR RN Q E
    |n t0 c p i ch r S C P q1 R Q E|n t0 c p i ch r S C P q1 R Q E|n t0 c p i ch res r S C P q1 R Q E|n p just kd i ch e r S q1 R Q E|n p just kd i ch res x r S q1 R NT Q E
    |n p just kd e t0 c r S C Q E|n t0 c k r S C F SB Q PS E|b p e n p' just k r l S B N Q E|b p e n p' just r l S B N Q E|b p e n r l res S B N Q FI E|b p e r l S B N Q O E].
  - eapply EF; eauto.
  - eapply EF; [exact E|]. rewrite S in GT. eapply good_top; [exact GT|reflexivity|reflexivity|intros; discriminate|intros; discriminate].
  - eapply EC; [exact E|]. eapply good_push; [exact GT|exact U|reflexivity|reflexivity|reflexivity| |intros; discriminate].
    intros n' k [= <- <-]. destruct c; try reflexivity. exfalso. eapply N; reflexivity.
  - eapply EC; [exact E|]. eapply good_push; [exact GT|exact U|reflexivity|reflexivity|reflexivity|intros; discriminate|]. intros n' p' j k' ph [= <- <- <- <- <-]. reflexivity.
  - eapply EF; [exact E|]. rewrite S in GT. eapply good_top; [exact GT|reflexivity|reflexivity| |intros; discriminate]. intros n' k0 [= <- <-]. 
    destruct (g_call _ _ _ GT n k) as (c' & C' & _); [left; reflexivity|]. rewrite C in C'. injection C' as <- <-. eauto.
  - eapply EF; [exact E|]. rewrite S in GT. eapply good_tail; eauto.
  - eapply EF; [exact E|]. rewrite S in GT. eapply good_tail; eauto.
  - eapply EF; [exact E|]. rewrite S in GT. eapply good_top; [exact GT|reflexivity|reflexivity| |intros; discriminate]. intros n' k0 [= <- <-]. 
    destruct (g_call _ _ _ GT n PStart) as (c' & C' & _); [left; reflexivity|]. rewrite C in C'. injection C' as <- <-. eauto.
  - eapply EF; [exact E|]. rewrite S in GT. eapply good_top; [exact GT|reflexivity|reflexivity| |intros; discriminate]. intros n' k0 [= <- <-]. 
    destruct (g_call _ _ _ GT n PStart) as (c' & C' & _); [left; reflexivity|]. rewrite C in C'. injection C' as <- <-. eauto.
  - eapply EF; [exact E|]. rewrite S in GT. eapply good_tail; eauto.
  - eapply EF; [exact E|]. rewrite S in GT. eapply good_top; [exact GT|reflexivity|reflexivity| |intros; discriminate]. intros n' k0 [= <- <-]. 
    destruct (g_call _ _ _ GT n PAdd) as (c' & C' & FF); [left; reflexivity|]. rewrite C in C'. injection C' as <- <-. eauto.
  - eapply EF; [exact E|]. rewrite S in GT. eapply good_tail; eauto.
  - eapply EF; [exact E|]. rewrite S in GT. exact GT.
  - eapply EF; [exact E|]. rewrite S in GT. eapply good_top; [exact GT|reflexivity|reflexivity| |intros; discriminate]. intros n' k0 [= <- <-]. 
    destruct (g_call _ _ _ GT n (PClose i)) as (c' & C' & FF); [left; reflexivity|]. rewrite C in C'. injection C' as <- <-. eauto.
  - eapply EF; [exact E|]. rewrite S in GT. eapply good_tail; eauto.
  - eapply EF; [exact E|]. rewrite S in GT. eapply good_tail; eauto.
  - eapply EF; [exact E|]. rewrite S in GT. eapply good_top; [exact GT|reflexivity|reflexivity|intros; discriminate|]. intros ? ? ? ? ? [= <- <- <- <- <-]. eapply g_loop; [exact GT|left; reflexivity].
  - eapply EF; [exact E|]. rewrite S in GT. eapply good_tail; eauto.
  - eapply EF; [exact E|]. rewrite S in GT. apply good_body; [|reflexivity|cbn; eauto]. eapply good_top; [exact GT|reflexivity|reflexivity|intros; discriminate|]. intros ? ? ? ? ? [= <- <- <- <- <-]. eapply g_loop; [exact GT|left; reflexivity].
  - eapply EF; [exact E|]. rewrite S in GT. apply good_body; [|reflexivity|cbn; eauto]. eapply good_top; [exact GT|reflexivity|reflexivity| |intros; discriminate].
    intros n' k0 [= <- <-]. destruct (g_call _ _ _ GT n k) as (c' & C' & FF); [left; reflexivity|]. rewrite C in C'. injection C' as <- <-. eauto.
  - eapply EF; [exact E|]. rewrite S in GT. apply good_tail in GT. eapply good_top; [exact GT|reflexivity|reflexivity|intros; discriminate|]. intros ? ? ? ? ? [= <- <- <- <- <-]. eapply g_loop; [exact GT|left; reflexivity].
  - eapply EF; [exact E|]. rewrite S in GT. apply good_tail, good_tail in GT. exact GT.
  - eapply EF; [exact E|]. rewrite S in GT. apply good_tail, good_tail in GT. exact GT.
  - eapply EF; [exact E|]. rewrite S in GT. eapply good_tail; eauto.
Qed.

Lemma final_snoc h l : final (h ++ [l]) = next (final h) l.
Proof. unfold final. rewrite fold_left_app. reflexivity. Qed.
Lemma next_core st l : all_good st -> core (fst l) st (next st l).
Proof.
  intros G. unfold next. destruct (dead st); [|apply act_core, all_fits, G].
  apply (K_quiet _ st st []); [intros ?; reflexivity| |apply quiet_nil]. unfold eff. rewrite app_nil_r. split; auto. intros. symmetry. apply upd_id.
Qed.
Lemma good_final h : all_good (final h).
Proof.
  induction h as [|l h IH] using rev_ind; [intros t; apply good_nil|]. rewrite final_snoc. eapply good_step; [apply next_core; exact IH|exact IH].
Qed.

(** Induction over the steps. *)
Lemma core_ind (P : state -> Prop) : P init -> (forall t st st', all_good st -> P st -> core t st st' -> P st') -> forall h, P (final h).
Proof.
  intros P0 PS h. induction h as [|l h IH] using rev_ind; [exact P0|]. rewrite final_snoc. eapply PS; [apply good_final|exact IH|apply next_core, good_final].
Qed.

(** A body always has the frame below that waits for it. *)
Lemma no_odd cs t b p e r : good cs t (b :: r) -> body_of b = Some (p, e) ->
  (forall f r', r = f :: r' -> (forall n p just k, f <> FLoop n p just k LBusy) /\ forall n, f <> FCall n PInline) -> False.
Proof.
  intros G B O. pose proof (g_chain _ _ _ G) as C. cbn in C. rewrite B in C. destruct r as [|f r]; cbn in C; [discriminate|]. destruct C as [L _].
  destruct (O f r eq_refl) as [O1 O2]. destruct f as [n []|n q j k []|q x|q x m []]; cbn in L; try contradiction; try discriminate; [eapply O2; reflexivity|eapply O1; reflexivity].
Qed.
