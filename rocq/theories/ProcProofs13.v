(** The processor a thread belongs to. *)
From Verif Require Import ListUtil Amap ProcModel ProcSpec ProcProofs ProcProofs2 ProcProofs3 ProcProofs4 ProcProofs5 ProcProofs6 ProcProofs7 ProcProofs8 ProcProofs9 ProcProofs10 ProcProofs11 ProcProofs12.
From Verif Require QueueModel QueueSpec QueueProofs QueueProofs2 QueueProofs3 SigModel.

(** The run loops of a thread, the innermost first. *)
Definition loop_of (f : frame) : list (nat * nat * bool) := match f with FLoop n p j _ _ => [(n, p, j)] | _ => [] end.
Definition loops (l : list frame) : list (nat * nat * bool) := flat_map loop_of l.

Inductive tls (t : nat) (st st' : state) : Prop :=
| T_same : (forall t', tl st' t' = tl st t') -> loops (stk st' t) = loops (stk st t) -> tls t st st'
| T_enter (n p : nat) (j : bool) : j = (match tl st t with None => true | Some _ => false end) -> (forall t', tl st' t' = if j then upd (tl st) t (Some p) t' else tl st t') ->
    loops (stk st' t) = (n, p, j) :: loops (stk st t) -> tls t st st'
| T_leave (n p : nat) (j : bool) : (forall t', tl st' t' = if j then upd (tl st) t None t' else tl st t') -> loops (stk st t) = (n, p, j) :: loops (stk st' t) -> tls t st st'.

Lemma loops_user c p n r : loops (body c p n :: r) = loops r. Proof. destruct c; reflexivity. Qed.

Lemma finish_tls t st st1 b p e r : stk st t = b :: r -> loop_of b = [] -> tl st1 = tl st -> stk st1 = stk st -> calls st1 = calls st -> tls t st (finish st1 t p e r).
Proof.
  intros S B T SK C. unfold finish.
  assert (L : loops (stk st t) = loops r) by (rewrite S; unfold loops; cbn; rewrite B; reflexivity).
  assert (ODD : tls t st (with_stk (emit st1 [EEnd t p e]) t r)) by (apply T_same; cbn; [intros; rewrite T; reflexivity|rewrite upd_same, L; reflexivity]).
  destruct r as [|f r]; [exact ODD|]. destruct f as [n k|n p' j k ph| |]; try exact ODD.
  - destruct k; try exact ODD. apply T_same; cbn; [intros; rewrite T; reflexivity|rewrite upd_same, L; reflexivity].
  - destruct ph; try exact ODD. 1,2: destruct k; exact ODD.
    destruct k; try (apply T_same; cbn; [intros; rewrite T; reflexivity|rewrite upd_same, L; reflexivity]).
    apply (T_leave _ _ _ n p' j); unfold leave, ret; [|rewrite L; destruct j; cbn; rewrite upd_same; reflexivity].
    intros t'. destruct j; cbn; rewrite T; reflexivity.
Qed.

Ltac same_tls := apply T_same; [intros; reflexivity|cbn; rewrite ?upd_same; try match goal with S : stk _ _ = _ |- _ => rewrite ?S end; cbn; reflexivity].

Lemma act_tls t st a : tls t st (act st t a).
Proof.
  unfold act. destruct a as [id|c|ch| | |].
  - destruct (user (stk st t)); same_tls.
  - destruct (user (stk st t) && valid st c); [|same_tls]. destruct c as [p|p|p|p m|p m|p m|p m|p m|g s|g s|p|p|p|p|p k]; try (same_tls; fail).
    apply (T_enter _ _ _ (length (calls st)) p (match tl st t with None => true | Some _ => false end)); [reflexivity| |].
    + intros t'. destruct (tl st t); reflexivity.
    + destruct (tl st t); cbn; rewrite upd_same; reflexivity.
  - destruct (stk st t) as [|f r] eqn:S; [same_tls|]. destruct f as [n k|n p j kd ph|p e|p e m x].
    + destruct (nth_error (calls st) n) as [[t0 c]|]; [|same_tls]. unfold go_call, goto, ret, start_inline, q_run, q_call, sig_do, set_q, set_lock, set_map.
      destruct k; [destruct c| | | |destruct c|destruct c| | | | | |]; cbn -[q_result q_state]; repeat (match goal with |- context [match ?x with _ => _ end] => destruct x end; cbn -[q_result q_state]); same_tls.
    + destruct ph as [i|e|]; [|destruct (nth_error (calls st) e) as [[t0 c]|]; [|same_tls]|same_tls].
      * cbn -[q_result q_state]. destruct (q_result _ i) as [[]|]; try (same_tls; fail);
        (apply (T_leave _ _ _ n p j); unfold leave, ret; [intros t'; destruct j; reflexivity|rewrite S; destruct j; cbn; rewrite upd_same; reflexivity]).
      * apply T_same; [intros; reflexivity|]. cbn. rewrite upd_same, S. cbn. destruct c; reflexivity.
    + same_tls.
    + unfold go_emit, sig_do. destruct x as [|g|g|g s].
      * destruct (lock_free st p); [|same_tls]. destruct (get m (p_map (proc_at st p))); [same_tls|]. eapply finish_tls; [exact S|reflexivity..].
      * destruct (s_free (sig_at st g) t); [|same_tls]. cbv zeta. destruct (SigModel.crashed _); [same_tls|]. destruct (SigModel.em _); [same_tls|]. eapply finish_tls; [exact S|reflexivity..].
      * cbv zeta. destruct (SigModel.em _) as [em|]; [|eapply finish_tls; [exact S|reflexivity..]]. destruct (SigModel.e_run em) as [[]|]; same_tls.
      * same_tls.
  - destruct (stk st t) as [|f r] eqn:S; [same_tls|]. destruct f as [n k|n p j kd ph|p e|p e m []]; try (same_tls; fail). eapply finish_tls; [exact S|reflexivity..].
  - destruct (stk st t) as [|f r] eqn:S; [same_tls|]. destruct f as [n k|n p j kd []|p e|p e m []]; same_tls.
  - destruct (stk st t) as [|f r] eqn:S; [same_tls|]. destruct f as [n k|n p j kd []|p e|p e m []]; same_tls.
Qed.

Fixpoint outer (l : list (nat * nat * bool)) : option (nat * nat) :=
  match l with [] => None | (n, p, _) :: l' => match outer l' with None => Some (n, p) | x => x end end.
Fixpoint justs (l : list (nat * nat * bool)) : Prop :=
  match l with [] => True | (_, _, j) :: l' => j = (match outer l' with None => true | Some _ => false end) /\ justs l' end.
Definition of_thread (st : state) (t : nat) : option (nat * nat) := fold_left (inst t) (tr st) None.

Record tinv (st : state) : Prop := {
  t_outer : forall t, of_thread st t = outer (loops (stk st t));
  t_tl : forall t, tl st t = option_map snd (outer (loops (stk st t)));
  t_just : forall t, justs (loops (stk st t)) }.

Definition about_inst (t : nat) (e : event) : bool := match e with ECall t' _ (KRun _ _) | ERet t' _ _ => Nat.eqb t t' | _ => false end.
Lemma inst_skip t b : forall x, (forall e, In e b -> about_inst t e = false) -> fold_left (inst t) b x = x.
Proof.
  induction b as [|e b IH]; intros x H; cbn; [reflexivity|]. rewrite IH by (intros; apply H; right; assumption). specialize (H e (or_introl eq_refl)).
  destruct e as [| ? ? c|t' n r| | | | | | | | |]; destruct x as [[? ?]|]; try reflexivity; cbn in *; try (destruct c; reflexivity); try (rewrite H; reflexivity). destruct c; try reflexivity. rewrite H. reflexivity.
Qed.
Lemma inst_ret t n r x : (forall p, x <> Some (n, p)) -> inst t x (ERet t n r) = x.
Proof. intros H. destruct x as [[n' p]|]; [|reflexivity]. cbn. destruct (Nat.eqb_spec n n'); [subst; exfalso; eapply H; reflexivity|]. rewrite andb_false_r. reflexivity. Qed.

Lemma loops_ids n p j l : In (n, p, j) (loops l) -> In n (ids l).
Proof. unfold loops, ids. rewrite !in_flat_map. intros (f & I & L). exists f. split; [exact I|]. destruct f; cbn in *; try contradiction. destruct L as [L|[]]. injection L as -> _ _. left. reflexivity. Qed.
Lemma outer_in l n p : outer l = Some (n, p) -> exists j, In (n, p, j) l.
Proof. induction l as [|[[n' p'] j] l IH]; cbn; [discriminate|]. destruct (outer l) as [[? ?]|]; intros H; injection H as <- <-; [destruct IH as (j' & I); [reflexivity|eauto]|eauto]. Qed.
Lemma outer_ids l n p : outer (loops l) = Some (n, p) -> In n (ids l).
Proof. intros H. apply outer_in in H as (j & I). eapply loops_ids; eauto. Qed.
Lemma loops_app a b : loops (a ++ b) = loops a ++ loops b. Proof. apply flat_map_app. Qed.
Lemma loops_cons f r : loops (f :: r) = loop_of f ++ loops r. Proof. reflexivity. Qed.

Lemma final_tls h l : tls (fst l) (final h) (final (h ++ [l])).
Proof. rewrite final_snoc. unfold next. destruct (dead (final h)); [apply T_same; reflexivity|apply act_tls]. Qed.

Lemma tinv_final h : tinv (final h).
Proof.
  induction h as [|lb h IH] using rev_ind; [split; cbn; auto|]. pose proof (final_tls h lb) as TL. pose proof (core_evt _ _ _ (good_final h) (qinv_final h) (final_step h lb)) as V.
  pose proof (good_final h) as G. pose proof (good_final (h ++ [lb])) as G'. set (t := fst lb) in *. clearbody t. set (st := final h) in *. set (st' := final (h ++ [lb])) in *. clearbody st st'. clear h lb.
  (* the others *)
  assert (DO : forall s' add, (forall t', stk st' t' = upd (stk st) t s' t') -> tr st' = tr st ++ add -> (forall e t', In e add -> t' <> t -> about_inst t' e = false) ->
    (fold_left (inst t) add (outer (loops (stk st t))) = outer (loops s') /\ tl st' t = option_map snd (outer (loops s')) /\ justs (loops s')) ->
    (forall t', t' <> t -> tl st' t' = tl st t') -> tinv st').
  { intros s' add S T A (B1 & B2 & B3) C. split; intros t'; rewrite S; unfold upd; destruct (Nat.eqb_spec t t') as [<-|N].
    - unfold of_thread. rewrite T, fold_left_app. fold (of_thread st t). rewrite (t_outer _ IH). exact B1.
    - unfold of_thread. rewrite T, fold_left_app. fold (of_thread st t'). rewrite inst_skip by (intros e I; apply A; auto). apply (t_outer _ IH).
    - exact B2.
    - rewrite C by auto. apply (t_tl _ IH).
    - exact B3.
    - apply (t_just _ IH). }
  assert (TS : forall s' add, (forall t', stk st' t' = upd (stk st) t s' t') -> tr st' = tr st ++ add -> (forall e t', In e add -> t' <> t -> about_inst t' e = false) ->
    loops s' = loops (stk st t) -> (forall e, In e add -> about_inst t e = true -> exists n r, e = ERet t n r /\ ~ In n (map (fun x => fst (fst x)) (loops (stk st t)))) -> tinv st').
  { intros s' add S T A L R. assert (TLS : forall t', tl st' t' = tl st t').
    { destruct TL as [X _|n p j _ _ X|n p j _ X]; [exact X| |]; exfalso; rewrite S, upd_same, L in X; apply (f_equal (@length _)) in X; cbn in X; lia. }
    eapply DO; [exact S|exact T|exact A| |intros; apply TLS]. rewrite L, TLS. split; [|split; [apply (t_tl _ IH)|apply (t_just _ IH)]].
    assert (NI : forall n p, outer (loops (stk st t)) = Some (n, p) -> In n (map (fun x => fst (fst x)) (loops (stk st t)))).
    { intros n p O. apply outer_in in O as (j & I). apply in_map_iff. exists (n, p, j). auto. }
    clear T A. induction add as [|e add IHa]; [reflexivity|]. cbn. destruct (about_inst t e) eqn:AE.
    - destruct (R e (or_introl eq_refl) AE) as (n & r & -> & NN). rewrite inst_ret; [apply IHa; intros e' I'; apply R; right; exact I'|]. intros p O. apply NN. eapply NI; eauto.
    - assert (X : inst t (outer (loops (stk st t))) e = outer (loops (stk st t))) by (apply (inst_skip t [e]); intros x [<-|[]]; exact AE).
      rewrite X. apply IHa. intros e' I'. apply R. right. exact I'. }
  assert (QA : forall l, quiet l -> forall e t', In e l -> about_inst t' e = false) by (intros l Q e t' I; specialize (Q _ I); destruct e; try discriminate; reflexivity).
  assert (QR : forall l, quiet l -> forall e, In e l -> about_inst t e = true -> exists n r, e = ERet t n r /\ ~ In n (map (fun x => fst (fst x)) (loops (stk st t)))).
  { intros l Q e I A. rewrite (QA l Q e t I) in A. discriminate. }
  assert (OWNR : forall n r t', t' <> t -> about_inst t' (ERet t n r) = false) by (intros n r t' N; cbn; apply Nat.eqb_neq; auto).
  assert (LI : forall f n r, stk st t = f :: r -> id_of f = [n] -> loop_of f = [] -> ~ In n (map (fun x => fst (fst x)) (loops (stk st t)))).
  { intros f n r S I L IN. apply in_map_iff in IN as ([[n' p] j] & X & IN). cbn in X. subst n'. pose proof (g_ids _ _ _ (G t)) as ND. rewrite S in ND, IN. rewrite ids_cons, I in ND. rewrite loops_cons, L in IN.
    inversion ND as [|? ? NI _]. apply NI. eapply loops_ids. exact IN. }
  (* leaving a loop *)
  assert (LEAVE : forall n p j r add, loops (stk st t) = (n, p, j) :: loops r -> ~ In n (ids r) -> (forall t', stk st' t' = upd (stk st) t r t') -> tr st' = tr st ++ add ->
     (forall e t', In e add -> t' <> t -> about_inst t' e = false) -> (exists l res, add = l ++ [ERet t n res] /\ forall e, In e l -> about_inst t e = false) -> tinv st').
  { intros n p j r add L NI S T A (l & res & -> & Q).
    assert (TLS : forall t', tl st' t' = if j then upd (tl st) t None t' else tl st t').
    { destruct TL as [_ X|n' p' j' _ _ X|n' p' j' X Y].
      - exfalso. rewrite S, upd_same, L in X. apply (f_equal (@length _)) in X. cbn in X. lia.
      - exfalso. rewrite S, upd_same, L in X. apply (f_equal (@length _)) in X. cbn in X. lia.
      - rewrite S, upd_same, L in Y. injection Y as <- <- <-. exact X. }
    pose proof (t_just _ IH t) as J. pose proof (t_tl _ IH t) as TT. rewrite L in J, TT. cbn in J, TT. destruct J as [J1 J2].
    eapply DO; [exact S|exact T|exact A| |].
    - rewrite fold_left_app, (inst_skip t l) by exact Q. rewrite L. cbn [fold_left outer]. split; [|split; [|exact J2]].
      + destruct (outer (loops r)) as [[n' p']|] eqn:O; [|cbn; rewrite !Nat.eqb_refl; reflexivity]. apply inst_ret. intros p0 E. injection E as -> ->. apply NI. eapply outer_ids; eauto.
      + rewrite TLS. subst j. destruct (outer (loops r)); [exact TT|rewrite upd_same; reflexivity].
    - intros t' N. rewrite TLS. destruct j; [apply upd_other; auto|reflexivity]. }
  destruct V as [l Q E|f f' r l S SI Q E|f c U ID W E|f n r ds res S ID W DS E _|n i c p r S C SB P E|n p j k i e r S E|n p j k e t0 c r S C E|n k c r S C F SB E|b p e n j k i r l S B Q E|b p e n j r l S B Q E|b p n r l c S B Q C E]; destruct E as (S' & T & CC).
  - eapply TS; [exact S'|exact T|eauto|reflexivity|apply QR, Q].
  - eapply TS; [exact S'|exact T|eauto| |apply QR, Q]. rewrite S. destruct SI as [<-|[(? & ? & ? & -> & -> & _)|(? & ? & ? & ? & ? & -> & ->)]]; reflexivity.
  - assert (AB : forall t', t' <> t -> about_inst t' (ECall t (length (calls st)) c) = false) by (intros t' N; destruct c; try reflexivity; cbn; apply Nat.eqb_neq; auto).
    assert (CN : nth_error (calls st') (length (calls st)) = Some (t, c)) by (rewrite CC, nth_error_app2, Nat.sub_diag by lia; reflexivity).
    destruct f as [n k|n p j k ph| |]; try discriminate; injection ID as ->.
    + eapply TS; [exact S'|exact T|intros e t' [<-|[]]; apply AB|reflexivity|]. intros e [<-|[]] A. destruct (g_call _ _ _ (G' t) (length (calls st)) k) as (c' & C' & FT); [rewrite S', upd_same; left; reflexivity|].
      assert (c' = c) by congruence. subst c'. destruct c; try discriminate. destruct k; discriminate.
    + assert (C' : nth_error (calls st') (length (calls st)) = Some (t, KRun p k)) by (eapply (g_loop _ _ _ (G' t) _ p j k ph); rewrite S', upd_same; left; reflexivity). assert (c = KRun p k) by congruence. subst c.
      assert (X : j = (match tl st t with None => true | Some _ => false end) /\ forall t', tl st' t' = if j then upd (tl st) t (Some p) t' else tl st t').
      { destruct TL as [_ X|n' p' j' X Y Z|n' p' j' _ X].
        - exfalso. rewrite S', upd_same, loops_cons in X. cbn [loop_of app] in X. apply (f_equal (@length _)) in X. cbn [length] in X. lia.
        - rewrite S', upd_same in Z. cbn in Z. injection Z as _ -> ->. split; assumption.
        - exfalso. rewrite S', upd_same, loops_cons in X. cbn [loop_of app] in X. apply (f_equal (@length _)) in X. cbn [length] in X. lia. }
      destruct X as [X Y]. pose proof (t_tl _ IH t) as TT. eapply DO; [exact S'|exact T|intros e t' [<-|[]]; apply AB| |].
      * cbn [fold_left]. rewrite loops_cons. cbn [loop_of app outer justs]. destruct (outer (loops (stk st t))) as [[n0 p0]|] eqn:O; cbn in TT; rewrite TT in X; subst j; cbn; rewrite Y, ?Nat.eqb_refl, ?upd_same, ?O; cbn; rewrite ?TT; repeat split; apply (t_just _ IH t).
      * intros t' N. rewrite Y. destruct j; [apply upd_other; auto|reflexivity].
  - assert (QD : forall e t', In e ds -> about_inst t' e = false) by (destruct DS as [->|(p & es & ->)]; [intros e t' []|intros e t' [<-|[]]; reflexivity]).
    assert (OTH : forall e t', In e (ds ++ [ERet t n res]) -> t' <> t -> about_inst t' e = false) by (intros e t' I N; apply in_app_or in I as [I|[<-|[]]]; [apply QD, I|apply OWNR, N]).
    destruct f as [n' k|n' p j k ph| |]; try discriminate; injection ID as ->.
    + eapply TS; [exact S'|exact T|exact OTH|rewrite S; reflexivity|]. intros e I A. apply in_app_or in I as [I|[<-|[]]]; [rewrite QD in A by exact I; discriminate|]. exists n, res. split; [reflexivity|]. eapply LI; [exact S|reflexivity..].
    + pose proof (g_ids _ _ _ (G t)) as ND. rewrite S in ND. inversion ND as [|? ? NI _]. eapply (LEAVE n p j r); [rewrite S; reflexivity|exact NI|exact S'|exact T|exact OTH|]. exists ds, res. split; [reflexivity|]. intros e I. apply QD, I.
  - eapply TS; [exact S'|exact T|intros e t' [<-|[<-|[]]] N; [reflexivity|apply OWNR, N]|rewrite S; reflexivity|]. intros e [<-|[<-|[]]] A; [discriminate|]. do 2 eexists. split; [reflexivity|]. eapply LI; [exact S|reflexivity..].
  - eapply TS; [exact S'|exact T|intros e' t' [<-|[]] N; reflexivity|rewrite S; reflexivity|]. intros e' [<-|[]] A; discriminate.
  - eapply TS; [exact S'|exact T|intros e' t' [<-|[]] N; reflexivity|rewrite S, loops_user; reflexivity|]. intros e' [<-|[]] A; discriminate.
  - eapply TS; [exact S'|exact T|intros e' t' [<-|[]] N; reflexivity|rewrite S, loops_user; reflexivity|]. intros e' [<-|[]] A; discriminate.
  - assert (LB : loop_of b = []) by (destruct b; try discriminate; reflexivity).
    eapply TS; [exact S'|exact T|intros e' t' I N; apply in_app_or in I as [I|[<-|[]]]; [eauto|reflexivity]|rewrite S, !loops_cons, LB; reflexivity|].
    intros e' I A. apply in_app_or in I as [I|[<-|[]]]; [eapply QR; eauto|discriminate].
  - assert (LB : loop_of b = []) by (destruct b; try discriminate; reflexivity). pose proof (g_ids _ _ _ (G t)) as ND. rewrite S, !ids_cons, (body_of_id _ _ B) in ND. inversion ND as [|? ? NI _].
    eapply (LEAVE n p j r); [rewrite S, !loops_cons, LB; reflexivity|exact NI|exact S'|exact T| |].
    + intros e' t' I N. apply in_app_or in I as [I|[<-|[<-|[]]]]; [eauto|reflexivity|apply OWNR, N].
    + exists (l ++ [EEnd t p e]), (RBool true). rewrite <- app_assoc. split; [reflexivity|]. intros e' I. apply in_app_or in I as [I|[<-|[]]]; [eauto|reflexivity].
  - assert (LB : loop_of b = []) by (destruct b; try discriminate; reflexivity).
    eapply TS; [exact S'|exact T| |rewrite S, !loops_cons, LB; reflexivity|].
    + intros e' t' I N. apply in_app_or in I as [I|[<-|[<-|[]]]]; [eauto|reflexivity|apply OWNR, N].
    + intros e' I A. apply in_app_or in I as [I|[<-|[<-|[]]]]; [eapply QR; eauto|discriminate|]. do 2 eexists. split; [reflexivity|].
      intros IN. apply in_map_iff in IN as ([[n' p'] j] & X & IN). cbn in X. subst n'. pose proof (g_ids _ _ _ (G t)) as ND. rewrite S, !ids_cons, (body_of_id _ _ B) in ND. rewrite S, !loops_cons, LB in IN.
      inversion ND as [|? ? NI _]. apply NI. eapply loops_ids. exact IN.
Qed.

Lemma instance_is h t : tl (final h) t = instance t (trace h).
Proof. unfold instance, trace. fold (of_thread (final h) t). rewrite (t_outer _ (tinv_final h)). apply (t_tl _ (tinv_final h)). Qed.
