(** The handlers maps and their mutexes; posting. *)
From Verif Require Import ListUtil Amap ProcModel ProcSpec ProcProofs ProcProofs2 ProcProofs3 ProcProofs4 ProcProofs5 ProcProofs6 ProcProofs7 ProcProofs8 ProcProofs9 ProcProofs10 ProcProofs11 ProcProofs12 ProcProofs13 ProcProofs14 ProcProofs15 ProcProofs16.
From Verif Require QueueModel QueueSpec QueueProofs QueueProofs2 QueueProofs3 SigModel SigSpec.

(** *** Who holds the mutex of a map *)
Definition holds (k : pc) : bool := match k with PSig _ | PConn _ | PClean _ => true | _ => false end.
Definition mapat (st : state) (p : nat) := p_map (procs st p).
Definition lockat (st : state) (p : nat) := p_lock (procs st p).
Definition msg_of (c : call) : option nat := match c with KPost _ m | KWaitPost _ m => Some m | _ => None end.

Inductive lk (t : nat) (st st' : state) : Prop :=
| L_keep : (forall p, mapat st' p = mapat st p /\ lockat st' p = lockat st p) -> (forall n k r, stk st' t = FCall n k :: r -> holds k = true -> stk st t = FCall n k :: r) -> lk t st st'
| L_take n t0 c k' r : stk st t = FCall n PMap :: r -> nth_error (calls st) n = Some (t0, c) -> lockat st (target c) = None ->
    (forall p, lockat st' p = upd (lockat st) (target c) (Some t) p) -> (forall p, p <> target c -> mapat st' p = mapat st p) -> stk st' t = FCall n k' :: r ->
    (forall g m, k' = PSig g -> msg_of c = Some m -> get m (mapat st' (target c)) = Some g) ->
    (forall g p m, k' = PConn g -> c = KConnect p m -> get m (mapat st' p) = Some g) -> lk t st st'
| L_clean n t0 c l l' r : stk st t = FCall n (PClean l) :: r -> nth_error (calls st) n = Some (t0, c) -> (forall p, lockat st' p = lockat st p) ->
    (forall p, p <> target c -> mapat st' p = mapat st p) -> stk st' t = FCall n (PClean l') :: r -> lk t st st'
| L_free n t0 c k r : stk st t = FCall n k :: r -> nth_error (calls st) n = Some (t0, c) -> holds k = true -> (forall p, lockat st' p = upd (lockat st) (target c) None p) -> (forall p, mapat st' p = mapat st p) ->
    (forall n' k' r', stk st' t = FCall n' k' :: r' -> holds k' = true -> stk st' t = r) -> lk t st st'.

(** Steps that keep all maps and mutexes. *)
Definition mk (st st' : state) : Prop := forall p, mapat st' p = mapat st p /\ lockat st' p = lockat st p.
Lemma mk_refl st : mk st st. Proof. intros p. auto. Qed.
Lemma mk_q a b p q : mk a b -> mk a (set_q b p q).
Proof. intros K p'. destruct (K p') as [<- <-]. unfold mapat, lockat. cbn. unfold upd. destruct (Nat.eqb_spec p p'); [subst|]; auto. Qed.
Ltac mk_tac := unfold ask, leave, start_inline, goto, ret, q_run, q_call, sig_do;
  repeat lazymatch goal with
    | |- mk ?a ?a => apply mk_refl
    | |- mk ?a (emit ?b _) => change (mk a b)
    | |- mk ?a (with_stk ?b _ _) => change (mk a b)
    | |- mk ?a (with_tl ?b _ _) => change (mk a b)
    | |- mk ?a (set_sig ?b _ _) => change (mk a b)
    | |- mk ?a (new_sig ?b) => change (mk a b)
    | |- mk ?a (abort ?b _) => change (mk a b)
    | |- mk ?a (with_calls ?b _) => change (mk a b)
    | |- mk _ (set_q _ _ _) => apply mk_q
    | |- mk _ (if ?b then _ else _) => destruct b
    | |- mk _ (match ?x with _ => _ end) => destruct x
    end.
Lemma finish_mk a st t p e r : mk a st -> mk a (finish st t p e r).
Proof.
  intros K. unfold finish. cbv zeta. destruct r as [|[n k|n p' j k ph| |] r]; [mk_tac; exact K| | |mk_tac; exact K|mk_tac; exact K].
  - destruct k; mk_tac; exact K.
  - destruct ph, k; mk_tac; exact K.
Qed.
Lemma finish_top st t p e r cs b : good cs t (b :: r) -> forall n k r', stk (finish st t p e r) t = FCall n k :: r' -> holds k = true -> False.
Proof.
  intros G n k r' S H. pose proof (g_chain _ _ _ G) as CH. cbn in CH.
  assert (POP : forall f l, (forall b', chain b' (f :: l) -> forall n0 k0 r0, l = FCall n0 k0 :: r0 -> holds k0 = true -> False)).
  { intros f l b' [_ C] n0 k0 r0 -> HK. destruct C as [L _]. destruct k0; try discriminate; exact L. }
  unfold finish in S. cbv zeta in S. destruct r as [|f r]; [cbn in S; rewrite upd_same in S; discriminate|].
  assert (ODD : stk (with_stk (emit st [EEnd t p e]) t (f :: r)) t = FCall n k :: r' -> False).
  { cbn. rewrite upd_same. intros E. injection E as -> ->. destruct CH as [L _]. destruct k; try discriminate; exact L. }
  destruct f as [n1 k1|n1 p1 j1 kd1 ph1| |]; try (exact (ODD S)).
  - destruct k1; try (exact (ODD S)). cbn in S. rewrite upd_same in S. eapply POP; eauto.
  - destruct ph1; [destruct kd1; exact (ODD S)|destruct kd1; exact (ODD S)|]. destruct kd1.
    + unfold ask, q_call in S. cbn in S. rewrite upd_same in S. discriminate.
    + unfold ask, q_call in S. cbn in S. rewrite upd_same in S. discriminate.
    + unfold leave, ret in S. destruct j1; cbn in S; rewrite upd_same in S; eapply POP; eauto.
Qed.

Lemma lock_set a p l p' : lockat (set_lock a p l) p' = upd (lockat a) p l p'.
Proof. unfold lockat. cbn. unfold upd. destruct (Nat.eqb p p'); reflexivity. Qed.
Lemma map_lock a p l p' : mapat (set_lock a p l) p' = mapat a p'.
Proof. unfold mapat. cbn. unfold upd. destruct (Nat.eqb_spec p p'); [subst|]; reflexivity. Qed.
Lemma map_set a p l p' : mapat (set_map a p l) p' = upd (mapat a) p l p'.
Proof. unfold mapat. cbn. unfold upd. destruct (Nat.eqb p p'); reflexivity. Qed.
Lemma lock_map a p l p' : lockat (set_map a p l) p' = lockat a p'.
Proof. unfold lockat. cbn. unfold upd. destruct (Nat.eqb_spec p p'); [subst|]; reflexivity. Qed.
Lemma lock_free_none st p : lock_free st p = true -> lockat st p = None.
Proof. unfold lock_free, lockat, proc_at. destruct (p_lock (procs st p)); [discriminate|reflexivity]. Qed.

Lemma act_lk st t a : all_good st -> lk t st (act st t a).
Proof.
  intros G. pose proof (G t) as GT.
  assert (SAME : forall st', mk st st' -> stk st' t = stk st t -> lk t st st') by (intros st' M S; apply L_keep; [exact M|rewrite S; auto]).
  assert (NEW : forall st' f l, mk st st' -> stk st' t = f :: l -> (forall n k, f = FCall n k -> holds k = false) -> lk t st st').
  { intros st' f l M S H. apply L_keep; [exact M|]. intros n k r S' HK. rewrite S in S'. injection S' as -> ->. rewrite (H _ _ eq_refl) in HK. discriminate. }
  assert (POP : forall st' f r, mk st st' -> stk st t = f :: r -> stk st' t = r -> lk t st st').
  { intros st' f r M S S'. apply L_keep; [exact M|]. intros n k r' E HK. exfalso. rewrite S' in E. rewrite S, E in GT. pose proof (g_chain _ _ _ GT) as CH. cbn in CH. destruct CH as [L _]. destruct k; try discriminate; exact L. }
  unfold act. destruct a as [id|c|ch| | |].
  - destruct (user (stk st t)); [|apply SAME; [apply mk_refl|reflexivity]]. apply SAME; [|reflexivity]. intros p. unfold mapat, lockat. cbn. unfold upd. destruct (Nat.eqb_spec (np st) p); [subst|]; auto.
  - destruct (user (stk st t) && valid st c); [|apply SAME; [apply mk_refl|reflexivity]]. cbv zeta.
    destruct c; try (eapply NEW; [mk_tac|cbn; rewrite upd_same; reflexivity|intros n0 k0 E0; injection E0 as <- <-; reflexivity]).
    destruct (tl st t); (eapply NEW; [mk_tac|cbn; rewrite upd_same; reflexivity|intros n0 k0 E0; discriminate]).
  - assert (exists s, stk st t = s) as (s & S) by eauto; rewrite S; destruct s as [|f r]; [apply SAME; [apply mk_refl|reflexivity]|]. destruct f as [n k|n p j kd ph|p e|p e m x].
    + destruct (nth_error (calls st) n) as [[t0 c]|] eqn:C; [|apply SAME; [apply mk_refl|reflexivity]]. unfold go_call. cbv zeta.
      assert (STAY : lk t st st) by (apply SAME; [apply mk_refl|reflexivity]).
      destruct k.
      * destruct c; repeat match goal with |- context [if ?b then _ else _] => destruct b end; first [exact STAY|eapply POP; [mk_tac|exact S|cbn; rewrite upd_same; reflexivity]|eapply NEW; [mk_tac|cbn; rewrite upd_same; reflexivity|intros n0 k0 E0; injection E0 as <- <-; reflexivity]|eapply NEW; [mk_tac|cbn; rewrite upd_same; reflexivity|intros n0 k0 E0; discriminate]].
      * destruct (is_stopped st (target c)); [eapply POP; [mk_tac|exact S|cbn; rewrite upd_same; reflexivity]|eapply NEW; [mk_tac|cbn; rewrite upd_same; reflexivity|intros n0 k0 E0; injection E0 as <- <-; reflexivity]].
      * destruct (q_result _ _); [eapply POP; [mk_tac|exact S|cbn; rewrite upd_same; reflexivity]|eapply NEW; [mk_tac|cbn; rewrite upd_same; reflexivity|intros n0 k0 E0; injection E0 as <- <-; reflexivity]].
      * destruct (q_result _ _); [eapply POP; [mk_tac|exact S|cbn; rewrite upd_same; reflexivity]|apply SAME; [mk_tac|reflexivity]].
      * destruct (lock_free st (target c)) eqn:LF; [|exact STAY]. apply lock_free_none in LF.
        assert (TAKE : forall st1 k', (forall p, lockat st1 p = lockat st p) -> (forall p, p <> target c -> mapat st1 p = mapat st p) ->
          (forall g m, k' = PSig g -> msg_of c = Some m -> get m (mapat st1 (target c)) = Some g) ->
          (forall g p m, k' = PConn g -> c = KConnect p m -> get m (mapat st1 p) = Some g) -> lk t st (goto (set_lock st1 (target c) (Some t)) t n k' r)).
        { intros st1 k' A B D D'. eapply (L_take _ _ _ n t0 c k' r); [exact S|exact C|exact LF| | |cbn; rewrite upd_same; reflexivity| |].
          - intros p. change (lockat (set_lock st1 (target c) (Some t)) p = upd (lockat st) (target c) (Some t) p). rewrite lock_set. unfold upd. destruct (Nat.eqb _ _); [reflexivity|apply A].
          - intros p NP. change (mapat (set_lock st1 (target c) (Some t)) p = mapat st p). rewrite map_lock. apply B, NP.
          - intros g m E M. change (get m (mapat (set_lock st1 (target c) (Some t)) (target c)) = Some g). rewrite map_lock. exact (D g m E M).
          - intros g p m E M. change (get m (mapat (set_lock st1 (target c) (Some t)) p) = Some g). rewrite map_lock. exact (D' g p m E M). }
        destruct c; try exact STAY; cbn [target] in *.
        -- destruct (get m _) as [g|] eqn:GM; [|eapply POP; [mk_tac|exact S|cbn; rewrite upd_same; reflexivity]]. apply TAKE; auto; [intros g0 m0 E M; injection E as <-; injection M as <-; exact GM|intros; discriminate].
        -- destruct (get m _) as [g|] eqn:GM; [|eapply POP; [mk_tac|exact S|cbn; rewrite upd_same; reflexivity]]. apply TAKE; auto; [intros g0 m0 E M; injection E as <-; injection M as <-; exact GM|intros; discriminate].
        -- destruct (get m _) as [g|] eqn:GM; [apply TAKE; auto; [intros; discriminate|intros g0 p0 m0 E M; injection E as <-; injection M as <- <-; exact GM]|].
           apply TAKE; [intros p0; rewrite lock_map; reflexivity| |intros; discriminate|].
           ++ intros p0 NP. rewrite map_set, upd_other by auto. reflexivity.
           ++ intros g0 p0 m0 E M. injection E as <-. injection M as <- <-. rewrite map_set, upd_same. apply get_put_same.
        -- apply TAKE; [intros p0; rewrite lock_map; reflexivity| |intros; discriminate|intros; discriminate]. intros p0 NP. rewrite map_set, upd_other by auto. reflexivity.
        -- eapply POP; [mk_tac|exact S|cbn; rewrite upd_same; reflexivity].
      * assert (FREE : forall s' l, (forall n' k' r', s' = FCall n' k' :: r' -> holds k' = true -> s' = r) -> lk t st (emit (with_stk (set_lock st (target c) None) t s') l)).
        { intros s' l H. eapply (L_free _ _ _ n t0 c _ r S C); [reflexivity| | |cbn; rewrite upd_same; exact H].
          - intros p. change (lockat (set_lock st (target c) None) p = upd (lockat st) (target c) None p). apply lock_set.
          - intros p. change (mapat (set_lock st (target c) None) p = mapat st p). apply map_lock. }
        assert (GO : forall k', holds k' = false -> lk t st (goto (set_lock st (target c) None) t n k' r)).
        { intros k' HK. change (goto (set_lock st (target c) None) t n k' r) with (with_stk (set_lock st (target c) None) t (FCall n k' :: r)). eapply (L_free _ _ _ n t0 c _ r S C); [reflexivity| | |].
          - intros p. change (lockat (set_lock st (target c) None) p = upd (lockat st) (target c) None p). apply lock_set.
          - intros p. change (mapat (set_lock st (target c) None) p = mapat st p). apply map_lock.
          - cbn. rewrite upd_same. intros n' k'' r' E HK'. injection E as <- <- <-. congruence. }
        destruct (s_free (sig_at st g) t); [|exact STAY]. destruct (s_any _); [|apply FREE; reflexivity].
        destruct c; try (apply GO; reflexivity). destruct (same_id _ _ _); [|apply GO; reflexivity]. apply FREE. intros; discriminate.
      * destruct (s_free (sig_at st g) t); [|exact STAY]. eapply (L_free _ _ _ n t0 c _ r S C); [reflexivity| | |cbn; rewrite upd_same; reflexivity].
        -- intros p. change (lockat (set_lock (sig_do st g (t, SigModel.AConnect SigModel.CPlain)) (target c) None) p = upd (lockat st) (target c) None p). exact (lock_set (sig_do st g (t, SigModel.AConnect SigModel.CPlain)) (target c) None p).
        -- intros p. exact (map_lock (sig_do st g (t, SigModel.AConnect SigModel.CPlain)) (target c) None p).
      * destruct l as [|m l'].
        -- eapply (L_free _ _ _ n t0 c _ r S C); [reflexivity| | |cbn; rewrite upd_same; reflexivity].
           ++ intros p. change (lockat (set_lock st (target c) None) p = upd (lockat st) (target c) None p). apply lock_set.
           ++ intros p. change (mapat (set_lock st (target c) None) p = mapat st p). apply map_lock.
        -- destruct (get m _) as [g|].
           ++ destruct (s_free (sig_at st g) t); [|exact STAY]. eapply (L_clean _ _ _ n t0 c _ l' r S C); [| |cbn; rewrite upd_same; reflexivity].
              ** intros p. destruct (s_any _); [reflexivity|]. change (lockat (set_map st (target c) (del m (p_map (proc_at st (target c))))) p = lockat st p). apply lock_map.
              ** intros p NP. destruct (s_any _); [reflexivity|]. change (mapat (set_map st (target c) (del m (p_map (proc_at st (target c))))) p = mapat st p). rewrite map_set, upd_other by auto. reflexivity.
           ++ eapply (L_clean _ _ _ n t0 c _ l' r S C); [reflexivity|reflexivity|cbn; rewrite upd_same; reflexivity].
      * destruct (q_result _ _); [eapply NEW; [mk_tac|cbn; rewrite upd_same; reflexivity|intros n0 k0 E0; injection E0 as <- <-; reflexivity]|apply SAME; [mk_tac|reflexivity]].
      * destruct (q_result _ _); [eapply POP; [mk_tac|exact S|cbn; rewrite upd_same; reflexivity]|apply SAME; [mk_tac|reflexivity]].
      * destruct (q_result _ _) as [[]|]; first [eapply POP; [mk_tac|exact S|cbn; rewrite upd_same; reflexivity]|apply SAME; [mk_tac|reflexivity]].
      * exact STAY.
    + destruct ph as [i|e|].
      * cbv zeta. destruct (q_result _ _) as [[]|];
          first [apply SAME; [mk_tac|reflexivity]
            |eapply NEW; [mk_tac|cbn; rewrite upd_same; reflexivity|intros; discriminate]
            |eapply POP; [mk_tac|exact S|unfold leave, ret; destruct j; cbn; rewrite upd_same; reflexivity]].
      * destruct (nth_error (calls st) e) as [[t0 c]|]; [|apply SAME; [apply mk_refl|reflexivity]]. eapply NEW; [mk_tac|cbn; rewrite upd_same; reflexivity|intros; destruct c; discriminate].
      * apply SAME; [apply mk_refl|reflexivity].
    + apply SAME; [apply mk_refl|reflexivity].
    + assert (FIN : forall st1, mk st st1 -> stk st1 = stk st -> lk t st (finish st1 t p e r)).
      { intros st1 M E. apply L_keep; [apply finish_mk; exact M|]. intros n k r' S' HK. exfalso. eapply finish_top; [|exact S'|exact HK]. rewrite S in GT. exact GT. }
      unfold go_emit. cbv zeta. destruct x as [|g|g|g s]; [| | |apply SAME; [apply mk_refl|reflexivity]].
      * destruct (lock_free st p); [|apply SAME; [apply mk_refl|reflexivity]]. destruct (get m _); [eapply NEW; [mk_tac|cbn; rewrite upd_same; reflexivity|intros; discriminate]|apply FIN; [mk_tac|reflexivity]].
      * destruct (s_free _ _); [|apply SAME; [apply mk_refl|reflexivity]]. destruct (SigModel.crashed _); [apply SAME; [mk_tac|reflexivity]|]. destruct (SigModel.em _); [eapply NEW; [mk_tac|cbn; rewrite upd_same; reflexivity|intros; discriminate]|apply FIN; [mk_tac|reflexivity]].
      * destruct (SigModel.em _) as [em|]; [|apply FIN; [mk_tac|reflexivity]]. destruct (SigModel.e_run em) as [[]|]; [eapply NEW; [mk_tac|cbn; rewrite upd_same; reflexivity|intros; discriminate]|apply SAME; [mk_tac|reflexivity]].
  - assert (exists s, stk st t = s) as (s & S) by eauto; rewrite S; destruct s as [|f r]; [apply SAME; [apply mk_refl|reflexivity]|]. destruct f as [n k|n p j kd ph|p e|p e m x]; try (apply SAME; [apply mk_refl|reflexivity]).
    + apply L_keep; [apply finish_mk; mk_tac|]. intros n k r' S' HK. exfalso. eapply finish_top; [|exact S'|exact HK]. rewrite S in GT. exact GT.
    + destruct x; try (apply SAME; [apply mk_refl|reflexivity]). eapply NEW; [mk_tac|cbn; rewrite upd_same; reflexivity|intros; discriminate].
  - assert (exists s, stk st t = s) as (s & S) by eauto; rewrite S; destruct s as [|[n k|n p j kd []|p e|p e m x] r]; apply SAME; try reflexivity; mk_tac.
  - assert (exists s, stk st t = s) as (s & S) by eauto; rewrite S; destruct s as [|[n k|n p j kd []|p e|p e m x] r]; apply SAME; try reflexivity; mk_tac.
Qed.
