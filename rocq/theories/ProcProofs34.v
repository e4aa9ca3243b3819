(** Signals that are not there yet are untouched. *)
From Verif Require Import ListUtil Amap ProcModel ProcSpec ProcProofs ProcProofs2 ProcProofs3 ProcProofs4 ProcProofs5 ProcProofs6 ProcProofs7 ProcProofs9 ProcProofs11 ProcProofs14 ProcProofs16 ProcProofs17 ProcProofs18 ProcProofs19 ProcProofs20 ProcProofs21 ProcProofs22 ProcProofs23 ProcProofs24 ProcProofs26 ProcProofs33.
From Verif Require QueueModel QueueSpec SigModel SigSpec.

Definition touches (st : state) (t g : nat) : Prop := exists f r, stk st t = f :: r /\
  match f with
  | FCall n (PConn g') => g' = g
  | FCall n PStart => exists t0 s, nth_error (calls st) n = Some (t0, KCut g s) \/ nth_error (calls st) n = Some (t0, KRestore g s)
  | FEmit _ _ _ x => sig_of x = Some g
  | _ => False
  end.

Lemma act_touch st t a g : sigs (act st t a) g = sigs st g \/ touches st t g.
Proof.
  assert (FIN : forall st1 p e r, sigs (finish st1 t p e r) g = sigs st1 g) by (intros; apply (finish_sig st1 t p e r)).
  assert (UPD : forall g0 x, g0 <> g -> upd (sigs st) g0 x g = sigs st g) by (intros; apply upd_other; assumption).
  unfold act. destruct a as [id|c|ch| | |].
  - destruct (user (stk st t)); left; reflexivity.
  - destruct (user (stk st t) && valid st c); [|left; reflexivity]. cbv zeta. destruct c; left; try reflexivity. destruct (tl st t); reflexivity.
  - assert (exists s, stk st t = s) as (s & S) by eauto; rewrite S; destruct s as [|f r]; [left; reflexivity|]. destruct f as [n k|n p j kd ph|p e|p e m x].
    + destruct (nth_error (calls st) n) as [[t0 c]|] eqn:C; [|left; reflexivity]. unfold go_call. cbv zeta. destruct k.
      * destruct c as [p|p|p|p m|p m|p m|p m|p m|g0 s0|g0 s0|p|p|p|p|p kd]; repeat match goal with |- context [if ?b then _ else _] => destruct b end; try (left; reflexivity).
        -- destruct (Nat.eq_dec g0 g) as [->|N]; [right; do 2 eexists; split; [exact S|]; exists t0, s0; left; exact C|left; apply UPD; exact N].
        -- destruct (Nat.eq_dec g0 g) as [->|N]; [right; do 2 eexists; split; [exact S|]; exists t0, s0; right; exact C|left; apply UPD; exact N].
      * destruct (is_stopped st (target c)); left; reflexivity.
      * destruct (q_result _ _); left; reflexivity.
      * destruct (q_result _ _); left; reflexivity.
      * destruct (lock_free st (target c)); [|left; reflexivity]. destruct c; try (left; reflexivity); destruct (get m _); left; reflexivity.
      * destruct (s_free (sig_at st g0) t); [|left; reflexivity]. destruct (s_any _); [|left; reflexivity]. destruct c; try (left; reflexivity). destruct (same_id _ _ _); left; reflexivity.
      * destruct (s_free (sig_at st g0) t); [|left; reflexivity]. destruct (Nat.eq_dec g0 g) as [->|N]; [right; do 2 eexists; split; [exact S|]; reflexivity|left; apply UPD; exact N].
      * destruct l as [|m l']; [left; reflexivity|]. destruct (get m _) as [g0|]; [|left; reflexivity]. destruct (s_free (sig_at st g0) t); [|left; reflexivity]. destruct (s_any _); left; reflexivity.
      * destruct (q_result _ _); left; reflexivity.
      * destruct (q_result _ _); left; reflexivity.
      * destruct (q_result _ _) as [[]|]; left; reflexivity.
      * left; reflexivity.
    + left. destruct ph as [i|e|]; [| |reflexivity].
      * cbv zeta. unfold leave. destruct (q_result _ _) as [[]|]; try reflexivity; destruct j; reflexivity.
      * destruct (nth_error (calls st) e) as [[t0 c]|]; reflexivity.
    + left; reflexivity.
    + unfold go_emit. cbv zeta. destruct x as [|g0|g0|g0 s0].
      * destruct (lock_free st p); [|left; reflexivity]. destruct (get m _); left; [reflexivity|etransitivity; [apply FIN|reflexivity]].
      * destruct (Nat.eq_dec g0 g) as [->|N]; [right; do 2 eexists; split; [exact S|reflexivity]|left].
        destruct (s_free _ _); [|reflexivity]. destruct (SigModel.crashed _); [apply UPD; exact N|]. destruct (SigModel.em _); [apply UPD; exact N|rewrite FIN; apply UPD; exact N].
      * destruct (Nat.eq_dec g0 g) as [->|N]; [right; do 2 eexists; split; [exact S|reflexivity]|left].
        destruct (SigModel.em _) as [em|]; [|rewrite FIN; apply UPD; exact N]. destruct (SigModel.e_run em) as [[]|]; apply UPD; exact N.
      * left; reflexivity.
  - assert (exists s, stk st t = s) as (s & S) by eauto; rewrite S; destruct s as [|f r]; [left; reflexivity|]. destruct f as [n k|n p j kd ph|p e|p e m x]; try (left; reflexivity).
    + left. apply FIN.
    + destruct x as [|g0|g0|g0 s0]; try (left; reflexivity). destruct (Nat.eq_dec g0 g) as [->|N]; [right; do 2 eexists; split; [exact S|reflexivity]|left; apply UPD; exact N].
  - left. destruct (stk st t) as [|[n k|n p j kd []|p e|p e m x] r]; reflexivity.
  - left. destruct (stk st t) as [|[n k|n p j kd []|p e|p e m x] r]; reflexivity.
Qed.

Lemma ns_grows st t a : ns st <= ns (act st t a).
Proof.
  unfold act. destruct a as [id|c|ch| | |].
  - destruct (user (stk st t)); auto.
  - destruct (user (stk st t) && valid st c); [|auto]. cbv zeta. destruct c; auto. destruct (tl st t); auto.
  - destruct (stk st t) as [|[n k|n p j kd ph|p e|p e m x] r]; auto.
    + destruct (nth_error (calls st) n) as [[t0 c]|]; [|auto]. unfold go_call. cbv zeta. destruct k.
      * destruct c; repeat match goal with |- context [if ?b then _ else _] => destruct b end; auto.
      * destruct (is_stopped st (target c)); auto.
      * destruct (q_result _ _); auto.
      * destruct (q_result _ _); auto.
      * destruct (lock_free st (target c)); [|auto]. destruct c; auto; destruct (get m _); cbn; auto.
      * destruct (s_free _ _); [|auto]. destruct (s_any _); [|auto]. destruct c; auto. destruct (same_id _ _ _); auto.
      * destruct (s_free _ _); auto.
      * destruct l as [|m l']; [auto|]. destruct (get m _) as [g0|]; [|auto]. destruct (s_free _ _); [|auto]. destruct (s_any _); auto.
      * destruct (q_result _ _); auto.
      * destruct (q_result _ _); auto.
      * destruct (q_result _ _) as [[]|]; auto.
      * auto.
    + destruct ph as [i|e|]; [| |auto].
      * cbv zeta. unfold leave. destruct (q_result _ _) as [[]|]; auto; destruct j; auto.
      * destruct (nth_error (calls st) e) as [[t0 c]|]; auto.
    + assert (FIN : forall st1 p e r, ns (finish st1 t p e r) = ns st1).
      { intros. unfold finish. cbv zeta. destruct r0 as [|[n0 []|n0 p1 j []  []| |] r0]; try reflexivity; unfold leave; destruct j; reflexivity. }
      unfold go_emit. cbv zeta. destruct x as [|g0|g0|g0 s0].
      * destruct (lock_free st p); [|auto]. destruct (get m _); [auto|rewrite FIN; auto].
      * destruct (s_free _ _); [|auto]. destruct (SigModel.crashed _); [auto|]. destruct (SigModel.em _); [auto|rewrite FIN; auto].
      * destruct (SigModel.em _) as [em|]; [|rewrite FIN; auto]. destruct (SigModel.e_run em) as [[]|]; auto.
      * auto.
  - assert (FIN : forall st1 p e r, ns (finish st1 t p e r) = ns st1).
    { intros. unfold finish. cbv zeta. destruct r as [|[n0 []|n0 p1 j []  []| |] r0]; try reflexivity; unfold leave; destruct j; reflexivity. }
    destruct (stk st t) as [|[n k|n p j kd ph|p e|p e m x] r]; auto; [rewrite FIN; auto|]. destruct x; auto.
  - destruct (stk st t) as [|[n k|n p j kd []|p e|p e m x] r]; auto.
  - destruct (stk st t) as [|[n k|n p j kd []|p e|p e m x] r]; auto.
Qed.
Lemma ns_step h l : ns (final h) <= ns (final (h ++ [l])).
Proof. destruct (final_act h l) as [->| ->]; [auto|apply ns_grows]. Qed.
Lemma ns_mono h h' : ns (final h) <= ns (final (h ++ h')).
Proof. induction h' as [|l h' IH] using rev_ind; [rewrite app_nil_r; auto|]. rewrite app_assoc. pose proof (ns_step (h ++ h') l). lia. Qed.

(** Only a call made by user code is a new call. *)
Lemma calls_act st t a : calls (act st t a) = calls st \/ exists c, a = ACall c /\ valid st c = true /\ calls (act st t a) = calls st ++ [(t, c)].
Proof.
  assert (FIN : forall st1 p e r, calls (finish st1 t p e r) = calls st1).
  { intros. unfold finish. cbv zeta. destruct r as [|[n0 []|n0 p1 j []  []| |] r0]; try reflexivity; unfold leave; destruct j; reflexivity. }
  unfold act. destruct a as [id|c|ch| | |].
  - destruct (user (stk st t)); auto.
  - destruct (user (stk st t)); [|auto]. destruct (valid st c) eqn:V; [|auto]. right. exists c. split; [reflexivity|]. split; [exact V|]. cbv zeta. cbn [andb]. destruct c; try reflexivity. destruct (tl st t); reflexivity.
  - left. destruct (stk st t) as [|[n k|n p j kd ph|p e|p e m x] r]; auto.
    + destruct (nth_error (calls st) n) as [[t0 c]|]; [|auto]. unfold go_call. cbv zeta. destruct k.
      * destruct c; repeat match goal with |- context [if ?b then _ else _] => destruct b end; auto.
      * destruct (is_stopped st (target c)); auto.
      * destruct (q_result _ _); auto.
      * destruct (q_result _ _); auto.
      * destruct (lock_free st (target c)); [|auto]. destruct c; auto; destruct (get m _); cbn; auto.
      * destruct (s_free _ _); [|auto]. destruct (s_any _); [|auto]. destruct c; auto. destruct (same_id _ _ _); auto.
      * destruct (s_free _ _); auto.
      * destruct l as [|m l']; [auto|]. destruct (get m _) as [g0|]; [|auto]. destruct (s_free _ _); [|auto]. destruct (s_any _); auto.
      * destruct (q_result _ _); auto.
      * destruct (q_result _ _); auto.
      * destruct (q_result _ _) as [[]|]; auto.
      * auto.
    + destruct ph as [i|e|]; [| |auto].
      * cbv zeta. unfold leave. destruct (q_result _ _) as [[]|]; auto; destruct j; auto.
      * destruct (nth_error (calls st) e) as [[t0 c]|]; auto.
    + unfold go_emit. cbv zeta. destruct x as [|g0|g0|g0 s0].
      * destruct (lock_free st p); [|auto]. destruct (get m _); [auto|rewrite FIN; auto].
      * destruct (s_free _ _); [|auto]. destruct (SigModel.crashed _); [auto|]. destruct (SigModel.em _); [auto|rewrite FIN; auto].
      * destruct (SigModel.em _) as [em|]; [|rewrite FIN; auto]. destruct (SigModel.e_run em) as [[]|]; auto.
      * auto.
  - left. destruct (stk st t) as [|[n k|n p j kd ph|p e|p e m x] r]; auto. destruct x; auto.
  - left. destruct (stk st t) as [|[n k|n p j kd []|p e|p e m x] r]; auto.
  - left. destruct (stk st t) as [|[n k|n p j kd []|p e|p e m x] r]; auto.
Qed.

Record SN (h : history) : Prop := {
  sn_map : forall h0 h2 p m g, h = h0 ++ h2 -> get m (mapat (final h0) p) = Some g -> g < ns (final h0);
  sn_cut : forall t n g s, nth_error (calls (final h)) n = Some (t, KCut g s) \/ nth_error (calls (final h)) n = Some (t, KRestore g s) -> g < ns (final h);
  sn_new : forall g, ns (final h) <= g -> sigs (final h) g = [] }.

Lemma SN_final h : SN h.
Proof.
  induction h as [|lb h IH] using rev_ind.
  { split; cbn; intros; try reflexivity; [destruct h0; [discriminate|discriminate]|destruct n, H; discriminate]. }
  pose proof (ns_step h lb) as NS. pose proof (good_final h) as G. pose proof IH as [A0 B D].
  assert (A : forall p m g, get m (mapat (final h) p) = Some g -> g < ns (final h)) by (intros p m g; apply (A0 h [] p m g); rewrite app_nil_r; reflexivity). split.
  - intros h0 h2 p m g EH E. destruct h2 as [|x h2] using rev_ind.
    2:{ rewrite app_assoc in EH. apply app_inj_tail in EH as [EH _]. eapply A0; eauto. }
    rewrite app_nil_r in EH. subst h0.
    destruct (next_mp h lb) as [MK|n0 t0 p0 m0 r0 S0 C0 GN MK S1 SG NN|n0 t0 p0 m0 r0 S0 C0 MK S1 _|n0 t0 p0 m0 m' g0 l0 r0 S0 C0 GM SA MK S1 _]; rewrite MK in E.
    + apply A in E. lia.
    + unfold upd in E. destruct (Nat.eqb_spec p0 p) as [->|_]; [|apply A in E; lia]. rewrite get_put in E. destruct (Nat.eqb m m0); [injection E as <-; lia|apply A in E; lia].
    + unfold upd in E. destruct (Nat.eqb_spec p0 p) as [->|_]; [|apply A in E; lia]. rewrite get_del in E. destruct (Nat.eqb m m0); [discriminate|apply A in E; lia].
    + unfold upd in E. destruct (Nat.eqb_spec p0 p) as [->|_]; [|apply A in E; lia]. rewrite get_del in E. destruct (Nat.eqb m m'); [discriminate|apply A in E; lia].
  - assert (X : calls (final (h ++ [lb])) = calls (final h) \/ exists t c, calls (final (h ++ [lb])) = calls (final h) ++ [(t, c)] /\ valid (final h) c = true).
    { destruct (final_act h lb) as [->| ->]; [auto|]. destruct (calls_act (final h) (fst lb) (snd lb)) as [X|(c & _ & V & X)]; [auto|]. right. eauto. }
    destruct X as [X|(t0 & c & X & V)]; intros t n g s H; rewrite X in H; [apply B in H; lia|]. rewrite !nth_snoc in H. destruct (Nat.eqb n (length (calls (final h)))); [|apply B in H; lia].
    destruct H as [H|H]; injection H as -> ->; cbn in V; apply Nat.ltb_lt in V; lia.
  - intros g L. assert (sigs (final (h ++ [lb])) g = sigs (final h) g) as ->; [|apply D; lia].
    destruct (final_act h lb) as [->|E]; [reflexivity|]. destruct (act_touch (final h) (fst lb) (snd lb) g) as [X|(f & r & S & X)]; [rewrite E; exact X|exfalso].
    assert (g < ns (final h)); [|lia]. destruct f as [n []|n p j k []|p e|p e m x]; try contradiction.
    + destruct X as (t0 & s & X). eapply B; exact X.
    + subst g0. destruct (g_call _ _ _ (G (fst lb)) n (PConn g)) as (c & C & F); [rewrite S; left; reflexivity|]. destruct c; try discriminate F. eapply A. eapply (li_conn _ (lockinv_final h)); eauto.
    + destruct (looked_final h (fst lb) e x g) as (h0 & h2 & c & m0 & i & -> & _ & M & T & _); [rewrite S; left; reflexivity|exact X|].
      pose proof (A0 h0 h2 _ _ _ eq_refl T). pose proof (ns_mono h0 h2). lia.
Qed.
