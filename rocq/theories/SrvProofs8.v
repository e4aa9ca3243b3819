(** Server: UnregisterServiceStatus reaches every provider; deinit frees every provider once; results. *)
From Verif Require Import ListUtil SrvModel SrvSpec SrvSpec2 SrvProofs SrvProofs2 SrvProofs3 SrvProofs4 SrvProofs5 SrvProofs6 SrvProofs7.

(** ** UnregisterServiceStatus *)
Definition fwd (m : smsg) (x : nat * nat) : nat * smsg := (snd x, SMsg (Some (fst x)) (s_code m) (s_src m)).
Definition un_ok (s : state) (t : nat) (th : thread) (m : smsg) : Prop :=
  match at_ th with
  | QUnLoop _ td => exists dn, provs s = dn ++ td /\ dispatched (tr s) t = map (fwd m) dn
  | QDone => exists l l1 v l2, dispatched (tr s) t = map (fwd m) l /\ NoDup (map fst l) /\ tr s = l1 ++ ERet t v :: l2 /\ (forall sid o, In (sid, o) l -> got l1 sid o) /\
               (no_deinit l1 -> forall sid o, got l1 sid o -> In (sid, o) l)
  | _ => dispatched (tr s) t = []
  end.

Lemma provs_locked s s' t : InvL s -> plock s = Some t -> step s s' -> provs s' = provs s.
Proof.
  intros IL P S. destruct S; try reflexivity; try (srva; reflexivity); try congruence. destruct (gone r); reflexivity.
Qed.
Lemma un_pc s m a th : is_unregister m a -> okth s (CIn m) th -> at_ th = QUnErase m \/ at_ th = QUnLock m \/ (exists td, at_ th = QUnLoop m td) \/ at_ th = QDone.
Proof.
  intros U (OK & _ & _). unfold srv_sid, srv, is_reg, is_un, is_ord in OK. destruct (at_ th); auto; try discriminate;
   repeat match goal with
   | H : _ /\ _ |- _ => destruct H
   | H : exists _, _ |- _ => destruct H
   | H : _ \/ _ |- _ => destruct H
   end; try discriminate; try congruence.
  - destruct U as (U1 & _). destruct OK as (U2 & _). congruence.
  - destruct U as (U1 & _). destruct OK as (U2 & _). congruence.
  - destruct U as (U1 & _). destruct H as (U2 & _). congruence.
  - destruct U as (U1 & _). destruct H as (U2 & _). congruence.
  - injection H as ->. auto.
  - injection H as ->. auto.
  - injection H as ->. eauto.
  - injection H as ->. exfalso. destruct H0 as [_ O2]. exact (O2 _ U).
  - injection H as ->. exfalso. destruct H1 as [_ O2]. exact (O2 _ U).
Qed.

Lemma other_disp s s' k t0 : InvP s -> step s s' -> tr s' = tr s ++ k -> (forall th th', nth_error (ths s) t0 = Some th -> nth_error (ths s') t0 = Some th' -> th = th') -> t0 < length (ths s) -> dispatched k t0 = [].
Proof.
  intros IP S T X L. apply dispatched_nil. intros o m I. apply in_split in I as (k1 & k2 & ->).
  assert (NX : exists th, nth_error (ths s) t0 = Some th) by (destruct (nth_error (ths s) t0) eqn:N; [eauto|apply nth_error_None in N; lia]). destruct NX as [th0 N0].
  destruct S; try srva; unf; try destruct (gone r); cbn in T; events T; try discriminate B; inversion B; subst; cbn [ths] in X;
    rewrite H in N0; injection N0 as <-; specialize (X _ _ H (nth_set_same _ _ _ L)); rewrite X in H0; cbn in H0; try discriminate H0.
  all: apply (f_equal (fun q => match q with QUnLoop _ l => length l | _ => 0 end)) in H0; cbn in H0; lia.
Qed.

Lemma invUn h t th m a : nth_error (ths (final h)) t = Some th -> In (ECall t (CIn m)) (trace h) -> is_unregister m a -> un_ok (final h) t th m.
Proof.
  unfold trace. revert t th. induction h as [|l h IH] using rev_ind; [intros [|] ?; discriminate|].
  intros t th N1 I1 U. rewrite final_snoc in *. destruct (next_step (final h) l) as [E|S]; [rewrite E in *; apply IH; assumption|].
  pose proof (invP h) as IP. pose proof (invT h) as IT. pose proof (invL h) as IL. pose proof (disp_lt h) as DL. unfold trace in DL.
  assert (IDD : no_deinit (tr (final h)) -> InvD (final h)) by apply invD.
  set (s := final h) in *. remember (next s l) as s' eqn:ES. clear ES l.
  destruct (step_tr _ _ S) as [k TR].
  destruct (lt_dec t (length (ths s))) as [L|L].
  2:{ (* the call is made *)
      destruct (step_moved _ _ IP S) as [c q SP TE TR2 OB|t0 th0 th' k0 NN ND TE TR2 NC NR DD OK].
      - assert (D0 : dispatched (tr s') t = []). { rewrite TR2, dispatched_app. cbn. rewrite app_nil_r. apply dispatched_nil. intros o m' I. apply DL in I. fold s in I. lia. }
        rewrite TE, nth_snoc in N1. destruct (Nat.eqb_spec t (length (ths s))); [|apply nth_lt in N1; lia]. injection N1 as <-. rewrite TR2 in I1. apply in_app_iff in I1 as [I1|[I1|[]]]; [apply (t_lt _ IT) in I1; lia|].
        inversion I1; subst. cbn in SP. injection SP as <-. unfold un_ok, incoming. destruct U as (U1 & U2 & U3). rewrite U1, U2. exact D0.
      - exfalso. rewrite TE in N1. apply nth_lt in N1. rewrite length_set_nth in N1. lia. }
  assert (C0 : In (ECall t (CIn m)) (tr s)).
  { destruct (step_moved _ _ IP S) as [c q SP TE TR2 OB|t0 th0 th' k0 NN ND TE TR2 NC NR DD OK]; rewrite TR2 in I1; apply in_app_iff in I1 as [I1|I1]; auto.
    - destruct I1 as [I1|[]]. inversion I1; subst. lia.
    - destruct (NC _ _ I1). }
  destruct (nth_error (ths s) t) as [th0|] eqn:N0; [|apply nth_error_None in N0; lia].
  specialize (IH _ _ N0 C0 U). pose proof (the_call _ _ _ _ IT N0 C0) as OK0.
  assert (KEEP : nth_error (ths s') t = Some th0 -> un_ok s' t th m).
  { intros N2. rewrite N1 in N2. injection N2 as ->.
    assert (DK : dispatched k t = []) by (eapply other_disp; [exact IP|exact S|exact TR| |exact L]; intros x y NX NY; congruence).
    unfold un_ok in *. rewrite TR, dispatched_app, DK, app_nil_r. destruct (un_pc _ _ _ _ U OK0) as [Q|[Q|[[td Q]|Q]]]; rewrite Q in *; try exact IH.
    - destruct IH as (dn & A & B). exists dn. split; [|exact B]. pose proof (l_p _ IL _ _ N0) as LP. rewrite Q in LP. rewrite (provs_locked _ _ _ IL LP S). exact A.
    - destruct IH as (l & l1 & v & l2 & A & B & C & D). exists l, l1, v, (l2 ++ k). split; [exact A|]. split; [exact B|]. split; [rewrite C, <- app_assoc; reflexivity|exact D]. }
  destruct (un_pc _ _ _ _ U OK0) as [Q|[Q|[[td Q]|Q]]].
  4:{ apply KEEP. destruct (step_moved _ _ IP S) as [c q SP TE TR2 OB|t0 th1 th' k0 NN ND TE TR2 NC NR DD OK]; rewrite TE.
      - rewrite nth_snoc. destruct (Nat.eqb_spec t (length (ths s))); [lia|exact N0].
      - rewrite (nth_set _ _ _ _ _ NN). destruct (Nat.eqb_spec t0 t) as [->|]; [congruence|exact N0]. }
  all: destruct S; [apply KEEP; cbn; rewrite nth_snoc; destruct (Nat.eqb_spec t (length (ths s))); [lia|exact N0]|..].
  all: try (destruct (Nat.eq_dec t0 t) as [->|NE];
    [rewrite N0 in H; injection H as <-; rewrite Q in H0; try discriminate H0; injection H0; intros; subst
    |apply KEEP; try srva; unf; try destruct (gone r); cbn [ths]; rewrite nth_set_other by exact NE; exact N0]).
  all: unf; cbn [ths] in N1; rewrite nth_set_same in N1 by exact L; injection N1 as <-; unfold un_ok in *; rewrite Q in IH; cbn -[dispatched].
  - exact IH.
  - exists []. split; [reflexivity|exact IH].
  - destruct IH as (dn & A & B). rewrite app_nil_r in A. subst dn. exists (provs s), (tr s), true, []. cbn [provs tr]. split; [rewrite dispatched_app; cbn; rewrite app_nil_r; exact B|]. split; [exact (p_nd _ IP)|]. split; [reflexivity|]. split.
    + intros sid o I. apply (p_map _ IP). apply in_get; [exact (p_nd _ IP)|exact I].
    + intros ND sid o [tg G]. destruct (IDD ND) as [DA _]. pose proof (p_got _ IP _ _ _ G) as SI. unfold sid_of in SI. destruct (nth_error (objs s) o) as [p|] eqn:NO; [|discriminate].
      injection SI as SI. specialize (DA _ _ NO). rewrite SI in DA. apply get_in. exact DA.
  - destruct IH as (dn & A & B). exists (dn ++ [(sid, o)]). rewrite <- app_assoc. split; [exact A|]. rewrite dispatched_app, map_app, B. cbn. rewrite Nat.eqb_refl. reflexivity.
Qed.

Theorem unregister_forwarded h t m a : In (ECall t (CIn m)) (trace h) -> is_unregister m a -> returned (trace h) t ->
  exists ps l1 v l2, trace h = l1 ++ ERet t v :: l2 /\ NoDup (map fst ps) /\
    dispatched (trace h) t = map (fun x => (snd x, SMsg (Some (fst x)) UnregisterServiceStatus a)) ps /\
    (forall sid o, In (sid, o) ps -> got l1 sid o) /\ (no_deinit l1 -> forall sid o, got l1 sid o -> In (sid, o) ps).
Proof.
  intros C U [v R]. pose proof (invT h) as IT. destruct (t_ret _ IT _ _ R) as (th & N & D). pose proof (invUn h t th m a N C U) as X. unfold un_ok in X. rewrite D in X.
  destruct X as (l & l1 & v' & l2 & A & B & E & F & G). exists l, l1, v', l2. split; [exact E|]. split; [exact B|]. split; [|split; [exact F|exact G]].
  destruct U as (U1 & U2 & U3). unfold trace. rewrite A. apply map_ext. intros x. unfold fwd. rewrite U1, U3. reflexivity.
Qed.

(** ** deinit *)
Definition pend (o : nat) (th : thread) : nat :=
  cnt (Nat.eqb o) (match at_ th with QFree os => os | QDone => [] | _ => fin th end).
Definition places (o : nat) (s : state) : nat := cnt (is_free o) (tr s) + cnt (Nat.eqb o) (map snd (provs s)) + wsum (pend o) (ths s).

Lemma places_set o s t th th' : nth_error (ths s) t = Some th -> wsum (pend o) (set_nth t th' (ths s)) + pend o th = wsum (pend o) (ths s) + pend o th'.
Proof. intros N. pose proof (wsum_set (pend o) (ths s) t th' th N). lia. Qed.

Lemma put_fresh {A} k (x : A) m : get k m = None -> put k x m = m ++ [(k, x)].
Proof. induction m as [|[k' y] m IH]; cbn; [reflexivity|]. destruct (Nat.eqb_spec k k'); [discriminate|]. intros G. rewrite IH by exact G. reflexivity. Qed.

Definition plain (q : pc) : bool :=
  match q with QGet _ | QHas _ | QRegIns _ | QRegLock _ | QRegLoop _ _ | QRegSend _ _ _ | QUnErase _ | QUnLock _ | QUnLoop _ _ | QFind _ | QDisp _ _ | QMove => true | _ => false end.
Lemma plain_fin h t th : nth_error (ths (final h)) t = Some th -> plain (at_ th) = true -> fin th = [].
Proof.
  revert t th. apply (state_ind3 (fun s => forall t th, nth_error (ths s) t = Some th -> plain (at_ th) = true -> fin th = [])); [intros [|] ?; discriminate|].
  intros s s' IP IT IL IH S. destruct S.
  1:{ cbn. intros t th. rewrite nth_snoc. destruct (Nat.eqb_spec t (length (ths s))); [intros [= <-] _; reflexivity|apply IH]. }
  all: try srva; unf; try destruct (gone r); cbn [ths]; intros t1 th1 N; rewrite (nth_set _ _ _ _ _ H) in N; (destruct (Nat.eqb_spec t t1); [injection N as <-; cbn [at_ fin]; intros PL; try discriminate PL|eapply IH; exact N]);
    apply (IH _ _ H); rewrite H0; reflexivity.
Qed.

Lemma cnt_one {A} (f : A -> bool) x : cnt f [x] = b2n (f x).
Proof. rewrite cnt_cons. unfold cnt. cbn. lia. Qed.
Lemma pend_at o th : pend o th = match at_ th with QFree os => cnt (Nat.eqb o) os | QDone => 0 | _ => cnt (Nat.eqb o) (fin th) end.
Proof. unfold pend. destruct (at_ th); reflexivity. Qed.

Lemma invPlaces h o : (o < length (objs (final h)) -> places o (final h) = 1) /\ (length (objs (final h)) <= o -> places o (final h) = 0).
Proof.
  induction h as [|l h IH] using rev_ind; [split; cbn; [lia|reflexivity]|]. rewrite final_snoc. destruct (next_step (final h) l) as [->|S]; [exact IH|].
  pose proof (fun t th => plain_fin h t th) as PF. pose proof (invP h) as IP. set (s := final h) in *. remember (next s l) as s' eqn:ES. clear ES l. clearbody s.
  assert (K : (length (objs s') = length (objs s) /\ places o s' = places o s) \/ (length (objs s') = 1 + length (objs s) /\ places o s' = places o s + (if Nat.eqb o (length (objs s)) then 1 else 0))).
  { unfold places. destruct S; try srva; unf; cbn [objs provs ths tr].
    1:{ left. split; [reflexivity|]. rewrite cnt_app, wsum_app. change (cnt (is_free o) [ECall (length (ths s)) c]) with 0.
        assert (W : wsum (pend o) [Th q [] []] = 0) by (pose proof (start_pcs _ _ _ H) as SP; destruct q; try contradiction; reflexivity). rewrite W. lia. }
    all: try match goal with |- context [if gone ?r then _ else _] => destruct (gone r) end; cbn [objs provs ths tr].
    all: rewrite ?cnt_app.
    all: pose proof (PF _ _ H) as F0; rewrite H0 in F0; cbn in F0; first [specialize (F0 eq_refl)|clear F0].
    all: match goal with |- context [wsum _ (set_nth _ ?th' _)] => pose proof (places_set o s _ _ th' H) as PS; rewrite !pend_at, H0 in PS; cbn [at_ fin rest] in PS end.
    all: try (rewrite F0 in PS; rewrite ?F0); try (rewrite FN in PS; rewrite ?FN); try rewrite cnt_nil in PS.
    all: rewrite ?cnt_one; cbn [is_free]; change (b2n false) with 0.
    all: try (left; split; [first [reflexivity|apply length_set_nth]|]; lia).
    - (* a new provider *) right. rewrite app_length. split; [cbn; lia|]. rewrite (put_fresh _ _ _ H2), map_app, cnt_app. cbn [map snd]. rewrite cnt_one. destruct (Nat.eqb o (length (objs s))); cbn [b2n]; lia.
    - (* deinit takes them *) left. split; [reflexivity|]. rewrite H2. cbn [map]. rewrite cnt_nil. lia.
    - (* freed *) left. split; [reflexivity|]. rewrite cnt_cons in PS. rewrite (Nat.eqb_sym o0 o). lia. }
  destruct K as [[-> ->]|[-> ->]]; [exact IH|]. destruct IH as [A B]. destruct (Nat.eqb_spec o (length (objs s))) as [->|NE]; split; intros L; [rewrite B; lia|lia|rewrite A; lia|rewrite B; lia].
Qed.

Theorem freed_once h o : cnt (is_free o) (trace h) <= 1.
Proof. destruct (invPlaces h o) as [A B]. unfold places, trace in *. destruct (lt_dec o (length (objs (final h)))) as [L|L]; [specialize (A L)|specialize (B ltac:(lia))]; lia. Qed.

Lemma got_lt h sid o : got (trace h) sid o -> o < length (objs (final h)).
Proof. intros [t I]. pose proof (p_got _ (invP h) _ _ _ I) as S. unfold sid_of in S. destruct (nth_error (objs (final h)) o) eqn:N; [|discriminate]. apply nth_lt in N. exact N. Qed.

Lemma taken h : forall l1 t l2 th, trace h = l1 ++ ECall t CDeinit :: l2 -> nth_error (ths (final h)) t = Some th -> at_ th <> QMove ->
  forall sid o, got l1 sid o -> ~ In o (map snd (provs (final h))).
Proof.
  unfold trace. induction h as [|l h IH] using rev_ind; intros l1 t l2 th E N Q sid o G; [destruct l1; discriminate|]. rewrite final_snoc in *.
  destruct (next_step (final h) l) as [EQ|S]; [rewrite EQ in *; eapply IH; eassumption|].
  pose proof (invP h) as IP. pose proof (invT h) as IT. pose proof (got_lt h) as GL. unfold trace in GL. set (s := final h) in *. remember (next s l) as s' eqn:ES. clear ES l.
  destruct (step_tr _ _ S) as [k TR]. rewrite TR in E. apply app_split in E as [[x [E ->]]|[x [-> E]]].
  - assert (GS : got (tr s) sid o) by (destruct G as [tg I]; exists tg; rewrite E; apply in_app_iff; auto).
    assert (C : In (ECall t CDeinit) (tr s)) by (rewrite E; apply in_app_iff; right; left; reflexivity).
    pose proof (t_lt _ IT _ _ C) as L. destruct (nth_error (ths s) t) as [th0|] eqn:N0; [|apply nth_error_None in N0; lia].
    assert (D : at_ th0 = QMove \/ at_ th0 <> QMove) by (destruct (at_ th0); (left; reflexivity) || (right; discriminate)).
    destruct D as [D|D].
    + (* it takes them now *)
      destruct S.
      1:{ exfalso. cbn in N. rewrite nth_snoc in N. destruct (Nat.eqb_spec t (length (ths s))); [lia|]. rewrite N0 in N. injection N as <-. contradiction. }
      all: destruct (Nat.eq_dec t0 t) as [->|NE]; [rewrite N0 in H; injection H as <-; rewrite D in H0; try discriminate H0|
        exfalso; try srva; unf; try destruct (gone r); cbn [ths] in N; rewrite nth_set_other in N by exact NE; rewrite N0 in N; injection N as <-; contradiction].
      * cbn. rewrite H2. intros [].
      * cbn. intros [].
    + pose proof (IH _ _ _ _ E N0 D _ _ G) as NI. destruct (provs_step _ _ S) as [->|[->|(t1 & sid1 & G1 & -> & _)]]; [exact NI|intros []|].
      rewrite (put_fresh _ _ _ G1), map_app, in_app_iff. cbn. intros [I|[<-|[]]]; [exact (NI I)|]. apply GL in GS. fold s in GS. lia.
  - exfalso. destruct (step_moved _ _ IP S) as [c q SP TE TR2 OB|t0 th1 th' k0 NN ND TE TR2 NC NR DD OK].
    + rewrite TR2 in TR. apply app_inv_head in TR. rewrite <- TR in E. apply one_event in E as (-> & E & _). inversion E; subst. rewrite TE, nth_snoc, Nat.eqb_refl in N. injection N as <-. cbn in SP. injection SP as <-. apply Q. reflexivity.
    + rewrite TR2 in TR. apply app_inv_head in TR. rewrite TR in NC. apply (NC t CDeinit). rewrite E. apply in_app_iff. right. left. reflexivity.
Qed.

Lemma pend_deinit h t th o : nth_error (ths (final h)) t = Some th -> 1 <= pend o th -> In (ECall t CDeinit) (trace h) /\ at_ th <> QDone.
Proof.
  intros N P. destruct (t_th _ (invT h) _ _ N) as (c & C & OK). rewrite pend_at in P. destruct OK as (OK & RF & _).
  assert (c = CDeinit). { destruct RF as [->|[_ F]]; [reflexivity|]. rewrite F, cnt_nil in P. destruct (at_ th); try lia. exact OK. }
  subst c. split; [exact C|]. intros D. rewrite D in P. lia.
Qed.

Theorem deinit_frees h l1 t l2 sid o : trace h = l1 ++ ECall t CDeinit :: l2 -> got l1 sid o ->
  (forall t', In (ECall t' CDeinit) (trace h) -> returned (trace h) t') -> cnt (is_free o) (trace h) = 1.
Proof.
  intros E G R. pose proof (invT h) as IT.
  assert (C : In (ECall t CDeinit) (trace h)) by (rewrite E; apply in_app_iff; right; left; reflexivity).
  assert (DN : forall t', In (ECall t' CDeinit) (trace h) -> exists th, nth_error (ths (final h)) t' = Some th /\ at_ th = QDone) by (intros t' C'; destruct (R _ C') as [v I]; exact (t_ret _ IT _ _ I)).
  destruct (DN _ C) as (th & N & D). assert (NI : ~ In o (map snd (provs (final h)))) by (eapply taken; [exact E|exact N|rewrite D; discriminate|exact G]).
  assert (L : o < length (objs (final h))) by (apply (got_lt h sid); destruct G as [tg I]; exists tg; rewrite E; apply in_app_iff; auto).
  destruct (invPlaces h o) as [A _]. specialize (A L). unfold places in A.
  rewrite (cnt_zero (Nat.eqb o) (map snd _)) in A by (intros x I; apply Nat.eqb_neq; intros <-; exact (NI I)).
  rewrite (wsum_zero (pend o)) in A; [unfold trace; lia|]. intros x I. apply In_nth_error in I as [t' N']. destruct (pend o x) eqn:P; [reflexivity|]. exfalso.
  destruct (pend_deinit _ _ _ o N') as [C' ND]; [lia|]. destruct (DN _ C') as (th' & N2 & D'). rewrite N' in N2. injection N2 as <-. exact (ND D').
Qed.

Theorem freed_by_deinit h l1 o l2 : trace h = l1 ++ EFree o :: l2 -> (exists sid, got l1 sid o) /\ exists t, In (ECall t CDeinit) l1.
Proof.
  intros E. destruct (split_step _ _ _ _ E) as (h1 & s' & k1 & k2 & S & T & L & l & h3 & H & N). subst l1. pose proof (invPlaces h1 o) as [_ PB]. pose proof (pend_deinit h1) as PD. pose proof (s_obj _ (invS h1)) as SO. unfold trace in PD.
  set (s := final h1) in *. clearbody s. clear N H E l h3. destruct S; try srva; unf; try match type of T with context [if gone ?r then _ else _] => destruct (gone r) end; cbn in T; events T; try discriminate B; inversion B; subst. rewrite app_nil_r.
  assert (P : 1 <= pend o0 th) by (rewrite pend_at, H0, cnt_cons, Nat.eqb_refl; cbn; lia).
  split; [|exists t; exact (proj1 (PD _ _ _ H P))]. pose proof (wsum_nth (pend o0) _ _ _ H) as W. destruct (nth_error (objs s) o0) as [p|] eqn:NO; [exists (p_sid p); exact (SO _ _ NO)|].
  apply nth_error_None in NO. specialize (PB NO). unfold places in PB. lia.
Qed.

Theorem fresh_after_deinit h l1 t l2 v l3 t' sid o sid' : trace h = l1 ++ ECall t CDeinit :: l2 ++ ERet t v :: l3 -> In (EGot t' sid o) l3 -> ~ got l1 sid' o.
Proof.
  intros E I G. apply in_split in I as (a & b & ->).
  assert (E' : trace h = (l1 ++ ECall t CDeinit :: l2 ++ ERet t v :: a) ++ EGot t' sid o :: b) by (rewrite E; rewrite <- !app_assoc; cbn; rewrite <- app_assoc; reflexivity).
  destruct (split_step _ _ _ _ E') as (h1 & s' & k1 & k2 & S & T & L & l & h3 & H & N). pose proof (taken h1) as TK. pose proof (invT h1) as IT. pose proof (got_lt h1 sid' o) as GL. unfold trace in TK, GL.
  set (s := final h1) in *. clearbody s. clear N H E E' l h3.
  assert (X : k1 = [] -> (forall o', In o' (map snd (provs s)) -> o' <> o) /\ o < length (objs s)).
  { intros ->. rewrite app_nil_r in L. assert (R : In (ERet t v) (tr s)) by (rewrite <- L; apply in_app_iff; right; right; apply in_app_iff; right; left; reflexivity).
    destruct (t_ret _ IT _ _ R) as (th & N & D). split.
    - intros o' I ->. eapply (TK l1 t (l2 ++ ERet t v :: a) th); [symmetry; exact L|exact N|rewrite D; discriminate|exact G|exact I].
    - apply GL. destruct G as [tg I]. exists tg. rewrite <- L. apply in_app_iff. auto. }
  destruct S; try srva; unf; try match type of T with context [if gone ?r then _ else _] => destruct (gone r) end; cbn in T; events T; try discriminate B; inversion B; subst; destruct (X eq_refl) as [X1 X2].
  - apply get_in in H2. apply (in_map snd) in H2. exact (X1 _ H2 eq_refl).
  - lia.
Qed.

(** ** Results *)
Theorem results h t c v : In (ECall t c) (trace h) -> In (ERet t v) (trace h) ->
  match c with
  | CGet sid => v = true /\ exists o, In (EGot t sid o) (trace h)
  | CHas _ => True
  | CStart _ | CStop _ | CDeinit => v = true
  | CIn m => (exists a, is_register m a) \/ (exists a, is_unregister m a) -> v = true
  end.
Proof.
  intros C R. apply in_split in R as (l1 & l2 & E). pose proof (call_before _ _ _ _ _ _ E C) as CB. destruct (split_step _ _ _ _ E) as (h1 & s' & k1 & k2 & S & T & L & l & h3 & H & N).
  assert (GT : forall e, In e l1 -> In e (trace h)) by (intros e I; rewrite E; apply in_app_iff; auto).
  pose proof (invT h1) as IT. subst l1. set (s := final h1) in *. clearbody s. clear N H E l h3 C.
  destruct S; try srva; unf; try match type of T with context [if gone ?r then _ else _] => destruct (gone r) end; cbn in T; events T; try discriminate B; inversion B; subst; rewrite ?app_nil_r in *;
    try (apply in_app_iff in CB as [CB|[CB|[]]]; [|discriminate CB]);
    pose proof (the_call _ _ _ _ IT H CB) as OK; unfold okth in OK; rewrite H0 in OK; destruct OK as [OK RF]; unfold srv_sid, srv, is_reg, is_un, is_ord in OK;
    repeat match goal with
      | H : _ /\ _ |- _ => destruct H
      | H : exists _, _ |- _ => destruct H
      | H : _ \/ _ |- _ => destruct H
      end; subst; try reflexivity; try discriminate; try exact I; try contradiction; try (intros _; reflexivity).
  all: try (split; [reflexivity|eexists; apply GT; apply in_app_iff; right; left; reflexivity]).
  all: try (destruct c; try contradiction; intros _; reflexivity).
  all: match goal with O : ordinary _ |- _ => destruct O as [O1 O2] end; intros [[a O]|[a O]]; [destruct (O1 _ O)|destruct (O2 _ O)].
Qed.
