(** Routing: stop() under careful use. *)
From Verif Require Import ListUtil Amap RouteModel RouteSpec RouteProofs RouteProofs2 RouteProofs3 RouteProofs4 RouteProofs5 RouteProofs6.

Lemma overlap_grows l k a b : overlap l a b -> overlap (l ++ k) a b.
Proof. intros [D (l1 & l2 & -> & R)]. split; [exact D|]. exists l1, (l2 ++ k). rewrite app_assoc. auto. Qed.
Lemma careful_prefix l k : careful (l ++ k) -> careful l.
Proof.
  intros [R C S]. split; unfold called in *.
  - intros a o I. apply (R a o). apply in_app_iff. auto.
  - intros a b id Z A B O. apply (C a b id Z); [apply in_app_iff; auto|apply in_app_iff; auto|apply overlap_grows; exact O].
  - intros a b o A B O. apply (S a b o); [apply in_app_iff; auto|apply in_app_iff; auto|apply overlap_grows; exact O].
Qed.

Definition made (s : state) (o : nat) : Prop := exists b id, nth_error (agents s) b = Some (KCreate id, PRet (RProc o)).
Lemma target_made h a c p o : nth_error (agents (final h)) a = Some (c, p) -> target c = Some o -> made (final h) o.
Proof.
  intros N X. destruct (target_given _ _ _ _ _ N X) as [d D]. apply ret_agent in D as [c' D]. exact (ow_given _ (owns_final h) _ _ _ D).
Qed.
Lemma made_lt h o : made (final h) o -> o < length (objs (final h)).
Proof. intros (b & id & N). eapply b_ret; [apply bounds_final|exact N]. Qed.

Lemma closedb_step s s' o : step s s' -> o < length (objs s) -> closedb s' o = closedb s o \/
  (exists a, nth_error (agents s) a = Some (KStop o, PClosing) /\ nth_error (agents s') a = Some (KStop o, PErase) /\ closedb s' o = true) \/
  (exists a, nth_error (agents s) a = Some (KReuse o, PStart) /\ closedb s' o = false).
Proof.
  intros S L. inversion S; subst; auto; unfold closedb at 1 2; cbn.
  - rewrite nth_snoc. destruct (Nat.eqb_spec o (length (objs s))); [lia|auto].
  - rewrite nth_snoc. destruct (Nat.eqb_spec o (length (objs s))); [lia|auto].
  - unfold set_closed. destruct (nth_error (objs s) o0) as [x|] eqn:N; [|auto]. cbn. rewrite (nth_set _ _ _ _ _ N).
    destruct (Nat.eqb_spec o0 o) as [->|]; [|auto]. right. left. exists a. split; [assumption|]. rewrite (nth_set _ _ _ _ _ H), Nat.eqb_refl.
    split; [reflexivity|]. unfold closedb. cbn. rewrite (nth_set _ _ _ _ _ N), Nat.eqb_refl. reflexivity.
  - unfold set_closed. destruct (nth_error (objs s) o0) as [x|] eqn:N; [|auto]. cbn. rewrite (nth_set _ _ _ _ _ N).
    destruct (Nat.eqb_spec o0 o) as [->|]; [|auto]. right. right. exists a. split; [assumption|]. 
    unfold closedb. cbn. rewrite (nth_set _ _ _ _ _ N), Nat.eqb_refl. reflexivity.
  - unfold set_handlers. destruct (nth_error (objs s) o0) as [x|] eqn:N; [|auto]. cbn. rewrite (nth_set _ _ _ _ _ N).
    destruct (Nat.eqb_spec o0 o) as [->|]; [rewrite N|]; auto.
  - unfold set_handlers. destruct (nth_error (objs s) o0) as [x|] eqn:N; [|auto]. cbn. rewrite (nth_set _ _ _ _ _ N).
    destruct (Nat.eqb_spec o0 o) as [->|]; [rewrite N|]; auto.
Qed.

Lemma made_step s s' o : step s s' -> made s' o -> made s o \/ (exists a id, nth_error (agents s) a = Some (KCreate id, PAdd o) /\ nth_error (agents s') a = Some (KCreate id, PRet (RProc o)))
   \/ o = length (objs s) /\ id_of s' o = 0.
Proof.
  intros S (b & id & N). destruct (proc_step _ _ _ _ _ S N) as [N'|[(i & [= <-] & [N'|(E1 & -> & N')])|(i & E & _)]]; [left; exists b, id; exact N'|eauto 6| |discriminate].
  right. right. split; [exact E1|]. inversion S; subst; look N; try congruence. cbn. unfold id_of. cbn. rewrite nth_snoc, Nat.eqb_refl. reflexivity.
Qed.

Definition before (p : pc) : bool := match p with PClosing | PErase => true | _ => false end.
Record settled (s : state) : Prop := {
  st_open : forall o, made s o -> closedb s o = false -> id_of s o <> 0 -> get (id_of s o) (table s) = Some o;
  st_stop : forall a o p, nth_error (agents s) a = Some (KStop o, p) -> before p = true -> id_of s o <> 0 -> get (id_of s o) (table s) = Some o;
  st_erase : forall a o, nth_error (agents s) a = Some (KStop o, PErase) -> closedb s o = true
}.

Lemma stop_agent_step s s' a o p : step s s' -> nth_error (agents s') a = Some (KStop o, p) -> before p = true ->
  (nth_error (agents s) a = Some (KStop o, p)) \/ (p = PClosing /\ nth_error (agents s) a = Some (KStop o, PStart) /\ closedb s o = false /\ table s' = table s) \/
  (p = PErase /\ nth_error (agents s) a = Some (KStop o, PClosing) /\ table s' = table s /\ objs s' = objs (set_closed s o true)).
Proof.
  intros S N B. inversion S; subst; look N; auto; try (injection N; intros; subst; try discriminate B; auto 8).
Qed.

Lemma made_id h o : made (final h) o -> exists b, nth_error (agents (final h)) b = Some (KCreate (id_of (final h) o), PRet (RProc o)).
Proof. intros (b & id & N). destruct (ow_id _ (owns_final h) _ _ _ _ N eq_refl) as [_ E]. exists b. rewrite E. exact N. Qed.

Lemma settled_final h : careful (tr (final h)) -> settled (final h).
Proof.
  revert h. refine (state_ind (fun s => careful (tr s) -> settled s) _ _).
  { intros _. split; intros; try (destruct a; discriminate). destruct H as (b & id & N). destruct b; discriminate. }
  intros h s' IH S CF. destruct (step_tr _ _ S) as [k K]. assert (CF0 : careful (tr (final h))) by (rewrite K in CF; eapply careful_prefix; exact CF).
  destruct (IH CF0) as [SO SS SE]. clear IH.
  (* the table for a processor whose entry was right *)
  assert (TB : forall o, o < length (objs (final h)) -> get (id_of (final h) o) (table (final h)) = Some o ->
     get (id_of s' o) (table s') = Some o \/ exists a, nth_error (agents (final h)) a = Some (KStop o, PErase) /\ nth_error (agents s') a = Some (KStop o, PTell) /\ closedb s' o = true).
  { intros o L G. rewrite (id_step _ _ _ S L). inversion S; subst; cbn; auto.
    - left. rewrite get_snoc by assumption. destruct (Nat.eqb_spec id (id_of (final h) o)) as [E|]; [congruence|exact G].
    - rewrite get_del. destruct (Nat.eqb_spec (id_of (final h) o) (id_of (final h) o0)) as [E|]; [|auto]. right.
      assert (G2 := SS _ _ _ H eq_refl H0). rewrite <- E in G2. rewrite G in G2. injection G2 as <-.
      exists a. split; [assumption|]. rewrite (nth_set _ _ _ _ _ H), Nat.eqb_refl. split; [reflexivity|]. exact (SE _ _ H). }
  split.
  - intros o M C Z. destruct (made_step _ _ _ S M) as [M'|[(a & id & N & N')|(E & E')]].
    + assert (L := made_lt _ _ M'). destruct (closedb_step _ _ _ S L) as [E|[(a & _ & _ & E)|(a & N & E)]]; [|congruence|].
      * rewrite E in C. rewrite (id_step _ _ _ S L) in Z. destruct (TB _ L (SO _ M' C Z)) as [G|(a & _ & _ & G)]; [exact G|]. congruence.
      * exfalso. apply (no_reuse _ CF0 a o). apply call_agent. eauto.
    + destruct (ow_id _ (owns_final h) _ _ _ _ N eq_refl) as [L I]. rewrite (id_step _ _ _ S L), I in *.
      inversion S; subst; look N'; try (rewrite N in N'; discriminate); injection N'; intros; subst; cbn.
      * congruence.
      * exfalso. destruct (race _ _ _ _ H) as [G|(b & o2 & l1 & l2 & D & E & R1 & R2)]; [congruence|].
        assert (J : In (EJoin b (id_of (final h) o) o2) (tr (final h))) by (rewrite E; apply in_app_iff; right; left; reflexivity).
        apply (ow_join _ (owns_final h)) in J as [_ J].
        apply (one_create _ CF0 a b (id_of (final h) o) Z); [apply call_agent; eauto|apply call_agent; eauto|]. split; [auto|]. eauto 8.
      * rewrite get_snoc by assumption. rewrite Nat.eqb_refl. reflexivity.
    + congruence.
  - intros a o p N B Z. assert (M : made (final h) o /\ (nth_error (agents (final h)) a = Some (KStop o, p) \/ closedb (final h) o = false \/ nth_error (agents (final h)) a = Some (KStop o, PClosing))).
    { destruct (stop_agent_step _ _ _ _ _ S N B) as [N'|[(_ & N' & C & _)|(_ & N' & _)]]; (split; [eapply target_made; [exact N'|reflexivity]|]); auto. }
    destruct M as [M MC]. assert (L := made_lt _ _ M). rewrite (id_step _ _ _ S L) in *.
    assert (G : get (id_of (final h) o) (table (final h)) = Some o) by (destruct MC as [MC|[MC|MC]]; eauto).
    destruct (TB _ L G) as [G'|(b & NB & NB' & _)]; [rewrite (id_step _ _ _ S L) in G'; exact G'|]. exfalso.
    assert (a <> b) by (intros ->; rewrite N in NB'; injection NB' as ->; discriminate B).
    assert (RA : exists q, nth_error (agents (final h)) a = Some (KStop o, q) /\ forall r, q <> PRet r).
    { destruct (stop_agent_step _ _ _ _ _ S N B) as [N'|[(_ & N' & _)|(_ & N' & _)]]; eexists; (split; [exact N'|]); intros r E; subst; discriminate. }
    destruct RA as (q & NA & NQ). apply (one_stop _ CF0 a b o); [apply call_agent; eauto|apply call_agent; eauto|]. split; [assumption|].
    exists (tr (final h)), []. rewrite app_nil_r. split; [reflexivity|]. split; eapply running_agent; eauto; discriminate.
  - intros a o N. destruct (stop_agent_step _ _ _ _ _ S N eq_refl) as [N'|[(E & _)|(_ & N' & _ & E)]]; [|discriminate|].
    + assert (L := made_lt _ _ (target_made _ _ _ _ o N' eq_refl)). destruct (closedb_step _ _ _ S L) as [E|[(b & _ & _ & E)|(b & NB & E)]]; [rewrite E; eauto|exact E|].
      exfalso. apply (no_reuse _ CF0 b o). apply call_agent. eauto.
    + assert (L := made_lt _ _ (target_made _ _ _ _ o N' eq_refl)). unfold closedb. rewrite E. unfold set_closed. destruct (nth_error (objs (final h)) o) as [x|] eqn:X; [|apply nth_error_None in X; lia].
      cbn. rewrite (nth_set _ _ _ _ _ X), Nat.eqb_refl. reflexivity.
Qed.

Lemma stop_removes_itself h l1 l2 a id o : careful (tr (final h)) -> tr (final h) = l1 ++ ELeave a id o :: l2 -> In (ECall a (KStop o)) l1.
Proof.
  intros CF E. destruct (split_step _ _ _ _ E) as (h1 & h2 & s' & k1 & k2 & t & -> & S & T & -> & -> & _).
  destruct (leave_step _ _ _ _ _ _ _ S T) as (o1 & N & F & EI & I & G & -> & -> & _).
  destruct (grows h1 h2) as [u U]. rewrite U in CF. apply careful_prefix in CF. destruct (settled_final _ CF) as [_ SS _].
  assert (G' := SS _ _ _ N eq_refl). rewrite <- EI in G'. specialize (G' I). rewrite G in G'. injection G' as ->. rewrite app_nil_r. apply call_agent. eauto.
Qed.

(** A closed processor that is still joined is about to leave. *)
Lemma closed_leaving h o : closedb (final h) o = true -> get (id_of (final h) o) (table (final h)) = Some o -> exists a, nth_error (agents (final h)) a = Some (KStop o, PErase).
Proof.
  revert h. refine (state_ind (fun s => closedb s o = true -> get (id_of s o) (table s) = Some o -> exists a, nth_error (agents s) a = Some (KStop o, PErase)) _ _); [discriminate|].
  intros h s' IH S C G.
  destruct (lt_dec o (length (objs (final h)))) as [L|L].
  2:{ exfalso. assert (T : In (id_of s' o, o) (table s')) by (apply get_in; exact G).
      assert (T' : In (id_of s' o, o) (table (final h)) \/ exists a id, nth_error (agents (final h)) a = Some (KCreate id, PAdd o)).
      { inversion S; subst; cbn in T; auto; [apply in_snoc_list in T as [T|T]; [auto|injection T; intros; subst; eauto]|apply del_in in T; auto]. }
      destruct T' as [T'|(a & i & T')]; [apply (b_table _ (bounds_final h)) in T'; lia|apply (b_add _ (bounds_final h)) in T'; lia]. }
  assert (PE : (exists a, nth_error (agents (final h)) a = Some (KStop o, PErase)) -> exists a, nth_error (agents s') a = Some (KStop o, PErase)).
  { intros [a N]. exists a. assert (LT := nth_lt _ _ _ N). assert (Z : id_of (final h) o <> 0).
    { rewrite <- (id_step _ _ _ S L). apply get_in in G. intros Z. rewrite Z in G. 
      assert (T' : In (0, o) (table (final h)) \/ exists a, nth_error (agents (final h)) a = Some (KCreate 0, PAdd o)).
      { inversion S; subst; cbn in G; auto; [apply in_snoc_list in G as [T|T]; [auto|injection T; intros; subst; eauto]|apply del_in in G; auto]. }
      destruct T' as [T'|(b & T')]; [apply (ow_table _ (owns_final h)) in T' as [? _]; congruence|apply (ow_add _ (owns_final h)) in T'; congruence]. }
    inversion S; subst; cbn; rewrite ?nth_snoc, ?length_set_nth; try (erewrite nth_set by eassumption);
      repeat match goal with |- context [if Nat.eqb ?x ?y then _ else _] => destruct (Nat.eqb_spec x y); subst end; try lia; eauto;
      match goal with H : nth_error (agents (final h)) a = Some _ |- _ => rewrite N in H; injection H; intros; subst end; try discriminate.
    - exfalso. rewrite (id_step _ _ _ S L) in G. cbn in G. destruct H0 as [H0|[_ H0]]; congruence.
    - exfalso. rewrite (id_step _ _ _ S L) in G. cbn in G. rewrite get_del, Nat.eqb_refl in G. discriminate. }
  destruct (closedb_step _ _ _ S L) as [E|[(a & N & N' & _)|(a & _ & E)]]; [|eauto|congruence].
  rewrite E in C. rewrite (id_step _ _ _ S L) in G.
  assert (T : get (id_of (final h) o) (table (final h)) = Some o \/ exists a, nth_error (agents (final h)) a = Some (KCreate (id_of (final h) o), PAdd o)).
  { inversion S; subst; cbn in G; auto.
    - rewrite get_snoc in G by assumption. destruct (Nat.eqb_spec id (id_of (final h) o)) as [->|]; [|auto]. injection G as ->. eauto.
    - rewrite get_del in G. destruct (Nat.eqb _ _); [discriminate|auto]. }
  destruct T as [T|[a T]]; [auto|]. exfalso. unfold closedb in C. rewrite (fresh_obj _ _ _ _ T) in C. discriminate.
Qed.

(** A processor joins at most once. *)
Lemma never_again h k o id : made (final h) o -> joined (tr (final h)) id <> Some o -> joined (tr (final (h ++ k))) id <> Some o.
Proof.
  intros M J. cut (made (final (h ++ k)) o /\ joined (tr (final (h ++ k))) id <> Some o); [tauto|].
  induction k as [|l k [MK JK]] using rev_ind; [rewrite app_nil_r; auto|]. rewrite app_assoc, final_snoc.
  destruct (next_step (final (h ++ k)) l) as [->|S]; [auto|]. set (s' := next (final (h ++ k)) l) in *. clearbody s'.
  split.
  - destruct MK as (b & i & N). exists b, i. assert (LT := nth_lt _ _ _ N).
    destruct (step_shape _ _ S) as [c0 C A T|a0 c0 p0 p' k0 N0 NP NP' A T Q|a0 c0 p0 k0 r0 N0 NP A T Q|a0 self m j N0 A T]; rewrite A.
    + rewrite nth_snoc. destruct (Nat.eqb_spec b (length (agents (final (h ++ k))))); [lia|exact N].
    + rewrite (nth_set _ _ _ _ _ N0). destruct (Nat.eqb_spec a0 b) as [<-|]; [|exact N]. rewrite N in N0. injection N0 as <- <-. destruct (NP _ eq_refl).
    + rewrite (nth_set _ _ _ _ _ N0). destruct (Nat.eqb_spec a0 b) as [<-|]; [|exact N]. rewrite N in N0. injection N0 as <- <-. destruct (NP _ eq_refl).
    + rewrite nth_snoc, length_set_nth, (nth_set _ _ _ _ _ N0). destruct (Nat.eqb_spec b (length (agents (final (h ++ k))))); [lia|].
      destruct (Nat.eqb_spec a0 b) as [<-|]; [rewrite N in N0; discriminate|exact N].
  - inversion S; subst; cbn; rewrite ?joined_snoc; posts; rewrite ?joined_snoc; try exact JK.
    + destruct (Nat.eqb_spec id0 id) as [->|]; posts; [|exact JK]. intros [= ->]. destruct MK as (b & i & N).
      exact (proj1 (ow_new _ (owns_final (h ++ k)) _ _ _ H) _ _ N).
    + destruct (Nat.eqb _ _); [discriminate|exact JK].
Qed.

Lemma telling_left h a o : nth_error (agents (final h)) a = Some (KStop o, PTell) -> get (id_of (final h) o) (table (final h)) <> Some o.
Proof.
  revert h. refine (state_ind (fun s => nth_error (agents s) a = Some (KStop o, PTell) -> get (id_of s o) (table s) <> Some o) _ _); [destruct a; discriminate|].
  intros h s' IH S N G.
  assert (N' : exists p, nth_error (agents (final h)) a = Some (KStop o, p)).
  { inversion S; subst; look N; eauto; injection N; intros; subst; eauto. }
  destruct N' as [p N']. assert (M := target_made _ _ _ _ o N' eq_refl). assert (L := made_lt _ _ M). rewrite (id_step _ _ _ S L) in G.
  destruct M as (b & i & NB).
  inversion S; subst; cbn in G; look N; try (exact (IH N G)); try (injection N; intros; subst).
  - rewrite get_snoc in G by assumption. destruct (Nat.eqb_spec id (id_of (final h) o)) as [->|]; [|exact (IH N G)]. injection G as ->.
    exact (proj1 (ow_new _ (owns_final h) _ _ _ H) _ _ NB).
  - rewrite get_del, Nat.eqb_refl in G. discriminate.
  - rewrite get_del in G. destruct (Nat.eqb _ _); [discriminate|exact (IH N G)].
Qed.

Lemma stopped_left h a o r id : careful (tr (final h)) -> called (tr (final h)) a (KStop o) -> returned (tr (final h)) a r -> joined (tr (final h)) id <> Some o.
Proof.
  intros CF C R. apply in_split in R as (l1 & l2 & E). pose proof E as E0.
  destruct (split_step _ _ _ _ E) as (h1 & h2 & s' & k1 & k2 & t & -> & S & T & -> & -> & l & h3 & -> & EL).
  destruct (ret_step _ _ _ _ _ _ S T) as (c & p & N & NP & N' & ->).
  assert (c = KStop o) by (eapply call_unique; [eapply agent_prefix; exact N|exact C]). subst c.
  assert (M := target_made _ _ _ _ o N eq_refl).
  assert (CF1 : careful (tr (final h1))) by (destruct (grows h1 (l :: h3)) as [u U]; rewrite U in CF; eapply careful_prefix; exact CF).
  intros J. destruct (never_again h1 (l :: h3) o id M); [|exact J]. intros J1.
  rewrite <- table_joined in J1. pose proof J1 as TI. apply get_in in TI. destruct (ow_table _ (owns_final h1) _ _ TI) as (Z & I & _). subst id.
  destruct (settled_final _ CF1) as [SO SS SE]. clear E E0 EL C.
  inversion S; subst; look N'; try (rewrite N in N'; injection N' as ->; destruct (NP _ eq_refl)); injection N'; intros; subst.
  - destruct (closed_leaving _ _ H0 J1) as [b NB]. assert (a <> b) by (intros ->; rewrite NB in H; discriminate).
    apply (one_stop _ CF1 a b o); [apply call_agent; eauto|apply call_agent; eauto|]. split; [assumption|].
    exists (tr (final h1)), []. rewrite app_nil_r. split; [reflexivity|]. split; eapply running_agent; eauto; discriminate.
  - destruct H0 as [H0|[_ H0]]; congruence.
  - exact (telling_left _ _ _ H J1).
Qed.
