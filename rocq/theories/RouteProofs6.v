(** Routing: results of the calls. *)
From Verif Require Import ListUtil Amap RouteModel RouteSpec RouteProofs RouteProofs2 RouteProofs3 RouteProofs4 RouteProofs5.

(** Case analysis on the step in which call a of known kind returns. *)
Ltac at_return E C :=
  let h1 := fresh "h1" in let h2 := fresh "h2" in let s' := fresh "s'" in let k1 := fresh "k1" in let k2 := fresh "k2" in let t := fresh "t" in
  let S := fresh "S" in let T := fresh "T" in let c := fresh "c" in let p := fresh "p" in let N := fresh "N" in let NP := fresh "NP" in let N' := fresh "N'" in
  destruct (split_step _ _ _ _ E) as (h1 & h2 & s' & k1 & k2 & t & -> & S & T & -> & -> & _);
  destruct (ret_step _ _ _ _ _ _ S T) as (c & p & N & NP & N' & ->);
  match type of C with called _ _ ?k => assert (c = k) by (eapply call_unique; [eapply agent_prefix; exact N|exact C]) end; subst c;
  inversion S; subst; cbn in T; look N'; try (exfalso; rewrite N in N'; injection N' as ->; destruct (NP _ eq_refl); fail);
  rewrite <- ?app_assoc in T; try (apply app_inv_head in T).

Lemma one_tail {A} (k : list A) x y : [x] = k ++ [y] -> k = [] /\ x = y.
Proof. destruct k as [|z k]; cbn; intros E; injection E as E1; [auto|destruct k; discriminate]. Qed.

Lemma create_null h l1 l2 a id : tr (final h) = l1 ++ ERet a RNull :: l2 -> called (tr (final h)) a (KCreate id) -> id <> 0 /\ joined l1 id <> None.
Proof.
  intros E C. at_return E C. apply one_tail in T as [-> _]. rewrite app_nil_r, <- table_joined. injection N' as <-. split; [assumption|congruence].
Qed.

Lemma create_proc h l1 l2 a id o : tr (final h) = l1 ++ ERet a (RProc o) :: l2 -> called (tr (final h)) a (KCreate id) ->
  id = 0 \/ (exists l, l1 = l ++ [EJoin a id o]) \/ raced l1 a id.
Proof.
  intros E C. at_return E C.
  - injection N' as <- _. auto.
  - injection N' as <- <-. right. right. destruct (race _ _ _ _ H) as [G|G]; [congruence|]. apply raced_grows. exact G.
  - injection N' as -> ->. right. left. exists (tr (final h1) ++ informed (final h1) a o ++ told (final h1) a (MStatus true o)).
    assert (E' : (informed (final h1) a o ++ told (final h1) a (MStatus true o)) ++ [EJoin a id o] = k1) by (apply (app_inv_tail [ERet a (RProc o)]); rewrite <- !app_assoc; exact T).
    rewrite <- E', <- !app_assoc. reflexivity.
Qed.

Lemma create_res h a id r : returned (tr (final h)) a r -> called (tr (final h)) a (KCreate id) -> r = RNull \/ exists o, r = RProc o.
Proof.
  intros R C. apply in_split in R as (l1 & l2 & E). at_return E C; injection N'; intros; subst; eauto.
Qed.

(** The processors that a message to all is for. *)
Lemma NoDup_snoc {A} (l : list A) x : NoDup l -> ~ In x l -> NoDup (l ++ [x]).
Proof.
  intros D I. induction D as [|y l J D IH]; cbn; [constructor; [intros []|constructor]|].
  constructor; [|apply IH; intros K; apply I; right; exact K]. intros K. apply in_snoc_list in K as [K|K]; [contradiction|]. apply I. left. congruence.
Qed.

Lemma nodup_table h : NoDup (keys (table (final h))).
Proof.
  revert h. refine (state_ind (fun s => NoDup (keys (table s))) _ _); [constructor|].
  intros h s' IH S. inversion S; subst; try exact IH; cbn.
  - unfold keys. rewrite map_app. cbn. apply get_none in H1. apply NoDup_snoc; assumption.
  - apply nodup_del. exact IH.
Qed.

Lemma in_table h id o : In (id, o) (table (final h)) <-> joined (tr (final h)) id = Some o.
Proof.
  rewrite <- table_joined. split; [apply in_get, nodup_table|apply get_in].
Qed.

Lemma nodup_objs h : NoDup (map snd (table (final h))).
Proof.
  pose proof (nodup_table h) as D. pose proof (ow_table _ (owns_final h)) as O.
  assert (F : forall i j o, In (i, o) (table (final h)) -> In (j, o) (table (final h)) -> i = j).
  { intros i j o I J. destruct (O _ _ I) as (_ & <- & _). destruct (O _ _ J) as (_ & <- & _). reflexivity. }
  clear O. induction (table (final h)) as [|[i o] l IH]; cbn in *; [constructor|].
  inversion D as [|? ? D1 D2]; subst. constructor.
  - intros I. apply in_map_iff in I as [[j o'] [E I]]. cbn in E. subst o'. assert (i = j) by (eapply F; [left; reflexivity|right; exact I]). subst j.
    apply D1. change i with (fst (i, o)). apply in_map. exact I.
  - apply IH; [exact D2|]. intros a b c A B. eapply F; right; eassumption.
Qed.

Lemma receivers_audience h m : audience (tr (final h)) m (receivers (final h) m).
Proof.
  split.
  - apply NoDup_filter, nodup_objs.
  - intros o. unfold receivers. rewrite filter_In, in_map_iff. split.
    + intros [[[id o'] [E I]] T]. cbn in E. subst o'. rewrite <- takes_wants by (eapply b_table; [apply bounds_final|exact I]).
      split; [exact T|]. exists id. apply in_table. exact I.
    + intros [W [id J]]. apply in_table in J. split; [exists (id, o); auto|]. rewrite takes_wants; [exact W|]. eapply b_table; [apply bounds_final|exact J].
Qed.

Lemma post_all_result h l1 l2 a m r : tr (final h) = l1 ++ ERet a r :: l2 -> called (tr (final h)) a (KPostAll m) ->
  exists l0 os, l1 = l0 ++ map (fun o => EPost a o m) os /\ audience l0 m os /\ In (ECall a (KPostAll m)) l0 /\ r = RBool (negb (Nat.eqb (length os) 0)).
Proof.
  intros E C. at_return E C. apply tail_split in T as [(_ & T & E1)|(k & E1 & _)]; [|destruct k; discriminate]. injection N'; intros NE ->. clear N'. subst r.
  exists (tr (final h1)), (receivers (final h1) m). rewrite <- E1. split; [reflexivity|]. split; [apply receivers_audience|]. split; [apply call_agent; eauto|reflexivity].
Qed.

(** A new processor has no handlers before create() returns. *)
Lemma target_given h a c p o : nth_error (agents (final h)) a = Some (c, p) -> target c = Some o -> exists b, In (ERet b (RProc o)) (tr (final h)).
Proof.
  intros N X. revert p N. revert h.
  refine (state_ind (fun s => forall p, nth_error (agents s) a = Some (c, p) -> exists b, In (ERet b (RProc o)) (tr s)) _ _).
  { destruct a; discriminate. }
  intros h s' IH S p N. destruct (step_tr _ _ S) as [k K]. enough (exists b, In (ERet b (RProc o)) (tr (final h))) as [b B] by (exists b; rewrite K; apply in_app_iff; auto).
  destruct (step_shape _ _ S) as [c0 C A T|a0 c0 p0 p' k0 N0 NP NP' A T Q|a0 c0 p0 k0 r0 N0 NP A T Q|a0 self m i N0 A T]; rewrite A in N.
  - rewrite nth_snoc in N. destruct (Nat.eqb a _); [|eauto]. injection N as <- <-. apply given_in.
    destruct c0 as [| | | | | |[x|]| |]; cbn in X, C; try discriminate; injection X as ->; exact C.
  - rewrite (nth_set _ _ _ _ _ N0) in N. destruct (Nat.eqb_spec a0 a) as [<-|]; [injection N as <- <-|]; eauto.
  - rewrite (nth_set _ _ _ _ _ N0) in N. destruct (Nat.eqb_spec a0 a) as [<-|]; [injection N as <- <-|]; eauto.
  - rewrite nth_snoc, length_set_nth, (nth_set _ _ _ _ _ N0) in N. destruct (Nat.eqb a _); [injection N as <- <-; discriminate X|].
    destruct (Nat.eqb_spec a0 a) as [<-|]; [injection N as <- <-|]; eauto.
Qed.

Lemma fresh_obj h a id o : nth_error (agents (final h)) a = Some (KCreate id, PAdd o) -> nth_error (objs (final h)) o = Some (Proc id false []).
Proof.
  revert h. refine (state_ind (fun s => nth_error (agents s) a = Some (KCreate id, PAdd o) -> nth_error (objs s) o = Some (Proc id false [])) _ _).
  { destruct a; discriminate. }
  intros h s' IH S N. destruct (add_step _ _ _ _ _ S N) as [N'|(i & [= <-] & _ & -> & _ & _ & NS & _)].
  - specialize (IH N'). destruct (ow_new _ (owns_final h) _ _ _ N') as (A & _).
    assert (G : forall b c p, nth_error (agents (final h)) b = Some (c, p) -> target c <> Some o).
    { intros b c p B X. destruct (target_given _ _ _ _ _ B X) as [d D]. apply ret_agent in D as [c' D]. exact (A _ _ D). }
    assert (L := nth_lt _ _ _ IH).
    inversion S; subst; cbn; try exact IH; try (rewrite nth_snoc; destruct (Nat.eqb_spec o (length (objs (final h)))); [lia|exact IH]);
      specialize (G _ _ _ H); cbn in G; unfold set_closed, set_handlers; destruct (nth_error (objs (final h)) o0) eqn:M; try exact IH; cbn;
      rewrite nth_set_other by congruence; exact IH.
  - inversion S; subst; look N; try congruence. injection N as ->. cbn. rewrite nth_snoc, Nat.eqb_refl. reflexivity.
Qed.

Lemma not_informed h a id o : nth_error (agents (final h)) a = Some (KCreate id, PAdd o) -> informed (final h) a o = [].
Proof. intros N. unfold informed, takes. rewrite (fresh_obj _ _ _ _ N). reflexivity. Qed.

(** Calls that have posted or removed something. *)
Definition late (p : pc) : bool := match p with PRet _ | PHandler | PNested _ => true | _ => false end.
Lemma late_step s s' a c p : step s s' -> nth_error (agents s) a = Some (c, p) -> late p = true -> exists p', nth_error (agents s') a = Some (c, p') /\ late p' = true.
Proof.
  intros S N L. assert (LT := nth_lt _ _ _ N).
  inversion S; subst; cbn; rewrite ?nth_snoc, ?length_set_nth; try (erewrite nth_set by eassumption);
    repeat match goal with |- context [if Nat.eqb ?x ?y then _ else _] => destruct (Nat.eqb_spec x y); subst end; try lia; eauto;
    match goal with H : nth_error (agents s) a = Some (?k, ?q) |- _ => rewrite N in H; injection H as -> -> end; try discriminate L; eauto.
Qed.
Ltac events I :=
  cbn in I; rewrite <- ?app_assoc in I;
  repeat first [apply in_app_iff in I; destruct I as [I|I]|apply in_told in I as (? & I & _)|apply in_informed in I as (? & I)|destruct I as [I|I]|
      apply in_map_iff in I as (? & I & _)|discriminate I|contradiction].
Lemma poster h a x m : In (EPost a x m) (tr (final h)) -> exists c p, nth_error (agents (final h)) a = Some (c, p) /\ late p = true.
Proof.
  revert h. refine (state_ind (fun s => In (EPost a x m) (tr s) -> exists c p, nth_error (agents s) a = Some (c, p) /\ late p = true) _ _); [intros []|].
  intros h s' IH S I. assert (HH : In (EPost a x m) (tr (final h)) -> exists c p, nth_error (agents s') a = Some (c, p) /\ late p = true).
  { intros J. destruct (IH J) as (c & p & N & L). destruct (late_step _ _ _ _ _ S N L) as (p' & N' & L'). eauto. }
  inversion S; subst; events I; try exact (HH I); injection I; intros; subst; cbn; erewrite nth_set by eassumption; rewrite Nat.eqb_refl; eauto.
Qed.
Lemma leaver h a id o : In (ELeave a id o) (tr (final h)) -> exists c p, nth_error (agents (final h)) a = Some (c, p) /\ (p = PTell \/ late p = true).
Proof.
  revert h. refine (state_ind (fun s => In (ELeave a id o) (tr s) -> exists c p, nth_error (agents s) a = Some (c, p) /\ (p = PTell \/ late p = true)) _ _); [intros []|].
  intros h s' IH S I. assert (HH : In (ELeave a id o) (tr (final h)) -> exists c p, nth_error (agents s') a = Some (c, p) /\ (p = PTell \/ late p = true)).
  { intros J. destruct (IH J) as (c & p & N & [-> |L]).
    - assert (LT := nth_lt _ _ _ N).
      inversion S; subst; cbn; rewrite ?nth_snoc, ?length_set_nth; try (erewrite nth_set by eassumption);
        repeat match goal with |- context [if Nat.eqb ?x ?y then _ else _] => destruct (Nat.eqb_spec x y); subst end; try lia; eauto;
        try (match goal with H : nth_error (agents (final h)) a = Some (?k, ?q) |- _ => rewrite N in H; injection H; intros; subst end; try discriminate; eauto 8).
    - destruct (late_step _ _ _ _ _ S N L) as (p' & N' & L'). eauto. }
  inversion S; subst; events I; try exact (HH I). injection I; intros; subst; cbn; erewrite nth_set by eassumption; rewrite Nat.eqb_refl; eauto.
Qed.

Lemma join_told h l1 l2 a id o : tr (final h) = l1 ++ EJoin a id o :: l2 ->
  exists l0 os, l1 = l0 ++ map (fun x => EPost a x (MStatus true o)) os /\ audience l0 (MStatus true o) os /\ In (ECall a (KCreate id)) l0
    /\ (forall x m, ~ In (EPost a x m) l0) /\ joined l0 id = None /\ id <> 0 /\ (exists l2', l2 = ERet a (RProc o) :: l2') /\ (forall b i, ~ In (EJoin b i o) l0).
Proof.
  intros E. destruct (split_step _ _ _ _ E) as (h1 & h2 & s' & k1 & k2 & t & -> & S & T & -> & -> & _).
  destruct (join_step _ _ _ _ _ _ _ S T) as (N & F & G & -> & ->). exists (tr (final h1)), (receivers (final h1) (MStatus true o)).
  rewrite (not_informed _ _ _ _ N). split; [reflexivity|]. split; [apply receivers_audience|]. split; [apply call_agent; eauto|].
  split; [|split; [rewrite <- table_joined; exact G|]; split; [eapply ow_add; [apply owns_final|exact N]|]; split; [exists t; reflexivity|apply (ow_new _ (owns_final h1) _ _ _ N)]].
  intros x m I. apply poster in I as (c & p & N' & L). rewrite N in N'. injection N' as <- <-. discriminate.
Qed.

Lemma leave_told h l1 l2 a r o id o' : tr (final h) = l1 ++ ERet a r :: l2 -> called (tr (final h)) a (KStop o) -> In (ELeave a id o') l1 ->
  exists l0 os, l1 = l0 ++ map (fun x => EPost a x (MStatus false o)) os /\ audience l0 (MStatus false o) os /\ In (ELeave a id o') l0 /\ (forall x m, ~ In (EPost a x m) l0).
Proof.
  intros E C I. at_return E C; try (exfalso; apply one_tail in T as [-> _]; rewrite app_nil_r in I; apply leaver in I as (c & p' & N0 & [-> | L]); rewrite N0 in H; [discriminate|injection H as -> ->; discriminate]).
  injection N' as -> _. apply tail_split in T as [(_ & T & E1)|(k & E1 & _)]; [|destruct k; discriminate].
  exists (tr (final h1)), (receivers (final h1) (MStatus false o)). rewrite <- E1 in *. split; [reflexivity|]. split; [apply receivers_audience|].
  split.
  - apply in_app_iff in I as [I|I]; [exact I|]. apply in_told in I as (? & I & _). discriminate.
  - intros x m J. apply poster in J as (c & p' & N0 & L). rewrite H in N0. injection N0 as <- <-. discriminate.
Qed.

(** post *)
Lemma found_joined h a id m o : nth_error (agents (final h)) a = Some (KPost id m, PHand o) ->
  exists l0 l0', tr (final h) = l0 ++ l0' /\ In (ECall a (KPost id m)) l0 /\ joined l0 id = Some o.
Proof.
  revert h. refine (state_ind (fun s => nth_error (agents s) a = Some (KPost id m, PHand o) -> exists l0 l0', tr s = l0 ++ l0' /\ In (ECall a (KPost id m)) l0 /\ joined l0 id = Some o) _ _).
  { destruct a; discriminate. }
  intros h s' IH S N. assert (HH : nth_error (agents (final h)) a = Some (KPost id m, PHand o) -> exists l0 l0', tr s' = l0 ++ l0' /\ In (ECall a (KPost id m)) l0 /\ joined l0 id = Some o).
  { intros N'. destruct (IH N') as (l0 & l0' & E & A). destruct (step_tr _ _ S) as [k ->]. rewrite E. exists l0, (l0' ++ k). rewrite app_assoc. auto. }
  inversion S; subst; look N; try exact (HH N). injection N as -> -> ->. exists (tr (final h)), []. cbn. rewrite app_nil_r.
  split; [reflexivity|]. split; [apply call_agent; eauto|]. rewrite <- table_joined. assumption.
Qed.

Lemma post_result h l1 l2 a id m r : tr (final h) = l1 ++ ERet a r :: l2 -> called (tr (final h)) a (KPost id m) ->
  exists l0 l0', l1 = l0 ++ l0' /\ In (ECall a (KPost id m)) l0 /\
    match joined l0 id with
    | None => r = RBool false /\ forall o m', ~ In (EPost a o m') l1
    | Some o => (r = RBool true /\ exists l, l1 = l ++ [EPost a o m] /\ wants l o m = true /\ forall o' m', ~ In (EPost a o' m') l) \/
                (r = RBool false /\ wants l1 o m = false /\ forall o' m', ~ In (EPost a o' m') l1)
    end.
Proof.
  intros E C. at_return E C.
  - injection N'; intros <- -> ->. apply one_tail in T as [-> _]. rewrite app_nil_r. exists (tr (final h1)), []. rewrite app_nil_r, <- table_joined, H1.
    split; [reflexivity|]. split; [apply call_agent; eauto|]. split; [reflexivity|]. intros o m' I. apply poster in I as (c & p' & N0 & L). rewrite H in N0. injection N0 as <- <-. discriminate.
  - injection N'; intros <- -> ->. destruct (found_joined _ _ _ _ _ H) as (l0 & l0' & EE & CC & J). exists l0, (l0' ++ k1). rewrite app_assoc, <- EE, J.
    split; [reflexivity|]. split; [exact CC|]. left. split; [reflexivity|].
    change ([EPost a o m; ERet a (RBool true)]) with ([EPost a o m] ++ [ERet a (RBool true)]) in T. apply app_inv_tail in T as <-. exists (tr (final h1)). split; [reflexivity|].
    rewrite <- takes_wants; [split; [assumption|]|].
    + intros o' m' I. apply poster in I as (c & p' & N0 & L). rewrite H in N0. injection N0 as <- <-. discriminate.
    + unfold takes in H0. destruct (nth_error (objs (final h1)) o) eqn:X; [exact (nth_lt _ _ _ X)|discriminate].
  - injection N'; intros <- -> ->. destruct (found_joined _ _ _ _ _ H) as (l0 & l0' & EE & CC & J). exists l0, (l0' ++ k1). rewrite app_assoc, <- EE, J.
    split; [reflexivity|]. split; [exact CC|]. right. split; [reflexivity|]. apply one_tail in T as [-> _]. rewrite app_nil_r.
    split; [|intros o' m' I; apply poster in I as (c & p' & N0 & L); rewrite H in N0; injection N0 as <- <-; discriminate].
    assert (LT : o < length (objs (final h1))).
    { apply joined_in in J as [b J]. assert (J' : In (EJoin b id o) (tr (final h1))) by (rewrite EE; apply in_app_iff; auto).
      apply (ow_join _ (owns_final h1)) in J' as [_ J']. eapply b_ret; [apply bounds_final|exact J']. }
    rewrite <- takes_wants by exact LT. assumption.
Qed.

(** Messages of post() come from a call post() and are unique to it. *)
Lemma leave_facts h l1 l2 a id o : tr (final h) = l1 ++ ELeave a id o :: l2 ->
  id <> 0 /\ joined l1 id = Some o /\ exists o1, In (ECall a (KStop o1)) l1 /\ (exists b, In (ECall b (KCreate id)) l1 /\ In (ERet b (RProc o1)) l1).
Proof.
  intros E. destruct (split_step _ _ _ _ E) as (h1 & h2 & s' & k1 & k2 & t & -> & S & T & -> & -> & _).
  destruct (leave_step _ _ _ _ _ _ _ S T) as (o1 & N & F & EI & I & G & -> & -> & _). rewrite app_nil_r, <- table_joined.
  split; [exact I|]. split; [exact G|]. exists o1. split; [apply call_agent; eauto|].
  destruct (target_given _ _ _ _ o1 N eq_refl) as [d D]. apply ret_agent in D as [c D]. destruct (ow_given _ (owns_final h1) _ _ _ D) as (b & i & B).
  exists b. destruct (ow_id _ (owns_final h1) _ _ _ _ B eq_refl) as [_ J]. rewrite EI, J. split; [apply call_agent; eauto|apply ret_agent; eauto].
Qed.
