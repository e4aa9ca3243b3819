(** Routing: joining and leaving. *)
From Verif Require Import ListUtil Amap RouteModel RouteSpec RouteProofs RouteProofs2 RouteProofs3.

Lemma app_split {A} (a : list A) : forall b c e d, a ++ b = c ++ e :: d ->
  (exists t, a = c ++ e :: t /\ d = t ++ b) \/ (exists t, c = a ++ t /\ b = t ++ e :: d).
Proof.
  induction a as [|x a IH]; cbn; intros b c e d E; [right; exists c; auto|].
  destruct c as [|y c]; cbn in E; injection E as -> E; [left; exists a; auto|].
  apply IH in E as [[t [-> ->]]|[t [-> ->]]]; [left|right]; exists t; auto.
Qed.

(** Every event is caused by a step. *)
Lemma split_step h l1 e l2 : tr (final h) = l1 ++ e :: l2 ->
  exists h1 h2 s' k1 k2 t, h = h1 ++ h2 /\ step (final h1) s' /\ tr s' = tr (final h1) ++ k1 ++ e :: k2 /\ l1 = tr (final h1) ++ k1 /\ l2 = k2 ++ t
    /\ (exists l h3, h2 = l :: h3 /\ s' = next (final h1) l).
Proof.
  revert l2. induction h as [|l h IH] using rev_ind; intros l2 E.
  - destruct l1; discriminate.
  - rewrite final_snoc in E. destruct (next_step (final h) l) as [EQ|S].
    + rewrite EQ in E. destruct (IH _ E) as (h1 & h2 & s' & k1 & k2 & t & -> & ST & T & L1 & L2 & l0 & h3 & -> & EL).
      exists h1, ((l0 :: h3) ++ [l]), s', k1, k2, t. rewrite app_assoc. repeat split; try assumption. exists l0, (h3 ++ [l]). auto.
    + destruct (step_tr _ _ S) as [k K]. rewrite K in E. apply app_split in E as [[t [E1 E2]]|[t [E1 E2]]].
      * destruct (IH _ E1) as (h1 & h2 & s' & k1 & k2 & t' & -> & ST & T & L1 & L2 & l0 & h3 & -> & EL).
        exists h1, ((l0 :: h3) ++ [l]), s', k1, k2, (t' ++ k). rewrite app_assoc. repeat split; try assumption; [|exists l0, (h3 ++ [l]); auto].
        rewrite E2, L2, app_assoc. reflexivity.
      * exists h, [l], (next (final h) l), t, l2, []. rewrite K, E2, E1, app_nil_r. repeat split; [exact S|]. exists l, []. auto.
Qed.

Lemma joined_in l id o : joined l id = Some o -> exists a, In (EJoin a id o) l.
Proof.
  induction l as [|e l IH] using rev_ind; [discriminate|]. rewrite joined_snoc.
  assert (R : joined l id = Some o -> exists a, In (EJoin a id o) (l ++ [e])) by (intros H; destruct (IH H) as [a I]; exists a; apply in_app_iff; auto).
  destruct e; try exact R.
  - destruct (Nat.eqb_spec id0 id) as [->|]; [|exact R]. intros [= ->]. exists a. apply in_app_iff. right. left. reflexivity.
  - destruct (Nat.eqb_spec id0 id) as [->|]; [discriminate|exact R].
Qed.

Lemma id_snoc s x o tb ag lk t : o < length (objs s) -> id_of (St (objs s ++ [x]) tb ag lk t) o = id_of s o.
Proof. intros L. unfold id_of. cbn. rewrite nth_snoc. destruct (Nat.eqb_spec o (length (objs s))); [lia|reflexivity]. Qed.
Lemma id_closed s o b o' : nth_error (map oid (objs (set_closed s o b))) o' = nth_error (map oid (objs s)) o'.
Proof.
  unfold set_closed. destruct (nth_error (objs s) o) as [x|] eqn:N; [|reflexivity]. cbn. rewrite !nth_error_map, (nth_set _ _ _ _ _ N).
  destruct (Nat.eqb_spec o o') as [<-|]; [rewrite N|]; reflexivity.
Qed.
Lemma id_handlers s o b o' : nth_error (map oid (objs (set_handlers s o b))) o' = nth_error (map oid (objs s)) o'.
Proof.
  unfold set_handlers. destruct (nth_error (objs s) o) as [x|] eqn:N; [|reflexivity]. cbn. rewrite !nth_error_map, (nth_set _ _ _ _ _ N).
  destruct (Nat.eqb_spec o o') as [<-|]; [rewrite N|]; reflexivity.
Qed.
Lemma id_map s o : id_of s o = match nth_error (map oid (objs s)) o with Some i => i | None => 0 end.
Proof. unfold id_of. rewrite nth_error_map. destruct (nth_error (objs s) o); reflexivity. Qed.

(** The id of a processor never changes. *)
Lemma id_step s s' o : step s s' -> o < length (objs s) -> id_of s' o = id_of s o.
Proof.
  intros S L. inversion S; subst; try reflexivity; try (apply id_snoc; exact L).
  - rewrite !id_map. cbn. rewrite id_closed. reflexivity.
  - rewrite !id_map. cbn. rewrite id_closed. reflexivity.
  - rewrite !id_map. cbn. rewrite id_handlers. reflexivity.
  - rewrite !id_map. cbn. rewrite id_handlers. reflexivity.
Qed.

(** The call that creates a processor. *)
Definition owner (x : call * pc) : option nat :=
  match x with (KCreate _, PAdd o) | (KCreate _, PRet (RProc o)) => Some o | _ => None end.
Record owns (s : state) : Prop := {
  ow_unique : forall a b x y o, nth_error (agents s) a = Some x -> nth_error (agents s) b = Some y -> owner x = Some o -> owner y = Some o -> a = b;
  ow_id : forall a id p o, nth_error (agents s) a = Some (KCreate id, p) -> owner (KCreate id, p) = Some o -> o < length (objs s) /\ id_of s o = id;
  ow_add : forall a id o, nth_error (agents s) a = Some (KCreate id, PAdd o) -> id <> 0;
  ow_kind : forall a c o, nth_error (agents s) a = Some (c, PAdd o) -> exists id, c = KCreate id;
  ow_new : forall a id o, nth_error (agents s) a = Some (KCreate id, PAdd o) -> (forall b c, nth_error (agents s) b <> Some (c, PRet (RProc o))) /\ (forall i, ~ In (i, o) (table s)) /\ (forall b i, ~ In (EJoin b i o) (tr s));
  ow_leave : forall a id o, In (ELeave a id o) (tr s) -> exists b, In (EJoin b id o) (tr s);
  ow_join : forall a id o, In (EJoin a id o) (tr s) -> id <> 0 /\ nth_error (agents s) a = Some (KCreate id, PRet (RProc o));
  ow_table : forall id o, In (id, o) (table s) -> id <> 0 /\ id_of s o = id /\ exists a, nth_error (agents s) a = Some (KCreate id, PRet (RProc o));
  ow_given : forall a c o, nth_error (agents s) a = Some (c, PRet (RProc o)) -> exists b id, nth_error (agents s) b = Some (KCreate id, PRet (RProc o))
}.

Ltac look N := cbn in N; rewrite ?nth_snoc, ?length_set_nth in N; try (erewrite nth_set in N by eassumption);
  repeat match type of N with context [if Nat.eqb ?x ?y then _ else _] => destruct (Nat.eqb_spec x y); subst end; try discriminate N.

Lemma owner_step s s' a x o : step s s' -> nth_error (agents s') a = Some x -> owner x = Some o ->
  (exists y, nth_error (agents s) a = Some y /\ owner y = Some o /\ fst y = fst x) \/
  (o = length (objs s) /\ (exists id q, x = (KCreate id, q) /\ nth_error (agents s) a = Some (KCreate id, PStart) /\ objs s' = objs s ++ [Proc id false []]) /\
   forall b, b <> a -> nth_error (agents s') b = nth_error (agents s) b).
Proof.
  intros S N O. inversion S; subst; look N; try solve [left; eauto];
    try (injection N as <-); cbn in O; try discriminate O; try solve [left; eexists; split; [eassumption|split; [exact O|reflexivity]]].
  - destruct c; discriminate O.
  - injection O as <-. right. split; [reflexivity|]. split; [eauto|]. intros b D. cbn. apply nth_set_other. auto.
  - injection O as <-. right. split; [reflexivity|]. split; [eauto|]. intros b D. cbn. apply nth_set_other. auto.
Qed.

Lemma objs_step s s' : step s s' -> length (objs s') = length (objs s) \/ exists x, objs s' = objs s ++ [x].
Proof. intros S. inversion S; subst; cbn; rewrite ?set_closed_length, ?set_handlers_length; eauto. Qed.

Lemma add_step s s' a c o : step s s' -> nth_error (agents s') a = Some (c, PAdd o) ->
  nth_error (agents s) a = Some (c, PAdd o) \/ exists id, c = KCreate id /\ id <> 0 /\ o = length (objs s) /\ tr s' = tr s /\ table s' = table s /\ nth_error (agents s) a = Some (c, PStart) /\ get id (table s) = None.
Proof.
  intros S N. inversion S; subst; look N; auto. injection N as <- <-. right. exists id. auto 8.
Qed.

(** Who returns a processor. *)
Lemma proc_step s s' a c o : step s s' -> nth_error (agents s') a = Some (c, PRet (RProc o)) ->
  nth_error (agents s) a = Some (c, PRet (RProc o)) \/ (exists id, c = KCreate id /\ (nth_error (agents s) a = Some (c, PAdd o) \/ o = length (objs s) /\ id = 0 /\ nth_error (agents s) a = Some (c, PStart)))
  \/ (exists id, c = KFind id /\ In (id, o) (table s)).
Proof.
  intros S N. inversion S; subst; look N; auto; try (injection N as <- N); try discriminate N; try (subst; eauto 8; fail).
  destruct (get id (table s)) eqn:G; [|discriminate]. injection N as <-. apply get_in in G. eauto 8.
Qed.

Lemma owns_final h : owns (final h).
Proof.
  revert h. refine (state_ind owns _ _).
  { split; intros; try contradiction; try (destruct a; discriminate). }
  intros h s' [OU OI OA OK ON OL OJ OT OG] S. pose proof (bounds_final h) as BD.
  assert (PR : forall a c r, nth_error (agents (final h)) a = Some (c, PRet r) -> nth_error (agents s') a = Some (c, PRet r)).
  { intros a c r N. destruct (step_shape _ _ S) as [c0 C A T|a0 c0 p0 p' k N0 NP NP' A T Q|a0 c0 p0 k r0 N0 NP A T Q|a0 self m i N0 A T]; rewrite A.
    - rewrite nth_snoc. destruct (Nat.eqb_spec a (length (agents (final h)))); [apply nth_lt in N; lia|exact N].
    - rewrite (nth_set _ _ _ _ _ N0). destruct (Nat.eqb_spec a0 a) as [<-|]; [rewrite N0 in N; injection N as <- ->; destruct (NP _ eq_refl)|exact N].
    - rewrite (nth_set _ _ _ _ _ N0). destruct (Nat.eqb_spec a0 a) as [<-|]; [rewrite N0 in N; injection N as <- ->; destruct (NP _ eq_refl)|exact N].
    - rewrite nth_snoc, length_set_nth, (nth_set _ _ _ _ _ N0). destruct (Nat.eqb_spec a (length (agents (final h)))); [apply nth_lt in N; lia|].
      destruct (Nat.eqb_spec a0 a) as [<-|]; [rewrite N0 in N; discriminate|exact N]. }
  assert (LT : forall a x o, nth_error (agents (final h)) a = Some x -> owner x = Some o -> o < length (objs (final h))).
  { intros a [c p] o N O. destruct c; try discriminate O. destruct p as [|o1| | | | | | |[|o1| |]]; try discriminate O; injection O as ->; [eapply b_add; eauto|eapply b_ret; eauto]. }
  split.
  - intros a b x y o NA NB XA XB.
    destruct (owner_step _ _ _ _ _ S NA XA) as [(y0 & Y0 & Y1 & _)|(E0 & _ & F0)]; destruct (owner_step _ _ _ _ _ S NB XB) as [(z0 & Z0 & Z1 & _)|(E1 & _ & F1)].
    + eauto.
    + pose proof (LT _ _ _ Y0 Y1). lia.
    + pose proof (LT _ _ _ Z0 Z1). lia.
    + destruct (Nat.eq_dec a b) as [|D]; [assumption|]. rewrite F0 in NB by auto. pose proof (LT _ _ _ NB XB). lia.
  - intros a id p o N O. destruct (owner_step _ _ _ _ _ S N O) as [([c0 p0] & Y0 & Y1 & Y2)|(E0 & (id0 & q & E1 & _ & E2) & _)].
    + cbn in Y2. subst c0. destruct (OI _ _ _ _ Y0 Y1) as [A B]. split; [pose proof (step_objs_length _ _ S); lia|]. rewrite (id_step _ _ _ S A). exact B.
    + injection E1 as <- <-. rewrite E2, app_length. cbn. split; [lia|]. unfold id_of. rewrite E2, nth_snoc, E0, Nat.eqb_refl. reflexivity.
  - intros a id o N. destruct (add_step _ _ _ _ _ S N) as [N'|(id' & [= <-] & I & _)]; eauto.
  - intros a c o N. destruct (add_step _ _ _ _ _ S N) as [N'|(id' & -> & I & _)]; eauto.
  - intros a id o N. destruct (add_step _ _ _ _ _ S N) as [N'|(id' & [= <-] & I & E & ET & EB & NS & _)].
    + destruct (ON _ _ _ N') as (A & B & C). repeat split.
      * intros b c NB. destruct (proc_step _ _ _ _ _ S NB) as [NB'|[(i & -> & [NB'|(E1 & E2 & NB')])|(i & -> & TB)]].
        -- exact (A _ _ NB').
        -- assert (a = b) by (eapply OU; [exact N'|exact NB'|reflexivity|reflexivity]). subst b. rewrite N in NB. discriminate.
        -- apply LT with (o := o) in N'; [lia|reflexivity].
        -- exact (B _ TB).
      * intros i TB. inversion S; subst; cbn in TB; try (exact (B _ TB)).
        -- apply in_snoc_list in TB as [TB|[= -> ->]]; [exact (B _ TB)|].
           assert (a = a0) by (eapply OU; [exact N'|exact H|reflexivity|reflexivity]). subst a0. look N. contradiction.
        -- apply del_in in TB. exact (B _ TB).
      * intros b i J. inversion S; subst; cbn in J; rewrite ?in_app_iff in J;
          repeat match type of J with _ \/ _ => destruct J as [J|J] end; try (exact (C _ _ J)); try discriminate J; try contradiction; cbn in J;
          repeat match type of J with _ \/ _ => destruct J as [J|J] end; try discriminate J; try contradiction;
          try (apply in_map_iff in J as [? [J _]]; discriminate J); try (unfold told in J; apply in_map_iff in J as [? [J _]]; discriminate J).
        -- unfold informed in J. destruct (takes _ _ _); [apply in_map_iff in J as [? [J _]]; discriminate J|contradiction].
        -- injection J as -> -> ->. assert (a = b) by (eapply OU; [exact N'|exact H|reflexivity|reflexivity]). subst b. look N. contradiction.
    + subst o. rewrite ET, EB. repeat split.
      * intros b c NB. destruct (proc_step _ _ _ _ _ S NB) as [NB'|[(i & -> & [NB'|(E1 & E2 & NB')])|(i & -> & TB)]].
        -- pose proof (b_ret _ BD _ _ _ NB'). lia.
        -- pose proof (b_add _ BD _ _ _ NB'). lia.
        -- inversion S; subst; look NB; look N; try congruence.
        -- pose proof (b_table _ BD _ _ TB). lia.
      * intros i TB. pose proof (b_table _ BD _ _ TB). lia.
      * intros b i J. destruct (OJ _ _ _ J) as [_ J']. pose proof (b_ret _ BD _ _ _ J'). lia.
  - intros a id o J. assert (HH : (exists b, In (EJoin b id o) (tr (final h))) -> exists b, In (EJoin b id o) (tr s')).
    { destruct (step_tr _ _ S) as [k ->]. intros [b B]. exists b. apply in_app_iff. auto. }
    assert (EL : In (ELeave a id o) (tr (final h)) \/ joined (tr (final h)) id = Some o).
    { inversion S; subst; cbn in J; rewrite ?in_app_iff in J;
      repeat match type of J with _ \/ _ => destruct J as [J|J] end; try (left; exact J); try discriminate J; try contradiction; cbn in J;
      repeat match type of J with _ \/ _ => destruct J as [J|J] end; try discriminate J; try contradiction;
      try (apply in_map_iff in J as [? [J _]]; discriminate J); try (unfold told in J; apply in_map_iff in J as [? [J _]]; discriminate J).
      - unfold informed in J. destruct (takes _ _ _); [apply in_map_iff in J as [? [J _]]; discriminate J|contradiction].
      - injection J as -> <- ->. right. rewrite <- table_joined. assumption. }
    destruct EL as [EL|EL]; [eauto|]. apply joined_in in EL. eauto.
  - intros a id o J. inversion S; subst; cbn in J; rewrite ?in_app_iff in J;
      repeat match type of J with _ \/ _ => destruct J as [J|J] end; try (destruct (OJ _ _ _ J) as [J1 J2]; split; [exact J1|apply PR; exact J2]); try discriminate J; try contradiction; cbn in J;
      repeat match type of J with _ \/ _ => destruct J as [J|J] end; try discriminate J; try contradiction;
      try (apply in_map_iff in J as [? [J _]]; discriminate J); try (unfold told in J; apply in_map_iff in J as [? [J _]]; discriminate J).
    + unfold informed in J. destruct (takes _ _ _); [apply in_map_iff in J as [? [J _]]; discriminate J|contradiction].
    + injection J as -> -> ->. split; [eauto|]. cbn. rewrite (nth_set _ _ _ _ _ H), Nat.eqb_refl. reflexivity.
  - intros id o TB. assert (HH : In (id, o) (table (final h)) -> id <> 0 /\ id_of s' o = id /\ exists a, nth_error (agents s') a = Some (KCreate id, PRet (RProc o))).
    { intros I. destruct (OT _ _ I) as (A & B & a & C). split; [exact A|]. split; [rewrite (id_step _ _ _ S (b_table _ BD _ _ I)); exact B|eauto]. }
    inversion S; subst; cbn in TB; try exact (HH TB).
    + apply in_snoc_list in TB as [TB|[= -> ->]]; [exact (HH TB)|]. split; [eauto|]. destruct (OI _ _ _ _ H eq_refl) as [L E].
      split; [rewrite (id_step _ _ _ S L); exact E|]. exists a. cbn. rewrite (nth_set _ _ _ _ _ H), Nat.eqb_refl. reflexivity.
    + apply del_in in TB. exact (HH TB).
  - intros a c o N. destruct (proc_step _ _ _ _ _ S N) as [N'|[(i & -> & N')|(i & -> & TB)]].
    + destruct (OG _ _ _ N') as (b & id & B). eauto.
    + eauto.
    + destruct (OT _ _ TB) as (_ & _ & b & B). eauto.
Qed.
