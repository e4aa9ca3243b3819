(** csmgmt: every call can come to its end; where null pointers come from. *)
From Verif Require Import ListUtil FacModel FacSpec FacProofs FacProofs2 FacProofs3 FacProofs4 FacProofs5.

Definition only_steps (h : history) : Prop := forall l, In l h -> exists t ok, l = LStep t ok.
Lemma only_nil : only_steps []. Proof. intros l []. Qed.
Lemma only_one t ok : only_steps [LStep t ok]. Proof. intros l [<-|[]]. eauto. Qed.
Lemma only_app h1 h2 : only_steps h1 -> only_steps h2 -> only_steps (h1 ++ h2).
Proof. intros H1 H2 l Hl. apply in_app_iff in Hl as [Hl|Hl]; auto. Qed.

Lemma finish_closing acts : forall h t rs r rest, nth_error (calls (final h)) t = Some (CShut rs, PClosing r acts rest) ->
  exists h', only_steps h' /\ nth_error (calls (final (h ++ h'))) t = Some (CShut rs, PShut rest) /\
    locked (side (final (h ++ h')) r) = false /\
    forall u, u <> t -> nth_error (calls (final (h ++ h'))) u = nth_error (calls (final h)) u.
Proof.
  induction acts as [|[o|o] acts IH]; intros h t rs r rest Hn; assert (Hlt := nth_lt _ _ _ Hn).
  - exists [LStep t true]. rewrite final_snoc. cbn [step]. rewrite Hn. cbn [fst]. split; [apply only_one|]. rewrite calls_at2.
    split; [apply nth_set_same; exact Hlt|]. split; [rewrite side_set, role_eqb_refl; reflexivity|].
    intros u Hu. apply nth_set_other. congruence.
  - destruct (IH (h ++ [LStep t true]) t rs r rest) as (h' & A & B & C & D).
    { rewrite final_snoc. cbn [step]. rewrite Hn. cbn [fst]. rewrite calls_at. apply nth_set_same. exact Hlt. }
    exists ([LStep t true] ++ h'). rewrite app_assoc. split; [apply only_app; [apply only_one|exact A]|]. split; [exact B|].
    split; [exact C|]. intros u Hu. rewrite D by exact Hu. rewrite final_snoc. cbn [step]. rewrite Hn. cbn [fst]. rewrite calls_at.
    apply nth_set_other. congruence.
  - destruct (IH (h ++ [LStep t true]) t rs r rest) as (h' & A & B & C & D).
    { rewrite final_snoc. cbn [step]. rewrite Hn. destruct (deinit r (side (final h) r) o). cbn [fst]. rewrite calls_at2.
      apply nth_set_same. exact Hlt. }
    exists ([LStep t true] ++ h'). rewrite app_assoc. split; [apply only_app; [apply only_one|exact A]|]. split; [exact B|].
    split; [exact C|]. intros u Hu. rewrite D by exact Hu. rewrite final_snoc. cbn [step]. rewrite Hn.
    destruct (deinit r (side (final h) r) o). cbn [fst]. rewrite calls_at2. apply nth_set_other. congruence.
Qed.

Lemma unlock h r t c p : nth_error (calls (final h)) t = Some (c, p) -> (forall acts rest, p <> PClosing r acts rest) ->
  exists h', only_steps h' /\ locked (side (final (h ++ h')) r) = false /\ nth_error (calls (final (h ++ h'))) t = Some (c, p).
Proof.
  intros Hn Hp. destruct (locked (side (final h) r)) eqn:L.
  - destruct (z_who _ _ (close_final h) _ L) as (u & acts & rs & rest & Hu).
    destruct (finish_closing _ _ _ _ _ _ Hu) as (h' & A & B & C & D). exists h'. split; [exact A|]. split; [exact C|].
    rewrite D; [exact Hn|]. intros ->. rewrite Hn in Hu. inversion Hu; subst. eapply Hp. reflexivity.
  - exists []. rewrite app_nil_r. split; [apply only_nil|auto].
Qed.

Definition can_end (h : history) (t : nat) (c : call) : Prop :=
  exists h', only_steps h' /\ nth_error (calls (final (h ++ h'))) t = Some (c, PDone).
Lemma can_later h h' t c : only_steps h' -> can_end (h ++ h') t c -> can_end h t c.
Proof.
  intros H (h2 & A & B). exists (h' ++ h2). rewrite app_assoc. split; [apply only_app; assumption|exact B].
Qed.

Lemma have_ends h t r ty a sid o : nth_error (calls (final h)) t = Some (CGet r ty a sid, PHave o) -> can_end h t (CGet r ty a sid).
Proof.
  intro Hn. assert (Hlt := nth_lt _ _ _ Hn). exists [LStep t true]. split; [apply only_one|]. rewrite final_snoc. cbn [step].
  rewrite Hn. unfold get_kid. cbv zeta. destruct (kid_of o sid (kids (side (final h) r))); cbn [fst];
    rewrite ?calls_at2, ?calls_at; apply nth_set_same; exact Hlt.
Qed.
Lemma get_ends h t r ty a sid : nth_error (calls (final h)) t = Some (CGet r ty a sid, PStart) -> can_end h t (CGet r ty a sid).
Proof.
  intro Hn. destruct (unlock h r t _ _ Hn) as (h1 & A & L & Hn1); [congruence|]. apply (can_later _ _ _ _ A).
  clear Hn. set (g := h ++ h1) in *. clearbody g. assert (Hlt := nth_lt _ _ _ Hn1).
  assert (Hs : fst (step (final g) (LStep t true)) = fst (get_object (final g) t r ty a sid true)).
  { cbn [step]. rewrite Hn1, L. reflexivity. }
  assert (Hx : (exists o, nth_error (calls (final (g ++ [LStep t true]))) t = Some (CGet r ty a sid, PHave o)) \/
               nth_error (calls (final (g ++ [LStep t true]))) t = Some (CGet r ty a sid, PDone)).
  { rewrite final_snoc, Hs. unfold get_object. cbv zeta. destruct (lookup ty a (memo (side (final g) r))) as [o|].
    - left. exists o. cbn [fst]. rewrite calls_at. apply nth_set_same. exact Hlt.
    - destruct ty; cbn [fst]; rewrite ?calls_at2, ?calls_at; [left|left|right]; try eexists; apply nth_set_same; exact Hlt. }
  apply (can_later g [LStep t true]); [apply only_one|]. destruct Hx as [[o Hx]|Hx].
  - exact (have_ends _ _ _ _ _ _ _ Hx).
  - exists []. rewrite app_nil_r. split; [apply only_nil|exact Hx].
Qed.
Lemma shut_ends l : forall h t rs, nth_error (calls (final h)) t = Some (CShut rs, PShut l) -> can_end h t (CShut rs).
Proof.
  induction l as [|r l IH]; intros h t rs Hn.
  - assert (Hlt := nth_lt _ _ _ Hn). exists [LStep t true]. split; [apply only_one|]. rewrite final_snoc. cbn [step]. rewrite Hn.
    cbn [fst]. rewrite calls_at. apply nth_set_same. exact Hlt.
  - destruct (unlock h r t _ _ Hn) as (h1 & A & L & Hn1); [congruence|]. apply (can_later _ _ _ _ A).
    clear Hn. set (g := h ++ h1) in *. clearbody g. assert (Hlt := nth_lt _ _ _ Hn1).
    apply (can_later g [LStep t true]); [apply only_one|].
    destruct (finish_closing (plan (memo (side (final g) r))) (g ++ [LStep t true]) t rs r l) as (h2 & A2 & B2 & _).
    { rewrite final_snoc. cbn [step]. rewrite Hn1, L. cbn [fst]. rewrite calls_at2. apply nth_set_same. exact Hlt. }
    apply (can_later _ _ _ _ A2). apply IH. exact B2.
Qed.
Lemma call_ends h t c : call_no h t = Some c -> can_end h t c.
Proof.
  intro Hc. destruct (call_pc _ _ _ Hc) as [p Hn]. assert (C := i_calls _ _ (inv_final h)).
  assert (Hdone : p = PDone -> can_end h t c).
  { intros ->. exists []. rewrite app_nil_r. split; [apply only_nil|exact Hn]. }
  destruct c as [r ty a sid|rs].
  - pose proof (c_kind _ _ C _ _ _ _ _ _ Hn) as Hk. destruct p; try contradiction; auto.
    + exact (get_ends _ _ _ _ _ _ Hn).
    + exact (have_ends _ _ _ _ _ _ _ Hn).
  - pose proof (c_skind _ _ C _ _ _ Hn) as Hk. destruct p; try contradiction; auto.
    + assert (Hlt := nth_lt _ _ _ Hn). apply (can_later h [LStep t true]); [apply only_one|]. apply (shut_ends rs). rewrite final_snoc.
      cbn [step]. rewrite Hn. cbn [fst]. rewrite calls_at. apply nth_set_same. exact Hlt.
    + exact (shut_ends _ _ _ _ Hn).
    + destruct (finish_closing _ _ _ _ _ _ Hn) as (h2 & A2 & B2 & _). apply (can_later _ _ _ _ A2). exact (shut_ends _ _ _ _ B2).
Qed.

(** ** Null pointers *)
Lemma null_why h : forall l1 t l2, trace h = l1 ++ EGot t None :: l2 ->
  exists r ty a sid, call_no h t = Some (CGet r ty a sid) /\
    (ty = OtherType \/ ty = LocalIpc /\ exists o l0, l1 = l0 ++ [EInit r LocalIpc a o false]).
Proof.
  apply (history_ind (fun h _ tr => forall l1 t l2, tr = l1 ++ EGot t None :: l2 ->
    exists r ty a sid, call_no h t = Some (CGet r ty a sid) /\
      (ty = OtherType \/ ty = LocalIpc /\ exists o l0, l1 = l0 ++ [EInit r LocalIpc a o false]))).
  - intros [|] ? ? E; discriminate.
  - intros h0 l s' ev IH Hp Es Ev l1 t l2 E.
    assert (Hmono : forall u c, call_no h0 u = Some c -> call_no (h0 ++ [l]) u = Some c).
    { intros u c Hu. unfold call_no in *. rewrite calls_made_snoc, nth_error_app1; [exact Hu|]. eapply nth_lt; eauto. }
    apply app_split in E as [[l2' E]|[l3 [-> E]]].
    + destruct (IH _ _ _ E) as (r & ty & a & sid & Hc & Hx). exists r, ty, a, sid. auto.
    + clear IH Es Ev. assert (Hone : forall e, ev = [e] -> l3 = [] /\ e = EGot t None).
      { intros e ->. destruct l3 as [|x [|]]; inversion E; auto. }
      assert (Htwo : forall e1 e2, ev = [e1; e2] -> e1 = EGot t None \/ l3 = [e1] /\ e2 = EGot t None).
      { intros e1 e2 ->. destruct l3 as [|x [|y [|]]]; inversion E; auto. }
      destruct Hp; try (destruct l3; discriminate);
        try (destruct (Hone _ eq_refl) as [-> Hx]; try discriminate Hx; inversion Hx; subst);
        try (destruct (Htwo _ _ eq_refl) as [Hx|[-> Hx]]; try discriminate Hx; inversion Hx; subst).
      * exists r, LocalIpc, a, sid. split; [apply Hmono; eapply pc_call; eauto|]. right. eauto.
      * exists r, OtherType, a, sid. split; [apply Hmono; eapply pc_call; eauto|]. auto.
      * exfalso. assert (Hin : In (EGot t None) (map (fun x => EDown r (snd x)) (filter (own o) (kids (side (final h0) r))) ++ [EDeinit r o])).
        { rewrite E. apply in_or_app. right. now left. }
        apply in_app_iff in Hin as [Hin|[Hin|[]]]; [|discriminate]. apply down_in in Hin as [x [_ Hx]]. discriminate.
Qed.
