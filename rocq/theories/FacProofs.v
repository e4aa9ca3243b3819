(** csmgmt: the steps as a relation, and the invariant about clients (servers) and the factories' maps. *)
From Verif Require Import ListUtil FacModel FacSpec.

Lemma run_app s h1 h2 : run s (h1 ++ h2) = let (s1, e1) := run s h1 in let (s2, e2) := run s1 h2 in (s2, e1 ++ e2).
Proof.
  revert s. induction h1 as [|l h1 IH]; intro s; cbn [run app].
  - destruct (run s h2); reflexivity.
  - destruct (step s l) as [s1 e1]. rewrite IH. destruct (run s1 h1) as [s2 e2]. destruct (run s2 h2) as [s3 e3].
    rewrite app_assoc. reflexivity.
Qed.
Lemma final_snoc h l : final (h ++ [l]) = fst (step (final h) l).
Proof. unfold final. rewrite run_app. destruct (run st_new h) as [s e]. cbn [run fst]. destruct (step s l). reflexivity. Qed.
Lemma trace_snoc h l : trace (h ++ [l]) = trace h ++ snd (step (final h) l).
Proof.
  unfold trace, final. rewrite run_app. destruct (run st_new h) as [s e]. cbn [run fst snd]. destruct (step s l).
  cbn [snd]. rewrite app_nil_r. reflexivity.
Qed.
Lemma trace_app h1 h2 : exists ev, trace (h1 ++ h2) = trace h1 ++ ev.
Proof.
  unfold trace. rewrite run_app. destruct (run st_new h1) as [s e]. destruct (run s h2) as [s2 e2]. exists e2. reflexivity.
Qed.

Lemma role_eqb_refl r : role_eqb r r = true. Proof. destruct r; reflexivity. Qed.
Lemma role_eqb_eq r r' : role_eqb r r' = true -> r = r'. Proof. destruct r, r'; cbn; congruence. Qed.
Lemma role_neq r r' : role_eqb r r' = false -> r <> r'. Proof. destruct r, r'; cbn; congruence. Qed.
Lemma ctype_eqb_refl c : ctype_eqb c c = true. Proof. destruct c; reflexivity. Qed.
Lemma ctype_eqb_eq c c' : ctype_eqb c c' = true -> c = c'. Proof. destruct c, c'; cbn; congruence. Qed.

(** What a step can be. *)
Inductive pstep (s : st) : label -> st -> list event -> Prop :=
| XIdle l : pstep s l s []
| XCall c : pstep s (LCall c) (St (side s) (calls s ++ [(c, PStart)])) []
| XFound t ok r ty a sid o : nth_error (calls s) t = Some (CGet r ty a sid, PStart) -> locked (side s r) = false ->
    lookup ty a (memo (side s r)) = Some o ->
    pstep s (LStep t ok) (at_pc s t (CGet r ty a sid) (PHave o)) []
| XNew t ok r ty a sid o n : nth_error (calls s) t = Some (CGet r ty a sid, PStart) -> locked (side s r) = false ->
    lookup ty a (memo (side s r)) = None ->
    (ty = Itc /\ o = 0 /\ n = nobjs (side s r)) \/ (ty = LocalIpc /\ o = nobjs (side s r) /\ n = S o) ->
    pstep s (LStep t ok) (at_pc (set_side s r (add_memo (side s r) ty a o n)) t (CGet r ty a sid) (PHave o))
          [EInit r ty a o true; EStart r o]
| XFail t ok r a sid o : nth_error (calls s) t = Some (CGet r LocalIpc a sid, PStart) -> locked (side s r) = false ->
    o = nobjs (side s r) ->
    pstep s (LStep t ok) (at_pc (set_side s r (set_nobjs (side s r) (S o))) t (CGet r LocalIpc a sid) PDone)
          [EInit r LocalIpc a o false; EGot t None]
| XOther t ok r a sid : nth_error (calls s) t = Some (CGet r OtherType a sid, PStart) ->
    pstep s (LStep t ok) (at_pc s t (CGet r OtherType a sid) PDone) [EGot t None]
| XKid t ok r ty a sid o k : nth_error (calls s) t = Some (CGet r ty a sid, PHave o) ->
    kid_of o sid (kids (side s r)) = Some k ->
    pstep s (LStep t ok) (at_pc s t (CGet r ty a sid) PDone) [EGot t (Some k)]
| XMade t ok r ty a sid o k : nth_error (calls s) t = Some (CGet r ty a sid, PHave o) ->
    kid_of o sid (kids (side s r)) = None -> k = nkids (side s r) ->
    pstep s (LStep t ok) (at_pc (set_side s r (add_kid (side s r) o sid)) t (CGet r ty a sid) PDone)
          [EMade r k o sid; EGot t (Some k)]
| XShut t ok rs : nth_error (calls s) t = Some (CShut rs, PStart) ->
    pstep s (LStep t ok) (at_pc s t (CShut rs) (PShut rs)) []
| XEnd t ok rs : nth_error (calls s) t = Some (CShut rs, PShut []) ->
    pstep s (LStep t ok) (at_pc s t (CShut rs) PDone) [EShut t]
| XLock t ok rs r rest : nth_error (calls s) t = Some (CShut rs, PShut (r :: rest)) -> locked (side s r) = false ->
    pstep s (LStep t ok)
      (at_pc (set_side s r (set_locked (side s r) true)) t (CShut rs) (PClosing r (plan (memo (side s r))) rest)) []
| XStop t ok rs r o acts rest : nth_error (calls s) t = Some (CShut rs, PClosing r (AStop o :: acts) rest) ->
    pstep s (LStep t ok) (at_pc s t (CShut rs) (PClosing r acts rest)) [EStop r o]
| XDeinit0 t ok rs r acts rest : nth_error (calls s) t = Some (CShut rs, PClosing r (ADeinit 0 :: acts) rest) ->
    pstep s (LStep t ok) (at_pc (set_side s r (side s r)) t (CShut rs) (PClosing r acts rest)) [EDeinit r 0]
| XDeinit t ok rs r o acts rest : nth_error (calls s) t = Some (CShut rs, PClosing r (ADeinit o :: acts) rest) -> 1 <= o ->
    pstep s (LStep t ok)
      (at_pc (set_side s r (FS (locked (side s r)) (memo (side s r)) (nobjs (side s r))
                               (filter (fun x => negb (own o x)) (kids (side s r))) (nkids (side s r))))
             t (CShut rs) (PClosing r acts rest))
      (map (fun x => EDown r (snd x)) (filter (own o) (kids (side s r))) ++ [EDeinit r o])
| XUnlock t ok rs r rest : nth_error (calls s) t = Some (CShut rs, PClosing r [] rest) ->
    pstep s (LStep t ok)
      (at_pc (set_side s r (set_locked (match r with Client => side s r | Server => clear_memo (side s r) end) false))
             t (CShut rs) (PShut rest)) [].

Lemma step_pstep s l : pstep s l (fst (step s l)) (snd (step s l)).
Proof.
  destruct l as [c|t ok]; cbn [step].
  { apply XCall. }
  destruct (nth_error (calls s) t) as [[[r ty a sid|rs] p]|] eqn:E; [| |apply XIdle].
  - destruct p as [|o|rs|r' acts rs|]; try apply XIdle.
    + destruct (locked (side s r)) eqn:L; [apply XIdle|]. unfold get_object. cbv zeta.
      destruct (lookup ty a (memo (side s r))) as [o|] eqn:F; [now apply XFound|].
      destruct ty; [eapply XNew; eauto | destruct ok; [eapply XNew; eauto|now apply XFail] | now apply XOther].
    + unfold get_kid. cbv zeta. destruct (kid_of o sid (kids (side s r))) as [k|] eqn:F; [eapply XKid; eauto|].
      now eapply XMade.
  - destruct p as [|o|[|r rest]|r [|[o|o] acts] rest|]; try apply XIdle.
    + now apply XShut.
    + now apply XEnd.
    + destruct (locked (side s r)) eqn:L; [apply XIdle|now apply XLock].
    + now apply XUnlock.
    + now apply XStop.
    + unfold deinit. destruct o as [|o]; cbv iota; [apply XDeinit0; exact E|].
      now apply XDeinit; [exact E|apply le_n_S, Nat.le_0_l].
Qed.

Lemma history_ind (P : history -> st -> list event -> Prop) :
  P [] st_new [] ->
  (forall h l s' ev, P h (final h) (trace h) -> pstep (final h) l s' ev -> s' = final (h ++ [l]) -> ev = snd (step (final h) l) ->
     P (h ++ [l]) s' (trace h ++ ev)) ->
  forall h, P h (final h) (trace h).
Proof.
  intros H0 HS h. induction h as [|l h IH] using rev_ind; [exact H0|].
  rewrite trace_snoc, final_snoc. apply HS; [exact IH|apply step_pstep|rewrite final_snoc; reflexivity|reflexivity].
Qed.

(** ** The maps *)
Lemma lookup_in ty a o m : lookup ty a m = Some o -> In (ty, a, o) m.
Proof.
  induction m as [|[[ty' a'] o'] m IH]; cbn [lookup]; [discriminate|].
  destruct (ctype_eqb ty ty' && Nat.eqb a a') eqn:E.
  - intro H. apply andb_true_iff in E as [E1 E2]. apply ctype_eqb_eq in E1. apply Nat.eqb_eq in E2. left. congruence.
  - intro H. right. auto.
Qed.
Lemma lookup_none ty a o m : lookup ty a m = None -> ~ In (ty, a, o) m.
Proof.
  induction m as [|[[ty' a'] o'] m IH]; cbn [lookup]; [auto|].
  destruct (ctype_eqb ty ty' && Nat.eqb a a') eqn:E; [discriminate|].
  intros H [H1|H1]; [|now apply IH]. inversion H1; subst. rewrite ctype_eqb_refl, Nat.eqb_refl in E. discriminate.
Qed.
Lemma kid_in o sid k l : kid_of o sid l = Some k -> In (o, sid, k) l.
Proof.
  induction l as [|[[o' sid'] k'] l IH]; cbn [kid_of]; [discriminate|].
  destruct (Nat.eqb o o' && Nat.eqb sid sid') eqn:E.
  - intro H. apply andb_true_iff in E as [E1 E2]. apply Nat.eqb_eq in E1, E2. left. congruence.
  - intro H. right. auto.
Qed.
Lemma kid_none o sid k l : kid_of o sid l = None -> ~ In (o, sid, k) l.
Proof.
  induction l as [|[[o' sid'] k'] l IH]; cbn [kid_of]; [auto|].
  destruct (Nat.eqb o o' && Nat.eqb sid sid') eqn:E; [discriminate|].
  intros H [H1|H1]; [|now apply IH]. inversion H1; subst. rewrite !Nat.eqb_refl in E. discriminate.
Qed.
Lemma own_spec o x : own o x = true <-> fst (fst x) = o.
Proof. unfold own. rewrite Nat.eqb_eq. split; auto. Qed.

Lemma side_set s r f t c p r' : side (at_pc (set_side s r f) t c p) r' = if role_eqb r' r then f else side s r'.
Proof. reflexivity. Qed.
Lemma calls_at s t c p : calls (at_pc s t c p) = set_nth t (c, p) (calls s). Proof. reflexivity. Qed.
Lemma calls_at2 s r f t c p : calls (at_pc (set_side s r f) t c p) = set_nth t (c, p) (calls s). Proof. reflexivity. Qed.
Lemma side_at s t c p r : side (at_pc s t c p) r = side s r. Proof. reflexivity. Qed.

(** Case analysis on an event in a trace that a step extended. *)
Lemma down_in r e l : In e (map (fun x : nat * nat * nat => EDown r (snd x)) l) -> exists x, In x l /\ e = EDown r (snd x).
Proof. intro H. apply in_map_iff in H as [x [H1 H2]]. eauto. Qed.
Ltac dis H :=
  repeat rewrite in_app_iff in H; cbn [In] in H;
  repeat match type of H with
         | _ \/ _ => destruct H as [H|H]
         | False => contradiction H
         end;
  try discriminate H;
  try (let x := fresh "x" in apply in_map_iff in H; destruct H as [x [H _]]; discriminate H).
Ltac add := repeat rewrite in_app_iff; cbn [In]; auto 6.
Ltac sides r' r := let E := fresh "E" in rewrite ?side_set, ?side_at in *; cbn [side] in *;
  destruct (role_eqb r' r) eqn:E; [apply role_eqb_eq in E; subst r'|apply role_neq in E]; cbn [memo nobjs kids nkids locked add_memo set_nobjs set_locked add_kid clear_memo] in *.

(** ** Clients and servers *)
Record objs (s : st) (tr : list event) : Prop := {
  o_memo : forall r ty a o, In (ty, a, o) (memo (side s r)) -> serves tr r ty a o /\ In (EStart r o) tr;
  o_pos : forall r, 1 <= nobjs (side s r);
  o_init : forall r ty a o b, In (EInit r ty a o b) tr ->
    match ty with Itc => o = 0 | LocalIpc => 1 <= o < nobjs (side s r) | OtherType => False end;
  o_addr : forall r a o b a' b', In (EInit r LocalIpc a o b) tr -> In (EInit r LocalIpc a' o b') tr -> a = a' /\ b = b';
  o_start : forall r o, In (EStart r o) tr -> exists ty a, serves tr r ty a o;
  o_once : forall r o, 1 <= o -> cnt (starts r o) tr <= 1 }.

Lemma start_lt s tr r o : objs s tr -> In (EStart r o) tr -> o < nobjs (side s r).
Proof.
  intros I H. destruct (o_start _ _ I _ _ H) as (ty & a & Hs). pose proof (o_init _ _ I _ _ _ _ _ Hs) as B.
  pose proof (o_pos _ _ I r). destruct ty; [lia|lia|contradiction].
Qed.

Definition quiet_event (e : event) : Prop := match e with EInit _ _ _ _ _ | EStart _ _ => False | _ => True end.
Lemma objs_frame s s' tr ev : objs s tr -> (forall r, incl (memo (side s' r)) (memo (side s r))) ->
  (forall r, nobjs (side s' r) = nobjs (side s r)) -> (forall e, In e ev -> quiet_event e) -> objs s' (tr ++ ev).
Proof.
  intros [M P N A S1 O] Hm Hn Hq. constructor; intros; rewrite ?cnt_app.
  - apply Hm in H. destruct (M _ _ _ _ H). unfold serves in *. split; add.
  - rewrite Hn. auto.
  - apply in_app_iff in H as [H|H]; [rewrite Hn; exact (N _ _ _ _ _ H)|]. apply Hq in H. contradiction.
  - apply in_app_iff in H as [H|H]; [|apply Hq in H; contradiction].
    apply in_app_iff in H0 as [H0|H0]; [|apply Hq in H0; contradiction]. eauto.
  - apply in_app_iff in H as [H|H]; [|apply Hq in H; contradiction]. destruct (S1 _ _ H) as (ty1 & a1 & Hs). exists ty1, a1.
    unfold serves in *. add.
  - rewrite (cnt_zero (starts r o) ev); [pose proof (O r o H); lia|]. intros e He. apply Hq in He. destruct e; auto; contradiction.
Qed.

Lemma objs_step s l s' ev tr : objs s tr -> pstep s l s' ev -> objs s' (tr ++ ev).
Proof.
  intros I Hp. assert (I' := I). destruct I' as [M P N A S1 O].
  destruct Hp.
  - rewrite app_nil_r. exact I.
  - rewrite app_nil_r. destruct I; constructor; assumption.
  - rewrite app_nil_r. destruct I; constructor; assumption.
  - (* XNew *)
    assert (Hl : forall a' b, In (EInit r LocalIpc a' (nobjs (side s r)) b) tr -> False).
    { intros a' b Hb. pose proof (N _ _ _ _ _ Hb). cbn in *. lia. }
    constructor.
    + intros r' ty' a' o' Hin. unfold serves. sides r' r.
      * apply in_app_iff in Hin as [Hin|[Hin|[]]].
        -- destruct (M _ _ _ _ Hin). unfold serves in *. split; add.
        -- inversion Hin; subst. split; add.
      * destruct (M _ _ _ _ Hin). unfold serves in *. split; add.
    + intro r'. sides r' r; [|auto]. pose proof (P r). destruct H2 as [[? [? ?]]|[? [? ?]]]; lia.
    + intros r' ty' a' o' b Hin. dis Hin.
      * pose proof (N _ _ _ _ _ Hin). sides r' r; [|assumption]. destruct ty'; try assumption.
        destruct H2 as [[? [? ?]]|[? [? ?]]]; lia.
      * inversion Hin; subst. rewrite side_set, role_eqb_refl; cbn [nobjs add_memo set_nobjs]. pose proof (P r'). destruct H2 as [[-> [-> ->]]|[-> [-> ->]]]; lia.
    + intros r' a1 o1 b1 a2 b2 Hi1 Hi2. dis Hi1; dis Hi2.
      * eauto.
      * inversion Hi2; subst. destruct H2 as [[? ?]|[? [-> ?]]]; [congruence|]. exfalso. eauto.
      * inversion Hi1; subst. destruct H2 as [[? ?]|[? [-> ?]]]; [congruence|]. exfalso. eauto.
      * inversion Hi1; inversion Hi2; subst. split; congruence.
    + intros r' o' Hin. dis Hin.
      * destruct (S1 _ _ Hin) as (ty1 & a1 & Hs). exists ty1, a1. unfold serves in *. add.
      * inversion Hin; subst. exists ty, a. unfold serves. add.
    + intros r' o' Ho. rewrite cnt_app. cbn. pose proof (O r' o' Ho) as Hc. unfold cnt in *. cbn.
      destruct (role_eqb r' r && Nat.eqb o' o) eqn:E; cbn; [|lia].
      apply andb_true_iff in E as [E1 E2]. apply role_eqb_eq in E1. apply Nat.eqb_eq in E2. subst r' o'.
      destruct H2 as [[? [? ?]]|[? [? ?]]]; [lia|].
      assert (Hz : cnt (starts r o) tr = 0); [|unfold cnt in Hz; lia].
      apply cnt_zero. intros e He. destruct (starts r o e) eqn:Es; [|reflexivity]. exfalso.
      destruct e; try discriminate Es. cbn in Es. apply andb_true_iff in Es as [E1 E2]. apply role_eqb_eq in E1.
      apply Nat.eqb_eq in E2. subst. apply (start_lt _ _ _ _ I) in He. lia.
  - (* XFail *)
    assert (Hl : forall a' b, In (EInit r LocalIpc a' o b) tr -> False).
    { intros a' b Hb. pose proof (N _ _ _ _ _ Hb). cbn in *. lia. }
    constructor.
    + intros r' ty' a' o' Hin. unfold serves. assert (Hm : In (ty', a', o') (memo (side s r'))) by (sides r' r; assumption).
      destruct (M _ _ _ _ Hm). unfold serves in *. split; add.
    + intro r'. sides r' r; [lia|auto].
    + intros r' ty' a' o' b Hin. dis Hin.
      * pose proof (N _ _ _ _ _ Hin). sides r' r; [|assumption]. destruct ty'; try assumption. lia.
      * inversion Hin; subst. rewrite side_set, role_eqb_refl; cbn [nobjs add_memo set_nobjs]. pose proof (P r'). lia.
    + intros r' a1 o1 b1 a2 b2 Hi1 Hi2. dis Hi1; dis Hi2.
      * eauto.
      * inversion Hi2; subst. exfalso. eauto.
      * inversion Hi1; subst. exfalso. eauto.
      * inversion Hi1; inversion Hi2; subst. split; congruence.
    + intros r' o' Hin. dis Hin. destruct (S1 _ _ Hin) as (ty1 & a1 & Hs). exists ty1, a1. unfold serves in *. add.
    + intros r' o' Ho. rewrite cnt_app. pose proof (O r' o' Ho). unfold cnt in *. cbn. lia.
  - apply (objs_frame _ _ _ _ I); [intros r' x; exact (fun h => h)|reflexivity|intros e He; cbn in He; intuition (subst; exact Logic.I)].
  - apply (objs_frame _ _ _ _ I); [intros r' x; exact (fun h => h)|reflexivity|intros e He; cbn in He; intuition (subst; exact Logic.I)].
  - apply (objs_frame _ _ _ _ I); [intros r' x; sides r' r; auto|intro r'; sides r' r; reflexivity|intros e He; cbn in He; intuition (subst; exact Logic.I)].
  - apply (objs_frame _ _ _ _ I); [intros r' x; exact (fun h => h)|reflexivity|intros e He; cbn in He; intuition (subst; exact Logic.I)].
  - apply (objs_frame _ _ _ _ I); [intros r' x; exact (fun h => h)|reflexivity|intros e He; cbn in He; intuition (subst; exact Logic.I)].
  - apply (objs_frame _ _ _ _ I); [intros r' x; sides r' r; auto|intro r'; sides r' r; reflexivity|intros e He; cbn in He; intuition (subst; exact Logic.I)].
  - apply (objs_frame _ _ _ _ I); [intros r' x; exact (fun h => h)|reflexivity|intros e He; cbn in He; intuition (subst; exact Logic.I)].
  - apply (objs_frame _ _ _ _ I); [intros r' x; sides r' r; auto|intro r'; sides r' r; reflexivity|intros e He; cbn in He; intuition (subst; exact Logic.I)].
  - apply (objs_frame _ _ _ _ I); [intros r' x; sides r' r; auto|intro r'; sides r' r; reflexivity|].
    intros e He. apply in_app_iff in He as [He|[<-|[]]]; [|exact Logic.I]. apply down_in in He as [x [_ ->]]. exact Logic.I.
  - apply (objs_frame _ _ _ _ I); [intros r' x; sides r' r; auto; destruct r; cbn; auto; contradiction
                                  |intro r'; sides r' r; destruct r; reflexivity|intros e []].
Qed.
Lemma objs_final h : objs (final h) (trace h).
Proof.
  apply (history_ind (fun _ => objs)).
  - constructor; cbn; try contradiction; auto; intros; contradiction.
  - intros h0 l s' ev I Hp _ _. eapply objs_step; eauto.
Qed.
