(** Compound observables: the invariant. *)
From Verif Require Import ListUtil.
From Verif Require SigModel SigSpec ReqIds.
From Verif Require Import ObsModel ObsSpec ObsProofs2 ObsProofs3 ObsProofs4 ObsProofs5 ObsProofs6 CompModel.
Import SigModel (mode, Multi, Single).

Section Inv.
Variable V : Type.
Variable eqb : V -> V -> bool.
Variable mc : nat -> mode.
Variable mo : mode.
Variable vs : list (list V).
Variable v0 : list V.
Hypothesis eqb_eq : forall x y, eqb x y = true -> x = y.
Hypothesis size : length v0 = length vs.
Notation cstate := (CompModel.cstate V).
Notation comp := (CompModel.comp V).
Notation comps := (CompModel.comps V).
Notation outer := (CompModel.outer V).
Notation linked := (CompModel.linked V).
Notation todo := (CompModel.todo V).
Notation cnext := (CompModel.cnext V eqb mc mo).
Notation tr := (ObsModel.tr V).
Notation kinds st i := (length (SigModel.kinds (ObsModel.keeper V (mc i) (comp st i)))).
Local Arguments ObsModel.keeper : simpl never.
Local Arguments ObsModel.next : simpl never.

(** The components are not reconnected, and the compound is not changed directly. *)
Definition fine (a : caction V) : Prop :=
  match a with CComp _ _ (OPass _ (SigModel.AReconnect _)) => False | COuter _ (OSilentSet _ _) | COuter _ (OModify _ _) => False | _ => True end.

Record P (st : cstate) : Prop := {
  p_comps : length (comps st) = length vs;
  p_link : length (link V st) = length vs;
  p_val : length (val V (outer st)) = length vs;
  p_comp : forall i, i < length vs -> exists h, comp st i = ObsModel.final V eqb (mc i) (nth i vs []) h /\ forall t a, In (t, a) h -> keeps V a;
  p_outer : exists h, outer st = ObsModel.final V eqb mo v0 h;
  p_told : forall i s v, i < length vs -> In (VTold V s v) (tr (comp st i)) -> s < kinds st i;
  p_con : forall i t s f, i < length vs -> In (VConnect V t s f) (tr (comp st i)) -> s < kinds st i;
  p_mine : forall i s, linked st i = Some s -> s < kinds st i /\ callable s (tr (comp st i));
  p_nodup : NoDup (map fst (todo st));
  p_todo : forall t i v, In (t, (i, v)) (todo st) -> i < length vs /\ (exists fs, hold V (comp st i) = Some (t, fs)) /\ exists s, linked st i = Some s /\ last_told s (tr (comp st i)) = Some v;
  p_mirror : forall i s x r, linked st i = Some s -> last_told s (tr (comp st i)) = Some (x :: r) -> (exists t v, In (t, (i, v)) (todo st)) \/ nth_error (val V (outer st)) i = Some x
}.

Lemma nth_set_nth {A} (d x : A) l i j : i < length l -> nth j (set_nth i x l) d = if Nat.eqb j i then x else nth j l d.
Proof.
  revert i j. induction l as [|y l IH]; intros [|i] [|j] L; cbn in *; try lia; try reflexivity. apply IH. lia.
Qed.
Lemma comp_init i : comp (cinit V vs v0) i = init V (nth i vs []).
Proof. unfold CompModel.comp, cinit. cbn. rewrite (map_nth (init V) vs []). reflexivity. Qed.
Lemma linked_init i : linked (cinit V vs v0) i = None.
Proof. unfold CompModel.linked, cinit. cbn. rewrite (map_nth (fun _ => None) vs []). reflexivity. Qed.

Lemma P_init : P (cinit V vs v0).
Proof.
  split; [apply map_length|apply map_length|exact size| | | | | |constructor| |].
  - intros i L. exists []. split; [apply comp_init|]. intros t a [].
  - exists []. reflexivity.
  - intros i s v L. rewrite comp_init. intros [].
  - intros i t s f L. rewrite comp_init. intros [].
  - intros i s. rewrite linked_init. discriminate.
  - intros t i v [].
  - intros i s x r. rewrite linked_init. discriminate.
Qed.

Lemma told_dec (l : list (event V)) : (exists s v, In (VTold V s v) l) \/ forall s v, ~ In (VTold V s v) l.
Proof.
  induction l as [|e l [IH|IH]]; [right; intros ? ? []|left; destruct IH as (s & v & X); exists s, v; right; exact X|]. destruct e as [t v x|s v|t s f|e]; [right|left; exists s, v; left; reflexivity|right|right]; intros s' v' [X|X]; try discriminate; eapply IH; exact X.
Qed.
Lemma last_told_none s (l : list (event V)) o : (forall v, ~ In (VTold V s v) l) -> fold_left (told_step s) l o = o.
Proof.
  revert o. induction l as [|e l IH]; intros o N; [reflexivity|]. cbn. rewrite IH by (intros v X; apply (N v); right; exact X). destruct e as [t v x|s' v|t s' f|e]; cbn; try reflexivity.
  destruct (Nat.eqb s s') eqn:E; [|reflexivity]. apply Nat.eqb_eq in E. subst s'. exfalso. apply (N v). left. reflexivity.
Qed.
Definition pick (s : nat) (e : event V) : list (list V) := match e with VTold _ s' v => if Nat.eqb s s' then [v] else [] | _ => [] end.
Lemma pick_none s (l : list (event V)) : (forall s' v', ~ In (VTold V s' v') l) -> flat_map (pick s) l = [].
Proof. induction l as [|e l IH]; intros N; [reflexivity|]. cbn. rewrite IH by (intros s' v' X; apply (N s' v'); right; exact X). destruct e as [t v x|s' v|t s' f|e]; cbn; try reflexivity. exfalso. apply (N s' v). left. reflexivity. Qed.

(** One step on a component: what its slot is told. *)
Lemma told_step_spec i c t a s h : c = ObsModel.final V eqb (mc i) (nth i vs []) h ->
  let c' := ObsModel.next V eqb (mc i) c (t, a) in
  match told_now V (Some s) (news V c c') with
  | Some v => last_told s (tr c') = Some v /\ exists fs, hold V c' = Some (t, fs)
  | None => last_told s (tr c') = last_told s (tr c)
  end.
Proof.
  intros EC c'. pose proof (I_final V eqb (mc i) (nth i vs []) h) as H. rewrite <- EC in H. destruct (next_grows V eqb (mc i) (nth i vs []) c (t, a) H) as (new & T). fold c' in T.
  assert (NW : news V c c' = new) by (unfold news; rewrite T, skipn_app, skipn_all, Nat.sub_diag; reflexivity). rewrite NW. unfold told_now. fold (pick s).
  change (fun e : event V => match e with VTold _ s' v => if Nat.eqb s s' then [v] else [] | _ => [] end) with (pick s).
  destruct (told_dec new) as [(s1 & v1 & X)|N].
  - destruct (told_holds V eqb (mc i) (nth i vs []) c t a new s1 v1 H T X) as (HO & _ & l & -> & NL). rewrite flat_map_app, (pick_none s l NL). cbn [app flat_map pick]. rewrite app_nil_r.
    destruct (Nat.eqb s s1) eqn:E.
    + cbn. apply Nat.eqb_eq in E. subst s1. split; [|exact HO]. rewrite T, app_assoc, !last_told_app. cbn. rewrite Nat.eqb_refl. reflexivity.
    + cbn. rewrite T, app_assoc, !last_told_app. cbn. rewrite E. rewrite last_told_none by (intros v; apply NL). reflexivity.
  - rewrite (pick_none s new N). cbn. rewrite T, last_told_app. apply last_told_none. intros v. apply N.
Qed.

Lemma comp_set st i c o lk td j : i < length (comps st) -> comp (CSt V (set_nth i c (comps st)) o lk td) j = if Nat.eqb j i then c else comp st j.
Proof. intros L. unfold CompModel.comp. cbn. apply nth_set_nth. exact L. Qed.

Lemma news_same (c : ObsModel.state V) : news V c c = [].
Proof. unfold news. apply skipn_all. Qed.
Lemma told_now_nil lk : told_now V lk [] = None.
Proof. destruct lk; reflexivity. Qed.

Lemma P_comp st t i a : P st -> i < length vs -> keeps V a -> find (fun p => Nat.eqb t (fst p)) (todo st) = None -> P (on_comp V eqb mc st t i a).
Proof.
  intros H L KE FI. pose proof (p_comps _ H) as LC. assert (L' : i < length (comps st)) by lia.
  assert (NT : forall i' v, ~ In (t, (i', v)) (todo st)) by (intros i' v X; apply (find_none _ _ FI) in X; cbn in X; rewrite Nat.eqb_refl in X; discriminate).
  destruct (p_comp _ H i L) as (h & EC & KH). set (c := comp st i) in *. set (c' := ObsModel.next V eqb (mc i) c (t, a)).
  pose proof (I_final V eqb (mc i) (nth i vs []) h) as HI. rewrite <- EC in HI.
  destruct (next_grows V eqb (mc i) (nth i vs []) c (t, a) HI) as (new & T). fold c' in T.
  assert (ST : on_comp V eqb mc st t i a = CSt V (set_nth i c' (comps st)) (outer st) (link V st) (match told_now V (linked st i) (news V c c') with Some v => (t, (i, v)) :: todo st | None => todo st end)) by reflexivity.
  set (st' := on_comp V eqb mc st t i a) in *.
  assert (CJ : forall j, comp st' j = if Nat.eqb j i then c' else comp st j) by (intros j; rewrite ST; apply comp_set; exact L').
  assert (LK : forall j, linked st' j = linked st j) by (intros j; rewrite ST; reflexivity).
  assert (OU : outer st' = outer st) by (rewrite ST; reflexivity).
  assert (TD : todo st' = match told_now V (linked st i) (news V c c') with Some v => (t, (i, v)) :: todo st | None => todo st end) by (rewrite ST; reflexivity).
  assert (KM : forall j, kinds st j <= kinds st' j) by (intros j; rewrite CJ; destruct (Nat.eqb j i) eqn:E; [apply Nat.eqb_eq in E; subst j; apply kinds_mono|apply le_n]).
  (* somebody else is in the slot of this component: nothing happens *)
  assert (HB : (exists t' v, In (t', (i, v)) (todo st)) -> c' = c).
  { intros (t' & v & X). destruct (p_todo _ H _ _ _ X) as (_ & (fs & HO) & _). unfold c'. apply (held_by_another V eqb (mc i) c t t' fs); [exact HO|]. intros ->. eapply NT. exact X. }
  assert (SP : forall s, linked st i = Some s -> match told_now V (Some s) (news V c c') with Some v => last_told s (tr c') = Some v /\ exists fs, hold V c' = Some (t, fs) | None => last_told s (tr c') = last_told s (tr c) end) by (intros s _; apply (told_step_spec i c t a s h EC)).
  clear ST. split.
  - unfold st', on_comp. cbn. rewrite length_set_nth. exact LC.
  - apply H.
  - rewrite OU. apply H.
  - intros j Lj. rewrite CJ. destruct (Nat.eqb j i) eqn:E; [|apply H; exact Lj]. apply Nat.eqb_eq in E. subst j. exists (h ++ [(t, a)]). split.
    + unfold ObsModel.final. rewrite fold_left_app. fold (ObsModel.final V eqb (mc i) (nth i vs []) h). rewrite <- EC. reflexivity.
    + intros t1 a1 X. apply in_app_or in X as [X|[X|[]]]; [eapply KH; exact X|]. injection X as <- <-. exact KE.
  - rewrite OU. apply H.
  - intros j s v Lj. rewrite CJ. destruct (Nat.eqb j i) eqn:E; [apply Nat.eqb_eq in E; subst j|intros X; apply (p_told _ H j s v Lj X)].
    rewrite T. intros X. fold c. apply in_app_or in X as [X|X].
    + pose proof (p_told _ H i s v L X). pose proof (KM i) as Y. rewrite CJ, Nat.eqb_refl in Y. fold c in Y, H0. lia.
    + destruct (told_holds V eqb (mc i) (nth i vs []) c t a new s v HI T X) as (_ & Y & _). pose proof (KM i) as Z. rewrite CJ, Nat.eqb_refl in Z. fold c in Z. lia.
  - intros j t1 s f Lj. rewrite CJ. destruct (Nat.eqb j i) eqn:E; [apply Nat.eqb_eq in E; subst j|intros X; apply (p_con _ H j t1 s f Lj X)].
    rewrite T. intros X. apply in_app_or in X as [X|X].
    + pose proof (p_con _ H i t1 s f L X). pose proof (KM i) as Y. rewrite CJ, Nat.eqb_refl in Y. fold c in Y, H0. lia.
    + destruct (connect_event V eqb (mc i) (nth i vs []) c t a new t1 s f HI T X) as (-> & _ & -> & M & C). unfold c'. rewrite (connect_fresh V eqb (mc i) (nth i vs []) c t f HI M C). lia.
  - intros j s. rewrite LK. intros E. destruct (p_mine _ H j s E) as [B CA]. split; [pose proof (KM j); lia|]. rewrite CJ. destruct (Nat.eqb j i) eqn:EJ; [apply Nat.eqb_eq in EJ; subst j|exact CA].
    intros t1 f X. rewrite T in X. apply in_app_or in X as [X|X]; [apply (CA t1 f X)|]. destruct (connect_event V eqb (mc i) (nth i vs []) c t a new t1 s f HI T X) as (_ & _ & Y & _). fold c in B. lia.
  - rewrite TD. destruct (told_now _ _ _) as [v|]; [|apply H]. cbn. constructor; [|apply H]. intros X. apply in_map_iff in X as ([t1 [i1 v1]] & E & X). cbn in E. subst t1. eapply NT. exact X.
  - intros t1 j v X. rewrite TD in X. rewrite LK, CJ.
    assert (OLD : In (t1, (j, v)) (todo st) -> j < length vs /\ (exists fs, hold V (if Nat.eqb j i then c' else comp st j) = Some (t1, fs)) /\ exists s, linked st j = Some s /\ last_told s (tr (if Nat.eqb j i then c' else comp st j)) = Some v).
    { intros Y. destruct (Nat.eqb j i) eqn:E; [|apply H; exact Y]. apply Nat.eqb_eq in E. subst j. rewrite HB by eauto. apply H. exact Y. }
    destruct (linked st i) as [s|] eqn:LI; [|cbn in X; apply OLD; exact X].
    specialize (SP s eq_refl). destruct (told_now V (Some s) (news V c c')) as [w|]; [|apply OLD; exact X].
    destruct X as [X|X]; [|apply OLD; exact X]. injection X as <- <- <-. rewrite Nat.eqb_refl. split; [exact L|]. split; [apply SP|]. exists s. split; [exact LI|apply SP].
  - intros j s x r. rewrite LK, CJ, OU, TD. intros LJ. destruct (Nat.eqb j i) eqn:E.
    + apply Nat.eqb_eq in E. subst j. specialize (SP s LJ). rewrite LJ. destruct (told_now V (Some s) (news V c c')) as [w|].
      * intros _. left. exists t, w. left. reflexivity.
      * rewrite SP. intros X. apply (p_mirror _ H i s x r LJ X).
    + intros X. destruct (p_mirror _ H j s x r LJ X) as [(t1 & v & Y)|Y]; [left|right; exact Y]. exists t1, v. destruct (told_now _ _ _); [right|]; exact Y.
Qed.

Lemma P_join st t i : P st -> i < length vs -> linked st i = None -> may V (mc i) (comp st i) t = true -> crashed V (mc i) (comp st i) = false -> find (fun p => Nat.eqb t (fst p)) (todo st) = None ->
  let st1 := on_comp V eqb mc st t i (OConnect V FCallable) in P (CSt V (comps st1) (outer st1) (set_nth i (Some (kinds st i)) (link V st1)) (todo st1)).
Proof.
  intros H L LN M CR FI st1. pose proof (P_comp st t i (OConnect V FCallable) H L Logic.I FI) as H1. fold st1 in H1. pose proof (p_comps _ H) as LC. assert (L' : i < length (comps st)) by lia.
  set (st' := CSt _ _ _ _ _). destruct (p_comp _ H i L) as (h & EC & KH). pose proof (I_final V eqb (mc i) (nth i vs []) h) as HI. rewrite <- EC in HI.
  assert (C1 : comp st1 i = ObsModel.next V eqb (mc i) (comp st i) (t, OConnect V FCallable)) by (unfold st1, on_comp; rewrite comp_set by exact L'; rewrite Nat.eqb_refl; reflexivity).
  assert (L1 : linked st1 i = None) by exact LN.
  assert (LJ : forall j, linked st' j = if Nat.eqb j i then Some (kinds st i) else linked st1 j) by (intros j; unfold CompModel.linked, st'; cbn; apply nth_set_nth; rewrite (p_link _ H); exact L).
  destruct (next_grows V eqb (mc i) (nth i vs []) (comp st i) (t, OConnect V FCallable) HI) as (new & T). rewrite <- C1 in T.
  split.
  - apply H1.
  - unfold st'. cbn. rewrite length_set_nth. apply H.
  - apply H1.
  - apply (p_comp _ H1).
  - apply (p_outer _ H1).
  - apply (p_told _ H1).
  - apply (p_con _ H1).
  - intros j s. rewrite LJ. destruct (Nat.eqb j i) eqn:E; [|apply (p_mine _ H1)]. apply Nat.eqb_eq in E. subst j. intros X. injection X as <-. change (comp st' i) with (comp st1 i). split.
    + rewrite C1, (connect_fresh V eqb (mc i) (nth i vs []) (comp st i) t FCallable HI M CR). lia.
    + intros t1 f X. rewrite T in X. apply in_app_or in X as [X|X].
      * pose proof (p_con _ H i t1 _ f L X). lia.
      * rewrite C1 in T. destruct (connect_event V eqb (mc i) (nth i vs []) (comp st i) t _ new t1 _ f HI T X) as (Y & _). congruence.
  - apply H1.
  - intros t1 j v X. destruct (p_todo _ H1 t1 j v X) as (A & B & s & C & D). split; [exact A|]. split; [exact B|]. exists s. split; [|exact D]. rewrite LJ. destruct (Nat.eqb j i) eqn:E; [|exact C]. apply Nat.eqb_eq in E. subst j. rewrite L1 in C. discriminate.
  - intros j s x r. rewrite LJ. destruct (Nat.eqb j i) eqn:E; [|apply (p_mirror _ H1)]. apply Nat.eqb_eq in E. subst j. intros X Y. injection X as <-. exfalso. change (comp st' i) with (comp st1 i) in Y. unfold last_told in Y. rewrite last_told_none in Y; [discriminate|]. intros v Z. rewrite T in Z. apply in_app_or in Z as [Z|Z].
    + pose proof (p_told _ H i _ v L Z). lia.
    + rewrite C1 in T. destruct (told_holds V eqb (mc i) (nth i vs []) (comp st i) t _ new _ v HI T Z) as (_ & W & _). lia.
Qed.

Lemma outer_final h t a : ObsModel.next V eqb mo (ObsModel.final V eqb mo v0 h) (t, a) = ObsModel.final V eqb mo v0 (h ++ [(t, a)]).
Proof. unfold ObsModel.final. rewrite fold_left_app. reflexivity. Qed.

Lemma P_duty st t i v : P st -> In (t, (i, v)) (todo st) -> may V mo (outer st) t = true -> crashed V mo (outer st) = false ->
  P (CSt V (comps st) (ObsModel.next V eqb mo (outer st) (t, OSet V (match v with x :: _ => [(i, x)] | [] => [] end))) (link V st) (filter (fun p => negb (Nat.eqb t (fst p))) (todo st))).
Proof.
  intros H X M CR. destruct (p_todo _ H t i v X) as (L & HO & s & LK & LT). set (a := OSet V _).
  assert (VAL : length (val V (ObsModel.next V eqb mo (outer st) (t, a))) = length vs /\ (forall j, j <> i -> nth_error (val V (ObsModel.next V eqb mo (outer st) (t, a))) j = nth_error (val V (outer st)) j) /\
    forall x r, v = x :: r -> nth_error (val V (ObsModel.next V eqb mo (outer st) (t, a))) i = Some x).
  { unfold a. destruct v as [|x r].
    - assert (E : ObsModel.next V eqb mo (outer st) (t, OSet V []) = outer st) by (unfold ObsModel.next; rewrite CR; cbn; rewrite andb_false_r; reflexivity). rewrite E. split; [apply H|]. split; [reflexivity|]. intros x r Y. discriminate.
    - destruct (set_value V eqb mo (outer st) t i x M CR eqb_eq) as (A & B & C); [rewrite (p_val _ H); exact L|]. split; [rewrite C; apply H|]. split; [exact B|]. intros x' r' E. injection E as <- <-. exact A. }
  destruct VAL as (V1 & V2 & V3).
  assert (SUB : forall p, In p (filter (fun p => negb (Nat.eqb t (fst p))) (todo st)) -> In p (todo st)) by (intros p Y; apply filter_In in Y; apply Y).
  split.
  - apply H.
  - apply H.
  - exact V1.
  - apply (p_comp _ H).
  - destruct (p_outer _ H) as (h & ->). eexists. apply outer_final.
  - apply (p_told _ H).
  - apply (p_con _ H).
  - apply (p_mine _ H).
  - apply NoDup_map_filter. apply H.
  - intros t1 j w Y. apply SUB in Y. apply (p_todo _ H t1 j w Y).
  - intros j s' x r LJ LT'. change (linked st j = Some s') in LJ. change (last_told s' (tr (comp st j)) = Some (x :: r)) in LT'. destruct (Nat.eq_dec j i) as [->|NE].
    + right. rewrite LK in LJ. injection LJ as <-. rewrite LT in LT'. injection LT' as ->. eapply V3. reflexivity.
    + destruct (p_mirror _ H j s' x r LJ LT') as [(t1 & w & Y)|Y]; [|right; cbn; rewrite V2 by exact NE; exact Y]. left. exists t1, w. apply filter_In. split; [exact Y|]. cbn. destruct (Nat.eqb t t1) eqn:E; [|reflexivity]. apply Nat.eqb_eq in E. subst t1. exfalso.
      pose proof (ReqIds.nodup_fst_inj _ _ _ _ (p_nodup _ H) X Y) as Z. injection Z as <- <-. apply NE. reflexivity.
Qed.

Lemma P_outer st t a : P st -> accessible V a = true -> match a with OSilentSet _ _ | OModify _ _ => False | _ => True end -> P (CSt V (comps st) (ObsModel.next V eqb mo (outer st) (t, a)) (link V st) (todo st)).
Proof.
  intros H A F. assert (E : val V (ObsModel.next V eqb mo (outer st) (t, a)) = val V (outer st)) by (apply read_value; destruct a; auto; discriminate).
  split; try apply H.
  - cbn. rewrite E. apply H.
  - destruct (p_outer _ H) as (h & ->). eexists. apply outer_final.
  - intros j s x r LJ LT. cbn. rewrite E. apply (p_mirror _ H j s x r LJ LT).
Qed.

Lemma P_next st l : P st -> fine (snd l) -> P (cnext st l).
Proof.
  intros H F. destruct l as [t a]. unfold CompModel.cnext. cbn [fst snd] in *. destruct (find (fun p => Nat.eqb t (fst p)) (todo st)) as [[t' [i v]]|] eqn:FI.
  - apply find_some in FI as [X E]. cbn in E. apply Nat.eqb_eq in E. subst t'. destruct a; try exact H. destruct (may V mo (outer st) t) eqn:M, (crashed V mo (outer st)) eqn:CR; cbn [andb negb]; try exact H. apply (P_duty st t i v H X M CR).
  - destruct a as [i a|i| |a]; [| |exact H|].
    + destruct (Nat.ltb i (length (comps st))) eqn:L; [|exact H]. apply Nat.ltb_lt in L. rewrite (p_comps _ H) in L. apply P_comp; auto.
    + destruct (Nat.ltb i (length (comps st))) eqn:L; [|exact H]. apply Nat.ltb_lt in L. rewrite (p_comps _ H) in L. destruct (linked st i) as [s|] eqn:LI; [exact H|].
      destruct (may V (mc i) (comp st i) t) eqn:M, (crashed V (mc i) (comp st i)) eqn:CR; cbn [andb negb]; try exact H. apply (P_join st t i H L LI M CR FI).
    + destruct (accessible V a) eqn:A; [|exact H]. apply P_outer; auto.
Qed.

Lemma P_final h : (forall t a, In (t, a) h -> fine a) -> P (cfinal V eqb mc mo vs v0 h).
Proof.
  unfold cfinal. induction h as [|l h IH] using rev_ind; intros F; [apply P_init|]. rewrite fold_left_app. cbn [fold_left]. apply P_next; [apply IH; intros t a X; apply (F t a); apply in_or_app; left; exact X|].
  apply (F (fst l) (snd l)). apply in_or_app. right. left. destruct l. reflexivity.
Qed.
End Inv.
