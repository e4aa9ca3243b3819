(** What a thread is executing; one runner; results of the calls that submit executions. *)
From Verif Require Import ListUtil Amap ProcModel ProcSpec ProcProofs ProcProofs2 ProcProofs3 ProcProofs4 ProcProofs5 ProcProofs6 ProcProofs7.
From Verif Require QueueModel QueueSpec SigModel.

Definition is_call (g : frame) : bool := match g with FCall _ _ => true | _ => false end.
Fixpoint bod (b : option (nat * nat)) (r : list frame) : list (nat * nat * bool) :=
  match r with [] => [] | g :: r' => (match b with Some (p, e) => [(p, e, is_call g)] | None => [] end) ++ bod (body_of g) r' end.
Definition bodies (l : list frame) : list (nat * nat * bool) := match l with [] => [] | f :: r => bod (body_of f) r end.

Lemma open_app t a b : open t (a ++ b) = fold_left (opening t) b (open t a).
Proof. apply fold_left_app. Qed.
Definition about_thread (e : event) : option nat := match e with EStart t _ _ _ | EEnd t _ _ => Some t | _ => None end.
Lemma open_other t b : forall l, (forall e, In e b -> about_thread e <> Some t) -> fold_left (opening t) b l = l.
Proof.
  induction b as [|x b IH]; intros l H; [reflexivity|]. cbn. replace (opening t l x) with l; [apply IH; intros e I; apply H; right; exact I|].
  specialize (H x (or_introl eq_refl)). destruct x; cbn in *; try reflexivity; (destruct (Nat.eqb_spec t t0); [congruence|reflexivity]).
Qed.
Lemma quiet_about l t : quiet l -> forall e, In e l -> about_thread e <> Some t.
Proof. intros Q e I. specialize (Q e I). destruct e; cbn in *; discriminate. Qed.

Lemma waiting_body f : waiting f -> body_of f = None.
Proof. destruct f as [? []|? ? ? ? []| |]; cbn; tauto. Qed.
Lemma similar_body f f' : similar f f' -> body_of f' = body_of f.
Proof. intros [-> |[(n & k & k' & -> & -> & _)|(p & e & m & x & x' & -> & ->)]]; reflexivity. Qed.
Lemma bodies_pop f r : body_of f = None -> bodies (f :: r) = bodies r.
Proof. intros B. unfold bodies. rewrite B. destruct r; reflexivity. Qed.

Lemma bodies_final h : forall t, open t (tr (final h)) = bodies (stk (final h) t).
Proof.
  apply (steps_ind (fun st => forall t, open t (tr st) = bodies (stk st t))); [reflexivity|]. clear h. intros t h st' J K _ t'. set (st := final h) in *.
  assert (STEP : forall s' add, (forall t', stk st' t' = upd (stk st) t s' t') -> tr st' = tr st ++ add -> (forall e t', In e add -> about_thread e = Some t' -> t' = t) ->
    fold_left (opening t) add (bodies (stk st t)) = bodies s' -> open t' (tr st') = bodies (stk st' t')).
  { intros s' add S T A B. rewrite S, T, open_app, J. unfold upd. destruct (Nat.eqb_spec t t') as [<-|N]; [exact B|]. apply open_other. intros e I X. apply N. symmetry. eapply A; eauto. }
  assert (QA : forall l e t', quiet l -> In e l -> about_thread e = Some t' -> t' = t) by (intros l e t0 Q I X; exfalso; eapply quiet_about; eauto).
  assert (NO : forall add l, (forall e, In e add -> about_thread e = None) -> fold_left (opening t) add l = l).
  { intros add l H. apply open_other. intros e I. rewrite (H e I). discriminate. }
  assert (QN : forall l, quiet l -> forall e, In e l -> about_thread e = None).
  { intros l Q e I. specialize (Q e I). destruct e; try discriminate; reflexivity. }
  evts K; destruct E as (S' & T & CC).
  - eapply STEP; [exact S'|exact T|intros e t0 I; apply (QA l e t0 N I)|]. apply NO. exact (QN l N).
  - eapply STEP; [exact S'|exact T|intros e t0 I; apply (QA l e t0 N I)|]. rewrite NO by exact (QN l N). rewrite S. unfold bodies. rewrite (similar_body _ _ SM). reflexivity.
  - eapply STEP; [exact S'|exact T|intros e t0 [<-|[]]; discriminate|]. cbn. rewrite (waiting_body _ W). destruct (stk st t); reflexivity.
  - assert (A : forall e, In e (ds ++ [ERet t n res]) -> about_thread e = None).
    { intros e I. apply in_snoc in I as [I|[<-|[]]]; [|reflexivity]. destruct DS as [-> |(p & es & ->)]; [destruct I|destruct I as [<-|[]]; reflexivity]. }
    eapply STEP; [exact S'|exact T|intros e t0 I; rewrite (A e I); discriminate|]. rewrite NO by exact A. rewrite S. apply bodies_pop, waiting_body, W.
  - eapply STEP; [exact S'|exact T|intros e t0 [<-|[<-|[]]]; discriminate|]. cbn. rewrite S. apply bodies_pop. reflexivity.
  - eapply STEP; [exact S'|exact T|intros e' t0 [<-|[]]; discriminate|]. cbn [fold_left opening]. rewrite S. reflexivity.
  - eapply STEP; [exact S'|exact T|intros e' t1 [<-|[]] [= ->]; reflexivity|]. cbn [fold_left opening]. rewrite Nat.eqb_refl, S. cbn. rewrite body_body. destruct r; reflexivity.
  - eapply STEP; [exact S'|exact T|intros e' t1 [<-|[]] [= ->]; reflexivity|]. cbn [fold_left opening]. rewrite Nat.eqb_refl, S. cbn. rewrite body_body. destruct r; reflexivity.
  - eapply STEP; [exact S'|exact T| |].
    + intros e' t1 I X. apply in_snoc in I as [I|[<-|[]]]; [eapply QA; eauto|]. injection X as <-. reflexivity.
    + rewrite fold_left_app, (NO l) by exact (QN l N). cbn [fold_left opening]. rewrite Nat.eqb_refl, S. cbn. rewrite B. reflexivity.
  - eapply STEP; [exact S'|exact T| |].
    + intros e' t1 I X. apply in_snoc in I as [I|[<-|[<-|[]]]]; [eapply QA; eauto| |discriminate]. injection X as <-. reflexivity.
    + rewrite fold_left_app, (NO l) by exact (QN l N). cbn [fold_left opening]. rewrite Nat.eqb_refl, S. cbn. rewrite B. cbn. destruct r; reflexivity.
  - eapply STEP; [exact S'|exact T| |].
    + intros e' t1 I X. apply in_snoc in I as [I|[<-|[<-|[]]]]; [eapply QA; eauto| |discriminate]. injection X as <-. reflexivity.
    + rewrite fold_left_app, (NO l) by exact (QN l N). cbn [fold_left opening]. rewrite Nat.eqb_refl, S. cbn. rewrite B. cbn. destruct r; reflexivity.
Qed.

(** *** One runner *)
Definition got (p : nat) (l : list frame) : list nat := match l with FLoop _ p' _ _ (LGot e) :: _ => if Nat.eqb p p' then [e] else [] | _ => [] end.
Definition alone (st : state) (p t : nat) : Prop := forall n t' k, nth_error (calls st) n = Some (t', KRun p k) -> t' = t.
Lemma link_got p b f r : link b f -> got p (f :: r) = [].
Proof. destruct f as [|? ? ? ? []| |]; cbn; tauto. Qed.
Lemma chained_got p b r : chain b r -> got p r = [].
Proof. destruct r as [|f r]; [reflexivity|]. intros [L _]. eapply link_got; eauto. Qed.
Lemma taken_app p a b : taken p (a ++ b) = taken p a ++ taken p b. Proof. apply flat_map_app. Qed.
Lemma started_app p a b : started p (a ++ b) = started p a ++ started p b. Proof. apply flat_map_app. Qed.
Lemma quiet_taken p l : quiet l -> taken p l = [].
Proof. intros Q. apply quiet_flat; auto. intros []; cbn; congruence. Qed.
Lemma quiet_started p l : quiet l -> started p l = [].
Proof. intros Q. apply quiet_flat; auto. intros []; cbn; congruence. Qed.
Lemma evt_calls t st st' : evt t st st' -> calls st' = calls st \/ exists x, calls st' = calls st ++ [x].
Proof. intros K. evts K; destruct E as (_ & _ & CC); eauto. Qed.
Lemma alone_back st st' p t : (calls st' = calls st \/ exists x, calls st' = calls st ++ [x]) -> alone st' p t -> alone st p t.
Proof. intros C A n t' k E. apply (A n t' k). destruct C as [-> |[x ->]]; [exact E|]. rewrite nth_error_app1; auto. eapply nth_lt; eauto. Qed.

Lemma runner_order h q t : alone (final h) q t -> taken q (tr (final h)) = started q (tr (final h)) ++ got q (stk (final h) t).
Proof.
  apply (steps_ind (fun st => alone st q t -> taken q (tr st) = started q (tr st) ++ got q (stk st t))); [reflexivity|]. clear h. intros z h st' J K (lb & R') AL.
  pose proof (good_final h) as G. set (st := final h) in *. specialize (J (alone_back _ _ _ _ (evt_calls _ _ _ K) AL)).
  assert (AL0 := alone_back _ _ _ _ (evt_calls _ _ _ K) AL).
  assert (MINE : forall n p' j k ph r, stk st z = FLoop n p' j k ph :: r -> p' = q -> z = t).
  { intros n p' j k ph r S ->. eapply AL0. eapply (g_loop _ _ _ (G z)). rewrite S. left. reflexivity. }
  assert (SAME : forall s' add, (forall t', stk st' t' = upd (stk st) z s' t') -> tr st' = tr st ++ add -> taken q add = [] -> started q add = [] -> got q s' = got q (stk st z) ->
    taken q (tr st') = started q (tr st') ++ got q (stk st' t)).
  { intros s' add S T A B C. rewrite S, T, taken_app, started_app, A, B, !app_nil_r, J. f_equal. unfold upd. destruct (Nat.eqb_spec z t); [subst; symmetry; exact C|reflexivity]. }
  assert (TAIL : forall f r, stk st z = f :: r -> got q r = []).
  { intros f r S. pose proof (g_chain _ _ _ (G z)) as C. rewrite S in C. eapply chained_got; eauto. }
  assert (TAIL2 : forall b g r, stk st z = b :: g :: r -> got q r = []).
  { intros f g r S. pose proof (g_chain _ _ _ (G z)) as C. rewrite S in C. destruct C as [_ C]. eapply chained_got; eauto. }
  evts K; destruct E as (S' & T & CC).
  - eapply SAME; [exact S'|exact T|apply quiet_taken; exact N|apply quiet_started; exact N|reflexivity].
  - eapply SAME; [exact S'|exact T|apply quiet_taken; exact N|apply quiet_started; exact N|]. rewrite S.
    destruct SM as [-> |[(n & k & k' & -> & -> & _)|(p' & e & m & x & x' & -> & ->)]]; reflexivity.
  - eapply SAME; [exact S'|exact T|reflexivity|reflexivity|]. transitivity (@nil nat); [destruct f as [|? ? ? ? []| |]; cbn in *; tauto|].
    destruct (stk st z) as [|[|? ? ? ? []| |] ]; try discriminate; reflexivity.
  - eapply SAME; [exact S'|exact T| | |].
    + rewrite taken_app. destruct DS as [-> |(p' & es & ->)]; reflexivity.
    + rewrite started_app. destruct DS as [-> |(p' & es & ->)]; reflexivity.
    + rewrite (TAIL _ _ S), S. destruct f as [|? ? ? ? []| |]; cbn in *; tauto.
  - eapply SAME; [exact S'|exact T|reflexivity|reflexivity|]. rewrite (TAIL _ _ S), S. reflexivity.
  - rewrite S', T, taken_app, started_app. cbn. destruct (Nat.eqb_spec q p).
    + subst p. pose proof (MINE _ _ _ _ _ _ S eq_refl). subst z. rewrite upd_same. cbn. rewrite Nat.eqb_refl, app_nil_r. rewrite J, S. cbn. rewrite app_nil_r. reflexivity.
    + rewrite !app_nil_r, J. f_equal. unfold upd. destruct (Nat.eqb_spec z t); [|reflexivity]. subst z. rewrite S. cbn. apply Nat.eqb_neq in n0. rewrite n0. reflexivity.
  - rewrite S', T, taken_app, started_app. cbn. destruct (Nat.eqb_spec q p).
    + subst p. pose proof (MINE _ _ _ _ _ _ S eq_refl). subst z. rewrite upd_same. rewrite J, S. cbn. rewrite Nat.eqb_refl, app_nil_r. destruct c; cbn; rewrite ?app_nil_r; reflexivity.
    + rewrite !app_nil_r, J. f_equal. unfold upd. destruct (Nat.eqb_spec z t); [|reflexivity]. subst z. rewrite S. cbn. apply Nat.eqb_neq in n0. rewrite n0. destruct c; reflexivity.
  - eapply SAME; [exact S'|exact T|reflexivity|reflexivity|]. rewrite S. destruct c; reflexivity.
  - eapply SAME; [exact S'|exact T| | |].
    + rewrite taken_app, (quiet_taken q l N). reflexivity.
    + rewrite started_app, (quiet_started q l N). reflexivity.
    + rewrite S. destruct b; try discriminate; reflexivity.
  - eapply SAME; [exact S'|exact T| | |].
    + rewrite taken_app, (quiet_taken q l N). reflexivity.
    + rewrite started_app, (quiet_started q l N). reflexivity.
    + rewrite (TAIL2 _ _ _ S), S. destruct b; try discriminate; reflexivity.
  - eapply SAME; [exact S'|exact T| | |].
    + rewrite taken_app, (quiet_taken q l N). reflexivity.
    + rewrite started_app, (quiet_started q l N). reflexivity.
    + rewrite (TAIL2 _ _ _ S), S. destruct b; try discriminate; reflexivity.
Qed.

Lemma only_alone h p t : only_runner h p t -> alone (final h) p t.
Proof. intros O n t' k E. apply (O t' n (KRun p k)); [apply (c_in _ (calls_final h)); exact E|cbn; apply Nat.eqb_refl]. Qed.
Lemma taken_started h p t : only_runner h p t -> exists rest, taken p (trace h) = started p (trace h) ++ rest /\ length rest <= 1.
Proof.
  intros O. exists (got p (stk (final h) t)). split; [apply runner_order, only_alone, O|]. destruct (stk (final h) t) as [|[|? ? ? ? []| |]]; cbn; try lia. destruct (Nat.eqb p p0); cbn; lia.
Qed.

(** One at a time. *)
Definition is_loop (p : nat) (f : frame) : bool := match f with FLoop _ p' _ _ _ => Nat.eqb p p' | _ => false end.
Lemma open_of_app p a b : open_of p (a ++ b) = open_of p a ++ open_of p b. Proof. apply flat_map_app. Qed.
Lemma bod_loops p r : forall b, chain b r -> length (open_of p (bod b r)) = cnt (is_loop p) r.
Proof.
  induction r as [|g r IH]; intros b C; [reflexivity|]. destruct C as [L C]. cbn [bod]. rewrite open_of_app, app_length, cnt_cons, (IH _ C). f_equal.
  destruct g as [n []|n q j k []|q x|q x m []]; cbn in L; try contradiction; try (subst b; reflexivity).
  - destruct L as (q & ->). reflexivity.
  - destruct L as (e & ->). cbn. destruct (Nat.eqb p q); reflexivity.
Qed.
Lemma bodies_loops p l : chained l -> length (open_of p (bodies l)) <= cnt (is_loop p) l.
Proof. destruct l as [|f r]; [cbn; lia|]. intros C. cbn [bodies]. rewrite (bod_loops p r _ C), cnt_cons. lia. Qed.
Lemma in_open_of p x l : In x (open_of p l) -> In (p, x, false) l.
Proof.
  intros I. apply in_flat_map in I as ([[p' e] i] & I & H). destruct i; [destruct H|]. destruct (Nat.eqb_spec p p'); [|destruct H]. destruct H as [<-|[]]. subst. exact I.
Qed.
Lemma user_loops p l : chained l -> user l = true -> (forall x, ~ In (p, x, false) (bodies l)) -> cnt (is_loop p) l = 0.
Proof.
  destruct l as [|f r]; [reflexivity|]. intros C U N. cbn in C. rewrite cnt_cons. replace (is_loop p f) with false by (destruct f as [| | |? ? ? []]; try discriminate; reflexivity).
  cbn [b2n]. rewrite <- (bod_loops p r _ C). cbn [bodies] in N. destruct (open_of p (bod (body_of f) r)) as [|x o] eqn:E; [reflexivity|]. exfalso. apply (N x). apply in_open_of. rewrite E. left. reflexivity.
Qed.

Definition unnested (l : list event) (p : nat) : Prop := forall a t n k b x, l = a ++ ECall t n (KRun p k) :: b -> ~ In (p, x, false) (open t a).
Lemma unnested_back a b p : unnested (a ++ b) p -> unnested a p.
Proof. intros U a0 t n k b0 x -> I. eapply U; [rewrite <- app_assoc; reflexivity|exact I]. Qed.

Lemma one_loop h q : unnested (tr (final h)) q -> forall t, cnt (is_loop q) (stk (final h) t) <= 1.
Proof.
  apply (steps_ind (fun st => unnested (tr st) q -> forall t, cnt (is_loop q) (stk st t) <= 1)); [intros _ t; cbn; rewrite cnt_nil; lia|]. clear h. intros t h st' J K (lb & R') AL t'.
  pose proof (good_final h) as G. pose proof (good_final (h ++ [lb])) as G'. rewrite <- R' in G'. pose proof (bodies_final h) as BO. set (st := final h) in *.
  assert (U0 : unnested (tr st) q).
  { evts K; destruct E as (_ & T & _); rewrite T in AL; eapply unnested_back; exact AL. }
  specialize (J U0).
  assert (LE : forall s', (forall t', stk st' t' = upd (stk st) t s' t') -> cnt (is_loop q) s' <= cnt (is_loop q) (stk st t) -> cnt (is_loop q) (stk st' t') <= 1).
  { intros s' S L. rewrite S. unfold upd. destruct (Nat.eqb t t'); [|apply J]. specialize (J t). lia. }
  evts K; destruct E as (S' & T & CC).
  - eapply LE; eauto.
  - eapply LE; [exact S'|]. rewrite S, !cnt_cons. destruct SM as [-> |[(n & k & k' & -> & -> & _)|(p' & e & m & x & x' & -> & ->)]]; cbn; lia.
  - rewrite S'. unfold upd. destruct (Nat.eqb_spec t t'); [subst t'|apply J]. rewrite cnt_cons. destruct (is_loop q f) eqn:L; [|specialize (J t); cbn; lia].
    assert (Z : cnt (is_loop q) (stk st t) = 0); [|rewrite Z; cbn; lia]. apply user_loops; [apply (g_chain _ _ _ (G t))|exact U|].
    intros x. rewrite <- BO. destruct f as [|n p' j k ph| |]; try discriminate. cbn in L, ID. apply Nat.eqb_eq in L. subst p'. injection ID as ->.
    assert (GL := g_loop _ _ _ (G' t) (length (calls st)) q j k ph). rewrite CC, nth_error_app2, Nat.sub_diag in GL by lia. cbn in GL.
    assert (X : Some (t, c) = Some (t, KRun q k)) by (apply GL; rewrite S', upd_same; left; reflexivity). injection X as ->.
    eapply (AL (tr st) t _ k []). rewrite T. reflexivity.
  - eapply LE; [exact S'|]. rewrite S, cnt_cons. lia.
  - eapply LE; [exact S'|]. rewrite S, cnt_cons. lia.
  - eapply LE; [exact S'|]. rewrite S, !cnt_cons. cbn. lia.
  - eapply LE; [exact S'|]. rewrite S, !cnt_cons. destruct c; cbn; lia.
  - eapply LE; [exact S'|]. rewrite S, !cnt_cons. destruct c; cbn; lia.
  - eapply LE; [exact S'|]. rewrite S, !cnt_cons. cbn. lia.
  - eapply LE; [exact S'|]. rewrite S, !cnt_cons. lia.
  - eapply LE; [exact S'|]. rewrite S, !cnt_cons. lia.
Qed.

Lemma one_at_a_time h p t : only_runner h p t -> not_nested h p ->
  length (open_of p (open t (trace h))) <= 1 /\ forall t', t' <> t -> open_of p (open t' (trace h)) = [].
Proof.
  intros O NN. unfold trace. split.
  - rewrite bodies_final. pose proof (bodies_loops p _ (g_chain _ _ _ (good_final h t))). pose proof (one_loop h p NN t). lia.
  - intros t' N. rewrite bodies_final. pose proof (bodies_loops p _ (g_chain _ _ _ (good_final h t'))) as L.
    assert (Z : cnt (is_loop p) (stk (final h) t') = 0).
    { apply cnt_in. intros f I. destruct f as [|n p' j k ph| |]; try reflexivity. cbn. apply Nat.eqb_neq. intros <-. apply N. eapply (only_alone _ _ _ O). eapply (g_loop _ _ _ (good_final h t')); eauto. }
    destruct (open_of p (bodies (stk (final h) t'))); [reflexivity|cbn in L; lia].
Qed.
