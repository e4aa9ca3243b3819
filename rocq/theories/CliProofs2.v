(** Client: what each thread is doing; requesters belong to one service. *)
From Verif Require Import ListUtil CliModel CliSpec CliProofs.

Definition sid_of (s : state) (o : nat) : option nat := option_map r_sid (nth_error (objs s) o).

Definition okpc (l : list event) (c : call) (q : pc) : Prop :=
  match q with
  | QGet sid => c = CGet sid
  | QHas sid => c = CHas sid
  | QAsk sid => c = CAsk sid
  | QStore sid av | QStore2 sid av | QTell sid av => c = CIn (MStatus sid (Some av))
  | QTrue => exists sid, c = CIn (MStatus sid None)
  | QFind sid code => c = CIn (MOther sid code)
  | QDisp o sid code => c = CIn (MOther sid code) /\ exists x, sid = Some x /\ got l x o
  | QPoll up => c = CPoll up
  | QClear | QTellAll | QDown => c = CPoll false
  | QRegister => c = CPoll true
  | QDeinit | QUnreg _ => c = CDeinit
  | QDone => True
  end.

Lemma got_app l k sid o : got l sid o -> got (l ++ k) sid o.
Proof. intros [t I]. exists t. apply in_app_iff. auto. Qed.
Lemma okpc_app l k c q : okpc l c q -> okpc (l ++ k) c q.
Proof. destruct q; auto. intros [A (x & B & C)]. split; [exact A|exists x; split; [exact B|apply got_app; exact C]]. Qed.

(** What a step does to the requesters. *)
Inductive changed (s s' : state) : Prop :=
  | C_same : reqs s' = reqs s -> (forall o, sid_of s' o = sid_of s o) -> length (objs s') = length (objs s) ->
      (exists k, tr s' = tr s ++ k /\ forall t sid o, In (EGot t sid o) k -> get sid (reqs s) = Some o) -> changed s s'
  | C_new t sid : get sid (reqs s) = None -> reqs s' = put sid (length (objs s)) (reqs s) -> length (objs s') = S (length (objs s)) ->
      (forall o, sid_of s' o = if Nat.eqb o (length (objs s)) then Some sid else sid_of s o) ->
      (exists k, tr s' = tr s ++ k /\ In (EGot t sid (length (objs s))) k /\ forall t' sid' o, In (EGot t' sid' o) k -> sid' = sid /\ o = length (objs s)) -> changed s s'
  | C_drop t : nth_error (ths s) t = Some QDeinit -> reqs s' = [] -> objs s' = objs s -> tr s' = tr s ++ map (fun x => EFree (snd x)) (reqs s) -> changed s s'.

Lemma step_changed s s' : step s s' -> changed s s'.
Proof.
  intros S. destruct S.
  all: try (apply C_same; [reflexivity|reflexivity|reflexivity|]; unf; cbn; rewrite <- ?app_assoc; cbn;
     eexists; split; [first [reflexivity|symmetry; apply app_nil_r]|]; intros ? ? ? I; cbn in I;
     repeat match goal with H : _ \/ _ |- _ => destruct H end; try discriminate; try contradiction;
     match goal with H : EGot _ _ _ = EGot _ _ _ |- _ => injection H; intros; subst; assumption end).
  - destruct (newreq_frame s sid) as (A & B & C & D & E & F & k & K1 & K2).
    apply (C_new _ _ t sid); [assumption|exact A|exact E| |].
    + intros o. unfold sid_of. change (objs (ret (say (newreq s sid) [EGot t sid (length (objs s))]) t true)) with (objs (newreq s sid)). rewrite F, nth_snoc.
      destruct (Nat.eqb_spec o (length (objs s))) as [->|]; reflexivity.
    + exists (k ++ [EGot t sid (length (objs s)); ERet t true]). split; [unf; cbn; rewrite K1, <- !app_assoc; reflexivity|]. split; [apply in_app_iff; right; left; reflexivity|].
      intros t' sid' o I. apply in_app_iff in I as [I|[I|[I|[]]]]; [apply K2 in I as (? & ? & I); discriminate| |discriminate]. injection I; intros; subst; auto.
  - unfold tell1. destruct (get sid (reqs s)) as [o|].
    + destruct (tell_frame s av o) as (A & B & C & D & E & F). destruct (tell_tr s av o) as (k & K1 & K2).
      apply C_same; [exact A|exact F|exact E|]. exists (k ++ [ERet t true]). split; [unf; cbn; rewrite K1, <- app_assoc; reflexivity|].
      intros t' sid' o' I. apply in_app_iff in I as [I|[I|[]]]; [apply K2 in I as (? & ? & I)|]; discriminate.
    + apply C_same; try reflexivity. exists [ERet t true]. split; [reflexivity|]. intros ? ? ? [I|[]]. discriminate.
  - destruct (tells_frame (reqs s) s) as (A & B & C & D & E & F & k & K1 & K2). apply C_same; [exact A|exact F|exact E|].
    exists k. split; [exact K1|]. intros t' sid' o' I. apply K2 in I as (? & ? & I). discriminate.
  - eapply C_drop; [eassumption|reflexivity..].
Qed.

Record InvP (s : state) : Prop := {
  p_nd : NoDup (keys (reqs s));
  p_map : forall sid o, get sid (reqs s) = Some o -> sid_of s o = Some sid /\ got (tr s) sid o;
  p_got : forall t sid o, In (EGot t sid o) (tr s) -> sid_of s o = Some sid;
  p_lt : forall o x, sid_of s o = Some x -> o < length (objs s) }.

Lemma invP h : InvP (final h).
Proof.
  apply (state_ind InvP).
  - split; [constructor|discriminate|intros ? ? ? []|intros [|] ?; discriminate].
  - intros s s' IP S. destruct IP as [ND PM PG PL].
    assert (LT : forall s o x, sid_of s o = Some x -> o < length (objs s)) by (intros s0 o x; unfold sid_of; destruct (nth_error (objs s0) o) eqn:E; [intros _; apply nth_lt in E; exact E|discriminate]).
    destruct (step_changed _ _ S) as [RQ SD LE (k & TR & K)|t sid G RQ LE SD (k & TR & K1 & K2)|t N RQ OB TR].
    + split; [rewrite RQ; exact ND|..|apply LT].
      * intros sid o G. rewrite RQ in G. rewrite SD, TR. destruct (PM _ _ G) as [A B]. split; [exact A|apply got_app; exact B].
      * intros t sid o I. rewrite SD. rewrite TR in I. apply in_app_iff in I as [I|I]; [exact (PG _ _ _ I)|apply PM, (K _ _ _ I)].
    + assert (NL : forall o x, sid_of s o = Some x -> o <> length (objs s)) by (intros o x H ->; apply PL in H; lia).
      split; [rewrite RQ; apply nodup_put; exact ND|..|apply LT].
      * intros sid' o G'. rewrite RQ, get_put in G'. rewrite SD, TR. destruct (Nat.eqb_spec sid' sid) as [->|NE].
        -- injection G' as <-. rewrite Nat.eqb_refl. split; [reflexivity|]. exists t. apply in_app_iff. auto.
        -- destruct (PM _ _ G') as [A B]. destruct (Nat.eqb_spec o (length (objs s))) as [->|]; [destruct (NL _ _ A eq_refl)|]. split; [exact A|apply got_app; exact B].
      * intros t' sid' o I. rewrite SD. rewrite TR in I. apply in_app_iff in I as [I|I].
        -- pose proof (PG _ _ _ I) as A. destruct (Nat.eqb_spec o (length (objs s))) as [->|]; [destruct (NL _ _ A eq_refl)|exact A].
        -- apply K2 in I as [-> ->]. rewrite Nat.eqb_refl. reflexivity.
    + split; [rewrite RQ; constructor|..|apply LT].
      * intros sid o G. rewrite RQ in G. discriminate.
      * intros t' sid o I. unfold sid_of in *. rewrite OB. rewrite TR in I. apply in_app_iff in I as [I|I]; [exact (PG _ _ _ I)|]. apply in_map_iff in I as (x & I & _). discriminate.
Qed.

Record InvT (s : state) : Prop := {
  t_th : forall t q, nth_error (ths s) t = Some q -> exists c, In (ECall t c) (tr s) /\ okpc (tr s) c q;
  t_call : forall t c c', In (ECall t c) (tr s) -> In (ECall t c') (tr s) -> c = c';
  t_lt : forall t c, In (ECall t c) (tr s) -> t < length (ths s);
  t_ret : forall t, returned (tr s) t -> nth_error (ths s) t = Some QDone;
  t_done : forall t, nth_error (ths s) t = Some QDone -> returned (tr s) t }.

Lemma returned_app l k t : returned (l ++ k) t <-> returned l t \/ returned k t.
Proof.
  split; [intros [v I]; apply in_app_iff in I as [I|I]; [left|right]; exists v; exact I|].
  intros [[v I]|[v I]]; exists v; apply in_app_iff; auto.
Qed.

(** Where a thread goes. *)
Lemma step_pc s s' t q q' c : InvP s -> step s s' -> nth_error (ths s) t = Some q -> nth_error (ths s') t = Some q' -> okpc (tr s) c q -> okpc (tr s') c q'.
Proof.
  intros IP S N N' OK.
  assert (TR : exists k, tr s' = tr s ++ k) by (destruct (step_moved _ _ S) as [c0 ->|? ? ? k _ _ _ E]; [eexists; reflexivity|exists k; exact E]).
  assert (NEW : forall t0 q0 q1, nth_error (ths s) t0 = Some q0 -> ths s' = set_nth t0 q1 (ths s) -> (okpc (tr s) c q0 -> okpc (tr s') c q1) -> okpc (tr s') c q').
  { intros t0 q0 q1 N0 E H. rewrite E, (nth_set _ _ _ _ _ N0) in N'. destruct (Nat.eqb_spec t0 t) as [<-|].
    - injection N' as <-. rewrite N in N0. injection N0 as <-. exact (H OK).
    - rewrite N in N'. injection N' as <-. destruct TR as [k ->]. apply okpc_app. exact OK. }
  assert (CALL : nth_error (ths s') t = nth_error (ths s) t -> okpc (tr s') c q').
  { intros E. rewrite E, N in N'. injection N' as <-. destruct TR as [k ->]. apply okpc_app. exact OK. }
  pose proof (nth_lt _ _ _ N) as LT. clear N N' OK TR.
  destruct S; try (eapply NEW; [eassumption|reflexivity|cbn; intros X; solve [exact I|exact X|eauto]]).
  - apply CALL. cbn. rewrite nth_snoc. destruct (Nat.eqb_spec t (length (ths s))) as [->|]; [lia|reflexivity].
  - destruct (newreq_frame s sid) as (_ & _ & _ & D & _). eapply NEW; [eassumption|unf; cbn; rewrite D; reflexivity|intros _; exact I].
  - destruct (tell1_frame s sid av) as (_ & _ & _ & D & _). eapply NEW; [eassumption|unf; cbn; rewrite D; reflexivity|intros _; exact I].
  - eapply NEW; [eassumption|reflexivity|]. cbn. intros X. split; [exact X|]. unfold find in *. destruct sid as [x|]; [|discriminate]. exists x. split; [reflexivity|].
    match goal with G : get _ _ = Some _ |- _ => exact (proj2 (p_map _ IP _ _ G)) end.
  - destruct (tells_frame (reqs s) s) as (_ & _ & _ & D & _). eapply NEW; [eassumption|unf; cbn; unfold tellall; rewrite D; reflexivity|cbn; auto].
Qed.

Lemma start_ok l c : okpc l c (start_pc c).
Proof. destruct c; cbn; try reflexivity. destruct m as [sid [av|]|sid code]; cbn; eauto. Qed.
Lemma start_notdone c : start_pc c <> QDone.
Proof. destruct c; cbn; try discriminate. destruct m as [sid [av|]|sid code]; discriminate. Qed.

Lemma invT h : InvT (final h).
Proof.
  induction h as [|l h IH] using rev_ind.
  - split; [intros [|] ?; discriminate|intros ? ? ? []|intros ? ? []|intros ? [? []]|intros [|]; discriminate].
  - rewrite final_snoc. destruct (next_step (final h) l) as [->|S]; [exact IH|].
    pose proof (invP h) as IP. set (s := final h) in *. remember (next s l) as s' eqn:ES. clear ES l. destruct IH as [TT TC TL TRT TD].
    pose proof (fun t q q' c => step_pc s s' t q q' c IP S) as SP.
    destruct (step_moved _ _ S) as [c E|t q q' k N NQ TE TE' K1 K2 K3].
    + subst s'. cbn. unfold say; cbn. split; cbn.
      * intros t q N. rewrite nth_snoc in N. destruct (Nat.eqb_spec t (length (ths s))) as [->|].
        -- injection N as <-. exists c. split; [apply in_app_iff; right; left; reflexivity|apply start_ok].
        -- destruct (TT _ _ N) as (c' & A & B). exists c'. split; [apply in_app_iff; auto|apply okpc_app; exact B].
      * intros t c1 c2 I1 I2. apply in_app_iff in I1, I2. destruct I1 as [I1|[I1|[]]], I2 as [I2|[I2|[]]]; [eauto|..|congruence].
        -- injection I2 as <- <-. apply TL in I1. lia.
        -- injection I1 as <- <-. apply TL in I2. lia.
      * intros t c1 I. rewrite app_length. cbn. apply in_app_iff in I as [I|[I|[]]]; [apply TL in I; lia|injection I as <- <-; lia].
      * intros t R. apply returned_app in R as [R|[v [R|[]]]]; [|discriminate]. apply TRT in R. rewrite nth_error_app1; [exact R|apply nth_lt in R; exact R].
      * intros t N. rewrite nth_snoc in N. destruct (Nat.eqb_spec t (length (ths s))) as [EQ|NE]; [exfalso; apply (start_notdone c); congruence|]. apply returned_app. left. auto.
    + split.
      * intros t1 q1 N1. pose proof N1 as N1'. rewrite TE, (nth_set _ _ _ _ _ N) in N1.
        assert (OLD : exists q0, nth_error (ths s) t1 = Some q0) by (destruct (Nat.eqb_spec t t1) as [<-|]; eauto).
        destruct OLD as [q0 N0]. destruct (TT _ _ N0) as (c & A & B). exists c. split; [rewrite TE'; apply in_app_iff; auto|eapply SP; eassumption].
      * intros t1 c1 c2 I1 I2. rewrite TE' in I1, I2. apply in_app_iff in I1 as [I1|I1]; [|destruct (K1 _ _ I1)]. apply in_app_iff in I2 as [I2|I2]; [|destruct (K1 _ _ I2)]. eauto.
      * intros t1 c1 I1. rewrite TE' in I1. apply in_app_iff in I1 as [I1|I1]; [|destruct (K1 _ _ I1)]. rewrite TE, length_set_nth. eauto.
      * intros t1 R. rewrite TE, (nth_set _ _ _ _ _ N). rewrite TE' in R. apply returned_app in R as [R|[v R]].
        -- apply TRT in R. destruct (Nat.eqb_spec t t1) as [<-|]; [congruence|exact R].
        -- pose proof (K2 _ _ R) as ->. rewrite Nat.eqb_refl. f_equal. apply K3. exists v. exact R.
      * intros t1 N1. rewrite TE, (nth_set _ _ _ _ _ N) in N1. rewrite TE'. apply returned_app. destruct (Nat.eqb_spec t t1) as [EQ|NE]; [right; subst t1; apply K3; congruence|left; auto].
Qed.

Lemma no_deinit_app l k : no_deinit (l ++ k) -> no_deinit l.
Proof. intros H t I. apply (H t). apply in_app_iff. auto. Qed.
Lemma step_tr s s' : step s s' -> exists k, tr s' = tr s ++ k.
Proof. intros S. destruct (step_moved _ _ S) as [c ->|? ? ? k _ _ _ E]; [eexists; reflexivity|exists k; exact E]. Qed.

Lemma not_deinit s t q : InvT s -> no_deinit (tr s) -> nth_error (ths s) t = Some q -> q <> QDeinit /\ forall l, q <> QUnreg l.
Proof.
  intros IT ND N. destruct (t_th _ IT _ _ N) as (c & I & OK). split; [intros ->|intros l ->]; cbn in OK; subst; exact (ND _ I).
Qed.

Lemma invD h : no_deinit (trace h) -> forall o sid, sid_of (final h) o = Some sid -> get sid (reqs (final h)) = Some o.
Proof.
  unfold trace. induction h as [|l h IH] using rev_ind; [intros _ [|] ?; discriminate|].
  rewrite final_snoc. destruct (next_step (final h) l) as [->|S]; [exact IH|].
  pose proof (invT h) as IT. pose proof (invP h) as IP. set (s := final h) in *. remember (next s l) as s' eqn:ES. clear ES l.
  intros ND'. assert (ND : no_deinit (tr s)) by (destruct (step_tr _ _ S) as [k E]; rewrite E in ND'; exact (no_deinit_app _ _ ND')). specialize (IH ND).
  destruct (step_changed _ _ S) as [RQ SD LE (k & TR & K)|t sid G RQ LE SD (k & TR & K1 & K2)|t N RQ OB TR].
  - intros o sid. rewrite SD, RQ. apply IH.
  - intros o sid'. rewrite SD, RQ, get_put. destruct (Nat.eqb_spec o (length (objs s))) as [->|].
    + intros [= <-]. rewrite Nat.eqb_refl. reflexivity.
    + intros H. specialize (IH _ _ H). destruct (Nat.eqb_spec sid' sid) as [->|]; [congruence|exact IH].
  - destruct (not_deinit _ _ _ IT ND N) as [X _]. congruence.
Qed.

Theorem same_requester h sid o o' : no_deinit (trace h) -> got (trace h) sid o -> got (trace h) sid o' -> o = o'.
Proof.
  intros ND [t I] [t' I']. pose proof (invP h) as IP. pose proof (invD h ND _ _ (p_got _ IP _ _ _ I)). pose proof (invD h ND _ _ (p_got _ IP _ _ _ I')). congruence.
Qed.
Theorem own_service h sid sid' o : got (trace h) sid o -> got (trace h) sid' o -> sid = sid'.
Proof.
  intros [t I] [t' I']. pose proof (invP h) as IP. pose proof (p_got _ IP _ _ _ I) as A. pose proof (p_got _ IP _ _ _ I') as B. congruence.
Qed.

(** Dispatch. *)
Lemma dispatched_app l k t : dispatched (l ++ k) t = dispatched l t ++ dispatched k t.
Proof. apply flat_map_app. Qed.
Lemma dispatched_nil l t : (forall o sid m, ~ In (EDisp t o sid m) l) -> dispatched l t = [].
Proof.
  unfold dispatched. induction l as [|e l IH]; intros H; [reflexivity|]. cbn. rewrite IH by (intros o sid m I; apply (H o sid m); right; exact I). rewrite app_nil_r.
  destruct e; try reflexivity. destruct (Nat.eqb_spec t t0) as [->|]; [|reflexivity]. destruct (H o sid code). left. reflexivity.
Qed.
Lemma dispatched_told k t : only_told k -> dispatched k t = [].
Proof. intros O. apply dispatched_nil. intros o sid m I. apply O in I as (? & ? & I). discriminate. Qed.

Definition refused (l : list event) (t : nat) (sid : option nat) : Prop :=
  exists l1 l2, l = l1 ++ ERet t false :: l2 /\ (no_deinit l1 -> forall x, sid = Some x -> forall o, ~ got l1 x o).
Definition disp_ok (l : list event) (t : nat) (q : pc) (sid : option nat) (code : opcode) : Prop :=
  match q with
  | QDone => (exists o x, dispatched l t = [(o, sid, code)] /\ sid = Some x /\ got l x o) \/ (dispatched l t = [] /\ refused l t sid)
  | _ => dispatched l t = []
  end.
Lemma refused_app l k t m : refused l t m -> refused (l ++ k) t m.
Proof. intros (l1 & l2 & -> & R). exists l1, (l2 ++ k). rewrite <- app_assoc. auto. Qed.

Definition dstep (s s' : state) : Prop := exists k, tr s' = tr s ++ k /\
  ((exists c, k = [ECall (length (ths s)) c] /\ ths s' = ths s ++ [start_pc c]) \/
   (exists t q q', nth_error (ths s) t = Some q /\ q <> QDone /\ ths s' = set_nth t q' (ths s) /\ (forall t' c, ~ In (ECall t' c) k)
     /\ (forall t', t' <> t -> dispatched k t' = [])
     /\ match q with
        | QFind sid code => (exists o, q' = QDisp o sid code /\ k = []) \/ (find s sid = None /\ k = [ERet t false] /\ q' = QDone)
        | QDisp o sid code => dispatched k t = [(o, sid, code)] /\ q' = QDone
        | _ => True
        end)).
Lemma step_disp s s' : step s s' -> dstep s s'.
Proof.
  assert (OT : forall k t, only_told k -> (forall t' c, ~ In (ECall t' c) k) /\ dispatched k t = []).
  { intros k t O. split; [intros t' c I; apply O in I as (? & ? & I); discriminate|apply dispatched_told; exact O]. }
  intros S. destruct S.
  all: try (match goal with |- dstep _ (ret (say (newreq _ _) _) _ _) => fail 1 | |- dstep _ (ret (tell1 _ _ _) _ _) => fail 1 | |- dstep _ (goto (tellall _) _ _) => fail 1
            | |- dstep _ (goto (say _ (map _ _)) _ _) => fail 1 | _ => idtac end;
     unf; unfold dstep; cbn [tr ths]; rewrite <- ?app_assoc; cbn [app]; eexists; split; [first [reflexivity|symmetry; apply app_nil_r]|];
     first [left; eexists; split; reflexivity|
     right; do 3 eexists; split; [eassumption|]; split; [discriminate|]; split; [reflexivity|];
       split; [intros ? ? II; cbn in II; intuition discriminate|];
       split; [intros t' NE; cbn; first [reflexivity|destruct (Nat.eqb_spec t' t); [contradiction|reflexivity]]|];
       cbn; first [exact I|rewrite Nat.eqb_refl; auto|eauto]]).
  - destruct (newreq_frame s sid) as (_ & _ & _ & D & _ & _ & k & K1 & K2). exists (k ++ [EGot t sid (length (objs s)); ERet t true]).
    split; [unf; cbn [tr]; rewrite K1, <- !app_assoc; reflexivity|]. right. exists t, (QGet sid), QDone. split; [assumption|]. split; [discriminate|].
    split; [unf; cbn [ths]; rewrite D; reflexivity|]. split; [|split; [|exact I]].
    + intros t' c I. apply in_app_iff in I as [I|[I|[I|[]]]]; [apply (proj1 (OT k t K2)) in I; exact I|discriminate|discriminate].
    + intros t' _. rewrite dispatched_app. rewrite (proj2 (OT k t' K2)). reflexivity.
  - destruct (tell1_frame s sid av) as (_ & _ & _ & D & _ & _ & k & K1 & K2). exists (k ++ [ERet t true]).
    split; [unf; cbn [tr]; rewrite K1, <- !app_assoc; reflexivity|]. right. exists t, (QTell sid av), QDone. split; [assumption|]. split; [discriminate|].
    split; [unf; cbn [ths]; rewrite D; reflexivity|]. split; [|split; [|exact I]].
    + intros t' c I. apply in_app_iff in I as [I|[I|[]]]; [apply (proj1 (OT k t K2)) in I; exact I|discriminate].
    + intros t' _. rewrite dispatched_app. rewrite (proj2 (OT k t' K2)). reflexivity.
  - destruct (tells_frame (reqs s) s) as (_ & _ & _ & D & _ & _ & k & K1 & K2). exists k.
    split; [exact K1|]. right. exists t, QTellAll, QDown. split; [assumption|]. split; [discriminate|].
    split; [unf; cbn [ths]; unfold tellall; rewrite D; reflexivity|]. split; [|split; [|exact I]].
    + apply (proj1 (OT k t K2)).
    + intros t' _. apply (proj2 (OT k t' K2)).
  - exists (map (fun x => EFree (snd x)) (reqs s)). split; [reflexivity|]. right. exists t, QDeinit. eexists. split; [assumption|]. split; [discriminate|].
    split; [reflexivity|]. split; [|split; [|exact I]].
    + intros t' c I. apply in_map_iff in I as (? & I & _). discriminate.
    + intros t' _. apply dispatched_nil. intros o x m I. apply in_map_iff in I as (? & I & _). discriminate.
Qed.

Lemma disp_lt h t o sid m : In (EDisp t o sid m) (trace h) -> t < length (ths (final h)).
Proof.
  unfold trace. apply (state_ind (fun s => In (EDisp t o sid m) (tr s) -> t < length (ths s))); [intros []|].
  intros s s' IH S I. destruct (step_disp _ _ S) as (k & TR & [(c & -> & TE)|(t0 & q & q' & N & NQ & TE & NC & ND & _)]); rewrite TR in I; rewrite TE.
  - rewrite app_length. apply in_app_iff in I as [I|[I|[]]]; [apply IH in I; lia|discriminate].
  - rewrite length_set_nth. apply in_app_iff in I as [I|I]; [auto|]. destruct (Nat.eq_dec t t0) as [->|NE]; [apply nth_lt in N; exact N|].
    specialize (ND _ NE). exfalso. assert (X : In (o, sid, m) (dispatched k t)); [|rewrite ND in X; exact X].
    unfold dispatched. apply in_flat_map. eexists. split; [exact I|]. cbn. rewrite Nat.eqb_refl. left. reflexivity.
Qed.

Lemma other_pc l sid code q : okpc l (CIn (MOther sid code)) q -> q = QFind sid code \/ (exists o, q = QDisp o sid code) \/ q = QDone.
Proof.
  destruct q; cbn; try discriminate; intros H; auto.
  - destruct H as [? ?]; discriminate.
  - injection H as -> ->. auto.
  - destruct H as [[= -> ->] _]. eauto.
Qed.

Lemma invDisp h t q sid code : nth_error (ths (final h)) t = Some q -> In (ECall t (CIn (MOther sid code))) (trace h) -> disp_ok (trace h) t q sid code.
Proof.
  unfold trace. revert t q sid code. induction h as [|l h IH] using rev_ind; [intros [|] ? ?; discriminate|].
  intros t1 q1 sid code N1 I1. rewrite final_snoc in *. destruct (next_step (final h) l) as [E|S]; [rewrite E in *; apply IH; assumption|].
  pose proof (invP h) as IP. pose proof (invT h) as IT. pose proof (disp_lt h) as DL. unfold trace in DL. pose proof (invD h) as ID. unfold trace in ID.
  set (s := final h) in *. remember (next s l) as s' eqn:ES. clear ES l.
  destruct (step_disp _ _ S) as (k & TR & K).
  assert (KEEP : dispatched k t1 = [] -> (forall c, ~ In (ECall t1 c) k) -> nth_error (ths s) t1 = Some q1 -> disp_ok (tr s') t1 q1 sid code).
  { intros DK NC N. assert (IC : In (ECall t1 (CIn (MOther sid code))) (tr s)) by (rewrite TR in I1; apply in_app_iff in I1 as [I1|I1]; [exact I1|destruct (NC _ I1)]).
    specialize (IH _ _ _ _ N IC). unfold disp_ok in *. rewrite TR, dispatched_app, DK, app_nil_r. destruct q1; try exact IH.
    destruct IH as [(o & x & A & B & G)|[A B]]; [left; exists o, x; auto using got_app|right; auto using refused_app]. }
  destruct K as [(c & -> & TE)|(t & q & q' & N & NQ & TE & NC & ND & SH)].
  - rewrite TE, nth_snoc in N1. destruct (Nat.eqb_spec t1 (length (ths s))) as [->|NE].
    + injection N1 as <-. rewrite TR in I1. apply in_app_iff in I1 as [I1|[I1|[]]]; [apply (t_lt _ IT) in I1; lia|].
      injection I1 as ->. cbn. rewrite TR, dispatched_app. cbn. rewrite app_nil_r. apply dispatched_nil. intros o x m' I. apply DL in I. lia.
    + apply KEEP; [reflexivity| |exact N1]. intros c0 [[= E _]|[]]. congruence.
  - rewrite TE, (nth_set _ _ _ _ _ N) in N1. destruct (Nat.eqb_spec t t1) as [<-|NE].
    2: { apply KEEP; [apply ND; congruence|intros c; apply NC|exact N1]. }
    injection N1 as <-.
    assert (IC : In (ECall t (CIn (MOther sid code))) (tr s)) by (rewrite TR in I1; apply in_app_iff in I1 as [I1|I1]; [exact I1|destruct (NC _ _ I1)]).
    destruct (t_th _ IT _ _ N) as (c & I & OK). rewrite (t_call _ IT _ _ _ I IC) in OK.
    specialize (IH _ _ _ _ N IC). destruct (other_pc _ _ _ _ OK) as [-> |[[o -> ]| -> ]]; cbn in IH, SH.
    + destruct SH as [(o & -> & -> )|(F & -> & -> )]; rewrite TR.
      * rewrite app_nil_r. exact IH.
      * right. rewrite dispatched_app. cbn. rewrite app_nil_r. split; [exact IH|]. exists (tr s), []. split; [reflexivity|].
        intros NDE x -> o [tg G]. unfold find in F. rewrite (ID NDE _ _ (p_got _ IP _ _ _ G)) in F. discriminate.
    + destruct SH as [D ->]. rewrite TR. cbn. rewrite dispatched_app, IH, D. left. destruct OK as (_ & x & SI & G).
      exists o, x. auto using got_app.
    + contradiction.
Qed.
