(** Client: everything requesters are told; deinit. *)
From Verif Require Import ListUtil CliModel CliSpec CliSpec2 CliProofs CliProofs2 CliProofs3 CliProofs5.

Lemma arrived_app l k : arrived (l ++ k) = arrived l ++ arrived k.
Proof. apply flat_map_app. Qed.
Lemma arrived_in l sid av : In (sid, av) (arrived l) <-> exists t, In (ECall t (CIn (MStatus sid (Some av)))) l.
Proof.
  unfold arrived. rewrite in_flat_map. split.
  - intros (e & I & J). destruct e as [t c| | | | | | | |]; try destruct J. destruct c as [| | |m| |]; try destruct J. destruct m as [x [a|]|]; try destruct J; [|contradiction]. inversion H; subst. eauto.
  - intros [t I]. eexists. split; [exact I|]. left. reflexivity.
Qed.

(** What a step does to the statuses. *)
Inductive stats_changed (s s' : state) : Prop :=
  | SC_same : stats s' = stats s -> stats_changed s s'
  | SC_put t sid av : nth_error (ths s) t = Some (QStore sid av) \/ nth_error (ths s) t = Some (QStore2 sid av) -> stats s' = put sid av (stats s) -> stats_changed s s'
  | SC_nil t : nth_error (ths s) t = Some QClear \/ nth_error (ths s) t = Some (QUnreg []) -> stats s' = [] -> stats_changed s s'.
Lemma step_stats s s' : step s s' -> stats_changed s s'.
Proof.
  intros S. destruct S; try (apply SC_same; reflexivity); try (eapply SC_put; [eauto|reflexivity]); try (eapply SC_nil; [eauto|reflexivity]).
  - apply SC_same. destruct (newreq_frame s sid) as (_ & B & _). exact B.
  - apply SC_same. destruct (tell1_frame s sid av) as (_ & B & _). exact B.
  - apply SC_same. destruct (tells_frame (reqs s) s) as (_ & B & _). exact B.
Qed.

Lemma state_ind2 (P : state -> Prop) : P init -> (forall s s', InvP s -> InvT s -> P s -> step s s' -> P s') -> forall h, P (final h).
Proof.
  intros P0 PS h. induction h as [|l h IH] using rev_ind; [exact P0|].
  rewrite final_snoc. destruct (next_step (final h) l) as [->|S]; [exact IH|]. eapply PS; [apply invP|apply invT|exact IH|exact S].
Qed.

Record InvA (s : state) : Prop := {
  a_nd : NoDup (keys (stats s));
  a_st : forall sid av, get sid (stats s) = Some av -> In (sid, av) (arrived (tr s));
  a_un : forall t l sid, nth_error (ths s) t = Some (QUnreg l) -> In sid l -> exists av, In (sid, av) (arrived (tr s)) }.

Lemma store_arrived s t sid av : InvT s -> nth_error (ths s) t = Some (QStore sid av) \/ nth_error (ths s) t = Some (QStore2 sid av) -> In (sid, av) (arrived (tr s)).
Proof. intros IT [N|N]; destruct (t_th _ IT _ _ N) as (c & I & OK); cbn in OK; subst c; apply arrived_in; eauto. Qed.

Lemma key_get {A} k (m : amap A) : In k (keys m) -> exists v, get k m = Some v.
Proof. induction m as [|[k' v] m IH]; cbn; [intros []|]. destruct (Nat.eqb_spec k k') as [->|]; [eauto|]. intros [<-|I]; [contradiction|auto]. Qed.

(** Threads in deinit. *)
Lemma unreg_step s s' t l : step s s' -> nth_error (ths s') t = Some (QUnreg l) ->
  nth_error (ths s) t = Some (QUnreg l) \/ (nth_error (ths s) t = Some QDeinit /\ l = keys (stats s)) \/ exists sid, nth_error (ths s) t = Some (QUnreg (sid :: l)).
Proof.
  intros S N'.
  assert (NEW : forall t0 q0 q1, nth_error (ths s) t0 = Some q0 -> ths s' = set_nth t0 q1 (ths s) -> (t0 = t -> q1 = QUnreg l -> nth_error (ths s) t = Some (QUnreg l) \/ (nth_error (ths s) t = Some QDeinit /\ l = keys (stats s)) \/ exists sid, nth_error (ths s) t = Some (QUnreg (sid :: l))) ->
    nth_error (ths s) t = Some (QUnreg l) \/ (nth_error (ths s) t = Some QDeinit /\ l = keys (stats s)) \/ exists sid, nth_error (ths s) t = Some (QUnreg (sid :: l))).
  { intros t0 q0 q1 N0 E H. rewrite E, (nth_set _ _ _ _ _ N0) in N'. destruct (Nat.eqb_spec t0 t) as [<-|]; [injection N' as N'; auto|auto]. }
  destruct S; try (eapply NEW; [eassumption|reflexivity|intros ? ?; discriminate]).
  - cbn in N'. rewrite nth_snoc in N'. destruct (Nat.eqb_spec t (length (ths s))); [|auto]. exfalso. injection N' as N'. destruct c as [| | |[? [|]|]| |]; discriminate N'.
  - destruct (newreq_frame s sid) as (_ & _ & _ & D & _). eapply NEW; [eassumption|unf; cbn; rewrite D; reflexivity|intros ? ?; discriminate].
  - destruct (tell1_frame s sid av) as (_ & _ & _ & D & _). eapply NEW; [eassumption|unf; cbn; rewrite D; reflexivity|intros ? ?; discriminate].
  - destruct (tells_frame (reqs s) s) as (_ & _ & _ & D & _). eapply NEW; [eassumption|unf; cbn; unfold tellall; rewrite D; reflexivity|intros ? ?; discriminate].
  - eapply NEW; [eassumption|reflexivity|]. intros -> E. injection E as <-. right. left. auto.
  - eapply NEW; [eassumption|reflexivity|]. intros -> E. injection E as ->. right. right. eauto.
Qed.

Lemma invA h : InvA (final h).
Proof.
  apply state_ind2; [split; cbn; [constructor|discriminate|intros [|]; discriminate]|]. intros s s' IP IT [ND AS AU] S.
  destruct (step_tr _ _ S) as [k TR]. assert (MON : forall x, In x (arrived (tr s)) -> In x (arrived (tr s'))) by (intros x I; rewrite TR, arrived_app; apply in_app_iff; auto).
  split.
  - destruct (step_stats _ _ S) as [->|? ? ? _ ->|? _ ->]; [exact ND|apply nodup_put; exact ND|constructor].
  - intros sid av G. apply MON. destruct (step_stats _ _ S) as [E|t sid' av' N E|t N E]; rewrite E in G; [auto| |discriminate].
    rewrite get_put in G. destruct (Nat.eqb_spec sid sid') as [->|]; [injection G as <-; exact (store_arrived _ _ _ _ IT N)|auto].
  - intros t l sid N I. destruct (unreg_step _ _ _ _ S N) as [N0|[[N0 ->]|[sid' N0]]].
    + destruct (AU _ _ _ N0 I) as [av J]. eauto.
    + apply key_get in I as [av G]. eauto.
    + destruct (AU _ _ sid N0 (or_intror I)) as [av J]. eauto.
Qed.

(** Everything a requester is told. *)
Theorem told_source h l1 o av l2 : trace h = l1 ++ ETold o av :: l2 ->
  exists sid, got (trace h) sid o /\ (In (sid, av) (arrived l1) \/ (av = Unavailable /\ exists t, In (ECall t (CPoll false)) l1)).
Proof.
  intros E. destruct (event_why _ _ _ _ E) as (h1 & k & k1 & k2 & h2 & H & L & K & T & W & _). cbn in W. destruct W as (t & W).
  pose proof (invP h1) as IP. pose proof (invT h1) as IT. pose proof (invA h1) as IA.
  assert (G1 : forall sid o, got (trace h1) sid o -> got (trace h) sid o) by (intros sid o' [tg I]; exists tg; rewrite T; apply in_app_iff; auto).
  assert (A1 : forall x, In x (arrived (trace h1)) -> In x (arrived l1)) by (intros x I; rewrite L, arrived_app; apply in_app_iff; auto).
  destruct W as [(sid & N & G & I)|[(sid & N & G)|(N & -> & I)]].
  - exists sid. split; [exists t; rewrite T; apply in_app_iff; right; apply in_app_iff; auto|]. left. apply A1, (a_st _ IA), G.
  - exists sid. split; [apply G1, (p_map _ IP), G|]. left. apply A1. destruct (t_th _ IT _ _ N) as (c & C & OK). cbn in OK. subst c. apply arrived_in. eauto.
  - apply in_map_iff in I as ([sid o'] & <- & I). cbn. exists sid. split; [apply G1, (p_map _ IP), in_get; [exact (p_nd _ IP)|exact I]|].
    right. split; [reflexivity|]. destruct (t_th _ IT _ _ N) as (c & C & OK). cbn in OK. subst c. exists t. rewrite L. apply in_app_iff. auto.
Qed.

(** What is sent to the server. *)
Theorem register_source h l1 r l2 : trace h = l1 ++ ERegister r :: l2 -> exists t, In (ECall t (CPoll true)) l1 /\ ~ returned l1 t.
Proof.
  intros E. destruct (event_why _ _ _ _ E) as (h1 & k & k1 & k2 & h2 & H & L & K & T & W & WW). cbn in W. destruct W as (t & N & EK). exists t.
  pose proof (invT h1) as IT. destruct (t_th _ IT _ _ N) as (c & C & OK). cbn in OK. subst c.
  assert (k1 = []). { rewrite EK in K. destruct k1 as [|x [|y [|]]]; [reflexivity|..]; discriminate K. }
  subst k1. rewrite app_nil_r in L. subst l1. split; [exact C|]. intros R. apply (t_ret _ IT) in R. congruence.
Qed.

Theorem unregister_source h l1 sid r l2 : trace h = l1 ++ EUnregister sid r :: l2 -> (exists t, In (ECall t CDeinit) l1) /\ exists av, In (sid, av) (arrived l1).
Proof.
  intros E. destruct (event_why _ _ _ _ E) as (h1 & k & k1 & k2 & h2 & H & L & K & T & W & _). cbn in W. destruct W as (t & l & N).
  destruct (t_th _ (invT h1) _ _ N) as (c & C & OK). cbn in OK. subst c. split; [exists t; rewrite L; apply in_app_iff; auto|].
  destruct (a_un _ (invA h1) _ _ sid N (or_introl eq_refl)) as [av I]. exists av. rewrite L, arrived_app. apply in_app_iff. auto.
Qed.

(** ** Requesters are freed once *)
Definition places (o : nat) (s : state) : nat := cnt (is_free o) (tr s) + cnt (Nat.eqb o) (map snd (reqs s)).
Lemma put_fresh {A} k (x : A) m : get k m = None -> put k x m = m ++ [(k, x)].
Proof. induction m as [|[k' y] m IH]; cbn; [reflexivity|]. destruct (Nat.eqb_spec k k'); [discriminate|]. intros G. rewrite IH by exact G. reflexivity. Qed.
Lemma cnt_one {A} (f : A -> bool) x : cnt f [x] = b2n (f x).
Proof. rewrite cnt_cons, cnt_nil. lia. Qed.

Lemma step_free s s' : step s s' -> (exists t, nth_error (ths s) t = Some QDeinit /\ reqs s' = [] /\ objs s' = objs s /\ tr s' = tr s ++ map (fun x => EFree (snd x)) (reqs s)
    /\ ths s' = set_nth t (QUnreg (keys (stats s))) (ths s)) \/
  (forall o, cnt (is_free o) (tr s') = cnt (is_free o) (tr s)) /\
  ((reqs s' = reqs s /\ length (objs s') = length (objs s)) \/ exists sid, get sid (reqs s) = None /\ reqs s' = put sid (length (objs s)) (reqs s) /\ length (objs s') = S (length (objs s))).
Proof.
  assert (OT : forall k o, only_told k -> cnt (is_free o) k = 0).
  { intros k o O. apply cnt_zero. intros e I. apply O in I as (? & ? & ->). reflexivity. }
  intros S. destruct S.
  all: try (match goal with |- context [newreq] => fail 1 | |- context [tell1] => fail 1 | |- context [tellall] => fail 1 | _ => idtac end;
     right; unf; cbn [tr reqs objs]; split; [intros o'; rewrite ?cnt_app, ?cnt_one; cbn; lia|left; split; reflexivity]).
  - right. destruct (newreq_frame s sid) as (A & _ & _ & _ & B & _ & k & K1 & K2). unf; cbn [tr reqs objs]. split.
    + intros o'. rewrite K1, !cnt_app, (OT k o' K2), !cnt_one. cbn. lia.
    + right. exists sid. auto.
  - right. destruct (tell1_frame s sid av) as (A & _ & _ & _ & B & _ & k & K1 & K2). unf; cbn [tr reqs objs]. split; [intros o'; rewrite K1, !cnt_app, (OT k o' K2), !cnt_one; cbn; lia|left; auto].
  - right. destruct (tells_frame (reqs s) s) as (A & _ & _ & _ & B & _ & k & K1 & K2). unf; unfold tellall; cbn [tr reqs objs]. split; [intros o'; rewrite K1, !cnt_app, (OT k o' K2); cbn; lia|left; auto].
  - left. exists t. repeat (apply conj; [first [assumption|reflexivity]|]). reflexivity.
Qed.

Lemma frees_cnt o l : cnt (is_free o) (map (fun x : nat * nat => EFree (snd x)) l) = cnt (Nat.eqb o) (map snd l).
Proof. induction l as [|x l IH]; [reflexivity|]. cbn [map]. rewrite !cnt_cons, IH. cbn [is_free]. rewrite Nat.eqb_sym. reflexivity. Qed.

Lemma invPlaces h o : (o < length (objs (final h)) -> places o (final h) = 1) /\ (length (objs (final h)) <= o -> places o (final h) = 0).
Proof.
  apply (state_ind (fun s => (o < length (objs s) -> places o s = 1) /\ (length (objs s) <= o -> places o s = 0))).
  - cbn. split; [lia|reflexivity].
  - intros s s' [A B] S. unfold places in *. destruct (step_free _ _ S) as [(t & N & -> & -> & -> & _)|[F [[-> ->]|(sid & G & -> & ->)]]].
    + rewrite cnt_app, frees_cnt. cbn [map]. rewrite cnt_nil. split; intros L; [specialize (A L)|specialize (B L)]; lia.
    + rewrite F. auto.
    + rewrite F, (put_fresh _ _ _ G), map_app, cnt_app. cbn [map snd]. rewrite cnt_one. destruct (Nat.eqb_spec o (length (objs s))) as [->|NE]; cbn [b2n].
      * split; [intros _; specialize (B (le_n _)); lia|lia].
      * split; intros L; [specialize (A ltac:(lia))|specialize (B ltac:(lia))]; lia.
Qed.
Theorem freed_once h o : cnt (is_free o) (trace h) <= 1.
Proof. destruct (invPlaces h o) as [A B]. unfold places, trace in *. destruct (lt_dec o (length (objs (final h)))) as [L|L]; [specialize (A L)|specialize (B ltac:(lia))]; lia. Qed.

Lemma got_lt h sid o : got (trace h) sid o -> o < length (objs (final h)).
Proof. intros [t I]. pose proof (p_got _ (invP h) _ _ _ I) as S. apply (p_lt _ (invP h)) in S. exact S. Qed.

Lemma leave_deinit s s' t q : step s s' -> nth_error (ths s) t = Some QDeinit -> nth_error (ths s') t = Some q -> q <> QDeinit -> reqs s' = [].
Proof.
  intros S N N' NQ.
  assert (NEW : forall t0 q0 q1, nth_error (ths s) t0 = Some q0 -> ths s' = set_nth t0 q1 (ths s) -> q0 <> QDeinit -> reqs s' = []).
  { intros t0 q0 q1 N0 E H. rewrite E, (nth_set _ _ _ _ _ N0) in N'. destruct (Nat.eqb_spec t0 t) as [<-|]; congruence. }
  pose proof (nth_lt _ _ _ N) as LT. assert (CALL : nth_error (ths s') t = nth_error (ths s) t -> reqs s' = []) by congruence. clear N.
  destruct S; try reflexivity; try (eapply NEW; [eassumption|reflexivity|discriminate]).
  - apply CALL. cbn. rewrite nth_snoc. destruct (Nat.eqb_spec t (length (ths s))); [lia|congruence].
  - destruct (newreq_frame s sid) as (_ & _ & _ & D & _). eapply NEW; [eassumption|unf; cbn; rewrite D; reflexivity|discriminate].
  - destruct (tell1_frame s sid av) as (_ & _ & _ & D & _). eapply NEW; [eassumption|unf; cbn; rewrite D; reflexivity|discriminate].
  - destruct (tells_frame (reqs s) s) as (_ & _ & _ & D & _). eapply NEW; [eassumption|unf; cbn; unfold tellall; rewrite D; reflexivity|discriminate].
Qed.

(** A deinit that has begun its work has taken every requester handed out before. *)
Lemma taken h : forall l1 t l2 q, trace h = l1 ++ ECall t CDeinit :: l2 -> nth_error (ths (final h)) t = Some q -> q <> QDeinit ->
  forall sid o, got l1 sid o -> ~ In o (map snd (reqs (final h))).
Proof.
  unfold trace. induction h as [|l h IH] using rev_ind; intros l1 t l2 q E N Q sid o G; [destruct l1; discriminate|]. rewrite final_snoc in *.
  destruct (next_step (final h) l) as [EQ|S]; [rewrite EQ in *; eapply IH; eassumption|].
  pose proof (invP h) as IP. pose proof (invT h) as IT. pose proof (got_lt h) as GL. unfold trace in GL. set (s := final h) in *. remember (next s l) as s' eqn:ES. clear ES l.
  destruct (step_tr _ _ S) as [k TR]. rewrite TR in E. apply app_split in E as [[x [E ->]]|[x [-> E]]].
  - assert (GS : got (tr s) sid o) by (destruct G as [tg I]; exists tg; rewrite E; apply in_app_iff; auto).
    assert (C : In (ECall t CDeinit) (tr s)) by (rewrite E; apply in_app_iff; right; left; reflexivity).
    pose proof (t_lt _ IT _ _ C) as L. destruct (nth_error (ths s) t) as [q0|] eqn:N0; [|apply nth_error_None in N0; lia].
    destruct (step_free _ _ S) as [(t1 & N1 & -> & _)|[F RQ]]; [intros []|].
    assert (DD : q0 = QDeinit \/ q0 <> QDeinit) by (destruct q0; (left; reflexivity) || (right; discriminate)).
    destruct DD as [->|D]; [rewrite (leave_deinit _ _ _ _ S N0 N Q); intros []|].
    pose proof (IH _ _ _ _ E N0 D _ _ G) as NI. destruct RQ as [[-> _]|(sid1 & G1 & -> & _)]; [exact NI|].
    rewrite (put_fresh _ _ _ G1), map_app, in_app_iff. cbn. intros [I|[<-|[]]]; [exact (NI I)|]. apply GL in GS. fold s in GS. lia.
  - exfalso. destruct (step_moved _ _ S) as [c ->|t1 q1 q1' k1 NN NQ TE TE' K1 K2 K3].
    + cbn in TR. apply app_inv_head in TR. rewrite <- TR in E. destruct x as [|? [|]]; try discriminate E. inversion E; subst. cbn in N. rewrite nth_snoc, Nat.eqb_refl in N. injection N as <-. apply Q. reflexivity.
    + rewrite TE' in TR. apply app_inv_head in TR. subst k1. apply (K1 t CDeinit). rewrite E. apply in_app_iff. right. left. reflexivity.
Qed.

Theorem deinit_frees h l1 t l2 sid o : trace h = l1 ++ ECall t CDeinit :: l2 -> got l1 sid o -> returned (trace h) t -> cnt (is_free o) (trace h) = 1.
Proof.
  intros E G R. apply (t_ret _ (invT h)) in R.
  assert (NI : ~ In o (map snd (reqs (final h)))) by (eapply taken; [exact E|exact R|discriminate|exact G]).
  assert (L : o < length (objs (final h))) by (apply (got_lt h sid); destruct G as [tg I]; exists tg; rewrite E; apply in_app_iff; auto).
  destruct (invPlaces h o) as [A _]. specialize (A L). unfold places in A.
  rewrite (cnt_zero (Nat.eqb o) (map snd _)) in A by (intros x I; apply Nat.eqb_neq; intros <-; exact (NI I)). unfold trace. lia.
Qed.

Theorem freed_by_deinit h l1 o l2 : trace h = l1 ++ EFree o :: l2 -> (exists sid, got l1 sid o) /\ exists t, In (ECall t CDeinit) l1 /\ ~ returned l1 t.
Proof.
  intros E. destruct (event_why _ _ _ _ E) as (h1 & k & k1 & k2 & h2 & H & L & K & T & W & WW). cbn in W. destruct W as (t & N & I & KE).
  pose proof (invP h1) as IP. pose proof (invT h1) as IT. destruct (t_th _ IT _ _ N) as (c & C & OK). cbn in OK. subst c. split.
  - apply in_map_iff in I as ([sid o'] & <- & I). cbn. exists sid. rewrite L. apply got_app. apply (p_map _ IP). apply in_get; [exact (p_nd _ IP)|exact I].
  - exists t. split; [rewrite L; apply in_app_iff; auto|]. intros R. rewrite L in R. apply returned_app in R as [R|[v R]]; [apply (t_ret _ IT) in R; congruence|].
    assert (RK : In (ERet t v) k) by (rewrite K; apply in_app_iff; auto). rewrite KE in RK. apply in_map_iff in RK as (? & RK & _). discriminate.
Qed.

Theorem fresh_after_deinit h l1 t l2 v l3 t' sid o sid' : trace h = l1 ++ ECall t CDeinit :: l2 ++ ERet t v :: l3 -> In (EGot t' sid o) l3 -> ~ got l1 sid' o.
Proof.
  intros E I G. apply in_split in I as (a & b & ->).
  assert (E' : trace h = (l1 ++ ECall t CDeinit :: l2 ++ ERet t v :: a) ++ EGot t' sid o :: b) by (rewrite E; rewrite <- !app_assoc; cbn; rewrite <- app_assoc; reflexivity).
  destruct (event_why _ _ _ _ E') as (h1 & k & k1 & k2 & h2 & H & L & K & T & W & WW). cbn in W. destruct W as (N & W & ko & KE & KO).
  pose proof (invT h1) as IT. pose proof (invP h1) as IP.
  assert (K1 : only_told k1).
  { rewrite KE in K. apply app_split in K as [[x [-> _]]|[x [-> K]]]; [intros e J; apply KO, in_app_iff; auto|]. destruct x as [|e0 [|e1 [|]]]; try discriminate K; [rewrite app_nil_r; exact KO]. }
  assert (KC : forall e, In e k1 -> (forall o av, e <> ETold o av) -> False) by (intros e J NT; destruct (K1 _ J) as (o0 & av0 & ->); exact (NT _ _ eq_refl)).
  symmetry in L. assert (SP : exists l2', trace h1 = l1 ++ ECall t CDeinit :: l2').
  { pose proof L as L'. apply app_split in L' as [[x [L' _]]|[x [_ L']]]; [eauto|]. exfalso. apply (KC (ECall t CDeinit)); [rewrite L'; apply in_app_iff; right; left; reflexivity|discriminate]. }
  assert (R : returned (trace h1) t).
  { exists v. assert (J : In (ERet t v) (trace h1 ++ k1)) by (rewrite L; apply in_app_iff; right; right; apply in_app_iff; right; left; reflexivity).
    apply in_app_iff in J as [J|J]; [exact J|]. exfalso. apply (KC _ J). discriminate. }
  destruct SP as [l2' SP]. apply (t_ret _ IT) in R. pose proof (taken h1 _ _ _ _ SP R ltac:(discriminate) _ _ G) as NI.
  assert (GL : o < length (objs (final h1))) by (apply (got_lt h1 sid'); rewrite SP; apply got_app; exact G).
  destruct W as [W|W]; [|lia]. apply NI. apply get_in in W. apply (in_map snd) in W. exact W.
Qed.
