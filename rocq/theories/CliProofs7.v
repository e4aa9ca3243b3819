(** Client: deinit gives up every known service. *)
From Verif Require Import ListUtil CliModel CliSpec CliSpec2 CliProofs CliProofs2 CliProofs3 CliProofs5 CliProofs6.

Lemma dead_pc s s' t q q' : step s s' -> nth_error (ths s) t = Some q -> nth_error (ths s') t = Some q' -> q <> QDeinit -> q' <> QDeinit.
Proof.
  intros S N N' NQ ->.
  assert (NEW : forall t0 q0 q1, nth_error (ths s) t0 = Some q0 -> ths s' = set_nth t0 q1 (ths s) -> q1 <> QDeinit -> False).
  { intros t0 q0 q1 N0 E H. rewrite E, (nth_set _ _ _ _ _ N0) in N'. destruct (Nat.eqb_spec t0 t) as [<-|]; congruence. }
  pose proof (nth_lt _ _ _ N) as LT. assert (CALL : nth_error (ths s') t = nth_error (ths s) t -> False) by congruence. clear N.
  destruct S; try (eapply NEW; [eassumption|reflexivity|discriminate]).
  - apply CALL. cbn. rewrite nth_snoc. destruct (Nat.eqb_spec t (length (ths s))); [lia|reflexivity].
  - destruct (newreq_frame s sid) as (_ & _ & _ & D & _). eapply NEW; [eassumption|unf; cbn; rewrite D; reflexivity|discriminate].
  - destruct (tell1_frame s sid av) as (_ & _ & _ & D & _). eapply NEW; [eassumption|unf; cbn; rewrite D; reflexivity|discriminate].
  - destruct (tells_frame (reqs s) s) as (_ & _ & _ & D & _). eapply NEW; [eassumption|unf; cbn; unfold tellall; rewrite D; reflexivity|discriminate].
Qed.

Lemma step_unreg s s' : step s s' -> (exists t sid l r, nth_error (ths s) t = Some (QUnreg (sid :: l)) /\ tr s' = tr s ++ [EUnregister sid r] /\ ths s' = set_nth t (QUnreg l) (ths s)) \/
  (forall sid, cnt (is_unreg sid) (tr s') = cnt (is_unreg sid) (tr s)).
Proof.
  assert (OT : forall k o, only_told k -> cnt (is_unreg o) k = 0).
  { intros k o O. apply cnt_zero. intros e I. apply O in I as (? & ? & ->). reflexivity. }
  intros S. destruct S.
  all: try (match goal with |- context [newreq] => fail 1 | |- context [tell1] => fail 1 | |- context [tellall] => fail 1 | |- context [map] => fail 1 | _ => idtac end;
     right; unf; cbn [tr]; intros o'; rewrite ?cnt_app, ?cnt_one; cbn; lia).
  - right. destruct (newreq_frame s sid) as (_ & _ & _ & _ & _ & _ & k & K1 & K2). unf; cbn [tr]. intros o'. rewrite K1, !cnt_app, (OT k o' K2), !cnt_one. cbn. lia.
  - right. destruct (tell1_frame s sid av) as (_ & _ & _ & _ & _ & _ & k & K1 & K2). unf; cbn [tr]. intros o'; rewrite K1, !cnt_app, (OT k o' K2), !cnt_one; cbn; lia.
  - right. destruct (tells_frame (reqs s) s) as (_ & _ & _ & _ & _ & _ & k & K1 & K2). unf; unfold tellall; cbn [tr]. intros o'; rewrite K1, !cnt_app, (OT k o' K2); cbn; lia.
  - right. unf; cbn [tr]. intros sid. rewrite cnt_app, (cnt_zero _ (map _ _)); [lia|]. intros e I. apply in_map_iff in I as (x & <- & _). reflexivity.
  - left. exists t, sid, l, r. auto.
Qed.

(** A thread that stores a status does so before it goes on. *)
Lemma store_step s s' t sid av : step s s' -> nth_error (ths s) t = Some (QStore sid av) -> nth_error (ths s') t = Some (QStore sid av) \/ stats s' = put sid av (stats s).
Proof.
  intros S N.
  assert (NEW : forall t0 q0 q1, nth_error (ths s) t0 = Some q0 -> ths s' = set_nth t0 q1 (ths s) -> (forall x a, q0 <> QStore x a) -> nth_error (ths s') t = Some (QStore sid av) \/ stats s' = put sid av (stats s)).
  { intros t0 q0 q1 N0 E H. left. rewrite E, (nth_set _ _ _ _ _ N0). destruct (Nat.eqb_spec t0 t) as [<-|]; [|exact N]. rewrite N in N0. injection N0 as <-. destruct (H _ _ eq_refl). }
  assert (ST : forall t0 x a q1, nth_error (ths s) t0 = Some (QStore x a) -> ths s' = set_nth t0 q1 (ths s) -> stats s' = put x a (stats s) -> nth_error (ths s') t = Some (QStore sid av) \/ stats s' = put sid av (stats s)).
  { intros t0 x a q1 N0 E H. rewrite E, (nth_set _ _ _ _ _ N0). destruct (Nat.eqb_spec t0 t) as [<-|]; [|auto]. rewrite N in N0. injection N0 as <- <-. auto. }
  pose proof (nth_lt _ _ _ N) as LT. assert (CALL : nth_error (ths s') t = nth_error (ths s) t -> nth_error (ths s') t = Some (QStore sid av) \/ stats s' = put sid av (stats s)) by (intros E; left; congruence). clear N.
  destruct S; try (eapply NEW; [eassumption|reflexivity|intros ? ?; discriminate]).
  - apply CALL. cbn. rewrite nth_snoc. destruct (Nat.eqb_spec t (length (ths s))); [lia|reflexivity].
  - destruct (newreq_frame s sid0) as (_ & _ & _ & D & _). eapply NEW; [eassumption|unf; cbn; rewrite D; reflexivity|intros ? ?; discriminate].
  - eapply ST; [eassumption|reflexivity|reflexivity].
  - destruct (tell1_frame s sid0 av0) as (_ & _ & _ & D & _). eapply NEW; [eassumption|unf; cbn; rewrite D; reflexivity|intros ? ?; discriminate].
  - destruct (tells_frame (reqs s) s) as (_ & _ & _ & D & _). eapply NEW; [eassumption|unf; cbn; unfold tellall; rewrite D; reflexivity|intros ? ?; discriminate].
Qed.

Lemma key_put {A} k k' (v : A) m : In k (keys (put k' v m)) <-> k = k' \/ In k (keys m).
Proof.
  split.
  - intros I. apply key_get in I as [x G]. rewrite get_put in G. destruct (Nat.eqb_spec k k'); [auto|]. right. apply get_in in G. apply (in_map fst) in G. exact G.
  - intros I. assert (G : exists x, get k (put k' v m) = Some x); [|destruct G as [x G]; apply get_in in G; apply (in_map fst) in G; exact G].
    rewrite get_put. destruct (Nat.eqb_spec k k'); [eauto|]. destruct I as [I|I]; [contradiction|]. apply key_get. exact I.
Qed.

Definition early (s : state) (t : nat) : Prop := forall q, nth_error (ths s) t = Some q -> In (ECall t CDeinit) (tr s) -> q = QDeinit.
Definition stored (s : state) (t sid : nat) : Prop := (exists av, nth_error (ths s) t = Some (QStore sid av)) \/ In sid (keys (stats s)).

Lemma early_back s s' t : InvT s -> step s s' -> early s' t -> early s t.
Proof.
  intros IT S E q N I. assert (D : q = QDeinit \/ q <> QDeinit) by (destruct q; (left; reflexivity) || (right; discriminate)). destruct D as [D|D]; [exact D|]. exfalso.
  assert (N' : exists q', nth_error (ths s') t = Some q').
  { destruct (nth_error (ths s') t) eqn:X; [eauto|]. apply nth_error_None in X. apply nth_lt in N. destruct (step_moved _ _ S) as [c ->|t1 q1 q1' k1 NN NQ TE TE' K1 K2 K3]; [cbn in X; rewrite app_length in X; lia|rewrite TE, length_set_nth in X; lia]. }
  destruct N' as [q' N']. apply (dead_pc _ _ _ _ _ S N N' D). apply (E _ N'). destruct (step_tr _ _ S) as [k ->]. apply in_app_iff. auto.
Qed.

Definition U (s : state) (t : nat) : Prop :=
  (early s t -> (forall t1 sid av, In (ECall t1 (CIn (MStatus sid (Some av)))) (tr s) -> stored s t1 sid) /\ (forall sid, cnt (is_unreg sid) (tr s) = 0)) /\
  (forall l1 l2 sid av, tr s = l1 ++ ECall t CDeinit :: l2 -> settled l1 sid -> In (sid, av) (arrived l1) ->
     match nth_error (ths s) t with
     | Some QDeinit => True
     | Some (QUnreg l) => cnt (Nat.eqb sid) l + cnt (is_unreg sid) (tr s) = 1
     | Some QDone => cnt (is_unreg sid) (tr s) = 1
     | _ => False
     end).

Lemma cnt_key sid (m : amap availability) : NoDup (keys m) -> In sid (keys m) -> cnt (Nat.eqb sid) (keys m) = 1.
Proof.
  induction (keys m) as [|k l IH]; intros ND I; [destruct I|]. inversion ND; subst. rewrite cnt_cons. destruct (Nat.eqb_spec sid k) as [->|NE]; cbn [b2n].
  - rewrite cnt_zero; [reflexivity|]. intros x J. apply Nat.eqb_neq. congruence.
  - rewrite IH; [reflexivity|assumption|]. destruct I; [congruence|assumption].
Qed.

Lemma deinit_pc s c q : okpc s c q -> c = CDeinit -> q = QDeinit \/ (exists l, q = QUnreg l) \/ q = QDone.
Proof. intros OK ->. destruct q; cbn in OK; try discriminate OK; eauto; try (destruct OK as [? ?]; discriminate). Qed.

Inductive dmove (s s' : state) (t : nat) : pc -> Prop :=
  | D_stay q : nth_error (ths s') t = Some q -> dmove s s' t q
  | D_start : nth_error (ths s') t = Some (QUnreg (keys (stats s))) -> (forall sid, cnt (is_unreg sid) (tr s') = cnt (is_unreg sid) (tr s)) -> dmove s s' t QDeinit
  | D_end : nth_error (ths s') t = Some QDone -> stats s' = [] -> (forall sid, cnt (is_unreg sid) (tr s') = cnt (is_unreg sid) (tr s)) -> dmove s s' t (QUnreg [])
  | D_go sid l r : nth_error (ths s') t = Some (QUnreg l) -> tr s' = tr s ++ [EUnregister sid r] -> dmove s s' t (QUnreg (sid :: l)).
Lemma deinit_step s s' t q : step s s' -> nth_error (ths s) t = Some q -> q = QDeinit \/ (exists l, q = QUnreg l) \/ q = QDone -> dmove s s' t q.
Proof.
  intros S N Q.
  assert (NEW : forall t0 q0 q1, nth_error (ths s) t0 = Some q0 -> ths s' = set_nth t0 q1 (ths s) -> (t0 = t -> q0 = q -> nth_error (ths s') t = Some q1 -> dmove s s' t q) -> dmove s s' t q).
  { intros t0 q0 q1 N0 E H. destruct (Nat.eq_dec t0 t) as [->|NE].
    - apply H; [reflexivity|congruence|]. rewrite E. rewrite (nth_set _ _ _ _ _ N0), Nat.eqb_refl. reflexivity.
    - apply D_stay. rewrite E, nth_set_other by exact NE. exact N. }
  pose proof (nth_lt _ _ _ N) as LT. assert (CALL : nth_error (ths s') t = nth_error (ths s) t -> dmove s s' t q) by (intros E; apply D_stay; congruence). clear N.
  assert (NO : forall q0 : pc, ~ (q0 = QDeinit \/ (exists l, q0 = QUnreg l) \/ q0 = QDone) -> q0 = q -> dmove s s' t q) by (intros q0 H <-; destruct (H Q)).
  destruct S; try (eapply NEW; [eassumption|reflexivity|intros _ E _; revert E; apply NO; intros [?|[[? ?]|?]]; discriminate]).
  - apply CALL. cbn. rewrite nth_snoc. destruct (Nat.eqb_spec t (length (ths s))); [lia|reflexivity].
  - destruct (newreq_frame s sid) as (_ & _ & _ & D & _). eapply NEW; [eassumption|unf; cbn; rewrite D; reflexivity|intros _ E _; revert E; apply NO; intros [?|[[? ?]|?]]; discriminate].
  - destruct (tell1_frame s sid av) as (_ & _ & _ & D & _). eapply NEW; [eassumption|unf; cbn; rewrite D; reflexivity|intros _ E _; revert E; apply NO; intros [?|[[? ?]|?]]; discriminate].
  - destruct (tells_frame (reqs s) s) as (_ & _ & _ & D & _). eapply NEW; [eassumption|unf; cbn; unfold tellall; rewrite D; reflexivity|intros _ E _; revert E; apply NO; intros [?|[[? ?]|?]]; discriminate].
  - eapply NEW; [eassumption|reflexivity|]. intros -> <- N'. apply D_start; [exact N'|]. intros sid. unf; cbn [tr]. rewrite cnt_app, (cnt_zero _ (map _ _)); [lia|]. intros e I. apply in_map_iff in I as (x & <- & _). reflexivity.
  - eapply NEW; [eassumption|reflexivity|]. intros -> <- N'. apply D_end; [exact N'|reflexivity|]. intros sid. unf; cbn [tr]. rewrite cnt_app, cnt_one. cbn. lia.
  - eapply NEW; [eassumption|reflexivity|]. intros -> <- N'. eapply D_go; [exact N'|reflexivity].
Qed.

Lemma invU h t : never_lost (trace h) -> only_deinit (trace h) t -> U (final h) t.
Proof.
  unfold trace. induction h as [|l h IH] using rev_ind.
  { intros _ _. split; [intros _; split; [intros ? ? ? []|reflexivity]|intros [|] ? ? ?; discriminate]. }
  rewrite final_snoc. destruct (next_step (final h) l) as [->|S]; [exact IH|].
  pose proof (invP h) as IP. pose proof (invT h) as IT. pose proof (invA h) as IA. pose proof (invT (h ++ [l])) as IT'. rewrite final_snoc in IT'.
  set (s := final h) in *. remember (next s l) as s' eqn:ES. clear ES l. intros NL OD.
  destruct (step_tr _ _ S) as [k TR].
  assert (NL0 : never_lost (tr s)) by (intros x I; apply (NL x); rewrite TR; apply in_app_iff; auto).
  assert (OD0 : only_deinit (tr s) t) by (intros x I; apply OD; rewrite TR; apply in_app_iff; auto).
  destruct (IH NL0 OD0) as [UA UB]. clear IH.
  assert (UT : forall t' x, nth_error (ths s) t' = Some (QUnreg x) -> t' = t /\ In (ECall t CDeinit) (tr s)).
  { intros t' x N. destruct (t_th _ IT _ _ N) as (c & C & OK). cbn in OK. subst c. pose proof (OD0 _ C). subst. auto. }
  split.
  - intros EA'. pose proof (early_back _ _ _ IT S EA') as EA. destruct (UA EA) as [ST CN].
    assert (NU : forall t' x, nth_error (ths s) t' <> Some (QUnreg x)) by (intros t' x N; destruct (UT _ _ N) as [-> C]; pose proof (EA _ N C); discriminate).
    split.
    + intros t1 sid av I. rewrite TR in I. apply in_app_iff in I as [I|I].
      * destruct (ST _ _ _ I) as [[av' N]|K].
        -- destruct (store_step _ _ _ _ _ S N) as [N'|E]; [left; eauto|]. right. rewrite E, key_put. auto.
        -- right. destruct (step_stats _ _ S) as [->|? ? ? _ ->|t0 [N|N] _]; [exact K|rewrite key_put; auto| |destruct (NU _ _ N)].
           destruct (t_th _ IT _ _ N) as (c & C & OK). cbn in OK. subst c. destruct (NL0 _ C).
      * destruct (step_moved _ _ S) as [c ->|t0 q q' k1 NN NQ TE TE' K1 K2 K3].
        -- cbn in TR. apply app_inv_head in TR. subst k. destruct I as [I|[]]. inversion I; subst. left. exists av. cbn. rewrite nth_snoc, Nat.eqb_refl. reflexivity.
        -- rewrite TE' in TR. apply app_inv_head in TR. subst k1. destruct (K1 _ _ I).
    + intros sid. destruct (step_unreg _ _ S) as [(t' & sid' & x & r & N & _)|E]; [destruct (NU _ _ N)|]. rewrite E. apply CN.
  - intros l1 l2 sid av E SE AR.
    assert (C' : In (ECall t CDeinit) (tr s')) by (rewrite E; apply in_app_iff; right; left; reflexivity).
    pose proof (t_lt _ IT' _ _ C') as LT'. destruct (nth_error (ths s') t) as [q'|] eqn:N'; [|apply nth_error_None in N'; lia].
    destruct (t_th _ IT' _ _ N') as (c & C & OK'). rewrite (t_call _ IT' _ _ _ C C') in OK'.
    rewrite TR in E. apply app_split in E as [[x [E ->]]|[x [-> E]]].
    2: { destruct (step_moved _ _ S) as [c0 ->|t0 q q1 k1 NN NQ TE TE' K1 K2 K3].
         - cbn in TR. apply app_inv_head in TR. subst k. destruct x as [|? [|]]; try discriminate E. inversion E; subst. cbn in N'. rewrite nth_snoc, Nat.eqb_refl in N'. injection N' as <-. exact I.
         - rewrite TE' in TR. apply app_inv_head in TR. subst k1. exfalso. apply (K1 t CDeinit). rewrite E. apply in_app_iff. right. left. reflexivity. }
    specialize (UB _ _ _ _ E SE AR). assert (C0 : In (ECall t CDeinit) (tr s)) by (rewrite E; apply in_app_iff; right; left; reflexivity).
    pose proof (t_lt _ IT _ _ C0) as LT. destruct (nth_error (ths s) t) as [q|] eqn:N; [|apply nth_error_None in N; lia].
    pose proof (the_call _ _ _ _ IT N C0) as OK.
    assert (SAME : q' = q -> forall y, cnt (is_unreg y) (tr s') = cnt (is_unreg y) (tr s)).
    { intros -> y. destruct (step_unreg _ _ S) as [(t2 & sid2 & x2 & r2 & N2 & T2 & TE)|CE]; [|apply CE]. destruct (UT _ _ N2) as [-> _]. rewrite N in N2. injection N2 as ->.
      exfalso. rewrite TE, (nth_set _ _ _ _ _ N), Nat.eqb_refl in N'. injection N' as N'. apply (f_equal (@length _)) in N'. cbn in N'. lia. }
    clear OK'. destruct (deinit_step _ _ _ _ S N (deinit_pc _ _ _ OK eq_refl)) as [q ND|ND CE|ND _ CE|sid0 l r ND T2]; rewrite N' in ND; injection ND as ->.
    + specialize (SAME eq_refl). destruct q; auto; rewrite SAME; exact UB.
    + assert (EA : early s t) by (intros q1 Q1 _; congruence). destruct (UA EA) as [ST CN]. rewrite CE, CN.
      rewrite cnt_key; [lia|exact (a_nd _ IA)|]. apply arrived_in in AR as [ta AR]. assert (AR' : In (ECall ta (CIn (MStatus sid (Some av)))) (tr s)) by (rewrite E; apply in_app_iff; auto).
      destruct (ST _ _ _ AR') as [[av' NA]|K]; [|exact K]. exfalso. destruct (SE _ _ AR) as [v R]. assert (R' : returned (tr s) ta) by (exists v; rewrite E; apply in_app_iff; auto).
      apply (t_ret _ IT) in R'. congruence.
    + rewrite CE. rewrite cnt_nil in UB. exact UB.
    + rewrite T2, cnt_app, cnt_one. cbn [is_unreg]. rewrite cnt_cons, Nat.eqb_sym in UB. lia.
Qed.

Theorem deinit_unregisters h l1 t l2 sid av : trace h = l1 ++ ECall t CDeinit :: l2 -> never_lost (trace h) -> only_deinit (trace h) t -> settled l1 sid -> In (sid, av) (arrived l1) ->
  returned (trace h) t -> cnt (is_unreg sid) (trace h) = 1.
Proof.
  intros E NL OD SE AR R. destruct (invU h t NL OD) as [_ UB]. specialize (UB _ _ _ _ E SE AR). apply (t_ret _ (invT h)) in R. rewrite R in UB. exact UB.
Qed.

(** ** Statuses are forgotten *)
Definition forgot (sid : nat) (s : state) : Prop := get sid (stats s) = None /\ forall t av, nth_error (ths s) t <> Some (QStore sid av) /\ nth_error (ths s) t <> Some (QStore2 sid av).
Definition silent (sid : nat) (l : list event) : Prop := forall t av, ~ In (ECall t (CIn (MStatus sid (Some av)))) l.

Lemma store_back s s' t sid av k : step s s' -> tr s' = tr s ++ k -> silent sid k -> nth_error (ths s') t = Some (QStore sid av) \/ nth_error (ths s') t = Some (QStore2 sid av) ->
  nth_error (ths s) t = Some (QStore sid av) \/ nth_error (ths s) t = Some (QStore2 sid av).
Proof.
  intros S T SI N'.
  assert (NEW : forall t0 q0 q1, nth_error (ths s) t0 = Some q0 -> ths s' = set_nth t0 q1 (ths s) -> (q1 = QStore sid av \/ q1 = QStore2 sid av -> q0 = QStore sid av \/ q0 = QStore2 sid av) ->
    nth_error (ths s) t = Some (QStore sid av) \/ nth_error (ths s) t = Some (QStore2 sid av)).
  { intros t0 q0 q1 N0 E H. rewrite E, (nth_set _ _ _ _ _ N0) in N'. destruct (Nat.eqb_spec t0 t) as [<-|]; [|exact N']. rewrite N0.
    assert (X : q1 = QStore sid av \/ q1 = QStore2 sid av) by (destruct N' as [N'|N']; injection N' as ->; auto). destruct (H X) as [-> | ->]; auto. }
  destruct S; try (eapply NEW; [eassumption|reflexivity|intros [?|?]; discriminate]).
  - cbn in T. apply app_inv_head in T. subst k. cbn in N'. rewrite nth_snoc in N'. destruct (Nat.eqb_spec t (length (ths s))) as [->|NE]; [|exact N']. exfalso.
    destruct c as [| | |[x [a|]|]| |]; cbn in N'; destruct N' as [N'|N']; try discriminate N'. inversion N'; subst. apply (SI (length (ths s)) av). left. reflexivity.
  - destruct (newreq_frame s sid0) as (_ & _ & _ & D & _). eapply NEW; [eassumption|unf; cbn; rewrite D; reflexivity|intros [?|?]; discriminate].
  - eapply NEW; [eassumption|reflexivity|]. intros [E|E]; [discriminate|]. injection E as -> ->. auto.
  - destruct (tell1_frame s sid0 av0) as (_ & _ & _ & D & _). eapply NEW; [eassumption|unf; cbn; rewrite D; reflexivity|intros [?|?]; discriminate].
  - destruct (tells_frame (reqs s) s) as (_ & _ & _ & D & _). eapply NEW; [eassumption|unf; cbn; unfold tellall; rewrite D; reflexivity|intros [?|?]; discriminate].
Qed.

Lemma forgot_keep sid h1 : forgot sid (final h1) -> forall h2 e, trace (h1 ++ h2) = trace h1 ++ e -> silent sid e ->
  forgot sid (final (h1 ++ h2)) /\ forall t av, In (EAns t sid av) e -> av = Unavailable.
Proof.
  intros F. induction h2 as [|l h2 IH] using rev_ind; intros e E SI.
  - rewrite app_nil_r in *. rewrite <- (app_nil_r (trace h1)) in E at 1. apply app_inv_head in E. subst e. split; [exact F|intros ? ? []].
  - rewrite app_assoc in *. destruct (trace_grows h1 h2) as [e1 E1]. unfold trace in E, E1 |- *. rewrite final_snoc in *.
    destruct (next_step (final (h1 ++ h2)) l) as [EQ|S]; [rewrite EQ in *; apply IH; assumption|].
    destruct (step_why _ _ S) as (k & T & W). rewrite T, E1, <- app_assoc in E. apply app_inv_head in E. subst e.
    destruct (IH e1 E1) as [[F1 F2] AN]; [intros t av I; apply (SI t av), in_app_iff; auto|]. assert (SK : silent sid k) by (intros t av I; apply (SI t av), in_app_iff; auto).
    split; [split|].
    + destruct (step_stats _ _ S) as [->|t x a N ->|? _ ->]; [exact F1| |reflexivity]. rewrite get_put. destruct (Nat.eqb_spec sid x) as [<-|]; [|exact F1]. exfalso. destruct (F2 t a) as [A B]. destruct N; auto.
    + intros t av. destruct (F2 t av) as [A B]. split; intros N; (destruct (store_back _ _ t sid av k S T SK) as [X|X]; [auto|exact (A X)|exact (B X)]).
    + intros t av I. apply in_app_iff in I as [I|I]; [exact (AN _ _ I)|]. pose proof (W _ I) as W'. cbn in W'. destruct W' as [_ ->]. unfold get_or. rewrite F1. reflexivity.
Qed.

Theorem forgotten h l1 t v l2 sid t' av : trace h = l1 ++ ERet t v :: l2 -> In (ECall t CDeinit) (trace h) -> settled l1 sid -> silent sid l2 -> In (EAns t' sid av) l2 -> av = Unavailable.
Proof.
  intros E C SE SI I. destruct (split_step _ _ _ _ E) as (h1 & s' & k1 & k2 & S & T & L & l & h3 & H & N).
  pose proof (invT h1) as IT. destruct (step_why _ _ S) as (k & T' & W). rewrite T' in T. apply app_inv_head in T.
  assert (IR : In (ERet t v) k) by (rewrite T; apply in_app_iff; right; left; reflexivity). pose proof (W _ IR) as WR. cbn in WR. destruct WR as (q & NQ & WR).
  destruct (t_th _ IT _ _ NQ) as (c & C1 & OK). assert (c = CDeinit) by (apply (t_call _ (invT h) t); [subst h; apply trace_in; exact C1|exact C]). subst c.
  destruct (deinit_pc _ _ _ OK eq_refl) as [->|[[x ->]| ->]]; [destruct WR|destruct WR as (-> & -> & KE)|destruct WR].
  rewrite KE in T. assert (k1 = [] /\ k2 = []) as [-> ->]. { destruct k1 as [|? [|]]; try discriminate T. injection T as <-. auto. }
  clear T. rewrite app_nil_r in L. subst l1. assert (ES : s' = final (h1 ++ [l])) by (rewrite final_snoc; exact N).
  pose proof (invT (h1 ++ [l])) as IT'. rewrite <- ES in IT'.
  assert (ST : stats s' = []).
  { assert (R : returned (tr s') t) by (exists true; rewrite T'; apply in_app_iff; auto). apply (t_ret _ IT') in R.
    assert (DM : dmove (final h1) s' t (QUnreg [])) by (apply deinit_step; eauto). inversion DM as [q ND|ND CE|ND Y CE|sid0 y r ND T2]; [congruence|exact Y]. }
  assert (F : forgot sid (final (h1 ++ [l]))).
  { rewrite <- ES. split; [rewrite ST; reflexivity|]. intros t1 a.
    assert (X : ~ (nth_error (ths (final h1)) t1 = Some (QStore sid a) \/ nth_error (ths (final h1)) t1 = Some (QStore2 sid a))).
    { intros X. assert (CC : In (ECall t1 (CIn (MStatus sid (Some a)))) (tr (final h1))) by (destruct X as [X|X]; destruct (t_th _ IT _ _ X) as (c & CC & OKc); cbn in OKc; subst c; exact CC).
      apply SE in CC. apply (t_ret _ IT) in CC. destruct X; congruence. }
    assert (SK : silent sid k) by (rewrite KE; intros ? ? [J|[]]; discriminate).
    split; intros N1; apply X, (store_back _ _ _ _ _ k S T' SK); auto. }
  assert (EE : trace ((h1 ++ [l]) ++ h3) = trace (h1 ++ [l]) ++ l2).
  { rewrite <- app_assoc. cbn. rewrite <- H, E. unfold trace. rewrite final_snoc, <- N, T', KE, <- app_assoc. reflexivity. }
  destruct (forgot_keep _ _ F _ _ EE SI) as [_ AN]. exact (AN _ _ I).
Qed.
