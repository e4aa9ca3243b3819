(** Server: a registered client has been told the truth. *)
From Verif Require Import ListUtil SrvModel SrvSpec SrvProofs SrvProofs2 SrvProofs3 SrvProofs4.

Lemma wanted_app l k o : wanted (l ++ k) o = fold_left (wanted1 o) k (wanted l o).
Proof. apply fold_left_app. Qed.

Lemma serve_lt h t c o : In (ECall t c) (trace h) -> serve_call c o -> o < length (objs (final h)).
Proof.
  intros I SC. revert I. unfold trace. apply (state_ind (fun s => In (ECall t c) (tr s) -> o < length (objs s))); [intros []|].
  intros s s' IH S I. pose proof (len_mono _ _ S) as LM.
  assert (OLD : In (ECall t c) (tr s) -> o < length (objs s')) by (intros J; specialize (IH J); lia).
  destruct S; try srva; unf; try destruct (gone r); cbn in I; rewrite ?in_app_iff in I; cbn in I;
    repeat match goal with H : _ \/ _ |- _ => destruct H end; try discriminate; try contradiction; try (apply OLD; assumption).
  injection H0; intros; subst. cbn. unfold start_pc in H. destruct SC; subst c; destruct (nth_error (objs s) o) eqn:N; try discriminate; eapply nth_lt; exact N.
Qed.

Lemma wanted_none l o : (forall t c, In (ECall t c) l -> ~ serve_call c o) -> wanted l o = Unavailable.
Proof.
  induction l as [|e l IH] using rev_ind; intros H; [reflexivity|]. rewrite wanted_app. cbn. rewrite IH by (intros t c I; apply (H t); apply in_app_iff; auto).
  destruct e; try reflexivity. assert (NS : ~ serve_call c o) by (apply (H t); apply in_app_iff; right; left; reflexivity). unfold serve_call in NS.
  cbn. destruct c; try reflexivity; destruct (Nat.eqb_spec o o0) as [->|]; try reflexivity; exfalso; apply NS; auto.
Qed.

Section View2.
Variables (a sid : nat).

Lemma registered_in h : Hyp a sid (final h) -> forall t th m, nth_error (ths (final h)) t = Some th -> In (ECall t (CIn m)) (tr (final h)) -> is_register m a ->
  (forall b, at_ th <> QRegIns b) -> In a (addrs (final h)).
Proof.
  apply (state_indH a sid (fun s => forall t th m, nth_error (ths s) t = Some th -> In (ECall t (CIn m)) (tr s) -> is_register m a -> (forall b, at_ th <> QRegIns b) -> In a (addrs s))).
  { intros [|] ? ?; discriminate. }
  intros s s' IP IT ID IL HY HY' IH S t th m N I RG NQ.
  assert (KEEP : In a (addrs s) -> In a (addrs s')).
  { intros J. assert (E : step s s') by exact S. destruct S; try exact J; try (srva; exact J).
    - destruct (gone r) eqn:G; [|exact J]. cbn. apply in_set_del. split; [|exact J]. intros <-.
      pose proof (h_rel _ _ _ HY' sid0 av r) as R. rewrite R in G; [discriminate|]. unf. cbn. apply in_app_iff. right. left. reflexivity.
    - cbn. apply in_set_add. auto.
    - cbn. apply in_set_del. split; [|exact J]. intros EQ. destruct (t_th _ IT _ _ H) as (c & IC & (OK & _)). rewrite H0 in OK. destruct OK as [-> OK].
      apply (h_un _ _ _ HY _ _ IC). rewrite EQ. exact OK. }
  assert (NEWR : forall t0 th0 th0' k, nth_error (ths s) t0 = Some th0 -> ths s' = set_nth t0 th0' (ths s) -> tr s' = tr s ++ k -> (forall t' c, ~ In (ECall t' c) k) ->
     (at_ th0 = QRegIns a -> In a (addrs s')) -> In a (addrs s')).
  { intros t0 th0 th0' k N0 TE TR NC GO. rewrite TE, (nth_set _ _ _ _ _ N0) in N. rewrite TR in I. apply in_app_iff in I. destruct I as [I|I]; [|destruct (NC _ _ I)].
    destruct (Nat.eqb_spec t0 t) as [->|NE]; [|apply KEEP; exact (IH t th m N I RG NQ)]. injection N as <-.
    assert (CASE : (exists b, at_ th0 = QRegIns b) \/ (forall b, at_ th0 <> QRegIns b)) by (destruct (at_ th0); try (right; intros ?; discriminate); left; eauto).
    destruct CASE as [[b A]|NA]; [|apply KEEP; exact (IH t th0 m N0 I RG NA)].
    destruct (t_th _ IT _ _ N0) as (c & IC & (OK0 & _)). rewrite A in OK0. rewrite (t_call _ IT _ _ _ IC I) in OK0. cbn in OK0.
    assert (b = a) by (destruct RG as [_ R1], OK0 as [_ R2]; congruence). subst b. apply GO. exact A. }
  destruct S.
  { cbn in N, I. rewrite nth_snoc in N. apply in_app_iff in I. destruct (Nat.eqb_spec t (length (ths s))) as [->|NE].
    + injection N as <-. destruct I as [I|[I|[]]]; [apply (t_lt _ IT) in I; lia|]. injection I as ->. cbn in H. injection H as <-. exfalso.
      destruct RG as [RG _]. unfold incoming in NQ. rewrite RG in NQ. cbn in NQ. eapply NQ. reflexivity.
    + destruct I as [I|[[= E _]|[]]]; [|congruence]. apply KEEP. eapply IH; eassumption. }
  all: try srva; try (destruct (gone r) in * ). all: (eapply NEWR; [eassumption|reflexivity|cbn; first [reflexivity|symmetry; apply app_nil_r|rewrite <- app_assoc; reflexivity]
        |intros ? ? II; cbn in II; intuition discriminate|]); try congruence.
  rewrite H0. intros [= ->]. cbn. apply in_set_add. auto.
Qed.

(** Whether the provider serves is what was asked for last, except while that call has not got going. *)
Definition setting (o : nat) (th : thread) : Prop := match at_ th with QSet o' _ => o' = o | _ => False end.
Definition W (o : nat) (s : state) : Prop := sid_of s o = Some sid ->
  (forall t th av, nth_error (ths s) t = Some th -> at_ th = QSet o av -> wanted (tr s) o = av) /\
  (~ some (setting o) s -> wanted (tr s) o = av_of s o).

Lemma invW h o : Hyp a sid (final h) -> W o (final h).
Proof.
  intros HYP. assert (SL := serve_lt h). revert SL HYP. intros _. 
  induction h as [|l h IH] using rev_ind.
  { intros _ SO. unfold sid_of in SO. cbn in SO. destruct o; discriminate. }
  intros HY'. pose proof (uniq a sid _ HY') as U'. rewrite final_snoc in *. destruct (next_step (final h) l) as [E|S]; [rewrite E in *; apply IH; exact HY'|].
  pose proof (Hyp_step a sid _ _ S HY') as HY. specialize (IH HY). pose proof (uniq a sid _ HY) as U.
  pose proof (invP h) as IP. pose proof (invT h) as IT. pose proof (invD h (h_nd _ _ _ HY)) as ID. pose proof (serve_lt h) as SL. unfold trace in SL.
  set (s := final h) in *. clearbody s. remember (next s l) as s' eqn:ES. clear ES l.
  intros SO'.
  assert (SVS : forall t th av, nth_error (ths s) t = Some th -> at_ th = QSet o av -> sid_of s o = Some sid -> serving sid s th).
  { intros t th av N A SO. unfold serving. rewrite A. exact SO. }
  (* o existed before? *)
  destruct (sid_of s o) as [x|] eqn:SO.
  2: { (* just created *)
    assert (WN : wanted (tr s') o = Unavailable /\ av_of s' o = Unavailable /\ ths s' = ths s \/ True) by auto. clear WN.
    destruct (objs_step _ _ S) as [E|[[sd E]|(o' & p & av & N & E)]].
    - unfold sid_of in *. rewrite E in SO'. congruence.
    - assert (OL : o = length (objs s)).
      { unfold sid_of in *. rewrite E, nth_snoc in SO'. destruct (Nat.eqb_spec o (length (objs s))); [assumption|congruence]. }
      assert (WN : wanted (tr s') o = Unavailable).
      { apply wanted_none. intros t c I SC. assert (II : In (ECall t c) (tr s)).
        { destruct (step_moved _ _ IP S) as [c0 q SP TE TR OB|t0 th0 th0' k N0 ND TE TR NC _].
          - exfalso. rewrite OB in E. apply (f_equal (@length _)) in E. rewrite app_length in E. cbn in E. lia.
          - rewrite TR in I. apply in_app_iff in I as [I|I]; [exact I|destruct (NC _ _ I)]. }
        apply (fun J => SL t c o J SC) in II. lia. }
      split.
      + intros t th av N A. exfalso.
        assert (NOQ : forall t th av, nth_error (ths s) t = Some th -> at_ th <> QSet o av).
        { intros t1 th1 av1 N1 A1. destruct (t_th _ IT _ _ N1) as (c & _ & (OK & _)). rewrite A1 in OK. destruct OK as [_ L]. lia. }
        clear - S N A E NOQ OL. destruct S; try srva; unf; try destruct (gone r); cbn in *;
          try (apply (f_equal (@length _)) in E; rewrite ?length_set_nth, ?app_length in E; cbn in E; lia).
        rewrite (nth_set _ _ _ _ _ H) in N. destruct (Nat.eqb_spec t0 t); [injection N as <-; discriminate|]. eapply NOQ; eassumption.
      + intros _. rewrite WN. unfold av_of. rewrite E, OL, nth_snoc, Nat.eqb_refl. reflexivity.
    - unfold sid_of in *. rewrite E, sid_set in SO' by exact N. congruence. }
  assert (x = sid) by (pose proof (sid_mono _ _ _ _ S SO); congruence). subst x.
  destruct (IH SO) as [W1 W2]. clear IH.
  assert (NEWW : forall t th th' k, nth_error (ths s) t = Some th -> ths s' = set_nth t th' (ths s) -> tr s' = tr s ++ k -> (forall t' c, ~ In (ECall t' c) k) ->
     av_of s' o = av_of s o -> (forall av, at_ th' <> QSet o av) -> ~ setting o th -> (forall t th av, nth_error (ths s') t = Some th -> at_ th = QSet o av -> wanted (tr s') o = av) /\ (~ some (setting o) s' -> wanted (tr s') o = av_of s' o)).
  { intros t th th' k N TE TR NC AV NQ NS.
    assert (WE : wanted (tr s') o = wanted (tr s) o).
    { rewrite TR, wanted_app. clear - NC. induction k as [|e k IH]; [reflexivity|]. cbn. assert (E : wanted1 o (wanted (tr s) o) e = wanted (tr s) o).
      { destruct e; try reflexivity. destruct (NC t c). left. reflexivity. } rewrite E. apply IH. intros t' c I. apply (NC t' c). right. exact I. }
    rewrite WE, AV. split.
    - intros t1 th1 av N1 A. rewrite TE, (nth_set _ _ _ _ _ N) in N1. destruct (Nat.eqb_spec t t1) as [<-|]; [injection N1 as <-; destruct (NQ _ A)|eapply W1; eassumption].
    - intros NSM. apply W2. intros (i & y & NI & SI). apply NSM. exists i, y. rewrite TE, (nth_set _ _ _ _ _ N). destruct (Nat.eqb_spec t i) as [<-|]; [|auto].
      exfalso. apply NS. assert (y = th) by congruence. subst y. exact SI. }
  destruct S.
  { (* call *)
    assert (CASE : (serve_call c o /\ exists av, q = QSet o av /\ wanted (tr s ++ [ECall (length (ths s)) c]) o = av) \/
                   ((forall av, q <> QSet o av) /\ wanted (tr s ++ [ECall (length (ths s)) c]) o = wanted (tr s) o)).
    { rewrite wanted_app. cbn [fold_left]. unfold start_pc in H. destruct c as [| |o'|o'|m|].
      - right. injection H as <-. split; [discriminate|reflexivity].
      - right. injection H as <-. split; [discriminate|reflexivity].
      - destruct (nth_error (objs s) o'); [|discriminate]. injection H as <-. cbn. destruct (Nat.eqb_spec o o') as [<-|NE]; [left; split; [left; reflexivity|eauto]|right; split; [congruence|reflexivity]].
      - destruct (nth_error (objs s) o'); [|discriminate]. injection H as <-. cbn. destruct (Nat.eqb_spec o o') as [<-|NE]; [left; split; [right; reflexivity|eauto]|right; split; [congruence|reflexivity]].
      - right. injection H as <-. split; [|reflexivity]. intros av. unfold incoming. destruct (s_code m); try discriminate. destruct (s_sid m); discriminate.
      - right. injection H as <-. split; [discriminate|reflexivity]. }
    set (s' := St (objs s) (provs s) (addrs s) (plock s) (alock s) (ths s ++ [Th q [] []]) (tr s ++ [ECall (length (ths s)) c])) in *.
    assert (NTH : forall i y, nth_error (ths s') i = Some y -> (i = length (ths s) /\ y = Th q [] []) \/ nth_error (ths s) i = Some y).
    { intros i y NI. cbn in NI. rewrite nth_snoc in NI. destruct (Nat.eqb_spec i (length (ths s))); [left; split; congruence|right; exact NI]. }
    assert (NN : nth_error (ths s') (length (ths s)) = Some (Th q [] [])) by (cbn; rewrite nth_snoc, Nat.eqb_refl; reflexivity).
    assert (NO : forall i y, nth_error (ths s) i = Some y -> nth_error (ths s') i = Some y).
    { intros i y NI. cbn. rewrite nth_snoc. apply nth_lt in NI as L. destruct (Nat.eqb_spec i (length (ths s))); [lia|exact NI]. }
    change (tr s') with (tr s ++ [ECall (length (ths s)) c]). destruct CASE as [(SC & av & -> & WE)|[NQ WE]]; rewrite WE.
    - split.
      + intros t th av0 N A. destruct (NTH _ _ N) as [[-> ->]|N0]; [cbn in A; congruence|]. exfalso.
        assert (E : t = length (ths s)); [|apply nth_lt in N0; lia]. eapply U'; [exact N|exact NN|..]; unfold serving; cbn; [rewrite A|]; exact SO.
      + intros NS. exfalso. apply NS. exists (length (ths s)), (Th (QSet o av) [] []). split; [exact NN|reflexivity].
    - split.
      + intros t th av0 N A. destruct (NTH _ _ N) as [[-> ->]|N0]; [destruct (NQ _ A)|eapply W1; eassumption].
      + intros NS. apply W2. intros (i & y & NI & SI). apply NS. exists i, y. auto. }
  all: try srva; try (destruct (gone r) in * ).
  all: try (eapply NEWW; [eassumption|reflexivity|cbn; first [reflexivity|symmetry; apply app_nil_r|rewrite <- app_assoc; reflexivity]|intros ? ? II; cbn in II; intuition discriminate|reflexivity|discriminate|unfold setting; rewrite H0; tauto]).
  - (* new provider *)
    eapply NEWW; [exact H|reflexivity|cbn; rewrite <- app_assoc; reflexivity|intros ? ? II; cbn in II; intuition discriminate| |discriminate|unfold setting; rewrite H0; tauto].
    unfold av_of. cbn. unfold sid_of in SO. destruct (nth_error (objs s) o) as [p|] eqn:NO; [|discriminate]. rewrite nth_error_app1; [rewrite NO; reflexivity|eapply nth_lt; exact NO].
  - (* set *)
    destruct (Nat.eq_dec o0 o) as [->|NE].
    + split.
      * intros t1 th1 av1 N1 A1. cbn in N1. rewrite (nth_set _ _ _ _ _ H) in N1. destruct (Nat.eqb_spec t t1) as [<-|NE]; [injection N1 as <-; discriminate|].
        exfalso. apply NE. eapply U; [exact H|exact N1|eapply SVS; eauto|eapply SVS; eauto].
      * intros _. cbn [tr]. change (wanted (tr s) o = av_of (goto (set_objs s (set_nth o {| p_sid := p_sid p; p_av := av |} (objs s))) t th (QCheck (p_sid p) av)) o).
        rewrite (W1 _ _ _ H H0). unfold av_of. cbn. rewrite (nth_set _ _ _ _ _ H1), Nat.eqb_refl. reflexivity.
    + eapply NEWW; [exact H|reflexivity|cbn; symmetry; apply app_nil_r|intros ? ? []| |discriminate|unfold setting; rewrite H0; exact NE].
      unfold av_of. cbn. rewrite (nth_set _ _ _ _ _ H1). destruct (Nat.eqb_spec o0 o); [contradiction|reflexivity].
  - exfalso. destruct (not_deinit _ _ _ IT (h_nd _ _ _ HY) H) as (c & _ & _ & _ & R1 & R2). congruence.
  - exfalso. destruct (not_deinit _ _ _ IT (h_nd _ _ _ HY) H) as (c & _ & _ & _ & R1 & R2). congruence.
  - exfalso. destruct (not_deinit _ _ _ IT (h_nd _ _ _ HY) H) as (c & _ & OK & C & _). unfold okth in OK. rewrite H0 in OK. destruct OK as [OK _]. contradiction.
Qed.

Lemma no_serving h : Hyp a sid (final h) -> (forall o, sid_of (final h) o = Some sid -> idle (trace h) o) ->
  forall t th, nth_error (ths (final h)) t = Some th -> ~ serving sid (final h) th.
Proof.
  intros HY IDL t th N SV. pose proof (invD h (h_nd _ _ _ HY)) as ID. pose proof (invT h) as IT.
  destruct (serving_call _ _ _ _ IT ID (h_nd _ _ _ HY) N SV) as (o' & c & I & SC & SO' & Q).
  destruct (IDL o' SO' _ _ I SC) as [v R]. destruct (t_ret _ IT _ _ R) as (th' & N' & D). congruence.
Qed.

Lemma view_av h : Hyp a sid (final h) -> registered (trace h) a -> (forall o, sid_of (final h) o = Some sid -> idle (trace h) o) ->
  view a sid (final h) = Available <-> av_sid sid (final h) = Available.
Proof.
  intros HY [(tr0 & m0 & I0 & R0) RR] IDL. pose proof (invV a sid h HY) as VS. pose proof (invT h) as IT.
  assert (NSV := no_serving h HY IDL).
  assert (NP : ~ some (pendP a sid) (final h)).
  { intros (t & th & N & P). apply (NSV _ _ N). unfold pendP, serving in *. destruct (at_ th); try contradiction; auto. destruct P as [P _]. exact P. }
  assert (NR : ~ some (regP a sid) (final h)).
  { intros (t & th & N & P). destruct (t_th _ IT _ _ N) as (c & IC & (OK & _)).
    assert (RC : exists m, c = CIn m /\ is_register m a /\ at_ th <> QDone).
    { unfold regP in P. destruct (at_ th) eqn:A; try contradiction.
      - subst. destruct c; try contradiction. exists m. repeat split; try apply OK; discriminate.
      - destruct P as [-> _]. destruct OK as [OK _]. destruct c; try contradiction. exists m. repeat split; try apply OK; discriminate.
      - destruct P as [-> _]. destruct OK as [OK _]. destruct c; try contradiction. exists m. repeat split; try apply OK; discriminate. }
    destruct RC as (m & -> & RG & NQ). destruct (RR _ _ IC RG) as [v RT]. destruct (t_ret _ IT _ _ RT) as (th' & N' & D). congruence. }
  assert (IA : In a (addrs (final h))).
  { destruct (RR _ _ I0 R0) as [v RT]. destruct (t_ret _ IT _ _ RT) as (th' & N' & D). eapply registered_in; try eassumption. rewrite D. discriminate. }
  split.
  - intros E. destruct (av_sid sid (final h)) eqn:AV; try reflexivity; exfalso; apply NP, (v_i _ _ _ VS E); rewrite AV; discriminate.
  - intros E. destruct (view a sid (final h)) eqn:VW; try reflexivity; exfalso; destruct (v_ii _ _ _ VS E) as [P|P]; auto; rewrite VW; discriminate.
Qed.

Theorem told_right h o : no_deinit (trace h) -> one_at_a_time (trace h) o -> reliable (trace h) a -> never_unregistered (trace h) a ->
  registered (trace h) a -> got (trace h) sid o -> idle (trace h) o -> says (sent_to a (trace h)) sid = wanted (trace h) o.
Proof.
  intros ND ONE REL UN REG [tg G] IDL. pose proof (invP h) as IP. pose proof (invD h ND) as ID. pose proof (p_got _ IP _ _ _ G) as SO.
  assert (OEQ : forall o', sid_of (final h) o' = Some sid -> o' = o) by (intros o' SO'; eapply sid_inj; eassumption).
  assert (HY : Hyp a sid (final h)). { split; try assumption. intros o' SO'. rewrite (OEQ _ SO'). exact ONE. }
  assert (IDL' : forall o', sid_of (final h) o' = Some sid -> idle (trace h) o') by (intros o' SO'; rewrite (OEQ _ SO'); exact IDL).
  pose proof (view_av h HY REG IDL') as VA. pose proof (invW h o HY SO) as [_ W2]. pose proof (no_serving h HY IDL') as NSV.
  assert (NS : ~ some (setting o) (final h)).
  { intros (t & th & N & P). apply (NSV _ _ N). unfold setting, serving in *. destruct (at_ th); try contradiction. subst. exact SO. }
  specialize (W2 NS). unfold trace. rewrite W2.
  assert (AE : av_sid sid (final h) = av_of (final h) o).
  { unfold sid_of in SO. destruct (nth_error (objs (final h)) o) as [p|] eqn:NO; [|discriminate]. injection SO as SO. pose proof (d_all _ ID _ _ NO) as GG. rewrite SO in GG.
    unfold av_sid. rewrite GG. reflexivity. }
  rewrite <- AE. change (says (sent_to a (tr (final h))) sid) with (view a sid (final h)). pose proof (v_val _ _ _ (invV a sid h HY)) as VV.
  assert (AN : av_sid sid (final h) <> Unknown).
  { rewrite AE, <- W2. clear. induction (tr (final h)) as [|e l IH] using rev_ind; [discriminate|]. rewrite wanted_app. cbn. destruct e; try exact IH. cbn.
    destruct c; try exact IH; destruct (Nat.eqb o o0); try exact IH; discriminate. }
  destruct (view a sid (final h)) eqn:E1, (av_sid sid (final h)) eqn:E2; try reflexivity; try congruence; intuition congruence.
Qed.

Theorem told_none h : no_deinit (trace h) -> reliable (trace h) a -> never_unregistered (trace h) a -> registered (trace h) a ->
  (forall o, ~ got (trace h) sid o) -> says (sent_to a (trace h)) sid = Unavailable.
Proof.
  intros ND REL UN REG NG. pose proof (invP h) as IP. pose proof (invD h ND) as ID.
  assert (NO : forall o, sid_of (final h) o <> Some sid).
  { intros o SO. unfold sid_of in SO. destruct (nth_error (objs (final h)) o) as [p|] eqn:N; [|discriminate]. injection SO as SO. pose proof (d_all _ ID _ _ N) as G. rewrite SO in G.
    apply (p_map _ IP) in G as [_ G]. exact (NG _ G). }
  assert (HY : Hyp a sid (final h)) by (split; try assumption; intros o SO; destruct (NO _ SO)).
  pose proof (view_av h HY REG (fun o SO => False_ind _ (NO o SO))) as VA. pose proof (v_val _ _ _ (invV a sid h HY)) as VV.
  change (says (sent_to a (tr (final h))) sid) with (view a sid (final h)) in *.
  change (view a sid (final h) = Unavailable). destruct (view a sid (final h)) eqn:E; [reflexivity| |congruence].
  exfalso. destruct VA as [VA _]. specialize (VA eq_refl). unfold av_sid in VA. destruct (get sid (provs (final h))) as [o|] eqn:G; [|discriminate].
  apply (p_map _ IP) in G as [_ G]. exact (NG _ G).
Qed.

End View2.
