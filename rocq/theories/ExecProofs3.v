(** Slots with executors: what an emission has handed over; the queue of the processor. *)
From Verif Require Import ListUtil ExecModel ExecSpec ExecProofs ExecProofs2.

Definition with_arg (v : nat) (l : list nat) : list (nat * nat) := map (fun c => (c, v)) l.
Lemma sent_app e l1 l2 : sent e (l1 ++ l2) = sent e l1 ++ sent e l2.
Proof. unfold sent. apply flat_map_app. Qed.
Lemma posted_app l1 l2 : posted (l1 ++ l2) = posted l1 ++ posted l2.
Proof. unfold posted. apply flat_map_app. Qed.
Lemma taken_app l1 l2 : taken (l1 ++ l2) = taken l1 ++ taken l2.
Proof. unfold taken. apply flat_map_app. Qed.
Lemma with_arg_fst v l : map fst (with_arg v l) = l.
Proof. unfold with_arg. rewrite map_map. cbn. apply map_id. Qed.

(** The emission with number [t] has still to hand over [rest]. *)
Definition prog (tr : list event) (t v : nat) (rest : list nat) : Prop :=
  exists l1 l2, tr = l1 ++ EEmit t v :: l2 /\ sent t l1 = [] /\ sent t l2 ++ with_arg v rest = with_arg v (connected l1) /\ connected tr = connected l1.
Definition em_ok (tr : list event) (t : nat) (a : agent) : Prop :=
  match a_pc a with
  | PStart => sent t tr = [] /\ cnt (emits t) tr = 0
  | PRun rest | PHeld _ rest => (exists v, a_call a = CNotify v /\ prog tr t v rest) /\ cnt (emits t) tr = 1
  | PDone => NoDup (map fst (sent t tr)) /\ cnt (emits t) tr <= 1
  end.
Record emI (s : st) (tr : list event) : Prop := {
  e_ok : forall t a, nth_error (ags s) t = Some a -> em_ok tr t a;
  e_new : forall t, length (ags s) <= t -> sent t tr = [] /\ cnt (emits t) tr = 0 }.

(** Not about emission [t]. *)
Definition off (t : nat) (ev : list event) : Prop := sent t ev = [] /\ cnt (emits t) ev = 0.
Lemma prog_frame tr ev t v rest : prog tr t v rest -> sent t ev = [] -> (forall x, In x ev -> conn_event x = false) -> prog (tr ++ ev) t v rest.
Proof.
  intros (l1 & l2 & E & H1 & H2 & H3) Hs Hc. exists l1, (l2 ++ ev). split; [rewrite E, <- app_assoc; reflexivity|].
  split; [exact H1|]. split; [rewrite sent_app, Hs, app_nil_r; exact H2|]. rewrite conn_same by exact Hc. exact H3.
Qed.
Lemma em_frame tr ev t a : em_ok tr t a -> off t ev -> (running a -> forall x, In x ev -> conn_event x = false) -> em_ok (tr ++ ev) t a.
Proof.
  unfold em_ok, off. intros H [H1 H2] H3. rewrite sent_app, cnt_app, H1, H2, app_nil_r, Nat.add_0_r. destruct (a_pc a) eqn:P.
  - exact H.
  - destruct H as [(v & C & H) Hc]. split; [|exact Hc]. exists v. split; [exact C|]. apply prog_frame; auto. apply H3. left. eauto.
  - destruct H as [(v & C & H) Hc]. split; [|exact Hc]. exists v. split; [exact C|]. apply prog_frame; auto. apply H3. right. eauto.
  - exact H.
Qed.
(** A step that is no call, or the step of call [t]. *)
Lemma em_same s s' tr ev : emI s tr -> ags s' = ags s -> (forall t, off t ev) -> (forall x, In x ev -> conn_event x = false) -> emI s' (tr ++ ev).
Proof.
  intros [A B] E Ho Hc. constructor; rewrite ?E.
  - intros t a Ha. apply em_frame; auto.
  - intros t Ht. destruct (B _ Ht) as [B1 B2], (Ho t) as [O1 O2]. rewrite sent_app, cnt_app, B1, B2, O1, O2. auto.
Qed.
Lemma em_set s s' tr ev t a p : emI s tr -> nth_error (ags s) t = Some a -> ags s' = at_pc s t a p ->
  (forall t', t' <> t -> off t' ev) -> ((exists t' a', nth_error (ags s) t' = Some a' /\ running a' /\ t' <> t) -> forall x, In x ev -> conn_event x = false) ->
  (em_ok tr t a -> em_ok (tr ++ ev) t (Ag (a_call a) (a_proc a) p)) -> emI s' (tr ++ ev).
Proof.
  intros [A B] Ha E Ho Hc Hok. assert (Hlt := nth_lt _ _ _ Ha). unfold at_pc in E. constructor; rewrite E.
  - intros t' b Hb. destruct (Nat.eq_dec t' t) as [->|Hne].
    + rewrite nth_set_same in Hb by exact Hlt. inversion Hb; subst. auto.
    + rewrite nth_set_other in Hb by congruence. apply em_frame; eauto 6.
  - intros t' Ht. rewrite length_set_nth in Ht. assert (Hne : t' <> t) by lia. destruct (B _ Ht) as [B1 B2], (Ho _ Hne) as [O1 O2].
    rewrite sent_app, cnt_app, B1, B2, O1, O2. auto.
Qed.
Lemma dropped_off s t : off t (dropped s).
Proof.
  unfold dropped, off. induction (queue s) as [|k q [IH1 IH2]]; cbn; [auto|]. split; [exact IH1|]. rewrite cnt_cons. cbn. exact IH2.
Qed.
Lemma off_cons t x ev : sent t [x] = [] -> emits t x = false -> off t ev -> off t (x :: ev).
Proof. intros H1 H2 [H3 H4]. split; [change (x :: ev) with ([x] ++ ev); rewrite sent_app, H1, H3; reflexivity|rewrite cnt_cons, H2, H4; reflexivity]. Qed.
Lemma off_nil t : off t [].
Proof. split; reflexivity. Qed.
Ltac offs := repeat (apply off_cons; [reflexivity|reflexivity|]); first [apply off_nil|apply dropped_off].
Lemma off_send e c v f t : t <> e -> off t [ESend e c v f].
Proof. intro H. apply off_cons; [|reflexivity|apply off_nil]. cbn. apply Nat.eqb_neq in H. rewrite H. reflexivity. Qed.

(** One more slot is handed over. *)
Lemma prog_send tr t v c rest f : prog tr t v (c :: rest) -> prog (tr ++ [ESend t c v f]) t v rest.
Proof.
  intros (l1 & l2 & E & H1 & H2 & H3). exists l1, (l2 ++ [ESend t c v f]). split; [rewrite E, <- app_assoc; reflexivity|].
  split; [exact H1|]. split; [|rewrite conn_same by noconn; exact H3].
  rewrite sent_app. unfold sent at 2. cbn [flat_map]. rewrite Nat.eqb_refl. cbn [app]. rewrite <- app_assoc. exact H2.
Qed.
Lemma em_send tr t a p v c rest f : em_ok tr t a -> a_call a = CNotify v -> a_pc a = PRun (c :: rest) ->
  (p = PRun rest \/ exists d, p = PHeld d rest) -> em_ok (tr ++ [ESend t c v f]) t (Ag (a_call a) (a_proc a) p).
Proof.
  unfold em_ok. intros H Hc Hp Hq. rewrite Hp in H. destruct H as [(v' & Hv & H) Hn]. assert (v' = v) by congruence. subst v'.
  assert (G : (exists v0, a_call a = CNotify v0 /\ prog (tr ++ [ESend t c v f]) t v0 rest) /\ cnt (emits t) (tr ++ [ESend t c v f]) = 1).
  { split; [exists v; split; [exact Hv|apply prog_send; exact H]|]. rewrite cnt_app, Hn, cnt_cons, cnt_nil. reflexivity. }
  destruct Hq as [->|[d ->]]; exact G.
Qed.

Lemma em_step s l s' ev tr : emI s tr -> connI s tr -> callI s tr -> pstep s l s' ev -> emI s' (tr ++ ev).
Proof.
  intros I N C Hp.
  assert (Alone : lock s = None -> forall t a, nth_error (ags s) t = Some a -> running a -> False).
  { intros L t a Ha Hr. apply (g_lock _ _ C _ _ Ha) in Hr. congruence. }
  destruct Hp; try (eapply em_same; [exact I|reflexivity|intro; offs|noconn]).
  - (* XCall *)
    destruct I as [A B]. constructor; cbn [ags to].
    + intros t a Ha. rewrite nth_snoc in Ha. destruct (Nat.eqb_spec t (length (ags s))) as [->|Hne].
      * inversion Ha; subst. destruct (B _ (le_n _)) as [B1 B2]. unfold em_ok. cbn [a_pc]. rewrite sent_app, cnt_app, B1, B2. split; reflexivity.
      * apply em_frame; [auto|offs|intros _; noconn].
    + intros t Ht. rewrite app_length in Ht. cbn in Ht. destruct (B t) as [B1 B2]; [lia|]. rewrite sent_app, cnt_app, B1, B2. split; reflexivity.
  - eapply em_set; [exact I|exact H|reflexivity|intros; offs| |].
    + intros (t' & a' & Ha' & Hr & _). destruct (Alone H2 _ _ Ha' Hr).
    + unfold em_ok. rewrite H1. cbn [a_pc]. intros [K1 K2]. rewrite sent_app, cnt_app, K1, K2. split; [apply NoDup_nil|cbn [app]; rewrite ?cnt_cons, ?cnt_nil; cbn; lia].
  - eapply em_set; [exact I|exact H|reflexivity| | |].
    + intros. destruct (existsb _ _); offs.
    + intros (t' & a' & Ha' & Hr & _). destruct (Alone H2 _ _ Ha' Hr).
    + unfold em_ok. rewrite H1. cbn [a_pc]. intros [K1 K2]. rewrite sent_app, cnt_app, K1, K2.
      destruct (existsb _ _); (split; [apply NoDup_nil|cbn [app]; rewrite ?cnt_cons, ?cnt_nil; cbn; lia]).
  - (* XEmit *)
    eapply em_set; [exact I|exact H|reflexivity| |intros _; noconn|].
    + intros t' Hne. split; [reflexivity|]. rewrite cnt_cons, cnt_nil. cbn. apply Nat.eqb_neq in Hne. rewrite Hne. reflexivity.
    + unfold em_ok. rewrite H1. cbn [a_pc a_call]. intros [K1 K2]. split.
      * exists v. split; [exact H0|]. exists tr, []. split; [reflexivity|]. split; [exact K1|]. split; [cbn; rewrite (n_keep _ _ N); reflexivity|].
        apply conn_same. noconn.
      * rewrite cnt_app, K2, cnt_cons, cnt_nil. cbn. rewrite Nat.eqb_refl. reflexivity.
  - eapply em_set; [exact I|exact H|reflexivity|intros; apply off_send; auto|intros _; noconn|]. intro K. eapply em_send; eauto.
  - eapply em_set; [exact I|exact H|reflexivity|intros; apply off_send; auto|intros _; noconn|]. intro K. eapply em_send; eauto.
  - eapply em_set; [exact I|exact H|reflexivity|intros; apply off_send; auto|intros _; noconn|]. intro K. eapply em_send; eauto. destruct k; eauto.
  - eapply em_set; [exact I|exact H|reflexivity|intros; offs|intros _; noconn|].
    unfold em_ok. rewrite H1. cbn [a_pc]. intros [(v' & Hv & (l1 & l2 & E & S1 & S2 & S3)) Hn].
    rewrite sent_app, cnt_app, Hn. split; [|rewrite ?cnt_cons, ?cnt_nil; cbn; lia]. cbn [sent flat_map]. rewrite app_nil_r.
    replace (sent t tr) with (sent t l2).
    + rewrite app_nil_r in S2. rewrite S2, with_arg_fst, <- S3, <- (n_keep _ _ N). apply (n_nodup _ _ N).
    + rewrite E, sent_app, S1. reflexivity.
  - assert (X : emI (to s (lock s) (keeper s) (queue s) (at_pc s t a (PRun rest))) (tr ++ [])); [|exact X].
    eapply em_set; [exact I|exact H|reflexivity|intros; offs|intros _; noconn|]. rewrite app_nil_r. unfold em_ok. rewrite H1. cbn [a_pc a_call]. auto.
Qed.
Lemma em_init : emI st_new [].
Proof.
  constructor; cbn.
  - intros t a Ha. destruct t; discriminate.
  - intros t _. auto.
Qed.

(** ** The queue *)
Definition id_of (k : task) : nat * nat * nat := (k_em k, k_conn k, k_val k).
Record queI (s : st) (tr : list event) : Prop := {
  q_fifo : posted tr = taken tr ++ map id_of (queue s);
  q_held : forall k, In k (queue s) -> nth_error (kinds s) (k_conn k) = Some Blocking ->
             exists a rest, nth_error (ags s) (k_em k) = Some a /\ a_pc a = PHeld (k_conn k) rest;
  q_stop : (closed s = true -> In EStop tr \/ In EGone tr) /\ (gone s = true -> In EGone tr);
  q_busy : busy s = working tr;
  q_known : forall k, In k (queue s) -> k_conn k < length (kinds s);
  q_calls : proc_calls s = true -> busy s = true }.

Lemma taken_dropped s : taken (dropped s) = map id_of (queue s).
Proof. unfold dropped, taken. induction (queue s) as [|k q IH]; cbn; [reflexivity|]. rewrite IH. reflexivity. Qed.
Lemma posted_dropped s : posted (dropped s) = [].
Proof. unfold dropped, posted. induction (queue s) as [|k q IH]; cbn; [reflexivity|]. exact IH. Qed.
Lemma working_same tr ev : (forall x, In x ev -> match x with EBegin | EFinish => False | _ => True end) -> working (tr ++ ev) = working tr.
Proof.
  unfold working. rewrite fold_left_app. generalize (fold_left (fun b e => match e with EBegin => true | EFinish => false | _ => b end) tr false).
  induction ev as [|x ev IH]; intros b H; cbn [fold_left]; [reflexivity|].
  assert (Hx := H x (or_introl eq_refl)). destruct x; try contradiction; apply IH; intros y Hy; apply H; right; exact Hy.
Qed.
Ltac noworks := let x := fresh "x" in let K := fresh "K" in intros x K; cbn in K;
  repeat (destruct K as [K|K]; [subst; exact Logic.I|]); first [contradiction | apply dropped_in in K as (? & _ & ->); exact Logic.I].
Lemma stop_frame s tr ev : ((closed s = true -> In EStop tr \/ In EGone tr) /\ (gone s = true -> In EGone tr)) ->
  (closed s = true -> In EStop (tr ++ ev) \/ In EGone (tr ++ ev)) /\ (gone s = true -> In EGone (tr ++ ev)).
Proof.
  intros [H1 H2]. split; intro K.
  - destruct (H1 K); [left|right]; apply in_or_app; auto.
  - apply in_or_app. auto.
Qed.
Lemma calls_set s t a p : nth_error (ags s) t = Some a -> a_pc a <> PDone ->
  existsb (fun x => a_proc x && negb (is_done x)) (at_pc s t a p) = true -> proc_calls s = true.
Proof.
  intros Ha Hd H. apply existsb_exists in H as (b & Hb & E). apply andb_true_iff in E as [E1 E2]. apply existsb_exists.
  apply In_nth_error in Hb as [t' Hb]. unfold at_pc in Hb. destruct (Nat.eq_dec t' t) as [->|Hne].
  - rewrite nth_set_same in Hb by (eapply nth_lt; eauto). inversion Hb; subst. cbn in E1. exists a. split; [eapply nth_error_In; eauto|].
    rewrite E1. unfold is_done. destruct (a_pc a); auto; congruence.
  - rewrite nth_set_other in Hb by congruence. exists b. split; [eapply nth_error_In; eauto|]. rewrite E1, E2. reflexivity.
Qed.

(** A step of call [t] that leaves the queue alone, and does not leave [PHeld]. *)
Lemma que_set s s' tr ev t a p : queI s tr -> nth_error (ags s) t = Some a -> a_pc a <> PDone -> (forall c r, a_pc a <> PHeld c r) ->
  ags s' = at_pc s t a p -> queue s' = queue s -> closed s' = closed s -> gone s' = gone s -> busy s' = busy s ->
  (forall c, c < length (kinds s) -> nth_error (kinds s') c = nth_error (kinds s) c) -> length (kinds s) <= length (kinds s') ->
  posted ev = [] -> taken ev = [] -> (forall x, In x ev -> match x with EBegin | EFinish => False | _ => True end) -> queI s' (tr ++ ev).
Proof.
  intros [F H T W K P] Ha Hd Hh E1 E2 E3 E4 E5 E6 E7 Ep Et Ew. constructor.
  - rewrite posted_app, taken_app, Ep, Et, E2, !app_nil_r. exact F.
  - rewrite E2. intros k Hk Hb. rewrite E6 in Hb by auto. destruct (H _ Hk Hb) as (b & r & Hn & Hp). exists b, r. split; [|exact Hp].
    rewrite E1. unfold at_pc. rewrite nth_set_other; [exact Hn|]. intros ->. rewrite Ha in Hn. inversion Hn; subst. exact (Hh _ _ Hp).
  - rewrite E3, E4. apply stop_frame. exact T.
  - rewrite E5, working_same by exact Ew. exact W.
  - rewrite E2. intros k Hk. specialize (K _ Hk). lia.
  - unfold proc_calls. rewrite E1, E5. intro Hc. apply P. eapply calls_set; eauto.
Qed.
Lemma working_snoc tr x : working (tr ++ [x]) = match x with EBegin => true | EFinish => false | _ => working tr end.
Proof. unfold working. rewrite fold_left_app. reflexivity. Qed.

Lemma que_step s l s' ev tr : queI s tr -> pstep s l s' ev -> queI s' (tr ++ ev).
Proof.
  intros I Hp. destruct Hp.
  - rewrite app_nil_r. exact I.
  - (* XCall *)
    destruct I as [F Hh T W K P]. constructor; cbn [queue kinds ags closed gone busy to].
    + rewrite posted_app, taken_app. cbn. rewrite !app_nil_r. exact F.
    + intros k Hk Hb. destruct (Hh _ Hk Hb) as (b & r & Hn & Hpc). exists b, r. split; [|exact Hpc]. rewrite nth_error_app1 by (eapply nth_lt; eauto). exact Hn.
    + apply (stop_frame s). exact T.
    + rewrite working_same by noworks. exact W.
    + exact K.
    + unfold proc_calls. cbn [ags to]. rewrite existsb_app. cbn. rewrite orb_false_r, andb_true_r. intro Hc. apply orb_true_iff in Hc as [Hc|Hc]; [apply P; exact Hc|].
      apply H. exact Hc.
  - eapply que_set; [exact I|exact H|congruence|congruence|..]; try reflexivity; [| |noworks].
    + intros c' Hc. cbn. apply nth_error_app1. exact Hc.
    + cbn. rewrite app_length. lia.
  - eapply que_set; [exact I|exact H|congruence|congruence|..]; try reflexivity; destruct (existsb _ _); try reflexivity; noworks.
  - eapply que_set; [exact I|exact H|congruence|congruence|..]; try reflexivity. noworks.
  - eapply que_set; [exact I|exact H|congruence|congruence|..]; try reflexivity. noworks.
  - eapply que_set; [exact I|exact H|congruence|congruence|..]; try reflexivity. noworks.
  - (* XPost *)
    destruct I as [F Hh T W K P]. assert (Hlt := nth_lt _ _ _ H). constructor; cbn [queue kinds ags closed gone busy to].
    + rewrite posted_app, taken_app, map_app, F. cbn. rewrite app_nil_r, <- app_assoc. reflexivity.
    + intros k' Hk' Hb. apply in_app_iff in Hk' as [Hk'|[<-|[]]].
      * destruct (Hh _ Hk' Hb) as (b & r & Hn & Hpc). exists b, r. split; [|exact Hpc]. unfold at_pc. rewrite nth_set_other; [exact Hn|].
        intros E. rewrite E in *. rewrite H in Hn. inversion Hn; subst. congruence.
      * cbn [k_conn k_em] in *. assert (k = Blocking) by congruence. subst k. eexists. exists rest. unfold at_pc. rewrite nth_set_same by exact Hlt. split; reflexivity.
    + apply (stop_frame s). exact T.
    + rewrite working_same by noworks. exact W.
    + intros k' Hk'. apply in_app_iff in Hk' as [Hk'|[<-|[]]]; [auto|]. cbn. eapply nth_lt; eauto.
    + intro Hc. apply P. eapply calls_set; [exact H|congruence|exact Hc].
  - eapply que_set; [exact I|exact H|congruence|congruence|..]; try reflexivity. noworks.
  - (* XGo *)
    destruct I as [F Hh T W K P]. rewrite app_nil_r. constructor; cbn [queue kinds ags closed gone busy to]; auto.
    + intros k' Hk' Hb. destruct (Hh _ Hk' Hb) as (b & r & Hn & Hpc). exists b, r. split; [|exact Hpc]. unfold at_pc. rewrite nth_set_other; [exact Hn|].
      intros E. subst t. unfold waits_for in H2. assert (X : existsb (fun k : task => (k_em k =? k_em k') && match nth_error (kinds s) (k_conn k) with Some Blocking => true | _ => false end) (queue s) = true); [|congruence].
      apply existsb_exists. exists k'. split; [exact Hk'|]. rewrite Nat.eqb_refl, Hb. reflexivity.
    + intro Hc. apply P. eapply calls_set; [exact H|congruence|exact Hc].
  - (* XLoop *)
    destruct I as [F Hh T W K P]. constructor; cbn [queue kinds ags closed gone busy to].
    + rewrite posted_app, taken_app, F, H0. cbn. rewrite app_nil_r, <- app_assoc. reflexivity.
    + intros k' Hk' Hb. apply Hh; [rewrite H0; right; exact Hk'|exact Hb].
    + apply (stop_frame s). exact T.
    + rewrite working_same by noworks. exact W.
    + intros k' Hk'. apply K. rewrite H0. right. exact Hk'.
    + exact P.
  - destruct I as [F Hh T W K P]. constructor; cbn [queue kinds ags closed gone busy]; auto.
    + rewrite posted_app, taken_app. cbn. rewrite !app_nil_r. exact F.
    + apply (stop_frame s). exact T.
    + rewrite working_snoc. reflexivity.
  - destruct I as [F Hh T W K P]. constructor; cbn [queue kinds ags closed gone busy]; auto.
    + rewrite posted_app, taken_app. cbn. rewrite !app_nil_r. exact F.
    + apply (stop_frame s). exact T.
    + rewrite working_snoc. reflexivity.
    + unfold proc_calls in *. cbn [ags]. intro Hc. rewrite Hc in H. discriminate.
  - (* XStop *)
    destruct I as [F Hh T W K P]. constructor; cbn [queue kinds ags closed gone busy]; try (intros k Hk; contradiction); auto.
    + change (EStop :: dropped s) with ([EStop] ++ dropped s). rewrite !posted_app, !taken_app, posted_dropped, taken_dropped, F. cbn. rewrite !app_nil_r. reflexivity.
    + split; [left; apply in_or_app; right; now left|]. intro G. apply in_or_app. left. apply T. exact G.
    + rewrite working_same by noworks. exact W.
  - destruct I as [F Hh T W K P]. constructor; cbn [queue kinds ags closed gone busy]; auto.
    + rewrite posted_app, taken_app. cbn. rewrite !app_nil_r. exact F.
    + split; discriminate.
    + rewrite working_same by noworks. exact W.
  - (* XGone *)
    destruct I as [F Hh T W K P]. constructor; cbn [queue kinds ags closed gone busy]; try (intros k Hk; contradiction); auto.
    + change (EGone :: dropped s) with ([EGone] ++ dropped s). rewrite !posted_app, !taken_app, posted_dropped, taken_dropped, F. cbn. rewrite !app_nil_r. reflexivity.
    + split; intros _; [right|]; apply in_or_app; right; now left.
    + rewrite working_same by noworks. exact W.
Qed.
Lemma que_init : queI st_new [].
Proof. constructor; cbn; try contradiction; try discriminate; auto. split; discriminate. Qed.

Record inv (s : st) (tr : list event) : Prop := { i_conn : connI s tr; i_call : callI s tr; i_em : emI s tr; i_que : queI s tr }.
Lemma conn_init : connI st_new [].
Proof.
  constructor; cbn; try contradiction; [reflexivity|constructor|]. intros c k. split; [destruct c; discriminate|intros [t []]].
Qed.
Lemma inv_final h : inv (final h) (trace h).
Proof.
  apply (history_ind (fun _ => inv)).
  - constructor; [apply conn_init|apply call_init|apply em_init|apply que_init].
  - intros h0 l s' ev [I1 I2 I3 I4] Hp. constructor; [eapply conn_step|eapply call_step|eapply em_step|eapply que_step]; eauto.
Qed.
