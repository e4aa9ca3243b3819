(** Every thread that is inside a queue operation is inside its own one. *)
From Verif Require Import ListUtil Amap ProcModel ProcSpec ProcProofs ProcProofs2 ProcProofs3.
From Verif Require QueueModel QueueSpec SigModel.

Definition others (i : nat) (q q' : QueueModel.history nat) : Prop := forall j o ph, j <> i -> qtask q j = Some (o, ph) ->
  exists ph', qtask q' j = Some (o, ph') /\ (ph' = ph \/ (ph = QueueModel.PAsleep /\ ph' = QueueModel.PEnter)).
Lemma others_refl i q : others i q q.
Proof. intros j o ph N E. eauto. Qed.
Lemma others_call i q o : others i q (q ++ [QueueModel.LCall o]).
Proof.
  intros j o' ph N E. exists ph. split; [|auto]. rewrite q_call_task. destruct (Nat.eqb_spec j (q_next q)); [|exact E].
  pose proof (nth_lt _ _ _ E). unfold q_next in *. lia.
Qed.
Lemma others_run i q l : qid l = Some i -> others i q (q ++ [l]).
Proof. intros L j o ph N E. eapply q_other; eauto. Qed.
Lemma others_trans i a b c : others i a b -> others i b c -> others i a c.
Proof.
  intros X Y j o ph N E. destruct (X j o ph N E) as (ph1 & E1 & H1). destruct (Y j o ph1 N E1) as (ph2 & E2 & H2). exists ph2. split; [exact E2|].
  destruct H1 as [-> |[-> ->]]; [exact H2|]. destruct H2 as [-> |[X1 _]]; [auto|discriminate].
Qed.

Definition live (ph : QueueModel.pc nat) : Prop := forall r, ph <> QueueModel.PReturned r.
Definition want (f : frame) (o : QueueModel.op nat) (ph : QueueModel.pc nat) : Prop :=
  match f with
  | FCall n (PPush _) => o = QueueModel.OPush n /\ ph = QueueModel.PPush
  | FCall n (PClose _) => o = QueueModel.OClose /\ live ph
  | FCall n (PClear _) => o = QueueModel.OClear false /\ ph = QueueModel.PStart
  | FCall n (PSize _) => o = QueueModel.OSize /\ ph = QueueModel.PStart
  | FLoop _ _ _ k (LWait _) => o = QueueModel.OWait (timed k) /\ live ph
  | _ => False
  end.
Lemma want_live f o ph : want f o ph -> live ph.
Proof. destruct f as [n []|n p j k []| |]; cbn; try contradiction; intros [_ H]; auto; subst; intros r; discriminate. Qed.
Lemma want_woken f o ph ph' : want f o ph -> ph' = ph \/ (ph = QueueModel.PAsleep /\ ph' = QueueModel.PEnter) -> want f o ph'.
Proof. intros W [-> |[-> ->]]; [exact W|]. destruct f as [n []|n p j k []| |]; cbn in *; try contradiction; destruct W as [A B]; try discriminate; (split; [exact A|intros r; discriminate]). Qed.

Definition calling (st : state) (t p i : nat) : Prop := exists f r, stk st t = f :: r /\ frame_q (calls st) f = Some (p, i).
Record qinv (st : state) : Prop := {
  qi_want : forall t f r p i, stk st t = f :: r -> frame_q (calls st) f = Some (p, i) -> exists o ph, qtask (queue st p) i = Some (o, ph) /\ want f o ph;
  qi_diff : forall t t' p i, calling st t p i -> calling st t' p i -> t = t' }.

Lemma frame_q_mono cs x t f l : good cs t l -> In f l -> frame_q (cs ++ [x]) f = frame_q cs f.
Proof.
  intros G I. destruct f as [n k| | |]; try reflexivity. destruct (g_call _ _ _ G n k I) as (c & E & _).
  assert (E' : nth_error (cs ++ [x]) n = Some (t, c)) by (rewrite nth_error_app1; auto; eapply nth_lt; eauto).
  cbn. rewrite E, E'. reflexivity.
Qed.
Lemma link_noq cs b g : link b g -> frame_q cs g = None.
Proof. destruct g as [n []|n p j k []|p e|p e m []]; cbn; try contradiction; reflexivity. Qed.
Lemma chain_noq cs r : forall b g, chain b r -> In g r -> frame_q cs g = None.
Proof. induction r as [|f r IH]; intros b g C I; [destruct I|]. destruct C as [L C]. destruct I as [<-|I]; [eapply link_noq; eauto|eapply IH; eauto]. Qed.
Lemma tail_noq cs t f r g : good cs t (f :: r) -> In g r -> frame_q cs g = None.
Proof. intros G I. pose proof (g_chain _ _ _ G) as C. cbn in C. eapply chain_noq; eauto. Qed.
Lemma frame_q_lt st t f r p i : qinv st -> stk st t = f :: r -> frame_q (calls st) f = Some (p, i) -> i < q_next (queue st p).
Proof. intros Q S F. destruct (qi_want _ Q _ _ _ _ _ S F) as (o & ph & E & _). apply nth_lt in E. exact E. Qed.

(** What one thread's step does to the queues. *)
Record qview (t : nat) (st st' : state) : Prop := {
  qv_stk : forall t', t' <> t -> stk st' t' = stk st t';
  qv_calls : calls st' = calls st \/ exists x, calls st' = calls st ++ [x];
  qv_others : exists p i, others i (queue st p) (queue st' p) /\ (forall p', p' <> p -> queue st' p' = queue st p') /\ (calling st t p i \/ q_next (queue st p) <= i);
  qv_new : forall f r p i, stk st' t = f :: r -> frame_q (calls st') f = Some (p, i) ->
    (calling st t p i \/ q_next (queue st p) <= i) /\ exists o ph, qtask (queue st' p) i = Some (o, ph) /\ want f o ph }.

Lemma qinv_step t st st' : all_good st -> qinv st -> qview t st st' -> qinv st'.
Proof.
  intros G I V. destruct (qv_others _ _ _ V) as (p0 & i0 & O & OP & OC).
  assert (FQ : forall t' f r, t' <> t -> stk st' t' = f :: r -> stk st t' = f :: r /\ frame_q (calls st') f = frame_q (calls st) f).
  { intros t' f r N S. rewrite (qv_stk _ _ _ V) in S by exact N. split; [exact S|]. destruct (qv_calls _ _ _ V) as [-> |[x ->]]; [reflexivity|].
    eapply frame_q_mono; [apply (G t')|rewrite S; left; reflexivity]. }
  assert (CL : forall t' p i, t' <> t -> calling st' t' p i -> calling st t' p i).
  { intros t' p i N (f & r & S & F). destruct (FQ _ _ _ N S) as [S' E]. exists f, r. rewrite E in F. auto. }
  split.
  - intros t' f r p i S F. destruct (Nat.eq_dec t' t) as [-> |N]; [apply (qv_new _ _ _ V _ _ _ _ S F)|].
    destruct (FQ _ _ _ N S) as [S' E]. rewrite E in F. destruct (qi_want _ I _ _ _ _ _ S' F) as (o & ph & T & W).
    destruct (Nat.eq_dec p p0) as [-> |NP]; [|rewrite (OP _ NP); eauto].
    destruct (O i o ph) as (ph' & T' & H); [|exact T|].
    + intros ->. destruct OC as [C|C].
      * apply N. eapply (qi_diff _ I); [exists f, r; eauto|exact C].
      * pose proof (frame_q_lt _ _ _ _ _ _ I S' F). lia.
    + exists o, ph'. split; [exact T'|eapply want_woken; eauto].
  - assert (D : forall t' p i, t' <> t -> calling st' t' p i -> calling st' t p i -> False).
    { intros t' p i N C (f & r & S & F). apply CL in C; [|exact N]. destruct (qv_new _ _ _ V _ _ _ _ S F) as [[H|H] _].
      - apply N. eapply (qi_diff _ I); eauto.
      - destruct C as (f' & r' & S' & F'). pose proof (frame_q_lt _ _ _ _ _ _ I S' F'). lia. }
    intros t1 t2 p i C1 C2. destruct (Nat.eq_dec t1 t) as [-> |N1], (Nat.eq_dec t2 t) as [-> |N2]; auto.
    + exfalso. eapply D; eauto.
    + exfalso. eapply D; eauto.
    + eapply (qi_diff _ I); eapply CL; eauto.
Qed.

Lemma result_live q i o ph : qtask q i = Some (o, ph) -> live ph -> q_result q i = None.
Proof. intros E L. apply (q_result_none _ _ _ _ E). exact L. Qed.

(** A frame that stays inside its queue operation. *)
Lemma spin_want cs f p i q l o ph : frame_q cs f = Some (p, i) -> qtask q i = Some (o, ph) -> want f o ph -> qid l = Some i ->
  ((exists ch, l = QueueModel.LRun i ch) \/ exists n p just k, f = FLoop n p just k (LWait i)) ->
  (q_result q i = None -> q_result (q ++ [l]) i = None) -> exists o' ph', qtask (q ++ [l]) i = Some (o', ph') /\ want f o' ph'.
Proof.
  intros F E W L OR N. pose proof (N (result_live _ _ _ _ E (want_live _ _ _ W))) as R.
  destruct f as [n []|n p' j k []| |]; cbn in W; try contradiction; destruct W as [W1 W2]; subst.
  - destruct OR as [(ch & ->)|(? & ? & ? & ? & X)]; [|discriminate]. destruct (q_push_step _ _ _ ch E) as [_ [[S _]|(_ & _ & S)]]; [|contradiction]. rewrite S. eauto using conj.
    exists (QueueModel.OPush n), QueueModel.PPush. split; [exact E|cbn; auto].
  - destruct OR as [(ch & ->)|(? & ? & ? & ? & X)]; [|discriminate]. destruct (q_close_step _ _ ch _ E W2) as (_ & _ & [[_ S]|S]); [|contradiction].
    exists QueueModel.OClose, QueueModel.PNotify. split; [exact S|cbn; split; auto; intros r; discriminate].
  - destruct OR as [(ch & ->)|(? & ? & ? & ? & X)]; [|discriminate]. destruct (q_clear_step _ _ ch E) as [_ [[S _]|(_ & _ & S & _)]]; [|contradiction]. rewrite S.
    exists (QueueModel.OClear false), QueueModel.PStart. split; [exact E|cbn; auto].
  - destruct OR as [(ch & ->)|(? & ? & ? & ? & X)]; [|discriminate]. destruct (q_size_step _ _ ch E) as (_ & _ & [[S _]|S]); [|congruence]. rewrite S.
    exists QueueModel.OSize, QueueModel.PStart. split; [exact E|cbn; auto].
  - destruct (q_wait_step _ _ _ _ _ L E W2) as (_ & _ & ph' & T & H). exists (QueueModel.OWait (timed k)), ph'. split; [exact T|]. cbn. split; [reflexivity|].
    intros r ->. unfold q_result in R. rewrite T in R. discriminate.
Qed.

Lemma core_qview t st st' : all_good st -> qinv st -> core t st st' -> qview t st st'.
Proof.
  intros G I K. pose proof (G t) as GT.
  assert (EQ : forall s' add, eff st st' t s' add -> qsame st st' ->
    (forall f r p i, s' = f :: r -> frame_q (calls st) f = Some (p, i) -> s' = stk st t) -> qview t st st').
  { intros s' add (S & _ & C) Q H. split.
    - intros t' N. rewrite S, upd_other; auto.
    - left. exact C.
    - exists 0, (q_next (queue st 0)). split; [rewrite (Q 0); apply others_refl|]. split; [intros; apply Q|right; lia].
    - intros f r p i S' F. rewrite S, upd_same in S'. rewrite C in F. specialize (H _ _ _ _ S' F).
      split; [left; exists f, r; rewrite <- H; auto|]. rewrite (Q p). eapply (qi_want _ I); [rewrite <- H; exact S'|exact F]. }
  assert (ET : forall s' add, eff st st' t s' add -> qsame st st' -> (forall f, In f s' -> frame_q (calls st) f = None) -> qview t st st').
  { intros s' add E Q H. eapply EQ; eauto. intros f r p i -> F. rewrite H in F by (left; reflexivity). discriminate. }
  assert (EM : forall s' p i q', qto st st' p q' -> others i (queue st p) q' -> (calling st t p i \/ q_next (queue st p) <= i) ->
    (forall t', stk st' t' = upd (stk st) t s' t') -> (calls st' = calls st \/ exists x, calls st' = calls st ++ [x]) ->
    (forall f r p' i', s' = f :: r -> frame_q (calls st') f = Some (p', i') -> p' = p /\ (calling st t p i' \/ q_next (queue st p) <= i') /\ exists o ph, qtask q' i' = Some (o, ph) /\ want f o ph) ->
    qview t st st').
  { intros s' p i q' Q O OC S C H. split; auto.
    - intros t' N. rewrite S, upd_other; auto.
    - exists p, i. rewrite (Q p), upd_same. split; [exact O|split; [|exact OC]]. intros p' N. rewrite (Q p'). apply upd_other. auto.
    - intros f r p' i' S' F. rewrite S, upd_same in S'. destruct (H _ _ _ _ S' F) as (-> & H1 & H2). split; [exact H1|]. rewrite (Q p), upd_same. exact H2. }
  assert (TN : forall f r, stk st t = f :: r -> forall g, In g r -> frame_q (calls st) g = None) by (intros f r S g; eapply tail_noq; rewrite <- S; exact GT).
  assert (TC : forall f r, stk st t = f :: r -> forall g r' p i, calls st' = calls st -> r = g :: r' -> frame_q (calls st') g = Some (p, i) -> False).
  { intros f r S g r' p i C -> F. rewrite C, (TN _ _ S) in F by (left; reflexivity). discriminate. }
  destruct K as [l Q E N|p e m x x' r l S Q E N|c U N Q E|p k just U Q E|n t0 c k k' r S C F F' Q PS FT E|n t0 c k res r S C F Q R KS E|n t0 p r S C Q E
    |n t0 p r S C P Q E|n t0 p r S C Q E|n t0 c p ch r S C P q1 R Q E|n t0 c p ch r S C P q1 R Q E|n t0 c p i ch r S C P q1 R Q E|f r p i l S FQ L OR RN Q E
    |n t0 c p i ch r S C P q1 R Q E|n t0 c p i ch r S C P q1 R Q E|n t0 c p i ch res r S C P q1 R Q E|n p just kd i ch e r S q1 R Q E|n p just kd i ch res x r S q1 R NT Q E
    |n p just kd e t0 c r S C Q E|n t0 c k r S C F SB Q PS E|b p e n p' just k r l S B N Q E|b p e n p' just r l S B N Q E|b p e n r l res S B N Q FI E|b p e r l S B N Q O E].
  - eapply EQ; eauto.
  - eapply ET; eauto. intros f [<-|H]; [reflexivity|eapply TN; eauto].
  - destruct E as (S & T & C). split.
    + intros t' N'. rewrite S, upd_other; auto.
    + right. eauto.
    + exists 0, (q_next (queue st 0)). split; [rewrite (Q 0); apply others_refl|]. split; [intros; apply Q|right; lia].
    + intros f r p i S' F. rewrite S, upd_same in S'. injection S' as <- <-. discriminate.
  - destruct E as (S & T & C). eapply (EM _ p (q_next (queue st p))); [exact Q|apply others_call|right; lia|exact S|right; eauto|].
    intros f r p' i' [= <- <-] [= <- <-]. split; [reflexivity|]. split; [right; lia|]. rewrite q_call_task, Nat.eqb_refl. do 2 eexists. split; [reflexivity|cbn; split; [reflexivity|intros ?; discriminate]].
  - eapply ET; eauto. intros f [<-|H]; [destruct k'; try discriminate; reflexivity|eapply TN; eauto].
  - eapply ET; eauto.
  - destruct E as (S' & T & C'). eapply (EM _ p (q_next (queue st p))); [exact Q| |right; lia|exact S'|left; exact C'|].
    + eapply others_trans; [apply others_call|apply others_run; reflexivity].
    + intros f r0 p' i' H F'. exfalso. eapply TC; eauto.
  - destruct E as (S' & T & C'). eapply (EM _ p (q_next (queue st p))); [exact Q|apply others_call|right; lia|exact S'|left; exact C'|].
    intros f r0 p' i' [= <- <-] F. rewrite C' in F. cbn in F. rewrite C in F. injection F as <- <-. split; [reflexivity|]. split; [right; lia|].
    rewrite q_call_task, Nat.eqb_refl. do 2 eexists. split; [reflexivity|cbn; split; [reflexivity|intros ?; discriminate]].
  - destruct E as (S' & T & C'). eapply (EM _ p (q_next (queue st p))); [exact Q|apply others_call|right; lia|exact S'|left; exact C'|].
    intros f r0 p' i' [= <- <-] F. rewrite C' in F. cbn in F. rewrite C in F. injection F as <- <-. split; [reflexivity|]. split; [right; lia|].
    rewrite q_call_task, Nat.eqb_refl. do 2 eexists. split; [reflexivity|cbn; split; reflexivity].
  - destruct E as (S' & T & C'). eapply (EM _ p (q_next (queue st p))); [exact Q| |right; lia|exact S'|left; exact C'|].
    + eapply others_trans; [apply others_call|apply others_run; reflexivity].
    + intros f r0 p' i' H F'. exfalso. eapply TC; eauto.
  - destruct E as (S' & T & C'). eapply (EM _ p (q_next (queue st p))); [exact Q| |right; lia|exact S'|left; exact C'|].
    + eapply others_trans; [apply others_call|apply others_run; reflexivity].
    + intros f r0 p' i' [= <- <-] F. rewrite C' in F. cbn in F. rewrite C in F. injection F as <- <-. split; [symmetry; exact P|]. split; [right; lia|].
      destruct (q_enter_push (queue st p) n ch) as (_ & _ & [[_ X]|[_ X]]); [contradiction|]. do 2 eexists. split; [exact X|cbn; auto].
  - destruct E as (S' & T & C'). eapply (EM _ p i); [exact Q|apply others_run; reflexivity| |exact S'|left; exact C'|].
    + left. do 2 eexists. split; [exact S|]. cbn. rewrite C, P. reflexivity.
    + intros f r0 p' i' H F'. exfalso. eapply TC; eauto.
  - destruct E as (S' & T & C'). eapply (EM _ p i); [exact Q|apply others_run; exact L| |exact S'|left; exact C'|].
    + left. do 2 eexists. split; [exact S|exact FQ].
    + intros f0 r0 p' i' [= <- <-] F'. rewrite C', FQ in F'. injection F' as <- <-. split; [reflexivity|]. split; [left; do 2 eexists; split; [exact S|exact FQ]|].
      destruct (qi_want _ I _ _ _ _ _ S FQ) as (o & ph & T' & W). eapply spin_want; eauto.
  - destruct E as (S' & T & C'). eapply (EM _ p i); [exact Q| | |exact S'|left; exact C'|].
    + apply (others_trans _ _ q1); [apply others_run; reflexivity|apply others_call].
    + left. do 2 eexists. split; [exact S|]. cbn. rewrite C, P. reflexivity.
    + intros f0 r0 p' i' [= <- <-] F'. rewrite C' in F'. cbn in F'. rewrite C in F'. injection F' as <- <-. split; [symmetry; exact P|].
      split; [right; unfold q1; rewrite q_next_run by discriminate; lia|]. rewrite q_call_task, Nat.eqb_refl. do 2 eexists. split; [reflexivity|cbn; auto].
  - destruct E as (S' & T & C'). eapply (EM _ p i); [exact Q|apply others_run; reflexivity| |exact S'|left; exact C'|].
    + left. do 2 eexists. split; [exact S|]. cbn. rewrite C, P. reflexivity.
    + intros f r0 p' i' H F'. exfalso. eapply TC; eauto.
  - destruct E as (S' & T & C'). eapply (EM _ p i); [exact Q|apply others_run; reflexivity| |exact S'|left; exact C'|].
    + left. do 2 eexists. split; [exact S|]. cbn. rewrite C, P. reflexivity.
    + intros f r0 p' i' H F'. exfalso. eapply TC; eauto.
  - destruct E as (S' & T & C'). eapply (EM _ p i); [exact Q|apply others_run; reflexivity| |exact S'|left; exact C'|].
    + left. do 2 eexists. split; [exact S|]. reflexivity.
    + intros f r0 p' i' [= <- <-] F'. discriminate.
  - destruct E as (S' & T & C'). eapply (EM _ p i); [exact Q|apply others_run; reflexivity| |exact S'|left; exact C'|].
    + left. do 2 eexists. split; [exact S|]. reflexivity.
    + intros f r0 p' i' H F'. exfalso. eapply TC; eauto.
  - eapply ET; eauto. intros f [<-|[<-|H]]; [destruct c; reflexivity|reflexivity|eapply TN; eauto].
  - eapply ET; eauto. intros f [<-|[<-|H]]; [destruct c; reflexivity|reflexivity|eapply TN; eauto].
  - destruct E as (S' & T & C'). eapply (EM _ p' (q_next (queue st p'))); [exact Q|apply others_call|right; lia|exact S'|left; exact C'|].
    intros f r0 p0 i' [= <- <-] [= <- <-]. split; [reflexivity|]. split; [right; lia|]. rewrite q_call_task, Nat.eqb_refl. do 2 eexists. split; [reflexivity|cbn; split; [reflexivity|intros ?; discriminate]].
  - eapply ET; eauto. intros f H. eapply TN; eauto. right. exact H.
  - eapply ET; eauto. intros f H. eapply TN; eauto. right. exact H.
  - eapply ET; eauto.
Qed.

Lemma qinv_init : qinv init.
Proof. split; intros t; [intros f r p i S; discriminate|intros t' p i (f & r & S & _); discriminate]. Qed.

Lemma core_ind2 (P : state -> Prop) : P init -> (forall t st st', all_good st -> qinv st -> P st -> core t st st' -> P st') -> forall h, P (final h).
Proof.
  intros P0 PS h. apply (core_ind (fun st => qinv st /\ P st)); [split; [apply qinv_init|exact P0]|].
  intros t st st' G [I H] K. split; [eapply qinv_step; eauto; eapply core_qview; eauto|eapply PS; eauto].
Qed.
Lemma qinv_final h : qinv (final h).
Proof. apply core_ind2; [apply qinv_init|]. intros t st st' G I _ K. eapply qinv_step; eauto. eapply core_qview; eauto. Qed.
