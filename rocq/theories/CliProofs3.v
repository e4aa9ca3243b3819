(** Client: what it says about services is what it was told. *)
From Verif Require Import ListUtil CliModel CliSpec CliProofs CliProofs2.

Definition own_pc (q : pc) : Prop :=
  match q with QStore _ _ | QStore2 _ _ | QTell _ _ | QTrue | QPoll _ | QClear | QTellAll | QDown | QRegister => True | _ => False end.

Lemma own_pc_work l c q : okpc l c q -> own_pc q -> own_work c.
Proof. destruct q; cbn; intros H O; try contradiction; subst; cbn; auto. destruct H as [? ->]. exact I. Qed.
Lemma start_own c : own_work c <-> own_pc (start_pc c).
Proof. destruct c as [| | |[sid [av|]|sid code]|[|]|]; cbn; tauto. Qed.
Lemma own_pc_dec q : own_pc q \/ ~ own_pc q.
Proof. destruct q; cbn; auto. Qed.

(** The bookkeeping of the specification. *)
Notation B := present (only parsing).
Lemma B_knows sid l : fst (fold_left (knows1 sid) l (Unavailable, Unavailable)) = B l.
Proof.
  unfold present. induction l as [|e l IH] using rev_ind; [reflexivity|]. rewrite !fold_left_app. cbn. rewrite <- IH.
  destruct (fold_left (knows1 sid) l (Unavailable, Unavailable)) as [b v]. cbn.
  destruct e as [t [| | |[x [av|]|]|[|]|]| | | | | |[]| |]; cbn; try reflexivity; [destruct (Nat.eqb sid x); reflexivity|destruct b; reflexivity].
Qed.
Lemma knows_snoc l e sid : knows (l ++ [e]) sid = match e with
  | ECall _ (CIn (MStatus x (Some av))) => if Nat.eqb sid x then av else knows l sid
  | ECall _ (CPoll false) => match B l with Unavailable => knows l sid | _ => Unavailable end
  | _ => knows l sid
  end.
Proof.
  unfold knows. rewrite fold_left_app. cbn. pose proof (B_knows sid l) as E.
  destruct (fold_left (knows1 sid) l (Unavailable, Unavailable)) as [b v]. cbn in E. subst b.
  destruct e as [t [| | |[x [av|]|]|[|]|]| | | | | |[]| |]; cbn; try reflexivity; [destruct (Nat.eqb sid x); reflexivity|destruct (B l); reflexivity].
Qed.
Lemma B_snoc l e : B (l ++ [e]) = present1 (B l) e.
Proof. unfold present. rewrite fold_left_app. reflexivity. Qed.

Definition neutral (k : list event) : Prop := forall e, In e k -> match e with ECall _ _ | ERegister _ => False | _ => True end.
Lemma neutral_keeps k : neutral k -> forall l sid, knows (l ++ k) sid = knows l sid /\ B (l ++ k) = B l.
Proof.
  induction k as [|e k IH] using rev_ind; intros N l sid; [rewrite app_nil_r; auto|].
  assert (Nk : neutral k) by (intros e' I; apply N; apply in_app_iff; auto).
  assert (Ne : match e with ECall _ _ | ERegister _ => False | _ => True end) by (apply N; apply in_app_iff; right; left; reflexivity).
  destruct (IH Nk l sid) as [A1 A2]. rewrite app_assoc, knows_snoc, B_snoc. destruct e; try contradiction; cbn; auto.
Qed.

Section S.
Variable s : state.
Definition V (sid : nat) := knows (tr s) sid.
Definition st_ok (sid : nat) : Prop := get_or Unavailable sid (stats s) = V sid.
Definition rq_ok (sid : nat) : Prop := forall o x, get sid (reqs s) = Some o -> nth_error (objs s) o = Some x -> r_av x = V sid.
Definition normal : Prop := cur s = B (tr s) /\ forall sid, st_ok sid /\ rq_ok sid.
Definition lost : Prop := B (tr s) = Unavailable /\ forall sid, V sid = Unavailable.
Definition phase (q : pc) : Prop :=
  match q with
  | QStore sid av => cur s = B (tr s) /\ V sid = av /\ forall sid', sid' <> sid -> st_ok sid' /\ rq_ok sid'
  | QStore2 sid av | QTell sid av => cur s = B (tr s) /\ V sid = av /\ (forall sid', st_ok sid') /\ (forall sid', sid' <> sid -> rq_ok sid')
  | QPoll false => (cur s = Unavailable -> normal) /\ (cur s <> Unavailable -> lost)
  | QClear => lost
  | QTellAll => lost /\ forall sid, st_ok sid
  | QDown => lost /\ forall sid, st_ok sid /\ rq_ok sid
  | _ => normal
  end.
End S.

Definition J (s : state) : Prop :=
  (exists t q, nth_error (ths s) t = Some q /\ own_pc q /\ phase s q /\ forall t' q', nth_error (ths s) t' = Some q' -> own_pc q' -> t' = t) \/
  ((forall t q, nth_error (ths s) t = Some q -> ~ own_pc q) /\ normal s).

(** A state that looks the same keeps its phase. *)
Lemma phase_same s s' q : stats s' = stats s -> reqs s' = reqs s -> objs s' = objs s -> cur s' = cur s -> (forall sid, knows (tr s') sid = knows (tr s) sid) -> B (tr s') = B (tr s) ->
  (phase s q -> phase s' q) /\ (normal s -> normal s') /\ (lost s -> lost s').
Proof.
  intros E1 E2 E3 E4 E5 E6.
  assert (ST : forall sid, st_ok s sid -> st_ok s' sid) by (intros sid; unfold st_ok, V; rewrite E1, E5; auto).
  assert (RQ : forall sid, rq_ok s sid -> rq_ok s' sid) by (intros sid; unfold rq_ok, V; rewrite E2, E3, E5; auto).
  assert (NO : normal s -> normal s') by (intros [A C]; split; [rewrite E4, E6; exact A|intros sid; destruct (C sid); auto]).
  assert (LO : lost s -> lost s') by (intros [A C]; split; [rewrite E6; exact A|intros sid; unfold V; rewrite E5; apply C]).
  split; [|auto]. destruct q; cbn; auto; rewrite ?E4, ?E6; unfold V; rewrite ?E5.
  - intros (A & C & D). split; [exact A|]. split; [exact C|]. intros sid' NE. destruct (D sid' NE); auto.
  - intros (A & C & D & F). repeat (split; [auto|]); auto.
  - intros (A & C & D & F). repeat (split; [auto|]); auto.
  - destruct up; auto. intros [A C]. split; auto.
  - intros [A C]. split; auto.
  - intros [A C]. split; [auto|]. intros sid. destruct (C sid); auto.
Qed.

(** Making a requester. *)
Lemma newreq_objs s sid i : nth_error (objs (newreq s sid)) i = if Nat.eqb i (length (objs s)) then Some (Req sid (get_or Unavailable sid (stats s))) else nth_error (objs s) i.
Proof.
  unfold newreq. cbv zeta. unfold get_or. destruct (get sid (stats s)) as [av|].
  - unfold tell. cbn [objs set_reqs set_objs]. rewrite nth_snoc, Nat.eqb_refl. cbn [objs say set_objs r_sid].
    assert (N : nth_error (objs s ++ [Req sid Unavailable]) (length (objs s)) = Some (Req sid Unavailable)) by (rewrite nth_snoc, Nat.eqb_refl; reflexivity).
    rewrite (nth_set _ _ _ _ _ N). rewrite nth_snoc, Nat.eqb_sym. destruct (Nat.eqb i (length (objs s))); reflexivity.
  - cbn [objs set_reqs set_objs]. apply nth_snoc.
Qed.

Lemma phase_new s s' sid q : InvP s -> get sid (reqs s) = None -> stats s' = stats s -> reqs s' = put sid (length (objs s)) (reqs s) -> objs s' = objs (newreq s sid) -> cur s' = cur s ->
  (forall x, knows (tr s') x = knows (tr s) x) -> B (tr s') = B (tr s) -> (phase s q -> phase s' q) /\ (normal s -> normal s').
Proof.
  intros IP G E1 E2 E3 E4 E5 E6.
  assert (ST : forall x, st_ok s x -> st_ok s' x) by (intros x; unfold st_ok, V; rewrite E1, E5; auto).
  assert (RQN : forall x, x <> sid -> rq_ok s x -> rq_ok s' x).
  { intros x NE R o y. rewrite E2, E3, get_put, newreq_objs. destruct (Nat.eqb_spec x sid); [contradiction|]. intros GO. destruct (p_map _ IP _ _ GO) as [SO _].
    apply (p_lt _ IP) in SO. destruct (Nat.eqb_spec o (length (objs s))); [lia|]. unfold V. rewrite E5. apply R. exact GO. }
  assert (RQS : st_ok s sid -> rq_ok s' sid).
  { intros R o y. rewrite E2, E3, get_put_same, newreq_objs. intros [= <-]. rewrite Nat.eqb_refl. intros [= <-]. cbn. unfold V. rewrite E5. exact R. }
  assert (RQ : forall x, st_ok s x -> rq_ok s x -> rq_ok s' x) by (intros x A C; destruct (Nat.eq_dec x sid) as [->|NE]; auto).
  assert (NO : normal s -> normal s') by (intros [A C]; split; [rewrite E4, E6; exact A|intros x; destruct (C x); auto]).
  assert (LO : lost s -> lost s') by (intros [A C]; split; [rewrite E6; exact A|intros x; unfold V; rewrite E5; apply C]).
  split; [|auto]. destruct q; cbn; auto; rewrite ?E4, ?E6; unfold V; rewrite ?E5.
  - intros (A & C & D). split; [exact A|]. split; [exact C|]. intros sid' NE. destruct (D sid' NE); auto.
  - intros (A & C & D & F). repeat (split; [auto|]); auto.
  - intros (A & C & D & F). repeat (split; [auto|]); auto.
  - destruct up; auto. intros [A C]. split; auto.
  - intros [A C]. split; auto.
  - intros [A C]. split; [auto|]. intros x. destruct (C x); auto.
Qed.

(** Telling. *)
Lemma tell_objs s av o i : nth_error (objs (tell s av o)) i = if Nat.eqb o i then option_map (fun x => Req (r_sid x) av) (nth_error (objs s) i) else nth_error (objs s) i.
Proof.
  unfold tell. destruct (nth_error (objs s) o) as [x|] eqn:N.
  - cbn. rewrite (nth_set _ _ _ _ _ N). destruct (Nat.eqb_spec o i) as [<-|]; [rewrite N|]; reflexivity.
  - destruct (Nat.eqb_spec o i) as [<-|]; [rewrite N|]; reflexivity.
Qed.
Lemma tells_objs l : forall s o x, In o (map snd l) -> nth_error (objs (fold_left (fun s' (x : nat * nat) => tell s' Unavailable (snd x)) l s)) o = Some x -> r_av x = Unavailable.
Proof.
  assert (K : forall l s o x, (forall y, nth_error (objs s) o = Some y -> r_av y = Unavailable) ->
     nth_error (objs (fold_left (fun s' (x : nat * nat) => tell s' Unavailable (snd x)) l s)) o = Some x -> r_av x = Unavailable).
  { induction l0 as [|p l0 IH]; intros s o x H; cbn; [apply H|]. apply IH. intros y. rewrite tell_objs. destruct (Nat.eqb_spec (snd p) o) as [<-|]; [|apply H].
    destruct (nth_error (objs s) (snd p)); cbn; [intros [= <-]; reflexivity|discriminate]. }
  induction l as [|p l IH]; intros s o x I; [destruct I|]. cbn. destruct I as [<-|I]; [|apply IH; exact I].
  apply K. intros y. rewrite tell_objs, Nat.eqb_refl. destruct (nth_error (objs s) (snd p)); cbn; [intros [= <-]; reflexivity|discriminate].
Qed.

Lemma one_thread_app l k : one_thread (l ++ k) -> one_thread l.
Proof. intros H l1 t c l2 E. apply (H l1 t c (l2 ++ k)). rewrite E, <- app_assoc. reflexivity. Qed.

Lemma quiet_none s : InvT s -> quiet (tr s) -> forall t q, nth_error (ths s) t = Some q -> ~ own_pc q.
Proof.
  intros IT Q t q N O. destruct (t_th _ IT _ _ N) as (c & I & OK). pose proof (Q _ _ I (own_pc_work _ _ _ OK O)) as R. apply (t_ret _ IT) in R.
  rewrite N in R. injection R as ->. exact O.
Qed.

(** One step of a thread that is not the client's own. *)
Lemma J_other s s' t q q' : J s -> nth_error (ths s) t = Some q -> ~ own_pc q -> ths s' = set_nth t q' (ths s) -> ~ own_pc q' ->
  (forall p, (phase s p -> phase s' p) /\ (normal s -> normal s')) -> J s'.
Proof.
  intros JS N O TE O' PH. destruct JS as [(t0 & q0 & N0 & O0 & P0 & U)|[NO NM]].
  - left. exists t0, q0. assert (NE : t <> t0) by (intros ->; congruence). split; [rewrite TE, (nth_set _ _ _ _ _ N); destruct (Nat.eqb_spec t t0); [contradiction|exact N0]|].
    split; [exact O0|]. split; [apply (PH q0); exact P0|]. intros t' q1. rewrite TE, (nth_set _ _ _ _ _ N). destruct (Nat.eqb_spec t t'); [intros [= <-]; contradiction|apply U].
  - right. split; [|apply (PH QDone); exact NM]. intros t' q1. rewrite TE, (nth_set _ _ _ _ _ N). destruct (Nat.eqb_spec t t'); [intros [= <-]; exact O'|apply NO].
Qed.
(** One step of the client's own thread. *)
Lemma J_own s s' t q q' : J s -> nth_error (ths s) t = Some q -> own_pc q -> ths s' = set_nth t q' (ths s) ->
  (phase s q -> (own_pc q' /\ phase s' q') \/ (~ own_pc q' /\ normal s')) -> J s'.
Proof.
  intros JS N O TE PH. destruct JS as [(t0 & q0 & N0 & O0 & P0 & U)|[NO _]]; [|destruct (NO _ _ N O)].
  pose proof (U _ _ N O) as <-. rewrite N in N0. injection N0 as <-.
  destruct (PH P0) as [[O' P']|[O' P']].
  - left. exists t, q'. split; [rewrite TE, (nth_set _ _ _ _ _ N), Nat.eqb_refl; reflexivity|]. split; [exact O'|]. split; [exact P'|].
    intros t' q1. rewrite TE, (nth_set _ _ _ _ _ N). destruct (Nat.eqb_spec t t'); [auto|apply U].
  - right. split; [|exact P']. intros t' q1. rewrite TE, (nth_set _ _ _ _ _ N). destruct (Nat.eqb_spec t t') as [|NE]; [intros [= <-]; exact O'|].
    intros N1 O1. apply NE. symmetry. eapply U; eassumption.
Qed.

Lemma get_or_put (sid sid' : nat) (av : availability) m : get_or Unavailable sid' (put sid av m) = if Nat.eqb sid' sid then av else get_or Unavailable sid' m.
Proof. unfold get_or. rewrite get_put. destruct (Nat.eqb sid' sid); reflexivity. Qed.

Lemma J_call s c : InvT s -> J s -> one_thread (tr s ++ [ECall (length (ths s)) c]) ->
  J (say (St (objs s) (reqs s) (stats s) (cur s) (ths s ++ [start_pc c]) (tr s)) [ECall (length (ths s)) c]).
Proof.
  intros IT JS ONE. set (s' := say _ _).
  assert (NT : forall t q, nth_error (ths s') t = Some q -> (t = length (ths s) /\ q = start_pc c) \/ nth_error (ths s) t = Some q).
  { intros t q N. cbn in N. rewrite nth_snoc in N. destruct (Nat.eqb_spec t (length (ths s))); [left; split; congruence|auto]. }
  destruct (own_pc_dec (start_pc c)) as [O|O].
  - assert (Q : quiet (tr s)) by (eapply (ONE (tr s)); [reflexivity|apply start_own; exact O]). pose proof (quiet_none _ IT Q) as NO.
    destruct JS as [(t0 & q0 & N0 & O0 & _)|[_ NM]]; [destruct (NO _ _ N0 O0)|].
    left. exists (length (ths s)), (start_pc c). split; [cbn; rewrite nth_snoc, Nat.eqb_refl; reflexivity|]. split; [exact O|]. split.
    2: { intros t' q' N' O'. destruct (NT _ _ N') as [[-> _]|N1]; [reflexivity|destruct (NO _ _ N1 O')]. }
    destruct NM as [CU SR]. assert (Ktr : tr s' = tr s ++ [ECall (length (ths s)) c]) by reflexivity.
    destruct c as [| | |[sid [av|]|sid code]|[|]|]; try contradiction.
    + cbn [start_pc incoming phase]. unfold V. rewrite Ktr, knows_snoc, Nat.eqb_refl, B_snoc. split; [exact CU|]. split; [reflexivity|]. intros sid' NE.
      unfold st_ok, rq_ok, V. rewrite Ktr, knows_snoc. destruct (Nat.eqb_spec sid' sid); [contradiction|]. exact (SR sid').
    + apply (phase_same s s' QTrue); try reflexivity; [|rewrite Ktr, B_snoc; reflexivity|split; assumption]. intros x. rewrite Ktr, knows_snoc. reflexivity.
    + apply (phase_same s s' QTrue); try reflexivity; [|rewrite Ktr, B_snoc; reflexivity|split; assumption]. intros x. rewrite Ktr, knows_snoc. reflexivity.
    + cbn [start_pc phase]. change (cur s') with (cur s). split.
      * intros CU'. apply (phase_same s s' QTrue); try reflexivity; [| |split; assumption].
        -- intros x. rewrite Ktr, knows_snoc. rewrite <- CU, CU'. reflexivity.
        -- rewrite Ktr, B_snoc. cbn. congruence.
      * intros CU'. split; [rewrite Ktr, B_snoc; reflexivity|]. intros x. unfold V. rewrite Ktr, knows_snoc, <- CU. destruct (cur s); congruence.
  - assert (KE : forall x, knows (tr s') x = knows (tr s) x).
    { intros x. cbn [tr s' say]. rewrite knows_snoc. destruct c as [| | |[sid [av|]|sid code]|[|]|]; try reflexivity; destruct (O I). }
    assert (BE : B (tr s') = B (tr s)).
    { cbn [tr s' say]. rewrite B_snoc. destruct c as [| | |[sid [av|]|sid code]|[|]|]; try reflexivity; destruct (O I). }
    destruct JS as [(t0 & q0 & N0 & O0 & P0 & U)|[NO NM]].
    + left. exists t0, q0. split; [cbn; rewrite nth_error_app1; [exact N0|apply nth_lt in N0; exact N0]|]. split; [exact O0|].
      split; [apply (phase_same s s' q0); try reflexivity; assumption|]. intros t' q' N' O'. destruct (NT _ _ N') as [[_ ->]|N1]; [contradiction|eapply U; eassumption].
    + right. split; [|apply (phase_same s s' QTrue); try reflexivity; assumption]. intros t q N. destruct (NT _ _ N) as [[_ ->]|N1]; [exact O|eapply NO; exact N1].
Qed.

Lemma only_told_neutral k : only_told k -> neutral k.
Proof. intros O e I. apply O in I as (? & ? & ->). exact I. Qed.

Lemma J_step s s' : InvP s -> InvT s -> step s s' -> no_deinit (tr s) -> one_thread (tr s') -> J s -> J s'.
Proof.
  intros IP IT S ND ONE JS. assert (NQ := fun t q => not_deinit s t q IT ND).
  assert (OTH : forall t q q' k, nth_error (ths s) t = Some q -> ~ own_pc q -> ths s' = set_nth t q' (ths s) -> ~ own_pc q' -> neutral k -> tr s' = tr s ++ k ->
     stats s' = stats s -> reqs s' = reqs s -> objs s' = objs s -> cur s' = cur s -> J s').
  { intros t q q' k N O TE O' NK TR E1 E2 E3 E4. eapply J_other; try eassumption. intros p.
    edestruct (phase_same s s' p) as (A & C & _); try eassumption; [intros x; rewrite TR; apply (neutral_keeps k NK)|rewrite TR; apply (neutral_keeps k NK _ 0)|]. auto. }
  assert (NR : forall t v, neutral [ERet t v]) by (intros t v e [<-|[]]; exact I).
  destruct S.
  - apply J_call; assumption.
  - eapply (OTH t _ QDone [EGot t sid o; ERet t true]); try eassumption; try reflexivity; [cbn; auto|cbn; auto|intros e [<-|[<-|[]]]; exact I|unf; cbn; rewrite <- app_assoc; reflexivity].
  - destruct (newreq_frame s sid) as (A & C & D & E & _ & _ & k & K1 & K2).
    assert (NK : neutral (k ++ [EGot t sid (length (objs s)); ERet t true])).
    { intros e I. apply in_app_iff in I as [I|[<-|[<-|[]]]]; [apply only_told_neutral in I; assumption|exact I|exact I]. }
    set (s' := ret _ _ _). assert (TR : tr s' = tr s ++ (k ++ [EGot t sid (length (objs s)); ERet t true])) by (unfold s'; unf; cbn [tr]; rewrite K1, <- !app_assoc; reflexivity).
    apply (J_other s s' t (QGet sid) QDone JS); [assumption|cbn; auto|unfold s'; unf; cbn [ths]; rewrite E; reflexivity|cbn; auto|].
    intros p. apply (phase_new s s' sid p IP); try assumption; try reflexivity; [intros x; rewrite TR; apply (neutral_keeps _ NK)|rewrite TR; apply (neutral_keeps _ NK _ 0)].
  - eapply (OTH t _ QDone [ERet t _]); try eassumption; try reflexivity; [cbn; auto|cbn; auto|apply NR].
  - eapply (OTH t _ QDone [EAns t sid _; ERet t true]); try eassumption; try reflexivity; [cbn; auto|cbn; auto|intros e [<-|[<-|[]]]; exact I|unf; cbn; rewrite <- app_assoc; reflexivity].
  - eapply (J_own s _ t _ (QStore2 sid av)); [exact JS|eassumption|exact I|reflexivity|]. intros (A & C & D). left. split; [exact I|]. cbn.
    split; [exact A|]. split; [exact C|]. split.
    + intros sid'. unfold st_ok. cbn. rewrite get_or_put. destruct (Nat.eqb_spec sid' sid) as [->|NE]; [symmetry; exact C|apply D; exact NE].
    + intros sid' NE. apply D. exact NE.
  - eapply (J_own s _ t _ (QTell sid av)); [exact JS|eassumption|exact I|reflexivity|]. intros (A & C & D & F). left. split; [exact I|]. cbn.
    split; [exact A|]. split; [exact C|]. split.
    + intros sid'. unfold st_ok. cbn. rewrite get_or_put. destruct (Nat.eqb_spec sid' sid) as [->|NE]; [symmetry; exact C|apply D].
    + intros sid' NE. apply F. exact NE.
  - destruct (tell1_frame s sid av) as (A & C & D & E & _ & _ & k & K1 & K2).
    assert (NK : neutral (k ++ [ERet t true])).
    { intros e I. apply in_app_iff in I as [I|[<-|[]]]; [apply only_told_neutral in I; assumption|exact I]. }
    set (s' := ret _ _ _). assert (TR : tr s' = tr s ++ (k ++ [ERet t true])) by (unfold s'; unf; cbn [tr]; rewrite K1, <- !app_assoc; reflexivity).
    assert (KE : forall x, knows (tr s') x = knows (tr s) x) by (intros x; rewrite TR; apply (neutral_keeps _ NK)).
    assert (BE : B (tr s') = B (tr s)) by (rewrite TR; apply (neutral_keeps _ NK _ 0)).
    apply (J_own s s' t (QTell sid av) QDone); [exact JS|assumption|exact I|unfold s'; unf; cbn [ths]; rewrite E; reflexivity|].
    intros (P1 & P2 & P3 & P4). right. split; [cbn; auto|]. split; [change (cur s') with (cur (tell1 s sid av)); rewrite D, BE; exact P1|].
    intros x. split.
    + unfold st_ok, V. rewrite KE. change (stats s') with (stats (tell1 s sid av)). rewrite C. apply P3.
    + intros o y. unfold V. rewrite KE. change (reqs s') with (reqs (tell1 s sid av)). change (objs s') with (objs (tell1 s sid av)). rewrite A. intros G N. destruct (Nat.eq_dec x sid) as [->|NE].
      * unfold tell1 in N. rewrite G in N. rewrite tell_objs, Nat.eqb_refl in N. destruct (nth_error (objs s) o) as [z|]; [|discriminate]. injection N as <-. cbn. symmetry. exact P2.
      * unfold tell1 in N. destruct (get sid (reqs s)) as [o1|] eqn:G1; [|eapply P4; eassumption]. rewrite tell_objs in N.
        destruct (Nat.eqb_spec o1 o) as [->|]; [|eapply P4; eassumption]. destruct (p_map _ IP _ _ G1) as [X _]. destruct (p_map _ IP _ _ G) as [Y _]. congruence.
  - eapply (J_own s _ t _ QDone); [exact JS|eassumption|exact I|reflexivity|]. intros P. right. split; [cbn; auto|].
    apply (phase_same s _ QTrue); try reflexivity; [intros x; apply (neutral_keeps _ (NR t true))|apply (neutral_keeps _ (NR t true) _ 0)|exact P].
  - eapply (OTH t _ (QDisp o sid code) []); try eassumption; try reflexivity; [cbn; auto|cbn; auto|intros e []|symmetry; apply app_nil_r].
  - eapply (OTH t _ QDone [ERet t _]); try eassumption; try reflexivity; [cbn; auto|cbn; auto|apply NR].
  - eapply (OTH t _ QDone [EDisp t o sid code; ERet t _]); try eassumption; try reflexivity; [cbn; auto|cbn; auto|intros e [<-|[<-|[]]]; exact I|unf; cbn; rewrite <- app_assoc; reflexivity].
  - eapply (J_own s _ t _ QDone); [exact JS|eassumption|exact I|reflexivity|]. intros P. right. split; [cbn; auto|].
    apply (phase_same s _ QTrue); try reflexivity; [intros x; apply (neutral_keeps _ (NR t true))|apply (neutral_keeps _ (NR t true) _ 0)|].
    destruct up; [exact P|]. apply P. assumption.
  - eapply (J_own s _ t _ QRegister); [exact JS|eassumption|exact I|reflexivity|]. intros P. left. split; [exact I|]. exact P.
  - eapply (J_own s _ t _ QClear); [exact JS|eassumption|exact I|reflexivity|]. intros [P1 P2]. left. split; [exact I|]. apply P2. assumption.
  - eapply (J_own s _ t _ QTellAll); [exact JS|eassumption|exact I|reflexivity|]. intros P. left. split; [exact I|]. split; [exact P|].
    intros x. destruct P as [P1 P2]. unfold st_ok. cbn. symmetry. apply P2.
  - destruct (tells_frame (reqs s) s) as (A & C & D & E & _ & _ & k & K1 & K2). pose proof (only_told_neutral _ K2) as NK. fold (tellall s) in *.
    set (s' := goto _ _ _). assert (KE : forall x, knows (tr s') x = knows (tr s) x) by (intros x; change (tr s') with (tr (tellall s)); rewrite K1; apply (neutral_keeps _ NK)).
    assert (BE : B (tr s') = B (tr s)) by (change (tr s') with (tr (tellall s)); rewrite K1; apply (neutral_keeps _ NK _ 0)).
    apply (J_own s s' t QTellAll QDown); [exact JS|assumption|exact I|unfold s'; unf; cbn [ths]; rewrite E; reflexivity|].
    intros [[P1 P2] P3]. left. split; [exact I|]. split; [split; [rewrite BE; exact P1|intros x; unfold V; rewrite KE; apply P2]|].
    intros x. split.
    + unfold st_ok, V. rewrite KE. change (stats s') with (stats (tellall s)). rewrite C. apply P3.
    + intros o y. unfold V. rewrite KE. change (reqs s') with (reqs (tellall s)). change (objs s') with (objs (tellall s)). rewrite A. intros G N.
      pose proof (P2 x) as Z. unfold V in Z. rewrite Z. eapply tells_objs; [|exact N]. apply get_in in G. apply in_map_iff. exists (x, o). auto.
  - eapply (J_own s _ t _ QDone); [exact JS|eassumption|exact I|reflexivity|]. intros [[P1 P2] P3]. right. split; [cbn; auto|].
    destruct (neutral_keeps _ (NR t true) (tr s) 0) as [_ BE].
    split; [unf; cbn [cur tr]; rewrite BE; symmetry; exact P1|]. intros x. destruct (neutral_keeps _ (NR t true) (tr s) x) as [KE _]. unfold st_ok, rq_ok, V. unf; cbn [tr stats reqs objs].
    rewrite KE. exact (P3 x).
  - eapply (J_own s _ t _ QDone); [exact JS|eassumption|exact I|reflexivity|]. intros [P1 P2]. right. split; [cbn; auto|].
    unfold normal, st_ok, rq_ok, V. unf. cbn [cur tr stats reqs objs]. split; [rewrite !B_snoc; reflexivity|]. intros x. rewrite !knows_snoc. exact (P2 x).
  - eapply (J_own s _ t _ QDone); [exact JS|eassumption|exact I|reflexivity|]. intros [P1 P2]. right. split; [cbn; auto|].
    unfold normal, st_ok, rq_ok, V. unf. cbn [cur tr stats reqs objs]. split; [rewrite !B_snoc; cbn; destruct r; try exact P1; contradiction|]. intros x. rewrite !knows_snoc. exact (P2 x).
  - destruct (NQ _ _ H) as [X _]. congruence.
  - destruct (NQ _ _ H) as [_ X]. destruct (X []). reflexivity.
  - destruct (NQ _ _ H) as [_ X]. destruct (X (sid :: l)). reflexivity.
Qed.

Lemma invJ h : no_deinit (trace h) -> one_thread (trace h) -> J (final h).
Proof.
  unfold trace. induction h as [|l h IH] using rev_ind.
  - intros _ _. right. split; [intros [|] ?; discriminate|]. split; [reflexivity|]. intros x. split; [reflexivity|]. intros o y. discriminate.
  - rewrite final_snoc. destruct (next_step (final h) l) as [->|S]; [exact IH|]. intros ND ONE. destruct (step_tr _ _ S) as [k E].
    apply (J_step (final h)); [apply invP|apply invT|exact S| |exact ONE|apply IH].
    + rewrite E in ND. exact (no_deinit_app _ _ ND).
    + rewrite E in ND. exact (no_deinit_app _ _ ND).
    + rewrite E in ONE. exact (one_thread_app _ _ ONE).
Qed.

(** What requesters were told. *)
Lemma told_app l k o : (forall av, ~ In (ETold o av) k) -> told (l ++ k) o = told l o.
Proof.
  unfold told. intros H. rewrite fold_left_app. revert H. generalize (fold_left (fun v e => match e with ETold o' av => if Nat.eqb o o' then av else v | _ => v end) l Unavailable).
  induction k as [|e k IH]; intros v H; [reflexivity|]. cbn. rewrite IH by (intros av I; apply (H av); right; exact I).
  destruct e; try reflexivity. destruct (Nat.eqb_spec o o0) as [->|]; [|reflexivity]. destruct (H av). left. reflexivity.
Qed.
Definition told_ok (s : state) : Prop := forall o, told (tr s) o = match nth_error (objs s) o with Some x => r_av x | None => Unavailable end.
Lemma told_same s s' k : told_ok s -> objs s' = objs s -> tr s' = tr s ++ k -> (forall o av, ~ In (ETold o av) k) -> told_ok s'.
Proof. intros T E1 E2 N o. rewrite E1, E2, told_app; [apply T|intros av; apply N]. Qed.
Lemma told_tell s av o : told_ok s -> told_ok (tell s av o).
Proof.
  intros T i. rewrite tell_objs. unfold tell. destruct (nth_error (objs s) o) as [x|] eqn:N.
  - cbn [tr say]. unfold told. rewrite fold_left_app. cbn. rewrite Nat.eqb_sym. destruct (Nat.eqb_spec o i) as [<-|]; [rewrite N; reflexivity|apply T].
  - destruct (Nat.eqb_spec o i) as [<-|]; [rewrite T, N; reflexivity|apply T].
Qed.
Lemma told_tells l : forall s, told_ok s -> told_ok (fold_left (fun s' (x : nat * nat) => tell s' Unavailable (snd x)) l s).
Proof. induction l as [|x l IH]; intros s T; [exact T|]. cbn. apply IH, told_tell, T. Qed.
Lemma told_new s sid : told_ok s -> told_ok (newreq s sid).
Proof.
  intros T. unfold newreq. cbv zeta. set (s1 := set_reqs _ _).
  assert (T1 : told_ok s1).
  { intros o. specialize (T o). change (tr s1) with (tr s). change (objs s1) with (objs s ++ [Req sid Unavailable]). rewrite nth_snoc. destruct (Nat.eqb_spec o (length (objs s))) as [->|]; [|exact T]. rewrite T.
    destruct (nth_error (objs s) (length (objs s))) eqn:N; [apply nth_lt in N; lia|reflexivity]. }
  destruct (get sid (stats s)); [apply told_tell|]; exact T1.
Qed.
Lemma invTold h : told_ok (final h).
Proof.
  apply (state_ind told_ok); [intros [|]; reflexivity|]. intros s s' T S. destruct S.
  all: try (eapply told_same; [exact T|reflexivity|unf; cbn; first [reflexivity|symmetry; apply app_nil_r|rewrite <- app_assoc; reflexivity]|intros ? ? II; cbn in II; intuition discriminate]).
  - eapply told_same; [apply (told_new s sid T)|reflexivity|unf; cbn [tr]; rewrite <- app_assoc; reflexivity|intros ? ? [II|[II|[]]]; discriminate].
  - eapply (told_same (tell1 s sid av)); [unfold tell1; destruct (get sid (reqs s)); [apply told_tell|]; exact T|reflexivity|reflexivity|intros ? ? [II|[]]; discriminate].
  - eapply (told_same (tellall s)); [apply told_tells; exact T|reflexivity|symmetry; apply app_nil_r|intros ? ? []].
  - eapply told_same; [exact T|reflexivity|reflexivity|]. intros o av II. apply in_map_iff in II as (? & II & _). discriminate.
Qed.

Theorem told_right h sid o : no_deinit (trace h) -> one_thread (trace h) -> quiet (trace h) -> got (trace h) sid o -> told (trace h) o = knows (trace h) sid.
Proof.
  intros ND ONE Q [t G]. pose proof (invT h) as IT. pose proof (invP h) as IP. pose proof (quiet_none _ IT Q) as NO.
  destruct (invJ h ND ONE) as [(t0 & q0 & N0 & O0 & _)|[_ [_ NM]]]; [destruct (NO _ _ N0 O0)|]. pose proof (p_got _ IP _ _ _ G) as SO.
  pose proof (invD h ND _ _ SO) as GE. unfold trace. rewrite (invTold h o). unfold sid_of in SO. destruct (nth_error (objs (final h)) o) as [x|] eqn:N; [|discriminate].
  exact (proj2 (NM sid) _ _ GE N).
Qed.

(** Answers, at the time they are given. *)
Lemma answers h l1 t sid av l2 : trace h = l1 ++ EAns t sid av :: l2 -> exists h1, trace h1 = l1 /\ av = get_or Unavailable sid (stats (final h1)).
Proof.
  unfold trace. revert l2. induction h as [|l h IH] using rev_ind; intros l2; [destruct l1; discriminate|].
  rewrite final_snoc. destruct (next_step (final h) l) as [->|S]; [apply IH|]. destruct (step_tr _ _ S) as [k TR]. intros E. rewrite TR in E.
  assert (LT : length l1 < length (tr (final h)) \/ length (tr (final h)) <= length l1) by lia. destruct LT as [LT|LE].
  - assert (X : exists m, tr (final h) = l1 ++ EAns t sid av :: m).
    { assert (F : firstn (length (tr (final h))) (l1 ++ EAns t sid av :: l2) = tr (final h)) by (rewrite <- E, firstn_app, Nat.sub_diag, firstn_all; apply app_nil_r).
      rewrite firstn_app, firstn_all2 in F by lia. destruct (length (tr (final h)) - length l1) as [|m] eqn:D; [lia|]. cbn in F. eauto. }
    destruct X as [m X]. exact (IH _ X).
  - assert (X : exists m, l1 = tr (final h) ++ m /\ k = m ++ EAns t sid av :: l2).
    { exists (skipn (length (tr (final h))) l1). assert (F : firstn (length (tr (final h))) l1 = tr (final h)).
      { assert (F0 : firstn (length (tr (final h))) (l1 ++ EAns t sid av :: l2) = tr (final h)) by (rewrite <- E, firstn_app, Nat.sub_diag, firstn_all; apply app_nil_r).
        rewrite firstn_app in F0. replace (length (tr (final h)) - length l1) with 0 in F0 by lia. cbn in F0. rewrite app_nil_r in F0. exact F0. }
      split; [rewrite <- F at 1; symmetry; apply firstn_skipn|]. rewrite <- (firstn_skipn (length (tr (final h))) l1), F, <- app_assoc in E. apply app_inv_head in E. exact E. }
    destruct X as (m & -> & ->). exists h. clear IH.
    assert (INK : In (EAns t sid av) (m ++ EAns t sid av :: l2)) by (apply in_app_iff; right; left; reflexivity).
    assert (Q : m = [] /\ av = get_or Unavailable sid (stats (final h))); [|destruct Q as [-> Q]; rewrite app_nil_r; auto].
    remember (m ++ EAns t sid av :: l2) as k eqn:EK. clear E LE.
    assert (OT : forall k, only_told k -> ~ In (EAns t sid av) k) by (intros k0 O I; apply O in I as (? & ? & I); discriminate).
    destruct S; unf; cbn [tr] in TR; rewrite <- ?app_assoc in TR.
    all: try (apply app_inv_head in TR; subst k; exfalso; rewrite <- TR in INK; cbn in INK; intuition discriminate).
    all: try (rewrite <- (app_nil_r (tr (final h))) in TR at 1; apply app_inv_head in TR; exfalso; rewrite <- TR in INK; destruct INK).
    + destruct (newreq_frame (final h) sid0) as (_ & _ & _ & _ & _ & _ & k' & K1 & K2). rewrite K1, <- app_assoc in TR. apply app_inv_head in TR. exfalso. rewrite <- TR in INK.
      apply in_app_iff in INK as [I|[I|[I|[]]]]; [exact (OT _ K2 I)|discriminate|discriminate].
    + apply app_inv_head in TR. rewrite EK in TR. destruct m as [|e m].
      * injection TR as <- <- <- _. auto.
      * injection TR as _ TR. destruct m as [|e1 m]; [discriminate|]. injection TR as _ TR. destruct m; discriminate.
    + destruct (tell1_frame (final h) sid0 av0) as (_ & _ & _ & _ & _ & _ & k' & K1 & K2). rewrite K1, <- app_assoc in TR. apply app_inv_head in TR. exfalso. rewrite <- TR in INK.
      apply in_app_iff in INK as [I|[I|[]]]; [exact (OT _ K2 I)|discriminate].
    + destruct (tells_frame (reqs (final h)) (final h)) as (_ & _ & _ & _ & _ & _ & k' & K1 & K2). unfold tellall in TR. rewrite K1 in TR. apply app_inv_head in TR. exfalso. rewrite <- TR in INK.
      exact (OT _ K2 INK).
    + apply app_inv_head in TR. exfalso. rewrite <- TR in INK. apply in_map_iff in INK as (? & I & _). discriminate.
Qed.

Theorem answer_right h l1 t sid av l2 : no_deinit (trace h) -> one_thread (trace h) -> trace h = l1 ++ EAns t sid av :: l2 -> quiet l1 -> av = knows l1 sid.
Proof.
  intros ND ONE E Q. destruct (answers _ _ _ _ _ _ E) as (h1 & <- & ->). rewrite E in ND, ONE. apply no_deinit_app in ND. apply one_thread_app in ONE.
  pose proof (quiet_none _ (invT h1) Q) as NO. destruct (invJ h1 ND ONE) as [(t0 & q0 & N0 & O0 & _)|[_ [_ NM]]]; [destruct (NO _ _ N0 O0)|]. apply NM.
Qed.
