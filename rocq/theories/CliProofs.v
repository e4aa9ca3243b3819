(** Client: the steps; basic facts. *)
From Verif Require Import ListUtil CliModel CliSpec.

Lemma final_snoc h l : final (h ++ [l]) = next (final h) l.
Proof. unfold final. rewrite fold_left_app. reflexivity. Qed.

Definition newreq (s : state) (sid : nat) : state :=
  let o := length (objs s) in
  let s1 := set_reqs (set_objs s (objs s ++ [Req sid Unavailable])) (put sid o (reqs s)) in
  match get sid (stats s) with Some av => tell s1 av o | None => s1 end.
Definition tellall (s : state) : state := fold_left (fun s' x => tell s' Unavailable (snd x)) (reqs s) s.
Definition tell1 (s : state) (sid : nat) (av : availability) : state := match get sid (reqs s) with Some o => tell s av o | None => s end.

Inductive step (s : state) : state -> Prop :=
  | S_call c : step s (say (St (objs s) (reqs s) (stats s) (cur s) (ths s ++ [start_pc c]) (tr s)) [ECall (length (ths s)) c])
  | S_get_old t sid o : nth_error (ths s) t = Some (QGet sid) -> get sid (reqs s) = Some o -> step s (ret (say s [EGot t sid o]) t true)
  | S_get_new t sid : nth_error (ths s) t = Some (QGet sid) -> get sid (reqs s) = None -> step s (ret (say (newreq s sid) [EGot t sid (length (objs s))]) t true)
  | S_has t sid : nth_error (ths s) t = Some (QHas sid) -> step s (ret s t (match get sid (reqs s) with Some _ => true | None => false end))
  | S_ask t sid : nth_error (ths s) t = Some (QAsk sid) -> step s (ret (say s [EAns t sid (get_or Unavailable sid (stats s))]) t true)
  | S_store t sid av : nth_error (ths s) t = Some (QStore sid av) -> step s (goto (set_stats s (put sid av (stats s))) t (QStore2 sid av))
  | S_store2 t sid av : nth_error (ths s) t = Some (QStore2 sid av) -> step s (goto (set_stats s (put sid av (stats s))) t (QTell sid av))
  | S_tell t sid av : nth_error (ths s) t = Some (QTell sid av) -> step s (ret (tell1 s sid av) t true)
  | S_true t : nth_error (ths s) t = Some QTrue -> step s (ret s t true)
  | S_find t sid code o : nth_error (ths s) t = Some (QFind sid code) -> find s sid = Some o -> step s (goto s t (QDisp o sid code))
  | S_find_none t sid code : nth_error (ths s) t = Some (QFind sid code) -> find s sid = None -> step s (ret s t false)
  | S_disp t o sid code ok : nth_error (ths s) t = Some (QDisp o sid code) -> step s (ret (say s [EDisp t o sid code]) t ok)
  | S_poll_same t up : nth_error (ths s) t = Some (QPoll up) -> (if up then cur s = Available else cur s = Unavailable) -> step s (ret s t true)
  | S_poll_up t : nth_error (ths s) t = Some (QPoll true) -> cur s <> Available -> step s (goto s t QRegister)
  | S_poll_down t : nth_error (ths s) t = Some (QPoll false) -> cur s <> Unavailable -> step s (goto s t QClear)
  | S_clear t : nth_error (ths s) t = Some QClear -> step s (goto (set_stats s []) t QTellAll)
  | S_tellall t : nth_error (ths s) t = Some QTellAll -> step s (goto (tellall s) t QDown)
  | S_down t : nth_error (ths s) t = Some QDown -> step s (ret (set_cur s Unavailable) t true)
  | S_reg_ok t : nth_error (ths s) t = Some QRegister -> step s (ret (say (set_cur s Available) [ERegister Success]) t true)
  | S_reg_bad t r : nth_error (ths s) t = Some QRegister -> r <> Success -> step s (ret (say s [ERegister r]) t true)
  | S_deinit t : nth_error (ths s) t = Some QDeinit -> step s (goto (say (set_reqs s []) (map (fun x => EFree (snd x)) (reqs s))) t (QUnreg (keys (stats s))))
  | S_unreg_end t : nth_error (ths s) t = Some (QUnreg []) -> step s (ret (set_stats s []) t true)
  | S_unreg t sid l r : nth_error (ths s) t = Some (QUnreg (sid :: l)) -> step s (say (goto s t (QUnreg l)) [EUnregister sid r]).

Lemma next_step s l : next s l = s \/ step s (next s l).
Proof.
  destruct l as [c|t r ok]; cbn; [right; apply S_call|]. unfold run. destruct (nth_error (ths s) t) as [q|] eqn:N; [|auto].
  destruct q as [| | | | | | | | |[|]| | | | | |[|]|]; auto; right; try (econstructor; eassumption).
  - destruct (get sid (reqs s)) eqn:G; [apply S_get_old; assumption|apply S_get_new; assumption].
  - destruct (find s sid) eqn:G; [apply S_find; assumption|eapply S_find_none; eassumption].
  - destruct (cur s) eqn:C; cbn; [apply S_poll_up; [assumption|congruence]|eapply S_poll_same; [eassumption|exact C]|apply S_poll_up; [assumption|congruence]].
  - destruct (cur s) eqn:C; cbn; [eapply S_poll_same; [eassumption|exact C]|apply S_poll_down; [assumption|congruence]|apply S_poll_down; [assumption|congruence]].
  - destruct r; cbn; first [apply S_reg_ok; assumption | apply S_reg_bad; [assumption|discriminate]].
Qed.

Lemma state_ind (P : state -> Prop) : P init -> (forall s s', P s -> step s s' -> P s') -> forall h, P (final h).
Proof.
  intros P0 PS h. induction h as [|l h IH] using rev_ind; [exact P0|].
  rewrite final_snoc. destruct (next_step (final h) l) as [->|S]; [exact IH|eapply PS; eassumption].
Qed.

(** Telling requesters changes nothing else. *)
Lemma tell_frame s av o : reqs (tell s av o) = reqs s /\ stats (tell s av o) = stats s /\ cur (tell s av o) = cur s /\ ths (tell s av o) = ths s
  /\ length (objs (tell s av o)) = length (objs s) /\ (forall i, option_map r_sid (nth_error (objs (tell s av o)) i) = option_map r_sid (nth_error (objs s) i)).
Proof.
  unfold tell. destruct (nth_error (objs s) o) as [x|] eqn:N; cbn; [|repeat (apply conj; [reflexivity|]); reflexivity]. rewrite length_set_nth. repeat (apply conj; [reflexivity|]).
  intros i. rewrite (nth_set _ _ _ _ _ N). destruct (Nat.eqb_spec o i) as [<-|]; [rewrite N|]; reflexivity.
Qed.
Definition only_told (k : list event) : Prop := forall e, In e k -> exists o av, e = ETold o av.
Lemma tell_tr s av o : exists k, tr (tell s av o) = tr s ++ k /\ only_told k.
Proof.
  unfold tell. destruct (nth_error (objs s) o); cbn.
  - eexists. split; [reflexivity|]. intros e [<-|[]]. eauto.
  - exists []. rewrite app_nil_r. split; [reflexivity|intros e []].
Qed.

Lemma tells_frame l : forall s, let s' := fold_left (fun s' (x : nat * nat) => tell s' Unavailable (snd x)) l s in
  reqs s' = reqs s /\ stats s' = stats s /\ cur s' = cur s /\ ths s' = ths s
  /\ length (objs s') = length (objs s) /\ (forall i, option_map r_sid (nth_error (objs s') i) = option_map r_sid (nth_error (objs s) i))
  /\ exists k, tr s' = tr s ++ k /\ only_told k.
Proof.
  induction l as [|x l IH]; intros s; cbn.
  - repeat (apply conj; [reflexivity|]). exists []. rewrite app_nil_r. split; [reflexivity|intros e []].
  - specialize (IH (tell s Unavailable (snd x))). cbn in IH. destruct IH as (A & B & C & D & E & F & k & K1 & K2).
    destruct (tell_frame s Unavailable (snd x)) as (A' & B' & C' & D' & E' & F'). destruct (tell_tr s Unavailable (snd x)) as (k' & K1' & K2').
    repeat (apply conj; [first [congruence | intros i; rewrite F; apply F']|]).
    exists (k' ++ k). rewrite K1, K1', app_assoc. split; [reflexivity|]. intros e I. apply in_app_iff in I as [I|I]; auto.
Qed.

Ltac unf := unfold ret, say, goto, set_objs, set_reqs, set_stats, set_cur in *.

Lemma newreq_frame s sid : reqs (newreq s sid) = put sid (length (objs s)) (reqs s) /\ stats (newreq s sid) = stats s /\ cur (newreq s sid) = cur s
  /\ ths (newreq s sid) = ths s /\ length (objs (newreq s sid)) = S (length (objs s))
  /\ (forall i, option_map r_sid (nth_error (objs (newreq s sid)) i) = option_map r_sid (nth_error (objs s ++ [Req sid Unavailable]) i))
  /\ exists k, tr (newreq s sid) = tr s ++ k /\ only_told k.
Proof.
  unfold newreq. cbv zeta. destruct (get sid (stats s)) as [av|].
  - set (s1 := set_reqs _ _). destruct (tell_frame s1 av (length (objs s))) as (A & B & C & D & E & F). destruct (tell_tr s1 av (length (objs s))) as (k & K1 & K2).
    rewrite A, B, C, D, E. cbn. rewrite app_length. cbn. repeat (apply conj; [first [reflexivity | lia | exact F]|]). exists k. split; [exact K1|exact K2].
  - cbn. rewrite app_length. cbn. repeat (apply conj; [first [reflexivity | lia]|]). exists []. rewrite app_nil_r. split; [reflexivity|intros e []].
Qed.

Lemma tell1_frame s sid av : reqs (tell1 s sid av) = reqs s /\ stats (tell1 s sid av) = stats s /\ cur (tell1 s sid av) = cur s /\ ths (tell1 s sid av) = ths s
  /\ length (objs (tell1 s sid av)) = length (objs s) /\ (forall i, option_map r_sid (nth_error (objs (tell1 s sid av)) i) = option_map r_sid (nth_error (objs s) i))
  /\ exists k, tr (tell1 s sid av) = tr s ++ k /\ only_told k.
Proof.
  unfold tell1. destruct (get sid (reqs s)) as [o|].
  - destruct (tell_frame s av o) as (A & B & C & D & E & F). repeat (apply conj; [assumption|]). apply tell_tr.
  - repeat (apply conj; [reflexivity|]). exists []. rewrite app_nil_r. split; [reflexivity|intros e []].
Qed.

(** What a step does to the parts that matter. *)
Definition noevent (k : list event) : Prop := forall t c v, ~ In (ECall t c) k /\ ~ In (ERet t v) k.

Inductive moved (s s' : state) : Prop :=
  | M_call c : s' = say (St (objs s) (reqs s) (stats s) (cur s) (ths s ++ [start_pc c]) (tr s)) [ECall (length (ths s)) c] -> moved s s'
  | M_run t q q' k : nth_error (ths s) t = Some q -> q <> QDone -> ths s' = set_nth t q' (ths s) -> tr s' = tr s ++ k ->
      (forall t' c, ~ In (ECall t' c) k) -> (forall t' v, In (ERet t' v) k -> t' = t) -> (q' = QDone <-> returned k t) -> moved s s'.

Lemma step_moved s s' : step s s' -> moved s s'.
Proof.
  intros S.
  assert (R : forall t v k (q : pc), (forall e, In e k -> match e with ERet _ _ => False | _ => True end) -> (QDone = QDone <-> returned (k ++ [ERet t v]) t)).
  { intros t v k q _. split; [intros _; exists v; apply in_app_iff; right; left; reflexivity|reflexivity]. }
  assert (OT : forall k t v, only_told k -> (forall t' c, ~ In (ECall t' c) (k ++ [ERet t v])) /\ (forall t' v', In (ERet t' v') (k ++ [ERet t v]) -> t' = t) /\ (QDone = QDone <-> returned (k ++ [ERet t v]) t)).
  { intros k t v OK. split; [|split].
    - intros t' c I. apply in_app_iff in I as [I|[I|[]]]; [apply OK in I as (o & av & I); discriminate|discriminate].
    - intros t' v' I. apply in_app_iff in I as [I|[I|[]]]; [apply OK in I as (o & av & I); discriminate|congruence].
    - split; [intros _; exists v; apply in_app_iff; right; left; reflexivity|reflexivity]. }
  assert (OT0 : forall k (q : pc) t, q <> QDone -> only_told k -> (forall t' c, ~ In (ECall t' c) k) /\ (forall t' v', In (ERet t' v') k -> t' = t) /\ (q = QDone <-> returned k t)).
  { intros k q t NQ OK. split; [|split].
    - intros t' c I. apply OK in I as (o & av & I); discriminate.
    - intros t' v' I. apply OK in I as (o & av & I); discriminate.
    - split; [contradiction|intros [v I]; apply OK in I as (o & av & I); discriminate]. }
  destruct S.
  1: eapply M_call; reflexivity.
  all: try (match goal with |- moved _ (ret (say (newreq _ _) _) _ _) => fail 1 | |- moved _ (ret (tell1 _ _ _) _ _) => fail 1 | |- moved _ (goto (tellall _) _ _) => fail 1
            | |- moved _ (goto (say _ (map _ _)) _ _) => fail 1 | _ => idtac end;
     eapply M_run; [eassumption|discriminate|reflexivity|unf; cbn; first [reflexivity|symmetry; apply app_nil_r|rewrite <- app_assoc; reflexivity]
        |intros ? ? I; cbn in I; intuition discriminate
        |intros ? ? I; cbn in I; intuition congruence
        |first [split; [intros _; eexists; cbn; eauto|reflexivity] | split; [discriminate|intros [v I]; cbn in I; intuition discriminate]]]).
  - destruct (newreq_frame s sid) as (A & B & C & D & E & F & k & K1 & K2).
    destruct (OT (k) t true K2) as (X & Y & Z).
    eapply (M_run _ _ t _ QDone (k ++ [EGot t sid (length (objs s)); ERet t true])); [eassumption|discriminate|unf; cbn; rewrite D; reflexivity|unf; cbn; rewrite K1, <- !app_assoc; reflexivity|..].
    + intros t' c I. apply in_app_iff in I as [I|[I|[I|[]]]]; [apply K2 in I as (o & av & I); discriminate|discriminate|discriminate].
    + intros t' c I. apply in_app_iff in I as [I|[I|[I|[]]]]; [apply K2 in I as (o & av & I); discriminate|discriminate|congruence].
    + split; [intros _; exists true; apply in_app_iff; right; right; left; reflexivity|reflexivity].
  - unfold tell1. destruct (get sid (reqs s)) as [o|].
    + destruct (tell_frame s av o) as (A & B & C & D & _). destruct (tell_tr s av o) as (k & K1 & K2). destruct (OT k t true K2) as (X & Y & Z).
      eapply (M_run _ _ t _ QDone (k ++ [ERet t true])); [eassumption|discriminate|unf; cbn; rewrite D; reflexivity|unf; cbn; rewrite K1, <- app_assoc; reflexivity|exact X|exact Y|exact Z].
    + destruct (OT [] t true ltac:(intros e [])) as (X & Y & Z).
      eapply (M_run _ _ t _ QDone [ERet t true]); [eassumption|discriminate|reflexivity|reflexivity|exact X|exact Y|exact Z].
  - destruct (tells_frame (reqs s) s) as (A & B & C & D & E & F & k & K1 & K2). destruct (OT0 k QDown t ltac:(discriminate) K2) as (X & Y & Z).
    eapply (M_run _ _ t _ QDown k); [eassumption|discriminate|unf; cbn; unfold tellall; rewrite D; reflexivity|exact K1|exact X|exact Y|exact Z].
  - assert (NE : forall e, In e (map (fun x : nat * nat => EFree (snd x)) (reqs s)) -> exists o, e = EFree o) by (intros e I; apply in_map_iff in I as (x & <- & _); eauto).
    eapply (M_run _ _ t _ (QUnreg (keys (stats s))) (map (fun x => EFree (snd x)) (reqs s))); [eassumption|discriminate|reflexivity|reflexivity|..].
    + intros t' c I. apply NE in I as [o I]. discriminate.
    + intros t' c I. apply NE in I as [o I]. discriminate.
    + split; [discriminate|intros [v I]; apply NE in I as [o I]; discriminate].
Qed.
