(** Server: what each thread is doing; providers belong to one service. *)
From Verif Require Import ListUtil SrvModel SrvSpec SrvProofs.

Definition sid_of (s : state) (o : nat) : option nat := option_map p_sid (nth_error (objs s) o).

Definition known (s : state) (todo : list (nat * nat)) : Prop := forall sid o, In (sid, o) todo -> got (tr s) sid o.

Definition is_reg (c : call) (a : nat) : Prop := match c with CIn m => is_register m a | _ => False end.
Definition is_un (c : call) (m : smsg) : Prop := c = CIn m /\ is_unregister m (s_src m).
Definition is_ord (c : call) (m : smsg) : Prop := c = CIn m /\ ordinary m.
Definition srv (c : call) (o : nat) (av : availability) : Prop :=
  (c = CStart o /\ av = Available) \/ (c = CStop o /\ av = Unavailable) \/ (c = CDeinit /\ av = Unavailable).
Definition srv_sid (s : state) (c : call) (sid : nat) (av : availability) : Prop := exists o, srv c o av /\ sid_of s o = Some sid.

(** The call a thread executes and where it is. *)
Definition okth (s : state) (c : call) (th : thread) : Prop :=
  match at_ th with
  | QGet sid => c = CGet sid
  | QHas sid => c = CHas sid
  | QSet o av => srv c o av /\ o < length (objs s)
  | QCheck sid av | QNotify sid av | QLoop sid av _ => srv_sid s c sid av
  | QRegIns a | QRegLock a => is_reg c a
  | QRegLoop a todo => is_reg c a /\ known s todo
  | QRegSend a sid todo => is_reg c a /\ known s todo
  | QUnErase m | QUnLock m => is_un c m
  | QUnLoop m todo => is_un c m /\ known s todo
  | QFind m => is_ord c m
  | QDisp o m => is_ord c m /\ exists sid, s_sid m = Some sid /\ got (tr s) sid o
  | QMove => c = CDeinit
  | QFree _ => c = CDeinit
  | QDone => True
  end /\ (c = CDeinit \/ (rest th = [] /\ fin th = [])) /\ (forall o, In o (rest th) -> o < length (objs s)).

Lemma got_mono s s' sid o : step s s' -> got (tr s) sid o -> got (tr s') sid o.
Proof. intros S [t I]. destruct (step_tr _ _ S) as [k ->]. exists t. apply in_app_iff. auto. Qed.

Lemma sid_set o p av objs0 o' : nth_error objs0 o = Some p ->
  option_map p_sid (nth_error (set_nth o (Prov (p_sid p) av) objs0) o') = option_map p_sid (nth_error objs0 o').
Proof. intros N. rewrite (nth_set _ _ _ _ _ N). destruct (Nat.eqb_spec o o') as [<-|]; [rewrite N|]; reflexivity. Qed.
Lemma sid_app o x objs0 y : option_map p_sid (nth_error objs0 o) = Some y -> option_map p_sid (nth_error (objs0 ++ [x]) o) = Some y.
Proof. intros H. rewrite nth_error_app1; [exact H|]. destruct (nth_error objs0 o) eqn:E; [|discriminate]. apply nth_lt in E. exact E. Qed.

Ltac srvd th := unfold served; destruct (rest th) eqn:?RS; [destruct (fin th) eqn:?FN|].

Ltac srva := match goal with
  | |- context [served _ _ ?th] => unfold served in *; destruct (rest th) eqn:?RS; [destruct (fin th) eqn:?FN|]
  | H : context [served _ _ ?th] |- _ => unfold served in *; destruct (rest th) eqn:?RS; [destruct (fin th) eqn:?FN|]
  end.

Lemma objs_step s s' : step s s' -> objs s' = objs s
  \/ (exists sid, objs s' = objs s ++ [Prov sid Unavailable])
  \/ (exists o p av, nth_error (objs s) o = Some p /\ objs s' = set_nth o (Prov (p_sid p) av) (objs s)).
Proof.
  intros S. destruct S; try (left; reflexivity); try (left; srvd th; reflexivity).
  - right. left. eexists. reflexivity.
  - right. right. exists o, p, av. auto.
  - left. destruct (gone r); reflexivity.
Qed.

Lemma sid_mono s s' o x : step s s' -> sid_of s o = Some x -> sid_of s' o = Some x.
Proof.
  intros S H. unfold sid_of in *. destruct (objs_step _ _ S) as [->|[[sid ->]|(o' & p & av & N & ->)]]; [exact H|apply sid_app; exact H|].
  rewrite sid_set; assumption.
Qed.
Lemma len_mono s s' : step s s' -> length (objs s) <= length (objs s').
Proof.
  intros S. destruct (objs_step _ _ S) as [->|[[sid ->]|(o' & p & av & N & ->)]]; [lia|rewrite app_length; lia|rewrite length_set_nth; lia].
Qed.

Lemma known_mono s s' td : step s s' -> known s td -> known s' td.
Proof. intros S K sid o I. eapply got_mono; [exact S|]. apply K. exact I. Qed.
Lemma okth_mono s s' c th : step s s' -> okth s c th -> okth s' c th.
Proof.
  intros S (H & R & L). split; [|split; [exact R|intros o I; pose proof (len_mono _ _ S); specialize (L o I); lia]].
  destruct (at_ th); try exact H.
  - destruct H as [H1 H2]. split; [exact H1|pose proof (len_mono _ _ S); lia].
  - destruct H as (o & H1 & H2). exists o. split; [exact H1|eapply sid_mono; eassumption].
  - destruct H as (o & H1 & H2). exists o. split; [exact H1|eapply sid_mono; eassumption].
  - destruct H as (o & H1 & H2). exists o. split; [exact H1|eapply sid_mono; eassumption].
  - destruct H as [H1 H2]. split; [exact H1|eapply known_mono; eassumption].
  - destruct H as [H1 H2]. split; [exact H1|eapply known_mono; eassumption].
  - destruct H as [H1 H2]. split; [exact H1|eapply known_mono; eassumption].
  - destruct H as [H1 (sid & H2 & H3)]. split; [exact H1|]. exists sid. split; [exact H2|eapply got_mono; eassumption].
Qed.

(** Providers. *)
Record InvP (s : state) : Prop := {
  p_nd : NoDup (keys (provs s));
  p_map : forall sid o, get sid (provs s) = Some o -> sid_of s o = Some sid /\ got (tr s) sid o;
  p_got : forall t sid o, In (EGot t sid o) (tr s) -> sid_of s o = Some sid }.

Lemma provs_step s s' : step s s' -> provs s' = provs s \/ provs s' = []
  \/ exists t sid, get sid (provs s) = None /\ provs s' = put sid (length (objs s)) (provs s) /\ objs s' = objs s ++ [Prov sid Unavailable]
     /\ In (EGot t sid (length (objs s))) (tr s').
Proof.
  intros S. destruct S; try (left; reflexivity); try (left; srvd th; reflexivity).
  - right. right. exists t, sid. repeat split; [exact H2|]. cbn. rewrite !in_app_iff. cbn. auto.
  - left. destruct (gone r); reflexivity.
  - right. left. reflexivity.
Qed.

Lemma got_step s s' t sid o : step s s' -> In (EGot t sid o) (tr s') -> In (EGot t sid o) (tr s)
  \/ get sid (provs s') = Some o /\ provs s' <> [].
Proof.
  intros S I.
  destruct S; try srva; unf; cbn in *; rewrite ?in_app_iff in I; cbn in I;
    try (destruct (gone r); cbn in I; rewrite ?in_app_iff in I; cbn in I);
    repeat match goal with H : _ \/ _ |- _ => destruct H end; try discriminate; try contradiction; auto.
  - injection H3; intros; subst. right. split; [assumption|]. intros C. rewrite C in H2. discriminate.
  - injection H3; intros; subst. right. split; [apply get_put_same|]. intros C. pose proof (get_put_same sid (length (objs s)) (provs s)) as G.
    rewrite C in G. discriminate.
Qed.

Lemma invP h : InvP (final h).
Proof.
  apply state_ind.
  - split; cbn; [constructor|discriminate|intros ? ? ? []].
  - intros s s' [ND MP GT] S.
    assert (M : forall sid o, get sid (provs s') = Some o -> sid_of s' o = Some sid /\ got (tr s') sid o).
    { intros sid o G. destruct (provs_step _ _ S) as [E|[E|(t & sid' & N & E & OB & I)]]; rewrite E in G.
      - destruct (MP _ _ G) as [A B]. split; [eapply sid_mono; eassumption|eapply got_mono; eassumption].
      - discriminate.
      - rewrite get_put in G. destruct (Nat.eqb_spec sid sid') as [->|].
        + injection G as <-. split; [|exists t; exact I]. unfold sid_of. rewrite OB, nth_snoc, Nat.eqb_refl. reflexivity.
        + destruct (MP _ _ G) as [A B]. split; [eapply sid_mono; eassumption|eapply got_mono; eassumption]. }
    split; [|exact M|].
    + destruct (provs_step _ _ S) as [E|[E|(t & sid' & N & E & OB & I)]]; rewrite E; [exact ND|constructor|apply nodup_put; exact ND].
    + intros t sid o I. destruct (got_step _ _ _ _ _ S I) as [I'|[I' _]]; [eapply sid_mono; [exact S|eapply GT; exact I']|apply M; exact I'].
Qed.

(** Threads. *)
Record InvT (s : state) : Prop := {
  t_th : forall t th, nth_error (ths s) t = Some th -> exists c, In (ECall t c) (tr s) /\ okth s c th;
  t_call : forall t c c', In (ECall t c) (tr s) -> In (ECall t c') (tr s) -> c = c';
  t_lt : forall t c, In (ECall t c) (tr s) -> t < length (ths s);
  t_ret : forall t v, In (ERet t v) (tr s) -> exists th, nth_error (ths s) t = Some th /\ at_ th = QDone;
  t_done : forall t th, nth_error (ths s) t = Some th -> at_ th = QDone -> returned (tr s) t }.

(** One thread moves, or a call is made. *)
Inductive moved (s s' : state) : Prop :=
  | M_call c q : start_pc s c = Some q -> ths s' = ths s ++ [Th q [] []] -> tr s' = tr s ++ [ECall (length (ths s)) c] -> objs s' = objs s -> moved s s'
  | M_run t th th' k : nth_error (ths s) t = Some th -> at_ th <> QDone -> ths s' = set_nth t th' (ths s) -> tr s' = tr s ++ k ->
      (forall t' c, ~ In (ECall t' c) k) -> (forall t' v, In (ERet t' v) k -> t' = t) -> (at_ th' = QDone <-> returned k t) ->
      (forall c, okth s c th -> okth s' c th') -> moved s s'.

Lemma nonret_done (q : pc) t k : q <> QDone -> (forall v, ~ In (ERet t v) k) -> (q = QDone <-> returned k t).
Proof. intros N R. split; [contradiction|intros [v I]; destruct (R v I)]. Qed.

Lemma step_moved s s' : InvP s -> step s s' -> moved s s'.
Proof.
  intros [ND MP GT] S.
  pose proof (fun sid o => got_mono s s' sid o S) as GM. pose proof (fun o x => sid_mono s s' o x S) as SM.
  pose proof (len_mono s s' S) as LM. pose proof (fun td => known_mono s s' td S) as KM.
  remember s' as s2 eqn:E in GM, SM, LM, KM |- *.
  destruct S.
  1: solve [eapply M_call; subst s2; [eassumption|reflexivity..]].
  all: try srva; unf; cbn in E.
  all: try (destruct (gone r)); cbn in E.
  all: eapply M_run; [eassumption|congruence|rewrite E; reflexivity|rewrite E; cbn; rewrite <- ?app_assoc; first [reflexivity|rewrite app_nil_r; reflexivity]| | | |].
  all: try (intros ? ? I; cbn in I; intuition (discriminate || congruence)).
  all: try (split; [intros _; eexists; cbn; eauto|reflexivity]).
  all: try (apply nonret_done; [discriminate|intros ? I; cbn in I; intuition discriminate]).
  all: clear E; intros c (OK & RF & RL); (match goal with H : at_ _ = _ |- _ => rewrite H in OK end); (split; [|split]); cbn; try exact RF; try exact I;
    try (intros ? II; specialize (RL _ II); lia).
  all: try exact OK.
  all: try (lazymatch type of OK with _ = _ => fail | _ => destruct OK as [OK1 OK2] end).
  all: assert (KP : known s (provs s)) by (intros sid0 o0 I0; apply MP, in_get; assumption).
  all: try (match goal with |- srv_sid _ _ _ _ => idtac end; first [ (* set *) exists o; split; [assumption|apply SM; unfold sid_of; rewrite H1; reflexivity]
     | exists OK1; destruct OK2; split; [assumption|apply SM; assumption] ]).
  all: try (match goal with |- _ /\ known _ (provs _) => idtac end; split; [assumption|apply KM; exact KP]).
  all: try (match goal with |- _ /\ known _ _ => idtac end; split; [assumption|apply KM; intros ? ? II; apply OK2; first [exact II|right; exact II]]).
  all: try (match goal with |- _ = CDeinit => idtac end; destruct RF as [RF|[R1 R2]]; [exact RF|congruence]).
  all: try (match goal with |- _ = CDeinit \/ _ => idtac end; left; first [exact OK|destruct RF as [RF|[R1 R2]]; [exact RF|congruence]]).
  all: try (rewrite RS in RL; intros ? II; specialize (RL _ (or_intror II)); lia).
  all: try (rewrite RS in RL; split; [right; right; split; [destruct RF as [RF|[R1 R2]]; [exact RF|congruence]|reflexivity]|specialize (RL _ (or_introl eq_refl)); lia]).
  - split; [exact (conj OK1 OK2)|apply KM; exact KP].
  - split; [exact (conj OK1 OK2)|]. unfold find in H2. destruct (s_sid m) as [sid|]; [|discriminate]. exists sid. split; [reflexivity|].
    apply GM. apply (MP sid o). exact H2.
  - split; [right; right; auto|]. assert (I0 : In o (map snd (provs s))) by (rewrite H2; left; reflexivity).
    apply in_map_iff in I0 as ([sid o'] & E1 & I0). cbn in E1. subst o'. apply (in_get _ _ _ ND) in I0. apply MP in I0 as [I0 _].
    unfold sid_of in I0. destruct (nth_error (objs s) o) eqn:N; [|discriminate]. apply nth_lt in N; lia.
  - intros o0 IL. assert (I0 : In o0 (map snd (provs s))) by (rewrite H2; right; exact IL).
    apply in_map_iff in I0 as ([sid o'] & E1 & I0). cbn in E1. subst o'. apply (in_get _ _ _ ND) in I0. apply MP in I0 as [I0 _].
    unfold sid_of in I0. destruct (nth_error (objs s) o0) eqn:N; [|discriminate]. apply nth_lt in N. lia.
Qed.

Lemma incoming_ok s m : okth s (CIn m) (Th (incoming m) [] []).
Proof.
  assert (R : forall P : Prop, P -> P /\ (CIn m = CDeinit \/ [] = @nil nat /\ [] = @nil nat) /\ (forall o, In o [] -> o < length (objs s))).
  { intros P HP. split; [exact HP|]. split; [right; auto|intros ? []]. }
  unfold okth, incoming. cbn. destruct (s_code m) eqn:E; cbn; try (destruct (s_sid m) eqn:E2); cbn; apply R;
    try (split; [reflexivity|split; intros a (A1 & A2); try destruct A2; congruence]);
    repeat split; auto.
Qed.

Lemma invT h : InvT (final h).
Proof.
  enough (InvP (final h) /\ InvT (final h)) by tauto.
  split; [apply invP|].
  induction h as [|l h IH] using rev_ind.
  - split; cbn.
    + intros [|] ?; discriminate.
    + intros ? ? ? [].
    + intros ? ? [].
    + intros ? ? [].
    + intros [|] ?; discriminate.
  - rewrite final_snoc. destruct (next_step (final h) l) as [->|S]; [exact IH|].
    pose proof (invP h) as IP. pose proof (step_moved _ _ IP S) as M. destruct IH as [TH CA LT RT DN].
    set (s := final h) in *. set (s' := next s l) in *.
    destruct M as [c q SP TE TR OB|t th th' k N ND TE TR NC NR DD OK].
    + assert (OKN : okth s' c (Th q [] [])).
      { unfold start_pc in SP. destruct c as [sid|sid|o|o|m|].
        1, 2, 6: injection SP as <-; repeat split; auto; intros ? [].
        - destruct (nth_error (objs s) o) eqn:NO; [|discriminate]. injection SP as <-. apply nth_lt in NO. split; [split; [left; auto|rewrite OB; exact NO]|split; [right; auto|intros ? []]].
        - destruct (nth_error (objs s) o) eqn:NO; [|discriminate]. injection SP as <-. apply nth_lt in NO. split; [split; [right; left; auto|rewrite OB; exact NO]|split; [right; auto|intros ? []]].
        - injection SP as <-. apply incoming_ok. }
      split.
      * intros t th N. rewrite TE, nth_snoc in N. rewrite TR. destruct (Nat.eqb_spec t (length (ths s))) as [->|].
        { injection N as <-. exists c. split; [apply in_app_iff; right; left; reflexivity|exact OKN]. }
        destruct (TH _ _ N) as (c0 & I & OK0). exists c0. split; [apply in_app_iff; auto|eapply okth_mono; eassumption].
      * intros t c1 c2. rewrite TR, !in_app_iff. cbn. intros [I1|[I1|[]]] [I2|[I2|[]]].
        -- eapply CA; eassumption.
        -- injection I2 as E1 E2. subst t. apply LT in I1. lia.
        -- injection I1 as E1 E2. subst t. apply LT in I2. lia.
        -- congruence.
      * intros t c1. rewrite TR, TE, in_app_iff, app_length. cbn. intros [I1|[I1|[]]]; [apply LT in I1; lia|injection I1 as E1 E2; subst t; lia].
      * intros t v. rewrite TR, TE, in_app_iff. cbn. intros [I1|[I1|[]]]; [|discriminate].
        destruct (RT _ _ I1) as (th & N & D). exists th. split; [|exact D]. rewrite nth_snoc. apply nth_lt in N as L. destruct (Nat.eqb_spec t (length (ths s))); [lia|exact N].
      * intros t th N D. rewrite TE, nth_snoc in N. destruct (Nat.eqb_spec t (length (ths s))) as [->|].
        { injection N as <-. cbn in D. subst q. unfold start_pc, incoming in SP. destruct c as [| |o|o|m|]; try discriminate;
            try (destruct (nth_error (objs s) o); discriminate). destruct (s_code m); try discriminate. destruct (s_sid m); discriminate. }
        destruct (DN _ _ N D) as [v I]. exists v. rewrite TR. apply in_app_iff. auto.
    + split.
      * intros t' th1 N1. rewrite TE, (nth_set _ _ _ _ _ N) in N1. rewrite TR. destruct (Nat.eqb_spec t t') as [<-|].
        { injection N1 as <-. destruct (TH _ _ N) as (c & I & OKc). exists c. split; [apply in_app_iff; auto|apply OK; exact OKc]. }
        destruct (TH _ _ N1) as (c & I & OKc). exists c. split; [apply in_app_iff; auto|eapply okth_mono; eassumption].
      * intros t1 c1 c2. rewrite TR, !in_app_iff. intros [I1|I1] [I2|I2]; try (destruct (NC _ _ I1)); try (destruct (NC _ _ I2)); eauto.
      * intros t1 c1. rewrite TR, TE, length_set_nth, in_app_iff. intros [I1|I1]; [eapply LT; exact I1|destruct (NC _ _ I1)].
      * intros t1 v. rewrite TR, TE, in_app_iff. intros [I1|I1].
        -- destruct (RT _ _ I1) as (th1 & N1 & D). exists th1. split; [|exact D]. rewrite (nth_set _ _ _ _ _ N).
           destruct (Nat.eqb_spec t t1) as [<-|]; [rewrite N in N1; injection N1 as <-; contradiction|exact N1].
        -- pose proof (NR _ _ I1) as ->. exists th'. rewrite (nth_set _ _ _ _ _ N), Nat.eqb_refl. split; [reflexivity|]. apply DD. exists v. exact I1.
      * intros t1 th1 N1 D. rewrite TE, (nth_set _ _ _ _ _ N) in N1. unfold returned. rewrite TR. destruct (Nat.eqb_spec t t1) as [<-|].
        -- injection N1 as <-. apply DD in D as [v I]. exists v. apply in_app_iff. auto.
        -- destruct (DN _ _ N1 D) as [v I]. exists v. apply in_app_iff. auto.
Qed.
