(** Property C53, continued: setting the whole state, and who is told. *)
From Verif Require Import ListUtil.
From Verif Require Import SigProofs SigProofs2 SigProofs3 SigProofs4 SigProofs5 SigProofs6 SigProofs7 SigProofs8 SigProofs9 ObsProofs.
From Verif Require SigModel SigSpec.
From Verif Require Import ObsModel ObsSpec ObsProofs2 ObsProofs3 ObsProofs4 ObsProofs5 ObsProofs6 ObsProofs7 ObsProofs8 ObsProps.
Import SigModel (mode, Multi, Single).

Section Props.
Variable V : Type.
Variable eqb : V -> V -> bool.
Variable m : mode.
Variable v0 : list V.
Notation final := (ObsModel.final V eqb m v0).
Notation trace := (ObsModel.trace V eqb m v0).

Lemma in_number l : forall k i (w : V), In (i, w) (number V k l) <-> k <= i /\ nth_error l (i - k) = Some w.
Proof.
  induction l as [|x l IH]; intros k i w; cbn [number In].
  - split; [intros []|intros [_ E]; destruct (i - k); discriminate].
  - split.
    + intros [E|X]; [injection E as -> ->; rewrite Nat.sub_diag; auto|]. apply IH in X as [L X]. split; [lia|]. replace (i - k) with (S (i - S k)) by lia. exact X.
    + intros [L E]. destruct (Nat.eq_dec k i) as [->|NE]; [rewrite Nat.sub_diag in E; injection E as ->; left; reflexivity|right]. apply IH. split; [lia|]. replace (i - k) with (S (i - S k)) in E by lia. exact E.
Qed.
Lemma differs_all_spec cur v : length v = length cur -> differs_all V eqb cur v = false <-> forall i u w, nth_error cur i = Some u -> nth_error v i = Some w -> eqb u w = true.
Proof.
  intros L. unfold differs_all. rewrite (ObsProps.differs_spec V eqb). split; intros A.
  - intros i u w E1 E2. apply (A i w u); [|exact E1]. apply in_number. rewrite Nat.sub_0_r. split; [lia|exact E2].
  - intros i w u X E. apply in_number in X as [_ X]. rewrite Nat.sub_0_r in X. exact (A i u w E X).
Qed.

(** Setting the whole state to what it is does nothing at all ... *)
Theorem C53_set_all_the_same h t v : length v = length (val V (final h)) -> (forall i u w, nth_error (val V (final h)) i = Some u -> nth_error v i = Some w -> eqb u w = true) ->
  final (h ++ [(t, OSetAll V v)]) = final h.
Proof.
  intros L S. apply (differs_all_spec _ _ L) in S. rewrite ObsProps.final_snoc. unfold next. destruct (crashed V m (final h)); [reflexivity|]. cbn [fst snd act]. rewrite S, andb_false_r. reflexivity.
Qed.
(** ... and to something else, in any sub-state, changes the value and then, unless this happens inside an emission, begins one emission; the observers
    called by it are given the value that was set (C53_told_a_value_that_was_set). *)
Theorem C53_set_all_another h t v i u w : may V m (final h) t = true -> crashed V m (final h) = false -> length v = length (val V (final h)) ->
  nth_error (val V (final h)) i = Some u -> nth_error v i = Some w -> eqb u w = false ->
  exists r, trace (h ++ [(t, OSetAll V v)]) = trace h ++ VChange V t v true :: r /\ val V (final (h ++ [(t, OSetAll V v)])) = v /\
  (SigModel.em (keeper V m (final h)) = None -> exists e, hd_error r = Some (VSig V (SigModel.EEmit t e 0)) /\ forall s x, ~ In (VTold V s x) r).
Proof.
  intros M C L N N' E. pose proof (I_final V eqb m v0 h) as H. destruct (may_free V m v0 _ t H M) as (F & G & R).
  assert (D : differs_all V eqb (val V (final h)) v = true) by (destruct (differs_all V eqb (val V (final h)) v) eqn:D; [reflexivity|]; apply (differs_all_spec _ _ L) with (i := i) (u := u) (w := w) in D; [rewrite D in E; discriminate|exact N|exact N']).
  unfold ObsModel.trace. rewrite ObsProps.final_snoc. unfold next. rewrite C. cbn [fst snd act]. rewrite M, D, (proj2 (Nat.eqb_eq _ _) L). cbn [andb].
  unfold notify. set (s1 := emit V (with_val V (final h) v) [VChange V t v true]). destruct (on_signal_spec V m s1 t (SigModel.AEmit 0)) as (E1 & E2 & _ & _ & _ & new & E6 & E7).
  exists (flat_map (seen V (given V s1 t)) new). set (s2 := on_signal V m s1 t (SigModel.AEmit 0)) in *.
  assert (T : tr V s2 = tr V (final h) ++ VChange V t v true :: flat_map (seen V (given V s1 t)) new) by (rewrite E7; unfold s1; cbn [tr emit with_val]; rewrite <- app_assoc; reflexivity).
  assert (B : let s' := match SigModel.em (keeper V m s1), SigModel.em (keeper V m s2) with None, Some _ => push V s2 t (FEmit V (Some v)) | _, _ => s2 end in tr V s' = tr V s2 /\ val V s' = v).
  { cbv zeta. destruct (SigModel.em (keeper V m s1)), (SigModel.em (keeper V m s2)); split; try reflexivity; exact E2. }
  destruct B as [B1 B2]. split; [rewrite B1; exact T|]. split; [exact B2|]. intros EM.
  destruct (sig_emit m (sig V (final h)) t 0 C (i_fol _ _ _ _ H) (i_hub _ _ _ _ H) F) as [Y|[Y|[Y|Y]]].
  - destruct Y as (_ & _ & Y & _). rewrite E1 in E6. change (sig V s1) with (sig V (final h)) in E6. unfold SigModel.trace in E6. rewrite Y in E6. apply app_inv_head in E6. subst new. eexists. cbn. split; [reflexivity|]. intros s x [Z|[Z|[]]]; discriminate.
  - destruct Y as (_ & _ & Y & _). rewrite E1 in E6. change (sig V s1) with (sig V (final h)) in E6. unfold SigModel.trace in E6. rewrite Y in E6. apply app_inv_head in E6. subst new. eexists. cbn. split; [reflexivity|]. intros s x [Z|[]]; discriminate.
  - destruct Y as (Y & _). contradiction.
  - destruct Y as (y & Y & _). unfold keeper in EM. rewrite EM in Y. discriminate.
Qed.

(** Whoever is told a value is a connected observer called by an emission, or is being told by the connect() that accepted it as a callable object;
    in the second case it is still connected, or was cut by a Connection that can still restore it. *)
Theorem C53_only_observers_are_told h a s v b : trace h = a ++ VTold V s v :: b ->
  (exists a' t e k x, a = a' ++ [VSig V (SigModel.ECall t e k s x)] /\ In s (observers a')) \/
  (exists t, In (VConnect V t s FCallable) a /\ (In s (observers a) \/ exists c t' x, In (VSig V (SigModel.ERet t' x (SigModel.RCon c s true))) a /\ SigSpec.cut c (sigpart a) = true /\ ~ In (VSig V (SigModel.EDestroy c)) a)).
Proof. exact (told_who V eqb m v0 h a s v b). Qed.
(** Only slots that were accepted count as observers. *)
Theorem C53_observers_were_accepted h t s f : In (VConnect V t s f) (trace h) -> In (VSig V (SigModel.EJoin s)) (trace h).
Proof. exact (accepted V eqb m v0 h t s f). Qed.
(** A slot that is refused leaves no trace but the answer, and is never told anything by its connect(). *)
Theorem C53_refused h t f : m = Single -> observers (trace h) <> [] -> may V m (final h) t = true -> crashed V m (final h) = false ->
  exists c s, trace (h ++ [(t, OConnect V f)]) = trace h ++ [VSig V (SigModel.ERet t (SigModel.AConnect SigModel.CPlain) (SigModel.RCon c s false))] /\ pend V (final (h ++ [(t, OConnect V f)])) = pend V (final h).
Proof.
  intros SI O M C. pose proof (I_final V eqb m v0 h) as H. destruct (may_free V m v0 _ t H M) as (F & _ & _).
  assert (CA : SigModel.can_add m (SigModel.entries (keeper V m (final h))) = false).
  { rewrite SI in *. cbn. destruct (SigModel.entries (keeper V Single (ObsModel.final V eqb Single v0 h))) as [|y l] eqn:E; [|reflexivity]. exfalso. apply O. unfold observers. unfold ObsModel.trace. rewrite (i_sig _ _ _ _ H), SigProofs7.live_entries. fold (keeper V Single (ObsModel.final V eqb Single v0 h)). rewrite E. reflexivity. }
  unfold ObsModel.trace. rewrite ObsProps.final_snoc. unfold next. rewrite C. cbn [fst snd act]. rewrite M, CA, andb_false_r. cbv zeta.
  destruct (on_signal_spec V m (final h) t (SigModel.AConnect SigModel.CPlain)) as (E1 & _ & _ & E4 & E5 & nw & E6 & E7). set (st1 := on_signal V m (final h) t (SigModel.AConnect SigModel.CPlain)) in *.
  assert (K : SigModel.tr (keeper V m st1) = SigModel.tr (keeper V m (final h)) ++ nw) by exact E6. rewrite E5 in K. unfold SigModel.next in K. unfold crashed in C. rewrite C in K. cbn [fst snd] in K. cbn [SigModel.act] in K. rewrite F in K. cbn [SigModel.call] in K. rewrite (i_hub _ _ _ _ H) in K.
  rewrite watch_owned in K by (intros z Z; apply owned_save; exact Z). rewrite tr_save in K. cbn [SigModel.entries SigModel.with_kinds SigModel.tr] in K. rewrite CA in K. apply app_inv_head in K. subst nw.
  eexists. eexists. split; [rewrite E7; reflexivity|exact E4].
Qed.
End Props.
Print Assumptions C53_set_all_the_same.
Print Assumptions C53_set_all_another.
Print Assumptions C53_only_observers_are_told.
Print Assumptions C53_observers_were_accepted.
Print Assumptions C53_refused.

(** Two sub-states; setting them to the same pair does nothing, to another one calls the observer with it. *)
Example C53_set_all_applies : let h := [(0, OConnect nat FCallable); (0, OTell _); (0, OTellDone _)] in
  may nat Multi (obs Multi [3; 4] h) 1 = true /\ obst Multi [3; 4] (h ++ [(1, OSetAll _ [3; 4])]) = obst Multi [3; 4] h /\
  last_told 0 (obst Multi [3; 4] (h ++ [(1, OSetAll _ [3; 5]); (1, OStep _)])) = Some [3; 5].
Proof. split; [vm_compute; reflexivity|]. split; vm_compute; reflexivity. Qed.
Example C53_refused_applies : let h := [(0, OConnect nat FCallable); (0, OTell _); (0, OTellDone _)] in
  observers (obst Single [3] h) = [0] /\ may nat Single (obs Single [3] h) 1 = true /\ crashed nat Single (obs Single [3] h) = false.
Proof. split; [vm_compute; reflexivity|]. split; vm_compute; reflexivity. Qed.
