(** Client: when it registers with the server. *)
From Verif Require Import ListUtil CliModel CliSpec CliProofs CliProofs2 CliProofs3.

Definition poll_done (l1 : list event) (t : nat) (l2 : list event) : Prop :=
  (present l1 = Available /\ exists l3 l4, l2 = l3 ++ ERet t true :: l4 /\ no_register l3) \/
  (present l1 <> Available /\ exists r l3 l4, l2 = l3 ++ ERegister r :: ERet t true :: l4 /\ no_register l3).
Definition K (s : state) : Prop := forall t q l1 l2, nth_error (ths s) t = Some q -> tr s = l1 ++ ECall t (CPoll true) :: l2 ->
  match q with
  | QPoll true => cur s = present l1 /\ no_register l2
  | QRegister => present l1 <> Available /\ no_register l2
  | QDone => poll_done l1 t l2
  | _ => False
  end.

Lemma poll_done_app l1 t l2 k : poll_done l1 t l2 -> poll_done l1 t (l2 ++ k).
Proof.
  intros [[A (l3 & l4 & -> & N)]|[A (r & l3 & l4 & -> & N)]].
  - left. split; [exact A|]. exists l3, (l4 ++ k). rewrite <- app_assoc. auto.
  - right. split; [exact A|]. exists r, l3, (l4 ++ k). rewrite <- app_assoc. auto.
Qed.

(** Cutting a longer list. *)
Lemma cut (l k l1 l2 : list event) e : l ++ k = l1 ++ e :: l2 -> ~ In e k -> exists l3, l = l1 ++ e :: l3 /\ l2 = l3 ++ k.
Proof.
  revert l1. induction l as [|x l IH]; intros l1 E N.
  - exfalso. apply N. cbn in E. rewrite E. apply in_app_iff. right. left. reflexivity.
  - destruct l1 as [|y l1]; injection E as -> E.
    + exists l. auto.
    + destruct (IH _ E N) as (l3 & -> & ->). exists l3. auto.
Qed.

(** Steps of other threads while the client's own thread works. *)
Lemma quiet_step s s' : step s s' ->
  (exists c, s' = say (St (objs s) (reqs s) (stats s) (cur s) (ths s ++ [start_pc c]) (tr s)) [ECall (length (ths s)) c]) \/
  exists t q q' k, nth_error (ths s) t = Some q /\ q <> QDone /\ ths s' = set_nth t q' (ths s) /\ tr s' = tr s ++ k /\ (forall t' c, ~ In (ECall t' c) k) /\
    (~ own_pc q -> cur s' = cur s /\ no_register k) /\
    (q = QPoll true -> (cur s = Available /\ q' = QDone /\ k = [ERet t true]) \/ (cur s <> Available /\ q' = QRegister /\ k = [])) /\
    (q = QRegister -> exists r, q' = QDone /\ k = [ERegister r; ERet t true]).
Proof.
  assert (OT : forall k, only_told k -> (forall t' c, ~ In (ECall t' c) k) /\ no_register k).
  { intros k O. split; [intros t' c I|intros r I]; apply O in I as (? & ? & I); discriminate. }
  intros S. destruct S.
  1: left; eexists; reflexivity.
  all: right.
  all: try (match goal with |- context [newreq] => fail 1 | |- context [tell1] => fail 1 | |- context [tellall] => fail 1 | |- context [map] => fail 1 | _ => idtac end;
     unf; cbn [tr ths cur]; rewrite <- ?app_assoc; cbn [app]; do 4 eexists; split; [eassumption|]; split; [discriminate|]; split; [reflexivity|];
     split; [first [reflexivity|symmetry; apply app_nil_r]|]; split; [intros ? ? II; cbn in II; intuition discriminate|];
     split; [first [intros NO; exfalso; apply NO; exact I|intros _; split; [reflexivity|intros ? II; cbn in II; intuition discriminate]]|];
     split; [first [discriminate|intros E]|first [discriminate|intros _; eauto]]).
  - destruct (newreq_frame s sid) as (_ & _ & D & E & _ & _ & k & K1 & K2). destruct (OT k K2) as [O1 O2].
    exists t, (QGet sid), QDone, (k ++ [EGot t sid (length (objs s)); ERet t true]). split; [assumption|]. split; [discriminate|].
    split; [unf; cbn [ths]; rewrite E; reflexivity|]. split; [unf; cbn [tr]; rewrite K1, <- !app_assoc; reflexivity|].
    split; [intros t' c I; apply in_app_iff in I as [I|[I|[I|[]]]]; [destruct (O1 _ _ I)|discriminate|discriminate]|].
    split; [|split; discriminate]. intros _. split; [exact D|]. intros r I. apply in_app_iff in I as [I|[I|[I|[]]]]; [exact (O2 _ I)|discriminate|discriminate].
  - destruct (tell1_frame s sid av) as (_ & _ & D & E & _ & _ & k & K1 & K2). destruct (OT k K2) as [O1 O2].
    exists t, (QTell sid av), QDone, (k ++ [ERet t true]). split; [assumption|]. split; [discriminate|].
    split; [unf; cbn [ths]; rewrite E; reflexivity|]. split; [unf; cbn [tr]; rewrite K1, <- !app_assoc; reflexivity|].
    split; [intros t' c I; apply in_app_iff in I as [I|[I|[]]]; [destruct (O1 _ _ I)|discriminate]|].
    split; [intros NO; destruct (NO I)|split; discriminate].
  - injection E as ->. left. auto.
  - right. auto.
  - destruct (tells_frame (reqs s) s) as (_ & _ & D & E & _ & _ & k & K1 & K2). destruct (OT k K2) as [O1 O2].
    exists t, QTellAll, QDown, k. split; [assumption|]. split; [discriminate|].
    split; [unf; cbn [ths]; unfold tellall; rewrite E; reflexivity|]. split; [exact K1|]. split; [exact O1|]. split; [intros NO; destruct (NO I)|split; discriminate].
  - exists t, QDeinit, (QUnreg (keys (stats s))), (map (fun x => EFree (snd x)) (reqs s)). split; [assumption|]. split; [discriminate|]. split; [reflexivity|]. split; [reflexivity|].
    split; [intros t' c I; apply in_map_iff in I as (? & I & _); discriminate|]. split; [|split; discriminate]. intros _. split; [reflexivity|]. intros r I. apply in_map_iff in I as (? & I & _). discriminate.
Qed.

Lemma noreg_app l k : no_register l -> no_register k -> no_register (l ++ k).
Proof. intros A B r I. apply in_app_iff in I as [I|I]; [exact (A _ I)|exact (B _ I)]. Qed.

Lemma invK h : no_deinit (trace h) -> one_thread (trace h) -> K (final h).
Proof.
  unfold trace. induction h as [|l h IH] using rev_ind; [intros _ _ [|]; discriminate|].
  rewrite final_snoc. destruct (next_step (final h) l) as [->|S]; [exact IH|]. intros ND' ONE'.
  pose proof (invT h) as IT. pose proof (invJ h) as JJ. unfold trace in JJ.
  set (s := final h) in *. remember (next s l) as s' eqn:ES. clear ES l. destruct (step_tr _ _ S) as [k0 TR0].
  assert (ND : no_deinit (tr s)) by (rewrite TR0 in ND'; exact (no_deinit_app _ _ ND')).
  assert (ONE : one_thread (tr s)) by (rewrite TR0 in ONE'; exact (one_thread_app _ _ ONE')).
  specialize (IH ND ONE). specialize (JJ ND ONE). clear TR0 k0.
  destruct (quiet_step _ _ S) as [(c & ->)|(t & q & q' & k & N & NQ & TE & TR & NC & OTH & QP & QR)]; intros t1 q1 l1 l2 N1 E1.
  - cbn in N1, E1. rewrite nth_snoc in N1. destruct (Nat.eqb_spec t1 (length (ths s))) as [->|NE].
    + injection N1 as <-. assert (X : l2 = [] /\ l1 = tr s /\ c = CPoll true).
      { assert (NI : ~ In (ECall (length (ths s)) (CPoll true)) (tr s)) by (intros I; apply (t_lt _ IT) in I; lia).
        destruct (rev_ind (fun l2 => l2 = [] \/ exists a b, l2 = a ++ [b]) (or_introl eq_refl) (fun b a _ => or_intror (ex_intro _ a (ex_intro _ b eq_refl))) l2) as [->|(a & b & ->)].
        - apply app_inj_tail in E1 as [-> E1]. injection E1 as ->. auto.
        - exfalso. apply NI. change (l1 ++ ECall (length (ths s)) (CPoll true) :: a ++ [b]) with (l1 ++ (ECall (length (ths s)) (CPoll true) :: a) ++ [b]) in E1. rewrite app_assoc in E1.
          apply app_inj_tail in E1 as [-> _]. apply in_app_iff. right. left. reflexivity. }
      destruct X as (-> & -> & ->). cbn. assert (Q : quiet (tr s)) by (eapply (ONE' (tr s)); [reflexivity|exact I]). pose proof (quiet_none _ IT Q) as NO.
      destruct JJ as [(t0 & q0 & N0 & O0 & _)|[_ [CU _]]]; [destruct (NO _ _ N0 O0)|]. split; [exact CU|intros r []].
    + destruct (cut _ _ _ _ _ E1) as (l3 & E2 & ->); [intros [[= X _]|[]]; congruence|]. specialize (IH _ _ _ _ N1 E2). destruct q1; try exact IH.
      * destruct up; [|exact IH]. destruct IH as [A B]. split; [exact A|apply noreg_app; [exact B|intros r [X|[]]; discriminate]].
      * destruct IH as [A B]. split; [exact A|apply noreg_app; [exact B|intros r [X|[]]; discriminate]].
      * apply poll_done_app. exact IH.
  - rewrite TR in E1. destruct (cut _ _ _ _ _ E1) as (l3 & E2 & ->); [apply NC|]. rewrite TE, (nth_set _ _ _ _ _ N) in N1. destruct (Nat.eqb_spec t t1) as [<-|NE].
    + injection N1 as <-. specialize (IH _ _ _ _ N E2). destruct q; try contradiction.
      * destruct up; [|contradiction]. destruct IH as [A B]. destruct (QP eq_refl) as [(C & -> & ->)|(C & -> & ->)].
        -- left. split; [congruence|]. exists l3, []. auto.
        -- rewrite app_nil_r. split; [congruence|exact B].
      * destruct IH as [A B]. destruct (QR eq_refl) as (r & -> & ->). right. split; [exact A|]. exists r, l3, []. auto.
    + specialize (IH _ _ _ _ N1 E2). assert (OW : own_pc q1 -> ~ own_pc q).
      { intros O1 O. destruct JJ as [(t0 & q0 & N0 & O0 & _ & U)|[NO _]]; [|destruct (NO _ _ N1 O1)]. apply NE. rewrite (U _ _ N O), (U _ _ N1 O1). reflexivity. }
      destruct q1; try contradiction.
      * destruct up; [|contradiction]. destruct (OTH (OW I)) as [C NR]. destruct IH as [A B]. split; [congruence|apply noreg_app; assumption].
      * destruct (OTH (OW I)) as [C NR]. destruct IH as [A B]. split; [exact A|apply noreg_app; assumption].
      * apply poll_done_app. exact IH.
Qed.

Theorem poll_registers h l1 t l2 : no_deinit (trace h) -> one_thread (trace h) -> trace h = l1 ++ ECall t (CPoll true) :: l2 -> returned (trace h) t -> poll_done l1 t l2.
Proof.
  intros ND ONE E R. pose proof (invK h ND ONE) as KK. apply (t_ret _ (invT h)) in R. specialize (KK _ _ _ _ R E). exact KK.
Qed.

(** Without losing the server, what the client knows is what the messages say. *)
Lemma never_lost_knows l sid : never_lost l -> knows l sid = fold_left (fun v m => if Nat.eqb sid (fst m) then snd m else v) (arrived l) Unavailable.
Proof.
  induction l as [|e l IH] using rev_ind; intros NL; [reflexivity|].
  assert (NL' : never_lost l) by (intros t I; apply (NL t); apply in_app_iff; auto). specialize (IH NL').
  rewrite knows_snoc. unfold arrived. rewrite flat_map_app, fold_left_app. fold (arrived l). rewrite <- IH. cbn. rewrite app_nil_r.
  destruct e as [t [| | |[x [av|]|]|[|]|]| | | | | |[]| |]; cbn; try reflexivity. exfalso. apply (NL t). apply in_app_iff. right. left. reflexivity.
Qed.
