(** Processing messages: which handlers a message is given to. *)
From Verif Require Import ListUtil Amap ProcModel ProcSpec ProcProofs ProcProofs2 ProcProofs3 ProcProofs4 ProcProofs5 ProcProofs6 ProcProofs7 ProcProofs14 ProcProofs16 ProcProofs17 ProcProofs19 ProcProofs20 ProcProofs21 ProcProofs22 ProcProofs23.
From Verif Require QueueModel SigModel SigSpec SigProofs2 SigProofs3 SigProofs7.

Record FI (st : state) : Prop := {
  fi_emit : forall t p e m x, In (FEmit p e m x) (stk st t) -> (exists i, In (EStart t p e i) (tr st)) /\ exists t0 c, nth_error (calls st) e = Some (t0, c) /\ msg_of c = Some m;
  fi_exec : forall t p e, In (FExec p e) (stk st t) -> exists t0 c, nth_error (calls st) e = Some (t0, c) /\ msg_of c = None }.

Lemma FI_keep t st st' s' add : FI st -> (forall t', stk st' t' = upd (stk st) t s' t') -> tr st' = tr st ++ add -> (forall n x, nth_error (calls st) n = Some x -> nth_error (calls st') n = Some x) ->
  (forall f, In f s' -> In f (stk st t) \/ body_of f = None \/ (exists p e m x x', f = FEmit p e m x' /\ In (FEmit p e m x) (stk st t)) \/
     exists p e i t0 c, f = body c p e /\ nth_error (calls st) e = Some (t0, c) /\ In (EStart t p e i) add) -> FI st'.
Proof.
  intros [A B] SS TT CC HF. split.
  - intros t' p e m x I. rewrite SS in I. assert (OLD : forall t1 x1, In (FEmit p e m x1) (stk st t1) -> (exists i, In (EStart t1 p e i) (tr st')) /\ exists t0 c, nth_error (calls st') e = Some (t0, c) /\ msg_of c = Some m).
    { intros t1 x1 I1. destruct (A _ _ _ _ _ I1) as ((i & X) & t0 & c & C & M). split; [exists i; rewrite TT; apply in_or_app; left; exact X|exists t0, c; auto]. }
    destruct (Nat.eq_dec t t') as [<-|N]; [|rewrite upd_other in I by exact N; eapply OLD; exact I]. rewrite upd_same in I.
    destruct (HF _ I) as [X|[X|[(p1 & e1 & m1 & x1 & x2 & E & X)|(p1 & e1 & i & t0 & c & E & C & X)]]].
    + eapply OLD; exact X.
    + discriminate X.
    + injection E as <- <- <- <-. eapply OLD; exact X.
    + destruct c; cbn in E; try discriminate E; injection E as -> -> -> ->; (split; [exists i; rewrite TT; apply in_or_app; right; exact X|eexists; eexists; split; [apply CC; exact C|reflexivity]]).
  - intros t' p e I. rewrite SS in I. destruct (Nat.eq_dec t t') as [<-|N].
    + rewrite upd_same in I. destruct (HF _ I) as [X|[X|[(p1 & e1 & m1 & x1 & x2 & E & X)|(p1 & e1 & i & t0 & c & E & C & X)]]].
      * destruct (B _ _ _ X) as (t0 & c & C & M). eauto.
      * discriminate X.
      * discriminate E.
      * destruct c; cbn in E; try discriminate E; injection E as -> ->; (eexists; eexists; split; [apply CC; exact C|reflexivity]).
    + rewrite upd_other in I by exact N. destruct (B _ _ _ I) as (t0 & c & C & M). eauto.
Qed.
Lemma similar_body f f' : similar f f' -> f' = f \/ body_of f' = None \/ exists p e m x x', f = FEmit p e m x /\ f' = FEmit p e m x'.
Proof. intros [->|[(n & k & k' & -> & -> & _)|(p & e & m & x & x' & -> & ->)]]; [auto|right; left; reflexivity|right; right; eauto 8]. Qed.

Lemma FI_final h : FI (final h).
Proof.
  induction h as [|lb h IH] using rev_ind; [split; cbn; contradiction|]. pose proof (core_evt _ _ _ (good_final h) (qinv_final h) (ProcProofs11.final_step h lb)) as V.
  destruct V as [l Q E|f f' r l S SI Q E|f c0 U ID W E|f n0 r ds res S ID W DS E _|n0 i c0 p r S C SB P E|n0 p j k0 i e r S E|n0 p j k0 e t1 c0 r S C E|n0 k0 c0 r S C F SB E|bd p e n0 j k0 i r l S B Q E|bd p e n0 j r l S B Q E|bd p n0 r l c0 S B Q C E];
    destruct E as (S' & TT & CC); (eapply (FI_keep (fst lb) _ _ _ _ IH S' TT); [intros n x X; rewrite CC; try rewrite nth_error_app1 by (eapply nth_lt; eauto); exact X|]); intros f1 I1; rewrite ?S.
  - left. exact I1.
  - destruct I1 as [<-|I1]; [|left; right; exact I1]. destruct (similar_body _ _ SI) as [->|[X|(p & e & m & x & x' & -> & ->)]]; [left; left; reflexivity|auto|]. right. right. left. exists p, e, m, x, x'. split; [reflexivity|left; reflexivity].
  - destruct I1 as [<-|I1]; [|left; exact I1]. right. left. destruct f; cbn in ID; try discriminate; reflexivity.
  - left. right. exact I1.
  - left. right. exact I1.
  - destruct I1 as [<-|I1]; [right; left; reflexivity|left; right; exact I1].
  - destruct I1 as [<-|[<-|I1]]; [|right; left; reflexivity|left; right; exact I1]. right. right. right. exists p, e, false, t1, c0. split; [reflexivity|]. split; [exact C|left; reflexivity].
  - destruct I1 as [<-|[<-|I1]]; [|right; left; reflexivity|left; right; exact I1]. right. right. right. exists (target c0), n0, true, (fst lb), c0. split; [reflexivity|]. split; [exact C|left; reflexivity].
  - destruct I1 as [<-|I1]; [right; left; reflexivity|left; right; right; exact I1].
  - left. right. right. exact I1.
  - left. right. right. exact I1.
Qed.

(** An execution of [p] is made by a call on [p]. *)
Lemma start_target h t p e i : In (EStart t p e i) (trace h) -> exists t0 c, nth_error (calls (final h)) e = Some (t0, c) /\ submits c = true /\ target c = p.
Proof.
  intros I. pose proof (exec_final h) as J. destruct i.
  - destruct (x_inl _ J _ _ _ I) as (_ & c & C & SB & ->). eauto.
  - apply (x_start _ J) in I. destruct (take_accept _ _ _ _ (logged_final h) I) as (t' & I'). destruct (x_acc _ J _ _ _ I') as (c & E & SB & ->). eauto.
Qed.

(** Where the signal came from. *)
Definition sig_of (x : mstate) : option nat := match x with MLook => None | MWait g | MAt g => Some g | MIn g _ => Some g end.
Definition looked (h : history) (t e g : nat) : Prop := exists h0 h2 c m i, h = h0 ++ h2 /\ (exists t0, nth_error (calls (final h)) e = Some (t0, c)) /\ msg_of c = Some m /\ table h0 (target c) m = Some g /\ In (EStart t (target c) e i) (trace h0).
Lemma looked_app h l t e g : looked h t e g -> looked (h ++ l) t e g.
Proof. intros (h0 & h2 & c & m & i & -> & (t0 & C) & M & T & I). exists h0, (h2 ++ l), c, m, i. split; [symmetry; apply app_assoc|]. split; [exists t0; apply ProcProofs11.calls_mono; exact C|auto]. Qed.

Lemma looked_final h : forall t e x g, In (e, x) (fes (stk (final h) t)) -> sig_of x = Some g -> looked h t e g.
Proof.
  induction h as [|lb h IH] using rev_ind; [cbn; contradiction|]. intros t e x g I X.
  destruct (Nat.eq_dec t (fst lb)) as [->|N].
  2:{ rewrite other_stacks in I by exact N. apply looked_app. eapply IH; eauto. }
  destruct (next_sg h lb) as [G|E]; [|rewrite E in I; apply looked_app; eapply IH; eauto].
  set (t := fst lb) in *. set (st := final h) in *. set (st' := final (h ++ [lb])) in *.
  assert (TOP : forall p e0 m x0 r, stk st t = FEmit p e0 m x0 :: r -> In (e0, x0) (fes (stk st t)) /\ forall y, In y (fes r) -> In y (fes (stk st t))) by (intros p e0 m x0 r S; rewrite S; split; [left; reflexivity|intros y Y; right; exact Y]).
  assert (OLD : forall x0, In (e, x0) (fes (stk st t)) -> sig_of x0 = Some g -> looked (h ++ [lb]) t e g) by (intros x0 I0 X0; apply looked_app; eapply IH; eauto).
  destruct G as [SS FS NH _|p e0 i SS FS TR _|p e0 m g0 r S GM SS FS TR _|p e0 m r S GM SS FS (y & TR & XX) _|g0 a FR UA ST FS NH _|p e0 m g0 r S FR ST NH R|p e0 m g0 r S ST _ R|p e0 m g0 s r S ST FS NH _];
    try (destruct (TOP _ _ _ _ _ S) as (TOP1 & TOP2)).
  - rewrite FS in I. eapply OLD; eauto.
  - rewrite FS in I. destruct I as [I|I]; [injection I as <- <-; discriminate X|]. eapply OLD; eauto.
  - rewrite FS in I. destruct I as [I|I]; [injection I as <- <-|eapply OLD; eauto]. cbn in X. injection X as <-.
    destruct (fi_emit _ (FI_final h) t p e0 m MLook) as ((i & EI0) & t0 & c & C & M); [unfold t, st in *; rewrite S; left; reflexivity|].
    destruct (start_target _ _ _ _ _ EI0) as (t1 & c1 & C1 & _ & TG). rewrite C in C1. injection C1 as <- <-.
    exists h, [lb], c, m, i. split; [reflexivity|]. split; [exists t0; apply ProcProofs11.calls_mono; exact C|]. rewrite TG. split; [exact M|]. split; [exact GM|exact EI0].
  - rewrite FS in I. eapply OLD; eauto.
  - rewrite FS in I. eapply OLD; eauto.
  - cbv zeta in R. destruct R as [(_ & _ & _ & FS)|(_ & _ & [(_ & FS & _)|(_ & FS)])]; rewrite FS in I; [eapply OLD; eauto|eapply OLD; eauto|].
    destruct I as [I|I]; [injection I as <- <-|eapply OLD; eauto]. eapply OLD; [exact TOP1|exact X].
  - cbv zeta in R. destruct R as [(_ & FS & _)|[(y & _ & _ & FS & _)|(y & k & s & _ & _ & FS & _)]]; rewrite FS in I; [eapply OLD; eauto|eapply OLD; eauto|].
    destruct I as [I|I]; [injection I as <- <-|eapply OLD; eauto]. eapply OLD; [exact TOP1|exact X].
  - rewrite FS in I. destruct I as [I|I]; [injection I as <- <-|eapply OLD; eauto]. eapply OLD; [exact TOP1|exact X].
Qed.

(** The step in which an event happened. *)
Lemma grows h l : exists add, trace (h ++ [l]) = trace h ++ add.
Proof. destruct (evt_add _ _ _ (core_evt _ _ _ (good_final h) (qinv_final h) (ProcProofs11.final_step h l))) as (add & T & _). eauto. Qed.
Lemma happened h a x b : trace h = a ++ x :: b -> exists h1 l h2 a' b', h = h1 ++ l :: h2 /\ a = trace h1 ++ a' /\ trace (h1 ++ [l]) = trace h1 ++ a' ++ x :: b'.
Proof.
  revert b. induction h as [|l h IH] using rev_ind; intros b T; [destruct a; discriminate|]. destruct (grows h l) as (add & G). pose proof T as T1. rewrite G in T1. apply app_split in T1 as [(b' & X)|(a' & -> & X)].
  - destruct (IH _ X) as (h1 & l1 & h2 & a' & b2 & -> & E1 & E2). exists h1, l1, (h2 ++ [l]), a', b2. split; [rewrite <- app_assoc; reflexivity|auto].
  - exists h, l, [], a', b. split; [reflexivity|]. split; [reflexivity|]. rewrite G, X. reflexivity.
Qed.
Lemma first_time h x : In x (trace h) -> exists h1 l h2, h = h1 ++ l :: h2 /\ ~ In x (trace h1) /\ In x (trace (h1 ++ [l])).
Proof.
  induction h as [|l h IH] using rev_ind; [intros []|]. intros I. assert (D : {In x (trace h)} + {~ In x (trace h)}) by (apply in_dec; repeat decide equality).
  destruct D as [D|D]; [destruct (IH D) as (h1 & l1 & h2 & -> & A & B); exists h1, l1, (h2 ++ [l]); split; [rewrite <- app_assoc; reflexivity|auto]|]. exists h, l, []. auto.
Qed.
Lemma not_dead h l : final (h ++ [l]) <> final h -> dead (final h) = false.
Proof. intros N. destruct (dead (final h)) eqn:E; [|reflexivity]. exfalso. apply N. rewrite final_snoc. unfold next. rewrite E. reflexivity. Qed.

Lemma live_sig st g : SigSpec.live (SigModel.tr (sg_at st g)) = SigProofs2.somes (SigModel.entries (sg_at st g)).
Proof. exact (SigProofs7.live_entries SigModel.Multi (sig_at st g)). Qed.

Lemma handled h a t e g k s b : trace h = a ++ EHandle t e g k s :: b -> exists h1 h2, h = h1 ++ h2 /\ trace h1 = a /\
  In (k, s) (handlers_of h1 g) /\ looked h1 t e g /\
  (forall t' g' k' s', In (EHandle t' e g' k' s') a -> t' = t /\ g' = g /\ k' < k) /\
  (forall k' s', In (k', s') (handlers_of h1 g) -> k' < k -> In (EHandle t e g k' s') a).
Proof.
  intros T. destruct (happened _ _ _ _ T) as (h1 & l & h2 & a' & b' & -> & EA & T1). exists h1, (l :: h2). split; [reflexivity|].
  set (st := final h1) in *. destruct (next_sg h1 l) as [G|E].
  2:{ exfalso. unfold trace in T1. rewrite E in T1. rewrite <- (app_nil_r (tr (final h1))) in T1 at 1. apply app_inv_head in T1. destruct a'; discriminate. }
  assert (DD : dead st = false) by (apply (not_dead h1 l); intros E; unfold trace in T1; rewrite E in T1; rewrite <- (app_nil_r (tr (final h1))) in T1 at 1; apply app_inv_head in T1; destruct a'; discriminate).
  pose proof (EI_final h1 DD) as J. fold st in J.
  assert (NOH : ~ nohandle (final h1) (final (h1 ++ [l]))).
  { intros (add & TA & NH). unfold trace in T1. rewrite TA in T1. apply app_inv_head in T1. assert (I : In (EHandle t e g k s) add) by (rewrite T1; apply in_or_app; right; left; reflexivity). apply NH in I. discriminate. }
  destruct G as [SS FS NH _|p e0 i SS FS TR _|p e0 m g0 r S GM SS FS TR _|p e0 m r S GM SS FS (y & TR & XX) _|g0 a0 FR UA ST FS NH _|p e0 m g0 r S FR ST NH R|p e0 m g0 r S ST _ R|p e0 m g0 s0 r S ST FS NH _];
    try (exfalso; apply NOH; exact NH).
  - exfalso. apply NOH. eapply nh_one; [exact TR|reflexivity].
  - exfalso. apply NOH. eapply nh_one; [exact TR|reflexivity].
  - exfalso. apply NOH. eexists. split; [exact TR|]. intros z [<-|[<-|I]]; [reflexivity|reflexivity|apply XX; exact I].
  - cbv zeta in R. fold (sg_at (final (h1 ++ [l])) g0) in R. set (st' := final (h1 ++ [l])) in *. destruct R as [(_ & _ & z & R1 & R2)|[(y & _ & _ & _ & R1)|(y & k0 & s0 & R0 & R00 & FS & R1)]].
    + exfalso. apply NOH. eexists. split; [exact R1|]. intros w [<-|I]; [reflexivity|apply R2; exact I].
    + exfalso. apply NOH. apply nh_refl. exact R1.
    + unfold trace in T1. fold st' in T1. rewrite R1 in T1. apply app_inv_head in T1. destruct a' as [|z a']; [|injection T1 as _ T1; destruct a'; discriminate]. cbn in T1. injection T1 as <- <- <- <- <- _. rename e0 into e, g0 into g, k0 into k, s0 into s. rewrite app_nil_r in EA. split; [symmetry; exact EA|].
      set (t := fst l) in *. fold st in S. assert (I0 : In (e, MAt g) (fes (stk st t))) by (rewrite S; left; reflexivity). destruct (i_at _ J _ _ _ I0) as (x & E1 & E2 & E3 & E4 & E5).
      destruct (keep_step _ t x (i_ok _ J g) E1 E2 E4) as (HY & K). change (sg_at st g) with (sg_at (final h1) g) in HY, K. rewrite <- (sig_to_same _ _ _ _ ST) in HY, K. fold st st' in HY, K. rewrite R0 in K.
      destruct K as [(_ & K & _)|[(K & _)|(k' & s' & K & KT)]]; [discriminate|injection K as ->; congruence|]. injection K as ->. cbn in R00. injection R00 as -> ->.
      pose proof (SigProofs3.c_good _ _ (sg_CI st' g) (SigModel.tr (sg_at st g)) _ [] KT) as (G1 & G2 & G3 & G4).
      assert (HP : forall t' k1 s1, In (EHandle t' e g k1 s1) (tr st) <-> exists n, In (SigModel.ECall t' n k1 s1 e) (SigModel.tr (sg_at st g))).
      { intros t' k1 s1. rewrite <- in_handles, (i_proj _ J), in_sig_calls. reflexivity. }
      split; [exact G1|]. split; [eapply looked_final; [exact I0|reflexivity]|]. rewrite EA. split.
      * intros t' g' k1 s1 I. destruct (i_only _ J _ _ _ _ I0 (or_introl eq_refl) _ _ _ _ I) as (-> & ->). split; [reflexivity|]. split; [reflexivity|]. apply HP in I as (n & I). pose proof (E5 _ _ _ _ I) as ->. apply (G3 _ _ _ _ I).
      * intros k1 s1 I L. apply HP. exists (SigModel.e_no x). rewrite <- E3. apply G4; assumption.
Qed.

Lemma ended_frame h l t p e : ~ In (EEnd t p e) (trace h) -> In (EEnd t p e) (trace (h ++ [l])) -> t = fst l /\ exists b r, stk (final h) t = b :: r /\ body_of b = Some (p, e) /\ length (fes (stk (final (h ++ [l])) t)) = length (fes r).
Proof.
  intros N I. pose proof (core_evt _ _ _ (good_final h) (qinv_final h) (ProcProofs11.final_step h l)) as V.
  assert (A : forall add, trace (h ++ [l]) = trace h ++ add -> In (EEnd t p e) add) by (intros add E; rewrite E in I; apply in_app_or in I as [I|I]; [contradiction|exact I]).
  assert (QN : forall q, quiet q -> In (EEnd t p e) q -> False) by (intros q Q X; apply Q in X; discriminate).
  unfold trace in A. destruct V as [q Q E|f f' r q S SI Q E|f c0 U ID W E|f n0 r ds res S ID W DS E _|n0 i c0 p0 r S C SB P E|n0 p0 j k0 i e0 r S E|n0 p0 j k0 e0 t1 c0 r S C E|n0 k0 c0 r S C F SB E|bd p0 e0 n0 j k0 i r q S B Q E|bd p0 e0 n0 j r q S B Q E|bd p0 n0 r q c0 S B Q C E];
    destruct E as (S' & TT & CC); specialize (A _ TT).
  - exfalso. eauto.
  - exfalso. eauto.
  - destruct A as [A|[]]. discriminate.
  - exfalso. apply in_app_or in A as [A|[A|[]]]; [|discriminate]. destruct DS as [->|(p1 & es & ->)]; [destruct A|destruct A as [A|[]]; discriminate].
  - destruct A as [A|[A|[]]]; discriminate.
  - destruct A as [A|[]]. discriminate.
  - destruct A as [A|[]]. discriminate.
  - destruct A as [A|[]]. discriminate.
  - apply in_app_or in A as [A|[A|[]]]; [exfalso; eauto|]. injection A as <- -> ->. split; [reflexivity|]. eexists. eexists. split; [exact S|]. split; [exact B|]. rewrite S', upd_same. reflexivity.
  - apply in_app_or in A as [A|[A|[A|[]]]]; [exfalso; eauto| |discriminate]. injection A as <- -> ->. split; [reflexivity|]. eexists. eexists. split; [exact S|]. split; [exact B|]. rewrite S', upd_same. reflexivity.
  - apply in_app_or in A as [A|[A|[A|[]]]]; [exfalso; eauto| |discriminate]. injection A as <- -> ->. split; [reflexivity|]. eexists. eexists. split; [exact S|]. split; [exact B|]. rewrite S', upd_same. reflexivity.
Qed.

Lemma nobody_missed h t p e t0 c m : In (EEnd t p e) (trace h) -> nth_error (calls (final h)) e = Some (t0, c) -> msg_of c = Some m -> exists h1 l h2, h = h1 ++ l :: h2 /\
  ~ In (EEnd t p e) (trace h1) /\ In (EEnd t p e) (trace (h1 ++ [l])) /\
  (table h1 p m = None \/ exists g, looked h1 t e g /\ forall k s, In (k, s) (handlers_of h1 g) -> In (EHandle t e g k s) (trace h1)).
Proof.
  intros I CL MM. destruct (first_time _ _ I) as (h1 & l & h2 & -> & N & I1). exists h1, l, h2. split; [reflexivity|]. split; [exact N|]. split; [exact I1|].
  destruct (ended_frame _ _ _ _ _ N I1) as (-> & b & r & S & B & LE). set (t := fst l) in *.
  assert (NE : final (h1 ++ [l]) <> final h1) by (intros E; apply N; unfold trace in I1; rewrite E in I1; exact I1). pose proof (not_dead _ _ NE) as DD. pose proof (EI_final h1 DD) as J.
  assert (b = FEmit p e m match b with FEmit _ _ _ x => x | _ => MLook end) as EB.
  { destruct b as [| |p1 e1|p1 e1 m1 x]; try discriminate B; injection B as -> ->.
    - destruct (fi_exec _ (FI_final h1) t p e) as (t1 & c1 & C1 & M1); [rewrite S; left; reflexivity|]. apply (ProcProofs11.calls_mono _ (l :: h2)) in C1. congruence.
    - destruct (fi_emit _ (FI_final h1) t p e m1 x) as (_ & t1 & c1 & C1 & M1); [rewrite S; left; reflexivity|]. apply (ProcProofs11.calls_mono _ (l :: h2)) in C1. congruence. }
  destruct b as [| |p1 e1|p1 e1 m1 x]; try discriminate EB. injection EB as -> -> ->. clear B.
  assert (SZ : length (fes (stk (final (h1 ++ [l])) t)) < length (fes (stk (final h1) t))) by (rewrite LE, S; change (length (fes r) < Datatypes.S (length (fes r))); lia).
  destruct (next_sg h1 l) as [G|E]; [|exfalso; exact (NE E)].
  set (st := final h1) in *. set (st' := final (h1 ++ [l])) in *. fold t in G.
  destruct G as [SS FS NH _|p0 e0 i SS FS TR _|p0 e0 m0 g0 r0 S0 GM SS FS TR _|p0 e0 m0 r0 S0 GM SS FS (y & TR & XX) _|g0 a0 FR UA ST FS NH _|p0 e0 m0 g0 r0 S0 FR ST NH R|p0 e0 m0 g0 r0 S0 ST _ R|p0 e0 m0 g0 s0 r0 S0 ST FS NH _];
    try (rewrite S in S0; injection S0 as <- <- <- -> <-).
  - rewrite FS in SZ. lia.
  - rewrite FS in SZ. cbn in SZ. lia.
  - rewrite FS, S in SZ. unfold fes in SZ. cbn in SZ. lia.
  - left. exact GM.
  - rewrite FS in SZ. lia.
  - right. exists g0. assert (I0 : In (e, MWait g0) (fes (stk st t))) by (rewrite S; left; reflexivity). split; [eapply looked_final; [exact I0|reflexivity]|].
    pose proof (keep_emit _ t e (sg_CI st g0) (i_ok _ J g0) FR) as K. cbv zeta in K, R. rewrite <- (sig_to_same _ _ _ _ ST) in K. fold (sg_at st' g0) in R.
    destruct R as [(CR & D & T2 & _)|(CR & D & [(EM & FS & _)|(EM & FS)])].
    + exfalso. unfold trace in I1. fold st' in I1. rewrite T2 in I1. apply in_app_or in I1 as [I1|[I1|[]]]; [contradiction|discriminate].
    + destruct K as [K|(_ & _ & _ & _ & [(K & _)|K])]; [congruence| |congruence]. intros k s X. unfold handlers_of in X. change (SigModel.trace SigModel.Multi (sig_at (final h1) g0)) with (SigModel.tr (sg_at st g0)) in X. rewrite live_sig, K in X. destruct X.
    + rewrite FS, S in SZ. unfold fes in SZ. cbn in SZ. lia.
  - right. exists g0. assert (I0 : In (e, MAt g0) (fes (stk st t))) by (rewrite S; left; reflexivity). split; [eapply looked_final; [exact I0|reflexivity]|].
    destruct (i_at _ J _ _ _ I0) as (x & E1 & E2 & E3 & E4 & E5). destruct (keep_step _ t x (i_ok _ J g0) E1 E2 E4) as (HY & K). rewrite <- (sig_to_same _ _ _ _ ST) in HY, K.
    cbv zeta in R. fold (sg_at st' g0) in R. destruct R as [(R0 & _)|[(y & _ & _ & FS & _)|(y & k & s & _ & _ & FS & _)]]; [|rewrite FS in SZ; lia|rewrite FS, S in SZ; unfold fes in SZ; cbn in SZ; lia].
    rewrite R0 in K. destruct K as [(K & _)|[(K & _)|(k' & s' & K & _)]]; try discriminate. intros k s X. unfold handlers_of in X. change (SigModel.trace SigModel.Multi (sig_at (final h1) g0)) with (SigModel.tr (sg_at st g0)) in X. rewrite live_sig in X.
    apply SigProofs2.somes_in in X as (i & X). apply in_handles. change (trace h1) with (tr st). rewrite (i_proj _ J). apply in_sig_calls. exists (SigModel.e_no x). rewrite <- E3, <- E2. apply (SigProofs3.c_done _ _ (sg_CI st g0) x i k s E1 eq_refl); [|exact X].
    unfold SigProofs3.bound. rewrite E4. apply nth_lt in X. apply nth_error_None in K. lia.
  - rewrite FS, S in SZ. unfold fes in SZ. cbn in SZ. lia.
Qed.
