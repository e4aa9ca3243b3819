(** Subscriptions when registering calls do not overlap. *)
From Verif Require Import ReqModel ReqSpec ReqProofs ReqInv ReqIds ReqOnce ReqDeliver ReqDeliver2 ReqGone ReqGone2 ReqSubs ReqSerSpec.
From Coq Require Import NArith.

Lemma serial_snoc f h l : serial f (h ++ [l]) -> serial f h.
Proof. intros S h1 c h2 E. apply (S h1 c (h2 ++ [l])). rewrite E, <- app_assoc. reflexivity. Qed.
Lemma serial_mono (f g : call -> bool) h : (forall c, g c = true -> f c = true) -> serial f h -> serial g h.
Proof. intros M S h1 c h2 E G t c' C' G'. apply (S h1 c h2 E (M _ G) t c' C'). auto. Qed.

Lemma call_lt h t c : call_of h t = Some c -> t < length (calls h).
Proof. intros H. eapply nth_lt; exact H. Qed.

Lemma ret_called h t v : In (ERet t v) (trace h) -> exists c, call_of h t = Some c.
Proof. intros H. apply cnt_ret_of in H. destruct (i_fit h (inv_final h) _ _ H) as (c & C & _). eauto. Qed.

Lemma fold_ext {A B} (f g : A -> B -> A) l a : (forall x y, In y l -> f x y = g x y) -> fold_left f l a = fold_left g l a.
Proof.
  revert a. induction l as [|y l IH]; intros a H; [reflexivity|]. cbn. rewrite (H a y (or_introl eq_refl)). apply IH. intros x z I. apply H. right. exact I.
Qed.

Lemma sub_ev_app h l o x e : In e (trace h) -> sub_ev (h ++ [l]) o x e = sub_ev h o x e.
Proof.
  intros I. destruct e; try reflexivity. destruct (ret_called _ _ _ I) as (c & C). cbn. rewrite (call_of_app _ _ _ _ C), C. reflexivity.
Qed.
Lemma lat_ev_app h l o x e : In e (trace h) -> lat_ev (h ++ [l]) o x e = lat_ev h o x e.
Proof.
  intros I. unfold lat_ev. rewrite (sub_ev_app h l o _ e I). destruct e; try reflexivity.
  destruct (ret_called _ _ _ I) as (c & C). rewrite (call_of_app _ _ _ _ C), C. reflexivity.
Qed.
Lemma subs_snoc h l o ev : trace (h ++ [l]) = trace h ++ ev -> subs (h ++ [l]) o = fold_left (sub_ev (h ++ [l]) o) ev (subs h o).
Proof.
  intros T. unfold subs at 1. rewrite T, fold_left_app. f_equal. apply fold_ext. intros x y I. apply sub_ev_app. exact I.
Qed.
Lemma subs_call h c o : subs (h ++ [LCall c]) o = subs h o.
Proof. rewrite (subs_snoc h (LCall c) o []); [reflexivity|]. rewrite trace_call, app_nil_r. reflexivity. Qed.

(** Events of calls that do not register leave [subs] alone. *)
Lemma ev_thread w al s t p s' p' e x : run1 w al s t p = (s', p', e) -> In x e ->
  match x with EAlloc u _ | ESend u _ | ECb u _ _ | EThrow u | EStatus u _ | ENotify u _ _ _ | ERet u _ => u = t end.
Proof.
  intros R H. destruct p; cbn in R; break_run; cbn in H;
    try solve [repeat match goal with H : _ \/ _ |- _ => destruct H as [H|H] | H : False |- _ => destruct H end; subst; reflexivity].
  apply in_app_iff in H as [H|[H|[]]]; [apply in_map_iff in H as (? & <- & _)|subst]; reflexivity.
Qed.

Lemma sub_neutral h o c w al s t p s' p' e l : call_of h t = Some c -> fits c p -> run1 w al s t p = (s', p', e) -> reg_call c = false ->
  fold_left (sub_ev h o) e l = l.
Proof.
  intros C F R G.
  assert (H : forall x, In x e -> forall l, sub_ev h o l x = l).
  { intros x I l0. pose proof (ev_thread _ _ _ _ _ _ _ _ _ R I) as X. destruct x; try reflexivity; subst.
    - destruct (status_thread _ _ _ _ _ _ _ _ _ _ R I) as [_ (old & ->)]. cbn in F. subst c. discriminate.
    - cbn. rewrite C. destruct c; try reflexivity; discriminate. }
  clear R. revert l. induction e as [|x e IH]; intros l; [reflexivity|]. cbn. rewrite (H x (or_introl eq_refl)). apply IH. intros y I. apply H. right. exact I.
Qed.

Lemma reg_neutral h c w al s t p s' p' e o : fits c p -> run1 w al s t p = (s', p', e) -> reg_call c = false ->
  call_of h t = Some c -> gl s' o = gl s o.
Proof.
  intros F R G C. pose proof (run1_registers _ _ _ _ _ _ _ _ R) as E.
  destruct p; cbn [reg_effect teff] in E; try apply E; exfalso; cbn in F.
  all: repeat match goal with H : exists _, _ |- _ => destruct H | H : _ /\ _ |- _ => destruct H end; subst; discriminate.
Qed.

Lemma map_remove rid l : map e_id (remove_id rid l) = rem rid (map e_id l).
Proof. induction l as [|e l IH]; [reflexivity|]. cbn. destruct (N.eqb (e_id e) rid); cbn; [reflexivity|rewrite IH; reflexivity]. Qed.

Lemma set_nth_same {A} (x : A) l i : nth_error l i = Some x -> set_nth i x l = l.
Proof. revert i. induction l as [|y l IH]; intros [|i] H; try discriminate; cbn in *; [congruence|]. rewrite IH; auto. Qed.

(** What is known about operation [o] while the registering call [c] stands at [p]. *)
Definition G (o : nat) (c : call) (p : pc) (g : list N) (s : list N) : Prop :=
  match p with
  | PRegSend _ o' r | PRegSent o' r | PRegUndo o' r _ => if Nat.eqb o' o then s = [] /\ g = [r] else g = s
  | PRegCached o' r | PRegCall o' r _ => if Nat.eqb o' o then s <> [] /\ g = s ++ [r] else g = s
  | PUnregUncache o' | PUnregCheck o' | PUnregSend o' =>
      if Nat.eqb o' o then g = [] /\ exists rid, c = CUnregister rid o /\ regid_ok rid o = true /\ rem rid s = [] else g = s
  | PUallSend o' | PUallUncache o' => if Nat.eqb o' o then g = [] else g = s
  | PSvcClearReq _ _ | PSvcClearReg _ _ => s = []
  | PUnregErase o' rid => g = s /\ regid_ok rid o' = true
  | _ => g = s
  end.

Definition quiet (h : history) (t : nat) : Prop :=
  forall t2 p2 c2, t2 <> t -> nth_error (thr (final h)) t2 = Some p2 -> call_of h t2 = Some c2 -> reg_call c2 = true -> p2 = PDone.
Definition SInv (h : history) : Prop :=
  (exists t p c, nth_error (thr (final h)) t = Some p /\ call_of h t = Some c /\ reg_call c = true /\ p <> PDone /\ quiet h t /\
     forall o, o <> 0 -> G o c p (map e_id (gl (sh (final h)) o)) (subs h o)) \/
  ((forall t p c, nth_error (thr (final h)) t = Some p -> call_of h t = Some c -> reg_call c = true -> p = PDone) /\
   forall o, o <> 0 -> map e_id (gl (sh (final h)) o) = subs h o).

Lemma sinv_step h t w p s' p' e c :
  nth_error (thr (final h)) t = Some p -> call_of h t = Some c -> reg_call c = true -> p <> PDone -> fits c p ->
  run1 w (alive (final h) t) (sh (final h)) t p = (s', p', e) ->
  forall o, o <> 0 -> G o c p (map e_id (gl (sh (final h)) o)) (subs h o) ->
  let sb := fold_left (sub_ev (h ++ [LRun t w]) o) e (subs h o) in
  if match p' with PDone => true | _ => false end then map e_id (gl s' o) = sb else G o c p' (map e_id (gl s' o)) sb.
Proof.
  intros N C Rc P F R o Ho HG sb. subst sb.
  assert (C' : call_of (h ++ [LRun t w]) t = Some c) by (rewrite call_of_run; exact C).
  pose proof (run1_registers _ _ _ _ _ _ _ _ R) as E.
  destruct p; cbn in F; try congruence;
    try solve [exfalso; clear - F Rc;
                 repeat match goal with H : exists _, _ |- _ => destruct H | H : _ /\ _ |- _ => destruct H
                                      | H : context [match ?b with true => _ | false => _ end] |- _ => destruct b end;
                 subst; cbn in *; try discriminate; destruct c; cbn in *; intuition discriminate].
  all: cbn [reg_effect teff] in E.
  { subst c0. cbn in HG. rewrite <- (E o) in HG. cbn in R.
    destruct c; try discriminate Rc; break_run; cbn [fold_left sub_ev G]; rewrite ?C'; try exact HG; auto. }
  all: try match goal with H : exists _, _ |- _ => destruct H as (? & ->) | H : (exists _, _) /\ _ |- _ => destruct H as [(? & ->) ?] end.
  all: try match goal with H : _ = CServiceStatus _ _ _ /\ _ |- _ => destruct H as [-> ->] end.
  all: try subst c; cbn in HG.
  all: match goal with N : nth_error _ _ = Some ?q |- _ => let x := eval cbn in (pc_id q) in
         match x with Some ?r => pose proof (id_valid _ _ _ (i_id h (inv_final h) _ _ _ N eq_refl)) as V | _ => idtac end end.
  all: rewrite (E o) in *.
  all: cbn in R; repeat match goal with H : context [Nat.eqb ?a ?b] |- _ => destruct (Nat.eqb_spec a b); subst end.
  all: break_run; cbn [fold_left sub_ev G]; rewrite ?C', ?Nat.eqb_refl; try exact HG; auto.
  all: try match goal with H : ?x <> ?y |- context [Nat.eqb ?x ?y] => rewrite (proj2 (Nat.eqb_neq x y) H) end; auto.
  all: try match goal with H : ?x <> ?y |- context [Nat.eqb ?y ?x] => rewrite (proj2 (Nat.eqb_neq y x) (not_eq_sym H)) end; auto.
  all: rewrite ?map_app, ?map_remove; auto.
  all: assert (RO : forall qq, qq <> rid_invalid -> regid_ok qq o = true)
      by (let q := fresh in let Hq := fresh in intros q Hq; unfold regid_ok; rewrite (proj2 (N.eqb_neq _ _) Hq), (proj2 (Nat.eqb_neq _ _) Ho); reflexivity).
  all: try (rewrite (RO _ V)).
  all: try (destruct HG as [HG1 HG2]; rewrite ?HG1, ?HG2; cbn; rewrite ?N.eqb_refl; reflexivity).
  all: try (destruct (regid_ok rid o0); exact HG).
  - destruct (Nat.eqb_spec o0 o) as [->|]; [rewrite Nat.eqb_refl|destruct (Nat.eqb_spec o o0); [congruence|exact HG]].
    rewrite map_app, HG. rewrite app_length in e0. change (get_or [] o (registers (sh (final h)))) with (gl (sh (final h)) o) in e0.
    rewrite <- (map_length e_id), HG in e0. cbn in e0. destruct (subs h o); [split; reflexivity|cbn in e0; lia].
  - destruct (Nat.eqb_spec o0 o) as [->|]; [rewrite Nat.eqb_refl|destruct (Nat.eqb_spec o o0); [congruence|exact HG]].
    rewrite map_app, HG. rewrite app_length in n. change (get_or [] o (registers (sh (final h)))) with (gl (sh (final h)) o) in n.
    rewrite <- (map_length e_id), HG in n. cbn in n. destruct (subs h o); [cbn in n; lia|split; [discriminate|reflexivity]].
  - destruct (Nat.eqb_spec o0 o) as [->|]; [rewrite Nat.eqb_refl|destruct (Nat.eqb_spec o o0); [congruence|destruct (regid_ok rid o0); exact HG]].
    rewrite map_app, HG, (RO _ V). reflexivity.
  - destruct HG as [HG Hr]. destruct (Nat.eqb_spec o0 o) as [->|]; [rewrite Nat.eqb_refl|destruct (Nat.eqb_spec o o0); [congruence|exact HG]].
    rewrite map_remove, HG.
    assert (X : rem rid (subs h o) = []).
    { rewrite <- HG, <- map_remove. unfold remove_entry in Heqp. unfold gl, get_or.
      destruct (get o (registers (sh (final h)))) as [l|]; [|reflexivity].
      destruct (remove_id rid l); [reflexivity|]. injection Heqp as <- <-. discriminate Heqb. }
    split; [exact X|]. exists rid. auto.
  - destruct HG as [HG Hr]. destruct (Nat.eqb_spec o0 o) as [->|]; [rewrite Nat.eqb_refl|destruct (Nat.eqb_spec o o0); [congruence|exact HG]].
    rewrite map_remove, HG. reflexivity.
  - destruct HG as [HG1 (r & Er & _ & X)]. injection Er as ->. rewrite HG1. symmetry. exact X.
  - destruct HG as [HG1 (r & Er & _ & X)]. injection Er as ->. rewrite HG1. symmetry. exact X.
  - destruct (Nat.eqb_spec o0 o) as [->|]; [rewrite Nat.eqb_refl; reflexivity|destruct (Nat.eqb_spec o o0); [congruence|exact HG]].
  - destruct new; cbn; auto.
  - rewrite fold_left_app. cbn. rewrite C'.
    assert (X : forall l a, fold_left (sub_ev (h ++ [LRun t w]) o) (map (fun x => ENotify t x old new) l) a = a).
    { induction l as [|y l IH]; intros a; [reflexivity|apply IH]. }
    rewrite X. exact HG.
Qed.

Lemma serial_sinv h : serial reg_call h -> SInv h.
Proof.
  induction h as [|h c IH|h t w IH N F T|h t w p s' p' e IH N R F T] using hist_ind; intros S.
  - right. split; [intros [|t] p c H; discriminate|reflexivity].
  - specialize (IH (serial_snoc _ _ _ S)).
    assert (Old : forall t p c', nth_error (thr (final (h ++ [LCall c]))) t = Some p -> call_of (h ++ [LCall c]) t = Some c' ->
       nth_error (thr (final h)) t = Some p /\ call_of h t = Some c' \/ t = length (calls h) /\ p = PStart c /\ c' = c).
    { intros t p c' A B. rewrite snoc_call in A. cbn [thr] in A. rewrite nth_snoc, (i_len h (inv_final h)) in A. rewrite call_of_call in B.
      destruct (Nat.eqb_spec t (length (calls h))); [right|left; auto]. injection A as <-. injection B as <-. auto. }
    destruct (reg_call c) eqn:Rc.
    + left. exists (length (calls h)), (PStart c), c.
      assert (Id : forall t p c', nth_error (thr (final h)) t = Some p -> call_of h t = Some c' -> reg_call c' = true -> p = PDone).
      { intros t p c' A B Q. destruct (S h c [] eq_refl Rc t c' B Q) as (v & V). pose proof (cnt_ret_of _ _ _ V) as X. congruence. }
      split. { rewrite snoc_call. cbn [thr]. rewrite nth_snoc, (i_len h (inv_final h)), Nat.eqb_refl. reflexivity. }
      split. { rewrite call_of_call, Nat.eqb_refl. reflexivity. }
      split; [exact Rc|]. split; [discriminate|]. split.
      { intros t2 p2 c2 H A B Q. destruct (Old _ _ _ A B) as [[A' B']|(-> & _)]; [eapply Id; eauto|congruence]. }
      intros o Ho. cbn. rewrite subs_call, snoc_call. cbn [sh].
      destruct IH as [(t & p & c' & A & B & Q & D & _)|[_ IH]]; [|apply IH; exact Ho].
      exfalso. apply D. eapply Id; eauto.
    + destruct IH as [(t & p & c' & A & B & Q & D & U & IH)|[A IH]]; [left|right].
      * exists t, p, c'. 
        split. { rewrite snoc_call. cbn [thr]. rewrite nth_error_app1; [exact A|eapply nth_lt; exact A]. }
        split. { apply call_of_app. exact B. }
        split; [exact Q|]. split; [exact D|]. split.
        { intros t2 p2 c2 H X Y Z. destruct (Old _ _ _ X Y) as [[X' Y']|(_ & _ & ->)]; [eapply U; eauto|congruence]. }
        intros o Ho. rewrite subs_call, snoc_call. apply IH. exact Ho.
      * split; [|intros o Ho; rewrite subs_call, snoc_call; apply IH; exact Ho].
        intros t p c' X Y Z. destruct (Old _ _ _ X Y) as [[X' Y']|(_ & _ & ->)]; [eapply A; eauto|congruence].
  - specialize (IH (serial_snoc _ _ _ S)).
    assert (Sb : forall o, subs (h ++ [LRun t w]) o = subs h o).
    { intros o. rewrite (subs_snoc h (LRun t w) o []); [reflexivity|]. rewrite T, app_nil_r. reflexivity. }
    destruct IH as [(u & p & c' & A & B & Q & D & U & IH)|[A IH]]; [left; exists u, p, c'|right]; rewrite F.
    + rewrite call_of_run. repeat split; auto.
      * intros t2 p2 c2 H X Y Z. rewrite F in X. rewrite call_of_run in Y. eapply U; eauto.
      * intros o Ho. rewrite Sb. auto.
    + split; [|intros o Ho; rewrite Sb; auto]. intros u p c' X Y Z. rewrite call_of_run in Y. eapply A; eauto.
  - specialize (IH (serial_snoc _ _ _ S)).
    destruct (i_fit h (inv_final h) _ _ N) as (c & C & Fc).
    assert (Sb : forall o, subs (h ++ [LRun t w]) o = fold_left (sub_ev (h ++ [LRun t w]) o) e (subs h o)).
    { intros o. apply subs_snoc. exact T. }
    assert (C' : call_of (h ++ [LRun t w]) t = Some c) by (rewrite call_of_run; exact C).
    destruct (reg_call c) eqn:Rc.
    + destruct (match p with PDone => true | _ => false end) eqn:Dn.
      { destruct p; try discriminate. cbn in R. injection R as <- <- <-.
        assert (FF : final (h ++ [LRun t w]) = final h).
        { rewrite F. rewrite set_nth_same by exact N. destruct (final h); reflexivity. }
        destruct IH as [(u & p & c' & A & B & Q & D & U & IH)|[A IH]]; [left; exists u, p, c'|right]; rewrite FF.
        - rewrite call_of_run. repeat split; auto.
          + intros t2 p2 c2 H X Y Z. rewrite FF in X. rewrite call_of_run in Y. eapply U; eauto.
          + intros o Ho. rewrite Sb. cbn. auto.
        - split; [|intros o Ho; rewrite Sb; cbn; auto]. intros u p c' X Y Z. rewrite call_of_run in Y. eapply A; eauto. }
      assert (Pd : p <> PDone) by (intros ->; discriminate).
      destruct IH as [(u & q & c' & A & B & Q & D & U & IH)|[A IH]]; [|exfalso; apply Pd; eapply A; eauto].
      assert (u = t) as ->. { destruct (Nat.eq_dec t u); [congruence|]. exfalso. apply Pd. eapply U; eauto. }
      rewrite N in A. injection A as <-. rewrite C in B. injection B as <-.
      assert (X := fun o Ho => sinv_step h t w p s' p' e c N C Rc Pd Fc R o Ho (IH o Ho)). cbn zeta in X.
      assert (O : forall t2 p2 c2, t2 <> t -> nth_error (thr (final (h ++ [LRun t w]))) t2 = Some p2 -> call_of (h ++ [LRun t w]) t2 = Some c2 ->
        reg_call c2 = true -> p2 = PDone).
      { intros t2 p2 c2 H Y1 Y2 Y3. rewrite F in Y1. cbn [thr] in Y1. rewrite (nth_set _ _ _ _ _ N) in Y1. rewrite call_of_run in Y2.
        destruct (Nat.eqb_spec t t2); [congruence|]. eapply U; eauto. }
      destruct (match p' with PDone => true | _ => false end) eqn:Dn'.
      * right. destruct p'; try discriminate. split.
        { intros t2 p2 c2 Y1 Y2 Y3. destruct (Nat.eq_dec t2 t) as [->|]; [|eapply O; eauto].
          rewrite F in Y1. cbn [thr] in Y1. rewrite (nth_set _ _ _ _ _ N), Nat.eqb_refl in Y1. congruence. }
        intros o Ho. rewrite F, Sb. apply X. exact Ho.
      * left. exists t, p', c. 
        split. { rewrite F. cbn [thr]. rewrite (nth_set _ _ _ _ _ N), Nat.eqb_refl. reflexivity. }
        split; [exact C'|]. split; [exact Rc|]. split; [intros ->; discriminate|]. split; [exact O|].
        intros o Ho. rewrite F, Sb. apply X. exact Ho.
    + assert (Sb2 : forall o, subs (h ++ [LRun t w]) o = subs h o).
      { intros o. rewrite Sb. eapply sub_neutral; eauto. }
      assert (Gl : forall o, gl s' o = gl (sh (final h)) o) by (intros o; eapply reg_neutral; eauto).
      destruct IH as [(u & q & c' & A & B & Q & D & U & IH)|[A IH]]; [left; exists u, q, c'|right]; rewrite F; cbn [sh thr].
      * assert (u <> t) by congruence. 
        split. { rewrite (nth_set _ _ _ _ _ N). destruct (Nat.eqb_spec t u); [congruence|exact A]. }
        rewrite call_of_run. repeat split; auto.
        -- intros t2 p2 c2 H2 X Y Z. rewrite F in X. cbn [thr] in X. rewrite (nth_set _ _ _ _ _ N) in X. rewrite call_of_run in Y.
           destruct (Nat.eqb_spec t t2); [congruence|]. eapply U; eauto.
        -- intros o Ho. rewrite Sb2, Gl. auto.
      * split; [|intros o Ho; rewrite Sb2, Gl; auto]. intros u q c' X Y Z. rewrite (nth_set _ _ _ _ _ N) in X. rewrite call_of_run in Y.
        destruct (Nat.eqb_spec t u); [congruence|]. eapply A; eauto.
Qed.
