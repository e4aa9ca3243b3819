(** Request ids handed out are pairwise different (as long as fewer than 2^64-1 calls were made). *)
From Verif Require Import ReqModel ReqSpec ReqProofs ReqInv.
From Coq Require Import NArith.

Definition allocs (tr : list event) : list (nat * N) :=
  flat_map (fun e => match e with EAlloc t r => [(t, r)] | _ => [] end) tr.
Lemma allocs_app a b : allocs (a ++ b) = allocs a ++ allocs b.
Proof. apply flat_map_app. Qed.
Lemma in_allocs t r tr : In (t, r) (allocs tr) <-> In (EAlloc t r) tr.
Proof.
  unfold allocs. rewrite in_flat_map. split.
  - intros (e & I & H). destruct e; cbn in H; try contradiction. destruct H as [H|[]]. injection H as <- <-. exact I.
  - intros H. exists (EAlloc t r). split; [exact H|left; reflexivity].
Qed.

(** The call has not obtained its id yet. *)
Definition pre (p : pc) : bool :=
  match p with PStart _ | PAlloc _ _ _ _ _ | PRegAlloc _ _ | PGetSub _ _ _ | PGetCheck _ _ => true | _ => false end.

Lemma run1_alloc w al s t p s' p' e : run1 w al s t p = (s', p', e) ->
  (allocs e = [] /\ (counter s' = counter s \/ counter s = rid_invalid) /\ (pre p = false -> pre p' = false)) \/
  (allocs e = [(t, counter s)] /\ counter s <> rid_invalid /\ counter s' = ((counter s + 1) mod 2 ^ 64)%N /\
   pre p = true /\ pre p' = false).
Proof.
  intros R.
  assert (No : forall a b l, allocs (map (fun x => ENotify t x a b) l ++ [ERet t RVUnit]) = []).
  { intros a b l. rewrite allocs_app. induction l; [reflexivity|exact IHl]. }
  destruct p.
  all: match type of R with run1 _ _ _ _ ?q = _ =>
    match q with
    | PAlloc _ _ _ _ _ => cbn [run1] in R; destruct (N.eqb_spec (counter s) rid_invalid); injection R as <- <- <-; [left|right];
        (split; [reflexivity|]); auto 8
    | PRegAlloc _ _ => cbn [run1] in R; destruct (N.eqb_spec (counter s) rid_invalid); injection R as <- <- <-; [left|right];
        (split; [reflexivity|]); auto 8
    | PStart _ => left; cbn in R; break_run; cbn; (split; [reflexivity|split; [left; reflexivity|discriminate]])
    | PRegCached ?o _ => left; cbn in R; destruct (cached s o) as [s1 [?|]] eqn:C; apply cached_tables in C; break_run; cbn; intuition congruence
    | PGetCached _ _ ?o => left; cbn in R; destruct (cached s o) as [s1 ?] eqn:C; apply cached_tables in C; break_run; cbn; intuition congruence
    | PInRun _ ?todo ?keep => left; cbn in R; destruct todo as [|y todo']; [destruct keep|]; break_run; cbn; auto
    | PSvcSet _ ?new => left; cbn in R; break_run; cbn; destruct new; auto
    | _ => left; cbn in R; break_run; cbn; rewrite ?No; auto
    end end.
Qed.

Record AInv (h : history) : Prop := MkAInv
  { a_nodup : NoDup (map fst (allocs (trace h)));
    a_pre : forall t p, nth_error (thr (final h)) t = Some p -> pre p = true -> ~ In t (map fst (allocs (trace h)));
    a_lt : forall t, In t (map fst (allocs (trace h))) -> t < length (thr (final h));
    a_cnt : few h -> counter (sh (final h)) = N.of_nat (length (allocs (trace h))) /\
                     map snd (allocs (trace h)) = map N.of_nat (seq 0 (length (allocs (trace h)))) }.

Lemma few_snoc h l : few (h ++ [l]) -> few h.
Proof. unfold few. rewrite calls_app, app_length. lia. Qed.

Lemma alloc_le h : AInv h -> length (allocs (trace h)) <= length (calls h).
Proof.
  intros [A B C D]. rewrite <- (i_len h (inv_final h)), <- (map_length fst).
  rewrite <- (seq_length (length (thr (final h))) 0). apply NoDup_incl_length; [exact A|].
  intros t H. apply in_seq. specialize (C t H). lia.
Qed.

Lemma ainv h : AInv h.
Proof.
  induction h as [|h c IH|h t w IH N F T|h t w p s' p' e IH N R F T] using hist_ind.
  - split; cbn; try constructor; try tauto; try reflexivity.
  - destruct IH as [A B C D]. split; rewrite ?snoc_call, ?trace_call; cbn [sh thr]; auto.
    + intros t p H J. rewrite nth_snoc in H. destruct (Nat.eqb_spec t (length (thr (final h)))); [|eauto].
      intros K. specialize (C t K). lia.
    + intros t H. rewrite app_length. cbn. specialize (C t H). lia.
    + intros Fw. apply D. eapply few_snoc. exact Fw.
  - destruct IH as [A B C D]. split; rewrite ?F, ?T; auto. intros Fw. apply D. eapply few_snoc. exact Fw.
  - pose proof (alloc_le h IH) as Le. destruct IH as [A B C D].
    assert (Fw : few (h ++ [LRun t w]) -> few h) by apply few_snoc.
    destruct (run1_alloc _ _ _ _ _ _ _ _ R) as [(E & K & P)|(E & K & K' & P & P')].
    + split; rewrite ?F, ?T, ?allocs_app, ?E, ?app_nil_r; cbn [sh thr]; auto.
      * intros t' q H J. rewrite (nth_set _ _ _ _ _ N) in H.
        destruct (Nat.eqb_spec t t'); [|eauto]. injection H as <-. subst t'.
        apply (B t p N). destruct (pre p); [reflexivity|]. rewrite P in J; [discriminate|reflexivity].
      * intros t' H. rewrite length_set_nth. auto.
      * intros Fh. specialize (D (Fw Fh)). destruct D as [D1 D2]. split; [|exact D2].
        destruct K as [K|K]; [congruence|]. exfalso. unfold rid_invalid in K. rewrite D1 in K. specialize (Fw Fh). unfold few in Fw. lia.
    + split; rewrite ?F, ?T, ?allocs_app, ?E, ?map_app; cbn [sh thr map fst snd].
      * apply (NoDup_Add (a := t) (l := map fst (allocs (trace h)))).
        -- rewrite <- (app_nil_r (map fst (allocs (trace h)))) at 1. apply Add_app.
        -- split; [exact A|]. eapply B; eauto.
      * intros t' q H J. rewrite (nth_set _ _ _ _ _ N) in H. rewrite in_app_iff. cbn.
        destruct (Nat.eqb_spec t t'); [injection H as <-; congruence|].
        intros [G|[G|[]]]; [eapply B; eauto|congruence].
      * intros t' H. rewrite length_set_nth. apply in_app_iff in H as [H|[<-|[]]]; [auto|eapply nth_lt; eauto].
      * intros Fh. destruct (D (Fw Fh)) as [D1 D2]. rewrite app_length. cbn [length].
        rewrite Nat.add_1_r, seq_S, map_app, D2, K', D1. cbn [map]. rewrite Nat.add_0_l. split; [|reflexivity].
        specialize (Fw Fh). unfold few in Fw. rewrite N.mod_small by lia. lia.
Qed.

Lemma nodup_fst_inj {A B} (l : list (A * B)) a b b' : NoDup (map fst l) -> In (a, b) l -> In (a, b') l -> b = b'.
Proof.
  induction l as [|[x y] l IH]; cbn; intros ND H H'; [contradiction|]. inversion ND as [|? ? Hn Hd]; subst.
  destruct H as [H|H], H' as [H'|H']; try congruence; [| |exact (IH Hd H H')]; exfalso; apply Hn.
  - injection H as -> ->. change a with (fst (a, b')). apply in_map. exact H'.
  - injection H' as -> ->. change a with (fst (a, b)). apply in_map. exact H.
Qed.
Lemma nodup_snd_inj {A B} (l : list (A * B)) a a' b : NoDup (map snd l) -> In (a, b) l -> In (a', b) l -> a = a'.
Proof.
  induction l as [|[x y] l IH]; cbn; intros ND H H'; [contradiction|]. inversion ND as [|? ? Hn Hd]; subst.
  destruct H as [H|H], H' as [H'|H']; try congruence; [| |exact (IH Hd H H')]; exfalso; apply Hn.
  - injection H as -> ->. change b with (snd (a', b)). apply in_map. exact H'.
  - injection H' as -> ->. change b with (snd (a, b)). apply in_map. exact H.
Qed.

Lemma one_id h t r r' : In (EAlloc t r) (trace h) -> In (EAlloc t r') (trace h) -> r = r'.
Proof. rewrite <- !in_allocs. apply nodup_fst_inj. apply a_nodup. apply ainv. Qed.

Lemma nodup_map_inj {A B} (f : A -> B) l : (forall x y, f x = f y -> x = y) -> NoDup l -> NoDup (map f l).
Proof.
  intros Hf. induction 1 as [|x l Hn Hd IH]; cbn; constructor; [|exact IH].
  intros I. apply in_map_iff in I as (y & E & J). apply Hf in E. congruence.
Qed.

Lemma ids_unique h t t' r : few h -> In (EAlloc t r) (trace h) -> In (EAlloc t' r) (trace h) -> t = t'.
Proof.
  intros Fw. rewrite <- !in_allocs. apply nodup_snd_inj. destruct (a_cnt h (ainv h) Fw) as [_ ->].
  apply nodup_map_inj; [apply Nnat.Nat2N.inj|apply seq_NoDup].
Qed.

Lemma id_valid h t r : In (EAlloc t r) (trace h) -> r <> rid_invalid.
Proof.
  induction h as [|h c IH|h t0 w IH N F T|h t0 w p s' p' e IH N R F T] using hist_ind; rewrite ?trace_call, ?T; auto.
  rewrite in_app_iff. intros [H|H]; [auto|].
  destruct (run1_alloc _ _ _ _ _ _ _ _ R) as [(E & _)|(E & K & _)]; apply in_allocs in H; rewrite E in H; [destruct H|].
  destruct H as [H|[]]. congruence.
Qed.
