From Verif Require Import SerModel SerSpec SerProofs.
Local Open Scope N_scope.

(** * Size *)
Lemma add32_mod a b : add32 a b mod two32 = (a + b) mod two32.
Proof. unfold add32. apply N.mod_mod. discriminate. Qed.
Lemma add32_mod_l a a' b b' :
  a mod two32 = a' mod two32 -> b mod two32 = b' mod two32 -> add32 a b mod two32 = (a' + b') mod two32.
Proof.
  intros Ha Hb. rewrite add32_mod, (N.add_mod a b), (N.add_mod a' b') by discriminate. rewrite Ha, Hb. reflexivity.
Qed.

Lemma fold_size {A} (f : A -> N) (g : A -> list byte) c :
  (forall e, In e c -> f e mod two32 = len (g e) mod two32) ->
  forall n m, n mod two32 = m mod two32 ->
  fold_left (fun n e => add32 n (f e)) c n mod two32 = (m + len (flat_map g c)) mod two32.
Proof.
  induction c as [|e c IH]; intros H n m Hn; cbn [fold_left flat_map].
  - rewrite len_nil, N.add_0_r. exact Hn.
  - rewrite (IH (fun e' He' => H e' (or_intror He')) _ (m + len (g e))).
    + rewrite len_app, N.add_assoc. reflexivity.
    + apply add32_mod_l; [exact Hn | apply H; left; reflexivity].
Qed.

Lemma len_flat_chars w (s : list N) : len (flat_map (le w) s) = len s * N.of_nat w.
Proof. apply len_flat_le. Qed.

Lemma ssize_mod_all :
  (forall t v, has_size t = true -> ssize t v mod two32 = len (enc t v) mod two32) /\
  (forall l v, has_sizes l = true -> forall a b, a mod two32 = b mod two32 ->
     ssizes l a v mod two32 = (b + len (encs l v)) mod two32).
Proof.
  apply ty_tys_ind.
  - intros w sg v _. cbn [ssize enc]. destruct v; rewrite len_le; reflexivity.
  - intros w v _. cbn [ssize enc]. unfold count4. rewrite len_app, len_le, len_flat_le.
    apply add32_mod_l; [reflexivity | apply N.mod_mod; discriminate].
  - intros t IH v H. cbn [ssize enc has_size] in *. unfold count4. rewrite len_app, len_le.
    apply add32_mod_l; [reflexivity|].
    rewrite (fold_size (ssize t) (enc t) v (fun e _ => IH e H) 0 0 eq_refl). reflexivity.
  - intros t IH v H. cbn [ssize enc has_size] in *. unfold count4. rewrite len_app, len_le.
    apply add32_mod_l; [reflexivity|].
    rewrite (fold_size (ssize t) (enc t) v (fun e _ => IH e H) 0 0 eq_refl). reflexivity.
  - intros k IHk v IHv c H. cbn [ssize enc has_size] in *. apply andb_true_iff in H as [Hk Hv].
    unfold count4. rewrite len_app, len_le.
    apply add32_mod_l; [reflexivity|].
    rewrite (fold_size (fun e => add32 (ssize k (fst e)) (ssize v (snd e)))
                       (fun e => enc k (fst e) ++ enc v (snd e)) c) with (m := 0); [reflexivity| |reflexivity].
    intros e _. rewrite len_app. apply add32_mod_l; auto.
  - intros a IHa b IHb v H. cbn [ssize enc has_size] in *. apply andb_true_iff in H as [Ha Hb].
    rewrite len_app. apply add32_mod_l; auto.
  - intros l IH v H. cbn [ssize enc has_size] in *. rewrite (IH v H 0 0 eq_refl). reflexivity.
  - intros l IH v H. cbn [ssize enc has_size] in *. rewrite (IH v H 0 0 eq_refl). reflexivity.
  - intros sm t IH v H. cbn [ssize enc has_size] in *. destruct v as [v|]; [|reflexivity].
    rewrite len_cons. apply add32_mod_l; auto.
  - intros t _ l _ v H. discriminate.
  - intros v _ a b H. cbn [ssizes encs]. rewrite len_nil, N.add_0_r. exact H.
  - intros t IH l IHl v H a b Hab. cbn [ssizes encs has_sizes] in *. apply andb_true_iff in H as [Ht Hl].
    rewrite (IHl (snd v) Hl _ (b + len (enc t (fst v)))).
    + rewrite len_app, N.add_assoc. reflexivity.
    + apply add32_mod_l; auto.
Qed.

Lemma ssizes_small l v a : a < two32 -> ssizes l a v < two32.
Proof.
  revert v a. induction l as [|t l IH]; intros v a H; cbn [ssizes]; [exact H|].
  apply IH. apply N.mod_lt. discriminate.
Qed.

Lemma ssize_exact t v : has_size t = true -> len (enc t v) < two32 -> ssize t v = len (enc t v).
Proof.
  intros H Hl. destruct (ssize_mod_all) as [S _]. specialize (S t v H).
  rewrite (N.mod_small (len _)) in S by exact Hl.
  assert (A : forall a b, add32 a b < two32) by (intros; apply N.mod_lt; discriminate).
  destruct t; cbn [ssize] in *; try (rewrite N.mod_small in S; [exact S | first [apply A | apply ssizes_small; reflexivity]]).
  - cbn [enc]. destruct v; rewrite len_le; reflexivity.
  - destruct v; [rewrite N.mod_small in S; [exact S|apply A] | cbn; reflexivity].
  - discriminate.
Qed.

(** * Stickiness of failure *)
Definition dead (s : istream) : Prop := igood s = false /\ ifail s = true.

Lemma read_dead s n s' r : dead s -> read s n = (s', r) -> dead s' /\ r = None.
Proof. intros [Hg Hf] E. unfold read in E. rewrite Hg in E. inversion E; subst. repeat split. Qed.

Lemma de_size_dead s ok n s' : dead s -> de_size s = (ok, n, s') -> dead s' /\ ok = false.
Proof.
  intros H E. unfold de_size in E. destruct (read s 4) as [s1 r] eqn:R.
  destruct (read_dead _ _ _ _ H R) as [D ->]. inversion E; subst. split; [exact D|].
  destruct D as [_ ->]. reflexivity.
Qed.

Lemma de_loop_dead {A} (d : istream -> dres A) add :
  (forall s ok v s', dead s -> d s = (ok, v, s') -> dead s') ->
  forall n b c s ok v s', dead s -> de_loop d add n b c s = (ok, v, s') -> dead s'.
Proof.
  intros Hd n. induction n as [|n IH]; intros b c s ok v s' H E; cbn [de_loop] in E.
  - inversion E; subst; exact H.
  - destruct (d s) as [[ok1 e] s1] eqn:D. pose proof (Hd _ _ _ _ H D) as H1.
    destruct (b || ok1).
    + eapply IH; eauto.
    + inversion E; subst; exact H1.
Qed.

Lemma de_iter_dead {A} (d : istream -> dres A) add old s ok v s' :
  dead s -> de_iter d add old s = (ok, v, s') -> dead s' /\ ok = false.
Proof.
  intros H E. unfold de_iter in E. destruct (de_size s) as [[o n] s1] eqn:S.
  destruct (de_size_dead _ _ _ _ H S) as [D ->]. cbn [andb] in E. inversion E; subst. auto.
Qed.

Lemma de_pair_dead {A B} (da : A -> istream -> dres A) (db : B -> istream -> dres B) :
  (forall o s ok v s', dead s -> da o s = (ok, v, s') -> dead s') ->
  (forall o s ok v s', dead s -> db o s = (ok, v, s') -> dead s') ->
  forall old s ok v s', dead s -> de_pair da db old s = (ok, v, s') -> dead s'.
Proof.
  intros Ha Hb old s ok v s' H E. unfold de_pair in E.
  destruct (da (fst old) s) as [[ok1 a] s1] eqn:E1. pose proof (Ha _ _ _ _ _ H E1) as D1.
  destruct ok1; [|inversion E; subst; exact D1].
  destruct (db (snd old) s1) as [[ok2 b] s2] eqn:E2. pose proof (Hb _ _ _ _ _ D1 E2).
  inversion E; subst. assumption.
Qed.

Lemma de_rawptr_dead {A} (d : A -> istream -> dres A) f s ok v s' :
  dead s -> de_rawptr d f s = (ok, v, s') -> dead s'.
Proof.
  intros H E. unfold de_rawptr in E. destruct (read s 1) as [s1 r] eqn:R.
  destruct (read_dead _ _ _ _ H R) as [D ->]. cbn in E. inversion E; subst; exact D.
Qed.

Lemma de_dead_all :
  (forall t o s ok v s', dead s -> de t o s = (ok, v, s') -> dead s') /\
  (forall l, (forall b o s ok v s', dead s -> de_tup l b o s = (ok, v, s') -> dead s') /\
             (forall i B inj o s ok v s', dead s -> de_alt l i B inj o s = (ok, v, s') -> dead s')).
Proof.
  apply ty_tys_ind.
  - intros w sg o s ok v s' H E. cbn [de] in E. unfold de_num in E.
    destruct (read s (N.of_nat w)) as [s1 r] eqn:R. destruct (read_dead _ _ _ _ H R) as [D _].
    inversion E; subst; exact D.
  - intros w o s ok v s' H E. cbn [de] in E. unfold de_str in E.
    destruct (de_size s) as [[o1 n] s1] eqn:S. destruct (de_size_dead _ _ _ _ H S) as [D ->].
    inversion E; subst; exact D.
  - intros t _ o s ok v s' H E. cbn [de] in E. eapply de_iter_dead in E; tauto.
  - intros t _ o s ok v s' H E. cbn [de] in E. eapply de_iter_dead in E; tauto.
  - intros t _ t2 _ o s ok v s' H E. cbn [de] in E. eapply de_iter_dead in E; tauto.
  - intros a IHa b IHb o s ok v s' H E. cbn [de] in E. eapply de_pair_dead in E; eauto.
  - intros l [IH _] o s ok v s' H E. eapply IH; eauto.
  - intros l [IH _] o s ok v s' H E. eapply IH; eauto.
  - intros sm t IH o s ok v s' H E. destruct sm; cbn [de] in E.
    + unfold de_smartptr in E. destruct (de_rawptr _ _ s) as [[ok1 p] s1] eqn:R.
      apply de_rawptr_dead in R; [|exact H]. destruct ok1; inversion E; subst; exact R.
    + eapply de_rawptr_dead; eauto.
  - intros t IH l [_ IHl] o s ok v s' H E. cbn [de] in E.
    destruct (de_size s) as [[o1 n] s1] eqn:S. destruct (de_size_dead _ _ _ _ H S) as [D ->].
    inversion E; subst; exact D.
  - split.
    + intros b o s ok v s' H E. cbn [de_tup] in E. inversion E; subst; exact H.
    + intros i B inj o s ok v s' H E. cbn [de_alt] in E. inversion E; subst; exact H.
  - intros t IH l [IHs IHa]. split.
    + intros b o s ok v s' H E. cbn [de_tup] in E.
      destruct (de t (fst o) s) as [[ok1 a] s1] eqn:E1. pose proof (IH _ _ _ _ _ H E1) as D.
      destruct (de_tup l (b || ok1) (snd o) s1) as [[ok2 r] s2] eqn:E2. pose proof (IHs _ _ _ _ _ _ D E2).
      inversion E; subst; assumption.
    + intros i B inj o s ok v s' H E. cbn [de_alt] in E. destruct (i =? 0).
      * unfold de_altval in E. destruct (de t (dinit t) s) as [[ok1 e] s1] eqn:E1.
        pose proof (IH _ _ _ _ _ H E1). destruct ok1; inversion E; subst; assumption.
      * eapply IHa; eauto.
Qed.

Lemma de_dead t o s ok v s' : dead s -> de t o s = (ok, v, s') -> dead s'.
Proof. apply de_dead_all. Qed.

(** * Reading from a stream that holds too little *)
Lemma read_short s bs n :
  unread s bs -> len bs < n -> n < max_buffer ->
  exists s', read s n = (s', None) /\ dead s'.
Proof.
  intros (Hg & Hf & Ho & Hp & Hs & Hm) Hn Hmax. unfold read. rewrite Hg. cbv zeta.
  assert (E : (ipos s + n) mod two64 = ipos s + n).
  { apply N.mod_small. unfold two64, max_buffer in *. change (2 ^ 64) with (2 * 2 ^ 63). lia. }
  rewrite E. replace (len (ibuf s) <? ipos s + n) with true by (symmetry; apply N.ltb_lt; lia).
  eexists; split; [reflexivity|]. split; reflexivity.
Qed.

Lemma de_size_short s bs : unread s bs -> len bs < 4 ->
  exists s', de_size s = (false, 0, s') /\ dead s'.
Proof.
  intros Hu Hl. destruct (read_short _ _ 4 Hu Hl) as (s' & E & D); [reflexivity|].
  exists s'. unfold de_size. rewrite E. destruct D as [Dg Df]. rewrite Df. repeat split; auto.
Qed.

(** Splitting a strict prefix of a concatenation. *)
Lemma prefix_split {A} (p q a b : list A) : p ++ q = a ++ b ->
  (exists q', q' <> [] /\ p ++ q' = a /\ q = q' ++ b) \/ (exists p', p = a ++ p' /\ p' ++ q = b).
Proof.
  revert a. induction p as [|x p IH]; intros a E.
  - destruct a as [|y a].
    + right. exists []. auto.
    + left. exists (y :: a). repeat split; [discriminate|]. exact E.
  - destruct a as [|y a].
    + right. exists (x :: p). auto.
    + cbn in E. inversion E; subst. destruct (IH a) as [(q' & ? & ? & ?)|(p' & ? & ?)]; auto.
      * left. exists q'. subst. repeat split; auto.
      * right. exists p'. subst. auto.
Qed.

Definition starves t := forall v o s p q ok w s',
  fits t v = true -> p ++ q = enc t v -> q <> [] -> len (enc t v) < max_buffer ->
  unread s p -> de t o s = (ok, w, s') -> dead s'.

Lemma len_lt_of_split {A} (p q : list A) : q <> [] -> len p < len (p ++ q).
Proof. intros H. destruct q; [contradiction|]. rewrite len_app, len_cons. lia. Qed.

Lemma de_loop_starves {A} (d : istream -> dres A) add (g : A -> list byte) :
  (forall s ok v s', dead s -> d s = (ok, v, s') -> dead s') ->
  forall c,
  (forall e, In e c -> forall s p q ok w s', p ++ q = g e -> q <> [] -> unread s p -> d s = (ok, w, s') -> dead s') ->
  (forall e, In e c -> forall s rest, unread s (g e ++ rest) ->
     exists ok s', d s = (ok, e, s') /\ unread s' rest /\ ibuf s' = ibuf s) ->
  forall old s p q ok w s', p ++ q = flat_map g c -> q <> [] -> unread s p ->
  de_loop d add (length c) true old s = (ok, w, s') -> dead s'.
Proof.
  intros Hdead c. induction c as [|e c IH]; intros Hst Hok old s p q ok w s' E Hq Hu D.
  - cbn in E. apply app_eq_nil in E as [_ E]. contradiction.
  - cbn [flat_map] in E. cbn [length de_loop] in D.
    destruct (d s) as [[ok1 e1] s1] eqn:D1. cbn [orb] in D.
    apply prefix_split in E as [(q' & Hq' & E1 & _)|(p' & -> & E2)].
    + assert (Hd1 : dead s1) by (eapply (Hst e); [left; reflexivity| exact E1 | exact Hq' | exact Hu | exact D1]).
      eapply de_loop_dead; eauto.
    + destruct (Hok e (or_introl eq_refl) s p' Hu) as (ok2 & s2 & E3 & Hu2 & _).
      rewrite D1 in E3. inversion E3; subst.
      eapply IH; eauto; intros; [eapply Hst | eapply Hok]; eauto; right; assumption.
Qed.

Lemma de_iter_starves {A} (d : istream -> dres A) add (g : A -> list byte) c :
  len c < two32 ->
  (forall s ok v s', dead s -> d s = (ok, v, s') -> dead s') ->
  (forall e, In e c -> forall s p q ok w s', p ++ q = g e -> q <> [] -> unread s p -> d s = (ok, w, s') -> dead s') ->
  (forall e, In e c -> forall s rest, unread s (g e ++ rest) ->
     exists ok s', d s = (ok, e, s') /\ unread s' rest /\ ibuf s' = ibuf s) ->
  forall old s p q ok w s', p ++ q = le 4 (len c) ++ flat_map g c -> q <> [] -> unread s p ->
  de_iter d add old s = (ok, w, s') -> dead s'.
Proof.
  intros Hc Hdead Hst Hok old s p q ok w s' E Hq Hu D. unfold de_iter in D.
  apply prefix_split in E as [(q' & Hq' & E1 & _)|(p' & -> & E2)].
  - destruct (de_size_short s p Hu) as (s1 & E3 & D1).
    { pose proof (len_lt_of_split p q' Hq'). rewrite E1, len_le in H. exact H. }
    rewrite E3 in D. cbn [andb] in D. inversion D; subst; exact D1.
  - destruct (de_size_ok _ _ _ Hc Hu) as (s1 & E3 & Hu1 & _). rewrite E3 in D.
    destruct c as [|e c].
    + cbn in E2. apply app_eq_nil in E2 as [_ E2]. contradiction.
    + replace (0 <? len (e :: c)) with true in D by (symmetry; apply N.ltb_lt; rewrite len_cons; lia).
      cbn [andb] in D. rewrite to_nat_len in D.
      eapply (de_loop_starves d add g Hdead (e :: c)); eauto.
Qed.

Lemma de_pair_starves a b :
  readable a = true -> readable b = true -> starves a -> starves b -> forall v old s p q ok w s',
  fits a (fst v) = true -> fits b (snd v) = true ->
  p ++ q = enc a (fst v) ++ enc b (snd v) -> q <> [] ->
  len (enc a (fst v) ++ enc b (snd v)) < max_buffer -> unread s p ->
  de_pair (de a) (de b) old s = (ok, w, s') -> dead s'.
Proof.
  intros Hra Hrb Sa Sb v old s p q ok w s' Ha Hb E Hq Hmax Hu D. unfold de_pair in D.
  rewrite len_app in Hmax.
  destruct (de a (fst old) s) as [[ok1 x] s1] eqn:D1.
  apply prefix_split in E as [(q' & Hq' & E1 & _)|(p' & -> & E2)].
  - assert (Hd1 : dead s1) by (eapply Sa; [exact Ha|exact E1|exact Hq'|lia|exact Hu|exact D1]).
    destruct ok1; [|inversion D; subst; exact Hd1].
    destruct (de b (snd old) s1) as [[ok2 y] s2] eqn:D2. pose proof (de_dead _ _ _ _ _ _ Hd1 D2).
    inversion D; subst; assumption.
  - destruct (reads_back_ok a Hra _ (fst old) _ _ Ha Hu) as (s1' & E3 & Hu1 & _). rewrite D1 in E3.
    inversion E3; subst. destruct (de b (snd old) s1') as [[ok2 y] s2] eqn:D2.
    inversion D; subst. eapply Sb; [exact Hb|exact E2|exact Hq|lia|exact Hu1|exact D2].
Qed.

Lemma len_flat_in {A} (g : A -> list byte) c e : In e c -> len (g e) <= len (flat_map g c).
Proof.
  induction c as [|x c IH]; intros []; cbn [flat_map]; rewrite len_app.
  - subst; lia.
  - specialize (IH H); lia.
Qed.

Lemma starves_all :
  (forall t, readable t = true -> starves t) /\
  (forall l, readables l = true ->
     (forall v o b s p q ok w s', fits_all l v = true -> p ++ q = encs l v -> q <> [] ->
        len (encs l v) < max_buffer -> unread s p -> de_tup l b o s = (ok, w, s') -> dead s') /\
     (forall v i s p q B (inj : sumt l -> B) old, fits_alt l v = true ->
        0 < i -> i + count_tys l <= two32 -> len (enc_alt l i v) < max_buffer ->
        p ++ q = enc_alt l i v -> q <> [] -> unread s p ->
        (exists n s', de_size s = (false, n, s') /\ dead s') \/
        (exists idx s1, de_size s = (true, idx, s1) /\ i <= idx /\
           forall ok w s', de_alt l (idx - i) B inj old s1 = (ok, w, s') -> dead s'))).
Proof.
  apply ty_tys_ind.
  - intros w sg _ v o s p q ok w' s' Hf E Hq Hmax Hu D. cbn [de enc] in *.
    destruct v as [n|]; [|discriminate].
    pose proof (len_lt_of_split p q Hq) as L. rewrite E, len_le in L. rewrite len_le in Hmax.
    destruct (read_short _ _ _ Hu L Hmax) as (s1 & R & D1).
    unfold de_num in D. rewrite R in D. inversion D; subst; exact D1.
  - intros w _ v o s p q ok w' s' Hf E Hq Hmax Hu D. cbn [de enc fits] in *. unfold count4 in *.
    apply andb_true_iff in Hf as [Hl _]. apply N.ltb_lt in Hl. rewrite len_app, len_flat_le in Hmax.
    unfold de_str in D.
    apply prefix_split in E as [(q' & Hq' & E1 & _)|(p' & -> & E2)].
    + destruct (de_size_short s p Hu) as (s1 & E3 & D1).
      { pose proof (len_lt_of_split p q' Hq'). rewrite E1, len_le in H. exact H. }
      rewrite E3 in D. inversion D; subst; exact D1.
    + destruct (de_size_ok _ _ _ Hl Hu) as (s1 & E3 & Hu1 & _). rewrite E3 in D.
      destruct v as [|c v].
      * cbn in E2. apply app_eq_nil in E2 as [_ E2]. contradiction.
      * replace (0 <? len (c :: v)) with true in D by (symmetry; apply N.ltb_lt; rewrite len_cons; lia).
        pose proof (len_lt_of_split p' q Hq) as L. rewrite E2, len_flat_le in L.
        destruct (read_short _ _ _ Hu1 L) as (s2 & R & D1); [lia|].
        rewrite R in D. inversion D; subst; exact D1.
  - intros t IH Hr v o s p q ok w' s' Hf E Hq Hmax Hu D. cbn [readable de enc fits] in *. unfold count4 in *.
    apply andb_true_iff in Hf as [Hl Hc]. apply N.ltb_lt in Hl. rewrite len_app in Hmax.
    eapply (de_iter_starves (fun s => de t (dinit t) s) push_back (enc t) v Hl); eauto.
    + intros; eapply de_dead; eauto.
    + intros e He s0 p0 q0 ok0 w0 s0' E0 Hq0 Hu0 D0.
      pose proof (len_flat_in (enc t) v e He).
      eapply (IH Hr); eauto; [eapply in_forallb; eauto | lia].
    + intros e He s0 rest0 Hu0. pose proof (in_forallb _ _ _ Hc He) as Hfe.
      destruct (reads_back_ok t Hr e (dinit t) s0 rest0 Hfe Hu0) as (s1 & E1 & ? & ?).
      rewrite (merged_dinit _ _ Hfe) in E1. exists true, s1. auto.
  - intros t IH Hr v o s p q ok w' s' Hf E Hq Hmax Hu D. cbn [readable de enc fits] in *. unfold count4 in *.
    apply andb_true_iff in Hf as [Hf _]. apply andb_true_iff in Hf as [Hl Hc]. apply N.ltb_lt in Hl.
    rewrite len_app in Hmax.
    eapply (de_iter_starves (fun s => de t (dinit t) s) _ (enc t) v Hl); eauto.
    + intros; eapply de_dead; eauto.
    + intros e He s0 p0 q0 ok0 w0 s0' E0 Hq0 Hu0 D0.
      pose proof (len_flat_in (enc t) v e He).
      eapply (IH Hr); eauto; [eapply in_forallb; eauto | lia].
    + intros e He s0 rest0 Hu0. pose proof (in_forallb _ _ _ Hc He) as Hfe.
      destruct (reads_back_ok t Hr e (dinit t) s0 rest0 Hfe Hu0) as (s1 & E1 & ? & ?).
      rewrite (merged_dinit _ _ Hfe) in E1. exists true, s1. auto.
  - intros k IHk v IHv Hr c o s p q ok w' s' Hf E Hq Hmax Hu D. cbn [readable de enc fits] in *. unfold count4 in *.
    apply andb_true_iff in Hr as [Hrk Hrv].
    apply andb_true_iff in Hf as [Hf _]. apply andb_true_iff in Hf as [Hl Hc]. apply N.ltb_lt in Hl.
    rewrite len_app in Hmax.
    eapply (de_iter_starves (fun s => de_pair (de k) (de v) (vinit k, vinit v) s) _
              (fun e => enc k (fst e) ++ enc v (snd e)) c Hl); eauto.
    + intros s0 ok0 v0 s0' H0 D0. eapply de_pair_dead in D0; eauto; intros; eapply de_dead; eauto.
    + intros e He s0 p0 q0 ok0 w0 s0' E0 Hq0 Hu0 D0.
      pose proof (len_flat_in (fun e => enc k (fst e) ++ enc v (snd e)) c e He) as L. cbv beta in L.
      pose proof (in_forallb _ _ _ Hc He) as Hfe. cbv beta in Hfe. apply andb_true_iff in Hfe as [Hf1 Hf2].
      eapply (de_pair_starves k v Hrk Hrv (IHk Hrk) (IHv Hrv) e); eauto. lia.
    + intros e He s0 rest0 Hu0. pose proof (in_forallb _ _ _ Hc He) as Hfe. cbv beta in Hfe.
      apply andb_true_iff in Hfe as [Hf1 Hf2]. rewrite <- app_assoc in Hu0.
      destruct (de_pair_ok k v (reads_back_ok k Hrk) (reads_back_ok v Hrv) e (vinit k, vinit v) s0 rest0 Hf1 Hf2 Hu0)
        as (s1 & E1 & ? & ?).
      cbn [fst snd] in E1. rewrite (merged_vinit _ _ Hf1), (merged_vinit _ _ Hf2) in E1.
      exists true, s1. rewrite E1. destruct e; auto.
  - intros a IHa b IHb Hr v o s p q ok w' s' Hf E Hq Hmax Hu D. cbn [readable de enc fits] in *.
    apply andb_true_iff in Hr as [Hra Hrb]. apply andb_true_iff in Hf as [Hfa Hfb].
    eapply (de_pair_starves a b Hra Hrb (IHa Hra) (IHb Hrb)); eauto.
  - intros l IH Hr v o s p q ok w' s' Hf E Hq Hmax Hu D. cbn [readable] in Hr.
    destruct l as [|t l]; [discriminate|]. destruct (IH Hr) as [IHs _]. eapply IHs; eauto.
  - intros l IH Hr v o s p q ok w' s' Hf E Hq Hmax Hu D. cbn [readable] in Hr.
    destruct l as [|t l]; [discriminate|]. destruct (IH Hr) as [IHs _]. eapply IHs; eauto.
  - intros sm t IH Hr v o s p q ok w' s' Hf E Hq Hmax Hu D. cbn [readable] in Hr.
    assert (R : forall okr wr sr, de_rawptr (de t) (vinit t) s = (okr, wr, sr) -> dead sr).
    { intros okr wr sr R. unfold de_rawptr in R. destruct p as [|x p].
      - destruct (read_short s [] 1 Hu) as (s1 & R1 & D1); [reflexivity|reflexivity|].
        rewrite R1 in R. cbn in R. inversion R; subst; exact D1.
      - destruct v as [v|]; cbn [enc fits] in *.
        + cbn [app] in E. inversion E; subst x.
          change (x01 :: p) with ([x01] ++ p) in Hu.
          destruct (read_ok _ _ _ Hu) as (s1 & R1 & Hu1 & _). change (len [x01]) with 1 in R1.
          rewrite R1 in R. cbn [un_le] in R. change (Byte.to_N x01 + 256 * 0 =? 0) with false in R. cbv iota in R.
          destruct (de t (vinit t) s1) as [[ok2 x2] s2] eqn:D2.
          rewrite len_cons in Hmax.
          assert (D3 : dead s2) by (eapply (IH Hr); eauto; lia).
          destruct ok2; inversion R; subst; exact D3.
        + cbn [app] in E. inversion E as [[E1 E2]]. apply app_eq_nil in E2 as [_ E2]. contradiction. }
    destruct sm; cbn [de] in D; [|eapply R; eauto].
    unfold de_smartptr in D. destruct (de_rawptr _ _ s) as [[ok1 p1] s1] eqn:R1. specialize (R _ _ _ eq_refl).
    destruct ok1; inversion D; subst; exact R.
  - intros t IH l IHl Hr v o s p q ok w' s' Hf E Hq Hmax Hu D. cbn [readable fits enc de] in *.
    apply andb_true_iff in Hr as [Hr Hcount]. apply andb_true_iff in Hr as [Hrt Hrl].
    apply N.ltb_lt in Hcount. fold two32 in Hcount. destruct (IHl Hrl) as [_ IHa].
    destruct v as [v|v].
    + unfold count4 in *. rewrite len_app in Hmax.
      apply prefix_split in E as [(q' & Hq' & E1 & _)|(p' & -> & E2)].
      * destruct (de_size_short s p Hu) as (s1 & E3 & D1).
        { pose proof (len_lt_of_split p q' Hq'). rewrite E1, len_le in H. exact H. }
        rewrite E3 in D. inversion D; subst; exact D1.
      * destruct (de_size_ok _ 0 _ ltac:(reflexivity) Hu) as (s1 & E3 & Hu1 & _). rewrite E3 in D.
        cbn [N.eqb] in D. unfold de_altval in D.
        destruct (de t (dinit t) s1) as [[ok2 x2] s2] eqn:D2.
        assert (D3 : dead s2) by (eapply (IH Hrt); eauto; lia).
        destruct ok2; inversion D; subst; exact D3.
    + destruct (IHa v 1 s p q _ inr o Hf) as [(n & s1 & E3 & D1)|(idx & s1 & E3 & Hi & Hd)]; auto; try lia.
      * rewrite E3 in D. inversion D; subst; exact D1.
      * rewrite E3 in D. replace (idx =? 0) with false in D by (symmetry; apply N.eqb_neq; lia).
        eapply Hd; eauto.
  - intros _. split.
    + intros v o b s p q ok w s' _ E Hq. cbn in E. apply app_eq_nil in E as [_ E]. contradiction.
    + intros [].
  - intros t IH l IHl Hr. cbn [readables] in Hr. apply andb_true_iff in Hr as [Hrt Hrl].
    destruct (IHl Hrl) as [IHs IHa]. split.
    + intros v o b s p q ok w s' Hf E Hq Hmax Hu D. cbn [fits_all encs de_tup] in *.
      apply andb_true_iff in Hf as [Hft Hfl]. rewrite len_app in Hmax.
      destruct (de t (fst o) s) as [[ok1 x] s1] eqn:D1.
      destruct (de_tup l (b || ok1) (snd o) s1) as [[ok2 y] s2] eqn:D2.
      inversion D; subst.
      apply prefix_split in E as [(q' & Hq' & E1 & _)|(p' & -> & E2)].
      * assert (Hd1 : dead s1) by (eapply (IH Hrt); eauto; lia).
        destruct de_dead_all as [_ A]. destruct (A l) as [A1 _]. eapply A1; eauto.
      * destruct (reads_back_ok t Hrt _ (fst o) _ _ Hft Hu) as (s1' & E3 & Hu1 & _). rewrite D1 in E3.
        inversion E3; subst. eapply IHs; eauto. lia.
    + intros v i s p q B inj old Hf Hi0 Hi Hmax E Hq Hu. cbn [fits_alt enc_alt de_alt count_tys] in *.
      destruct v as [v|v].
      * unfold count4 in *. rewrite len_app in Hmax.
        apply prefix_split in E as [(q' & Hq' & E1 & _)|(p' & -> & E2)].
        -- left. destruct (de_size_short s p Hu) as (s1 & E3 & D1).
           { pose proof (len_lt_of_split p q' Hq'). rewrite E1, len_le in H. exact H. }
           eauto.
        -- right. assert (Hlt : i < two32) by lia.
           destruct (de_size_ok _ _ _ Hlt Hu) as (s1 & E3 & Hu1 & _).
           exists i, s1. split; [exact E3|]. split; [lia|]. intros ok w s' D.
           rewrite N.sub_diag in D. cbn [N.eqb] in D. unfold de_altval in D.
           destruct (de t (dinit t) s1) as [[ok2 x2] s2] eqn:D2.
           assert (D3 : dead s2) by (eapply (IH Hrt); eauto; lia).
           destruct ok2; inversion D; subst; exact D3.
      * destruct (IHa v (i + 1) s p q B (fun b => inj (inr b)) old Hf)
          as [?|(idx & s1 & E3 & Hidx & Hd)]; auto; try lia.
        right. exists idx, s1. split; [exact E3|]. split; [lia|]. intros ok w s' D.
        replace (idx - i =? 0) with false in D by (symmetry; apply N.eqb_neq; lia).
        replace (idx - i - 1) with (idx - (i + 1)) in D by lia. eapply Hd; eauto.
Qed.
