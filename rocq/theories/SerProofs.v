From Verif Require Import SerModel SerSpec.
Local Open Scope N_scope.
Arguments N.add : simpl never.
Arguments N.mul : simpl never.
Arguments N.modulo : simpl never.
Arguments N.pow : simpl never.
Arguments le : simpl never.

(** * Arithmetic of lengths *)
Lemma len_app {A} (a b : list A) : len (a ++ b) = len a + len b.
Proof. unfold len. rewrite app_length. lia. Qed.
Lemma len_cons {A} (a : A) b : len (a :: b) = 1 + len b.
Proof. unfold len. simpl length. lia. Qed.
Lemma len_nil {A} : len (@nil A) = 0. Proof. reflexivity. Qed.
Lemma len_le w n : len (le w n) = N.of_nat w.
Proof. unfold len. rewrite le_length. reflexivity. Qed.
Lemma to_nat_len {A} (l : list A) : N.to_nat (len l) = length l.
Proof. unfold len. lia. Qed.
Lemma pow4 : 256 ^ N.of_nat 4 = two32. Proof. reflexivity. Qed.

(** * Output side *)
Definition at_end (d : list byte) : ostream := OS d (length d).

Lemma write_at_end d bs : write (at_end d) bs = at_end (d ++ bs).
Proof.
  unfold write, at_end. cbn [odata opos].
  rewrite app_length. f_equal.
  destruct bs as [|b bs].
  - simpl length. rewrite Nat.add_0_r, Nat.ltb_irrefl, firstn_all, skipn_all. reflexivity.
  - replace (Nat.ltb (length d) (length d + length (b :: bs))) with true
      by (symmetry; apply Nat.ltb_lt; simpl; lia).
    rewrite firstn_app, firstn_all, Nat.sub_diag, firstn_O, app_nil_r.
    rewrite skipn_all2; [rewrite app_nil_r; reflexivity|].
    rewrite app_length, repeat_length. simpl. lia.
Qed.

Lemma ser_size_at_end d n : ser_size n (at_end d) = at_end (d ++ le 4 n).
Proof. unfold ser_size. rewrite write_at_end. rewrite (le_mod 4 n), pow4. reflexivity. Qed.

Lemma firstn4_le8 n : firstn 4 (le 8 n) = le 4 n.
Proof. reflexivity. Qed.

Lemma chars_flat w s : chars w s = flat_map (le w) s.
Proof. unfold chars. rewrite flat_map_concat_map. reflexivity. Qed.

Lemma fold_ser {A} (f : A -> ostream -> ostream) (g : A -> list byte) :
  (forall a d, f a (at_end d) = at_end (d ++ g a)) ->
  forall c d, fold_left (fun o e => f e o) c (at_end d) = at_end (d ++ flat_map g c).
Proof.
  intros H c. induction c as [|a c IH]; intros d; cbn [fold_left flat_map].
  - rewrite app_nil_r. reflexivity.
  - rewrite H, IH, app_assoc. reflexivity.
Qed.

Lemma ser_enc_all :
  (forall t v d, ser t v (at_end d) = at_end (d ++ enc t v)) /\
  (forall l, (forall v d, sers l v (at_end d) = at_end (d ++ encs l v)) /\
             (forall v i d, ser_alt l i v (at_end d) = at_end (d ++ enc_alt l i v))).
Proof.
  apply ty_tys_ind.
  - intros w sg v d. cbn [ser enc]. unfold ser_num. rewrite write_at_end. destruct v; reflexivity.
  - intros w v d. cbn [ser enc]. unfold ser_str. rewrite write_at_end, firstn4_le8.
    unfold count4. destruct v as [|c v].
    + cbn [flat_map]. rewrite app_nil_r. reflexivity.
    + rewrite write_at_end, chars_flat, app_assoc. reflexivity.
  - intros t IH v d. cbn [ser enc]. rewrite ser_size_at_end.
    rewrite (fold_ser _ _ IH), <- app_assoc. reflexivity.
  - intros t IH v d. cbn [ser enc]. rewrite ser_size_at_end.
    rewrite (fold_ser _ _ IH), <- app_assoc. reflexivity.
  - intros k IHk v IHv c d. cbn [ser enc]. rewrite ser_size_at_end.
    rewrite (fold_ser (fun e o => ser v (snd e) (ser k (fst e) o))
                      (fun e => enc k (fst e) ++ enc v (snd e))).
    + rewrite <- app_assoc. reflexivity.
    + intros a d'. rewrite IHk, IHv, app_assoc. reflexivity.
  - intros a IHa b IHb v d. cbn [ser enc]. rewrite IHa, IHb, app_assoc. reflexivity.
  - intros l [IH _] v d. exact (IH v d).
  - intros l [IH _] v d. exact (IH v d).
  - intros sm t IH v d. cbn [ser enc]. destruct v as [v|]; rewrite write_at_end.
    + rewrite IH, <- app_assoc. reflexivity.
    + reflexivity.
  - intros t IH l [_ IHl] v d. cbn [ser enc]. destruct v as [v|v].
    + rewrite ser_size_at_end, IH, <- app_assoc. reflexivity.
    + apply IHl.
  - split; [intros v d; cbn [sers encs]; rewrite app_nil_r; reflexivity | intros []].
  - intros t IH l [IHs IHa]. split.
    + intros v d. cbn [sers encs]. rewrite IH, IHs, app_assoc. reflexivity.
    + intros v i d. cbn [ser_alt enc_alt]. destruct v as [v|v].
      * rewrite ser_size_at_end, IH, <- app_assoc. reflexivity.
      * apply IHa.
Qed.

Lemma ser_enc t v d : ser t v (at_end d) = at_end (d ++ enc t v).
Proof. apply ser_enc_all. Qed.

(** * Input side *)
Lemma slice_prefix (b : list byte) p bs rest :
  skipn (N.to_nat p) b = bs ++ rest -> slice b p (len bs) = bs.
Proof.
  intros H. unfold slice. rewrite H, to_nat_len, firstn_app, firstn_all, Nat.sub_diag, firstn_O, app_nil_r.
  reflexivity.
Qed.

Lemma skipn_skipn' {A} a b (l : list A) : skipn a (skipn b l) = skipn (b + a) l.
Proof.
  revert l; induction b as [|b IH]; intros l; [reflexivity|].
  destruct l as [|x l]; [rewrite !skipn_nil; reflexivity | simpl; apply IH].
Qed.

Lemma skipn_step {A} (b bs rest : list A) p :
  skipn p b = bs ++ rest -> skipn (p + length bs) b = rest.
Proof.
  intros H. rewrite <- skipn_skipn', H, skipn_app, skipn_all, Nat.sub_diag. reflexivity.
Qed.

Lemma read_ok s bs rest :
  unread s (bs ++ rest) ->
  exists s', read s (len bs) = (s', Some bs) /\ unread s' rest /\ ibuf s' = ibuf s /\ ipos s' = ipos s + len bs.
Proof.
  intros (Hg & Hf & Ho & Hp & Hs & Hm). rewrite len_app in Hp.
  unfold read. rewrite Hg. cbv zeta.
  assert (E : (ipos s + len bs) mod two64 = ipos s + len bs).
  { apply N.mod_small. unfold two64, max_buffer in *. 
    assert (2 ^ 63 < 2 ^ 64) by reflexivity. lia. }
  rewrite E.
  replace (len (ibuf s) <? ipos s + len bs) with false by (symmetry; apply N.ltb_ge; lia).
  replace (ipos s + len bs <=? len (ibuf s)) with true by (symmetry; apply N.leb_le; lia).
  eexists. split; [rewrite (slice_prefix _ _ _ _ Hs); reflexivity|].
  unfold unread; cbn [igood ifail oob ipos ibuf]. repeat split; auto; try lia.
  rewrite N2Nat.inj_add, to_nat_len. apply skipn_step. exact Hs.
Qed.

Lemma de_size_ok s n rest :
  n < two32 -> unread s (le 4 n ++ rest) ->
  exists s', de_size s = (true, n, s') /\ unread s' rest /\ ibuf s' = ibuf s.
Proof.
  intros Hn Hu. destruct (read_ok _ _ _ Hu) as (s' & E & Hu' & Hb & _).
  rewrite len_le in E. change (N.of_nat 4) with 4 in E.
  exists s'. unfold de_size. rewrite E. rewrite un_le_le by (rewrite pow4; exact Hn).
  destruct Hu' as (Hg & Hf & Hrest). rewrite Hf. repeat split; auto; apply Hrest.
Qed.

Lemma unread_fail s rest : unread s rest -> ifail s = false.
Proof. intros (_ & H & _). exact H. Qed.

Lemma unchars_flat w s : forallb (fun c => c <? 256 ^ N.of_nat w) s = true ->
  unchars w (length s) (flat_map (le w) s) = s.
Proof.
  induction s as [|c s IH]; intros H; cbn [length flat_map unchars]; [reflexivity|].
  cbn [forallb] in H. apply andb_true_iff in H as [Hc Hs]. apply N.ltb_lt in Hc.
  rewrite firstn_app, le_length, Nat.sub_diag, firstn_O, app_nil_r.
  rewrite firstn_all2 by (rewrite le_length; lia).
  rewrite un_le_le by exact Hc.
  rewrite skipn_app, le_length, Nat.sub_diag. rewrite skipn_all2 by (rewrite le_length; lia).
  simpl. f_equal. apply IH. exact Hs.
Qed.

Lemma len_flat_le w (s : list N) : len (flat_map (le w) s) = len s * N.of_nat w.
Proof.
  induction s as [|c s IH]; cbn [flat_map]; [reflexivity|].
  rewrite len_app, len_cons, len_le, IH. lia.
Qed.

(** Element loop: reads the elements one by one. *)
Lemma de_loop_ok {A} (d : istream -> dres A) add (g : A -> list byte) :
  forall c s rest old,
  (forall e, In e c -> forall s rest, unread s (g e ++ rest) ->
     exists ok s', d s = (ok, e, s') /\ unread s' rest /\ ibuf s' = ibuf s) ->
  unread s (flat_map g c ++ rest) ->
  exists s', de_loop d add (length c) true old s = (true, fold_left add c old, s') /\
             unread s' rest /\ ibuf s' = ibuf s.
Proof.
  induction c as [|e c IH]; intros s rest old Hd Hu; cbn [length de_loop fold_left flat_map].
  - exists s. auto.
  - cbn [flat_map] in Hu. rewrite <- app_assoc in Hu.
    destruct (Hd e (or_introl eq_refl) s _ Hu) as (ok & s1 & E & Hu1 & Hb1).
    rewrite E. cbn [orb].
    destruct (IH s1 rest (add old e)) as (s' & E' & Hu' & Hb').
    + intros e' He'. apply Hd. right. exact He'.
    + exact Hu1.
    + exists s'. rewrite E'. repeat split; auto; try apply Hu'. congruence.
Qed.

Lemma de_iter_ok {A} (d : istream -> dres A) add (g : A -> list byte) c s rest old :
  len c < two32 ->
  (forall e, In e c -> forall s rest, unread s (g e ++ rest) ->
     exists ok s', d s = (ok, e, s') /\ unread s' rest /\ ibuf s' = ibuf s) ->
  unread s (le 4 (len c) ++ flat_map g c ++ rest) ->
  exists s', de_iter d add old s = (true, fold_left add c old, s') /\ unread s' rest /\ ibuf s' = ibuf s.
Proof.
  intros Hn Hd Hu. unfold de_iter.
  destruct (de_size_ok _ _ _ Hn Hu) as (s1 & E1 & Hu1 & Hb1). rewrite E1.
  destruct c as [|e c].
  - cbn. exists s1. auto.
  - replace (0 <? len (e :: c)) with true by (symmetry; apply N.ltb_lt; rewrite len_cons; lia).
    cbn [andb]. rewrite to_nat_len.
    destruct (de_loop_ok d add g (e :: c) s1 rest old Hd Hu1) as (s' & E' & Hu' & Hb').
    exists s'. rewrite E'. repeat split; auto; try apply Hu'. congruence.
Qed.

(** * A fresh target ends up with exactly the value read *)
Lemma insert_last {A} (lt : A -> A -> bool) x l :
  forallb (fun y => before lt y x) l = true -> insert_sorted lt x l = l ++ [x].
Proof.
  induction l as [|y l IH]; intros H; cbn [insert_sorted app]; [reflexivity|].
  cbn [forallb] in H. apply andb_true_iff in H as [Hy Hl]. unfold before in Hy.
  apply andb_true_iff in Hy as [H1 H2]. apply negb_true_iff in H2. rewrite H2, H1, (IH Hl). reflexivity.
Qed.

Lemma fold_insert_sorted {A} (lt : A -> A -> bool) v : forall c,
  pairwise (before lt) (c ++ v) = true ->
  fold_left (fun c e => insert_sorted lt e c) v c = c ++ v.
Proof.
  induction v as [|e v IH]; intros c H; cbn [fold_left].
  - rewrite app_nil_r. reflexivity.
  - assert (Hlast : insert_sorted lt e c = c ++ [e]).
    { apply insert_last. clear IH. induction c as [|y c IHc]; [reflexivity|].
      cbn [app pairwise] in H. apply andb_true_iff in H as [H1 H2].
      cbn [forallb]. apply andb_true_iff. split; [|apply IHc; exact H2].
      rewrite forallb_app in H1. apply andb_true_iff in H1 as [_ H1]. cbn [forallb] in H1.
      apply andb_true_iff in H1 as [H1 _]. exact H1. }
    rewrite Hlast, IH.
    + rewrite <- app_assoc. reflexivity.
    + rewrite <- app_assoc. exact H.
Qed.

Lemma fold_push {A} (v c : list A) : fold_left push_back v c = c ++ v.
Proof.
  revert c; induction v as [|e v IH]; intros c; cbn [fold_left].
  - rewrite app_nil_r; reflexivity.
  - rewrite IH. unfold push_back. rewrite <- app_assoc. reflexivity.
Qed.

Lemma merged_fresh_all :
  (forall t v, fits t v = true -> merged t (dinit t) v = v /\ merged t (vinit t) v = v) /\
  (forall l v, fits_all l v = true -> merged_all l (dinits l) v = v /\ merged_all l (vinits l) v = v).
Proof.
  apply ty_tys_ind; try (cbn; auto; fail).
  - intros w v _. destruct v; auto.
  - intros t _ v H. cbn [merged dinit vinit fits] in *.
    apply andb_true_iff in H as [_ H].
    pose proof (fold_insert_sorted (vlt t) v [] H) as E. split; exact E.
  - intros k _ v _ c H. cbn [merged dinit vinit fits] in *.
    apply andb_true_iff in H as [_ H].
    pose proof (fold_insert_sorted (fun x y => vlt k (fst x) (fst y)) c [] H) as E. split; exact E.
  - intros a IHa b IHb [x y] H. cbn [merged dinit vinit fits fst snd] in *.
    apply andb_true_iff in H as [Hx Hy]. destruct (IHa x Hx) as [_ E1]. destruct (IHb y Hy) as [_ E2].
    rewrite E1, E2. auto.
  - intros l IH v H. cbn [merged dinit vinit fits] in *. destruct (IH v H) as [_ E]. auto.
  - intros t IH l IHl [v r] H. cbn [merged_all dinits vinits fits_all fst snd] in *.
    apply andb_true_iff in H as [Hv Hr]. destruct (IH v Hv) as [E1 E2]. destruct (IHl r Hr) as [E3 E4].
    rewrite E1, E2, E3, E4. auto.
Qed.

Lemma merged_dinit t v : fits t v = true -> merged t (dinit t) v = v.
Proof. intros H. apply merged_fresh_all. exact H. Qed.
Lemma merged_vinit t v : fits t v = true -> merged t (vinit t) v = v.
Proof. intros H. apply merged_fresh_all. exact H. Qed.

(** * Reading back what was written, into any target *)
Definition reads_back t := forall v old s rest,
  fits t v = true -> unread s (enc t v ++ rest) ->
  exists s', de t old s = (true, merged t old v, s') /\ unread s' rest /\ ibuf s' = ibuf s.

Lemma in_forallb {A} (f : A -> bool) l x : forallb f l = true -> In x l -> f x = true.
Proof. intros H. rewrite forallb_forall in H. apply H. Qed.

Lemma de_pair_ok a b : reads_back a -> reads_back b -> forall v old s rest,
  fits a (fst v) = true -> fits b (snd v) = true ->
  unread s (enc a (fst v) ++ enc b (snd v) ++ rest) ->
  exists s', de_pair (de a) (de b) old s =
             (true, (merged a (fst old) (fst v), merged b (snd old) (snd v)), s') /\
             unread s' rest /\ ibuf s' = ibuf s.
Proof.
  intros IHa IHb v old s rest Ha Hb Hu. unfold de_pair.
  destruct (IHa _ (fst old) _ _ Ha Hu) as (s1 & E1 & Hu1 & Hb1). rewrite E1.
  destruct (IHb _ (snd old) _ _ Hb Hu1) as (s2 & E2 & Hu2 & Hb2). rewrite E2.
  exists s2. repeat split; auto; try apply Hu2. congruence.
Qed.

Definition nonempty_tys l := match l with TNil => false | _ => true end.

Lemma reads_back_all :
  (forall t, readable t = true -> reads_back t) /\
  (forall l, readables l = true ->
     (forall v old s rest success, fits_all l v = true -> unread s (encs l v ++ rest) ->
        exists s', de_tup l success old s = (success || nonempty_tys l, merged_all l old v, s') /\
                   unread s' rest /\ ibuf s' = ibuf s) /\
     (forall v i s rest B (inj : sumt l -> B) old, fits_alt l v = true ->
        0 < i -> i + count_tys l <= two32 ->
        unread s (enc_alt l i v ++ rest) ->
        exists idx s1 s', de_size s = (true, idx, s1) /\ i <= idx /\
                      de_alt l (idx - i) B inj old s1 = (true, inj v, s') /\
                      unread s' rest /\ ibuf s' = ibuf s)).
Proof.
  apply ty_tys_ind.
  - (* TNum *) intros w sg _ v old s rest Hf Hu. destruct v as [n|]; [|discriminate].
    cbn [fits num_fits enc de merged] in *. apply N.ltb_lt in Hf.
    destruct (read_ok _ _ _ Hu) as (s' & E & Hu' & Hb & _). rewrite len_le in E.
    exists s'. unfold de_num. rewrite E, un_le_le by exact Hf. rewrite (unread_fail _ _ Hu'). auto.
  - (* TStr *) intros w _ v old s rest Hf Hu. cbn [fits enc de merged] in *.
    apply andb_true_iff in Hf as [Hl Hc]. apply N.ltb_lt in Hl.
    unfold count4 in Hu. rewrite <- app_assoc in Hu.
    destruct (de_size_ok _ _ _ Hl Hu) as (s1 & E1 & Hu1 & Hb1).
    unfold de_str. rewrite E1. destruct v as [|c v].
    + cbn [len length]. rewrite N.ltb_irrefl. cbn [flat_map app] in Hu1.
      rewrite (unread_fail _ _ Hu1). exists s1. auto.
    + replace (0 <? len (c :: v)) with true by (symmetry; apply N.ltb_lt; rewrite len_cons; lia).
      destruct (read_ok _ _ _ Hu1) as (s2 & E2 & Hu2 & Hb2 & _).
      rewrite len_flat_le in E2. rewrite E2, (unread_fail _ _ Hu2).
      rewrite to_nat_len, unchars_flat by exact Hc.
      exists s2. repeat split; auto; try apply Hu2. congruence.
  - (* TSeq *) intros t IH Hr v old s rest Hf Hu. cbn [readable fits enc de merged] in *.
    specialize (IH Hr). apply andb_true_iff in Hf as [Hl Hc]. apply N.ltb_lt in Hl.
    unfold count4 in Hu. rewrite <- app_assoc in Hu.
    destruct (de_iter_ok (fun s => de t (dinit t) s) push_back (enc t) v s rest old Hl) as (s' & E & Hu' & Hb').
    + intros e He s0 rest0 Hu0. pose proof (in_forallb _ _ _ Hc He) as Hfe.
      destruct (IH e (dinit t) s0 rest0 Hfe Hu0) as (s1 & E1 & ? & ?).
      rewrite (merged_dinit _ _ Hfe) in E1. exists true, s1. auto.
    + exact Hu.
    + exists s'. rewrite E, fold_push. auto.
  - (* TSet *) intros t IH Hr v old s rest Hf Hu. cbn [readable fits enc de merged] in *.
    specialize (IH Hr). apply andb_true_iff in Hf as [Hf Hp]. apply andb_true_iff in Hf as [Hl Hc].
    apply N.ltb_lt in Hl.
    unfold count4 in Hu. rewrite <- app_assoc in Hu.
    destruct (de_iter_ok (fun s => de t (dinit t) s) (fun c e => insert_sorted (vlt t) e c) (enc t) v s rest old Hl)
      as (s' & E & Hu' & Hb').
    + intros e He s0 rest0 Hu0. pose proof (in_forallb _ _ _ Hc He) as Hfe.
      destruct (IH e (dinit t) s0 rest0 Hfe Hu0) as (s1 & E1 & ? & ?).
      rewrite (merged_dinit _ _ Hfe) in E1. exists true, s1. auto.
    + exact Hu.
    + exists s'. rewrite E. auto.
  - (* TMap *) intros k IHk v IHv Hr c old s rest Hf Hu. cbn [readable fits enc de merged] in *.
    apply andb_true_iff in Hr as [Hrk Hrv]. specialize (IHk Hrk). specialize (IHv Hrv).
    apply andb_true_iff in Hf as [Hf Hp]. apply andb_true_iff in Hf as [Hl Hc].
    apply N.ltb_lt in Hl.
    unfold count4 in Hu. rewrite <- app_assoc in Hu.
    destruct (de_iter_ok (fun s => de_pair (de k) (de v) (vinit k, vinit v) s)
                (fun c e => insert_sorted (fun x y => vlt k (fst x) (fst y)) e c)
                (fun e => enc k (fst e) ++ enc v (snd e)) c s rest old Hl) as (s' & E & Hu' & Hb').
    + intros e He s0 rest0 Hu0. pose proof (in_forallb _ _ _ Hc He) as Hfe.
      apply andb_true_iff in Hfe as [Hf1 Hf2]. rewrite <- app_assoc in Hu0.
      destruct (de_pair_ok k v IHk IHv e (vinit k, vinit v) s0 rest0 Hf1 Hf2 Hu0) as (s1 & E1 & ? & ?).
      cbn [fst snd] in E1. rewrite (merged_vinit _ _ Hf1), (merged_vinit _ _ Hf2) in E1.
      exists true, s1. rewrite E1. destruct e; auto.
    + exact Hu.
    + exists s'. rewrite E. auto.
  - (* TPair *) intros a IHa b IHb Hr v old s rest Hf Hu. cbn [readable fits enc de merged] in *.
    apply andb_true_iff in Hr as [Hra Hrb]. apply andb_true_iff in Hf as [Hfa Hfb].
    rewrite <- app_assoc in Hu. apply (de_pair_ok a b (IHa Hra) (IHb Hrb)); auto.
  - (* TTup *) intros l IH Hr v old s rest Hf Hu. cbn [readable] in Hr.
    destruct l as [|t l]; [discriminate|]. destruct (IH Hr) as [IHs _].
    destruct (IHs v old s rest false Hf Hu) as (s' & E & H). exists s'. exact (conj E H).
  - (* TStruct *) intros l IH Hr v old s rest Hf Hu. cbn [readable] in Hr.
    destruct l as [|t l]; [discriminate|]. destruct (IH Hr) as [IHs _].
    destruct (IHs v old s rest false Hf Hu) as (s' & E & H). exists s'. exact (conj E H).
  - (* TPtr *) intros sm t IH Hr v old s rest Hf Hu. cbn [readable] in Hr. specialize (IH Hr).
    assert (R : exists s', de_rawptr (de t) (vinit t) s = (true, v, s') /\ unread s' rest /\ ibuf s' = ibuf s).
    { unfold de_rawptr. destruct v as [v|]; cbn [enc fits] in *.
      - change (x01 :: enc t v) with ([x01] ++ enc t v) in Hu. rewrite <- app_assoc in Hu.
        destruct (read_ok _ _ _ Hu) as (s1 & E1 & Hu1 & Hb1 & _). change (len [x01]) with 1 in E1.
        rewrite E1. cbn [un_le]. change (Byte.to_N x01 + 256 * 0 =? 0) with false. cbv iota.
        destruct (IH v (vinit t) s1 rest Hf Hu1) as (s2 & E2 & Hu2 & Hb2).
        rewrite E2, (merged_vinit _ _ Hf). exists s2. repeat split; auto; try apply Hu2. congruence.
      - destruct (read_ok _ _ _ Hu) as (s1 & E1 & Hu1 & Hb1 & _). change (len [x00]) with 1 in E1.
        rewrite E1. exists s1. auto. }
    destruct R as (s' & E & Hu' & Hb'). exists s'. split; [|auto].
    destruct sm; cbn [de merged]; [unfold de_smartptr|]; rewrite E; reflexivity.
  - (* TVar *) intros t IH l IHl Hr v old s rest Hf Hu. cbn [readable fits enc de merged] in *.
    apply andb_true_iff in Hr as [Hr Hcount]. apply andb_true_iff in Hr as [Hrt Hrl].
    apply N.ltb_lt in Hcount. fold two32 in Hcount.
    specialize (IH Hrt). destruct (IHl Hrl) as [_ IHa]. destruct v as [v|v].
    + unfold count4 in Hu. rewrite <- app_assoc in Hu.
      destruct (de_size_ok _ 0 _ ltac:(reflexivity) Hu) as (s1 & E1 & Hu1 & Hb1). rewrite E1.
      cbn [N.eqb]. unfold de_altval.
      destruct (IH v (dinit t) s1 rest Hf Hu1) as (s2 & E2 & Hu2 & Hb2).
      rewrite E2, (merged_dinit _ _ Hf). exists s2. repeat split; auto; try apply Hu2. congruence.
    + destruct (IHa v 1 s rest _ inr old Hf) as (idx & s1 & s' & E1 & Hi & E2 & Hu' & Hb');
        [lia | lia | exact Hu |].
      rewrite E1. replace (idx =? 0) with false by (symmetry; apply N.eqb_neq; lia).
      rewrite E2. exists s'. auto.
  - (* TNil *) intros _. split.
    + intros v old s rest success _ Hu. cbn [de_tup merged_all encs nonempty_tys] in *.
      exists s. rewrite orb_false_r. destruct v, old. auto.
    + intros [].
  - (* TCons *) intros t IH l IHl Hr. cbn [readables] in Hr. apply andb_true_iff in Hr as [Hrt Hrl].
    specialize (IH Hrt). destruct (IHl Hrl) as [IHs IHa]. split.
    + intros v old s rest success Hf Hu. cbn [fits_all encs de_tup merged_all nonempty_tys] in *.
      apply andb_true_iff in Hf as [Hft Hfl]. rewrite <- app_assoc in Hu.
      destruct (IH _ (fst old) _ _ Hft Hu) as (s1 & E1 & Hu1 & Hb1). rewrite E1.
      destruct (IHs _ (snd old) _ _ (success || true)%bool Hfl Hu1) as (s2 & E2 & Hu2 & Hb2). rewrite E2.
      exists s2. rewrite orb_true_r. repeat split; auto; try apply Hu2. congruence.
    + intros v i s rest B inj old Hf Hi0 Hi Hu. cbn [fits_alt enc_alt de_alt count_tys] in *.
      destruct v as [v|v].
      * unfold count4 in Hu. rewrite <- app_assoc in Hu.
        assert (Hlt : i < two32) by lia.
        destruct (de_size_ok _ _ _ Hlt Hu) as (s1 & E1 & Hu1 & Hb1).
        destruct (IH v (dinit t) s1 rest Hf Hu1) as (s2 & E2 & Hu2 & Hb2).
        exists i, s1, s2. rewrite N.sub_diag. cbn [N.eqb]. unfold de_altval.
        rewrite E2, (merged_dinit _ _ Hf). repeat split; auto; try apply Hu2; try lia. congruence.
      * destruct (IHa v (i + 1) s rest B (fun b => inj (inr b)) old Hf) as (idx & s1 & s' & E1 & Hidx & E2 & H);
          [lia | lia | exact Hu |].
        exists idx, s1, s'. split; [exact E1|]. split; [lia|].
        replace (idx - i =? 0) with false by (symmetry; apply N.eqb_neq; lia).
        replace (idx - i - 1) with (idx - (i + 1)) by lia. split; [exact E2 | exact H].
Qed.

Lemma reads_back_ok t : readable t = true -> reads_back t.
Proof. apply reads_back_all. Qed.
