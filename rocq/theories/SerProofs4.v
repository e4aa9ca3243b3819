From Verif Require Import SerModel SerSpec SerProofs SerProofs2 SerProofs3.
Local Open Scope N_scope.

Lemma bytes_of_enc t v : bytes_of t v = enc t v.
Proof. unfold bytes_of. change ostream_new with (at_end []). rewrite ser_enc. reflexivity. Qed.

Lemma merged_fresh t old v : fresh t old -> fits t v = true -> merged t old v = v.
Proof. intros [->| ->] H; [apply merged_dinit | apply merged_vinit]; exact H. Qed.

Lemma roundtrip_lemma t v old rest :
  readable t = true -> fits t v = true -> fresh t old -> len (bytes_of t v ++ rest) < 2 ^ 63 ->
  exists s', de t old (istream_of (bytes_of t v ++ rest)) = (true, v, s') /\ unread s' rest.
Proof.
  intros Hr Hf Ho Hm. pose proof (unread_istream_of _ Hm) as U. rewrite bytes_of_enc in *.
  destruct (reads_back_ok t Hr v old _ rest Hf U) as (s' & E & Hu & _).
  rewrite (merged_fresh _ _ _ Ho Hf) in E. eauto.
Qed.

Lemma appends_lemma t v d :
  odata (ser t v (OS d (length d))) = d ++ bytes_of t v /\ opos (ser t v (OS d (length d))) = length (d ++ bytes_of t v).
Proof.
  change (OS d (length d)) with (at_end d). rewrite ser_enc, bytes_of_enc. auto.
Qed.

Lemma size_lemma t v d : has_size t = true ->
  let written := len (odata (ser t v (OS d (length d)))) - len d in
  ssize t v mod 2 ^ 32 = written mod 2 ^ 32 /\ (written < 2 ^ 32 -> ssize t v = written).
Proof.
  intros H. destruct (appends_lemma t v d) as [E _]. rewrite E, len_app, bytes_of_enc.
  replace (len d + len (enc t v) - len d) with (len (enc t v)) by lia. cbv zeta. split.
  - apply (proj1 ssize_mod_all t v H).
  - apply ssize_exact. exact H.
Qed.

Lemma batch_lemma vs rest :
  Forall (fun a : anyval => readable (projT1 a) = true /\ fits (projT1 a) (projT2 a) = true) vs ->
  len (odata (ser_all vs ostream_new) ++ rest) < 2 ^ 63 ->
  odata (ser_all vs ostream_new) = flat_map (fun a => bytes_of (projT1 a) (projT2 a)) vs /\
  exists s', de_all (map (@projT1 _ _) vs) (istream_of (odata (ser_all vs ostream_new) ++ rest)) = (Some vs, s') /\
             unread s' rest.
Proof.
  intros Hv Hm. change ostream_new with (at_end []) in *. rewrite ser_all_enc in *. cbn [odata at_end app] in *.
  split.
  - apply flat_map_ext. intros a. rewrite bytes_of_enc. reflexivity.
  - apply de_all_ok; [exact Hv|]. apply unread_istream_of. exact Hm.
Qed.

Lemma prefix_free_lemma t v1 v2 r1 r2 :
  readable t = true -> fits t v1 = true -> fits t v2 = true -> len (bytes_of t v1 ++ r1) < 2 ^ 63 ->
  bytes_of t v1 ++ r1 = bytes_of t v2 ++ r2 -> v1 = v2 /\ r1 = r2.
Proof. rewrite !bytes_of_enc. apply enc_prefix_free. Qed.

Lemma stream_lemma b sizes : len b < 2 ^ 63 -> Forall (fun n => n < 2 ^ 63) sizes ->
  let '(results, s) := run_reads (istream_of b) sizes in
  results = spec_reads b true sizes /\ oob s = false /\ ipos s <= len (ibuf s) /\
  ieof s = (existsb is_some results && (ipos s =? len b)).
Proof.
  intros Hb Hs. pose proof (unread_istream_of b Hb) as U.
  pose proof (run_reads_ok sizes Hs _ _ U) as R.
  pose proof (run_reads_eof sizes Hs _ _ U ltac:(discriminate)) as E.
  destruct (run_reads (istream_of b) sizes) as [os s']. destruct R as (R1 & R2 & R3). auto.
Qed.

Lemma sticky_lemma s n : igood s = false ->
  let '(s', r) := read s n in r = None /\ igood s' = false /\ ifail s' = true /\ ipos s' = ipos s /\ oob s' = oob s /\
  forall g f e m, snd (read (iclear s' g f e) m) = None.
Proof.
  intros H. unfold read at 1. rewrite H. cbn. repeat split. 
Qed.

Lemma truncated_fail_lemma t v old p q :
  readable t = true -> fits t v = true -> len (bytes_of t v) < 2 ^ 63 ->
  bytes_of t v = p ++ q -> q <> [] ->
  let '(_, _, s') := de t old (istream_of p) in ifail s' = true.
Proof.
  rewrite bytes_of_enc. intros Hr Hf Hm E Hq.
  assert (Hp : len p < max_buffer) by (unfold max_buffer; rewrite E, len_app in Hm; lia).
  destruct (de t old (istream_of p)) as [[ok w] s'] eqn:D.
  pose proof (proj1 starves_all t Hr v old (istream_of p) p q ok w s' Hf (eq_sym E) Hq Hm (unread_istream_of _ Hp) D) as [_ F].
  exact F.
Qed.

Lemma truncated_false_lemma t v old p q :
  readable t = true -> reports t = true -> fits t v = true -> len (bytes_of t v) < 2 ^ 63 ->
  bytes_of t v = p ++ q -> q <> [] ->
  let '(ok, _, _) := de t old (istream_of p) in ok = false.
Proof.
  rewrite bytes_of_enc. intros Hr Hp Hf Hm E Hq.
  assert (Hl : len p < max_buffer) by (unfold max_buffer; rewrite E, len_app in Hm; lia).
  destruct (de t old (istream_of p)) as [[ok w] s'] eqn:D.
  exact (proj1 reports_false t Hr Hp v old (istream_of p) p q ok w s' Hf (eq_sym E) Hq Hm (unread_istream_of _ Hl) D).
Qed.

Lemma sound_lemma t old b ok v s' :
  canonical t = true -> cpp_widths t = true -> len b < 2 ^ 63 ->
  de t old (istream_of b) = (ok, v, s') -> ifail s' = false ->
  ok = true /\ exists v0 rest, fits t v0 = true /\ b = bytes_of t v0 ++ rest /\ v = merged t old v0 /\ unread s' rest.
Proof.
  intros Hc Hw Hb E F. pose proof (proj1 sound_all t Hc Hw old (istream_of b) b (unread_istream_of b Hb)) as S.
  unfold sound_at in S. rewrite E in S. destruct S as [[_ D]|(-> & v0 & rest & H)]; [congruence|].
  split; [reflexivity|]. exists v0, rest. rewrite bytes_of_enc. exact H.
Qed.

Lemma into_lemma t v old rest :
  readable t = true -> fits t v = true -> len (bytes_of t v ++ rest) < 2 ^ 63 ->
  exists s', de t old (istream_of (bytes_of t v ++ rest)) = (true, merged t old v, s') /\ unread s' rest.
Proof.
  intros Hr Hf Hm. pose proof (unread_istream_of _ Hm) as U. rewrite bytes_of_enc in *.
  destruct (reads_back_ok t Hr v old _ rest Hf U) as (s' & E & Hu & _). eauto.
Qed.

Lemma overwrite_lemma t v old rest :
  overwrites t = true -> readable t = true -> fits t v = true -> len (bytes_of t v ++ rest) < 2 ^ 63 ->
  exists s', de t old (istream_of (bytes_of t v ++ rest)) = (true, v, s') /\ unread s' rest.
Proof.
  intros Ho Hr Hf Hm. destruct (into_lemma t v old rest Hr Hf Hm) as (s' & E & U).
  exists s'. split; [|exact U]. rewrite E. destruct t; try discriminate; reflexivity.
Qed.

Lemma min_elem_bound t (v0 : list (interp t)) k :
  (forall e, fits t e = true -> k <= len (enc t e)) -> forallb (fits t) v0 = true ->
  k * len v0 <= len (flat_map (enc t) v0).
Proof.
  intros Hk. induction v0 as [|e v0 IH]; intros H; cbn [flat_map].
  - rewrite !len_nil. lia.
  - cbn [forallb] in H. apply andb_true_iff in H as [He Hv]. rewrite len_cons, len_app.
    specialize (IH Hv). specialize (Hk e He). nia.
Qed.

Lemma bound_lemma t b ok v s' k :
  canonical t = true -> cpp_widths t = true -> len b < 2 ^ 63 ->
  (forall e, fits t e = true -> k <= len (bytes_of t e)) ->
  de (TSeq t) [] (istream_of b) = (ok, v, s') -> ifail s' = false ->
  4 + k * len v <= len b.
Proof.
  intros Hc Hw Hb Hk E F.
  destruct (sound_lemma (TSeq t) [] b ok v s' Hc Hw Hb E F) as (_ & v0 & rest & Hf & -> & -> & _).
  cbn [merged app]. rewrite bytes_of_enc. cbn [enc]. unfold count4. rewrite !len_app, len_le.
  cbn [fits] in Hf. apply andb_true_iff in Hf as [_ Hf].
  pose proof (min_elem_bound t v0 k) as M. specialize (M (fun e He => eq_ind _ (fun x => k <= len x) (Hk e He) _ (bytes_of_enc t e)) Hf).
  change (N.of_nat 4) with 4.
  eapply N.le_trans; [apply N.add_le_mono; [apply N.le_refl | exact M]|].
  eapply N.le_trans; [|apply N.le_add_r]. apply N.le_refl.
Qed.

Lemma amplify_lemma t n : n < 2 ^ 32 ->
  exists b v s', len b = 4 /\ de (TSeq t) [] (istream_of b) = (true, v, s') /\ len v = n.
Proof.
  intros Hn. exists (le 4 n). pose proof (amplification t n Hn) as A.
  destruct (de (TSeq t) [] (istream_of (le 4 n))) as [[ok v] s']. destruct A as [-> L].
  exists v, s'. repeat split; auto.
Qed.

Lemma uninit_lemma w sg n : 0 < N.of_nat w < 2 ^ 16 -> 0 < n < 2 ^ 32 ->
  exists s', de (TSeq (TNum w sg)) [] (istream_of (le 4 n)) = (true, repeat Indet (N.to_nat n), s').
Proof.
  intros [Hw0 Hw] [Hn0 Hn]. cbn [de]. unfold de_iter.
  assert (Hu : unread (istream_of (le 4 n)) (le 4 n ++ [])).
  { rewrite app_nil_r. apply unread_istream_of. rewrite len_le. reflexivity. }
  destruct (de_size_ok _ _ _ Hn Hu) as (s1 & E & Hu1 & _). rewrite E. cbn [andb].
  replace (0 <? n) with true by (symmetry; apply N.ltb_lt; exact Hn0).
  destruct (N.to_nat n) as [|k] eqn:K; [lia|]. cbn [de_loop].
  destruct (read_short s1 [] (N.of_nat w) Hu1) as (s2 & R & D);
    [exact Hw0 | unfold max_buffer; change (2 ^ 63) with (2 ^ 16 * 2 ^ 47); lia|].
  assert (E2 : de_num w Indet s1 = (negb (ifail s2), Indet, s2)) by (unfold de_num; rewrite R; reflexivity).
  cbn [dinit]. rewrite E2. cbn [orb].
  pose proof (de_loop_num_dead w k (push_back [] Indet) s2 D) as L.
  pose proof (de_loop_length (fun s => de_num w Indet s) k (push_back [] Indet) s2) as L2.
  change (fun s : istream => de_num w Indet s) with (fun s => de_num w Indet s) in *.
  destruct (de_loop (fun s => de_num w Indet s) push_back k true (push_back [] Indet) s2) as [[ok v] s'] eqn:Q.
  destruct L2 as [-> _]. exists s'. change (interp (TNum w sg)) with num. 
  etransitivity; [exact Q|]. rewrite L. reflexivity.
Qed.

(** * No input makes deserialization read outside the buffer *)
Definition inb (s : istream) : Prop := oob s = false /\ ipos s <= len (ibuf s) /\ len (ibuf s) < max_buffer.

Lemma read_inb s n : inb s -> n < max_buffer -> inb (fst (read s n)).
Proof.
  unfold inb, read, max_buffer. intros (H1 & H2 & H3) Hn.
  destruct (igood s); [|cbn; auto].
  assert (W : (ipos s + n) mod two64 = ipos s + n).
  { apply N.mod_small. unfold two64. change (2 ^ 64) with (2 ^ 63 + 2 ^ 63). lia. }
  rewrite W. destruct (N.ltb_spec (len (ibuf s)) (ipos s + n)); [cbn; auto|].
  destruct (N.leb_spec (ipos s + n) (len (ibuf s))); cbn; auto; lia.
Qed.

Lemma de_size_inb s : inb s -> let '(_, n, s') := de_size s in inb s' /\ n < 2 ^ 32.
Proof.
  intros H. pose proof (read_inb s 4 H ltac:(reflexivity)) as R.
  unfold de_size. destruct (read s 4) as [s' r] eqn:E. cbn [fst] in R. split; [exact R|].
  destruct r as [b|]; [|reflexivity].
  pose proof (un_le_bound b) as B. eapply N.lt_le_trans; [exact B|].
  assert (L : (length b <= 4)%nat).
  { unfold read in E. destruct (igood s); [|congruence].
    destruct (_ <? _); [congruence|]. destruct (_ <=? _); [|congruence].
    injection E as _ <-. unfold slice. rewrite firstn_length. change (N.to_nat 4) with 4%nat. lia. }
  change (2 ^ 32) with (256 ^ 4). apply N.pow_le_mono_r; lia.
Qed.

Definition inb_d {A} (d : istream -> dres A) : Prop := forall s, inb s -> inb (snd (d s)).

Lemma de_loop_inb {A} (d : istream -> dres A) add n : inb_d d ->
  forall ok c, inb_d (de_loop d add n ok c).
Proof.
  intros Hd. induction n as [|n IH]; intros ok c s Hs; cbn [de_loop]; [exact Hs|].
  specialize (Hd s Hs). destruct (d s) as [[o e] s1]. cbn [snd] in Hd.
  destruct (ok || o); [apply IH; exact Hd | exact Hd].
Qed.

Lemma de_iter_inb {A} (d : istream -> dres A) add old : inb_d d -> inb_d (de_iter d add old).
Proof.
  intros Hd s Hs. unfold de_iter. pose proof (de_size_inb s Hs) as Z.
  destruct (de_size s) as [[ok n] s1]. destruct Z as [Z _].
  destruct (ok && (0 <? n)); [apply de_loop_inb; assumption | exact Z].
Qed.

Lemma de_pair_inb {A B} (da : A -> istream -> dres A) (db : B -> istream -> dres B) :
  (forall a, inb_d (da a)) -> (forall b, inb_d (db b)) -> forall old, inb_d (de_pair da db old).
Proof.
  intros Ha Hb old s Hs. unfold de_pair. specialize (Ha (fst old) s Hs).
  destruct (da (fst old) s) as [[o a] s1]. cbn [snd] in Ha. destruct o; [|exact Ha].
  specialize (Hb (snd old) s1 Ha). destruct (db (snd old) s1) as [[o b] s2]. exact Hb.
Qed.

Lemma de_rawptr_inb {A} (d : A -> istream -> dres A) f :
  (forall a, inb_d (d a)) -> inb_d (de_rawptr d f).
Proof.
  intros Hd s Hs. unfold de_rawptr. pose proof (read_inb s 1 Hs ltac:(reflexivity)) as R.
  destruct (read s 1) as [s1 r]. cbn [fst] in R.
  destruct (_ =? 0); [exact R|]. specialize (Hd f s1 R). destruct (d f s1) as [[o v] s2].
  destruct o; exact Hd.
Qed.

Lemma de_inb :
  (forall t, cpp_widths t = true -> forall old, inb_d (de t old)) /\
  (forall l, cpp_widths_all l = true ->
     (forall ok old, inb_d (de_tup l ok old)) /\
     (forall i B inj old, inb_d (de_alt l i B inj old))).
Proof.
  apply ty_tys_ind.
  - intros w sg H old s Hs. cbn [de]. unfold de_num. cbn [cpp_widths] in H. apply Nat.leb_le in H.
    pose proof (read_inb s (N.of_nat w) Hs) as R. destruct (read s (N.of_nat w)) as [s1 r].
    apply R. unfold max_buffer. change (2 ^ 63) with (2 ^ 16 * 2 ^ 47). lia.
  - intros w H old s Hs. cbn [de]. unfold de_str. cbn [cpp_widths] in H. apply Nat.leb_le in H.
    pose proof (de_size_inb s Hs) as Z. destruct (de_size s) as [[ok n] s1]. destruct Z as [Z Hn].
    destruct ok; [|exact Z]. destruct (0 <? n); [|exact Z].
    pose proof (read_inb s1 (n * N.of_nat w) Z) as R. destruct (read s1 (n * N.of_nat w)) as [s2 r].
    apply R. unfold max_buffer. change (2 ^ 63) with (2 ^ 32 * 2 ^ 31). 
    assert (N.of_nat w < 2 ^ 31) by (change (2 ^ 31) with 2147483648; lia).
    apply N.mul_lt_mono; assumption.
  - intros t IH H old. cbn [de]. apply de_iter_inb. intros s. apply IH. exact H.
  - intros t IH H old. cbn [de]. apply de_iter_inb. intros s. apply IH. exact H.
  - intros k IHk v IHv H old. cbn [cpp_widths] in H. apply andb_true_iff in H as [H1 H2].
    cbn [de]. apply de_iter_inb. intros s. apply de_pair_inb; [apply IHk | apply IHv]; assumption.
  - intros k IHk v IHv H old. cbn [cpp_widths] in H. apply andb_true_iff in H as [H1 H2].
    cbn [de]. apply de_pair_inb; [apply IHk | apply IHv]; assumption.
  - intros l IH H old. exact (proj1 (IH H) false old).
  - intros l IH H old. exact (proj1 (IH H) false old).
  - intros sm t IH H old. destruct sm; cbn [de].
    + intros s Hs. unfold de_smartptr. pose proof (de_rawptr_inb (de t) (vinit t) (IH H) s Hs) as R.
      destruct (de_rawptr (de t) (vinit t) s) as [[o p] s1]. destruct o; exact R.
    + apply de_rawptr_inb. apply IH. exact H.
  - intros t IHt l IHl H old s Hs. cbn [cpp_widths] in H. apply andb_true_iff in H as [H1 H2].
    cbn [de]. pose proof (de_size_inb s Hs) as Z. destruct (de_size s) as [[ok n] s1]. destruct Z as [Z Hn].
    destruct ok; [|exact Z]. destruct (n =? 0).
    + unfold de_altval. specialize (IHt H1 (dinit t) s1 Z). destruct (de t (dinit t) s1) as [[o v] s2].
      destruct o; exact IHt.
    + apply (proj2 (IHl H2)). exact Z.
  - intros _. split; intros; intros s Hs; exact Hs.
  - intros t IHt l IHl H. cbn [cpp_widths_all] in H. apply andb_true_iff in H as [H1 H2]. split.
    + intros ok old s Hs. cbn [de_tup]. specialize (IHt H1 (fst old) s Hs).
      destruct (de t (fst old) s) as [[o a] s1]. cbn [snd] in IHt.
      pose proof (proj1 (IHl H2) (ok || o) (snd old) s1 IHt) as R.
      destruct (de_tup l (ok || o) (snd old) s1) as [[o' r] s2]. exact R.
    + intros i B inj old s Hs. cbn [de_alt]. destruct (i =? 0).
      * unfold de_altval. specialize (IHt H1 (dinit t) s Hs). destruct (de t (dinit t) s) as [[o v] s2].
        destruct o; exact IHt.
      * apply (proj2 (IHl H2)). exact Hs.
Qed.

Lemma in_bounds_lemma t old b :
  cpp_widths t = true -> len b < 2 ^ 63 ->
  let '(_, _, s') := de t old (istream_of b) in oob s' = false /\ ipos s' <= len (ibuf s').
Proof.
  intros Hw Hb. pose proof (proj1 de_inb t Hw old (istream_of b)) as H.
  destruct (de t old (istream_of b)) as [[o v] s']. cbn [snd] in H.
  assert (I : inb (istream_of b)) by (repeat split; [apply N.le_0_l | exact Hb]).
  destruct (H I) as (A & B & _). split; assumption.
Qed.

Lemma wire_lemma t v d :
  odata (ser t v (OS d (length d))) = d ++ enc t v /\ opos (ser t v (OS d (length d))) = length (d ++ enc t v).
Proof. destruct (appends_lemma t v d) as [A B]. rewrite bytes_of_enc in *. auto. Qed.

Lemma reset_lemma s n : 0 < n < 2 ^ 63 ->
  let '(s', r) := read (ireset s) n in r = None /\ ifail s' = true /\ oob s' = oob s.
Proof.
  intros [H0 H]. unfold read, ireset. cbn [igood ipos ibuf ieof oob ifail]. rewrite len_nil, N.add_0_l.
  rewrite N.mod_small by (unfold two64; change (2 ^ 64) with (2 ^ 63 + 2 ^ 63); lia).
  replace (0 <? n) with true by (symmetry; apply N.ltb_lt; exact H0). repeat split.
Qed.

Lemma num4_len n : 4 <= len (bytes_of (TNum 4 true) (Num n)).
Proof. rewrite bytes_of_enc. cbn [enc]. rewrite len_le. reflexivity. Qed.

Lemma bad_index_lemma :
  exists b, let t := TStruct (TCons (TNum 1 false) (TCons (TVar (TNum 1 false) TNil) TNil)) in
  let '(ok, _, s') := de t (vinit t) (istream_of b) in
  ok = true /\ ifail s' = false /\ forall v rest, bytes_of t v ++ rest <> b.
Proof.
  exists [x05; x09; x00; x00; x00].
  assert (E : forall x : dres (interp (TStruct (TCons (TNum 1 false) (TCons (TVar (TNum 1 false) TNil) TNil)))),
    x = de (TStruct (TCons (TNum 1 false) (TCons (TVar (TNum 1 false) TNil) TNil)))
     (vinit (TStruct (TCons (TNum 1 false) (TCons (TVar (TNum 1 false) TNil) TNil))))
     (istream_of [x05; x09; x00; x00; x00]) -> fst (fst x) = true /\ ifail (snd x) = false).
  { intros x ->. vm_compute. split; reflexivity. }
  cbv zeta. specialize (E _ eq_refl). destruct (de _ _ _) as [[ok w] s']. cbn [fst snd] in E. destruct E as [-> ->].
  repeat split. intros v rest H. rewrite bytes_of_enc in H. destruct v as [a [b u]].
  cbn [enc encs fst snd] in H. destruct b as [b|[]].
  assert (L : exists x, match a with Num n => le 1 n | Indet => le 1 0 end = [x]).
  { destruct a as [n|]; [exists (hd x00 (le 1 n)) | exists x00]; reflexivity. }
  cbn [enc] in H. destruct L as [x L]. rewrite L in H. cbn in H. discriminate.
Qed.
