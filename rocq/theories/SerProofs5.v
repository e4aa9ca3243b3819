(** A read that reports failure leaves the object as it was (C99). *)
From Verif Require Import SerModel SerSpec SerProofs4.
Local Open Scope N_scope.

(** A stream that was never set to a contradictory state: a failed stream is not good any more. *)
Definition sane (s : istream) : Prop := igood s = true -> ifail s = false.

Lemma read_sane s n : sane s -> sane (fst (read s n)).
Proof.
  unfold sane, read. intros H. destruct (igood s) eqn:G; [|cbn; discriminate].
  destruct (_ <? _); [cbn; discriminate|]. destruct (_ <=? _); cbn; auto.
Qed.

Lemma read_false s n s' r : sane s -> read s n = (s', r) -> ifail s' = true -> r = None.
Proof.
  unfold sane, read. intros H E F. destruct (igood s) eqn:G; [|congruence].
  destruct (_ <? _); [congruence|]. destruct (_ <=? _); [|congruence].
  injection E as <- <-. cbn in F. rewrite H in F; congruence.
Qed.

Lemma de_size_sane s : sane s -> sane (snd (de_size s)).
Proof. intros H. unfold de_size. pose proof (read_sane s 4 H) as R. destruct (read s 4). exact R. Qed.

Definition keeps_d {A} (old : A) (d : istream -> dres A) : Prop :=
  forall s v s', sane s -> d s = (false, v, s') -> v = old.

Definition sane_d {A} (d : istream -> dres A) : Prop := forall s, sane s -> sane (snd (d s)).

Lemma de_loop_sane {A} (d : istream -> dres A) add n : sane_d d ->
  forall ok c, sane_d (de_loop d add n ok c).
Proof.
  intros Hd. induction n as [|n IH]; intros ok c s Hs; cbn [de_loop]; [exact Hs|].
  specialize (Hd s Hs). destruct (d s) as [[o e] s1]. cbn [snd] in Hd.
  destruct (ok || o); [apply IH; exact Hd | exact Hd].
Qed.

Lemma de_loop_true {A} (d : istream -> dres A) add n : forall c s, fst (fst (de_loop d add n true c s)) = true.
Proof.
  induction n as [|n IH]; intros c s; cbn [de_loop]; [reflexivity|].
  destruct (d s) as [[o e] s1]. cbn [orb]. apply IH.
Qed.

Lemma de_iter_sane {A} (d : istream -> dres A) add old : sane_d d -> sane_d (de_iter d add old).
Proof.
  intros Hd s Hs. unfold de_iter. pose proof (de_size_sane s Hs) as Z.
  destruct (de_size s) as [[ok n] s1]. cbn [snd] in Z.
  destruct (ok && (0 <? n)); [apply de_loop_sane; assumption | exact Z].
Qed.

Lemma de_iter_keeps {A} (d : istream -> dres A) add old : keeps_d old (de_iter d add old).
Proof.
  intros s v s' _. unfold de_iter. destruct (de_size s) as [[ok n] s1]. destruct ok; cbn [andb].
  - destruct (0 <? n); [|congruence]. intros E. pose proof (de_loop_true d add (N.to_nat n) old s1) as T.
    rewrite E in T. discriminate T.
  - congruence.
Qed.

Lemma de_pair_sane {A B} (da : A -> istream -> dres A) (db : B -> istream -> dres B) :
  (forall a, sane_d (da a)) -> (forall b, sane_d (db b)) -> forall old, sane_d (de_pair da db old).
Proof.
  intros Ha Hb old s Hs. unfold de_pair. specialize (Ha (fst old) s Hs).
  destruct (da (fst old) s) as [[o a] s1]. cbn [snd] in Ha. destruct o; [|exact Ha].
  specialize (Hb (snd old) s1 Ha). destruct (db (snd old) s1) as [[o b] s2]. exact Hb.
Qed.

Lemma de_pair_keeps {A B} (da : A -> istream -> dres A) (db : B -> istream -> dres B) :
  (forall a, keeps_d a (da a)) -> forall old, keeps_d old (de_pair da db old).
Proof.
  intros Ha [x y] s v s' Hs. unfold de_pair. cbn [fst snd].
  destruct (da x s) as [[o a] s1] eqn:E. destruct o.
  - destruct (db y s1) as [[o b] s2]. cbn [orb]. congruence.
  - intros Q. specialize (Ha x s a s1 Hs E). congruence.
Qed.

Lemma de_rawptr_sane {A} (d : A -> istream -> dres A) f :
  (forall a, sane_d (d a)) -> sane_d (de_rawptr d f).
Proof.
  intros Hd s Hs. unfold de_rawptr. pose proof (read_sane s 1 Hs) as R.
  destruct (read s 1) as [s1 r]. cbn [fst] in R.
  destruct (_ =? 0); [exact R|]. specialize (Hd f s1 R). destruct (d f s1) as [[o v] s2].
  destruct o; exact Hd.
Qed.

Lemma de_sane :
  (forall t, forall old, sane_d (de t old)) /\
  (forall l, (forall ok old, sane_d (de_tup l ok old)) /\
     (forall i B inj old, sane_d (de_alt l i B inj old))).
Proof.
  apply ty_tys_ind.
  - intros w sg old s Hs. cbn [de]. unfold de_num.
    pose proof (read_sane s (N.of_nat w) Hs) as R. destruct (read s (N.of_nat w)) as [s1 r]. exact R.
  - intros w old s Hs. cbn [de]. unfold de_str.
    pose proof (de_size_sane s Hs) as Z. destruct (de_size s) as [[ok n] s1]. cbn [snd] in Z.
    destruct ok; [|exact Z]. destruct (0 <? n); [|exact Z].
    pose proof (read_sane s1 (n * N.of_nat w) Z) as R. destruct (read s1 (n * N.of_nat w)) as [s2 r]. exact R.
  - intros t IH old. cbn [de]. apply de_iter_sane. intros s. apply IH.
  - intros t IH old. cbn [de]. apply de_iter_sane. intros s. apply IH.
  - intros k IHk v IHv old. cbn [de]. apply de_iter_sane. intros s. apply de_pair_sane; [apply IHk | apply IHv].
  - intros k IHk v IHv old. cbn [de]. apply de_pair_sane; [apply IHk | apply IHv].
  - intros l IH old. exact (proj1 IH false old).
  - intros l IH old. exact (proj1 IH false old).
  - intros sm t IH old. destruct sm; cbn [de].
    + intros s Hs. unfold de_smartptr. pose proof (de_rawptr_sane (de t) (vinit t) IH s Hs) as R.
      destruct (de_rawptr (de t) (vinit t) s) as [[o p] s1]. destruct o; exact R.
    + apply de_rawptr_sane. apply IH.
  - intros t IHt l IHl old s Hs. cbn [de]. pose proof (de_size_sane s Hs) as Z.
    destruct (de_size s) as [[ok n] s1]. cbn [snd] in Z.
    destruct ok; [|exact Z]. destruct (n =? 0).
    + unfold de_altval. specialize (IHt (dinit t) s1 Z). destruct (de t (dinit t) s1) as [[o v] s2].
      destruct o; exact IHt.
    + apply (proj2 IHl). exact Z.
  - split; intros; intros s Hs; exact Hs.
  - intros t IHt l IHl. split.
    + intros ok old s Hs. cbn [de_tup]. specialize (IHt (fst old) s Hs).
      destruct (de t (fst old) s) as [[o a] s1]. cbn [snd] in IHt.
      pose proof (proj1 IHl (ok || o) (snd old) s1 IHt) as R.
      destruct (de_tup l (ok || o) (snd old) s1) as [[o' r] s2]. exact R.
    + intros i B inj old s Hs. cbn [de_alt]. destruct (i =? 0).
      * unfold de_altval. specialize (IHt (dinit t) s Hs). destruct (de t (dinit t) s) as [[o v] s2].
        destruct o; exact IHt.
      * apply (proj2 IHl). exact Hs.
Qed.

Lemma de_tup_true l : forall old s, fst (fst (de_tup l true old s)) = true.
Proof.
  induction l as [|t l IH]; intros old s; cbn [de_tup]; [reflexivity|].
  destruct (de t (fst old) s) as [[o a] s1]. cbn [orb].
  specialize (IH (snd old) s1). destruct (de_tup l true (snd old) s1) as [[o' r] s2]. exact IH.
Qed.

Lemma de_alt_keeps l : forall i B inj old, @keeps_d B old (de_alt l i B inj old).
Proof.
  induction l as [|t l IH]; intros i B inj old s v s' Hs; cbn [de_alt]; [congruence|].
  destruct (i =? 0); [|apply IH; exact Hs].
  unfold de_altval. destruct (de t (dinit t) s) as [[o w] s2]. destruct o; congruence.
Qed.

Lemma de_keeps :
  (forall t, keeps t = true -> forall old, keeps_d old (de t old)) /\
  (forall l, keeps_all l = true -> forall old, keeps_d old (de_tup l false old)).
Proof.
  apply ty_tys_ind.
  - intros w sg _ old s v s' Hs. cbn [de]. unfold de_num. destruct (read s (N.of_nat w)) as [s1 r] eqn:E.
    intros Q. injection Q as F <- <-. apply negb_false_iff in F. rewrite (read_false _ _ _ _ Hs E F). reflexivity.
  - intros w H. discriminate H.
  - intros t _ _ old. apply de_iter_keeps.
  - intros t _ _ old. apply de_iter_keeps.
  - intros k _ v _ _ old. apply de_iter_keeps.
  - intros a IHa b _ H old. cbn [de]. apply de_pair_keeps. exact (IHa H).
  - intros l IH H old. exact (IH H old).
  - intros l IH H old. exact (IH H old).
  - intros [] t _ H old s v s' Hs; [|discriminate H]. cbn [de]. unfold de_smartptr.
    destruct (de_rawptr (de t) (vinit t) s) as [[o p] s1]. destruct o; congruence.
  - intros t _ l _ _ old s v s' Hs. cbn [de]. pose proof (de_size_sane s Hs) as Z.
    destruct (de_size s) as [[ok n] s1]. cbn [snd] in Z. destruct ok; [|congruence].
    destruct (n =? 0).
    + unfold de_altval. destruct (de t (dinit t) s1) as [[o w] s2]. destruct o; congruence.
    + apply de_alt_keeps. exact Z.
  - intros _ old s v s' _. cbn [de_tup]. congruence.
  - intros t IHt l IHl H. cbn [keeps_all] in H. apply andb_true_iff in H as [H1 H2].
    intros [x y] s v s' Hs. cbn [de_tup fst snd].
    pose proof (proj1 de_sane t x s Hs) as Z. destruct (de t x s) as [[o a] s1] eqn:E. cbn [snd] in Z. cbn [orb].
    destruct o.
    + pose proof (de_tup_true l y s1) as T. destruct (de_tup l true y s1) as [[o' r] s2]. cbn in T. congruence.
    + destruct (de_tup l false y s1) as [[o' r] s2] eqn:E2. intros Q. injection Q as -> <- <-.
      rewrite (IHt H1 x s a s1 Hs E). rewrite (IHl H2 y s1 r s2 Z E2). reflexivity.
Qed.

Lemma keeps_lemma t old b v s' : keeps t = true -> de t old (istream_of b) = (false, v, s') -> v = old.
Proof. intros H. apply (proj1 de_keeps t H). intros _. reflexivity. Qed.
