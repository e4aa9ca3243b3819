(** Bytes and little-endian integers (host byte order of the platforms maf supports:
    numbers are copied with memcpy, Serializer.h:171,176). *)
From Coq Require Export List NArith ZArith Lia Bool Arith.
From Coq Require Export Init.Byte.
From Coq Require Import Strings.Byte.
Export ListNotations.

(** The byte holding the low 8 bits of [n]. *)
Definition byte_of (n : N) : byte :=
  match Byte.of_N (n mod 256) with Some b => b | None => x00 end.

(** [le w n]: the [w] low bytes of [n], least significant first
    (object representation of an unsigned [w]-byte integer on a little-endian host). *)
Fixpoint le (w : nat) (n : N) : list byte :=
  match w with
  | O => []
  | S w' => byte_of n :: le w' (n / 256)
  end.

(** Inverse reading. *)
Fixpoint un_le (bs : list byte) : N :=
  match bs with
  | [] => 0
  | b :: r => Byte.to_N b + 256 * un_le r
  end%N.

Lemma to_N_byte_of n : Byte.to_N (byte_of n) = (n mod 256)%N.
Proof.
  unfold byte_of. destruct (Byte.of_N (n mod 256)) eqn:E.
  - apply Byte.to_of_N in E. exact E.
  - exfalso. apply Byte.of_N_None_iff in E.
    assert (n mod 256 < 256)%N by (apply N.mod_lt; lia). lia.
Qed.

Lemma byte_of_to_N b : byte_of (Byte.to_N b) = b.
Proof.
  unfold byte_of. pose proof (Byte.to_N_bounded b).
  rewrite N.mod_small by lia. rewrite Byte.of_to_N. reflexivity.
Qed.

Lemma le_length w n : length (le w n) = w.
Proof. revert n; induction w as [|w IH]; intros n; simpl; [|rewrite IH]; reflexivity. Qed.

Lemma pow256_S w : (256 ^ N.of_nat (S w) = 256 * 256 ^ N.of_nat w)%N.
Proof. rewrite Nnat.Nat2N.inj_succ, N.pow_succ_r'. reflexivity. Qed.

Lemma un_le_le w n : (n < 256 ^ N.of_nat w)%N -> un_le (le w n) = n.
Proof.
  revert n; induction w as [|w IH]; intros n H; cbn [le un_le].
  - change (256 ^ N.of_nat 0)%N with 1%N in H. lia.
  - rewrite pow256_S in H. rewrite to_N_byte_of, IH.
    + pose proof (N.div_mod' n 256). lia.
    + apply N.div_lt_upper_bound; lia.
Qed.

Lemma un_le_bound bs : (un_le bs < 256 ^ N.of_nat (length bs))%N.
Proof.
  induction bs as [|b r IH]; cbn [un_le length].
  - vm_compute; reflexivity.
  - rewrite pow256_S. pose proof (Byte.to_N_bounded b). nia.
Qed.

Lemma byte_of_add b k : byte_of (Byte.to_N b + 256 * k) = b.
Proof.
  rewrite <- (byte_of_to_N b) at 2. unfold byte_of.
  replace ((Byte.to_N b + 256 * k) mod 256)%N with (Byte.to_N b mod 256)%N; [reflexivity|].
  rewrite (N.mul_comm 256 k), N.mod_add by lia. reflexivity.
Qed.

Lemma le_un_le bs : le (length bs) (un_le bs) = bs.
Proof.
  induction bs as [|b r IH]; cbn [un_le length le]; [reflexivity|].
  rewrite byte_of_add. f_equal.
  pose proof (Byte.to_N_bounded b).
  replace ((Byte.to_N b + 256 * un_le r) / 256)%N with (un_le r); [exact IH|].
  rewrite (N.mul_comm 256), N.div_add by lia. rewrite N.div_small by lia. lia.
Qed.

Lemma le_inj w n m :
  (n < 256 ^ N.of_nat w)%N -> (m < 256 ^ N.of_nat w)%N -> le w n = le w m -> n = m.
Proof. intros Hn Hm E. rewrite <- (un_le_le w n Hn), <- (un_le_le w m Hm), E. reflexivity. Qed.

Lemma le_mod w n : le w n = le w (n mod 256 ^ N.of_nat w).
Proof.
  revert n; induction w as [|w IH]; intros n; cbn [le]; [reflexivity|].
  rewrite pow256_S.
  assert (P : (256 ^ N.of_nat w <> 0)%N) by (apply N.pow_nonzero; lia).
  f_equal.
  - unfold byte_of. rewrite N.mod_mul_r by lia.
    rewrite (N.mul_comm 256 ((n / 256) mod _)), N.mod_add by lia. rewrite N.mod_mod by lia. reflexivity.
  - rewrite (IH (n / 256)%N). f_equal.
    rewrite N.mod_mul_r by lia.
    rewrite (N.mul_comm 256 ((n / 256) mod _)), N.div_add by lia.
    rewrite (N.div_small (n mod 256)) by (apply N.mod_lt; lia). simpl.
    reflexivity.
Qed.
