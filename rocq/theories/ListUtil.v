(** Small list library used by the concurrent models: update at an index, counting. *)
From Coq Require Export List Arith Lia Bool.
Export ListNotations.

Fixpoint set_nth {A} (i : nat) (x : A) (l : list A) : list A :=
  match l, i with
  | [], _ => []
  | _ :: l', O => x :: l'
  | y :: l', S i' => y :: set_nth i' x l'
  end.

Lemma length_set_nth {A} (x : A) l i : length (set_nth i x l) = length l.
Proof. revert i. induction l as [|y l IH]; intros [|i]; cbn; auto. Qed.

Lemma nth_set_same {A} (x : A) l i : i < length l -> nth_error (set_nth i x l) i = Some x.
Proof. revert i. induction l as [|y l IH]; intros [|i] H; cbn in *; try lia; [reflexivity|apply IH; lia]. Qed.

Lemma nth_set_other {A} (x : A) l i j : i <> j -> nth_error (set_nth i x l) j = nth_error l j.
Proof. revert i j. induction l as [|y l IH]; intros [|i] [|j] H; cbn; try reflexivity; try lia. apply IH. lia. Qed.

Lemma nth_lt {A} (l : list A) i x : nth_error l i = Some x -> i < length l.
Proof. intros H. apply nth_error_Some. congruence. Qed.

Lemma nth_set {A} (x y : A) l i j : nth_error l i = Some y ->
  nth_error (set_nth i x l) j = if Nat.eqb i j then Some x else nth_error l j.
Proof.
  intros H. destruct (Nat.eqb_spec i j); [subst; apply nth_set_same; eapply nth_lt; exact H|apply nth_set_other; assumption].
Qed.

Lemma nth_snoc {A} (l : list A) x j :
  nth_error (l ++ [x]) j = if Nat.eqb j (length l) then Some x else nth_error l j.
Proof.
  destruct (Nat.eqb_spec j (length l)).
  - subst. rewrite nth_error_app2, Nat.sub_diag by lia. reflexivity.
  - destruct (lt_dec j (length l)); [apply nth_error_app1; assumption|].
    rewrite nth_error_app2 by lia. destruct (j - length l) as [|k] eqn:E; [lia|].
    cbn. destruct k; cbn; symmetry; apply nth_error_None; lia.
Qed.

Definition cnt {A} (f : A -> bool) (l : list A) : nat := length (filter f l).
Definition b2n (b : bool) : nat := if b then 1 else 0.

Arguments cnt : simpl never.
Lemma cnt_nil {A} (f : A -> bool) : cnt f [] = 0.
Proof. reflexivity. Qed.
Lemma cnt_cons {A} (f : A -> bool) x l : cnt f (x :: l) = b2n (f x) + cnt f l.
Proof. unfold cnt, b2n. cbn [filter]. destruct (f x); reflexivity. Qed.
Lemma cnt_app {A} (f : A -> bool) l1 l2 : cnt f (l1 ++ l2) = cnt f l1 + cnt f l2.
Proof. unfold cnt. rewrite filter_app, app_length. reflexivity. Qed.
Lemma cnt_zero {A} (f : A -> bool) l : (forall x, In x l -> f x = false) -> cnt f l = 0.
Proof.
  induction l as [|x l IH]; intros H; [reflexivity|].
  rewrite cnt_cons, (H x (or_introl eq_refl)), IH; [reflexivity|intros y I; apply H; right; exact I].
Qed.
Lemma cnt_zero_inv {A} (f : A -> bool) l x : cnt f l = 0 -> In x l -> f x = false.
Proof.
  induction l as [|y l IH]; intros H I; [destruct I|].
  rewrite cnt_cons in H. destruct I as [->|I]; [destruct (f x); [discriminate H|reflexivity]|apply IH; [lia|exact I]].
Qed.
Lemma cnt_pos {A} (f : A -> bool) l x : In x l -> f x = true -> 1 <= cnt f l.
Proof.
  intros I E. destruct (cnt f l) eqn:C; [|lia]. rewrite (cnt_zero_inv f l x C I) in E. discriminate.
Qed.
Lemma cnt_pos_inv {A} (f : A -> bool) l : 1 <= cnt f l -> exists x, In x l /\ f x = true.
Proof.
  induction l as [|x l IH]; cbn; intros H; [rewrite cnt_nil in H; lia|].
  rewrite cnt_cons in H. destruct (f x) eqn:E; [exists x; auto|].
  destruct (IH H) as (y & I & F). exists y. auto.
Qed.
Lemma cnt_set {A} (f : A -> bool) l i x y : nth_error l i = Some y ->
  cnt f (set_nth i x l) + b2n (f y) = cnt f l + b2n (f x).
Proof.
  revert i. induction l as [|z l IH]; intros [|i] H; cbn [nth_error] in H; try discriminate.
  - injection H as ->. cbn [set_nth]. rewrite !cnt_cons. lia.
  - cbn [set_nth]. rewrite !cnt_cons. specialize (IH i H). lia.
Qed.
Lemma cnt_ext {A} (f g : A -> bool) l : (forall x, In x l -> f x = g x) -> cnt f l = cnt g l.
Proof.
  induction l as [|x l IH]; intros H; [reflexivity|].
  rewrite !cnt_cons, (H x (or_introl eq_refl)), IH; [reflexivity|intros y I; apply H; right; exact I].
Qed.
Lemma cnt_le {A} (f g : A -> bool) l : (forall x, f x = true -> g x = true) -> cnt f l <= cnt g l.
Proof.
  intros H. induction l as [|x l IH]; [reflexivity|]. rewrite !cnt_cons.
  specialize (H x). destruct (f x), (g x); cbn; try lia; discriminate (H eq_refl).
Qed.
Lemma cnt_le_length {A} (f : A -> bool) l : cnt f l <= length l.
Proof. induction l as [|x l IH]; [reflexivity|]. rewrite cnt_cons. cbn. destruct (f x); cbn; lia. Qed.

(** Weighted sums over a list. *)
Fixpoint wsum {A} (f : A -> nat) (l : list A) : nat :=
  match l with [] => 0 | x :: l' => f x + wsum f l' end.
Lemma wsum_app {A} (f : A -> nat) l1 l2 : wsum f (l1 ++ l2) = wsum f l1 + wsum f l2.
Proof. induction l1 as [|x l IH]; cbn; [reflexivity|]. rewrite IH. lia. Qed.
Lemma wsum_set {A} (f : A -> nat) l i x y : nth_error l i = Some y ->
  wsum f (set_nth i x l) + f y = wsum f l + f x.
Proof.
  revert i. induction l as [|z l IH]; intros [|i] H; cbn in H; try discriminate.
  - injection H as ->. cbn. lia.
  - cbn. specialize (IH _ H). lia.
Qed.
Lemma wsum_zero {A} (f : A -> nat) l : (forall x, In x l -> f x = 0) -> wsum f l = 0.
Proof.
  induction l as [|x l IH]; intros H; cbn; [reflexivity|].
  rewrite (H x (or_introl eq_refl)), IH; [reflexivity|intros y I; apply H; right; exact I].
Qed.
Lemma wsum_nth {A} (f : A -> nat) l i x : nth_error l i = Some x -> f x <= wsum f l.
Proof.
  revert i. induction l as [|y l IH]; intros [|i] H; cbn in H; try discriminate; cbn.
  - injection H as ->. lia.
  - specialize (IH _ H). lia.
Qed.

Lemma in_set_nth {A} (x y : A) l i : In y (set_nth i x l) -> y = x \/ In y l.
Proof.
  revert i. induction l as [|z l IH]; intros [|i]; cbn; auto.
  - intros [<-|H]; auto.
  - intros [<-|H]; auto. destruct (IH _ H); auto.
Qed.

Lemma prefix_snoc {A} (l1 l2 l : list A) x : l1 ++ l2 = l ++ [x] ->
  (l2 = [] /\ l1 = l ++ [x]) \/ exists l2', l2 = l2' ++ [x] /\ l = l1 ++ l2'.
Proof.
  intros E. destruct l2 as [|y l2 _] using rev_ind.
  - left. split; [reflexivity|]. rewrite app_nil_r in E. exact E.
  - right. exists l2. rewrite app_assoc in E. apply app_inj_tail in E as [E ->]. auto.
Qed.

