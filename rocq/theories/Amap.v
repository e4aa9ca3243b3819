(** Association lists keyed by nat: the model of std::map / std::unordered_map used by the stateful models.
    Insertion order is kept (the code never depends on the key order of its maps). *)
From Coq Require Export List Arith Lia Bool NArith.
Export ListNotations.

Definition amap (V : Type) := list (nat * V).

Fixpoint get {V} (k : nat) (m : amap V) : option V :=
  match m with
  | [] => None
  | (k', v) :: m' => if Nat.eqb k k' then Some v else get k m'
  end.

(** operator[] = v *)
Fixpoint put {V} (k : nat) (v : V) (m : amap V) : amap V :=
  match m with
  | [] => [(k, v)]
  | (k', v') :: m' => if Nat.eqb k k' then (k, v) :: m' else (k', v') :: put k v m'
  end.

(** erase(k) *)
Fixpoint del {V} (k : nat) (m : amap V) : amap V :=
  match m with
  | [] => []
  | (k', v') :: m' => if Nat.eqb k k' then del k m' else (k', v') :: del k m'
  end.

Definition get_or {V} (d : V) (k : nat) (m : amap V) : V :=
  match get k m with Some v => v | None => d end.

Definition keys {V} (m : amap V) : list nat := map fst m.

Lemma get_put_same {V} k (v : V) m : get k (put k v m) = Some v.
Proof.
  induction m as [|[k' v'] m IH]; cbn.
  - rewrite Nat.eqb_refl. reflexivity.
  - destruct (Nat.eqb_spec k k'); cbn; [rewrite Nat.eqb_refl; reflexivity|].
    destruct (Nat.eqb_spec k k'); [contradiction|exact IH].
Qed.

Lemma get_put_other {V} k k' (v : V) m : k <> k' -> get k (put k' v m) = get k m.
Proof.
  intros H. induction m as [|[k2 v2] m IH]; cbn.
  - destruct (Nat.eqb_spec k k'); [contradiction|reflexivity].
  - destruct (Nat.eqb_spec k' k2); cbn.
    + subst. destruct (Nat.eqb_spec k k2); [contradiction|reflexivity].
    + rewrite IH. reflexivity.
Qed.

Lemma get_put {V} k k' (v : V) m : get k (put k' v m) = if Nat.eqb k k' then Some v else get k m.
Proof.
  destruct (Nat.eqb_spec k k'); [subst; apply get_put_same|apply get_put_other; assumption].
Qed.

Lemma get_del {V} k k' (m : amap V) : get k (del k' m) = if Nat.eqb k k' then None else get k m.
Proof.
  induction m as [|[k2 v2] m IH]; cbn.
  - destruct (Nat.eqb k k'); reflexivity.
  - destruct (Nat.eqb_spec k' k2).
    + rewrite IH. subst. destruct (Nat.eqb_spec k k2); reflexivity.
    + cbn. rewrite IH. destruct (Nat.eqb_spec k k2), (Nat.eqb_spec k k'); subst; try reflexivity. contradiction.
Qed.

Lemma get_in {V} k (v : V) m : get k m = Some v -> In (k, v) m.
Proof.
  induction m as [|[k' v'] m IH]; cbn; [discriminate|].
  destruct (Nat.eqb_spec k k'); [intros [= <-]; left; congruence|intros H; right; auto].
Qed.

Lemma get_none {V} k (m : amap V) : get k m = None <-> ~ In k (keys m).
Proof.
  induction m as [|[k' v'] m IH]; cbn; [tauto|].
  destruct (Nat.eqb_spec k k').
  - subst. split; [discriminate|]. intros H. exfalso. apply H. left. reflexivity.
  - rewrite IH. split; intros H; [intros [E|E]; [congruence|tauto]|intros E; apply H; right; exact E].
Qed.

Lemma in_keys_put {V} k k' (v : V) m : In k (keys (put k' v m)) <-> k = k' \/ In k (keys m).
Proof.
  induction m as [|[k2 v2] m IH]; cbn.
  - split; [intros [->|[]]; auto|intros [->|[]]; auto].
  - destruct (Nat.eqb_spec k' k2); cbn.
    + subst. split; [intros [->|H]; auto|intros [->|[->|H]]; auto].
    + rewrite IH. split; [intros [->|[->|H]]; auto|intros [->|[->|H]]; auto].
Qed.

Lemma in_keys_del {V} k k' (m : amap V) : In k (keys (del k' m)) <-> k <> k' /\ In k (keys m).
Proof.
  induction m as [|[k2 v2] m IH]; cbn; [tauto|].
  destruct (Nat.eqb_spec k' k2); cbn.
  - subst. rewrite IH. split; [intros [H1 H2]; auto|intros [H1 [->|H2]]; [contradiction|auto]].
  - rewrite IH. split; [intros [->|[H1 H2]]; auto|intros [H1 [->|H2]]; auto].
Qed.

Lemma nodup_put {V} k (v : V) m : NoDup (keys m) -> NoDup (keys (put k v m)).
Proof.
  induction m as [|[k2 v2] m IH]; cbn; intros H.
  - constructor; [intros []|constructor].
  - inversion H as [|? ? Hn Hd]; subst. destruct (Nat.eqb_spec k k2); cbn; [subst; constructor; assumption|].
    constructor; [|apply IH; exact Hd]. intros I. apply in_keys_put in I as [E|I]; [congruence|contradiction].
Qed.

Lemma nodup_del {V} k (m : amap V) : NoDup (keys m) -> NoDup (keys (del k m)).
Proof.
  induction m as [|[k2 v2] m IH]; cbn; intros H; [constructor|].
  inversion H as [|? ? Hn Hd]; subst. destruct (Nat.eqb_spec k k2); cbn; [apply IH; exact Hd|].
  constructor; [|apply IH; exact Hd]. intros I. apply in_keys_del in I as [_ I]. contradiction.
Qed.

Lemma in_get {V} k (v : V) m : NoDup (keys m) -> In (k, v) m -> get k m = Some v.
Proof.
  induction m as [|[k2 v2] m IH]; cbn; intros H I; [contradiction|].
  inversion H as [|? ? Hn Hd]; subst. destruct I as [E|I].
  - injection E as -> ->. rewrite Nat.eqb_refl. reflexivity.
  - destruct (Nat.eqb_spec k k2); [|apply IH; assumption].
    subst. exfalso. apply Hn. change k2 with (fst (k2, v)). apply in_map. exact I.
Qed.

Lemma get_or_put {V} (d : V) k k' v m : get_or d k (put k' v m) = if Nat.eqb k k' then v else get_or d k m.
Proof. unfold get_or. rewrite get_put. destruct (Nat.eqb k k'); reflexivity. Qed.

Lemma get_or_del {V} (d : V) k k' (m : amap V) : get_or d k (del k' m) = if Nat.eqb k k' then d else get_or d k m.
Proof. unfold get_or. rewrite get_del. destruct (Nat.eqb k k'); reflexivity. Qed.

(** std::set<nat> as a duplicate-free list *)
Definition mem (x : nat) (s : list nat) : bool := existsb (Nat.eqb x) s.
Definition set_add (x : nat) (s : list nat) : list nat := if mem x s then s else s ++ [x].
Definition set_del (x : nat) (s : list nat) : list nat := filter (fun y => negb (Nat.eqb x y)) s.

Lemma mem_in x s : mem x s = true <-> In x s.
Proof.
  unfold mem. rewrite existsb_exists. split.
  - intros (y & H & E). apply Nat.eqb_eq in E. subst. exact H.
  - intros H. exists x. split; [exact H|apply Nat.eqb_refl].
Qed.

Lemma mem_app x a b : mem x (a ++ b) = mem x a || mem x b.
Proof. unfold mem. apply existsb_app. Qed.

Lemma mem_set_add x y s : mem x (set_add y s) = Nat.eqb x y || mem x s.
Proof.
  unfold set_add. destruct (mem y s) eqn:E.
  - destruct (Nat.eqb_spec x y); [subst; rewrite E; reflexivity|reflexivity].
  - rewrite mem_app. cbn. rewrite orb_false_r, orb_comm. reflexivity.
Qed.

Lemma mem_set_del x y s : mem x (set_del y s) = negb (Nat.eqb x y) && mem x s.
Proof.
  unfold set_del, mem. induction s as [|z s IH]; cbn; [rewrite andb_false_r; reflexivity|].
  destruct (Nat.eqb_spec y z); cbn.
  - rewrite IH. subst. destruct (Nat.eqb_spec x z); reflexivity.
  - rewrite IH. destruct (Nat.eqb_spec x z), (Nat.eqb_spec x y); subst; cbn; try reflexivity. contradiction.
Qed.
