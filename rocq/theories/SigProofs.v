(** Invariants of the signal model: slots, owners, connections. *)
From Verif Require Import SigModel SigSpec.

Lemma final_snoc m h l : final m (h ++ [l]) = next m (final m h) l.
Proof. unfold final. rewrite fold_left_app. reflexivity. Qed.
Lemma state_ind m (P : state -> Prop) : P init -> (forall st l, P st -> P (next m st l)) -> forall h, P (final m h).
Proof. intros I S h. induction h as [|l h IH] using rev_ind; [exact I|]. rewrite final_snoc. apply S. exact IH. Qed.

(** ** Lists of entries *)
Lemma has_cnt s l : has s l = negb (Nat.eqb (cnt (is_slot s) l) 0).
Proof.
  induction l as [|x l IH]; [reflexivity|]. unfold has in *. cbn [existsb]. rewrite cnt_cons, IH. destruct (is_slot s x); reflexivity.
Qed.
Lemma has_pos s l : has s l = true -> 1 <= cnt (is_slot s) l.
Proof. rewrite has_cnt. destruct (cnt _ _); [discriminate|lia]. Qed.
Lemma has_zero s l : has s l = false -> cnt (is_slot s) l = 0.
Proof. rewrite has_cnt. destruct (cnt _ _); [reflexivity|discriminate]. Qed.
Lemma has_app s l1 l2 : has s (l1 ++ l2) = has s l1 || has s l2.
Proof. apply existsb_app. Qed.

Lemma cnt_erase s s' l : cnt (is_slot s') (erase s l) = cnt (is_slot s') l - (if Nat.eqb s s' then b2n (has s l) else 0).
Proof.
  induction l as [|x l IH]; [destruct (Nat.eqb s s'); reflexivity|]. cbn [erase]. unfold has in *. cbn [existsb].
  destruct (is_slot s x) eqn:E.
  - cbn [orb b2n]. rewrite cnt_cons. destruct x as [[k s2]|]; [|discriminate]. cbn in E. apply Nat.eqb_eq in E. subst s2.
    unfold is_slot at 2. rewrite (Nat.eqb_sym s' s). destruct (Nat.eqb s s'); cbn [b2n]; lia.
  - cbn [orb]. rewrite !cnt_cons, IH. destruct (Nat.eqb s s') eqn:Q; [|lia].
    apply Nat.eqb_eq in Q. subst s'. rewrite E. cbn [b2n]. lia.
Qed.
Lemma cnt_blank s s' l : cnt (is_slot s') (blank s l) = cnt (is_slot s') l - (if Nat.eqb s s' then b2n (has s l) else 0).
Proof.
  induction l as [|x l IH]; [destruct (Nat.eqb s s'); reflexivity|]. cbn [blank]. unfold has in *. cbn [existsb].
  destruct (is_slot s x) eqn:E.
  - cbn [orb b2n]. rewrite !cnt_cons. destruct x as [[k s2]|]; [|discriminate]. cbn in E. apply Nat.eqb_eq in E. subst s2.
    cbn [is_slot b2n]. rewrite (Nat.eqb_sym s' s). destruct (Nat.eqb s s'); cbn [b2n]; lia.
  - cbn [orb]. rewrite !cnt_cons, IH. destruct (Nat.eqb s s') eqn:Q; [|lia].
    apply Nat.eqb_eq in Q. subst s'. rewrite E. cbn [b2n]. lia.
Qed.

Definition rest (m : mode) (n : bool) (s : nat) (l : list entry) : list entry :=
  match m with Single => [] | Multi => if n then blank s l else erase s l end.
Lemma cnt_rest m n s s' l : cnt (is_slot s') (rest m n s l) <= cnt (is_slot s') l.
Proof. unfold rest. destruct m; [destruct n; rewrite ?cnt_blank, ?cnt_erase; lia|rewrite cnt_nil; lia]. Qed.
Lemma cnt_rest_same m n s l : has s l = true -> cnt (is_slot s) (rest m n s l) <= cnt (is_slot s) l - 1.
Proof.
  intros H. unfold rest. destruct m; [|rewrite cnt_nil; lia].
  destruct n; rewrite ?cnt_blank, ?cnt_erase, Nat.eqb_refl, H; cbn [b2n]; lia.
Qed.

(** ** The connection invariant *)
Definition strong (st : state) (s : nat) : nat := cnt (is_slot s) (entries st) + cnt (is_ptr s) (conns st).

Record J (st : state) : Prop := {
  j_ent : forall s, has s (entries st) = true -> s < length (kinds st);
  j_ref : forall c s, nth_error (conns st) c = Some (CRef (Some s)) -> s < length (kinds st);
  j_ptr : forall c s, nth_error (conns st) c = Some (CPtr s) -> s < length (kinds st);
  j_held : forall s, In s (held st) -> nth_error (kinds st) s = Some KPtr;
  j_one : forall s, nth_error (kinds st) s <> Some KPtr -> strong st s <= 1;
  j_own : forall s k c, nth_error (kinds st) s = Some k -> owns_con c k = true -> c < length (conns st);
  j_two : forall s s' k k' c, nth_error (kinds st) s = Some k -> owns_con c k = true ->
    nth_error (kinds st) s' = Some k' -> owns_con c k' = true -> s = s';
  j_trk : forall s o c, nth_error (kinds st) s = Some (KTracked o c) ->
    nth_error (conns st) c = Some (CRef (Some s)) \/ (nth_error (conns st) c = Some (CRef None) /\ strong st s = 0);
  j_hub : em st <> None -> hub st = true
}.

Lemma J_same st st' : J st -> entries st' = entries st -> conns st' = conns st -> kinds st' = kinds st -> held st' = held st ->
  (em st' <> None -> hub st' = true) -> J st'.
Proof.
  intros [A B B2 C D E F G H] e1 e2 e3 e4 e5. split; unfold strong in *; rewrite ?e1, ?e2, ?e3, ?e4; auto.
Qed.
Lemma J_emit st l : J st -> J (emit st l).
Proof. intros I. eapply J_same; eauto. apply I. Qed.
Lemma J_em st b e : J st -> (e <> None -> hub st = true) -> J (with_em st b e).
Proof. intros I H. eapply J_same; eauto. Qed.
Lemma J_emno st n : J st -> J (with_emno st n).
Proof. intros I. eapply J_same; eauto. apply I. Qed.
Lemma J_dead st n : J st -> J (with_dead st n).
Proof. intros I. eapply J_same; eauto. apply I. Qed.
Lemma J_crash st : J st -> J (crash st).
Proof. intros I. eapply J_same; eauto. apply I. Qed.

(** Fewer entries. *)
Lemma J_fewer st l : J st -> (forall s, cnt (is_slot s) l <= cnt (is_slot s) (entries st)) -> J (with_entries st l).
Proof.
  intros [A B B2 C D E F G H] L. split; cbn; auto.
  - intros s X. apply A. rewrite has_cnt in *. specialize (L s). destruct (cnt (is_slot s) l), (cnt (is_slot s) (entries st)); try discriminate; try lia; reflexivity.
  - intros s X. specialize (D s X). unfold strong in *. cbn. specialize (L s). lia.
  - intros s o c X. destruct (G s o c X) as [Y|[Y Z]]; [left; exact Y|right]. split; [exact Y|]. unfold strong in *. cbn. specialize (L s). lia.
Qed.
Lemma J_remove m st s : J st -> J (remove m st s).
Proof. intros I. apply J_emit. apply J_fewer; [exact I|]. intros s'. exact (cnt_rest m (notif st) s s' (entries st)). Qed.
Lemma J_held_less st l : J st -> incl l (held st) -> J (with_held st l).
Proof. intros [A B B2 C D E F G H] L. split; cbn; auto. Qed.

Lemma nth_none_ge {A} (l : list A) i : nth_error l i = None -> length l <= i.
Proof. apply nth_error_None. Qed.

(** A new connection that refers to [x]. *)
Lemma J_con st x : J st -> (forall s, x = Some s -> s < length (kinds st)) -> J (with_conns st (conns st ++ [CRef x])).
Proof.
  intros [A B B2 C D E F G H] L. split; cbn; auto.
  - intros c s. rewrite nth_snoc. destruct (Nat.eqb c (length (conns st))); [intros [= ->]; auto|apply B].
  - intros c s. rewrite nth_snoc. destruct (Nat.eqb c (length (conns st))); [discriminate|apply B2].
  - intros s X. specialize (D s X). unfold strong in *. cbn. rewrite cnt_app, cnt_cons, cnt_nil. cbn. lia.
  - intros s k c X Y. rewrite app_length. cbn. specialize (E s k c X Y). lia.
  - intros s o c X. assert (Lc : c < length (conns st)) by (apply (E s (KTracked o c)); [exact X|cbn; apply Nat.eqb_refl]).
    rewrite nth_snoc. replace (Nat.eqb c (length (conns st))) with false by (symmetry; apply Nat.eqb_neq; lia).
    unfold strong. cbn. rewrite cnt_app, cnt_cons, cnt_nil. cbn. rewrite !Nat.add_0_r. exact (G s o c X).
Qed.

(** A new slot. *)
Lemma fresh_strong st s : J st -> length (kinds st) <= s -> strong st s = 0.
Proof.
  intros I L. unfold strong. rewrite (has_zero s (entries st)).
  - cbn. apply cnt_zero. intros x X. apply In_nth_error in X as (c & X). destruct x as [r|s'|]; try reflexivity. cbn.
    apply Nat.eqb_neq. intros ->. apply (j_ptr _ I) in X. lia.
  - destruct (has s (entries st)) eqn:X; [|reflexivity]. apply (j_ent _ I) in X. lia.
Qed.
Lemma J_slot st k h : J st -> (k = KPlain \/ k = KPtr) -> (h = held st \/ (k = KPtr /\ h = length (kinds st) :: held st)) -> J (with_held (with_kinds st (kinds st ++ [k])) h).
Proof.
  intros I K HH. pose proof I as [A B B2 C D E F G H]. split; cbn; auto; try rewrite app_length; cbn.
  - intros s X. specialize (A s X). lia.
  - intros c s X. specialize (B c s X). lia.
  - intros c s X. specialize (B2 c s X). lia.
  - intros s X. rewrite nth_snoc. destruct (Nat.eqb s (length (kinds st))) eqn:Q.
    + destruct HH as [->|[-> ->]]; [|reflexivity]. apply C in X. apply nth_lt in X. apply Nat.eqb_eq in Q. lia.
    + destruct HH as [->|[-> ->]]; [auto|]. destruct X as [<-|X]; [rewrite Nat.eqb_refl in Q; discriminate|auto].
  - intros s X. destruct (Nat.eqb s (length (kinds st))) eqn:Q.
    + apply Nat.eqb_eq in Q. subst. pose proof (fresh_strong st (length (kinds st)) I (le_n _)). unfold strong in *. cbn. lia.
    + rewrite nth_snoc, Q in X. exact (D s X).
  - intros s k' c. rewrite nth_snoc. destruct (Nat.eqb s (length (kinds st))); [intros [= <-]; destruct K as [->| ->]; discriminate|apply E].
  - intros s s' k1 k2 c. rewrite !nth_snoc. destruct (Nat.eqb s (length (kinds st))); [intros [= <-]; destruct K as [->| ->]; discriminate|].
    destruct (Nat.eqb s' (length (kinds st))); [intros _ _ [= <-]; destruct K as [->| ->]; discriminate|apply F].
  - intros s o c. rewrite nth_snoc. destruct (Nat.eqb s (length (kinds st))); [intros [= Y]; destruct K; congruence|]. intros X. exact (G s o c X).
Qed.
Lemma J_aware st k : J st -> let c := length (conns st) in (k = KAware c \/ exists o, k = KTracked o c) ->
  J (with_conns (with_kinds st (kinds st ++ [k])) (conns st ++ [CRef (Some (length (kinds st)))])).
Proof.
  intros I c K. pose proof I as [A B B2 C D E F G H].
  assert (OC : forall c', owns_con c' k = true -> c' = c).
  { intros c' X. destruct K as [->|[o ->]]; cbn in X; apply Nat.eqb_eq in X; exact X. }
  pose proof (fresh_strong st (length (kinds st)) I (le_n _)) as FR.
  split; cbn; auto; try rewrite app_length; cbn.
  - intros s X. specialize (A s X). lia.
  - intros c' s. rewrite nth_snoc. destruct (Nat.eqb c' (length (conns st))); [intros [= <-]; lia|]. intros X. specialize (B c' s X). lia.
  - intros c' s. rewrite nth_snoc. destruct (Nat.eqb c' (length (conns st))); [discriminate|]. intros X. specialize (B2 c' s X). lia.
  - intros s X. rewrite nth_snoc. destruct (Nat.eqb s (length (kinds st))) eqn:Q; [|auto].
    apply C in X. apply nth_lt in X. apply Nat.eqb_eq in Q. lia.
  - intros s X. unfold strong in *. cbn. rewrite cnt_app, cnt_cons, cnt_nil. cbn. destruct (Nat.eqb s (length (kinds st))) eqn:Q.
    + apply Nat.eqb_eq in Q. subst. lia.
    + rewrite nth_snoc, Q in X. specialize (D s X). lia.
  - intros s k' c'. rewrite nth_snoc, ?app_length. cbn. destruct (Nat.eqb s (length (kinds st))).
    + intros [= <-] X. apply OC in X. subst c'. unfold c. lia.
    + intros X Y. specialize (E s k' c' X Y). lia.
  - intros s s' k1 k2 c'. rewrite !nth_snoc. destruct (Nat.eqb s (length (kinds st))) eqn:Q1; destruct (Nat.eqb s' (length (kinds st))) eqn:Q2.
    + apply Nat.eqb_eq in Q1, Q2. congruence.
    + intros [= <-] X Y Z. apply OC in X. specialize (E s' k2 c' Y Z). unfold c in X. lia.
    + intros Y Z [= <-] X. apply OC in X. specialize (E s k1 c' Y Z). unfold c in X. lia.
    + apply F.
  - intros s o c'. rewrite nth_snoc. destruct (Nat.eqb s (length (kinds st))) eqn:Q.
    + intros [= ->]. left. assert (c' = c) by (apply OC; cbn; apply Nat.eqb_refl). subst c'. rewrite nth_snoc. unfold c. rewrite Nat.eqb_refl.
      apply Nat.eqb_eq in Q. subst s. reflexivity.
    + intros X. assert (Lc : c' < length (conns st)) by (apply (E s (KTracked o c')); [exact X|cbn; apply Nat.eqb_refl]).
      rewrite nth_snoc. replace (Nat.eqb c' (length (conns st))) with false by (symmetry; apply Nat.eqb_neq; lia).
      unfold strong. cbn. rewrite cnt_app, cnt_cons, cnt_nil. cbn. rewrite !Nat.add_0_r. exact (G s o c' X).
Qed.

(** A new entry. *)
Lemma J_add st s : J st -> s < length (kinds st) -> (nth_error (kinds st) s = Some KPtr \/ (strong st s = 0 /\
    forall o c, nth_error (kinds st) s = Some (KTracked o c) -> nth_error (conns st) c = Some (CRef (Some s)))) -> J (add st s).
Proof.
  intros [A B B2 C D E F G H] L W. apply J_emit. split; cbn; auto.
  - intros s'. rewrite has_app. unfold has at 2. cbn [existsb is_slot]. rewrite !orb_false_r. destruct (Nat.eqb s' s) eqn:Q; [apply Nat.eqb_eq in Q; subst; auto|].
    rewrite orb_false_r. apply A.
  - intros s' X. unfold strong in *. cbn. rewrite cnt_app, cnt_cons, cnt_nil. cbn. specialize (D s' X). destruct (Nat.eqb s' s) eqn:Q; cbn; [|lia].
    apply Nat.eqb_eq in Q. subst. destruct W as [W|[W _]]; [contradiction|]. lia.
  - intros s' o c X. unfold strong. cbn. rewrite cnt_app, cnt_cons, cnt_nil. cbn. destruct (Nat.eqb s' s) eqn:Q; cbn.
    + apply Nat.eqb_eq in Q. subst. destruct W as [W|[_ W]]; [congruence|]. left. exact (W o c X).
    + destruct (G s' o c X) as [Y|[Y Z]]; [left; exact Y|right; split; [exact Y|]]. unfold strong in Z. lia.
Qed.

(** An external connection, or the one of an aware slot, changes. *)
Lemma J_set st c x y : J st -> nth_error (conns st) c = Some y -> hidden st c = false ->
  (forall s, x = CRef (Some s) -> s < length (kinds st)) ->
  (forall s, x = CPtr s -> s < length (kinds st) /\ (nth_error (kinds st) s <> Some KPtr -> strong st s = b2n (is_ptr s y))) ->
  (forall s o c', x = CPtr s -> nth_error (kinds st) s = Some (KTracked o c') -> nth_error (conns st) c' = Some (CRef (Some s))) ->
  J (set_con st c x).
Proof.
  intros I N HD X1 X2 X3. pose proof I as [A B B2 C D E F G H]. unfold set_con.
  assert (ST : forall s, cnt (is_ptr s) (set_nth c x (conns st)) + b2n (is_ptr s y) = cnt (is_ptr s) (conns st) + b2n (is_ptr s x)).
  { intros s. apply cnt_set. exact N. }
  split; cbn; auto; try rewrite length_set_nth; auto.
  - intros c' s. rewrite (nth_set x y _ _ _ N). destruct (Nat.eqb c c'); [intros [= ->]; auto|apply B].
  - intros c' s. rewrite (nth_set x y _ _ _ N). destruct (Nat.eqb c c'); [|apply B2]. intros [= ->]. apply X2. reflexivity.
  - intros s X. unfold strong in *. cbn. specialize (D s X). specialize (ST s). destruct (is_ptr s x) eqn:Q; cbn [b2n] in *.
    + destruct x as [r|s'|]; try discriminate. cbn in Q. apply Nat.eqb_eq in Q. subst s'. destruct (X2 s eq_refl) as [_ Y]. specialize (Y X). lia.
    + lia.
  - intros s o c' X. assert (CN : c <> c').
    { intros <-. unfold hidden in HD. assert (T : existsb (hides_con c) (kinds st) = true); [|congruence].
      apply existsb_exists. exists (KTracked o c). split; [eapply nth_error_In; eauto|]. cbn. apply Nat.eqb_refl. }
    rewrite nth_set_other by exact CN. destruct (G s o c' X) as [Y|[Y Z]]; [left; exact Y|].
    unfold strong in *. cbn. specialize (ST s). destruct (is_ptr s x) eqn:Q; cbn [b2n] in *; [|right; split; [exact Y|lia]].
    destruct x as [r|s'|]; try discriminate. cbn in Q. apply Nat.eqb_eq in Q. subst s'. left. exact (X3 s o c' eq_refl X).
Qed.

Lemma strong_pos_slot st s : has s (entries st) = true -> 1 <= strong st s.
Proof. intros H. apply has_pos in H. unfold strong. lia. Qed.
Lemma strong_pos_ptr st c s : nth_error (conns st) c = Some (CPtr s) -> 1 <= strong st s.
Proof.
  intros H. unfold strong. assert (1 <= cnt (is_ptr s) (conns st)); [|lia].
  eapply cnt_pos; [eapply nth_error_In; eauto|]. cbn. apply Nat.eqb_refl.
Qed.
Lemma strong_remove m st s : J st -> nth_error (kinds st) s <> Some KPtr -> has s (entries st) = true -> strong (remove m st s) s = 0.
Proof.
  intros I K H. pose proof (j_one _ I s K) as O. pose proof (has_pos _ _ H). pose proof (cnt_rest_same m (notif st) s (entries st) H) as R.
  unfold strong in *. cbn. unfold rest in R. lia.
Qed.

Lemma J_disconnect m st c : J st -> hidden st c = false -> J (fst (disconnect m st c)).
Proof.
  intros I HD. unfold disconnect. destruct (nth_error (conns st) c) as [[[s|]|s|]|] eqn:N; try exact I.
  destruct (owned st s); [|exact I]. destruct (hub st); cbn [fst].
  - destruct (has s (entries st)) eqn:P; [|exact I]. cbn [fst]. eapply J_set; [apply J_remove; exact I|exact N|exact HD| | |].
    + discriminate.
    + intros s' [= <-]. split; [exact (j_ref _ I _ _ N)|]. intros K. cbn. apply strong_remove; auto.
    + intros s' o c' [= <-] T. cbn. destruct (j_trk _ I s o c' T) as [Y|[_ Z]]; [exact Y|]. pose proof (strong_pos_slot _ _ P). lia.
  - eapply J_set; [exact I|exact N|exact HD| | |]; discriminate.
Qed.

Lemma hidden_no st s o c c' : hidden st c = false -> nth_error (kinds st) s = Some (KTracked o c') -> c <> c'.
Proof.
  intros HD X <-. unfold hidden in HD. assert (T : existsb (hides_con c) (kinds st) = true); [|congruence].
  apply existsb_exists. exists (KTracked o c). split; [eapply nth_error_In; eauto|]. cbn. apply Nat.eqb_refl.
Qed.

Lemma strong_set st c s x y : nth_error (conns st) c = Some y -> strong (set_con st c x) s + b2n (is_ptr s y) = strong st s + b2n (is_ptr s x).
Proof. intros N. unfold strong. cbn. pose proof (cnt_set (is_ptr s) (conns st) c x y N). lia. Qed.

Lemma J_reconnect m st c : J st -> hidden st c = false -> J (fst (reconnect m st c)).
Proof.
  intros I HD. unfold reconnect. destruct (nth_error (conns st) c) as [[|s|]|] eqn:N; try exact I.
  destruct (hub st); [|exact I]. pose proof (j_ptr _ I _ _ N) as Ls. pose proof (strong_pos_ptr _ _ _ N) as SP.
  assert (I1 : forall x, J (set_con st c (CRef (match x : bool with true => Some s | false => None end)))).
  { intros x. eapply J_set; [exact I|exact N|exact HD| | |]; try discriminate. intros s' X. destruct x; [|discriminate]. injection X as <-. exact Ls. }
  destruct (can_add_unique m (entries st) s); cbn [fst]; [|exact (I1 false)].
  change (J (add (set_con st c (CRef (Some s))) s)). apply J_add; [exact (I1 true)|exact Ls|]. cbn [kinds conns set_con with_conns].
  destruct (nth_error (kinds st) s) as [k|] eqn:K; [|apply nth_none_ge in K; lia].
  assert (D : k = KPtr \/ k <> KPtr) by (destruct k; auto; right; discriminate). destruct D as [->|D]; [left; reflexivity|right].
  split.
  - pose proof (strong_set st c s (CRef (Some s)) _ N) as X. cbn [is_ptr] in X. rewrite Nat.eqb_refl in X. cbn [b2n] in X.
    assert (nth_error (kinds st) s <> Some KPtr) by congruence. pose proof (j_one _ I s H). lia.
  - intros o c' X. rewrite nth_set_other by (eapply hidden_no; [exact HD|rewrite K; exact X]).
    destruct (j_trk _ I s o c') as [Y|[_ Z]]; [congruence|exact Y|lia].
Qed.

Lemma J_expire st s o c : J st -> nth_error (kinds st) s = Some (KTracked o c) -> strong st s = 0 -> J (set_con st c (CRef None)).
Proof.
  intros I K Z. pose proof I as [A B B2 C D E F G H].
  assert (Lc : c < length (conns st)) by (apply (E s (KTracked o c)); [exact K|cbn; apply Nat.eqb_refl]).
  destruct (nth_error (conns st) c) as [y|] eqn:N; [|apply nth_none_ge in N; lia].
  assert (ST : forall s', strong (set_con st c (CRef None)) s' <= strong st s').
  { intros s'. pose proof (strong_set st c s' (CRef None) y N) as X. cbn [is_ptr b2n] in X. lia. }
  split; cbn; auto; try rewrite length_set_nth; auto.
  - intros c' s'. rewrite (nth_set _ _ _ _ _ N). destruct (Nat.eqb c c'); [discriminate|apply B].
  - intros c' s'. rewrite (nth_set _ _ _ _ _ N). destruct (Nat.eqb c c'); [discriminate|apply B2].
  - intros s' X. specialize (D s' X). specialize (ST s'). lia.
  - intros s' o' c' X. rewrite (nth_set _ _ _ _ _ N). destruct (Nat.eqb c c') eqn:Q.
    + apply Nat.eqb_eq in Q. subst c'. right. split; [reflexivity|]. assert (s' = s).
      { eapply (F s' s _ _ c X); [|exact K|]; cbn; apply Nat.eqb_refl. }
      subst s'. specialize (ST s). lia.
    + destruct (G s' o' c' X) as [Y|[Y Y2]]; [left; exact Y|right; split; [exact Y|]]. specialize (ST s'). lia.
Qed.

Lemma set_nth_twice {A} i (x y : A) l : set_nth i y (set_nth i x l) = set_nth i y l.
Proof. revert i. induction l as [|z l IH]; intros [|i]; cbn; try reflexivity. rewrite IH. reflexivity. Qed.

(** The slot of a dead object leaves. *)
Definition expire (m : mode) (st : state) (c : nat) : state :=
  let st1 := fst (disconnect m st c) in match nth_error (conns st1) c with Some (CPtr _) => set_con st1 c (CRef None) | _ => st1 end.
Lemma expire_eq m st s o c : J st -> nth_error (kinds st) s = Some (KTracked o c) -> has s (entries st) = true -> hub st = true ->
  expire m st c = set_con (remove m st s) c (CRef None).
Proof.
  intros I K P HB. destruct (j_trk _ I s o c K) as [N|[_ Z]]; [|pose proof (strong_pos_slot _ _ P); lia].
  unfold expire, disconnect. rewrite N. assert (O : owned st s = true) by (unfold owned; rewrite P; reflexivity). rewrite O, HB, P. cbn [fst].
  assert (N2 : nth_error (conns (set_con (remove m st s) c (CPtr s))) c = Some (CPtr s)).
  { cbn. apply nth_set_same. apply nth_lt in N. exact N. }
  rewrite N2. unfold set_con, with_conns. cbn. rewrite set_nth_twice. reflexivity.
Qed.

Lemma J_expired m st s o c : J st -> nth_error (kinds st) s = Some (KTracked o c) -> has s (entries st) = true -> hub st = true -> J (expire m st c).
Proof.
  intros I K P HB. rewrite (expire_eq m st s o c I K P HB). eapply J_expire; [apply J_remove; exact I|exact K|].
  apply strong_remove; auto. congruence.
Qed.

Lemma internal_hidden st c : internal st c = false -> hidden st c = false.
Proof.
  unfold internal, hidden. destruct (existsb (hides_con c) (kinds st)) eqn:X; [|reflexivity]. intros Y.
  apply existsb_exists in X as (k & K & X). assert (T : existsb (owns_con c) (kinds st) = true); [|congruence].
  apply existsb_exists. exists k. split; [exact K|]. destruct k; try discriminate. exact X.
Qed.

Lemma aware_visible st s c : J st -> nth_error (kinds st) s = Some (KAware c) -> hidden st c = false.
Proof.
  intros I K. unfold hidden. destruct (existsb (hides_con c) (kinds st)) eqn:X; [|reflexivity]. exfalso.
  apply existsb_exists in X as (k & Y & X). apply In_nth_error in Y as (s' & Y).
  assert (s = s'). { eapply (j_two _ I s s' _ _ c K); [cbn; apply Nat.eqb_refl|exact Y|]. destruct k; try discriminate. exact X. }
  subst. rewrite K in Y. injection Y as <-. discriminate.
Qed.

Lemma J_gone st c : J st -> internal st c = false -> J (set_con st c CGone).
Proof.
  intros I H. destruct (nth_error (conns st) c) as [y|] eqn:N.
  - eapply J_set; [exact I|exact N|apply internal_hidden; exact H| | |]; discriminate.
  - replace (set_con st c CGone) with st; [exact I|]. unfold set_con, with_conns. destruct st; cbn in *. f_equal.
    clear -N. revert c N. induction conns as [|z l IH]; intros [|c] N; cbn in *; try discriminate; try reflexivity. f_equal. apply IH. exact N.
Qed.

Lemma J_save m st t a s : J st -> s < length (kinds st) -> (nth_error (kinds st) s = Some KPtr \/ (strong st s = 0 /\
    forall o c, nth_error (kinds st) s = Some (KTracked o c) -> nth_error (conns st) c = Some (CRef (Some s)))) -> J (save m st t a s).
Proof.
  intros I L W. unfold save. apply J_emit. destruct (can_add m (entries st)).
  - apply J_con; [apply J_add; auto|]. intros s' [= <-]. exact L.
  - apply J_con; [exact I|discriminate].
Qed.

Lemma J_go_on m st e : J st -> hub st = true -> J (go_on m st e).
Proof. intros I H. unfold go_on. destruct m; [apply J_em; auto|apply J_emit, J_em; auto]. Qed.

Lemma has_nth l i k s : nth_error l i = Some (Some (k, s)) -> has s l = true.
Proof. intros N. unfold has. apply existsb_exists. exists (Some (k, s)). split; [eapply nth_error_In; eauto|cbn; apply Nat.eqb_refl]. Qed.

Lemma cnt_drop (f : entry -> bool) i l : cnt f (drop_nth i l) <= cnt f l.
Proof.
  unfold drop_nth. rewrite cnt_app. rewrite <- (firstn_skipn i l) at 3. rewrite cnt_app.
  destruct (skipn i l) as [|x r] eqn:S; [|].
  - assert (skipn (Datatypes.S i) l = []) by (apply length_zero_iff_nil; apply (f_equal (@length entry)) in S; rewrite skipn_length in *; cbn in S; lia).
    rewrite H. lia.
  - assert (skipn (Datatypes.S i) l = r).
    { clear f. revert i S. induction l as [|z l IH]; intros [|i] S; cbn in *; try discriminate; [injection S as _ S; exact S|]. apply IH. exact S. }
    rewrite H, cnt_cons. lia.
Qed.

Lemma J_call m st t a : J st -> J (call m st t a).
Proof.
  intros I. unfold call. destruct a as [k| |s|s|s| | | |c|c|c|c|c|o| |v| | |]; try exact I.
  - destruct k as [| |o].
    + destruct (hub st); [|exact I].
      assert (I1 : J (with_kinds st (kinds st ++ [KPlain]))).
      { replace (with_kinds st (kinds st ++ [KPlain])) with (with_held (with_kinds st (kinds st ++ [KPlain])) (held st)) by reflexivity. apply J_slot; auto. }
      apply J_save; [exact I1|cbn; rewrite app_length; cbn; lia|right]. split.
      * pose proof (fresh_strong st _ I (le_n _)) as X. unfold strong in *. cbn. lia.
      * cbn. intros o c. rewrite nth_snoc, Nat.eqb_refl. discriminate.
    + destruct (hub st); [|exact I].
      apply J_save; [apply (J_aware st (KAware (length (conns st)))); auto|cbn; rewrite app_length; cbn; lia|right]. split.
      * pose proof (fresh_strong st _ I (le_n _)) as X. unfold strong in *. cbn. rewrite cnt_app, cnt_cons, cnt_nil. cbn. lia.
      * cbn. intros o c. rewrite nth_snoc, Nat.eqb_refl. discriminate.
    + destruct (hub st && negb (is_dead st o)); [|exact I].
      apply J_save; [apply (J_aware st (KTracked o (length (conns st)))); eauto|cbn; rewrite app_length; cbn; lia|right]. split.
      * pose proof (fresh_strong st _ I (le_n _)) as X. unfold strong in *. cbn. rewrite cnt_app, cnt_cons, cnt_nil. cbn. lia.
      * cbn. intros o' c. rewrite nth_snoc, Nat.eqb_refl. intros [= <- <-]. rewrite nth_snoc, Nat.eqb_refl. reflexivity.
  - destruct (hub st && existsb (Nat.eqb s) (held st)) eqn:X; [|exact I]. apply andb_true_iff in X as [_ X].
    apply existsb_exists in X as (s' & X & Q). apply Nat.eqb_eq in Q. subst s'. apply (j_held _ I) in X.
    apply J_save; [exact I|eapply nth_lt; eauto|left; exact X].
  - destruct (hub st && existsb (Nat.eqb s) (held st)); [|exact I]. destruct (has s (entries st)); apply J_emit; [apply J_remove|]; exact I.
  - destruct (hub st); [|exact I]. destruct m; [destruct (em st); [apply J_crash; exact I|]|]; apply J_emit, J_fewer; auto; intros; rewrite cnt_nil; lia.
  - destruct (hub st); [apply J_emit|]; exact I.
  - destruct (hub st); [apply J_emit|]; exact I.
  - destruct (hidden st c) eqn:HD; [exact I|]. pose proof (J_disconnect m st c I HD) as X. destruct (disconnect m st c). apply J_emit. exact X.
  - destruct (hidden st c) eqn:HD; [exact I|]. pose proof (J_reconnect m st c I HD) as X. destruct (reconnect m st c). apply J_emit. exact X.
  - destruct (hidden st c); [exact I|apply J_emit; exact I].
  - destruct (internal st c || Nat.leb (length (conns st)) c) eqn:IL; [exact I|]. apply orb_false_iff in IL as [IN _]. pose proof (J_disconnect m st c I (internal_hidden _ _ IN)) as X.
    assert (IK : internal (fst (disconnect m st c)) c = false).
    { rewrite <- IN. unfold internal. f_equal. unfold disconnect. destruct (nth_error (conns st) c) as [[[s|]|s|]|]; try reflexivity.
      destruct (owned st s); [|reflexivity]. destruct (hub st); [|reflexivity]. destruct (has s (entries st)); reflexivity. }
    destruct (is_connected st c); apply J_emit, J_gone; auto.
  - destruct (hub st) eqn:HB; [|exact I]. destruct (em st) eqn:EM; [apply J_crash; exact I|]. apply J_emit. eapply J_same; [apply (J_fewer st []); [exact I|intros; rewrite cnt_nil; lia]| | | | |]; try reflexivity.
    cbn. rewrite EM. intros X. contradiction.
  - destruct (hub st) eqn:HB; [|exact I]. destruct (entries st) eqn:EN; [apply J_emit, J_emno; exact I|]. destruct (notif st); [apply J_crash; exact I|].
    apply J_emit, J_emno, J_em; auto.
Qed.

Lemma J_step m st e : J st -> em st = Some e -> J (step m st e).
Proof.
  intros I E. assert (HB : hub st = true) by (apply (j_hub _ I); congruence). unfold step.
  destruct (nth_error (entries st) (e_cur e)) as [[[k s]|]|] eqn:N.
  - assert (G : J (emit (with_em st true (Some (Em (e_thread e) (e_no e) (e_val e) (e_cur e) (Some (k, s))))) [ECall (e_thread e) (e_no e) k s (e_val e)])).
    { apply J_emit, J_em; auto. }
    destruct (nth_error (kinds st) s) as [[| | |o c]|] eqn:K; try exact G.
    destruct (is_dead st o); [|exact G]. pose proof (J_expired m st s o c I K (has_nth _ _ _ _ N) HB) as X.
    pose proof (expire_eq m st s o c I K (has_nth _ _ _ _ N) HB) as Y. fold (expire m st c). cbv zeta. rewrite Y in *.
    apply J_go_on; [|destruct (owned _ s); exact HB]. destruct (owned _ s); [|apply J_emit]; exact X.
  - apply J_fewer; [exact I|]. intros s. apply cnt_drop.
  - apply J_emit, J_em; auto.
Qed.

Lemma J_return m st e s : J st -> em st = Some e -> J (slot_return m st e s).
Proof.
  intros I E. assert (HB : hub st = true) by (apply (j_hub _ I); congruence). unfold slot_return.
  assert (X : J (match nth_error (kinds st) s with
           | Some (KAware c) | Some (KTracked _ c) =>
               match nth_error (conns st) c with Some (CPtr _) => set_con st c (CRef None) | _ => st end
           | _ => st end)).
  { destruct (nth_error (kinds st) s) as [[| |c|o c]|] eqn:K; try exact I.
    - destruct (nth_error (conns st) c) as [[|s'|]|] eqn:N; try exact I. eapply J_set; [exact I|exact N|eapply aware_visible; eauto| | |]; discriminate.
    - destruct (j_trk _ I _ _ _ K) as [Y|[Y _]]; rewrite Y; exact I. }
  apply J_go_on; [exact X|]. destruct (nth_error (kinds st) s) as [[| |c|o c]|]; try exact HB; destruct (nth_error (conns st) c) as [[|s'|]|]; exact HB.
Qed.

Lemma J_act m st t a : J st -> J (act m st t a).
Proof.
  intros I. unfold act. destruct a as [k| |s|s|s| | | |c|c|c|c|c|o| |v| | |]; try (destruct (free st t); [apply J_call|]; exact I).
  - apply J_emit, J_slot; auto.
  - apply J_held_less; [exact I|]. intros x X. apply filter_In in X as [X _]. exact X.
  - destruct (internal st c || Nat.leb (length (conns st)) c) eqn:X; [exact I|]. apply orb_false_iff in X as [X _]. apply J_emit, J_gone; auto.
  - apply J_emit, J_dead. exact I.
  - destruct (em st) as [e|] eqn:E; [|exact I]. destruct (Nat.eqb (e_thread e) t); [|exact I]. destruct (e_run e); [exact I|]. apply J_step; auto.
  - destruct (em st) as [e|] eqn:E; [|exact I]. destruct (Nat.eqb (e_thread e) t); [|exact I]. destruct (e_run e) as [[k s]|]; [|exact I]. apply J_return; auto.
  - destruct (em st) as [e|] eqn:E; [|exact I]. destruct (Nat.eqb (e_thread e) t); [|exact I]. destruct (e_run e); [|exact I]. apply J_emit, J_em; auto.
Qed.

Lemma J_watch st st' : J st' -> J (watch st st').
Proof. intros I. unfold watch. destruct (em st) as [e|]; [|exact I]. destruct (e_run e) as [[k s]|]; [|exact I]. destruct (owned st s && negb (owned st' s)); [apply J_emit|]; exact I. Qed.

Lemma J_init : J init.
Proof.
  split; cbn; intros; try discriminate; try contradiction; try lia.
  all: try match goal with H : nth_error [] ?c = _ |- _ => destruct c; discriminate end.
  all: unfold strong; cbn; rewrite ?cnt_nil; lia.
Qed.

Theorem J_final m h : J (final m h).
Proof.
  apply state_ind; [exact J_init|]. intros st l I. unfold next. destruct (crashed st); [exact I|]. apply J_watch, J_act. exact I.
Qed.
