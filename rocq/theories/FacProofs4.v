(** csmgmt: what holds without a shutdown, what a shutdown achieves. *)
From Verif Require Import ListUtil FacModel FacSpec FacProofs FacProofs2 FacProofs3.

(** ** The calls of the state are those of the history *)
Lemma map_set_nth (l : list (call * pc)) t c p p0 : nth_error l t = Some (c, p0) -> map fst (set_nth t (c, p) l) = map fst l.
Proof. revert t. induction l as [|x l IH]; intros [|t] H; cbn in *; try discriminate; [inversion H; reflexivity|]. f_equal. auto. Qed.
Lemma calls_made_snoc h l : calls_made (h ++ [l]) = calls_made h ++ match l with LCall c => [c] | _ => [] end.
Proof. unfold calls_made. rewrite flat_map_app. cbn. rewrite app_nil_r. reflexivity. Qed.
Lemma pstep_fst s l s' ev : pstep s l s' ev -> map fst (calls s') = map fst (calls s) ++ match l with LCall c => [c] | _ => [] end \/ ev = [] /\ s' = s.
Proof.
  intros Hp. destruct Hp; [auto|..]; left; [cbn [calls]; rewrite map_app; reflexivity|..]; rewrite app_nil_r;
    rewrite ?calls_at2, ?calls_at; eapply map_set_nth; eauto.
Qed.
Lemma calls_final h : map fst (calls (final h)) = calls_made h.
Proof.
  induction h as [|l h IH] using rev_ind; [reflexivity|]. rewrite calls_made_snoc, final_snoc.
  destruct l as [c|t ok]; [cbn; rewrite map_app, IH; reflexivity|].
  destruct (pstep_fst _ _ _ _ (step_pstep (final h) (LStep t ok))) as [E|[_ E]].
  - rewrite E, IH. reflexivity.
  - rewrite E, IH, app_nil_r. reflexivity.
Qed.
Lemma call_pc h t c : call_no h t = Some c -> exists p, nth_error (calls (final h)) t = Some (c, p).
Proof.
  unfold call_no. rewrite <- calls_final, nth_error_map. destruct (nth_error (calls (final h)) t) as [[c' p]|]; [|discriminate].
  intro E. inversion E; subst. eauto.
Qed.
Lemma pc_call h t c p : nth_error (calls (final h)) t = Some (c, p) -> call_no h t = Some c.
Proof. unfold call_no. rewrite <- calls_final, nth_error_map. intros ->. reflexivity. Qed.
Lemma made_in h c t : call_no h t = Some c -> In (LCall c) h.
Proof.
  intro H. apply nth_error_In in H. apply in_flat_map in H as [l [H1 H2]]. destruct l; [|contradiction].
  destruct H2 as [->|[]]. exact H1.
Qed.

Lemma pstep_keeps s l s' ev t c p : pstep s l s' ev -> nth_error (calls s) t = Some (c, p) ->
  exists p', nth_error (calls s') t = Some (c, p').
Proof.
  intros Hp Hn.
  assert (H : nth_error (map fst (calls s')) t = Some c).
  { destruct (pstep_fst _ _ _ _ Hp) as [E|[_ ->]].
    - rewrite E, nth_error_app1; [rewrite nth_error_map, Hn; reflexivity|]. rewrite map_length. eapply nth_lt; eauto.
    - rewrite nth_error_map, Hn. reflexivity. }
  rewrite nth_error_map in H. destruct (nth_error (calls s') t) as [[c' p']|]; [|discriminate]. inversion H; subst. eauto.
Qed.

(** ** Without a shutdown *)
Definition quiet (s : st) (r : role) : Prop := forall t rs p, nth_error (calls s) t = Some (CShut rs, p) -> ~ In r rs.
Lemma quiet_step s l s' ev r : pstep s l s' ev -> quiet s' r -> quiet s r.
Proof. intros Hp Hq t rs p Hn. destruct (pstep_keeps _ _ _ _ _ _ _ Hp Hn) as [p' Hn']. exact (Hq _ _ _ Hn'). Qed.

Record subI (s : st) (tr : list event) : Prop := {
  s_shut : forall t rs l, nth_error (calls s) t = Some (CShut rs, PShut l) -> incl l rs;
  s_clos : forall t rs r acts l, nth_error (calls s) t = Some (CShut rs, PClosing r acts l) -> In r rs /\ incl l rs;
  s_down : forall r e, quiet s r -> In e tr -> match e with EDown r' _ | EStop r' _ | EDeinit r' _ => r' <> r | _ => True end;
  s_memo : forall r ty a o, quiet s r -> serves tr r ty a o -> In (ty, a, o) (memo (side s r));
  s_cnt : forall r ty a, r = Client \/ quiet s r -> cnt (inits_ok r ty a) tr <= 1 }.

Lemma sub_frame s l s' tr ev : pstep s l s' ev -> subI s tr ->
  (forall t rs l, nth_error (calls s') t = Some (CShut rs, PShut l) -> incl l rs) ->
  (forall t rs r acts l, nth_error (calls s') t = Some (CShut rs, PClosing r acts l) -> In r rs /\ incl l rs) ->
  (forall r e, quiet s' r -> In e ev -> match e with EDown r' _ | EStop r' _ | EDeinit r' _ => r' <> r | _ => True end) ->
  (forall r, quiet s' r -> incl (memo (side s r)) (memo (side s' r))) ->
  (forall e, In e ev -> match e with EInit _ _ _ _ true => False | _ => True end) ->
  subI s' (tr ++ ev).
Proof.
  intros Hp [S1 S2 S3 S4 S5] H1 H2 H3 H4 H5. constructor; auto.
  - intros r e Hq Hin. apply in_app_iff in Hin as [Hin|Hin]; [|exact (H3 r e Hq Hin)]. apply (S3 r e); [|exact Hin]. eapply quiet_step; eauto.
  - intros r ty a o Hq Hs. unfold serves in *. apply in_app_iff in Hs as [Hs|Hs]; [|apply H5 in Hs; contradiction].
    apply H4; [exact Hq|]. apply S4; [|exact Hs]. eapply quiet_step; eauto.
  - intros r ty a Hq. rewrite cnt_app, (cnt_zero (inits_ok r ty a) ev).
    + assert (r = Client \/ quiet s r) by (destruct Hq; [auto|right; eapply quiet_step; eauto]). pose proof (S5 r ty a H). lia.
    + intros e He. apply H5 in He. destruct e as [? ? ? ? []| | | | | | |]; try reflexivity. contradiction.
Qed.

Lemma sub_step s l s' ev tr : inv s tr -> closeI s tr -> subI s tr -> pstep s l s' ev -> subI s' (tr ++ ev).
Proof.
  intros [Ob K C] Z I Hp. assert (Hp' := Hp). assert (I' := I). destruct I' as [S1 S2 S3 S4 S5].
  assert (Hset : forall t c p x t' y, nth_error (calls s) t = Some x -> nth_error (set_nth t (c, p) (calls s)) t' = Some y ->
            (t' = t /\ y = (c, p)) \/ nth_error (calls s) t' = Some y).
  { intros t c p x t' y Hn Hy. destruct (Nat.eq_dec t' t) as [->|Hne].
    - rewrite nth_set_same in Hy by (eapply nth_lt; eauto). left. split; congruence.
    - rewrite nth_set_other in Hy by congruence. auto. }
  destruct Hp.
  - rewrite app_nil_r. exact I.
  - assert (Hat : forall t x, nth_error (calls s ++ [(c, PStart)]) t = Some x -> nth_error (calls s) t = Some x \/ x = (c, PStart)).
    { intros t x Hx. destruct (lt_dec t (length (calls s))).
      - rewrite nth_error_app1 in Hx by assumption. auto.
      - rewrite nth_error_app2 in Hx by lia. destruct (t - length (calls s)) as [|[]]; cbn in Hx; [|discriminate|discriminate].
        right. congruence. }
    apply (sub_frame _ _ _ _ _ Hp' I); cbn [calls side].
    + intros t rs l Hx. apply Hat in Hx as [Hx|E]; [eauto|discriminate].
    + intros t rs r acts l Hx. apply Hat in Hx as [Hx|E]; [eauto|discriminate].
    + intros r e _ [].
    + intros r _ x. auto.
    + intros e [].
  - apply (sub_frame _ _ _ _ _ Hp' I).
    + intros t' rs l Hx. apply (Hset _ _ _ _ _ _ H) in Hx as [[_ E]|Hx]; [discriminate|eauto].
    + intros t' rs r' acts l Hx. apply (Hset _ _ _ _ _ _ H) in Hx as [[_ E]|Hx]; [discriminate|eauto].
    + intros r' e _ [].
    + intros r' _ x. auto.
    + intros e [].
  - (* XNew *)
    assert (Hc1 : forall t' rs l, nth_error (set_nth t (CGet r ty a sid, PHave o) (calls s)) t' = Some (CShut rs, PShut l) -> incl l rs).
    { intros t' rs l Hx. apply (Hset _ _ _ _ _ _ H) in Hx as [[_ E]|Hx]; [discriminate|eauto]. }
    constructor.
    + exact Hc1.
    + intros t' rs r' acts l Hx. apply (Hset _ _ _ _ _ _ H) in Hx as [[_ E]|Hx]; [discriminate|eauto].
    + intros r' e Hq Hin. apply in_app_iff in Hin as [Hin|Hin]; [apply (S3 r'); [eapply quiet_step; eauto|exact Hin]|].
      destruct Hin as [<-|[<-|[]]]; exact Logic.I.
    + intros r' ty' a' o' Hq Hs. unfold serves in *. apply (quiet_step _ _ _ _ _ Hp') in Hq. dis Hs.
      * specialize (S4 _ _ _ _ Hq Hs). sides r' r; [apply in_or_app; auto|exact S4].
      * inversion Hs; subst. rewrite side_set, role_eqb_refl. cbn. apply in_or_app. right. now left.
    + intros r' ty' a' Hq. assert (Hq' : r' = Client \/ quiet s r') by (destruct Hq; [auto|right; eapply quiet_step; eauto]).
      rewrite cnt_app. pose proof (S5 r' ty' a' Hq'). unfold cnt at 2. cbn.
      destruct (role_eqb r' r && ctype_eqb ty' ty && Nat.eqb a' a) eqn:E; cbn; [|lia].
      apply andb_true_iff in E as [E E3]. apply andb_true_iff in E as [E1 E2].
      apply role_eqb_eq in E1. apply ctype_eqb_eq in E2. apply Nat.eqb_eq in E3. subst r' ty' a'.
      rewrite (cnt_zero (inits_ok r ty a) tr); [lia|]. intros e He. destruct (inits_ok r ty a e) eqn:Ee; [|reflexivity]. exfalso.
      destruct e as [r1 ty1 a1 o1 []| | | | | | |]; try discriminate Ee. cbn in Ee.
      apply andb_true_iff in Ee as [E E3]. apply andb_true_iff in E as [E1 E2].
      apply role_eqb_eq in E1. apply ctype_eqb_eq in E2. apply Nat.eqb_eq in E3. subst r1 ty1 a1.
      apply (lookup_none _ _ o1 _ H1). destruct Hq' as [-> |Hq']; [apply (z_client _ _ Z); exact He|apply S4; assumption].
  - apply (sub_frame _ _ _ _ _ Hp' I).
    + intros t' rs l Hx. apply (Hset _ _ _ _ _ _ H) in Hx as [[_ E]|Hx]; [discriminate|eauto].
    + intros t' rs r' acts l Hx. apply (Hset _ _ _ _ _ _ H) in Hx as [[_ E]|Hx]; [discriminate|eauto].
    + intros r' e _ [<-|[<-|[]]]; exact Logic.I.
    + intros r' _ x. sides r' r; auto.
    + intros e [<-|[<-|[]]]; exact Logic.I.
  - apply (sub_frame _ _ _ _ _ Hp' I).
    + intros t' rs l Hx. apply (Hset _ _ _ _ _ _ H) in Hx as [[_ E]|Hx]; [discriminate|eauto].
    + intros t' rs r' acts l Hx. apply (Hset _ _ _ _ _ _ H) in Hx as [[_ E]|Hx]; [discriminate|eauto].
    + intros r' e _ [<-|[]]; exact Logic.I.
    + intros r' _ x. auto.
    + intros e [<-|[]]; exact Logic.I.
  - apply (sub_frame _ _ _ _ _ Hp' I).
    + intros t' rs l Hx. apply (Hset _ _ _ _ _ _ H) in Hx as [[_ E]|Hx]; [discriminate|eauto].
    + intros t' rs r' acts l Hx. apply (Hset _ _ _ _ _ _ H) in Hx as [[_ E]|Hx]; [discriminate|eauto].
    + intros r' e _ [<-|[]]; exact Logic.I.
    + intros r' _ x. auto.
    + intros e [<-|[]]; exact Logic.I.
  - apply (sub_frame _ _ _ _ _ Hp' I).
    + intros t' rs l Hx. apply (Hset _ _ _ _ _ _ H) in Hx as [[_ E]|Hx]; [discriminate|eauto].
    + intros t' rs r' acts l Hx. apply (Hset _ _ _ _ _ _ H) in Hx as [[_ E]|Hx]; [discriminate|eauto].
    + intros r' e _ [<-|[<-|[]]]; exact Logic.I.
    + intros r' _ x. sides r' r; auto.
    + intros e [<-|[<-|[]]]; exact Logic.I.
  - apply (sub_frame _ _ _ _ _ Hp' I).
    + intros t' rs' l Hx. apply (Hset _ _ _ _ _ _ H) in Hx as [[_ E]|Hx]; [inversion E; subst; apply incl_refl|eauto].
    + intros t' rs' r' acts l Hx. apply (Hset _ _ _ _ _ _ H) in Hx as [[_ E]|Hx]; [discriminate|eauto].
    + intros r' e _ [].
    + intros r' _ x. auto.
    + intros e [].
  - apply (sub_frame _ _ _ _ _ Hp' I).
    + intros t' rs' l Hx. apply (Hset _ _ _ _ _ _ H) in Hx as [[_ E]|Hx]; [discriminate|eauto].
    + intros t' rs' r' acts l Hx. apply (Hset _ _ _ _ _ _ H) in Hx as [[_ E]|Hx]; [discriminate|eauto].
    + intros r' e _ [<-|[]]; exact Logic.I.
    + intros r' _ x. auto.
    + intros e [<-|[]]; exact Logic.I.
  - apply (sub_frame _ _ _ _ _ Hp' I).
    + intros t' rs' l Hx. apply (Hset _ _ _ _ _ _ H) in Hx as [[_ E]|Hx]; [discriminate|eauto].
    + intros t' rs' r' acts l Hx. apply (Hset _ _ _ _ _ _ H) in Hx as [[_ E]|Hx]; [|eauto]. inversion E; subst.
      apply S1 in H. split; [apply H; now left|]. intros x Hx. apply H. now right.
    + intros r' e _ [].
    + intros r' _ x. sides r' r; auto.
    + intros e [].
  - destruct (S2 _ _ _ _ _ H) as [Hr Hl]. apply (sub_frame _ _ _ _ _ Hp' I).
    + intros t' rs' l Hx. apply (Hset _ _ _ _ _ _ H) in Hx as [[_ E]|Hx]; [discriminate|eauto].
    + intros t' rs' r' acts' l Hx. apply (Hset _ _ _ _ _ _ H) in Hx as [[_ E]|Hx]; [|eauto]. inversion E; subst. auto.
    + intros r' e Hq [<-|[]] ->. apply (quiet_step _ _ _ _ _ Hp') in Hq. exact (Hq _ _ _ H Hr).
    + intros r' _ x. auto.
    + intros e [<-|[]]; exact Logic.I.
  - destruct (S2 _ _ _ _ _ H) as [Hr Hl]. apply (sub_frame _ _ _ _ _ Hp' I).
    + intros t' rs' l Hx. apply (Hset _ _ _ _ _ _ H) in Hx as [[_ E]|Hx]; [discriminate|eauto].
    + intros t' rs' r' acts' l Hx. apply (Hset _ _ _ _ _ _ H) in Hx as [[_ E]|Hx]; [|eauto]. inversion E; subst. auto.
    + intros r' e Hq [<-|[]] ->. apply (quiet_step _ _ _ _ _ Hp') in Hq. exact (Hq _ _ _ H Hr).
    + intros r' _ x. sides r' r; auto.
    + intros e [<-|[]]; exact Logic.I.
  - destruct (S2 _ _ _ _ _ H) as [Hr Hl]. apply (sub_frame _ _ _ _ _ Hp' I).
    + intros t' rs' l Hx. apply (Hset _ _ _ _ _ _ H) in Hx as [[_ E]|Hx]; [discriminate|eauto].
    + intros t' rs' r' acts' l Hx. apply (Hset _ _ _ _ _ _ H) in Hx as [[_ E]|Hx]; [|eauto]. inversion E; subst. auto.
    + intros r' e Hq Hin. apply (quiet_step _ _ _ _ _ Hp') in Hq. assert (r <> r') by (intros ->; exact (Hq _ _ _ H Hr)).
      apply in_app_iff in Hin as [Hin|[<-|[]]]; [|assumption]. apply down_in in Hin as [x [_ ->]]. assumption.
    + intros r' _ x. sides r' r; auto.
    + intros e Hin. apply in_app_iff in Hin as [Hin|[<-|[]]]; [|exact Logic.I]. apply down_in in Hin as [x [_ ->]]. exact Logic.I.
  - destruct (S2 _ _ _ _ _ H) as [Hr Hl]. apply (sub_frame _ _ _ _ _ Hp' I).
    + intros t' rs' l Hx. apply (Hset _ _ _ _ _ _ H) in Hx as [[_ E]|Hx]; [|eauto]. inversion E; subst. assumption.
    + intros t' rs' r' acts' l Hx. apply (Hset _ _ _ _ _ _ H) in Hx as [[_ E]|Hx]; [discriminate|eauto].
    + intros r' e _ [].
    + intros r' Hq x Hx. apply (quiet_step _ _ _ _ _ Hp') in Hq. assert (r' <> r) by (intros ->; exact (Hq _ _ _ H Hr)).
      sides r' r; [congruence|exact Hx].
    + intros e [].
Qed.
Lemma sub_final h : subI (final h) (trace h).
Proof.
  apply (history_ind (fun _ => subI)).
  - constructor; cbn; intros; try contradiction; try (destruct t; discriminate). unfold cnt. cbn. lia.
  - intros h0 l s' ev I Hp _ _. eapply sub_step; eauto; [apply inv_final|apply close_final].
Qed.
Lemma quiet_never r h : never_shut r h -> quiet (final h) r.
Proof. intros H t rs p Hn. apply pc_call in Hn. apply made_in in Hn. exact (H _ Hn). Qed.
