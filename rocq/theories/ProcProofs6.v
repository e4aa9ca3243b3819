(** The steps by the events they add; what happens to a call and to an execution. *)
From Verif Require Import ListUtil Amap ProcModel ProcSpec ProcProofs ProcProofs2 ProcProofs3 ProcProofs4 ProcProofs5.
From Verif Require QueueModel QueueSpec SigModel.

Definition waiting (f : frame) : Prop := match f with FCall _ PInline => False | FCall _ _ => True | FLoop _ _ _ _ (LWait _) => True | _ => False end.
Definition similar (f f' : frame) : Prop :=
  f = f' \/ (exists n k k', f = FCall n k /\ f' = FCall n k' /\ waiting f /\ waiting f') \/ exists p e m x x', f = FEmit p e m x /\ f' = FEmit p e m x'.

Inductive evt (t : nat) (st st' : state) : Prop :=
| V_idle l : quiet l -> eff st st' t (stk st t) l -> evt t st st'
| V_silent f f' r l : stk st t = f :: r -> similar f f' -> quiet l -> eff st st' t (f' :: r) l -> evt t st st'
| V_call f c : user (stk st t) = true -> id_of f = [length (calls st)] -> waiting f -> eff_call st st' t (f :: stk st t) c -> evt t st st'
| V_ret f n r ds res : stk st t = f :: r -> id_of f = [n] -> waiting f -> (ds = [] \/ exists p es, ds = [EDrop t p es]) -> eff st st' t r (ds ++ [ERet t n res]) ->
    (forall c, nth_error (calls st) n = Some (t, c) -> submits c = true -> res = no c \/ ((res = fin c false \/ res = fin c true) /\ is_stopped st (target c) = true)) -> evt t st st'
| V_accept n i c p r : stk st t = FCall n (PPush i) :: r -> nth_error (calls st) n = Some (t, c) -> submits c = true -> p = target c ->
    eff st st' t r [EAccept t p n; ERet t n (fin c true)] -> evt t st st'
| V_take n p j k i e r : stk st t = FLoop n p j k (LWait i) :: r -> eff st st' t (FLoop n p j k (LGot e) :: r) [ETake t p e] -> evt t st st'
| V_start n p j k e t0 c r : stk st t = FLoop n p j k (LGot e) :: r -> nth_error (calls st) e = Some (t0, c) ->
    eff st st' t (body c p e :: FLoop n p j k LBusy :: r) [EStart t p e false] -> evt t st st'
| V_inline n k c r : stk st t = FCall n k :: r -> nth_error (calls st) n = Some (t, c) -> fresh k = true -> submits c = true ->
    eff st st' t (body c (target c) n :: FCall n PInline :: r) [EStart t (target c) n true] -> evt t st st'
| V_end b p e n j k i r l : stk st t = b :: FLoop n p j k LBusy :: r -> body_of b = Some (p, e) -> quiet l ->
    eff st st' t (FLoop n p j k (LWait i) :: r) (l ++ [EEnd t p e]) -> evt t st st'
| V_once b p e n j r l : stk st t = b :: FLoop n p j Once LBusy :: r -> body_of b = Some (p, e) -> quiet l ->
    eff st st' t r (l ++ [EEnd t p e; ERet t n (RBool true)]) -> evt t st st'
| V_ret_inline b p n r l c : stk st t = b :: FCall n PInline :: r -> body_of b = Some (p, n) -> quiet l -> nth_error (calls st) n = Some (t, c) ->
    eff st st' t r (l ++ [EEnd t p n; ERet t n (fin c true)]) -> evt t st st'.

Lemma fresh_waiting n k : fresh k = true -> waiting (FCall n k).
Proof. destruct k; cbn; try discriminate; auto. Qed.

Lemma core_evt t st st' : all_good st -> qinv st -> core t st st' -> evt t st st'.
Proof.
  intros G I. pose proof (G t) as GT.
  assert (OWN : forall n k r t0 c, stk st t = FCall n k :: r -> nth_error (calls st) n = Some (t0, c) -> t0 = t /\ fit c k = true).
  { intros n k r t0 c S C. rewrite S in GT. destruct (g_call _ _ _ GT n k) as (c' & C' & F); [left; reflexivity|]. rewrite C in C'. injection C' as <- <-. auto. }
  assert (NS : forall n t0 c res, nth_error (calls st) n = Some (t0, c) -> submits c = false -> forall c', nth_error (calls st) n = Some (t, c') -> submits c' = true ->
     res = no c' \/ ((res = fin c' false \/ res = fin c' true) /\ is_stopped st (target c') = true)) by (intros n t0 c res C SB c' C' SB'; congruence).
  cores.
  - eapply V_idle; eauto.
  - eapply V_silent; [exact S| |exact N|exact E]. right. right. eauto 8.
  - eapply V_call; [exact U| | |exact E]; [reflexivity|exact Logic.I].
  - eapply V_call; [exact U| | |exact E]; [reflexivity|exact Logic.I].
  - eapply V_silent; [exact S| |apply quiet_nil|exact E]. right. left. do 3 eexists. repeat split; apply fresh_waiting; assumption.
  - eapply V_ret with (ds := []); [exact S|reflexivity|apply fresh_waiting; exact F|auto|exact E|]. intros c' C' SB. assert (c' = c) by congruence. subst c'.
    destruct (R SB) as [|(_ & R1 & R2)]; auto.
  - eapply V_ret with (ds := []); [exact S|reflexivity|exact Logic.I|auto|exact E|]. eapply NS; eauto.
  - eapply V_silent; [exact S| |apply quiet_nil|exact E]. right. left. do 3 eexists. repeat split.
  - eapply V_silent; [exact S| |apply quiet_nil|exact E]. right. left. do 3 eexists. repeat split.
  - eapply V_ret with (ds := []); [exact S|reflexivity|exact Logic.I|auto|exact E|]. intros c' C' SB. assert (c' = c) by congruence. subst c'. right. split; [auto|].
    destruct (q_enter_push (queue st p) n ch) as (_ & _ & [[X _]|[_ X]]); [unfold is_stopped; rewrite <- P; exact X|].
    exfalso. apply R. eapply result_live; [exact X|]. intros ?; discriminate.
  - eapply V_silent; [exact S| |apply quiet_nil|exact E]. right. left. do 3 eexists. repeat split.
  - destruct (OWN _ _ _ _ _ S C) as [-> FF]. eapply V_accept; eauto.
  - eapply V_silent; [exact S|left; reflexivity|apply quiet_nil|exact E].
  - eapply V_silent; [exact S| |apply quiet_nil|exact E]. right. left. do 3 eexists. repeat split.
  - eapply V_ret with (ds := [_]); [exact S|reflexivity|exact Logic.I|eauto|exact E|]. eapply NS; eauto. destruct (OWN _ _ _ _ _ S C) as [_ FF]. destruct c; try discriminate; reflexivity.
  - eapply V_ret with (ds := []); [exact S|reflexivity|exact Logic.I|auto|exact E|]. eapply NS; eauto. destruct (OWN _ _ _ _ _ S C) as [_ FF]. destruct c; try discriminate; reflexivity.
  - eapply V_take; eauto.
  - eapply V_ret with (ds := []); [exact S|reflexivity|exact Logic.I|auto|exact E|]. rewrite S in GT. intros c C SB. rewrite (g_loop _ _ _ GT n p just kd (LWait i)) in C by (left; reflexivity). injection C as <-. discriminate.
  - eapply V_start; eauto.
  - destruct (OWN _ _ _ _ _ S C) as [-> FF]. eapply V_inline; eauto.
  - pose proof GT as GT'. rewrite S in GT'. pose proof (g_chain _ _ _ GT') as CH. cbn in CH. rewrite B in CH. destruct CH as [(e' & X) _]. injection X as -> ->. eapply V_end; eauto.
  - pose proof GT as GT'. rewrite S in GT'. pose proof (g_chain _ _ _ GT') as CH. cbn in CH. rewrite B in CH. destruct CH as [(e' & X) _]. injection X as -> ->. eapply V_once; eauto.
  - pose proof GT as GT'. rewrite S in GT'. pose proof (g_chain _ _ _ GT') as CH. cbn in CH. rewrite B in CH. destruct CH as [(e' & X) _]. injection X as -> ->.
    destruct (g_call _ _ _ GT' n PInline) as (c & C & _); [right; left; reflexivity|]. rewrite (FI _ _ C) in E. eapply V_ret_inline; eauto.
  - exfalso. rewrite S in GT. eapply no_odd; eauto.
Qed.

(** Induction over histories. *)
Lemma steps_ind (P : state -> Prop) : P init -> (forall t h st', P (final h) -> evt t (final h) st' -> (exists l, st' = final (h ++ [l])) -> P st') -> forall h, P (final h).
Proof.
  intros P0 PS h. induction h as [|l h IH] using rev_ind; [exact P0|]. eapply (PS (fst l) h); [exact IH| |eauto].
  rewrite final_snoc. apply core_evt; [apply good_final|apply qinv_final|apply next_core, good_final].
Qed.

Definition accepts (n : nat) (x : event) : bool := match x with EAccept _ _ n' => Nat.eqb n n' | _ => false end.
Definition takes (n : nat) (x : event) : bool := match x with ETake _ _ n' => Nat.eqb n n' | _ => false end.

Lemma cnt_in {A} (f : A -> bool) l : cnt f l = 0 <-> forall x, In x l -> f x = false.
Proof.
  induction l as [|y l IH]; [rewrite cnt_nil; split; [intros _ x []|reflexivity]|]. rewrite cnt_cons. split.
  - intros H x [<-|I]; [destruct (f y); [cbn in H; lia|reflexivity]|]. apply IH; [destruct (f y); cbn in H; lia|exact I].
  - intros H. rewrite (H y) by (left; reflexivity). cbn. apply IH. intros x I. apply H. right. exact I.
Qed.
Lemma cnt_quiet f l : quiet l -> (forall e, neutral e = true -> f e = false) -> cnt f l = 0.
Proof. intros Q F. apply cnt_in. intros x I. apply F, Q, I. Qed.
Lemma cnt_pos {A} (f : A -> bool) l x : In x l -> f x = true -> 1 <= cnt f l.
Proof. intros I F. destruct (cnt f l) eqn:E; [|lia]. apply cnt_in with (x := x) in E; congruence. Qed.

(** *** Calls *)
Record inv_calls (st : state) : Prop := {
  c_in : forall t n c, In (ECall t n c) (tr st) <-> nth_error (calls st) n = Some (t, c);
  c_open : forall t n, In n (ids (stk st t)) -> cnt (returns n) (tr st) = 0;
  c_once : forall n, cnt (returns n) (tr st) <= 1;
  c_ret : forall t n r, In (ERet t n r) (tr st) -> exists c, nth_error (calls st) n = Some (t, c) }.

Lemma quiet_not l x : quiet l -> neutral x = false -> ~ In x l.
Proof. intros Q N I. rewrite (Q _ I) in N. discriminate. Qed.
Lemma in_snoc {A} (x : A) a b : In x (a ++ b) <-> In x a \/ In x b. Proof. apply in_app_iff. Qed.
Lemma ids_body c p n : ids [body c p n] = []. Proof. destruct c; reflexivity. Qed.
Lemma ids_body_cons c p n r : ids (body c p n :: r) = ids r. Proof. destruct c; reflexivity. Qed.
Lemma similar_id f f' : similar f f' -> id_of f' = id_of f.
Proof. intros [-> |[(n & k & k' & -> & -> & _)|(p & e & m & x & x' & -> & ->)]]; reflexivity. Qed.
Lemma body_of_id b x : body_of b = Some x -> id_of b = [].
Proof. destruct b; cbn; congruence. Qed.

Definition no_call_ret (e : event) : bool := match e with ECall _ _ _ | ERet _ _ _ => false | _ => true end.

Lemma id_own st t n : all_good st -> In n (ids (stk st t)) -> exists c, nth_error (calls st) n = Some (t, c).
Proof.
  intros G I. apply in_ids in I as [(k & I)|(p & just & k & ph & I)]; [destruct (g_call _ _ _ (G t) _ _ I) as (c & E & _); eauto|eexists; eapply (g_loop _ _ _ (G t)); eauto].
Qed.
Lemma ids_other st t t' n : all_good st -> In n (ids (stk st t)) -> t' <> t -> ~ In n (ids (stk st t')).
Proof. intros G I N I'. destruct (id_own _ _ _ G I) as (c & E), (id_own _ _ _ G I') as (c' & E'). congruence. Qed.

(** A step that neither makes nor finishes a call; one that finishes the call on top. *)
Lemma calls_silent t st st' s' add : inv_calls st -> eff st st' t s' add -> (forall e, In e add -> no_call_ret e = true) -> (forall n, In n (ids s') -> In n (ids (stk st t))) -> inv_calls st'.
Proof.
  intros [A B C D] (S & T & CC) N H.
  assert (Z : forall n, cnt (returns n) (tr st') = cnt (returns n) (tr st)).
  { intros n. rewrite T, cnt_app. rewrite (proj2 (cnt_in (returns n) add)); [lia|]. intros x I. specialize (N x I). destruct x; try reflexivity; discriminate. }
  split.
  - intros t' n c. rewrite T, CC, in_snoc, <- A. split; [|auto]. intros [H1|H1]; [exact H1|]. specialize (N _ H1). discriminate.
  - intros t' n I. rewrite Z. rewrite S in I. unfold upd in I. destruct (Nat.eqb_spec t t'); [subst; eapply B; apply H; exact I|eapply B; exact I].
  - intros n. rewrite Z. apply C.
  - intros t' n r I. rewrite T, in_snoc in I. rewrite CC. destruct I as [I|I]; [eapply D; eauto|]. specialize (N _ I). discriminate.
Qed.
Lemma calls_done t st st' n r add res : all_good st -> inv_calls st -> ids (stk st t) = n :: ids r -> eff st st' t r (add ++ [ERet t n res]) ->
  (forall e, In e add -> no_call_ret e = true) -> inv_calls st'.
Proof.
  intros G [A B C D] ID (S & T & CC) N. destruct (id_own st t n G) as (c0 & E0); [rewrite ID; left; reflexivity|].
  assert (Z : forall n', cnt (returns n') (tr st') = cnt (returns n') (tr st) + if Nat.eqb n' n then 1 else 0).
  { intros n'. rewrite T, !cnt_app. rewrite (proj2 (cnt_in (returns n') add)); [rewrite cnt_cons, cnt_nil; cbn [returns]; destruct (Nat.eqb n' n); cbn [b2n]; lia|].
    intros x I. specialize (N x I). destruct x; try reflexivity; discriminate. }
  assert (ND : ~ In n (ids r)). { pose proof (g_ids _ _ _ (G t)) as X. rewrite ID in X. inversion X. assumption. }
  split.
  - intros t' n' c. rewrite T, CC, !in_snoc, <- A. split; [|auto]. intros [H1|[H1|[H1|[]]]]; [exact H1|specialize (N _ H1); discriminate|discriminate].
  - intros t' n' I. rewrite Z. rewrite S in I. unfold upd in I. destruct (Nat.eqb_spec t t'); [subst t'|].
    + destruct (Nat.eqb_spec n' n); [subst; contradiction|]. rewrite (B t); [lia|]. rewrite ID. right. exact I.
    + destruct (Nat.eqb_spec n' n); [subst; exfalso; eapply (ids_other st t t' n); eauto; rewrite ID; left; reflexivity|]. rewrite (B t'); [lia|exact I].
  - intros n'. rewrite Z. destruct (Nat.eqb_spec n' n); [subst|specialize (C n'); lia]. rewrite (B t); [lia|rewrite ID; left; reflexivity].
  - intros t' n' r' I. rewrite T, !in_snoc in I. rewrite CC. destruct I as [I|[I|[I|[]]]]; [eapply D; eauto|specialize (N _ I); discriminate|].
    injection I as <- <- <-. eauto.
Qed.

Lemma quiet_ncr l : quiet l -> forall e, In e l -> no_call_ret e = true.
Proof. intros Q e I. specialize (Q e I). destruct e; try discriminate; reflexivity. Qed.

Lemma calls_step t st st' : all_good st -> inv_calls st -> evt t st st' -> inv_calls st'.
Proof.
  intros G J K. destruct K as [l N E|f f' r l S SM N E|f c U ID W E|f n r ds res S ID W DS E X|n i c p r S C SB P E|n p j k i e r S E|n p j k e t0 c r S C E|n k c r S C F SB E
    |b p e n j k i r l S B N E|b p e n j r l S B N E|b p n r l c S B N C E].
  - eapply calls_silent; eauto. apply quiet_ncr, N.
  - eapply calls_silent; [exact J|exact E|apply quiet_ncr, N|]. intros n. rewrite S, !ids_cons, (similar_id _ _ SM). auto.
  - destruct J as [A B C D]. destruct E as (S & T & CC).
    assert (Z : forall n, cnt (returns n) (tr st') = cnt (returns n) (tr st)) by (intros n; rewrite T, cnt_app, cnt_cons, cnt_nil; cbn; lia).
    assert (OLD : forall n, length (calls st) <= n -> cnt (returns n) (tr st) = 0).
    { intros n L. apply cnt_in. intros x I. destruct x; try reflexivity. cbn. apply Nat.eqb_neq. intros ->. destruct (D _ _ _ I) as (c' & E'). apply nth_lt in E'. lia. }
    split.
    + intros t' n c'. rewrite T, CC, in_snoc, A. destruct (Nat.lt_trichotomy n (length (calls st))) as [L|[L|L]].
      * rewrite nth_error_app1 by exact L. split; [|auto]. intros [H|[H|[]]]; [exact H|]. injection H as -> <- ->. lia.
      * subst n. rewrite nth_error_app2, Nat.sub_diag by lia. cbn. split.
        -- intros [H|[H|[]]]; [apply nth_lt in H; lia|congruence].
        -- intros [= <- <-]. auto.
      * rewrite nth_error_app2 by lia. destruct (n - length (calls st)) as [|d] eqn:M; [lia|]. cbn. split.
        -- intros [H|[H|[]]]; [apply nth_lt in H; lia|]. injection H as _ <- _. lia.
        -- destruct d; discriminate.
    + intros t' n I. rewrite Z. rewrite S in I. unfold upd in I. destruct (Nat.eqb_spec t t'); [subst t'|eapply B; exact I].
      rewrite ids_cons, ID in I. destruct I as [<-|I]; [apply OLD; lia|eapply B; exact I].
    + intros n. rewrite Z. apply C.
    + intros t' n r I. rewrite T, in_snoc in I. destruct I as [I|[I|[]]]; [|discriminate]. destruct (D _ _ _ I) as (c' & E'). exists c'. rewrite CC, nth_error_app1; auto. eapply nth_lt; eauto.
  - eapply calls_done; [exact G|exact J| |exact E|]; [rewrite S, ids_cons, ID; reflexivity|]. intros e I. destruct DS as [-> |(p & es & ->)]; [destruct I|destruct I as [<-|[]]; reflexivity].
  - eapply calls_done with (add := [_]); [exact G|exact J| |exact E|]; [rewrite S; reflexivity|]. intros e [<-|[]]. reflexivity.
  - eapply calls_silent; [exact J|exact E|intros x [<-|[]]; reflexivity|]. rewrite S. auto.
  - eapply calls_silent; [exact J|exact E|intros x [<-|[]]; reflexivity|]. intros n'. rewrite S, ids_body_cons. auto.
  - eapply calls_silent; [exact J|exact E|intros x [<-|[]]; reflexivity|]. intros n'. rewrite S, ids_body_cons. auto.
  - eapply calls_silent; [exact J|exact E| |].
    + intros x I. apply in_snoc in I as [I|[<-|[]]]; [eapply quiet_ncr; eauto|reflexivity].
    + intros n'. rewrite S, (ids_cons b), (body_of_id _ _ B). auto.
  - eapply calls_done with (add := l ++ [EEnd t p e]); [exact G|exact J| |rewrite <- app_assoc; exact E|]; [rewrite S, (ids_cons b), (body_of_id _ _ B); reflexivity|].
    intros x I. apply in_snoc in I as [I|[<-|[]]]; [eapply quiet_ncr; eauto|reflexivity].
  - eapply calls_done with (add := l ++ [EEnd t p n]); [exact G|exact J| |rewrite <- app_assoc; exact E|]; [rewrite S, (ids_cons b), (body_of_id _ _ B); reflexivity|].
    intros x I. apply in_snoc in I as [I|[<-|[]]]; [eapply quiet_ncr; eauto|reflexivity].
Qed.
Lemma calls_final h : inv_calls (final h).
Proof.
  apply steps_ind; [|intros t h0 st' J K _; eapply calls_step; eauto using good_final].
  split; cbn; intros; try tauto; try (rewrite cnt_nil; lia). split; [tauto|]. destruct n; discriminate.
Qed.
