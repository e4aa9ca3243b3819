(** Stub lemmas: where every request object is; the provider underneath. *)
From Verif Require Import CsTypes ListUtil ProvModel ProvSpec ProvProofs ProvProofs2 ProvProofs3 StubModel StubSpec StubProofs.

Lemma srun_app s h1 h2 : srun s (h1 ++ h2) = (fst (srun (fst (srun s h1)) h2), snd (srun s h1) ++ snd (srun (fst (srun s h1)) h2)).
Proof.
  revert s. induction h1 as [|[e x] h1 IH]; intros s; cbn; [destruct (srun s h2); reflexivity|].
  destruct (sstep e s x) as [s1 l1]. rewrite IH. destruct (srun s1 h1) as [s2 l2]. cbn. rewrite app_assoc. reflexivity.
Qed.
Lemma sfinal_snoc h e x : sfinal (h ++ [(e, x)]) = fst (sstep e (sfinal h) x).
Proof. unfold sfinal. rewrite srun_app. cbn. destruct (sstep e _ x). reflexivity. Qed.
Lemma strace_snoc h e x : strace (h ++ [(e, x)]) = strace h ++ snext h e x.
Proof. unfold strace, snext, sfinal. rewrite srun_app. cbn. destruct (sstep e _ x). cbn. rewrite app_nil_r. reflexivity. Qed.

Lemma pev_app a b : provider_events (a ++ b) = provider_events a ++ provider_events b.
Proof. induction a as [|e a IH]; [reflexivity|]. destruct e; cbn; rewrite IH; reflexivity. Qed.
Lemma pcalls_app a b : provider_calls (a ++ b) = provider_calls a ++ provider_calls b.
Proof. induction a as [|[e x] a IH]; [reflexivity|]. destruct x; cbn; rewrite IH; reflexivity. Qed.

(** ** The provider's events *)
Record framed (ok : bool) (s s' : stub) (l : list sevent) (ev : list event) : Prop := {
  fr_sp : sp s' = sp s; fr_exec : exec s' = exec s; fr_clo : closures s' = closures s; fr_han : handles s' = handles s;
  fr_ev : provider_events l = ev;
  fr_cnt : forall r, cnt (waits r) (tasks s') + cnt (lost r) l = cnt (waits r) (tasks s) + cnt (handed r) l;
  fr_gone : forall r, cnt (gone r) l = 0;
  fr_handed : forall r, cnt (handed r) l = cnt (calls_with r) ev;
  fr_fn : forall t, In t (tasks s') -> In t (tasks s) \/ (exists c, In (EHandler c (t_req t)) ev /\
             t_fn t = match nth_error (closures s) c with Some x => x | None => None end);
  fr_quiet : forall f k r, ~ In (SCall f k r) l /\ ~ In (SBadCall r) l }.

Lemma on_event_frame ok s e : framed ok s (fst (on_event ok s e)) (snd (on_event ok s e)) [e].
Proof.
  destruct e as [d m a|c r|cb|li p|a b|v]; try (split; cbn; auto; intros f k r; split; intros [J|[]]; discriminate).
  unfold on_event, call_closure. destruct ok; split; cbn; auto; try (intros r0; rewrite ?cnt_app, ?cnt_cons, ?cnt_nil; cbn; unfold waits; cbn; lia);
    try (intros f k r0; split; intros [J|[J|[]]]; discriminate).
  intros t J. apply in_app_or in J as [J|[<-|[]]]; [left; exact J|]. right. exists c. cbn. auto.
Qed.

Lemma on_events_frame ok ev : forall s, framed ok s (fst (on_events ok s ev)) (snd (on_events ok s ev)) ev.
Proof.
  induction ev as [|e ev IH]; intros s.
  - split; cbn; auto; intros; rewrite ?cnt_nil; try lia; auto.
  - cbn. pose proof (on_event_frame ok s e) as A. destruct (on_event ok s e) as [s1 l1]. pose proof (IH s1) as B.
    destruct (on_events ok s1 ev) as [s2 l2]. cbn [fst snd] in *. destruct A, B. split; try congruence.
    + rewrite pev_app, fr_ev0, fr_ev1. reflexivity.
    + intros r. rewrite !cnt_app. specialize (fr_cnt0 r). specialize (fr_cnt1 r). lia.
    + intros r. rewrite cnt_app, fr_gone0, fr_gone1. reflexivity.
    + intros r. rewrite cnt_app, fr_handed0, fr_handed1, !cnt_cons, cnt_nil. lia.
    + intros t J. destruct (fr_fn1 t J) as [K|(c & K & F)].
      * destruct (fr_fn0 t K) as [L|(c & L & F)]; [left; exact L|]. right. exists c. split; [|exact F]. destruct L as [->|[]]. left. reflexivity.
      * right. exists c. rewrite fr_clo0 in F. split; [right; exact K|exact F].
    + intros f k r. split; intros J; apply in_app_or in J as [J|J]; revert J; [apply (fr_quiet0 f k r)|apply (fr_quiet1 f k r)|apply (fr_quiet0 f k r)|apply (fr_quiet1 f k r)].
Qed.

(** A call on the provider. *)
Record called (e : env) (s s' : stub) (l : list sevent) (x : op) : Prop := {
  ca_sp : sp s' = fst (step (e_net e) (sp s) x); ca_exec : exec s' = exec s; ca_clo : closures s' = closures s; ca_han : handles s' = handles s;
  ca_ev : provider_events l = snd (step (e_net e) (sp s) x);
  ca_cnt : forall r, cnt (waits r) (tasks s') + cnt (lost r) l = cnt (waits r) (tasks s) + cnt (handed r) l;
  ca_gone : forall r, cnt (gone r) l = 0;
  ca_handed : forall r, cnt (handed r) l = cnt (calls_with r) (snd (step (e_net e) (sp s) x));
  ca_fn : forall t, In t (tasks s') -> In t (tasks s) \/ (exists c, In (EHandler c (t_req t)) (snd (step (e_net e) (sp s) x)) /\
             t_fn t = match nth_error (closures s) c with Some x => x | None => None end);
  ca_quiet : forall f k r, ~ In (SCall f k r) l /\ ~ In (SBadCall r) l }.

Lemma call_called e s x : called e s (fst (call e s x)) (snd (call e s x)) x.
Proof.
  unfold call. destruct (step (e_net e) (sp s) x) as [p ev] eqn:E.
  destruct (on_events_frame (e_accept e) ev (set_sp s p)) as [H1 H2 H3 H4 H5 H6 H7 H8 H9 H10].
  split; rewrite ?E; cbn in *; auto.
Qed.

(** ** Accounting *)
Definition where_now (s : stub) (r : nat) : nat := cnt (waits r) (tasks s) + cnt (holds r) (handles s).

Lemma cnt_remove_nth {A} (f : A -> bool) l i y : nth_error l i = Some y -> cnt f (remove_nth i l) + b2n (f y) = cnt f l.
Proof.
  unfold remove_nth. revert i. induction l as [|x l IH]; intros [|i] H; try discriminate.
  - inversion H; subst. cbn [firstn app skipn]. rewrite cnt_cons. lia.
  - specialize (IH i H). cbn [firstn app]. change (skipn (S (S i)) (x :: l)) with (skipn (S i) l). rewrite !cnt_cons. lia.
Qed.
Lemma in_remove_nth {A} (l : list A) i y : In y (remove_nth i l) -> In y l.
Proof.
  unfold remove_nth. intros H. apply in_app_or in H as [H|H].
  - rewrite <- (firstn_skipn i l). apply in_or_app. left. exact H.
  - rewrite <- (firstn_skipn (S i) l). apply in_or_app. right. exact H.
Qed.

Lemma destroy_handle_acc e s h r : let '(s', l) := destroy_handle e s h in
  where_now s' r + cnt (lost r) l + cnt (gone r) l = where_now s r + cnt (handed r) l.
Proof.
  unfold destroy_handle. destruct h as [r0|]; [|rewrite !cnt_nil; lia]. destruct (valid s r0); [|rewrite !cnt_nil; lia].
  pose proof (call_called e s (OReply r0 (Some (Err EResponseIgnored)) false)) as C. destruct (call e s _) as [s' l]. cbn [fst snd] in C.
  unfold where_now. rewrite (ca_han _ _ _ _ _ C), (ca_gone _ _ _ _ _ C r). pose proof (ca_cnt _ _ _ _ _ C r). lia.
Qed.

Lemma sstep_acc e s x r : let '(s', l) := sstep e s x in
  where_now s' r + cnt (lost r) l + cnt (gone r) l = where_now s r + cnt (handed r) l.
Proof.
  assert (CALL : forall s0 x0, where_now s0 r = where_now s r -> let '(s', l) := call e s0 x0 in
     where_now s' r + cnt (lost r) l + cnt (gone r) l = where_now s r + cnt (handed r) l).
  { intros s0 x0 W. pose proof (call_called e s0 x0) as C. destruct (call e s0 x0) as [s' l]. cbn [fst snd] in C.
    rewrite <- W. unfold where_now. rewrite (ca_han _ _ _ _ _ C), (ca_gone _ _ _ _ _ C r). pose proof (ca_cnt _ _ _ _ _ C r). lia. }
  assert (NOP : forall l, cnt (lost r) l = 0 -> cnt (gone r) l = 0 -> cnt (handed r) l = 0 ->
     where_now s r + cnt (lost r) l + cnt (gone r) l = where_now s r + cnt (handed r) l) by (intros; lia).
  assert (THR : forall k x0, let '(s', l) := through s k (fun r0 => call e s (x0 r0)) in
     where_now s' r + cnt (lost r) l + cnt (gone r) l = where_now s r + cnt (handed r) l).
  { intros k x0. unfold through. destruct (nth_error (handles s) k) as [[[r0|]|]|]; try (apply NOP; reflexivity). apply CALL. reflexivity. }
  destruct x as [o f|b|x|i|i|k|k p|k p|k c|k cb|k|k j|k]; cbn [sstep];
    try exact (THR k (fun r0 => OReply r0 p false)); try exact (THR k (fun r0 => OReply r0 p true));
    try exact (THR k (fun r0 => OReply r0 (Some (Err c)) false)); try exact (THR k (fun r0 => OOnAborted r0 cb)).
  - destruct (exec s); [apply CALL; reflexivity|apply NOP; reflexivity].
  - destruct b; apply NOP; reflexivity.
  - destruct (forwarded x); [apply CALL; reflexivity|apply NOP; reflexivity].
  - destruct (nth_error (tasks s) i) as [[tr tf]|] eqn:T; [|apply NOP; reflexivity]. pose proof (cnt_remove_nth (waits r) _ _ _ T) as R.
    unfold waits at 2 in R. cbn [t_req] in R. destruct tf as [f|]; cbn [t_fn t_req].
    + unfold where_now. cbn [tasks handles set_handles set_tasks]. rewrite cnt_app, !cnt_cons, !cnt_nil. cbn. destruct (Nat.eqb r tr); cbn in *; lia.
    + pose proof (destroy_handle_acc e (set_handles (set_tasks s (remove_nth i (tasks s))) (handles s ++ [None])) (Some tr) r) as D.
      cbn [handles set_tasks] in *.
      destruct (destroy_handle e _ (Some tr)) as [s2 l]. rewrite !cnt_cons, !cnt_app, !cnt_cons, !cnt_nil. cbn [lost gone handed b2n].
      unfold where_now at 2 in D. cbn [tasks handles set_handles set_tasks] in D. rewrite cnt_app, cnt_cons, cnt_nil in D. cbn [holds b2n] in D.
      unfold where_now at 2. destruct (Nat.eqb r tr); cbn in *; lia.
  - destruct (nth_error (tasks s) i) as [t|] eqn:T; [|apply NOP; reflexivity]. pose proof (cnt_remove_nth (waits r) _ _ _ T) as R.
    unfold waits at 2 in R. unfold where_now. cbn [tasks handles set_tasks]. rewrite !cnt_cons, !cnt_nil. cbn. destruct (Nat.eqb r (t_req t)); cbn in *; lia.
  - unfold through. destruct (nth_error (handles s) k) as [[[r0|]|]|]; apply NOP; reflexivity.
  - destruct (nth_error (handles s) k) as [[h|]|] eqn:K; [|apply NOP; reflexivity|apply NOP; reflexivity].
    unfold where_now. cbn [tasks handles set_handles]. rewrite cnt_app, !cnt_cons, !cnt_nil.
    pose proof (cnt_set (holds r) (handles s) k (Some None) (Some h) K) as R. change (holds r (Some None)) with false in R. cbn [b2n] in R. unfold handle in *. lia.
  - destruct (nth_error (handles s) k) as [[old|]|] eqn:K; try (apply NOP; reflexivity).
    destruct (nth_error (handles s) j) as [[h|]|] eqn:J; try (apply NOP; reflexivity).
    destruct (Nat.eqb_spec k j); [apply NOP; reflexivity|].
    unfold where_now. cbn [tasks handles set_handles].
    pose proof (cnt_set (holds r) (handles s) k (Some h) (Some old) K) as R1.
    assert (J' : nth_error (set_nth k (Some h) (handles s)) j = Some (Some h)) by (rewrite nth_set_other by exact n; exact J).
    pose proof (cnt_set (holds r) _ j (Some None) (Some h) J') as R2. change (holds r (Some None)) with false in R2. cbn [b2n] in R2.
    destruct old as [r0|].
    + rewrite !cnt_cons, !cnt_nil. cbn [lost gone handed b2n]. cbn [holds] in R1. destruct (Nat.eqb r r0); cbn in *; unfold handle in *; lia.
    + rewrite !cnt_nil. change (holds r (Some None)) with false in R1. cbn [b2n] in R1. unfold handle in *. lia.
  - destruct (nth_error (handles s) k) as [[h|]|] eqn:K; try (apply NOP; reflexivity).
    pose proof (destroy_handle_acc e (set_handles s (set_nth k None (handles s))) h r) as D.
    destruct (destroy_handle e _ h) as [s1 l]. unfold where_now at 2 in D. cbn [tasks handles set_handles] in D.
    pose proof (cnt_set (holds r) (handles s) k None (Some h) K) as R. cbn [holds b2n] in R.
    rewrite !cnt_app. unfold where_now at 2. destruct h as [r0|].
    + rewrite !cnt_cons, !cnt_nil. cbn [lost gone handed b2n]. destruct (Nat.eqb r r0); cbn in *; unfold handle in *; lia.
    + rewrite !cnt_nil. change (holds r (Some None)) with false in R. cbn [b2n] in R. unfold handle in *. lia.
Qed.

Lemma accounting h r : where_now (sfinal h) r + cnt (lost r) (strace h) + cnt (gone r) (strace h) = cnt (handed r) (strace h).
Proof.
  induction h as [|[e x] h IH] using rev_ind; [reflexivity|]. rewrite sfinal_snoc, strace_snoc, !cnt_app. unfold snext.
  pose proof (sstep_acc e (sfinal h) x r) as A. destruct (sstep e (sfinal h) x) as [s' l]. cbn [fst snd]. lia.
Qed.

(** ** The provider underneath *)
Definition ext (x : op) : bool := match x with OIn _ | ODeinit => true | _ => false end.

Definition under (h : shistory) (l : history) : Prop :=
  sp (sfinal h) = final l /\ provider_events (strace h) = trace l /\ filter ext (ops_of l) = filter ext (provider_calls h) /\
  (forall r, cnt (handed r) (strace h) = cnt (calls_with r) (trace l)).

(** One stub call is at most one provider call. *)
Lemma sstep_prov e s x : let '(s', l) := sstep e s x in
  (sp s' = sp s /\ provider_events l = [] /\ (forall r, cnt (handed r) l = 0) /\ filter ext (provider_calls [(e, x)]) = []) \/
  (exists y, sp s' = fst (step (e_net e) (sp s) y) /\ provider_events l = snd (step (e_net e) (sp s) y) /\
     (forall r, cnt (handed r) l = cnt (calls_with r) (snd (step (e_net e) (sp s) y))) /\ filter ext [y] = filter ext (provider_calls [(e, x)])).
Proof.
  assert (CALL : forall s0 y, sp s0 = sp s -> filter ext [y] = filter ext (provider_calls [(e, x)]) -> let '(s', l) := call e s0 y in
    (sp s' = sp s /\ provider_events l = [] /\ (forall r, cnt (handed r) l = 0) /\ filter ext (provider_calls [(e, x)]) = []) \/
    (exists y, sp s' = fst (step (e_net e) (sp s) y) /\ provider_events l = snd (step (e_net e) (sp s) y) /\
     (forall r, cnt (handed r) l = cnt (calls_with r) (snd (step (e_net e) (sp s) y))) /\ filter ext [y] = filter ext (provider_calls [(e, x)]))).
  { intros s0 y S0 F. pose proof (call_called e s0 y) as C. destruct (call e s0 y) as [s' l]. cbn [fst snd] in C. right. exists y. rewrite <- S0.
    split; [exact (ca_sp _ _ _ _ _ C)|]. split; [exact (ca_ev _ _ _ _ _ C)|]. split; [exact (ca_handed _ _ _ _ _ C)|exact F]. }
  assert (NOP : forall s' l, sp s' = sp s -> provider_events l = [] -> (forall r, cnt (handed r) l = 0) -> filter ext (provider_calls [(e, x)]) = [] ->
     (sp s' = sp s /\ provider_events l = [] /\ (forall r, cnt (handed r) l = 0) /\ filter ext (provider_calls [(e, x)]) = []) \/
    (exists y, sp s' = fst (step (e_net e) (sp s) y) /\ provider_events l = snd (step (e_net e) (sp s) y) /\
     (forall r, cnt (handed r) l = cnt (calls_with r) (snd (step (e_net e) (sp s) y))) /\ filter ext [y] = filter ext (provider_calls [(e, x)]))) by (intros; left; auto).
  assert (DES : forall s0 h, sp s0 = sp s -> filter ext (provider_calls [(e, x)]) = [] -> let '(s', l) := destroy_handle e s0 h in
    (sp s' = sp s /\ provider_events l = [] /\ (forall r, cnt (handed r) l = 0) /\ filter ext (provider_calls [(e, x)]) = []) \/
    (exists y, sp s' = fst (step (e_net e) (sp s) y) /\ provider_events l = snd (step (e_net e) (sp s) y) /\
     (forall r, cnt (handed r) l = cnt (calls_with r) (snd (step (e_net e) (sp s) y))) /\ filter ext [y] = filter ext (provider_calls [(e, x)]))).
  { intros s0 h S0 F. unfold destroy_handle. destruct h as [r|]; [|apply NOP; auto]. destruct (valid s0 r); [|apply NOP; auto].
    apply CALL; [exact S0|rewrite F; reflexivity]. }
  destruct x as [o f|b|x|i|i|k|k p|k p|k c|k cb|k|k j|k]; cbn [sstep];
    try (unfold through; destruct (nth_error (handles s) k) as [[[r0|]|]|]; first [apply CALL; reflexivity|apply NOP; reflexivity]).
  - destruct (exec s); [apply CALL; reflexivity|apply NOP; reflexivity].
  - apply NOP; try reflexivity. destruct b; reflexivity.
  - destruct (forwarded x) eqn:F; [apply CALL; reflexivity|]. apply NOP; try reflexivity. destruct x; try discriminate; reflexivity.
  - destruct (nth_error (tasks s) i) as [[tr tf]|]; [|apply NOP; reflexivity]. destruct tf as [f|]; cbn [t_fn t_req]; [apply NOP; reflexivity|].
    pose proof (DES (set_handles (set_tasks s (remove_nth i (tasks s))) (handles s ++ [None])) (Some tr) eq_refl eq_refl) as D.
    cbn [handles set_tasks]. destruct (destroy_handle e _ (Some tr)) as [s2 l].
    assert (E1 : forall l, provider_events (SBadCall tr :: l ++ [SDestroyed (length (handles s)) tr]) = provider_events l).
    { intros l0. cbn. rewrite pev_app. cbn. apply app_nil_r. }
    assert (E2 : forall l r, cnt (handed r) (SBadCall tr :: l ++ [SDestroyed (length (handles s)) tr]) = cnt (handed r) l).
    { intros l0 r. rewrite cnt_cons, cnt_app, cnt_cons, cnt_nil. cbn. lia. }
    rewrite E1. destruct D as [(D1 & D2 & D3 & D4)|(y & D1 & D2 & D3 & D4)].
    + left. split; [exact D1|split; [exact D2|split; [|exact D4]]]. intros r. rewrite E2. apply D3.
    + right. exists y. split; [exact D1|split; [exact D2|split; [|exact D4]]]. intros r. rewrite E2. apply D3.
  - destruct (nth_error (tasks s) i) as [t|]; apply NOP; reflexivity.
  - destruct (nth_error (handles s) k) as [[old|]|]; try (apply NOP; reflexivity).
    destruct (nth_error (handles s) j) as [[h|]|]; try (apply NOP; reflexivity).
    destruct (Nat.eqb k j); [apply NOP; reflexivity|]. destruct old; apply NOP; reflexivity.
  - destruct (nth_error (handles s) k) as [[h|]|]; try (apply NOP; reflexivity).
    pose proof (DES (set_handles s (set_nth k None (handles s))) h eq_refl eq_refl) as D.
    destruct (destroy_handle e _ h) as [s1 l].
    assert (E1 : provider_events (l ++ match h with Some r => [SDestroyed k r] | None => [] end) = provider_events l).
    { rewrite pev_app. destruct h; cbn; apply app_nil_r. }
    assert (E2 : forall r, cnt (handed r) (l ++ match h with Some r => [SDestroyed k r] | None => [] end) = cnt (handed r) l).
    { intros r. rewrite cnt_app. destruct h; rewrite ?cnt_cons, cnt_nil; cbn; lia. }
    rewrite E1. destruct D as [(D1 & D2 & D3 & D4)|(y & D1 & D2 & D3 & D4)].
    + left. split; [exact D1|split; [exact D2|split; [|exact D4]]]. intros r. rewrite E2. apply D3.
    + right. exists y. split; [exact D1|split; [exact D2|split; [|exact D4]]]. intros r. rewrite E2. apply D3.
Qed.

Lemma under_snoc h l e x : under h l -> exists l', under (h ++ [(e, x)]) l' /\
  (l' = l \/ exists y, l' = l ++ [(e_net e, y)]).
Proof.
  intros (U1 & U2 & U3 & U4). pose proof (sstep_prov e (sfinal h) x) as P. unfold under.
  rewrite sfinal_snoc, strace_snoc, pcalls_app. unfold snext.
  destruct (sstep e (sfinal h) x) as [s' ev]. cbn [fst snd]. destruct P as [(P1 & P2 & P3 & P4)|(y & P1 & P2 & P3 & P4)].
  - exists l. split; [|left; reflexivity]. split; [congruence|]. rewrite pev_app, P2, app_nil_r, filter_app, P4, app_nil_r. split; [exact U2|]. split; [exact U3|].
    intros r. rewrite cnt_app, P3, U4. lia.
  - exists (l ++ [(e_net e, y)]). split; [|right; exists y; reflexivity]. rewrite final_snoc, trace_snoc. unfold next.
    split; [congruence|]. rewrite pev_app, U1 in *. split; [congruence|]. rewrite ops_snoc, !filter_app. split; [congruence|].
    intros r. rewrite !cnt_app, U4, P3. reflexivity.
Qed.

Lemma under_exists h : exists l, under h l.
Proof.
  induction h as [|[e x] h (l & U)] using rev_ind.
  - exists []. repeat split.
  - destruct (under_snoc h l e x U) as (l' & U' & _). exists l'. exact U'.
Qed.

Lemma filter_requests l : requests_received (filter ext l) = requests_received l.
Proof. induction l as [|x l IH]; [reflexivity|]. destruct x; cbn; rewrite ?IH; reflexivity. Qed.
Lemma under_received h l : under h l -> received h = requests_received (ops_of l).
Proof. intros (_ & _ & U & _). unfold received. rewrite <- filter_requests, <- U, filter_requests. reflexivity. Qed.
Lemma under_abort h l k : under h l -> abort_for k (ops_of l) <-> aborted h k.
Proof.
  intros (_ & _ & U & _). unfold abort_for, aborted. split; intros (m & I & C); exists m; (split; [|exact C]).
  - assert (J : In (OIn m) (filter ext (ops_of l))) by (apply filter_In; auto). rewrite U in J. apply filter_In in J. apply J.
  - assert (J : In (OIn m) (filter ext (provider_calls h))) by (apply filter_In; auto). rewrite <- U in J. apply filter_In in J. apply J.
Qed.
Lemma under_deinit h l : under h l -> In ODeinit (ops_of l) <-> deinited h.
Proof.
  intros (_ & _ & U & _). unfold deinited. split; intros I.
  - assert (J : In ODeinit (filter ext (ops_of l))) by (apply filter_In; auto). rewrite U in J. apply filter_In in J. apply J.
  - assert (J : In ODeinit (filter ext (provider_calls h))) by (apply filter_In; auto). rewrite <- U in J. apply filter_In in J. apply J.
Qed.

(** Every request object was handed over once. *)
Lemma handed_once h r : cnt (handed r) (strace h) = b2n (Nat.ltb r (length (heap (sp (sfinal h))))).
Proof. destruct (under_exists h) as (l & U1 & U2 & U3 & U4). rewrite U4, U1. apply calls_once. Qed.
