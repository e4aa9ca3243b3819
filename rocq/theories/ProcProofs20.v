(** Steps of a signal, as a processor makes them. *)
From Verif Require Import ListUtil Amap SigModel SigSpec SigProofs SigProofs2 SigProofs3 SigProofs4 SigProofs5.
Ltac conjs := repeat match goal with |- _ /\ _ => split end.

Definition call_of (e : event) : list (nat * nat * nat * nat) := match e with ECall t _ k s v => [(t, v, k, s)] | _ => [] end.
Definition sig_calls (l : list event) : list (nat * nat * nat * nat) := flat_map call_of l.
Lemma sig_calls_app a b : sig_calls (a ++ b) = sig_calls a ++ sig_calls b. Proof. apply flat_map_app. Qed.
Lemma in_sig_calls t v k s l : In (t, v, k, s) (sig_calls l) <-> exists n, In (ECall t n k s v) l.
Proof.
  unfold sig_calls. rewrite in_flat_map. split.
  - intros (e & I & C). destruct e; cbn in C; try contradiction. destruct C as [C|[]]. injection C as -> -> -> ->. eauto.
  - intros (n & I). exists (ECall t n k s v). split; [exact I|left; reflexivity].
Qed.

Record healthy (st : state) : Prop := { hy_hub : hub st = true; hy_dead : dead st = []; hy_crash : crashed st = false }.
Definition user_action (a : action) : bool := match a with AConnect CPlain | ADisconnect _ | AReconnect _ => true | _ => false end.
Definition silent (st st' : state) : Prop := exists l, tr st' = tr st ++ l /\ (forall e, In e l -> match e with ECall _ _ _ _ _ | EEmit _ _ _ | EEnd _ _ => False | _ => True end).

Lemma silent_calls st st' : silent st st' -> sig_calls (tr st') = sig_calls (tr st).
Proof.
  intros (l & -> & H). rewrite sig_calls_app. assert (E : sig_calls l = []); [|rewrite E, app_nil_r; reflexivity].
  induction l as [|e l IH]; [reflexivity|]. change (sig_calls (e :: l)) with (call_of e ++ sig_calls l). rewrite IH by (intros x I; apply H; right; exact I). specialize (H e (or_introl eq_refl)). destruct e; try reflexivity. contradiction.
Qed.
Lemma silent_refl st : silent st st. Proof. exists []. rewrite app_nil_r. split; [reflexivity|intros e []]. Qed.
Lemma watch_keeps a b : em (watch a b) = em b /\ hub (watch a b) = hub b /\ dead (watch a b) = dead b /\ crashed (watch a b) = crashed b /\ entries (watch a b) = entries b /\ silent b (watch a b).
Proof.
  destruct (watch_cases a b) as [->|(s & ->)]; cbn; conjs; try reflexivity; [apply silent_refl|]. exists [EFreed s]. split; [reflexivity|]. intros e [<-|[]]. exact I.
Qed.
Lemma silent_trans a b c : silent a b -> silent b c -> silent a c.
Proof. intros (l & A & B) (l' & A' & B'). exists (l ++ l'). rewrite A', A, app_assoc. split; [reflexivity|]. intros e I. apply in_app_or in I as [I|I]; [apply B|apply B']; exact I. Qed.
Lemma silent_one a b e : tr b = tr a ++ [e] -> match e with ECall _ _ _ _ _ | EEmit _ _ _ | EEnd _ _ => False | _ => True end -> silent a b.
Proof. intros T E. exists [e]. split; [exact T|]. intros x [<-|[]]. exact E. Qed.

Lemma keep_user st t a : healthy st -> free st t = true -> user_action a = true -> let st' := next Multi st (t, a) in em st' = em st /\ healthy st' /\ silent st st'.
Proof.
  intros [H D C] F U. unfold next. rewrite C. cbn [fst snd].
  assert (X : em (act Multi st t a) = em st /\ healthy (act Multi st t a) /\ silent st (act Multi st t a)).
  { destruct a as [k| | | | | | | |c|c| | | | | | | | |]; try discriminate U.
    - destruct k; try discriminate U. cbn. rewrite F, H. cbn. split; [reflexivity|]. split; [split; assumption|]. exists [EJoin (length (kinds st)); ERet t (AConnect CPlain) (RCon (length (conns st)) (length (kinds st)) true)]. split; [cbn; rewrite <- app_assoc; reflexivity|]. intros e [<-|[<-|[]]]; exact I.
    - unfold act. rewrite F. unfold call. destruct (hidden st c); [split; [reflexivity|split; [split; assumption|apply silent_refl]]|].
      assert (Y : em (fst (disconnect Multi st c)) = em st /\ healthy (fst (disconnect Multi st c)) /\ silent st (fst (disconnect Multi st c))).
      { unfold disconnect. destruct (nth_error (conns st) c) as [[[s|]| |]|]; try (split; [reflexivity|split; [split; assumption|apply silent_refl]]).
        destruct (owned st s); [|split; [reflexivity|split; [split; assumption|apply silent_refl]]]. rewrite H. destruct (has s (entries st)); [|split; [reflexivity|split; [split; assumption|apply silent_refl]]].
        cbn. split; [reflexivity|]. split; [split; assumption|]. eapply silent_one; [reflexivity|exact I]. }
      destruct (disconnect Multi st c) as [st1 b]. cbn in Y |- *. destruct Y as (Y1 & [Y2 Y3 Y4] & Y5). split; [exact Y1|]. split; [split; assumption|]. eapply silent_trans; [exact Y5|]. eapply silent_one; [reflexivity|exact I].
    - unfold act. rewrite F. unfold call. destruct (hidden st c); [split; [reflexivity|split; [split; assumption|apply silent_refl]]|].
      assert (Y : em (fst (reconnect Multi st c)) = em st /\ healthy (fst (reconnect Multi st c)) /\ silent st (fst (reconnect Multi st c))).
      { unfold reconnect. destruct (nth_error (conns st) c) as [[[s|]|s|]|]; try (split; [reflexivity|split; [split; assumption|apply silent_refl]]).
        rewrite H. destruct (can_add_unique _ _ _); [|split; [reflexivity|split; [split; assumption|exists []; cbn; rewrite app_nil_r; split; [reflexivity|intros e []]]]].
        cbn. split; [reflexivity|]. split; [split; assumption|]. eapply silent_one; [reflexivity|exact I]. }
      destruct (reconnect Multi st c) as [st1 b]. cbn in Y |- *. destruct Y as (Y1 & [Y2 Y3 Y4] & Y5). split; [exact Y1|]. split; [split; assumption|]. eapply silent_trans; [exact Y5|]. eapply silent_one; [reflexivity|exact I]. }
  destruct X as (X1 & [X2 X3 X4] & X5). destruct (watch_keeps st (act Multi st t a)) as (W1 & W2 & W3 & W4 & _ & W5).
  split; [congruence|]. split; [split; congruence|]. eapply silent_trans; eauto.
Qed.


Lemma keep_emit st t v : CI Multi st -> healthy st -> free st t = true -> let st' := next Multi st (t, AEmit v) in
  crashed st' = true \/
  (em st = None /\ healthy st' /\ sig_calls (tr st') = sig_calls (tr st) /\ entries st' = entries st /\ ((entries st = [] /\ em st' = None) \/ em st' = Some (Em t (emno st) v 0 None))).
Proof.
  intros CI0 [H D C] F. unfold next. rewrite C. cbn [fst snd]. destruct (watch_keeps st (act Multi st t (AEmit v))) as (W1 & W2 & W3 & W4 & W6 & W5). rewrite W1, W4, W6.
  rewrite (silent_calls _ _ W5). assert (HW : healthy (act Multi st t (AEmit v)) -> healthy (watch st (act Multi st t (AEmit v)))) by (intros [A1 A2 A3]; split; congruence).
  revert HW. clear W1 W2 W3 W4 W5 W6. generalize (healthy (watch st (act Multi st t (AEmit v)))). intros HP. unfold act. rewrite F. unfold call. rewrite H.
  assert (NE : forall x, em st = Some x -> notif st = true /\ entries st <> []).
  { intros x E. split; [apply (c_em _ _ CI0 _ E)|]. intros N. pose proof (c_cur _ _ CI0 _ E eq_refl) as B. rewrite N in B. cbn in B. unfold free in F. rewrite E in F. apply andb_prop in F as [_ F]. unfold bound in B. destruct (e_run x); [lia|discriminate]. }
  destruct (entries st) eqn:E.
  - cbn. intros HW. right. split; [destruct (em st); [destruct (NE _ eq_refl); congruence|reflexivity]|]. split; [apply HW; split; assumption|]. rewrite sig_calls_app, app_nil_r. split; [reflexivity|]. split; [exact E|]. left. split; [reflexivity|].
    destruct (em st); [destruct (NE _ eq_refl); congruence|reflexivity].
  - destruct (notif st) eqn:N; [left; reflexivity|]. cbn. intros HW. right. split; [destruct (em st); [destruct (NE _ eq_refl); congruence|reflexivity]|]. split; [apply HW; split; assumption|].
    rewrite sig_calls_app, app_nil_r. auto.
Qed.

Lemma keep_step st t x : healthy st -> em st = Some x -> e_thread x = t -> e_run x = None -> let st' := next Multi st (t, AStep) in healthy st' /\
  ((nth_error (entries st) (e_cur x) = None /\ em st' = None /\ sig_calls (tr st') = sig_calls (tr st) /\ entries st' = entries st) \/
   (em st' = Some x /\ tr st' = tr st) \/
   exists k s, em st' = Some (Em t (e_no x) (e_val x) (e_cur x) (Some (k, s))) /\ tr st' = tr st ++ [ECall t (e_no x) k s (e_val x)]).
Proof.
  intros [H D C] E <- R. unfold next. rewrite C. cbn [fst snd]. assert (W : watch st (act Multi st (e_thread x) AStep) = act Multi st (e_thread x) AStep) by (unfold watch; rewrite E, R; reflexivity). rewrite W. clear W.
  cbn. rewrite E, Nat.eqb_refl, R. unfold step. destruct (nth_error (entries st) (e_cur x)) as [[[k s]|]|] eqn:N.
  - assert (X : forall o, is_dead st o = false) by (intros o; unfold is_dead; rewrite D; reflexivity).
    destruct (nth_error (kinds st) s) as [[| | |o c]|]; rewrite ?X; cbn; (split; [split; assumption|right; right; exists k, s; auto]).
  - cbn. split; [split; assumption|]. right. left. auto.
  - cbn. split; [split; assumption|]. left. rewrite sig_calls_app, app_nil_r. auto.
Qed.

Lemma keep_return st t x k s : healthy st -> em st = Some x -> e_thread x = t -> e_run x = Some (k, s) -> let st' := next Multi st (t, AReturn) in
  healthy st' /\ em st' = Some (Em t (e_no x) (e_val x) (S (e_cur x)) None) /\ sig_calls (tr st') = sig_calls (tr st) /\ silent st st'.
Proof.
  intros [H D C] E <- R. unfold next. rewrite C. cbn [fst snd]. destruct (watch_keeps st (act Multi st (e_thread x) AReturn)) as (W1 & W2 & W3 & W4 & W6 & W5).
  set (st1 := watch st (act Multi st (e_thread x) AReturn)) in *.
  assert (X : healthy (act Multi st (e_thread x) AReturn) /\ em (act Multi st (e_thread x) AReturn) = Some (Em (e_thread x) (e_no x) (e_val x) (S (e_cur x)) None) /\ tr (act Multi st (e_thread x) AReturn) = tr st).
  { cbn. rewrite E, Nat.eqb_refl, R. unfold slot_return, go_on. cbn.
    assert (Y : forall z, hub (match nth_error (kinds z) s with Some (KAware c) | Some (KTracked _ c) => match nth_error (conns z) c with Some (CPtr _) => set_con z c (CRef None) | _ => z end | _ => z end) = hub z /\
      dead (match nth_error (kinds z) s with Some (KAware c) | Some (KTracked _ c) => match nth_error (conns z) c with Some (CPtr _) => set_con z c (CRef None) | _ => z end | _ => z end) = dead z /\
      crashed (match nth_error (kinds z) s with Some (KAware c) | Some (KTracked _ c) => match nth_error (conns z) c with Some (CPtr _) => set_con z c (CRef None) | _ => z end | _ => z end) = crashed z /\
      tr (match nth_error (kinds z) s with Some (KAware c) | Some (KTracked _ c) => match nth_error (conns z) c with Some (CPtr _) => set_con z c (CRef None) | _ => z end | _ => z end) = tr z).
    { intros z. destruct (nth_error (kinds z) s) as [[| |c|o c]|]; try (conjs; reflexivity); destruct (nth_error (conns z) c) as [[]|]; conjs; reflexivity. }
    destruct (Y st) as (Y1 & Y2 & Y3 & Y4). split; [split; cbn; congruence|]. split; [reflexivity|exact Y4]. }
  destruct X as ([X1 X2 X3] & X4 & X5). split; [split; congruence|]. split; [congruence|].
  assert (Z : silent st st1) by (eapply silent_trans; [|exact W5]; exists []; rewrite app_nil_r; split; [exact X5|intros e []]).
  split; [apply silent_calls; exact Z|exact Z].
Qed.
