(** The observable model: invariant. *)
From Verif Require Import ListUtil.
From Verif Require Import SigModel SigSpec SigProofs SigProofs2 SigProofs3 SigProofs4 SigProofs5 SigProofs6 SigProofs7 SigProofs8 SigProofs9.
From Verif Require ObsModel.
From Verif Require Import ObsSpec.

(** ** The signal, seen from outside *)
Lemma trace_grows m h t a : exists new, trace m (h ++ [(t, a)]) = trace m h ++ new.
Proof.
  unfold trace. rewrite final_snoc. unfold next. destruct (crashed (final m h)); [exists []; rewrite app_nil_r; reflexivity|].
  destruct (grows_act m (final m h) t a (J_final m h)) as (l & T & _). cbn [fst snd].
  destruct (watch_tr (final m h) (act m (final m h) t a)) as [W|(s & W & _)]; rewrite W, T, <- ?app_assoc; eexists; reflexivity.
Qed.

Definition calm_action (a : action) : Prop := ObsModel.passes a = true \/ a = AConnect CPlain.
Lemma calm_em m st t a : calm_action a -> em (act m st t a) = em st /\ notif (act m st t a) = notif st /\ hub (act m st t a) = hub st.
Proof.
  intros C. assert (Z : em st = em st /\ notif st = notif st /\ hub st = hub st) by auto. unfold act. destruct C as [C| ->].
  - destruct a as [k| |s|s|s| | | |c|c|c|c|c|o| |v| | |]; try discriminate; try (destruct (free st t); [unfold call|exact Z]).
    + destruct (hub st) eqn:H; [|rewrite H; exact Z]. destruct m; [destruct (em st) eqn:E|]; cbn; rewrite ?E, ?H; auto.
    + destruct (hub st) eqn:H; cbn; rewrite ?H; auto.
    + destruct (hub st) eqn:H; cbn; rewrite ?H; auto.
    + destruct (hidden st c); [exact Z|]. destruct (em_disconnect m st c) as [A B]. destruct (kinds_disconnect m st c) as (_ & _ & _ & D & _). destruct (disconnect m st c). cbn in *. auto.
    + destruct (hidden st c); [exact Z|]. destruct (em_reconnect m st c) as [A B]. destruct (kinds_reconnect m st c) as (_ & _ & _ & D & _). destruct (reconnect m st c). cbn in *. auto.
    + destruct (hidden st c); exact Z.
    + destruct (internal st c || _); exact Z.
    + destruct (internal st c || _); [exact Z|]. destruct (em_disconnect m st c) as [A B]. destruct (kinds_disconnect m st c) as (_ & _ & _ & D & _). destruct (is_connected st c); cbn; auto.
  - destruct (free st t); [unfold call|exact Z]. destruct (hub st) eqn:H; [|rewrite H; exact Z]. unfold save. destruct (can_add m _); cbn; auto.
Qed.
Lemma calm_next m st t a : calm_action a -> em (next m st (t, a)) = em st /\ notif (next m st (t, a)) = notif st /\ hub (next m st (t, a)) = hub st.
Proof.
  intros C. unfold next. destruct (crashed st); [auto|]. cbn [fst snd]. destruct (calm_em m st t a C) as (A & B & D).
  destruct (watch_cases st (act m st t a)) as [->|[s ->]]; auto.
Qed.


Lemma new_calls m h t a new t' e k s v : trace m (h ++ [(t, a)]) = trace m h ++ new -> In (ECall t' e k s v) new ->
  crashed (final m h) = false /\ a = AStep /\ new = [ECall t' e k s v] /\ exists x, em (final m h) = Some x /\ e_run x = None /\ e_no x = e /\ e_thread x = t' /\ e_val x = v.
Proof.
  unfold trace. rewrite final_snoc. unfold next. destruct (crashed (final m h)); [intros T X; apply (f_equal (@length event)) in T; rewrite app_length in T; destruct new; [destruct X|cbn in T; lia]|].
  intros T X. split; [reflexivity|]. cbn [fst snd] in *. set (st := final m h) in *. pose proof (J_final m h) as I. fold st in I.
  destruct (grows_act m st t a I) as (l & TL & _).
  assert (Y : In (ECall t' e k s v) l /\ (new = l \/ exists s', new = l ++ [EFreed s'] /\ exists x r, em st = Some x /\ e_run x = Some r)).
  { destruct (watch_tr st (act m st t a)) as [W|(s' & W & x & k' & W1 & W2)]; rewrite W, TL, <- ?app_assoc in T; apply app_inv_head in T; subst new; [auto|].
    apply in_app_or in X as [X|[X|[]]]; [|discriminate]. split; [exact X|]. right. exists s'. split; [reflexivity|]. exists x, (k', s'). auto. }
  destruct Y as [Y Z]. destruct (call_event m st t a (ECall t' e k s v) I) as (x & k0 & s0 & E & EV & TT & N & D & A & R); [eauto|exact Logic.I|].
  injection EV as -> -> -> -> ->. split; [exact A|]. rewrite TL in TT. apply app_inv_head in TT. subst l.
  split; [|exists x; auto]. destruct Z as [->|(s' & _ & x' & r & E' & R')]; [reflexivity|]. exfalso. congruence.
Qed.

(** ** notify() on the signal *)
Lemma sig_emit m h t v : let k := final m h in let k' := final m (h ++ [(t, AEmit v)]) in
  crashed k = false -> follows k -> hub k = true -> free k t = true ->
  (em k = None /\ em k' = None /\ tr k' = tr k ++ [EEmit t (emno k) v; EEnd t (emno k)] /\ crashed k' = false /\ hub k' = true /\ notif k' = notif k) \/
  (em k = None /\ em k' = Some (Em t (emno k) v 0 None) /\ tr k' = tr k ++ [EEmit t (emno k) v] /\ crashed k' = false /\ hub k' = true) \/
  (em k <> None /\ em k' = em k /\ crashed k' = true /\ tr k' = tr k ++ [ECrash] /\ hub k' = true /\ notif k' = notif k) \/
  (exists x, em k = Some x /\ e_run x <> None /\ m = Single /\ em k' = em k /\ crashed k' = false /\ hub k' = true /\ notif k' = notif k /\ tr k' = tr k ++ [EEmit t (emno k) v; EEnd t (emno k)]).
Proof.
  intros k k' C FO HB FR. unfold k'. rewrite final_snoc. fold k. unfold next. rewrite C. cbn [fst snd]. unfold act. rewrite FR. unfold call. rewrite HB.
  destruct (entries k) as [|y l] eqn:EN.
  - rewrite watch_owned by (intros s; unfold owned; cbn; rewrite EN; auto). destruct (em k) as [x|] eqn:EM.
    + right. right. right. exists x. assert (R : e_run x <> None) by (unfold free in FR; rewrite EM in FR; apply andb_true_iff in FR as [_ FR]; destruct (e_run x); [discriminate|discriminate FR]).
      repeat split; auto. destruct m; [|reflexivity]. exfalso. pose proof (c_cur _ _ (CI_final Multi h) x EM eq_refl) as B. fold k in B. rewrite EN in B. unfold bound in B. destruct (e_run x); [cbn in B; lia|congruence].
    + left. cbn. auto 10.
  - destruct (notif k) eqn:NO.
    + assert (EM : em k <> None) by (intros E; rewrite (FO E) in NO; discriminate). rewrite watch_owned by (intros s; unfold owned; cbn; rewrite EN; auto). right. right. left. cbn. auto 10.
    + assert (EM : em k = None) by (destruct (em k) as [x|] eqn:E; [pose proof (c_em _ _ (CI_final m h) x E) as [Y _]; fold k in Y; congruence|reflexivity]).
      rewrite watch_owned by (intros s; unfold owned; cbn; rewrite EN; auto). right. left. cbn. auto 10.
Qed.

(** ** The steps of an emission *)
Lemma sig_step m h t x : let k := final m h in let k' := final m (h ++ [(t, AStep)]) in
  crashed k = false -> em k = Some x -> e_thread x = t -> e_run x = None -> hub k = true ->
  crashed k' = false /\ hub k' = true /\
  ((exists x', em k' = Some x' /\ e_thread x' = t /\ e_no x' = e_no x /\ e_val x' = e_val x) \/
   (em k' = None /\ notif k' = false /\ exists l, tr k' = tr k ++ l /\ In (EEnd t (e_no x)) l)).
Proof.
  intros k k' C E T R HB. unfold k'. rewrite (next_step m h t x C E T R). fold k. unfold step.
  destruct (nth_error (entries k) (e_cur x)) as [[[n s]|]|] eqn:N.
  - assert (Y : forall st1, st1 = emit (with_em k true (Some (Em (e_thread x) (e_no x) (e_val x) (e_cur x) (Some (n, s))))) [ECall (e_thread x) (e_no x) n s (e_val x)] ->
       crashed st1 = false /\ hub st1 = true /\ ((exists x', em st1 = Some x' /\ e_thread x' = t /\ e_no x' = e_no x /\ e_val x' = e_val x) \/
       (em st1 = None /\ notif st1 = false /\ exists l, tr st1 = tr k ++ l /\ In (EEnd t (e_no x)) l))).
    { intros st1 ->. split; [exact C|]. split; [exact HB|]. left. eexists. split; [reflexivity|]. cbn. auto. }
    destruct (nth_error (kinds k) s) as [[| | |o c]|] eqn:K; try (apply Y; reflexivity). destruct (is_dead k o); [|apply Y; reflexivity].
    pose proof (expire_eq m k s o c (J_final m h) K (has_nth _ _ _ _ N) HB) as X. fold (expire m k c). cbv zeta. rewrite X.
    destruct m; destruct (owned _ s); cbn; (split; [exact C|]); (split; [exact HB|]); try (left; eexists; split; [reflexivity|cbn; auto]); right; (split; [reflexivity|]); (split; [reflexivity|]); eexists; rewrite <- ?app_assoc; (split; [reflexivity|]); rewrite T; cbn; auto.
  - cbn. split; [exact C|]. split; [exact HB|]. left. exists x. auto.
  - cbn. split; [exact C|]. split; [exact HB|]. right. split; [reflexivity|]. split; [reflexivity|]. rewrite T. eexists. split; [reflexivity|]. left. reflexivity.
Qed.
Lemma sig_return m h t x : let k := final m h in let k' := final m (h ++ [(t, AReturn)]) in
  crashed k = false -> em k = Some x -> e_thread x = t -> e_run x <> None -> hub k = true ->
  crashed k' = false /\ hub k' = true /\
  ((m = Multi /\ exists x', em k' = Some x' /\ e_thread x' = t /\ e_no x' = e_no x /\ e_val x' = e_val x /\ e_run x' = None) \/
   (em k' = None /\ notif k' = false /\ exists l, tr k' = tr k ++ l /\ In (EEnd t (e_no x)) l)).
Proof.
  intros k k' C E T R HB. unfold k'. rewrite final_snoc. fold k. unfold next. rewrite C. cbn [fst snd]. unfold act. rewrite E, T, Nat.eqb_refl. destruct (e_run x) as [[n s]|] eqn:RR; [|congruence].
  destruct (watch_fields k (slot_return m k x s)) as (W1 & W2 & W3 & W4 & _). assert (WH : hub (watch k (slot_return m k x s)) = hub (slot_return m k x s)) by (destruct (watch_cases k (slot_return m k x s)) as [->|[z ->]]; reflexivity).
  rewrite W1, W2, W4, WH.
  assert (G : forall st0, crashed st0 = false -> hub st0 = true -> (exists l, tr st0 = tr k ++ l) ->
    crashed (go_on m st0 x) = false /\ hub (go_on m st0 x) = true /\ ((m = Multi /\ exists x', em (go_on m st0 x) = Some x' /\ e_thread x' = t /\ e_no x' = e_no x /\ e_val x' = e_val x /\ e_run x' = None) \/
    (em (go_on m st0 x) = None /\ notif (go_on m st0 x) = false /\ exists l, tr (go_on m st0 x) = tr k ++ l /\ In (EEnd t (e_no x)) l))).
  { intros st0 C0 H0 [l0 L0]. destruct m; cbn; (split; [exact C0|]); (split; [exact H0|]); [left; split; [reflexivity|]; eexists; split; [reflexivity|]; cbn; auto|].
    right. split; [reflexivity|]. split; [reflexivity|]. exists (l0 ++ [EEnd (e_thread x) (e_no x)]). split; [rewrite L0, app_assoc; reflexivity|]. rewrite T. apply in_or_app. right. left. reflexivity. }
  assert (Z : exists l, tr k = tr k ++ l) by (exists []; rewrite app_nil_r; reflexivity).
  unfold slot_return.
  assert (G' : crashed (slot_return m k x s) = false /\ hub (slot_return m k x s) = true /\ ((m = Multi /\ exists x', em (slot_return m k x s) = Some x' /\ e_thread x' = t /\ e_no x' = e_no x /\ e_val x' = e_val x /\ e_run x' = None) \/
    (em (slot_return m k x s) = None /\ notif (slot_return m k x s) = false /\ exists l, tr (slot_return m k x s) = tr k ++ l /\ In (EEnd t (e_no x)) l))).
  { unfold slot_return. destruct (nth_error (kinds k) s) as [[| |c|o c]|]; try solve [apply G; auto]; destruct (nth_error (conns k) c) as [[| |]|]; apply G; auto. }
  fold (slot_return m k x s). destruct G' as (A & B & [D|(D1 & D2 & l & D3 & D4)]).
  - auto.
  - split; [exact A|]. split; [exact B|]. right. split; [exact D1|]. split; [exact D2|].
    destruct (watch_tr k (slot_return m k x s)) as [->|(z & -> & _)]; [exists l; auto|]. exists (l ++ [EFreed z]). rewrite D3, app_assoc. split; [reflexivity|]. apply in_or_app. left. exact D4.
Qed.
