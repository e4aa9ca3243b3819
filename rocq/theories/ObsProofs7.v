(** The signals inside observables: who keeps a slot alive. *)
From Verif Require Import ListUtil.
From Verif Require Import SigProofs SigProofs2 SigProofs3 SigProofs4 SigProofs5 SigProofs6 SigProofs7 SigProofs8 SigProofs9 ObsProofs.
From Verif Require SigModel SigSpec.
From Verif Require Import ObsModel ObsSpec ObsProofs2 ObsProofs3 ObsProofs4 ObsProofs5 ObsProofs6.
Import SigModel (mode, Multi, Single).

(** ** The signal: every connection was given to somebody. *)
Definition fine (a : SigModel.action) : bool := match a with SigModel.AConnect SigModel.CPlain | SigModel.AEmit _ | SigModel.AStep | SigModel.AReturn => true | _ => passes a end.
Definition points (y : SigModel.cstate) (s : nat) : bool := match y with SigModel.CRef (Some s') | SigModel.CPtr s' => Nat.eqb s s' | _ => false end.
Record FN (st : SigModel.state) : Prop := {
  fn_held : SigModel.held st = [];
  fn_kind : forall k, In k (SigModel.kinds st) -> k = SigModel.KPlain;
  fn_made : forall c y s, nth_error (SigModel.conns st) c = Some y -> points y s = true -> exists t a, In (SigModel.ERet t a (SigModel.RCon c s true)) (SigModel.tr st) }.

Import SigModel.
Definition cgood (st : state) (T : list event) : Prop := forall c y s, nth_error (conns st) c = Some y -> points y s = true -> exists t a, In (ERet t a (RCon c s true)) T.
Lemma cgood_set st T c x : cgood st T -> (forall s, points x s = true -> exists y, nth_error (conns st) c = Some y /\ points y s = true) -> cgood (set_con st c x) T.
Proof.
  intros G P c' y s N Y. cbn in N. destruct (Nat.eq_dec c' c) as [->|NE].
  - destruct (Nat.lt_ge_cases c (length (conns st))) as [L|L].
    + rewrite nth_set_same in N by exact L. injection N as <-. destruct (P s Y) as (y & N' & Y'). exact (G c y s N' Y').
    + exfalso. assert (E : nth_error (set_nth c x (conns st)) c = None) by (apply nth_error_None; rewrite length_set_nth; exact L). congruence.
  - rewrite nth_set_other in N by auto. exact (G c' y s N Y).
Qed.
Lemma cgood_disconnect m st T c : cgood st T -> cgood (fst (disconnect m st c)) T.
Proof.
  intros G. unfold disconnect. destruct (nth_error (conns st) c) as [[[s|]|s|]|] eqn:N; try exact G. destruct (owned st s); [|exact G]. destruct (hub st); [destruct (has s (entries st)); [|exact G]|]; cbn [fst].
  - apply (cgood_set (remove m st s) T c (CPtr s)); [exact G|]. intros s' P. exists (CRef (Some s)). split; [exact N|exact P].
  - apply cgood_set; [exact G|]. intros s' P. discriminate P.
Qed.
Lemma cgood_reconnect m st T c : cgood st T -> cgood (fst (reconnect m st c)) T.
Proof.
  intros G. unfold reconnect. destruct (nth_error (conns st) c) as [[[s|]|s|]|] eqn:N; try exact G. destruct (hub st); [|exact G]. destruct (can_add_unique m (entries st) s); cbn [fst].
  - apply (cgood_set (add st s) T c (CRef (Some s))); [exact G|]. intros s' P. exists (CPtr s). split; [exact N|exact P].
  - apply cgood_set; [exact G|]. intros s' P. discriminate P.
Qed.
Lemma cgood_more st T l : cgood st T -> cgood st (T ++ l).
Proof. intros G c y s N P. destruct (G c y s N P) as (t & a & X). exists t, a. apply in_or_app. left. exact X. Qed.
Lemma FN_same st st' l : FN st -> held st' = held st -> kinds st' = kinds st -> cgood st' (tr st') -> tr st' = tr st ++ l -> FN st'.
Proof. intros [A B C] E1 E2 E3 E4. split; [congruence|rewrite E2; exact B|exact E3]. Qed.
Lemma FN_next m st t a : FN st -> fine a = true -> FN (next m st (t, a)).
Proof.
  intros F FI. pose proof F as [A B C]. unfold next. destruct (crashed st); [exact F|]. cbn [fst snd].
  assert (W : FN (act m st t a) -> FN (watch st (act m st t a))).
  { intros [A' B' C']. destruct (watch_cases st (act m st t a)) as [->|[s ->]]; split; auto. exact (cgood_more _ _ _ C'). }
  apply W. clear W. assert (CG : cgood st (tr st)) by exact C.
  assert (ND : forall s, nth_error (kinds st) s = None \/ nth_error (kinds st) s = Some KPlain) by (intros s; destruct (nth_error (kinds st) s) eqn:N; [right; f_equal; apply B; eapply nth_error_In; exact N|left; reflexivity]).
  destruct a as [[| |o]| |s|s|s| | | |c|c|c|c|c|o| |v| | |]; try discriminate FI; cbn [act]; try (destruct (free st t); [|exact F]; cbn [call]).
  - destruct (hub st); [|exact F]. destruct (kinds_save m (with_kinds st (kinds st ++ [KPlain])) t (AConnect CPlain) (length (kinds st))) as (E & _). split.
    + unfold save. destruct (can_add m _); exact A.
    + rewrite E. cbn. intros k X. apply in_app_or in X as [X|[X|[]]]; auto.
    + rewrite tr_save. intros c y s N P. assert (CO : conns (save m (with_kinds st (kinds st ++ [KPlain])) t (AConnect CPlain) (length (kinds st))) = conns st ++ [CRef (if can_add m (entries st) then Some (length (kinds st)) else None)]).
      { unfold save. cbn [entries with_kinds]. destruct (can_add m (entries st)); reflexivity. }
      rewrite CO in N. destruct (Nat.lt_ge_cases c (length (conns st))) as [L|L].
      * rewrite nth_error_app1 in N by exact L. destruct (CG c y s N P) as (t' & a' & X). exists t', a'. apply in_or_app. left. exact X.
      * rewrite nth_error_app2 in N by exact L. destruct (c - length (conns st)) as [|n] eqn:Q; [|destruct n; discriminate N]. cbn in N. injection N as <-. assert (c = length (conns st)) by lia. subst c.
        cbn [entries with_kinds conns]. destruct (can_add m (entries st)); [|discriminate P]. cbn in P. apply Nat.eqb_eq in P. subst s. eexists. eexists. apply in_or_app. right. right. left. reflexivity.
  - destruct (hub st); [|exact F]. destruct m; [destruct (em st)|]; (split; [exact A|exact B|exact (cgood_more _ _ _ CG)]).
  - destruct (hub st); [|exact F]. split; [exact A|exact B|exact (cgood_more _ _ _ CG)].
  - destruct (hub st); [|exact F]. split; [exact A|exact B|exact (cgood_more _ _ _ CG)].
  - destruct (hidden st c); [exact F|]. destruct (disconnect m st c) as [st' b] eqn:E. destruct (kinds_disconnect m st c) as (K & H & _). destruct (tr_disconnect m st c) as (l & T & _). pose proof (cgood_disconnect m st _ c CG) as G. rewrite E in K, H, T, G. cbn [fst] in K, H, T, G.
    split; cbn; [congruence|rewrite K; exact B|]. rewrite T, <- app_assoc. exact (cgood_more _ _ _ G).
  - destruct (hidden st c); [exact F|]. destruct (reconnect m st c) as [st' b] eqn:E. destruct (kinds_reconnect m st c) as (K & H & _). destruct (tr_reconnect m st c) as (l & T & _). pose proof (cgood_reconnect m st _ c CG) as G. rewrite E in K, H, T, G. cbn [fst] in K, H, T, G.
    split; cbn; [congruence|rewrite K; exact B|]. rewrite T, <- app_assoc. exact (cgood_more _ _ _ G).
  - destruct (hidden st c); [exact F|]. split; [exact A|exact B|exact (cgood_more _ _ _ CG)].
  - destruct (internal st c || _); [exact F|]. split; [exact A|exact B|]. apply (cgood_more (set_con st c CGone) (tr st)). apply cgood_set; [exact CG|]. intros s P. discriminate P.
  - destruct (internal st c || _); [exact F|]. destruct (kinds_disconnect m st c) as (K & H & _). destruct (tr_disconnect m st c) as (l & T & _). pose proof (cgood_disconnect m st _ c CG) as G.
    cbv zeta. destruct (is_connected st c).
    + split; cbn; [congruence|rewrite K; exact B|]. rewrite T, <- app_assoc. apply (cgood_more (set_con (fst (disconnect m st c)) c CGone)). apply cgood_set; [exact G|]. intros s P. discriminate P.
    + split; [exact A|exact B|]. apply (cgood_more (set_con st c CGone) (tr st)). apply cgood_set; [exact CG|]. intros s P. discriminate P.
  - destruct (hub st); [|exact F]. destruct (entries st); [|destruct (notif st)]; (split; [exact A|exact B|exact (cgood_more _ _ _ CG)]).
  - destruct (em st) as [e|]; [|exact F]. destruct (Nat.eqb _ t); [|exact F]. destruct (e_run e); [exact F|]. unfold step. destruct (nth_error (entries st) (e_cur e)) as [[[k s]|]|].
    + destruct (ND s) as [->| ->]; (split; [exact A|exact B|exact (cgood_more _ _ _ CG)]).
    + split; [exact A|exact B|exact CG].
    + split; [exact A|exact B|exact (cgood_more _ _ _ CG)].
  - destruct (em st) as [e|]; [|exact F]. destruct (Nat.eqb _ t); [|exact F]. destruct (e_run e) as [[k s]|]; [|exact F]. unfold slot_return. assert (G : FN (go_on m st e)) by (destruct m; (split; [exact A|exact B|first [exact CG|exact (cgood_more _ _ _ CG)]])).
    destruct (ND s) as [->| ->]; exact G.
Qed.
Lemma FN_final m h : (forall t a, In (t, a) h -> fine a = true) -> FN (final m h).
Proof.
  induction h as [|[t a] h IH] using rev_ind; intros N.
  - split; [reflexivity|intros k []|intros [|c] y s E; discriminate].
  - rewrite final_snoc. apply FN_next; [apply IH; intros; eapply N; apply in_or_app; left; eauto|eapply N; apply in_or_app; right; left; reflexivity].
Qed.

(** A destroyed connection stays destroyed. *)
Definition gone (st : state) : Prop := forall c, In (EDestroy c) (tr st) -> nth_error (conns st) c = Some CGone.
Lemma gone_conns m st t a c : J st -> nth_error (conns st) c = Some CGone -> nth_error (conns (act m st t a)) c = Some CGone.
Proof.
  intros I N. assert (L : c < length (conns st)) by (eapply nth_lt; exact N).
  assert (SV : forall st0 a0 s, (conns st0 = conns st \/ exists x, conns st0 = conns st ++ [x]) -> nth_error (conns (save m st0 t a0 s)) c = Some CGone).
  { intros st0 a0 s E. rewrite conns_save; [destruct E as [->|[x ->]]; [exact N|rewrite nth_error_app1 by exact L; exact N]|]. destruct E as [->|[x ->]]; [exact L|rewrite app_length; lia]. }
  assert (DI : forall c', nth_error (conns (fst (disconnect m st c'))) c = Some CGone).
  { intros c'. destruct (Nat.eq_dec c c') as [<-|NE]; [unfold disconnect; rewrite N; exact N|]. rewrite conns_disconnect by exact NE. exact N. }
  assert (RE : forall c', nth_error (conns (fst (reconnect m st c'))) c = Some CGone).
  { intros c'. destruct (Nat.eq_dec c c') as [<-|NE]; [unfold reconnect; rewrite N; exact N|]. rewrite conns_reconnect by exact NE. exact N. }
  assert (SG : forall st0 c', nth_error (conns st0) c = Some CGone -> nth_error (conns (set_con st0 c' CGone)) c = Some CGone).
  { intros st0 c' E. cbn. destruct (Nat.eq_dec c c') as [<-|NE]; [rewrite nth_set_same by (eapply nth_lt; exact E); reflexivity|rewrite nth_set_other by auto; exact E]. }
  assert (SC : forall st0 c' s' x, nth_error (conns st0) c' = Some (CPtr s') -> nth_error (conns st0) c = Some CGone -> nth_error (conns (set_con st0 c' x)) c = Some CGone).
  { intros st0 c' s' x E E'. cbn. rewrite nth_set_other; [exact E'|]. intros ->. congruence. }
  destruct a as [[| |o]| |s|s|s| | | |c'|c'|c'|c'|c'|o| |v| | |]; cbn [act]; try (destruct (free st t); [|exact N]; cbn [call]).
  - destruct (hub st); [|exact N]. apply SV. left. reflexivity.
  - destruct (hub st); [|exact N]. apply SV. right. eexists. reflexivity.
  - destruct (hub st && _); [|exact N]. apply SV. right. eexists. reflexivity.
  - exact N.
  - destruct (hub st && _); [|exact N]. apply SV. left. reflexivity.
  - exact N.
  - destruct (hub st && _); [|exact N]. destruct (has s (entries st)); exact N.
  - destruct (hub st); [|exact N]. destruct m; [destruct (em st)|]; exact N.
  - destruct (hub st); exact N.
  - destruct (hub st); exact N.
  - destruct (hidden st c'); [exact N|]. specialize (DI c'). destruct (disconnect m st c') as [st' b]. exact DI.
  - destruct (hidden st c'); [exact N|]. specialize (RE c'). destruct (reconnect m st c') as [st' b]. exact RE.
  - destruct (hidden st c'); exact N.
  - destruct (internal st c' || _); [exact N|]. apply (SG st c' N).
  - destruct (internal st c' || _); [exact N|]. cbv zeta. destruct (is_connected st c'); [apply (SG _ c' (DI c'))|apply (SG st c' N)].
  - exact N.
  - destruct (hub st); [destruct (em st)|]; exact N.
  - destruct (hub st); [|exact N]. destruct (entries st); [exact N|]. destruct (notif st); exact N.
  - destruct (em st) as [e|]; [|exact N]. destruct (Nat.eqb _ t); [|exact N]. destruct (e_run e); [exact N|]. unfold step. destruct (nth_error (entries st) (e_cur e)) as [[[k s]|]|]; [|exact N|exact N].
    destruct (nth_error (kinds st) s) as [[| |c'|o c']|]; try exact N. destruct (is_dead st o); [|exact N]. specialize (DI c'). cbv zeta. set (st1 := fst (disconnect m st c')) in *.
    assert (Y : nth_error (conns (match nth_error (conns st1) c' with Some (CPtr _) => set_con st1 c' (CRef None) | _ => st1 end)) c = Some CGone).
    { destruct (nth_error (conns st1) c') as [[|s'|]|] eqn:E; try exact DI. eapply SC; eauto. }
    set (st2 := match nth_error (conns st1) c' with Some (CPtr _) => _ | _ => _ end) in *. destruct (owned st2 s), m; exact Y.
  - destruct (em st) as [e|]; [|exact N]. destruct (Nat.eqb _ t); [|exact N]. destruct (e_run e) as [[k s]|]; [|exact N]. unfold slot_return, go_on.
    destruct (nth_error (kinds st) s) as [[| |c'|o c']|]; try (destruct m; exact N); destruct (nth_error (conns st) c') as [[|s'|]|] eqn:E; try (destruct m; exact N); pose proof (SC st c' s' (CRef None) E N) as Z; destruct m; exact Z.
  - destruct (em st) as [e|]; [|exact N]. destruct (Nat.eqb _ t); [|exact N]. destruct (e_run e); exact N.
Qed.
Lemma set_gone st c : Nat.leb (length (conns st)) c = false -> nth_error (conns (set_con st c CGone)) c = Some CGone.
Proof. intros L. apply Nat.leb_gt in L. cbn. apply nth_set_same. exact L. Qed.
Lemma destroy_event m st t a : J st -> FN st -> fine a = true -> exists l, tr (act m st t a) = tr st ++ l /\ forall c, In (EDestroy c) l -> nth_error (conns (act m st t a)) c = Some CGone.
Proof.
  intros I F FI. pose proof F as [A B C].
  assert (SAME : exists l, tr st = tr st ++ l /\ forall c, In (EDestroy c) l -> nth_error (conns st) c = Some CGone) by (exists []; rewrite app_nil_r; split; [reflexivity|intros c []]).
  assert (NO : forall st' l, tr st' = tr st ++ l -> (forall c, ~ In (EDestroy c) l) -> exists l, tr st' = tr st ++ l /\ forall c, In (EDestroy c) l -> nth_error (conns st') c = Some CGone).
  { intros st' l E N. exists l. split; [exact E|]. intros c X. exfalso. exact (N c X). }
  assert (ND : forall s, nth_error (kinds st) s = None \/ nth_error (kinds st) s = Some KPlain) by (intros s; destruct (nth_error (kinds st) s) eqn:N; [right; f_equal; apply B; eapply nth_error_In; exact N|left; reflexivity]).
  destruct a as [[| |o]| |s|s|s| | | |c|c|c|c|c|o| |v| | |]; try discriminate FI; cbn [act]; try (destruct (free st t); [|exact SAME]; cbn [call]).
  - destruct (hub st); [|exact SAME]. eapply NO; [rewrite tr_save; reflexivity|]. intros c X. destruct (can_add m _); cbn in X; repeat (destruct X as [X|X]; [discriminate X|]); destruct X.
  - destruct (hub st); [|exact SAME]. destruct m; [destruct (em st)|]; (eapply NO; [reflexivity|]; intros c [X|[]]; discriminate X).
  - destruct (hub st); [|exact SAME]. eapply NO; [reflexivity|]; intros c [X|[]]; discriminate X.
  - destruct (hub st); [|exact SAME]. eapply NO; [reflexivity|]; intros c [X|[]]; discriminate X.
  - destruct (hidden st c); [exact SAME|]. destruct (tr_disconnect m st c) as (l & T & D). destruct (disconnect m st c) as [st' b]. cbn [fst] in T. eapply NO; [cbn; rewrite T, <- app_assoc; reflexivity|].
    intros c' X. destruct D as [->|[s ->]]; cbn in X; repeat (destruct X as [X|X]; [discriminate X|]); destruct X.
  - destruct (hidden st c); [exact SAME|]. destruct (tr_reconnect m st c) as (l & T & D). destruct (reconnect m st c) as [st' b]. cbn [fst] in T. eapply NO; [cbn; rewrite T, <- app_assoc; reflexivity|].
    intros c' X. destruct D as [->|[s ->]]; cbn in X; repeat (destruct X as [X|X]; [discriminate X|]); destruct X.
  - destruct (hidden st c); [exact SAME|]. eapply NO; [reflexivity|]; intros c' [X|[]]; discriminate X.
  - destruct (internal st c || _) eqn:E; [exact SAME|]. apply orb_false_iff in E as [_ E]. exists [EDestroy c]. split; [reflexivity|]. intros c' [X|[]]. injection X as <-. apply set_gone. exact E.
  - destruct (internal st c || _) eqn:E; [exact SAME|]. apply orb_false_iff in E as [_ E]. cbv zeta. destruct (tr_disconnect m st c) as (l & T & D). destruct (is_connected st c).
    + exists (l ++ [EDestroy c]). split; [cbn; rewrite T, app_assoc; reflexivity|]. intros c' X. apply in_app_or in X as [X|[X|[]]]; [destruct D as [->|[s ->]]; [destruct X|destruct X as [X|[]]; discriminate X]|]. injection X as <-. apply (set_gone (fst (disconnect m st c))).
      assert (LE : length (conns (fst (disconnect m st c))) = length (conns st)); [|rewrite LE; exact E].
      unfold disconnect. destruct (nth_error (conns st) c) as [[[s|]|s|]|]; try reflexivity. destruct (owned st s); [|reflexivity]. destruct (hub st); [destruct (has s (entries st)); [|reflexivity]|]; cbn; apply length_set_nth.
    + exists [EDestroy c]. split; [reflexivity|]. intros c' [X|[]]. injection X as <-. apply set_gone. exact E.
  - destruct (hub st); [|exact SAME]. destruct (entries st); [|destruct (notif st)]; (eapply NO; [reflexivity|]; intros c X; repeat (destruct X as [X|X]; [discriminate X|]); destruct X).
  - destruct (em st) as [e|]; [|exact SAME]. destruct (Nat.eqb _ t); [|exact SAME]. destruct (e_run e); [exact SAME|]. unfold step. destruct (nth_error (entries st) (e_cur e)) as [[[k s]|]|].
    + destruct (ND s) as [->| ->]; (eapply NO; [reflexivity|]; intros c [X|[]]; discriminate X).
    + exact SAME.
    + eapply NO; [reflexivity|]; intros c [X|[]]; discriminate X.
  - destruct (em st) as [e|]; [|exact SAME]. destruct (Nat.eqb _ t); [|exact SAME]. destruct (e_run e) as [[k s]|]; [|exact SAME]. unfold slot_return.
    assert (G : exists l, tr (go_on m st e) = tr st ++ l /\ forall c, In (EDestroy c) l -> nth_error (conns (go_on m st e)) c = Some CGone) by (destruct m; [exact SAME|eapply NO; [reflexivity|]; intros c [X|[]]; discriminate X]).
    destruct (ND s) as [->| ->]; exact G.
Qed.
Lemma gone_final m h : (forall t a, In (t, a) h -> fine a = true) -> gone (final m h).
Proof.
  induction h as [|[t a] h IH] using rev_ind; intros N; [intros c []|]. assert (N' : forall t a, In (t, a) h -> fine a = true) by (intros; eapply N; apply in_or_app; left; eauto).
  rewrite final_snoc. unfold next. destruct (crashed (final m h)); [apply IH; exact N'|]. cbn [fst snd].
  destruct (destroy_event m (final m h) t a (J_final m h) (FN_final m h N')) as (l & T & D); [eapply N; apply in_or_app; right; left; reflexivity|].
  assert (G : gone (act m (final m h) t a)).
  { intros c X. rewrite T in X. apply in_app_or in X as [X|X]; [|apply D; exact X]. apply gone_conns; [apply J_final|]. apply IH; assumption. }
  intros c X. destruct (watch_cases (final m h) (act m (final m h) t a)) as [E|[s E]]; rewrite E in *; [apply G; exact X|]. cbn in X |- *. apply in_app_or in X as [X|[X|[]]]; [apply G; exact X|discriminate].
Qed.
(** Whoever keeps such a slot alive: the signal, or the connection given for it, cut and still there. *)
Lemma owned_means m h s : (forall t a, In (t, a) h -> fine a = true) -> hub (final m h) = true -> owned (final m h) s = true ->
  In s (SigSpec.slots (SigSpec.live (trace m h))) \/ exists c, SigSpec.made_for m h c s /\ SigSpec.cut c (trace m h) = true /\ SigSpec.in_use m h c.
Proof.
  intros N HB O. pose proof (FN_final m h N) as [A B C]. unfold owned in O. rewrite A in O. cbn [existsb] in O. rewrite orb_false_r in O. apply orb_true_iff in O as [O|O]; [left; apply has_live; exact O|right].
  apply existsb_exists in O as (y & O & P). destruct y as [|s'|]; try discriminate. cbn in P. apply Nat.eqb_eq in P. subst s'. apply In_nth_error in O as (c & O). exists c.
  assert (MF : SigSpec.made_for m h c s) by (destruct (C c _ s O (Nat.eqb_refl s)) as (t & a & X); exists t, a; exact X). split; [exact MF|].
  assert (NU : ~ SigSpec.user_slot m h s).
  { intros U. apply (f_made _ (F_final m h)) in U. apply nth_error_In in U. apply B in U. discriminate. }
  destruct (given_M m h c s MF NU) as (_ & _ & y & N' & Y). rewrite O in N'. injection N' as <-. destruct Y as [_ [Y|Y]]; [|congruence]. split; [exact Y|].
  intros D. apply (gone_final m h N) in D. congruence.
Qed.

