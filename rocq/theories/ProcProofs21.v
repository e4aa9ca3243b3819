(** Processing messages: what a step does to the signals. *)
From Verif Require Import ListUtil Amap ProcModel ProcSpec ProcProofs ProcProofs2 ProcProofs3.
From Verif Require QueueModel SigModel.

Definition fe_of (f : frame) : list (nat * mstate) := match f with FEmit _ e _ x => [(e, x)] | _ => [] end.
Definition fes (l : list frame) : list (nat * mstate) := flat_map fe_of l.
Definition is_handle (e : event) : bool := match e with EHandle _ _ _ _ _ => true | _ => false end.
Definition nohandle (st st' : state) : Prop := exists add, tr st' = tr st ++ add /\ forall x, In x add -> is_handle x = false.
Definition sig_to (st st' : state) (g : nat) (l : nat * SigModel.action) : Prop := forall g', sig_at st' g' = upd (sigs st) g (sig_at st g ++ [l]) g'.
Definition sig_same (st st' : state) : Prop := forall g, sig_at st' g = sig_at st g.

Inductive sg (t : nat) (st st' : state) : Prop :=
| G_keep : sig_same st st' -> fes (stk st' t) = fes (stk st t) -> nohandle st st' -> dead st' = dead st -> sg t st st'
| G_new p e i : sig_same st st' -> fes (stk st' t) = (e, MLook) :: fes (stk st t) -> tr st' = tr st ++ [EStart t p e i] -> dead st' = dead st -> sg t st st'
| G_look p e m g r : stk st t = FEmit p e m MLook :: r -> get m (p_map (procs st p)) = Some g -> sig_same st st' -> fes (stk st' t) = (e, MWait g) :: fes r -> tr st' = tr st ++ [ELook t p m e (Some g)] -> dead st' = dead st -> sg t st st'
| G_none p e m r : stk st t = FEmit p e m MLook :: r -> get m (p_map (procs st p)) = None -> sig_same st st' -> fes (stk st' t) = fes r -> (exists x, tr st' = tr st ++ ELook t p m e None :: EEnd t p e :: x /\ forall y, In y x -> is_handle y = false) -> dead st' = dead st -> sg t st st'
| G_user g a : s_free (sig_at st g) t = true -> match a with SigModel.AConnect SigModel.CPlain | SigModel.AReconnect _ => True | SigModel.ADisconnect s => exists n r t0, stk st t = FCall n PStart :: r /\ nth_error (calls st) n = Some (t0, KCut g s) | _ => False end ->
    sig_to st st' g (t, a) -> fes (stk st' t) = fes (stk st t) -> nohandle st st' -> dead st' = dead st -> sg t st st'
| G_emit p e m g r : stk st t = FEmit p e m (MWait g) :: r -> s_free (sig_at st g) t = true -> sig_to st st' g (t, SigModel.AEmit e) -> nohandle st st' ->
    (let s' := s_state (sig_at st' g) in
     (SigModel.crashed s' = true /\ dead st' = true /\ tr st' = tr st ++ [EAbort t] /\ fes (stk st' t) = fes (stk st t)) \/
     (SigModel.crashed s' = false /\ dead st' = dead st /\
       ((SigModel.em s' = None /\ fes (stk st' t) = fes r /\ exists x, tr st' = tr st ++ EEnd t p e :: x) \/ (SigModel.em s' <> None /\ fes (stk st' t) = (e, MAt g) :: fes r)))) -> sg t st st'
| G_step p e m g r : stk st t = FEmit p e m (MAt g) :: r -> sig_to st st' g (t, SigModel.AStep) -> dead st' = dead st ->
    (let s' := s_state (sig_at st' g) in
     (SigModel.em s' = None /\ fes (stk st' t) = fes r /\ exists x, tr st' = tr st ++ EEnd t p e :: x /\ forall y, In y x -> is_handle y = false) \/
     (exists x, SigModel.em s' = Some x /\ SigModel.e_run x = None /\ fes (stk st' t) = fes (stk st t) /\ tr st' = tr st) \/
     (exists x k s, SigModel.em s' = Some x /\ SigModel.e_run x = Some (k, s) /\ fes (stk st' t) = (e, MIn g s) :: fes r /\ tr st' = tr st ++ [EHandle t e g k s])) -> sg t st st'
| G_ret p e m g s r : stk st t = FEmit p e m (MIn g s) :: r -> sig_to st st' g (t, SigModel.AReturn) -> fes (stk st' t) = (e, MAt g) :: fes r -> nohandle st st' -> dead st' = dead st -> sg t st st'.

Lemma nh_refl st st' : tr st' = tr st -> nohandle st st'.
Proof. intros E. exists []. rewrite app_nil_r. split; [exact E|intros x []]. Qed.
Lemma nh_one st st' l : tr st' = tr st ++ l -> existsb is_handle l = false -> nohandle st st'.
Proof. intros E H. exists l. split; [exact E|]. intros x I. destruct (is_handle x) eqn:X; [|reflexivity]. assert (existsb is_handle l = true) by (apply existsb_exists; eauto). congruence. Qed.

(** The end of an execution. *)
Lemma finish_sig st t p e r : (forall g, sig_at (finish st t p e r) g = sig_at st g) /\ dead (finish st t p e r) = dead st /\ fes (stk (finish st t p e r) t) = fes r /\
  exists x, tr (finish st t p e r) = tr st ++ EEnd t p e :: x /\ forall y, In y x -> is_handle y = false.
Proof.
  assert (Z : forall l, existsb is_handle l = false -> forall y, In y l -> is_handle y = false).
  { intros l H y I. destruct (is_handle y) eqn:X; [|reflexivity]. assert (existsb is_handle l = true) by (apply existsb_exists; eauto). congruence. }
  assert (PL : forall s', fes s' = fes r -> (forall g, sig_at (with_stk (emit st [EEnd t p e]) t s') g = sig_at st g) /\ dead (with_stk (emit st [EEnd t p e]) t s') = dead st /\ fes (stk (with_stk (emit st [EEnd t p e]) t s') t) = fes r /\
    exists x, tr (with_stk (emit st [EEnd t p e]) t s') = tr st ++ EEnd t p e :: x /\ forall y, In y x -> is_handle y = false).
  { intros s' E. split; [reflexivity|]. split; [reflexivity|]. split; [cbn; rewrite upd_same; exact E|]. exists []. split; [reflexivity|intros y []]. }
  unfold finish. cbv zeta. destruct r as [|[n k|n p' j k ph| |] r]; try (apply PL; reflexivity).
  - destruct k; try (apply PL; reflexivity). split; [reflexivity|]. split; [reflexivity|]. split; [cbn; rewrite upd_same; reflexivity|]. cbn. rewrite <- app_assoc. cbn. eexists. split; [reflexivity|apply Z; reflexivity].
  - destruct ph; try (destruct k; apply PL; reflexivity). destruct k.
    + split; [reflexivity|]. split; [reflexivity|]. split; [cbn; rewrite upd_same; reflexivity|]. exists []. split; [reflexivity|intros y []].
    + split; [reflexivity|]. split; [reflexivity|]. split; [cbn; rewrite upd_same; reflexivity|]. exists []. split; [reflexivity|intros y []].
    + unfold leave, ret. destruct j; (split; [reflexivity|]; split; [reflexivity|]; split; [cbn; rewrite upd_same; reflexivity|]); cbn; rewrite <- app_assoc; cbn; (eexists; split; [reflexivity|apply Z; reflexivity]).
Qed.

Ltac gk S := eapply G_keep; [intros ?; reflexivity|cbn; rewrite ?upd_same, ?S; reflexivity|first [apply nh_refl; reflexivity|eapply nh_one; [cbn; rewrite <- ?app_assoc; reflexivity|reflexivity]]|reflexivity].

Lemma body_fes c p n : fes [body c p n] = [] \/ fes [body c p n] = [(n, MLook)].
Proof. destruct c; cbn; auto. Qed.

Lemma act_sg st t a : fits st -> sg t st (act st t a).
Proof.
  intros FIT. assert (SAME : sg t st st) by (eapply G_keep; [intros ?; reflexivity|reflexivity|apply nh_refl; reflexivity|reflexivity]).
  assert (BODY : forall st1 c p n i fs, sig_same st st1 -> dead st1 = dead st -> tr st1 = tr st -> fes fs = fes (stk st t) -> sg t st (emit (with_stk st1 t (body c p n :: fs)) [EStart t p n i])).
  { intros st1 c p n i fs SS D T E. assert (X : stk (emit (with_stk st1 t (body c p n :: fs)) [EStart t p n i]) t = body c p n :: fs) by (cbn; apply upd_same).
    assert (Y : tr (emit (with_stk st1 t (body c p n :: fs)) [EStart t p n i]) = tr st ++ [EStart t p n i]) by (cbn; rewrite T; reflexivity).
    destruct (body_fes c p n) as [B|B].
    - eapply G_keep; [exact SS| |eapply nh_one; [exact Y|reflexivity]|exact D]. rewrite X. change (fes (body c p n :: fs)) with (fes ([body c p n] ++ fs)). unfold fes in *. rewrite flat_map_app, B. exact E.
    - eapply (G_new _ _ _ p n i); [exact SS| |exact Y|exact D]. rewrite X. change (fes (body c p n :: fs)) with (fes ([body c p n] ++ fs)). unfold fes in *. rewrite flat_map_app, B, E. reflexivity. }
  unfold act. destruct a as [id|c|ch| | |].
  - destruct (user (stk st t)); [|exact SAME]. eapply G_keep; [intros ?; reflexivity|reflexivity|eapply nh_one; [reflexivity|reflexivity]|reflexivity].
  - destruct (user (stk st t) && valid st c); [|exact SAME]. cbv zeta.
    destruct c; try (eapply G_keep; [intros ?; reflexivity|cbn; rewrite upd_same; reflexivity|eapply nh_one; [reflexivity|reflexivity]|reflexivity]).
    destruct (tl st t); (eapply G_keep; [intros ?; reflexivity|cbn; rewrite upd_same; reflexivity|eapply nh_one; [reflexivity|reflexivity]|reflexivity]).
  - assert (exists s, stk st t = s) as (s & S) by eauto. rewrite S. destruct s as [|f r]; [exact SAME|]. destruct f as [n k|n p j kd ph|p e|p e m x].
    + destruct (nth_error (calls st) n) as [[t0 c]|] eqn:C; [|exact SAME]. unfold go_call. cbv zeta.
      assert (FS : fes r = fes (stk st t)) by (rewrite S; reflexivity).
      destruct k.
      * destruct c; repeat match goal with |- context [if ?b then _ else _] => destruct b eqn:? end;
          first [exact SAME|gk S|apply BODY; [intros ?; reflexivity|reflexivity|reflexivity|exact FS]
            |eapply (G_user _ _ _ g); [eassumption| |intros ?; reflexivity|cbn; rewrite upd_same, S; reflexivity|eapply nh_one; [reflexivity|reflexivity]|reflexivity]; first [exact I|do 3 eexists; split; [exact S|exact C]]].
      * destruct (is_stopped st (target c)); gk S.
      * destruct (q_result _ _); gk S.
      * destruct (q_result _ _); gk S.
      * destruct (lock_free st (target c)); [|exact SAME]. destruct c; try exact SAME; cbn [target]; try (destruct (get m _)); gk S.
      * destruct (s_free (sig_at st g) t); [|exact SAME]. destruct (s_any _); [|gk S]. destruct c; try (gk S). destruct (same_id _ _ _); [|gk S]. apply BODY; [intros ?; reflexivity|reflexivity|reflexivity|exact FS].
      * destruct (s_free (sig_at st g) t) eqn:SF; [|exact SAME]. eapply (G_user _ _ _ g); [exact SF| |intros ?; reflexivity|cbn; rewrite upd_same, S; reflexivity|eapply nh_one; [reflexivity|reflexivity]|reflexivity]. exact I.
      * destruct l as [|m l']; [gk S|]. destruct (get m _) as [g|]; [|gk S]. destruct (s_free (sig_at st g) t); [|exact SAME]. destruct (s_any _); gk S.
      * destruct (q_result _ _); gk S.
      * destruct (q_result _ _); gk S.
      * destruct (q_result _ _) as [[]|]; gk S.
      * exact SAME.
    + destruct ph as [i|e|].
      * cbv zeta. unfold leave, ret. destruct (q_result _ _) as [[]|]; first [gk S|destruct j; gk S].
      * destruct (nth_error (calls st) e) as [[t0 c]|]; [|exact SAME]. apply BODY; [intros ?; reflexivity|reflexivity|reflexivity|rewrite S; reflexivity].
      * exact SAME.
    + exact SAME.
    + unfold go_emit. cbv zeta. destruct x as [|g|g|g s].
      * destruct (lock_free st p); [|exact SAME]. destruct (get m (p_map (proc_at st p))) as [g|] eqn:GM.
        -- eapply (G_look _ _ _ p e m g r); [exact S|exact GM|intros ?; reflexivity|cbn; rewrite upd_same; reflexivity|reflexivity|reflexivity].
        -- destruct (finish_sig (emit st [ELook t p m e None]) t p e r) as (F1 & F2 & F3 & x & F4 & F5).
           eapply (G_none _ _ _ p e m r); [exact S|exact GM|exact F1|exact F3| |exact F2]. exists x. split; [rewrite F4; cbn; rewrite <- app_assoc; reflexivity|exact F5].
      * destruct (s_free (sig_at st g) t) eqn:SF; [|exact SAME]. set (st1 := sig_do st g (t, SigModel.AEmit e)).
        assert (ST : sig_to st st1 g (t, SigModel.AEmit e)) by (intros ?; reflexivity).
        destruct (SigModel.crashed (s_state (sig_at st1 g))) eqn:CR.
        -- eapply (G_emit _ _ _ p e m g r); [exact S|exact SF|exact ST|eapply nh_one; [reflexivity|reflexivity]|]. left. split; [exact CR|]. split; [reflexivity|]. split; reflexivity.
        -- destruct (SigModel.em (s_state (sig_at st1 g))) eqn:EM.
           ++ eapply (G_emit _ _ _ p e m g r); [exact S|exact SF|exact ST|apply nh_refl; reflexivity|]. right. split; [exact CR|]. split; [reflexivity|]. right. split; [change (SigModel.em (s_state (sig_at st1 g)) <> None); rewrite EM; discriminate|cbn; rewrite upd_same; reflexivity].
           ++ destruct (finish_sig st1 t p e r) as (F1 & F2 & F3 & x & F4 & F5). eapply (G_emit _ _ _ p e m g r); [exact S|exact SF|intros g'; rewrite F1; apply ST| |].
              ** exists (EEnd t p e :: x). split; [exact F4|]. intros y [<-|I0]; [reflexivity|apply F5; exact I0].
              ** right. rewrite F1. split; [exact CR|]. split; [exact F2|]. left. split; [exact EM|]. split; [exact F3|]. exists x. exact F4.
      * set (st1 := sig_do st g (t, SigModel.AStep)). assert (ST : sig_to st st1 g (t, SigModel.AStep)) by (intros ?; reflexivity).
        destruct (SigModel.em (s_state (sig_at st1 g))) as [x|] eqn:EM.
        -- destruct (SigModel.e_run x) as [[k s]|] eqn:RU.
           ++ eapply (G_step _ _ _ p e m g r); [exact S|exact ST|reflexivity|]. right. right. exists x, k, s. split; [exact EM|]. split; [exact RU|]. split; [cbn; rewrite upd_same; reflexivity|reflexivity].
           ++ eapply (G_step _ _ _ p e m g r); [exact S|exact ST|reflexivity|]. right. left. exists x. split; [exact EM|]. split; [exact RU|]. split; reflexivity.
        -- destruct (finish_sig st1 t p e r) as (F1 & F2 & F3 & x & F4 & F5). eapply (G_step _ _ _ p e m g r); [exact S|intros g'; rewrite F1; apply ST|exact F2|].
           left. rewrite F1. split; [exact EM|]. split; [exact F3|]. exists x. split; [exact F4|exact F5].
      * exact SAME.
  - assert (exists s, stk st t = s) as (s & S) by eauto. rewrite S. destruct s as [|f r]; [exact SAME|]. destruct f as [n k|n p j kd ph|p e|p e m x]; try exact SAME.
    + destruct (finish_sig st t p e r) as (F1 & F2 & F3 & x & F4 & F5). eapply G_keep; [exact F1|rewrite F3, S; reflexivity| |exact F2]. exists (EEnd t p e :: x). split; [exact F4|]. intros y [<-|I0]; [reflexivity|apply F5; exact I0].
    + destruct x; try exact SAME. eapply (G_ret _ _ _ p e m g s r); [exact S|intros ?; reflexivity|cbn; rewrite upd_same; reflexivity|eapply nh_one; [reflexivity|reflexivity]|reflexivity].
  - assert (exists s, stk st t = s) as (s & S) by eauto. rewrite S. destruct s as [|[n k|n p j kd []|p e|p e m x] r]; try exact SAME. gk S.
  - assert (exists s, stk st t = s) as (s & S) by eauto. rewrite S. destruct s as [|[n k|n p j kd []|p e|p e m x] r]; try exact SAME. gk S.
Qed.
