(** Server: where every event comes from. *)
From Verif Require Import ListUtil SrvModel SrvSpec SrvProofs SrvProofs2 SrvProofs3 SrvProofs4 SrvProofs5.

Lemma app_split {A} (a : list A) : forall b c e d, a ++ b = c ++ e :: d ->
  (exists t, a = c ++ e :: t /\ d = t ++ b) \/ (exists t, c = a ++ t /\ b = t ++ e :: d).
Proof.
  induction a as [|x a IH]; cbn; intros b c e d E; [right; exists c; auto|].
  destruct c as [|y c]; cbn in E; injection E as -> E; [left; exists a; auto|].
  apply IH in E as [[t [-> ->]]|[t [-> ->]]]; [left|right]; exists t; auto.
Qed.

(** The step that put an event into the trace. *)
Lemma split_step h l1 e l2 : trace h = l1 ++ e :: l2 ->
  exists h1 s' k1 k2, step (final h1) s' /\ tr s' = tr (final h1) ++ k1 ++ e :: k2 /\ l1 = tr (final h1) ++ k1 /\
    (exists l h3, h = h1 ++ l :: h3 /\ s' = next (final h1) l).
Proof.
  unfold trace. revert l2. induction h as [|l h IH] using rev_ind; intros l2 E.
  - destruct l1; discriminate.
  - rewrite final_snoc in E. destruct (next_step (final h) l) as [EQ|S].
    + rewrite EQ in E. destruct (IH _ E) as (h1 & s' & k1 & k2 & A & B & C & l' & h3 & -> & D). exists h1, s', k1, k2. repeat split; auto. exists l', (h3 ++ [l]). rewrite <- app_assoc. auto.
    + destruct (step_tr _ _ S) as [k T]. rewrite T in E. apply app_split in E as [[t [E ->]]|[t [-> E]]].
      * destruct (IH _ E) as (h1 & s' & k1 & k2 & A & B & C & l' & h3 & -> & D). exists h1, s', k1, k2. repeat split; auto. exists l', (h3 ++ [l]). rewrite <- app_assoc. auto.
      * exists h, (next (final h) l), t, l2. split; [exact S|]. split; [rewrite T, E; reflexivity|]. split; [reflexivity|]. exists l, []. auto.
Qed.

(** The trace grows. *)
Lemma trace_grows h k : exists e, trace (h ++ k) = trace h ++ e.
Proof.
  induction k as [|l k IH] using rev_ind; [exists []; rewrite !app_nil_r; reflexivity|]. destruct IH as [e E]. rewrite app_assoc. unfold trace in *. rewrite final_snoc.
  destruct (next_step (final (h ++ k)) l) as [->|S]; [exists e; exact E|]. destruct (step_tr _ _ S) as [e' T]. exists (e ++ e'). rewrite T, E, app_assoc. reflexivity.
Qed.
Lemma trace_in h k e : In e (trace h) -> In e (trace (h ++ k)).
Proof. intros I. destruct (trace_grows h k) as [x ->]. apply in_app_iff. auto. Qed.

(** What a step adds. *)
Lemma one_event {A} (x e : A) k1 k2 : [x] = k1 ++ e :: k2 -> k1 = [] /\ e = x /\ k2 = [].
Proof. intros E. destruct k1 as [|y k1]; cbn in E; injection E as E1 E2; [subst; auto|destruct k1; discriminate]. Qed.
Lemma two_events {A} (x y e : A) k1 k2 : [x; y] = k1 ++ e :: k2 -> (k1 = [] /\ e = x) \/ (k1 = [x] /\ e = y).
Proof. intros E. destruct k1 as [|z k1]; cbn in E; injection E as E1 E2; [subst; auto|]. right. apply one_event in E2 as (-> & -> & _). subst. auto. Qed.
Lemma app_same {A} (a k : list A) : a = a ++ k -> k = [].
Proof. intros E. rewrite <- (app_nil_r a) in E at 1. apply app_inv_head in E. auto. Qed.

Ltac events T := rewrite <- ?app_assoc in T; cbn [app] in T;
  first [ apply app_inv_head in T | apply app_same in T ];
  match type of T with
  | [] = ?a ++ _ :: _ => destruct a; discriminate T
  | ?a ++ _ :: _ = [] => destruct a; discriminate T
  | [_] = _ => let A := fresh "A" in let B := fresh "B" in apply one_event in T as (A & B & _)
  | [_; _] = _ => let A := fresh "A" in let B := fresh "B" in apply two_events in T as [[A B]|[A B]]
  end.

(** hasServiceProvider *)
Lemma the_call s t th c : InvT s -> nth_error (ths s) t = Some th -> In (ECall t c) (tr s) -> okth s c th.
Proof. intros IT N I. destruct (t_th _ IT _ _ N) as (c' & I' & OK). rewrite (t_call _ IT _ _ _ I I'). exact OK. Qed.

Lemma in_split_before {A} (l1 : list A) e l2 x : In x (l1 ++ e :: l2) -> x <> e -> In x l1 \/ In x l2.
Proof. intros I N. apply in_app_iff in I as [I|[I|I]]; auto. congruence. Qed.

(** The call of a return was made before. *)
Lemma call_before h l1 t v l2 c : trace h = l1 ++ ERet t v :: l2 -> In (ECall t c) (trace h) -> In (ECall t c) l1.
Proof.
  intros E I. destruct (split_step _ _ _ _ E) as (h1 & s' & k1 & k2 & S & T & L & l & h3 & H & N).
  pose proof (invP h1) as IP. pose proof (invT h1) as IT. destruct (step_moved _ _ IP S) as [c0 q SP TE TR OB|t0 th th' k NN ND TE TR NC NR DD OK].
  - rewrite TR in T. apply app_inv_head in T. apply one_event in T as (_ & T & _). discriminate.
  - rewrite TR in T. apply app_inv_head in T. subst k. assert (t = t0) by (apply (NR t v), in_app_iff; right; left; reflexivity). subst t0.
    destruct (t_th _ IT _ _ NN) as (c' & I' & _). assert (c = c'). { apply (t_call _ (invT h) t); [exact I|]. subst h. apply trace_in. exact I'. }
    subst c' l1. apply in_app_iff. auto.
Qed.

Theorem has_exact h t sid l1 v l2 : In (ECall t (CHas sid)) (trace h) -> trace h = l1 ++ ERet t v :: l2 ->
  if v then exists o, got l1 sid o else no_deinit l1 -> forall o, ~ got l1 sid o.
Proof.
  intros I E. pose proof (call_before _ _ _ _ _ _ E I) as CB. destruct (split_step _ _ _ _ E) as (h1 & s' & k1 & k2 & S & T & L & l & h3 & H & N).
  pose proof (invP h1) as IP. pose proof (invT h1) as IT. pose proof (invD h1) as ID. unfold trace in ID. subst l1. set (s := final h1) in *. clearbody s. clear N H E l h3 I.
  destruct S; try srva; unf; try destruct (gone r); cbn in T; events T; try discriminate B;
    inversion B; subst; rewrite ?app_nil_r in *;
    try (apply in_app_iff in CB as [CB|[CB|[]]]; [|discriminate CB]);
    pose proof (the_call _ _ _ _ IT H CB) as OK; unfold okth in OK; rewrite H0 in OK; destruct OK as [OK _];
    unfold srv_sid, srv, is_reg, is_un, is_ord in OK;
    repeat match goal with
      | H : _ /\ _ |- _ => destruct H
      | H : exists _, _ |- _ => destruct H
      | H : _ \/ _ |- _ => destruct H
      end; try discriminate; try contradiction.
  injection OK as <-. destruct (get sid (provs s)) as [o|] eqn:G.
  - exists o. apply (p_map _ IP). exact G.
  - intros ND o [tg I]. destruct (ID ND) as [DA _]. pose proof (p_got _ IP _ _ _ I) as SI. unfold sid_of in SI. destruct (nth_error (objs s) o) as [p|] eqn:NO; [|discriminate].
    injection SI as SI. specialize (DA _ _ NO). congruence.
Qed.
