(** Client: where every event comes from; results of the calls. *)
From Verif Require Import ListUtil CliModel CliSpec CliSpec2 CliProofs CliProofs2 CliProofs3.

Lemma app_split {A} (a : list A) : forall b c e d, a ++ b = c ++ e :: d ->
  (exists t, a = c ++ e :: t /\ d = t ++ b) \/ (exists t, c = a ++ t /\ b = t ++ e :: d).
Proof.
  induction a as [|x a IH]; cbn; intros b c e d E; [right; exists c; auto|].
  destruct c as [|y c]; cbn in E; injection E as -> E; [left; exists a; auto|].
  apply IH in E as [[t [-> ->]]|[t [-> ->]]]; [left|right]; exists t; auto.
Qed.

(** The step that put an event into the trace. *)
Lemma split_step h l1 e l2 : trace h = l1 ++ e :: l2 ->
  exists h1 s' k1 k2, step (final h1) s' /\ tr s' = tr (final h1) ++ k1 ++ e :: k2 /\ l1 = tr (final h1) ++ k1 /\
    (exists l h3, h = h1 ++ l :: h3 /\ s' = next (final h1) l).
Proof.
  unfold trace. revert l2. induction h as [|l h IH] using rev_ind; intros l2 E.
  - destruct l1; discriminate.
  - rewrite final_snoc in E. destruct (next_step (final h) l) as [EQ|S].
    + rewrite EQ in E. destruct (IH _ E) as (h1 & s' & k1 & k2 & A & B & C & l' & h3 & -> & D). exists h1, s', k1, k2. repeat split; auto. exists l', (h3 ++ [l]). rewrite <- app_assoc. auto.
    + destruct (step_tr _ _ S) as [k T]. rewrite T in E. apply app_split in E as [[t [E ->]]|[t [-> E]]].
      * destruct (IH _ E) as (h1 & s' & k1 & k2 & A & B & C & l' & h3 & -> & D). exists h1, s', k1, k2. repeat split; auto. exists l', (h3 ++ [l]). rewrite <- app_assoc. auto.
      * exists h, (next (final h) l), t, l2. split; [exact S|]. split; [rewrite T, E; reflexivity|]. split; [reflexivity|]. exists l, []. auto.
Qed.
Lemma trace_grows h k : exists e, trace (h ++ k) = trace h ++ e.
Proof.
  induction k as [|l k IH] using rev_ind; [exists []; rewrite !app_nil_r; reflexivity|]. destruct IH as [e E]. rewrite app_assoc. unfold trace in *. rewrite final_snoc.
  destruct (next_step (final (h ++ k)) l) as [->|S]; [exists e; exact E|]. destruct (step_tr _ _ S) as [e' T]. exists (e ++ e'). rewrite T, E, app_assoc. reflexivity.
Qed.
Lemma trace_in h k e : In e (trace h) -> In e (trace (h ++ k)).
Proof. intros I. destruct (trace_grows h k) as [x ->]. apply in_app_iff. auto. Qed.

(** Why a step adds an event. *)
Definition why (s : state) (k : list event) (e : event) : Prop :=
  match e with
  | ECall t c => t = length (ths s)
  | ERet t v => exists q, nth_error (ths s) t = Some q /\
      match q with
      | QGet sid => v = true /\ exists o, In (EGot t sid o) k
      | QHas sid => v = (match get sid (reqs s) with Some _ => true | None => false end) /\ k = [ERet t v]
      | QAsk sid => v = true /\ exists av, In (EAns t sid av) k
      | QFind _ _ => v = false
      | QDisp _ _ _ => True
      | QUnreg l => l = [] /\ v = true /\ k = [ERet t v]
      | QDone | QDeinit => False
      | _ => v = true
      end
  | EGot t sid o => nth_error (ths s) t = Some (QGet sid) /\ (get sid (reqs s) = Some o \/ o = length (objs s)) /\ exists ko, k = ko ++ [EGot t sid o; ERet t true] /\ only_told ko
  | EAns t sid av => nth_error (ths s) t = Some (QAsk sid) /\ av = get_or Unavailable sid (stats s)
  | ETold o av => exists t,
      (exists sid, nth_error (ths s) t = Some (QGet sid) /\ get sid (stats s) = Some av /\ In (EGot t sid o) k) \/
      (exists sid, nth_error (ths s) t = Some (QTell sid av) /\ get sid (reqs s) = Some o) \/
      (nth_error (ths s) t = Some QTellAll /\ av = Unavailable /\ In o (map snd (reqs s)))
  | EDisp t o sid code => nth_error (ths s) t = Some (QDisp o sid code)
  | ERegister r => exists t, nth_error (ths s) t = Some QRegister /\ k = [ERegister r; ERet t true]
  | EUnregister sid r => exists t l, nth_error (ths s) t = Some (QUnreg (sid :: l))
  | EFree o => exists t, nth_error (ths s) t = Some QDeinit /\ In o (map snd (reqs s)) /\ k = map (fun x => EFree (snd x)) (reqs s)
  end.

Lemma tells_src l : forall s, exists k, tr (fold_left (fun s' (x : nat * nat) => tell s' Unavailable (snd x)) l s) = tr s ++ k /\
  forall e, In e k -> exists o, e = ETold o Unavailable /\ In o (map snd l).
Proof.
  induction l as [|x l IH]; intros s; [exists []; rewrite app_nil_r; split; [reflexivity|intros e []]|]. cbn. destruct (IH (tell s Unavailable (snd x))) as (k & E & K). rewrite E.
  assert (T : exists k0, tr (tell s Unavailable (snd x)) = tr s ++ k0 /\ forall e, In e k0 -> e = ETold (snd x) Unavailable).
  { unfold tell. destruct (nth_error (objs s) (snd x)); cbn; [eexists; split; [reflexivity|]; intros e [<-|[]]; reflexivity|exists []; rewrite app_nil_r; split; [reflexivity|intros e []]]. }
  destruct T as (k0 & -> & K0). exists (k0 ++ k). rewrite app_assoc. split; [reflexivity|]. intros e I. apply in_app_iff in I as [I|I].
  - rewrite (K0 _ I). exists (snd x). auto.
  - destruct (K _ I) as (o & -> & J). exists o. auto.
Qed.

Lemma step_why s s' : step s s' -> exists k, tr s' = tr s ++ k /\ forall e, In e k -> why s k e.
Proof.
  intros S. destruct S.
  all: try (match goal with |- context [newreq] => fail 1 | |- context [tell1] => fail 1 | |- context [tellall] => fail 1 | |- context [map] => fail 1 | _ => idtac end;
     unf; cbn [tr]; rewrite <- ?app_assoc; cbn [app]; eexists; split; [first [reflexivity|symmetry; apply app_nil_r]|]; intros e I; cbn in I;
     repeat match goal with H : _ \/ _ |- _ => destruct H end; try contradiction; subst; cbn;
     first [reflexivity|solve [eexists; split; [eassumption|]; cbn; first [reflexivity|exact I|split; [reflexivity|split; reflexivity]|split; [reflexivity|first [reflexivity|eexists; left; reflexivity]]]]|solve [eauto 6]|split; [assumption|]; split; [auto|]; exists []; split; [reflexivity|intros e []]]).
  - unfold newreq. cbv zeta. destruct (get sid (stats s)) as [av|] eqn:G; [unfold tell; unf; cbn [objs reqs]; rewrite nth_snoc, Nat.eqb_refl|]; unf; cbn [tr]; rewrite <- ?app_assoc; cbn [app]; eexists; (split; [reflexivity|]); intros e I; cbn in I.
    + destruct I as [<-|[<-|[<-|[]]]]; cbn.
      * exists t. left. exists sid. auto.
      * split; [assumption|]. split; [auto|]. exists [ETold (length (objs s)) av]. split; [reflexivity|]. intros e [<-|[]]. eauto.
      * exists (QGet sid). split; [assumption|]. split; [reflexivity|eauto].
    + destruct I as [<-|[<-|[]]]; cbn; [split; [assumption|]; split; [auto|]; exists []; split; [reflexivity|intros e []]|]. exists (QGet sid). split; [assumption|]. split; [reflexivity|eauto].
  - unfold tell1. destruct (get sid (reqs s)) as [o|] eqn:G; [unfold tell; destruct (nth_error (objs s) o)|]; unf; cbn [tr]; rewrite <- ?app_assoc; cbn [app]; eexists; (split; [reflexivity|]); intros e I; cbn in I.
    + destruct I as [<-|[<-|[]]]; cbn; [|eexists; split; [eassumption|reflexivity]]. exists t. right. left. exists sid. auto.
    + destruct I as [<-|[]]; cbn; eexists; (split; [eassumption|reflexivity]).
    + destruct I as [<-|[]]; cbn; eexists; (split; [eassumption|reflexivity]).
  - destruct (tells_src (reqs s) s) as (k & E & K). exists k. split; [exact E|]. intros e I. destruct (K _ I) as (o & -> & J). cbn. exists t. auto.
  - eexists. split; [reflexivity|]. intros e I. apply in_map_iff in I as (x & <- & I). cbn. exists t. split; [assumption|]. split; [apply in_map; exact I|reflexivity].
Qed.

(** The call of a return was made before. *)
Lemma the_call s t q c : InvT s -> nth_error (ths s) t = Some q -> In (ECall t c) (tr s) -> okpc (tr s) c q.
Proof. intros IT N I. destruct (t_th _ IT _ _ N) as (c' & I' & OK). rewrite (t_call _ IT _ _ _ I I'). exact OK. Qed.

(** The state an event was made in, and why. *)
Lemma event_why h l1 e l2 : trace h = l1 ++ e :: l2 -> exists h1 k k1 k2 h2, h = h1 ++ h2 /\ l1 = trace h1 ++ k1 /\ k = k1 ++ e :: k2 /\ trace h = trace h1 ++ k ++ skipn (length k2) l2 /\ why (final h1) k e /\
  (forall x, In x k -> why (final h1) k x).
Proof.
  intros E. destruct (split_step _ _ _ _ E) as (h1 & s' & k1 & k2 & S & T & L & l & h3 & H & N).
  destruct (step_why _ _ S) as (k & T' & W). rewrite T' in T. apply app_inv_head in T.
  exists h1, k, k1, k2, (l :: h3). split; [exact H|]. split; [exact L|]. split; [exact T|].
  destruct (trace_grows (h1 ++ [l]) h3) as [x X]. rewrite <- app_assoc in X. cbn in X. rewrite <- H in X. unfold trace in X at 2. rewrite final_snoc, <- N, T' in X.
  split.
  - rewrite X, <- !app_assoc. f_equal. f_equal. rewrite E, L, T, <- !app_assoc in X. apply app_inv_head in X. apply app_inv_head in X. cbn in X. injection X as ->.
    rewrite skipn_app, skipn_all, Nat.sub_diag. reflexivity.
  - split; [apply W; rewrite T; apply in_app_iff; right; left; reflexivity|exact W].
Qed.

Lemma call_before h l1 t v l2 c : trace h = l1 ++ ERet t v :: l2 -> In (ECall t c) (trace h) ->
  exists h1 k1 q, l1 = trace h1 ++ k1 /\ In (ECall t c) (trace h1) /\ nth_error (ths (final h1)) t = Some q /\ okpc (trace h1) c q /\
    match q with
    | QGet sid => v = true /\ exists o, In (EGot t sid o) (trace h)
    | QHas sid => v = (match get sid (reqs (final h1)) with Some _ => true | None => false end) /\ k1 = []
    | QAsk sid => v = true /\ exists av, In (EAns t sid av) (trace h)
    | QFind _ _ => v = false
    | QDisp _ _ _ => True
    | QUnreg l => l = [] /\ v = true /\ k1 = []
    | QDone | QDeinit => False
    | _ => v = true
    end.
Proof.
  intros E I. destruct (event_why _ _ _ _ E) as (h1 & k & k1 & k2 & h2 & H & L & K & T & W & _). cbn in W. destruct W as (q & N & W).
  pose proof (invT h1) as IT. destruct (t_th _ IT _ _ N) as (c' & I' & OK). assert (c = c') by (apply (t_call _ (invT h) t); [exact I|subst h; apply trace_in; exact I']). subst c'.
  exists h1, k1, q. split; [exact L|]. split; [exact I'|]. split; [exact N|]. split; [exact OK|].
  assert (IK : forall e, In e k -> In e (trace h)) by (intros e J; rewrite T; apply in_app_iff; right; apply in_app_iff; auto).
  destruct q; auto; try (destruct W as [-> (x & W)]; solve [eauto]).
  - destruct W as [W ->]. split; [exact W|]. destruct k1 as [|? [|]]; [reflexivity|discriminate K|discriminate K].
  - destruct W as (W & W2 & ->). split; [exact W|]. split; [exact W2|]. destruct k1 as [|? [|]]; [reflexivity|discriminate K|discriminate K].
Qed.

(** hasServiceRequester *)
Theorem has_exact h t sid l1 v l2 : In (ECall t (CHas sid)) (trace h) -> trace h = l1 ++ ERet t v :: l2 ->
  if v then exists o, got l1 sid o else no_deinit l1 -> forall o, ~ got l1 sid o.
Proof.
  intros I E. destruct (call_before _ _ _ _ _ _ E I) as (h1 & k1 & q & L & I' & N & OK & W). clear I.
  destruct q; cbn in OK; repeat match goal with H : _ /\ _ |- _ => destruct H | H : exists _, _ |- _ => destruct H end; try discriminate; try contradiction.
  injection OK as <-. subst k1. rewrite app_nil_r in L. subst v l1. pose proof (invP h1) as IP. destruct (get sid (reqs (final h1))) as [o|] eqn:G.
  - exists o. apply (p_map _ IP). exact G.
  - intros ND o [tg J]. pose proof (invD h1 ND _ _ (p_got _ IP _ _ _ J)). congruence.
Qed.

(** Results of the other calls. *)
Theorem results h t c v : In (ECall t c) (trace h) -> In (ERet t v) (trace h) ->
  match c with
  | CGet sid => v = true /\ exists o, In (EGot t sid o) (trace h)
  | CAsk sid => v = true /\ exists av, In (EAns t sid av) (trace h)
  | CHas _ | CIn (MOther _ _) => True
  | CIn (MStatus _ _) | CPoll _ | CDeinit => v = true
  end.
Proof.
  intros C R. apply in_split in R as (l1 & l2 & E). destruct (call_before _ _ _ _ _ _ E C) as (h1 & k1 & q & L & I & N & OK & W).
  destruct q; cbn in OK; repeat match goal with H : _ /\ _ |- _ => destruct H | H : exists _, _ |- _ => destruct H end; subst; eauto; contradiction.
Qed.
