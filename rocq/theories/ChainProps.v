(** Properties of ProcessorChain (C133, C134). *)
From Verif Require Import ListUtil ChainModel ChainSpec.

Lemma run_app beh s h1 h2 : run beh s (h1 ++ h2) = let (s1, e1) := run beh s h1 in let (s2, e2) := run beh s1 h2 in (s2, e1 ++ e2).
Proof.
  revert s. induction h1 as [|l h1 IH]; intro s; cbn [app run]; [destruct (run beh s h2); reflexivity|].
  destruct (step beh s l) as [s1 e1]. rewrite IH. destruct (run beh s1 h1) as [s2 e2]. destruct (run beh s2 h2) as [s3 e3]. rewrite app_assoc. reflexivity.
Qed.
Definition fin (beh : behaviour) (h : history) : st := fst (run beh [] h).
Lemma fin_snoc beh h l : fin beh (h ++ [l]) = fst (step beh (fin beh h) l).
Proof. unfold fin. rewrite run_app. destruct (run beh [] h) as [s e]. cbn. destruct (step beh s l). reflexivity. Qed.
Lemma trace_snoc beh h l : trace beh (h ++ [l]) = trace beh h ++ snd (step beh (fin beh h) l).
Proof. unfold trace, fin. rewrite run_app. destruct (run beh [] h) as [s e]. cbn. destruct (step beh s l). cbn. rewrite app_nil_r. reflexivity. Qed.

(** How a chain is represented. *)
Fixpoint built (k : cb) : chain :=
  match k with
  | Id => Fns []
  | Comp None _ => Dud
  | Comp (Some k') f => match built k' with Fns l => Fns (l ++ [f]) | _ => Dud end
  end.
Definition held (k : option cb) : chain := match k with None => Given | Some k => built k end.
Lemma built_not_given k : built k <> Given.
Proof. destruct k as [|[k|] f]; cbn; try discriminate. destruct (built k); discriminate. Qed.
Lemma built_comp k f : built (Comp k f) = match held k with Fns l => Fns (l ++ [f]) | _ => Dud end.
Proof. destruct k; reflexivity. Qed.
Lemma map_set_nth {A B} (f : A -> B) i x l : map f (set_nth i x l) = set_nth i (f x) (map f l).
Proof. revert i. induction l as [|y l IH]; intros [|i]; cbn; try reflexivity. rewrite IH. reflexivity. Qed.
Lemma chains_app tr ev : (forall e, In e ev -> match e with ENew _ | ECopy _ _ | EThen _ _ _ => False | _ => True end) -> chains (tr ++ ev) = chains tr.
Proof.
  unfold chains. rewrite fold_left_app. generalize (fold_left (fun cs e => match e with
    | ENew _ => cs ++ [Fns []]
    | ECopy c _ => cs ++ [nth c cs Given]
    | EThen c f _ => set_nth c Given cs ++ [match nth c cs Given with Fns l => Fns (l ++ [f]) | _ => Dud end]
    | _ => cs
    end) tr []). induction ev as [|e ev IH]; intros cs H; cbn [fold_left]; [reflexivity|].
  assert (K := H e (or_introl eq_refl)). destruct e; try contradiction; apply IH; intros; apply H; now right.
Qed.
Lemma chains_snoc tr e : chains (tr ++ [e]) = match e with
    | ENew _ => chains tr ++ [Fns []]
    | ECopy c _ => chains tr ++ [nth c (chains tr) Given]
    | EThen c f _ => set_nth c Given (chains tr) ++ [match nth c (chains tr) Given with Fns l => Fns (l ++ [f]) | _ => Dud end]
    | _ => chains tr
    end.
Proof. unfold chains. rewrite fold_left_app. destruct e; reflexivity. Qed.
Lemma call_stages beh k v e : In e (fst (call_cb beh k v)) -> exists f x, e = EStage f x.
Proof.
  revert k v. fix IH 1. intros [|[k|] f] v; cbn; try contradiction. specialize (IH k v).
  destruct (call_cb beh k v) as [e0 [x|]]; cbn in *; [|exact IH]. intro H. apply in_app_iff in H as [H|[H|[]]]; [exact (IH H)|eauto].
Qed.
Lemma chains_fin beh h : chains (trace beh h) = map held (fin beh h).
Proof.
  induction h as [|l h IH] using rev_ind; [reflexivity|]. rewrite trace_snoc, fin_snoc. set (s := fin beh h) in *.
  destruct l; cbn [step].
  - cbn [fst snd]. rewrite chains_snoc, IH, map_app. reflexivity.
  - destruct (nth_error s c) as [k|] eqn:E; cbn [fst snd]; [|rewrite app_nil_r; exact IH]. rewrite chains_snoc, IH, map_app. cbn [map]. f_equal. f_equal.
    apply nth_error_nth. rewrite nth_error_map, E. reflexivity.
  - destruct (nth_error s c) as [k|] eqn:E; cbn [fst snd]; [|rewrite app_nil_r; exact IH]. rewrite chains_snoc, IH, map_app, map_set_nth. cbn [map held]. f_equal. f_equal.
    rewrite built_comp. rewrite (nth_error_nth (map held s) c Given (x := held k)); [reflexivity|]. rewrite nth_error_map, E. reflexivity.
  - destruct (nth_error s c) as [[k|]|] eqn:E; cbn [fst snd]; [| |rewrite app_nil_r; exact IH].
    + assert (K := call_stages beh k v). destruct (call_cb beh k v) as [e r]. cbn [fst snd] in *. rewrite chains_app; [exact IH|].
      intros x Hx. apply in_app_iff in Hx as [Hx|[<-|[]]]; [|exact Logic.I]. destruct (K _ Hx) as (f & y & ->). exact Logic.I.
    + rewrite chains_snoc. exact IH.
  - destruct (nth_error s c) as [k|]; cbn [fst snd]; [rewrite chains_snoc|rewrite app_nil_r]; exact IH.
Qed.
Lemma pipe_snoc beh l f v : pipe beh (l ++ [f]) v = match snd (pipe beh l v) with
  | RVal x => (fst (pipe beh l v) ++ [EStage f x], match beh f x with Some y => RVal y | None => RThrew end)
  | RThrew => pipe beh l v
  end.
Proof.
  revert v. induction l as [|g l IH]; intro v; cbn; [destruct (beh f v); reflexivity|].
  destruct (beh g v) as [x|]; cbn; [|reflexivity]. rewrite IH. destruct (pipe beh l x) as [e [y|]]; reflexivity.
Qed.
Definition res (r : option nat) : result := match r with Some x => RVal x | None => RThrew end.
Lemma call_pipe beh k v : match built k with Fns l => pipe beh l v = (fst (call_cb beh k v), res (snd (call_cb beh k v))) | _ => call_cb beh k v = ([], None) end.
Proof.
  revert k v. fix IH 1. intros [|[k|] f] v; cbn [built call_cb]; [reflexivity| |reflexivity].
  specialize (IH k v). assert (G := built_not_given k). destruct (built k) as [| |l]; [contradiction| |].
  - rewrite IH. reflexivity.
  - rewrite pipe_snoc, IH. destruct (call_cb beh k v) as [e [x|]]; cbn; [|reflexivity]. destruct (beh f x); reflexivity.
Qed.

(** ** C133 *)
(** The call of a chain: its functions run one after the other, in the order in which they were added, each on what the one before returned, up to
    the first that throws; a chain that was given away returns the default value, one made of such a chain throws, and neither runs anything. *)
Theorem C133_call_exact beh h c v : trace beh (h ++ [LCall c v]) = trace beh h ++
  match chain_at (trace beh h) c with
  | Some (Fns l) => fst (pipe beh l v) ++ [ERet c v (snd (pipe beh l v))]
  | Some Given => [ERet c v (RVal 0)]
  | Some Dud => [ERet c v RThrew]
  | None => []
  end.
Proof.
  rewrite trace_snoc. f_equal. unfold chain_at. rewrite chains_fin, nth_error_map. cbn [step].
  destruct (nth_error (fin beh h) c) as [[k|]|]; cbn [option_map held]; [|reflexivity|reflexivity].
  assert (K := call_pipe beh k v). assert (G := built_not_given k). destruct (built k) as [| |l]; [contradiction| |].
  - rewrite K. reflexivity.
  - rewrite K. destruct (call_cb beh k v) as [e r]. reflexivity.
Qed.
Print Assumptions C133_call_exact.
(** If no function throws, the functions that run are exactly those of the chain, in order, and the result is that of their composition. *)
Theorem C133_composition beh g l v : (forall f x, beh f x = Some (g f x)) ->
  flat_map stage_of (fst (pipe beh l v)) = l /\ snd (pipe beh l v) = RVal (fold_left (fun x f => g f x) l v).
Proof.
  intro H. revert v. induction l as [|f l IH]; intro v; cbn [pipe fst snd flat_map fold_left]; [auto|].
  rewrite H. cbn. destruct (IH (g f v)) as [-> ->]. auto.
Qed.
Print Assumptions C133_composition.
(** If one throws, those before it ran and those after it did not. *)
Theorem C133_throw beh l v : snd (pipe beh l v) = RThrew ->
  exists l1 f l2 x, l = l1 ++ f :: l2 /\ snd (pipe beh l1 v) = RVal x /\ beh f x = None /\ fst (pipe beh l v) = fst (pipe beh l1 v) ++ [EStage f x].
Proof.
  revert v. induction l as [|f l IH]; intro v; cbn [pipe]; [discriminate|]. destruct (beh f v) as [x|] eqn:E; cbn [fst snd]; intro H.
  - destruct (IH _ H) as (l1 & g & l2 & y & -> & A & B & C). exists (f :: l1), g, l2, y. split; [reflexivity|]. cbn [pipe]. rewrite E. cbn [fst snd app].
    split; [exact A|]. split; [exact B|]. rewrite C. reflexivity.
  - exists [], f, l, v. auto.
Qed.
Print Assumptions C133_throw.
(** valid() says whether the chain was not given away. *)
Theorem C133_valid_exact beh h c : trace beh (h ++ [LAsk c]) = trace beh h ++
  match chain_at (trace beh h) c with Some Given => [EAsk c false true] | Some _ => [EAsk c true false] | None => [] end.
Proof.
  rewrite trace_snoc. f_equal. unfold chain_at. rewrite chains_fin, nth_error_map. cbn [step].
  destruct (nth_error (fin beh h) c) as [[k|]|]; cbn [option_map held]; [|reflexivity|reflexivity].
  assert (G := built_not_given k). destruct (built k); [contradiction|reflexivity|reflexivity].
Qed.
Print Assumptions C133_valid_exact.
(** then() and copying make a chain of what the original was; the other chains stay what they were. *)
Theorem C133_then_exact beh h c f : forall x, chain_at (trace beh h) c = Some x -> forall i,
  chain_at (trace beh (h ++ [LThen c f])) i =
    if Nat.eqb i c then Some Given else if Nat.eqb i (length (chains (trace beh h)))
    then Some (match x with Fns l => Fns (l ++ [f]) | _ => Dud end) else chain_at (trace beh h) i.
Proof.
  intros x Hx i. rewrite trace_snoc. assert (Hx' := Hx). unfold chain_at in Hx. rewrite chains_fin, nth_error_map in Hx. cbn [step].
  destruct (nth_error (fin beh h) c) as [k|] eqn:E; [|discriminate]. cbn [snd]. unfold chain_at in *. rewrite chains_snoc.
  rewrite nth_snoc. rewrite (nth_error_nth _ _ Given Hx'). rewrite length_set_nth.
  assert (L : c < length (chains (trace beh h))) by (apply nth_error_Some; congruence).
  destruct (Nat.eqb_spec i c) as [->|Hne].
  - destruct (Nat.eqb_spec c (length (chains (trace beh h)))); [lia|]. apply nth_set_same. exact L.
  - destruct (Nat.eqb i (length (chains (trace beh h)))); [reflexivity|]. apply nth_set_other. congruence.
Qed.
Print Assumptions C133_then_exact.

Definition beh0 : behaviour := fun f v => if Nat.eqb f 9 then None else Some (f * v + f).
Example C133_applies : trace beh0 [LNew; LThen 0 2; LThen 1 3; LCopy 2; LThen 3 9; LCall 2 5; LCall 4 5; LAsk 2] =
  [ENew 0; EThen 0 2 1; EThen 1 3 2; ECopy 2 3; EThen 3 9 4; EStage 2 5; EStage 3 12; ERet 2 5 (RVal 39);
   EStage 2 5; EStage 3 12; EStage 9 39; ERet 4 5 RThrew; EAsk 2 true false].
Proof. vm_compute. reflexivity. Qed.
Example C133_applies_total : let b := fun f v => Some (f + v) in forall f x : nat, b f x = Some ((fun f v => f + v) f x).
Proof. reflexivity. Qed.

(** ** C134 *)
(** (1) A chain on which then was called does not work any more: it returns the default value and runs none of its functions. *)
Theorem C134_then_empties_the_chain_refuted : exists h c v, chain_at (trace beh0 h) c = Some (Fns [2]) /\
  forall f, trace beh0 (h ++ [LThen c f; LCall c v]) = trace beh0 h ++ [EThen c f 2; ERet c v (RVal 0)] /\ snd (pipe beh0 [2] v) <> RVal 0.
Proof. exists [LNew; LThen 0 2], 1, 5. split; [reflexivity|]. intro f. split; [vm_compute; reflexivity|discriminate]. Qed.
Print Assumptions C134_then_empties_the_chain_refuted.
(** (2) A chain that says it is valid may always throw, without running anything. *)
Theorem C134_valid_but_throws_refuted : exists h c, In (EAsk c true false) (trace beh0 h) /\
  forall v, trace beh0 (h ++ [LCall c v]) = trace beh0 h ++ [ERet c v RThrew].
Proof. exists [LNew; LThen 0 2; LThen 0 3; LAsk 2], 2. split; [vm_compute; auto|]. intro v. vm_compute. reflexivity. Qed.
Print Assumptions C134_valid_but_throws_refuted.
(** (3) connected() says the opposite of what it says: true exactly if the chain is of no use. *)
Theorem C134_connected_is_inverted_refuted beh h c b d : In (EAsk c b d) (trace beh h) -> d = negb b.
Proof.
  induction h as [|l h IH] using rev_ind; [intros []|]. rewrite trace_snoc. intro H. apply in_app_iff in H as [H|H]; [auto|].
  destruct l; cbn [step] in H.
  - destruct H as [H|[]]; discriminate.
  - destruct (nth_error _ _); [destruct H as [H|[]]; discriminate|destruct H].
  - destruct (nth_error _ _); [destruct H as [H|[]]; discriminate|destruct H].
  - destruct (nth_error _ _) as [[k|]|]; [|destruct H as [H|[]]; discriminate|destruct H].
    assert (K := call_stages beh k v). destruct (call_cb beh k v) as [e r]. cbn [fst snd] in *. apply in_app_iff in H as [H|[H|[]]]; [|discriminate].
    destruct (K _ H) as (f & x & X). discriminate.
  - destruct (nth_error _ _) as [k|]; [|destruct H]. destruct H as [H|[]]. inversion H; subst. destruct k; reflexivity.
Qed.
Print Assumptions C134_connected_is_inverted_refuted.
(** As long as no chain is used to make another after it was given away, every chain was given away or runs its functions. *)
Theorem C134_no_dud_partial beh h c : not_reused (trace beh h) -> chain_at (trace beh h) c <> Some Dud.
Proof.
  revert c. induction h as [|l h IH] using rev_ind; intros c0 N; [destruct c0; discriminate|].
  assert (N' : not_reused (trace beh h)).
  { intros l1 e l2 E. apply (N l1 e (l2 ++ snd (step beh (fin beh h) l))). rewrite trace_snoc, E, <- app_assoc. reflexivity. }
  destruct l as [|c|c f|c v|c].
  - rewrite trace_snoc. unfold chain_at. cbn [step snd]. rewrite chains_snoc, nth_snoc. destruct (Nat.eqb _ _); [discriminate|apply IH, N'].
  - rewrite trace_snoc. cbn [step]. destruct (nth_error (fin beh h) c) as [k|] eqn:E; cbn [snd]; [|rewrite app_nil_r; apply IH, N'].
    unfold chain_at. rewrite chains_snoc, nth_snoc. destruct (Nat.eqb _ _); [|apply IH, N'].
    assert (C : chain_at (trace beh h) c = Some (held k)) by (unfold chain_at; rewrite chains_fin, nth_error_map, E; reflexivity).
    unfold chain_at in C. rewrite (nth_error_nth _ _ Given C). intro X. injection X as X. apply (IH c N'). unfold chain_at. rewrite C, X. reflexivity.
  - destruct (nth_error (fin beh h) c) as [k|] eqn:E.
    + assert (C : chain_at (trace beh h) c = Some (held k)) by (unfold chain_at; rewrite chains_fin, nth_error_map, E; reflexivity).
      assert (Ng : held k <> Given).
      { intro X. apply (N (trace beh h) (EThen c f (length (fin beh h))) []); [|rewrite C, X; reflexivity]. rewrite trace_snoc. cbn [step]. rewrite E. reflexivity. }
      rewrite (C133_then_exact _ _ _ _ _ C). destruct (Nat.eqb _ _); [discriminate|]. destruct (Nat.eqb _ _); [|apply IH, N'].
      assert (D : held k <> Dud) by (intro X; apply (IH c N'); rewrite C, X; reflexivity). destruct (held k); [contradiction|contradiction|discriminate].
    + rewrite trace_snoc. cbn [step]. rewrite E. cbn [snd]. rewrite app_nil_r. apply IH, N'.
  - rewrite C133_call_exact. unfold chain_at at 1. rewrite chains_app; [apply IH, N'|]. intros e He.
    assert (P : forall l v e, In e (fst (pipe beh l v)) -> exists f x, e = EStage f x).
    { clear. induction l as [|f l IHl]; intros v e; cbn [pipe fst]; [intros []|]. destruct (beh f v); cbn [fst]; intros [<-|H]; eauto. destruct H. }
    destruct (chain_at (trace beh h) c) as [[| |l]|]; [destruct He as [<-|[]]; exact Logic.I|destruct He as [<-|[]]; exact Logic.I| |destruct He].
    apply in_app_iff in He as [He|[<-|[]]]; [|exact Logic.I]. destruct (P _ _ _ He) as (f & x & ->). exact Logic.I.
  - rewrite C133_valid_exact. unfold chain_at at 1. rewrite chains_app; [apply IH, N'|]. intros e He.
    destruct (chain_at (trace beh h) c) as [[| |l]|]; [destruct He as [<-|[]]; exact Logic.I..|destruct He].
Qed.
Print Assumptions C134_no_dud_partial.
Example C134_applies : not_reused (trace beh0 [LNew; LThen 0 2; LCopy 1; LThen 1 3]) /\ chain_at (trace beh0 [LNew; LThen 0 2; LCopy 1; LThen 1 3]) 3 = Some (Fns [2; 3]).
Proof.
  split; [|reflexivity]. intros l e l' E. change (trace beh0 [LNew; LThen 0 2; LCopy 1; LThen 1 3]) with [ENew 0; EThen 0 2 1; ECopy 1 2; EThen 1 3 3] in E.
  destruct l as [|? [|? [|? [|? l]]]]; cbn [app] in E; inversion E; subst; try exact Logic.I; try discriminate.
  destruct l; discriminate.
Qed.
