(** Routing: the steps of the model in explicit form, and the relation between state and trace. *)
From Verif Require Import ListUtil Amap RouteModel RouteSpec.

Definition told (s : state) (a : nat) (m : message) : list event := map (fun o => EPost a o m) (receivers s m).
Definition informed (s : state) (a o : nat) : list event :=
  if takes s o (MStatus true o) then map (fun x => EPost a o (MStatus true (snd x))) (table s) else [].
Definition others (self : option nat) (l : list nat) : list nat :=
  filter (fun o => match self with Some x => negb (Nat.eqb o x) | None => true end) l.

Inductive step (s : state) : state -> Prop :=
| s_call c : callable s c = true ->
    step s (St (objs s) (table s) (agents s ++ [(c, PStart)]) (lock s) (tr s ++ [ECall (length (agents s)) c]))
| s_anon a : nth_error (agents s) a = Some (KCreate 0, PStart) ->
    step s (St (objs s ++ [Proc 0 false []]) (table s) (set_nth a (KCreate 0, PRet (RProc (length (objs s)))) (agents s)) (lock s) (tr s ++ [ERet a (RProc (length (objs s)))]))
| s_taken a id o : nth_error (agents s) a = Some (KCreate id, PStart) -> id <> 0 -> lock s = None -> get id (table s) = Some o ->
    step s (St (objs s) (table s) (set_nth a (KCreate id, PRet RNull) (agents s)) (lock s) (tr s ++ [ERet a RNull]))
| s_alloc a id : nth_error (agents s) a = Some (KCreate id, PStart) -> id <> 0 -> lock s = None -> get id (table s) = None ->
    step s (St (objs s ++ [Proc id false []]) (table s) (set_nth a (KCreate id, PAdd (length (objs s))) (agents s)) (lock s) (tr s))
| s_lost a id o o' : nth_error (agents s) a = Some (KCreate id, PAdd o) -> lock s = None -> get id (table s) = Some o' ->
    step s (St (objs s) (table s) (set_nth a (KCreate id, PRet (RProc o)) (agents s)) (lock s) (tr s ++ [ERet a (RProc o)]))
| s_join a id o : nth_error (agents s) a = Some (KCreate id, PAdd o) -> lock s = None -> get id (table s) = None ->
    step s (St (objs s) (table s ++ [(id, o)]) (set_nth a (KCreate id, PRet (RProc o)) (agents s)) (lock s)
               (((tr s ++ (informed s a o ++ told s a (MStatus true o))) ++ [EJoin a id o]) ++ [ERet a (RProc o)]))
| s_stop_no a o : nth_error (agents s) a = Some (KStop o, PStart) -> closedb s o = true ->
    step s (St (objs s) (table s) (set_nth a (KStop o, PRet RUnit) (agents s)) (lock s) (tr s ++ [ERet a RUnit]))
| s_stop_go a o : nth_error (agents s) a = Some (KStop o, PStart) -> closedb s o = false ->
    step s (St (objs s) (table s) (set_nth a (KStop o, PClosing) (agents s)) (lock s) (tr s))
| s_close a o : nth_error (agents s) a = Some (KStop o, PClosing) ->
    step s (St (objs (set_closed s o true)) (table s) (set_nth a (KStop o, PErase) (agents s)) (lock s) (tr s ++ [EClose o]))
| s_gone a o : nth_error (agents s) a = Some (KStop o, PErase) -> (id_of s o = 0 \/ lock s = None /\ get (id_of s o) (table s) = None) ->
    step s (St (objs s) (table s) (set_nth a (KStop o, PRet RUnit) (agents s)) (lock s) (tr s ++ [ERet a RUnit]))
| s_leave a o o' : nth_error (agents s) a = Some (KStop o, PErase) -> id_of s o <> 0 -> lock s = None -> get (id_of s o) (table s) = Some o' ->
    step s (St (objs s) (del (id_of s o) (table s)) (set_nth a (KStop o, PTell) (agents s)) (lock s) (tr s ++ [ELeave a (id_of s o) o']))
| s_told a o : nth_error (agents s) a = Some (KStop o, PTell) -> lock s = None ->
    step s (St (objs s) (table s) (set_nth a (KStop o, PRet RUnit) (agents s)) (lock s) ((tr s ++ told s a (MStatus false o)) ++ [ERet a RUnit]))
| s_reuse a o : nth_error (agents s) a = Some (KReuse o, PStart) ->
    step s (St (objs (set_closed s o false)) (table s) (set_nth a (KReuse o, PRet RUnit) (agents s)) (lock s) ((tr s ++ [EOpen o]) ++ [ERet a RUnit]))
| s_find a id : nth_error (agents s) a = Some (KFind id, PStart) -> lock s = None ->
    step s (St (objs s) (table s) (set_nth a (KFind id, PRet (match get id (table s) with Some o => RProc o | None => RNull end)) (agents s)) (lock s)
               (tr s ++ [ERet a (match get id (table s) with Some o => RProc o | None => RNull end)]))
| s_nobody a id m : nth_error (agents s) a = Some (KPost id m, PStart) -> lock s = None -> get id (table s) = None ->
    step s (St (objs s) (table s) (set_nth a (KPost id m, PRet (RBool false)) (agents s)) (lock s) (tr s ++ [ERet a (RBool false)]))
| s_found a id m o : nth_error (agents s) a = Some (KPost id m, PStart) -> lock s = None -> get id (table s) = Some o ->
    step s (St (objs s) (table s) (set_nth a (KPost id m, PHand o) (agents s)) (lock s) (tr s))
| s_hand a id m o : nth_error (agents s) a = Some (KPost id m, PHand o) -> takes s o m = true ->
    step s (St (objs s) (table s) (set_nth a (KPost id m, PRet (RBool true)) (agents s)) (lock s) ((tr s ++ [EPost a o m]) ++ [ERet a (RBool true)]))
| s_refuse a id m o : nth_error (agents s) a = Some (KPost id m, PHand o) -> takes s o m = false ->
    step s (St (objs s) (table s) (set_nth a (KPost id m, PRet (RBool false)) (agents s)) (lock s) (tr s ++ [ERet a (RBool false)]))
| s_all a m : nth_error (agents s) a = Some (KPostAll m, PStart) -> lock s = None ->
    step s (St (objs s) (table s) (set_nth a (KPostAll m, PRet (RBool (negb (Nat.eqb (length (receivers s m)) 0)))) (agents s)) (lock s)
               ((tr s ++ told s a m) ++ [ERet a (RBool (negb (Nat.eqb (length (receivers s m)) 0)))]))
| s_send a self m : nth_error (agents s) a = Some (KSendAll self m, PStart) -> lock s = None ->
    match self with Some x => existsb (Nat.eqb x) (receivers s m) = false | None => True end ->
    step s (St (objs s) (table s) (set_nth a (KSendAll self m, PRet RUnit) (agents s)) (lock s)
               ((tr s ++ map (fun o => EPost a o m) (others self (receivers s m))) ++ [ERet a RUnit]))
| s_send_self a x m : nth_error (agents s) a = Some (KSendAll (Some x) m, PStart) -> lock s = None -> existsb (Nat.eqb x) (receivers s m) = true ->
    step s (St (objs s) (table s) (set_nth a (KSendAll (Some x) m, PHandler) (agents s)) (Some a)
               (tr s ++ map (fun o => EPost a o m) (others (Some x) (receivers s m))))
| s_handled a self m : nth_error (agents s) a = Some (KSendAll self m, PHandler) ->
    step s (St (objs s) (table s) (set_nth a (KSendAll self m, PRet RUnit) (agents s)) None (tr s ++ [ERet a RUnit]))
| s_nest a self m i : nth_error (agents s) a = Some (KSendAll self m, PHandler) ->
    step s (St (objs s) (table s) (set_nth a (KSendAll self m, PNested (length (agents s))) (agents s) ++ [(KFind i, PStart)]) (lock s)
               (tr s ++ [ECall (length (agents s)) (KFind i)]))
| s_back a self m b c' r' : nth_error (agents s) a = Some (KSendAll self m, PNested b) -> nth_error (agents s) b = Some (c', PRet r') ->
    step s (St (objs s) (table s) (set_nth a (KSendAll self m, PHandler) (agents s)) (lock s) (tr s))
| s_con a o ty : nth_error (agents s) a = Some (KConnect o ty, PStart) ->
    step s (St (objs (set_handlers s o (set_add ty))) (table s) (set_nth a (KConnect o ty, PRet RUnit) (agents s)) (lock s) ((tr s ++ [EConnect o ty]) ++ [ERet a RUnit]))
| s_dis a o ty : nth_error (agents s) a = Some (KDisconnect o ty, PStart) ->
    step s (St (objs (set_handlers s o (set_del ty))) (table s) (set_nth a (KDisconnect o ty, PRet RUnit) (agents s)) (lock s) ((tr s ++ [EDisconnect o ty]) ++ [ERet a RUnit])).

Global Arguments joined : simpl never.
Global Arguments is_open : simpl never.
Global Arguments listens : simpl never.
Global Arguments told : simpl never.
Global Arguments informed : simpl never.
Global Arguments receivers : simpl never.
Global Arguments others : simpl never.

Lemma free_lock s : free s = true -> lock s = None.
Proof. unfold free. destruct (lock s); [discriminate|reflexivity]. Qed.

Lemma set_closed_same s o b : set_closed s o b = St (objs (set_closed s o b)) (table s) (agents s) (lock s) (tr s).
Proof. unfold set_closed. destruct (nth_error (objs s) o); destruct s; reflexivity. Qed.
Lemma set_handlers_same s o f : set_handlers s o f = St (objs (set_handlers s o f)) (table s) (agents s) (lock s) (tr s).
Proof. unfold set_handlers. destruct (nth_error (objs s) o); destruct s; reflexivity. Qed.

Lemma next_step s l : next s l = s \/ step s (next s l).
Proof.
  destruct l as [c|a ch]; cbn -[callable].
  - destruct (callable s c) eqn:C; [right; apply (s_call s c C)|left; reflexivity].
  - destruct (nth_error (agents s) a) as [[c p]|] eqn:N; [|left; reflexivity].
    destruct c as [id|o|o|id|id m|m|self m|o ty|o ty]; cbn -[free].
    + destruct p; try (left; reflexivity); cbn -[free].
      * destruct (Nat.eqb_spec id 0) as [->|I]; [right; exact (s_anon s a N)|].
        destruct (free s) eqn:F; [|left; reflexivity]. apply free_lock in F. right.
        destruct (get id (table s)) eqn:G; [exact (s_taken s a id _ N I F G)|exact (s_alloc s a id N I F G)].
      * destruct (free s) eqn:F; [|left; reflexivity]. apply free_lock in F. right.
        destruct (get id (table s)) eqn:G; [exact (s_lost s a id _ _ N F G)|].
        pose proof (s_join s a id o N F G) as J. unfold inform_new, informed, told in *.
        destruct (takes s o (MStatus true o)); cbn -[receivers takes app] in J; unfold ret, emit, with_table, post_all, emit; cbn -[app receivers takes]; [rewrite (app_assoc (tr s)) in J|]; exact J.
    + destruct p; try (left; reflexivity); cbn -[free].
      * destruct (closedb s o) eqn:C; right; [exact (s_stop_no s a o N C)|exact (s_stop_go s a o N C)].
      * right. pose proof (s_close s a o N) as J. rewrite (set_closed_same s o true). exact J.
      * destruct (Nat.eqb_spec (id_of s o) 0) as [E|E]; [right; exact (s_gone s a o N (or_introl E))|].
        destruct (free s) eqn:F; [|left; reflexivity]. apply free_lock in F. right.
        destruct (get (id_of s o) (table s)) eqn:G; [exact (s_leave s a o _ N E F G)|exact (s_gone s a o N (or_intror (conj F G)))].
      * destruct (free s) eqn:F; [|left; reflexivity]. apply free_lock in F. right. exact (s_told s a o N F).
    + destruct p; try (left; reflexivity). right. pose proof (s_reuse s a o N) as J. rewrite (set_closed_same s o false). exact J.
    + destruct p; try (left; reflexivity). destruct (free s) eqn:F; [|left; reflexivity]. apply free_lock in F. right. exact (s_find s a id N F).
    + destruct p; try (left; reflexivity); cbn -[free].
      * destruct (free s) eqn:F; [|left; reflexivity]. apply free_lock in F. right.
        destruct (get id (table s)) eqn:G; [exact (s_found s a id m _ N F G)|exact (s_nobody s a id m N F G)].
      * right. destruct (takes s o m) eqn:T; [exact (s_hand s a id m o N T)|exact (s_refuse s a id m o N T)].
    + destruct p; try (left; reflexivity). destruct (free s) eqn:F; [|left; reflexivity]. apply free_lock in F. right. exact (s_all s a m N F).
    + destruct p; try (left; reflexivity); cbn -[free].
      * destruct (free s) eqn:F; [|left; reflexivity]. apply free_lock in F. right.
        destruct self as [x|]; [|exact (s_send s a None m N F I)].
        destruct (existsb (Nat.eqb x) (receivers s m)) eqn:X; [exact (s_send_self s a x m N F X)|exact (s_send s a (Some x) m N F X)].
      * right. destruct ch; [exact (s_handled s a self m N)|exact (s_nest s a self m ch N)].
      * destruct (nth_error (agents s) a0) as [[c' p']|] eqn:B; [|left; reflexivity].
        destruct p'; try (left; reflexivity). right. exact (s_back s a self m a0 c' r N B).
    + destruct p; try (left; reflexivity). right. pose proof (s_con s a o ty N) as J. rewrite (set_handlers_same s o _). exact J.
    + destruct p; try (left; reflexivity). right. pose proof (s_dis s a o ty N) as J. rewrite (set_handlers_same s o _). exact J.
Qed.

Lemma final_snoc h l : final (h ++ [l]) = next (final h) l.
Proof. unfold final. rewrite fold_left_app. reflexivity. Qed.

(** Induction over the steps of all histories. *)
Lemma state_ind (P : state -> Prop) : P init -> (forall h s', P (final h) -> step (final h) s' -> P s') -> forall h, P (final h).
Proof.
  intros P0 PS h. induction h as [|l h IH] using rev_ind; [exact P0|].
  rewrite final_snoc. destruct (next_step (final h) l) as [->|S]; [exact IH|exact (PS h _ IH S)].
Qed.

(** Traces only grow. *)
Lemma step_tr s s' : step s s' -> exists k, tr s' = tr s ++ k.
Proof. intros S. inversion S; subst; cbn; rewrite <- ?app_assoc; eauto; exists []; rewrite app_nil_r; reflexivity. Qed.
Lemma grows h k : exists t, tr (final (h ++ k)) = tr (final h) ++ t.
Proof.
  induction k as [|l k [t T]] using rev_ind; [exists []; rewrite !app_nil_r; reflexivity|].
  rewrite app_assoc, final_snoc. destruct (next_step (final (h ++ k)) l) as [->|S]; [eauto|].
  apply step_tr in S as [u U]. exists (t ++ u). rewrite U, T, app_assoc. reflexivity.
Qed.

(** Events that neither join nor leave, nor change a processor. *)
Definition is_post (e : event) : bool := match e with EPost _ _ _ | ERet _ _ | ECall _ _ => true | _ => false end.
Lemma posts_told s a m : forallb is_post (told s a m) = true.
Proof. unfold told. induction (receivers s m); cbn; auto. Qed.
Lemma posts_map a m l : forallb is_post (map (fun o => EPost a o m) l) = true.
Proof. induction l; cbn; auto. Qed.
Lemma posts_informed s a o : forallb is_post (informed s a o) = true.
Proof. unfold informed. destruct (takes _ _ _); [|reflexivity]. induction (table s); cbn; auto. Qed.

Lemma joined_snoc l e id : joined (l ++ [e]) id =
  match e with
  | EJoin _ i o => if Nat.eqb i id then Some o else joined l id
  | ELeave _ i _ => if Nat.eqb i id then None else joined l id
  | _ => joined l id
  end.
Proof. unfold joined. rewrite rev_app_distr. destruct e; reflexivity. Qed.
Lemma open_snoc l e o : is_open (l ++ [e]) o =
  match e with
  | EClose x => if Nat.eqb x o then false else is_open l o
  | EOpen x => if Nat.eqb x o then true else is_open l o
  | _ => is_open l o
  end.
Proof. unfold is_open. rewrite rev_app_distr. destruct e; reflexivity. Qed.
Lemma listens_snoc l e o ty : listens (l ++ [e]) o ty =
  match e with
  | EConnect x t => if Nat.eqb x o && Nat.eqb t ty then true else listens l o ty
  | EDisconnect x t => if Nat.eqb x o && Nat.eqb t ty then false else listens l o ty
  | _ => listens l o ty
  end.
Proof. unfold listens. rewrite rev_app_distr. destruct e; reflexivity. Qed.
Lemma joined_posts k id : forall l, forallb is_post k = true -> joined (l ++ k) id = joined l id.
Proof.
  induction k as [|e k IH]; intros l F; [rewrite app_nil_r; reflexivity|]. cbn in F. apply andb_true_iff in F as [F1 F2].
  replace (l ++ e :: k) with ((l ++ [e]) ++ k) by (rewrite <- app_assoc; reflexivity). rewrite IH by exact F2.
  rewrite joined_snoc. destruct e; try discriminate; reflexivity.
Qed.
Lemma open_posts k o : forall l, forallb is_post k = true -> is_open (l ++ k) o = is_open l o.
Proof.
  induction k as [|e k IH]; intros l F; [rewrite app_nil_r; reflexivity|]. cbn in F. apply andb_true_iff in F as [F1 F2].
  replace (l ++ e :: k) with ((l ++ [e]) ++ k) by (rewrite <- app_assoc; reflexivity). rewrite IH by exact F2.
  rewrite open_snoc. destruct e; try discriminate; reflexivity.
Qed.
Lemma listens_posts k o ty : forall l, forallb is_post k = true -> listens (l ++ k) o ty = listens l o ty.
Proof.
  induction k as [|e k IH]; intros l F; [rewrite app_nil_r; reflexivity|]. cbn in F. apply andb_true_iff in F as [F1 F2].
  replace (l ++ e :: k) with ((l ++ [e]) ++ k) by (rewrite <- app_assoc; reflexivity). rewrite IH by exact F2.
  rewrite listens_snoc. destruct e; try discriminate; reflexivity.
Qed.
Lemma posts_app2 x y : forallb is_post x = true -> forallb is_post y = true -> forallb is_post (x ++ y) = true.
Proof. intros A B. rewrite forallb_app, A, B. reflexivity. Qed.

Ltac posts := rewrite ?joined_posts, ?open_posts, ?listens_posts
  by (first [apply posts_told|apply posts_map|apply posts_informed|apply posts_app2; [apply posts_informed|apply posts_told]]).

(** The set of joined processors is what the trace says. *)
Lemma get_snoc {V} k i (v : V) m : get k m = None -> get i (m ++ [(k, v)]) = if Nat.eqb k i then Some v else get i m.
Proof.
  induction m as [|[k' v'] m IH]; cbn; intros H.
  - rewrite (Nat.eqb_sym i k). destruct (Nat.eqb_spec k i); reflexivity.
  - destruct (Nat.eqb_spec k k') as [->|N]; [discriminate|]. rewrite IH by exact H.
    destruct (Nat.eqb_spec i k') as [->|]; [|reflexivity]. destruct (Nat.eqb_spec k k'); [contradiction|reflexivity].
Qed.

Lemma table_joined h id : get id (table (final h)) = joined (tr (final h)) id.
Proof.
  revert h. refine (state_ind (fun s => get id (table s) = joined (tr s) id) eq_refl _).
  intros h s' IH S. inversion S; subst; cbn; rewrite ?joined_snoc; posts; rewrite ?joined_snoc; try exact IH.
  - rewrite get_snoc by assumption. rewrite IH. reflexivity.
  - rewrite get_del, IH, (Nat.eqb_sym id). reflexivity.
Qed.
