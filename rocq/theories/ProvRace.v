(** Threads racing on one request object: Request::reply / onAborted (Request.cpp:42-80), ServiceProvider::respondToRequest
    (ServiceProvider.cpp:68-81), onRequestAborted (316-326), at the granularity of their critical sections
    (Request::_mutex, requestsMap_'s mutex); each numbered step is one critical section or one send.
    Only the one request is modelled (its operation's list holds no other request with the same id); deinit is not
    among the racing threads. *)
From Verif Require Import CsTypes.

Inductive kind := KFinal | KPartial | KAbort | KOnAborted.
Inductive pc :=
| PStart
| PChecked            (* saw _valid = true, released _mutex (Request.cpp:43-56) *)
| PHolds              (* got the request from requestsMap_ (263-283) *)
| PInvalidated        (* request->invalidate() done *)
| PCallback (b : bool)(* read the abort callback; b: there is one *)
| PDone.

Record race := Race
  { in_table : bool;   (* the request is in requestsMap_ *)
    valid : bool;      (* Request::_valid *)
    has_cb : bool;     (* Request::_abortCallback is set *)
    log : list bool;   (* sends so far, newest first: true = final response, false = partial update *)
    late : nat;        (* executions of the abort callback by onAborted itself (Request.cpp:75-76) *)
    cbruns : nat;      (* executions of the abort callback by an abort (ServiceProvider.cpp:322-324) *)
    aborts : nat;      (* ghost: aborts that took the request out of the table *)
    nullref : bool;    (* request->invalidate() on a null pointer (ServiceProvider.cpp:74) *)
    threads : list (kind * pc) }.

Definition race_init (ks : list kind) : race := Race true true false [] 0 0 0 false (map (fun k => (k, PStart)) ks).

Definition runs (s : race) : nat := late s + cbruns s.

(** One step of a thread: new shared state (fields) and new pc. *)
Definition thread_step (s : race) (k : kind) (p : pc) : race * pc :=
  match s with Race t v c l lt rn ab nl th =>
  match k, p with
  | (KFinal | KPartial), PStart => (s, if v then PChecked else PDone)
  | KFinal, PChecked => if t then (Race false v c l lt rn ab nl th, PHolds) else (Race t v c l lt rn ab true th, PDone)
  | KFinal, PHolds => (Race t false c l lt rn ab nl th, PInvalidated)
  | KFinal, PInvalidated => (Race t v c (true :: l) lt rn ab nl th, PDone)
  | KPartial, PChecked => (s, if t then PHolds else PDone)
  | KPartial, PHolds => (Race t v c (false :: l) lt rn ab nl th, PDone)
  | KAbort, PStart => if t then (Race false v c l lt rn (S ab) nl th, PHolds) else (s, PDone)
  | KAbort, PHolds => (Race t false c l lt rn ab nl th, PInvalidated)
  | KAbort, PInvalidated => (s, PCallback c)
  | KAbort, PCallback b => (Race t v c l lt (if b then S rn else rn) ab nl th, PDone)
  | KOnAborted, PStart => if v then (Race t v true l lt rn ab nl th, PDone) else (Race t v c l (S lt) rn ab nl th, PDone)
  | _, _ => (s, PDone)
  end end.

Fixpoint set_nth {A} (i : nat) (x : A) (l : list A) : list A :=
  match l, i with
  | [], _ => []
  | _ :: l', O => x :: l'
  | y :: l', S i' => y :: set_nth i' x l'
  end.

(** The scheduler picks thread [i]; a finished thread does nothing. *)
Definition race_step (s : race) (i : nat) : race :=
  match nth_error (threads s) i with
  | Some (k, p) =>
      let '(s', p') := thread_step s k p in
      Race (in_table s') (valid s') (has_cb s') (log s') (late s') (cbruns s') (aborts s') (nullref s') (set_nth i (k, p') (threads s))
  | None => s
  end.
Definition race_run (ks : list kind) (sched : list nat) : race := fold_left race_step sched (race_init ks).

(** ** Counting threads *)
Definition cnt (f : kind * pc -> bool) (l : list (kind * pc)) : nat := length (filter f l).
Definition b2n (b : bool) : nat := if b then 1 else 0.

Lemma cnt_set f l i x y : nth_error l i = Some y -> cnt f (set_nth i x l) + b2n (f y) = cnt f l + b2n (f x).
Proof.
  unfold cnt. revert i. induction l as [|z l IH]; intros [|i] H; try discriminate; cbn in H |- *.
  - injection H as ->. destruct (f x), (f y); cbn; lia.
  - specialize (IH i H). destruct (f z); cbn; lia.
Qed.

Lemma cnt_init f ks : (forall k, f (k, PStart) = false) -> cnt f (map (fun k => (k, PStart)) ks) = 0.
Proof. intros H. unfold cnt. induction ks as [|k ks IH]; [reflexivity|]. cbn. rewrite H. exact IH. Qed.

Definition final_holding (x : kind * pc) : bool :=
  match x with (KFinal, (PHolds | PInvalidated)) => true | _ => false end.
Definition finals (s : race) : nat := length (filter (fun b => b) (log s)).
Definition partials (s : race) : nat := length (filter negb (log s)).

(** The request is in exactly one place: table, a responder's hands, answered, or aborted. *)
Definition token (s : race) : Prop :=
  b2n (in_table s) + cnt final_holding (threads s) + finals s + aborts s = 1.

Ltac norm := cbn [b2n negb app filter length in_table valid has_cb log late cbruns aborts nullref threads fst snd] in *.

Lemma token_step s i : token s -> token (race_step s i).
Proof.
  unfold token, race_step. intros T. destruct (nth_error (threads s) i) as [[k p]|] eqn:E; [|exact T].
  assert (CS := fun x => cnt_set final_holding (threads s) i x (k, p) E).
  destruct s as [t v c l lt rn ab nl th]. unfold thread_step.
  destruct k, p; try (destruct b); try (destruct t); try (destruct v); unfold finals in *; norm;
    match goal with |- context [set_nth i ?x th] => specialize (CS x) end; norm; cbn [final_holding b2n] in *; lia.
Qed.

Lemma token_run ks sched : token (race_run ks sched).
Proof.
  unfold race_run. assert (H : token (race_init ks)).
  { unfold token, finals, race_init. norm. rewrite cnt_init; [reflexivity|]. intros []; reflexivity. }
  revert H. generalize (race_init ks). induction sched as [|i sched IH]; intros s H; [exact H|]. cbn. apply IH. apply token_step. exact H.
Qed.

Theorem race_one_final ks sched : finals (race_run ks sched) + aborts (race_run ks sched) <= 1.
Proof. pose proof (token_run ks sched) as T. unfold token in T. lia. Qed.

(** ** No null dereference when at most one thread answers or aborts *)
Definition is_remover (x : kind * pc) : bool := match x with ((KFinal | KAbort), _) => true | _ => false end.
Definition waiting (x : kind * pc) : bool := match x with (KFinal, (PStart | PChecked)) => true | (KAbort, PStart) => true | _ => false end.

Definition single (s : race) : Prop :=
  cnt is_remover (threads s) <= 1 /\ nullref s = false /\ (1 <= cnt waiting (threads s) -> in_table s = true).

Lemma waiting_le th : cnt waiting th <= cnt is_remover th.
Proof. unfold cnt. induction th as [|[[] []] th IH]; cbn; lia. Qed.

Lemma nth_cnt f l i y : nth_error l i = Some y -> f y = true -> 1 <= cnt f l.
Proof.
  unfold cnt. revert i. induction l as [|z l IH]; intros [|i] H F; try discriminate; cbn in H |- *.
  - injection H as ->. rewrite F. cbn. lia.
  - specialize (IH i H F). destruct (f z); cbn; lia.
Qed.

Lemma single_step s i : single s -> single (race_step s i).
Proof.
  unfold single, race_step. intros (R & N & W). destruct (nth_error (threads s) i) as [[k p]|] eqn:E; [|auto].
  assert (CS := fun x => cnt_set is_remover (threads s) i x (k, p) E).
  assert (CW := fun x => cnt_set waiting (threads s) i x (k, p) E).
  assert (LE := waiting_le (threads s)). assert (NW := nth_cnt waiting (threads s) i (k, p) E).
  destruct s as [t v c l lt rn ab nl th]. unfold thread_step. norm.
  destruct k, p; try (destruct b); try (destruct t); try (destruct v); norm;
    try (match goal with |- context [set_nth i ?x th] => specialize (CS x); specialize (CW x) end); norm; cbn [is_remover waiting b2n] in *;
    (split; [|split]); try lia; try assumption; try (intros; lia); try (intros; reflexivity);
    try (exfalso; specialize (W (NW eq_refl)); discriminate); try (intros; apply W; lia).
Qed.

Lemma cnt_map_init f ks : cnt f (map (fun k => (k, PStart)) ks) = length (filter (fun k => f (k, PStart)) ks).
Proof. unfold cnt. induction ks as [|k ks IH]; [reflexivity|]. cbn. destruct (f (k, PStart)); cbn; lia. Qed.

Definition answers_or_aborts (k : kind) : bool := match k with KFinal | KAbort => true | _ => false end.

Theorem race_safe ks sched : length (filter answers_or_aborts ks) <= 1 -> nullref (race_run ks sched) = false.
Proof.
  intros H. enough (S : single (race_run ks sched)) by apply S. unfold race_run.
  assert (I : single (race_init ks)).
  { unfold single, race_init. norm. rewrite cnt_map_init. split; [|split; reflexivity].
    erewrite filter_ext; [exact H|]. intros []; reflexivity. }
  clear H. revert I. generalize (race_init ks). induction sched as [|i sched IH]; intros s I; [exact I|]. cbn. apply IH. apply single_step. exact I.
Qed.

(** ** The abort callback, one registering thread *)
Definition onab_start (x : kind * pc) : bool := match x with (KOnAborted, PStart) => true | _ => false end.
Definition will_run (x : kind * pc) : bool := match x with (KAbort, PCallback true) => true | _ => false end.
Definition early (x : kind * pc) : bool := match x with (KAbort, PHolds) => true | _ => false end.
Definition mid (x : kind * pc) : bool := match x with (KAbort, PInvalidated) => true | _ => false end.

Definition cbinv (s : race) : Prop :=
  cnt onab_start (threads s) + b2n (has_cb s) + late s = 1 /\
  (has_cb s = false -> cnt will_run (threads s) = 0 /\ cbruns s = 0) /\
  (has_cb s = true -> cbruns s + cnt will_run (threads s) + cnt mid (threads s) + cnt early (threads s) = aborts s) /\
  (valid s = true -> aborts s = cnt early (threads s)) /\
  cnt early (threads s) + cnt mid (threads s) + cnt will_run (threads s) + cbruns s <= aborts s.

Lemma cbinv_step s i : cbinv s -> cbinv (race_step s i).
Proof.
  unfold cbinv, race_step. intros (J1 & J2 & J3 & J4 & J5). destruct (nth_error (threads s) i) as [[k p]|] eqn:E; [|auto].
  assert (C1 := fun x => cnt_set onab_start (threads s) i x (k, p) E).
  assert (C2 := fun x => cnt_set will_run (threads s) i x (k, p) E).
  assert (C3 := fun x => cnt_set early (threads s) i x (k, p) E).
  assert (C4 := fun x => cnt_set mid (threads s) i x (k, p) E).
  destruct s as [t v c l lt rn ab nl th]. unfold thread_step. norm.
  destruct k, p; try (destruct b); try (destruct t); try (destruct v); try (destruct c); norm;
    try (match goal with |- context [set_nth i ?x th] => specialize (C1 x); specialize (C2 x); specialize (C3 x); specialize (C4 x) end); norm;
    cbn [onab_start will_run early mid b2n] in *;
    repeat match goal with H : ?a = ?a -> _ |- _ => specialize (H eq_refl) end;
    repeat split; intros; try discriminate; lia.
Qed.

Lemma cbinv_run ks sched : length (filter (fun k => match k with KOnAborted => true | _ => false end) ks) = 1 ->
  cbinv (race_run ks sched).
Proof.
  intros H. unfold race_run. assert (I : cbinv (race_init ks)).
  { unfold cbinv, race_init. norm. rewrite !cnt_map_init.
    assert (Z : forall f, (forall k, f (k, PStart) = false) -> length (filter (fun k => f (k, PStart)) ks) = 0).
    { intros f Hf. clear H. induction ks as [|k ks IH]; [reflexivity|]. cbn. rewrite Hf. exact IH. }
    rewrite (Z will_run), (Z early), (Z mid) by (intros []; reflexivity).
    erewrite filter_ext; [rewrite H|intros []; reflexivity]. repeat split; intros; (discriminate || reflexivity || lia). }
  revert I. generalize (race_init ks). induction sched as [|i sched IH]; intros s I; [exact I|]. cbn. apply IH. apply cbinv_step. exact I.
Qed.

Theorem race_callback ks sched : length (filter (fun k => match k with KOnAborted => true | _ => false end) ks) = 1 ->
  let s := race_run ks sched in
  runs s <= 1 /\ (Forall (fun x => snd x = PDone) (threads s) -> aborts s = 1 -> runs s = 1).
Proof.
  intros H. cbn zeta. pose proof (cbinv_run ks sched H) as (J1 & J2 & J3 & J4 & J5). pose proof (race_one_final ks sched) as OF.
  revert J1 J2 J3 J4 J5 OF. generalize (race_run ks sched). intros s J1 J2 J3 J4 J5 OF.
  unfold runs. split.
  - destruct (has_cb s); norm; [lia|]. destruct (J2 eq_refl). lia.
  - intros D A.
    assert (Z : forall f, (forall k, f (k, PDone) = false) -> cnt f (threads s) = 0).
    { intros f Hf. unfold cnt. clear - D Hf. induction D as [|[k p] l Hx _ IH]; [reflexivity|]. cbn in Hx. subst p. cbn. rewrite Hf. exact IH. }
    rewrite (Z onab_start), (Z will_run), (Z early), (Z mid) in * by (intros []; reflexivity).
    destruct (has_cb s); norm; [specialize (J3 eq_refl); lia|]. destruct (J2 eq_refl). lia.
Qed.

(** ** What goes wrong *)
Definition last_is_partial (s : race) : bool := match log s with false :: _ => true | _ => false end.

Theorem race_null_two_responders : nullref (race_run [KFinal; KFinal] [0; 1; 0; 1]) = true.
Proof. reflexivity. Qed.
Theorem race_null_abort : nullref (race_run [KFinal; KAbort] [0; 1; 0]) = true.
Proof. reflexivity. Qed.
Theorem race_update_after_final : let s := race_run [KFinal; KPartial] [1; 1; 0; 0; 0; 0; 1] in
  finals s = 1 /\ last_is_partial s = true.
Proof. split; reflexivity. Qed.
