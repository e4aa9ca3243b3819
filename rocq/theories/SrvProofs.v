(** Server: the steps as a relation; basic facts. *)
From Verif Require Import ListUtil SrvModel SrvSpec.

Inductive step (s : state) : state -> Prop :=
  | S_call c q : start_pc s c = Some q ->
      step s (St (objs s) (provs s) (addrs s) (plock s) (alock s) (ths s ++ [Th q [] []]) (tr s ++ [ECall (length (ths s)) c]))
  | S_get_old t th sid o : nth_error (ths s) t = Some th -> at_ th = QGet sid -> plock s = None -> get sid (provs s) = Some o ->
      step s (ret (say s [EGot t sid o]) t th true)
  | S_get_new t th sid : nth_error (ths s) t = Some th -> at_ th = QGet sid -> plock s = None -> get sid (provs s) = None ->
      step s (ret (say (set_provs (set_objs s (objs s ++ [Prov sid Unavailable])) (put sid (length (objs s)) (provs s)))
                       [EGot t sid (length (objs s))]) t th true)
  | S_has t th sid : nth_error (ths s) t = Some th -> at_ th = QHas sid -> plock s = None ->
      step s (ret s t th (match get sid (provs s) with Some _ => true | None => false end))
  | S_set t th o av p : nth_error (ths s) t = Some th -> at_ th = QSet o av -> nth_error (objs s) o = Some p ->
      step s (goto (set_objs s (set_nth o (Prov (p_sid p) av) (objs s))) t th (QCheck (p_sid p) av))
  | S_check t th sid av o : nth_error (ths s) t = Some th -> at_ th = QCheck sid av -> plock s = None -> get sid (provs s) = Some o ->
      step s (goto s t th (QNotify sid av))
  | S_check_none t th sid av : nth_error (ths s) t = Some th -> at_ th = QCheck sid av -> plock s = None -> get sid (provs s) = None ->
      step s (served s t th)
  | S_notify t th sid av : nth_error (ths s) t = Some th -> at_ th = QNotify sid av -> alock s = None ->
      step s (goto (set_alock s (Some t)) t th (QLoop sid av (addrs s)))
  | S_loop_end t th sid av : nth_error (ths s) t = Some th -> at_ th = QLoop sid av [] ->
      step s (served (set_alock s None) t th)
  | S_loop t th sid av a l r : nth_error (ths s) t = Some th -> at_ th = QLoop sid av (a :: l) ->
      step s (say (goto (if gone r then set_addrs s (set_del a (addrs s)) else s) t th (QLoop sid av l)) [ESend a sid av r])
  | S_reg t th a : nth_error (ths s) t = Some th -> at_ th = QRegIns a -> alock s = None ->
      step s (goto (set_addrs s (set_add a (addrs s))) t th (QRegLock a))
  | S_reglock t th a : nth_error (ths s) t = Some th -> at_ th = QRegLock a -> plock s = None ->
      step s (goto (set_plock s (Some t)) t th (QRegLoop a (provs s)))
  | S_regend t th a : nth_error (ths s) t = Some th -> at_ th = QRegLoop a [] ->
      step s (ret (set_plock s None) t th true)
  | S_regyes t th a sid o l : nth_error (ths s) t = Some th -> at_ th = QRegLoop a ((sid, o) :: l) -> av_of s o = Available ->
      step s (goto s t th (QRegSend a sid l))
  | S_regno t th a sid o l : nth_error (ths s) t = Some th -> at_ th = QRegLoop a ((sid, o) :: l) -> av_of s o <> Available ->
      step s (goto s t th (QRegLoop a l))
  | S_regsend t th a sid l r : nth_error (ths s) t = Some th -> at_ th = QRegSend a sid l ->
      step s (say (goto s t th (QRegLoop a l)) [ESend a sid Available r])
  | S_un t th m : nth_error (ths s) t = Some th -> at_ th = QUnErase m -> alock s = None ->
      step s (goto (set_addrs s (set_del (s_src m) (addrs s))) t th (QUnLock m))
  | S_unlock t th m : nth_error (ths s) t = Some th -> at_ th = QUnLock m -> plock s = None ->
      step s (goto (set_plock s (Some t)) t th (QUnLoop m (provs s)))
  | S_unend t th m : nth_error (ths s) t = Some th -> at_ th = QUnLoop m [] ->
      step s (ret (set_plock s None) t th true)
  | S_unloop t th m sid o l : nth_error (ths s) t = Some th -> at_ th = QUnLoop m ((sid, o) :: l) ->
      step s (say (goto s t th (QUnLoop m l)) [EDisp t o (SMsg (Some sid) (s_code m) (s_src m))])
  | S_find t th m o : nth_error (ths s) t = Some th -> at_ th = QFind m -> plock s = None -> find s m = Some o ->
      step s (goto s t th (QDisp o m))
  | S_find_none t th m : nth_error (ths s) t = Some th -> at_ th = QFind m -> plock s = None -> find s m = None ->
      step s (ret s t th false)
  | S_disp t th o m ok : nth_error (ths s) t = Some th -> at_ th = QDisp o m ->
      step s (ret (say s [EDisp t o m]) t th ok)
  | S_move_none t th : nth_error (ths s) t = Some th -> at_ th = QMove -> plock s = None -> provs s = [] ->
      step s (ret s t th true)
  | S_move t th o l : nth_error (ths s) t = Some th -> at_ th = QMove -> plock s = None -> map snd (provs s) = o :: l ->
      step s (set_th (set_provs s []) t (Th (QSet o Unavailable) l (o :: l)))
  | S_free_end t th : nth_error (ths s) t = Some th -> at_ th = QFree [] -> step s (ret s t th true)
  | S_free t th o l : nth_error (ths s) t = Some th -> at_ th = QFree (o :: l) ->
      step s (say (goto s t th (QFree l)) [EFree o]).

Lemma run_step s t r ok : run s t r ok = s \/ step s (run s t r ok).
Proof.
  unfold run. destruct (nth_error (ths s) t) as [th|] eqn:N; [|auto].
  destruct (at_ th) as [| | | | |? ? [|]| | |? [|[]]| | | |? [|[]]| | | |[|]|] eqn:P; auto;
    try (right; econstructor; eassumption);
    try match goal with |- context [match plock s with _ => _ end] => destruct (plock s) eqn:?; [auto|] end;
    try match goal with |- context [match alock s with _ => _ end] => destruct (alock s) eqn:?; [auto|] end;
    try (right; econstructor; eassumption).
  - right. destruct (get sid (provs s)) eqn:G; [eapply S_get_old|eapply S_get_new]; eassumption.
  - destruct (nth_error (objs s) o) eqn:O; [right; eapply S_set; eassumption|auto].
  - right. destruct (get sid (provs s)) eqn:G; [eapply S_check|eapply S_check_none]; eassumption.
  - right. destruct (av_of s n0) eqn:A; cbn; [eapply S_regno|eapply S_regyes|eapply S_regno]; try eassumption; rewrite A; discriminate.
  - right. destruct (find s m) eqn:F; [eapply S_find|eapply S_find_none]; eassumption.
  - right. cbv zeta. destruct (map snd (provs s)) eqn:M; [eapply S_move_none|eapply S_move]; try eassumption.
    destruct (provs s); [reflexivity|discriminate].
Qed.

Lemma next_step s l : next s l = s \/ step s (next s l).
Proof.
  destruct l as [c|t r ok]; cbn; [|apply run_step].
  destruct (start_pc s c) as [q|] eqn:E; [right|auto]. unfold say. cbn. apply S_call. exact E.
Qed.

Lemma final_snoc h l : final (h ++ [l]) = next (final h) l.
Proof. unfold final. rewrite fold_left_app. reflexivity. Qed.

(** Induction over reachable states. *)
Lemma state_ind (P : state -> Prop) : P init -> (forall s s', P s -> step s s' -> P s') -> forall h, P (final h).
Proof.
  intros P0 PS h. induction h as [|l h IH] using rev_ind; [exact P0|].
  rewrite final_snoc. destruct (next_step (final h) l) as [->|S]; [exact IH|eapply PS; eassumption].
Qed.

Ltac unf := unfold ret, served, say, goto, set_th, set_objs, set_provs, set_addrs, set_plock, set_alock in *.

Lemma step_tr s s' : step s s' -> exists k, tr s' = tr s ++ k.
Proof.
  intros S. destruct S; unf; cbn;
    try (eexists; rewrite <- ?app_assoc; reflexivity);
    try (exists []; rewrite app_nil_r; reflexivity);
    try (destruct (gone r); cbn; eexists; reflexivity);
    (destruct (rest th); [destruct (fin th)|]); cbn;
    first [exists []; rewrite app_nil_r; reflexivity | eexists; reflexivity].
Qed.
