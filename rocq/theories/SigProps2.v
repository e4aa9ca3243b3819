(** Property C102: what each call on a signal does. *)
From Verif Require Import SigModel SigSpec SigProofs SigProofs2 SigProofs3 SigProofs4 SigProofs5 SigProofs6 SigProofs7 SigProofs8 SigProofs9 SigProofs10 SigProps ObsProofs.

(** connect() of a multi-slot signal always succeeds, also from inside a slot; the slot joins at the end of the list, and the Connection is a new one.
    (For single-slot signals see C52.) *)
Theorem C102_connect h t k : may_call Multi h t -> signal_alive Multi h -> (forall o, k = CTracked o -> ~ In (EKilled o) (trace Multi h)) ->
  exists c s n, trace Multi (h ++ [(t, AConnect k)]) = trace Multi h ++ [EJoin s; ERet t (AConnect k) (RCon c s true)] /\
    live (trace Multi (h ++ [(t, AConnect k)])) = live (trace Multi h) ++ [(n, s)] /\ ~ In s (slots (live (trace Multi h))) /\ forall s', ~ made_for Multi h c s'.
Proof.
  intros MC A D. destruct (eff_connect h t k MC A D) as (c & s & E & F & N). exists c, s. eexists. split; [exact E|]. split; [|split; [exact F|exact N]].
  rewrite E. unfold live at 1. rewrite fold_left_app. cbn [fold_left account fst snd]. reflexivity.
Qed.
Print Assumptions C102_connect.

(** connect(SlotPtr) adds the slot, even if it is connected already; disconnect(SlotPtr) removes one connection of it and says whether there was one. *)
Theorem C102_connect_ptr h t s : may_call Multi h t -> signal_alive Multi h -> holds Multi h s ->
  exists c, trace Multi (h ++ [(t, AConnectPtr s)]) = trace Multi h ++ [EJoin s; ERet t (AConnectPtr s) (RCon c s true)].
Proof. exact (eff_connect_ptr h t s). Qed.
Print Assumptions C102_connect_ptr.
Theorem C102_disconnect_ptr m h t s : may_call m h t -> signal_alive m h -> holds m h s ->
  (In s (slots (live (trace m h))) -> exists f, trace m (h ++ [(t, ADisconnectPtr s)]) = trace m h ++ [ELeave s; ERet t (ADisconnectPtr s) (RBool true)] ++ f /\ (f = [] \/ exists s' e, f = [EFreed s'] /\ running m h t e s' )) /\
  (~ In s (slots (live (trace m h))) -> trace m (h ++ [(t, ADisconnectPtr s)]) = trace m h ++ [ERet t (ADisconnectPtr s) (RBool false)]).
Proof. exact (eff_disconnect_ptr m h t s). Qed.
Print Assumptions C102_disconnect_ptr.

(** disconnect() without argument disconnects everybody. *)
Theorem C102_disconnect_all m h t : may_call m h t -> signal_alive m h -> ~ emitting m h ->
  trace m (h ++ [(t, AClear)]) = trace m h ++ [EClear] /\ live (trace m (h ++ [(t, AClear)])) = [].
Proof. intros MC A N. pose proof (eff_clear m h t MC A N) as E. split; [exact E|]. rewrite E. unfold live. rewrite fold_left_app. reflexivity. Qed.
Print Assumptions C102_disconnect_all.

(** Calling the signal begins an emission with a number never used before; it is over at once only if nobody is connected. *)
Theorem C102_emit m h t v : may_call m h t -> signal_alive m h -> ~ emitting m h -> (forall t', ~ In (t', AThrow) h) ->
  exists e, (forall t' v', ~ In (EEmit t' e v') (trace m h)) /\
    (trace m (h ++ [(t, AEmit v)]) = trace m h ++ [EEmit t e v; EEnd t e] /\ live (trace m h) = [] \/
     trace m (h ++ [(t, AEmit v)]) = trace m h ++ [EEmit t e v] /\ between m (h ++ [(t, AEmit v)]) t e).
Proof.
  intros MC A N TH. destruct MC as [FR CR]. exists (emno (final m h)). split; [intros t' v' X; apply (n_emit _ (NI_final m h)) in X; lia|].
  destruct (sig_emit m h t v (not_crashed m h CR) (follows_final m h TH) (alive_hub m h A) FR) as [Y|[Y|[Y|Y]]].
  - destruct Y as (_ & E2 & Y & _). left. split; [exact Y|]. rewrite live_entries. destruct (entries (final m h)) as [|x l] eqn:EN; [reflexivity|]. exfalso.
    revert Y. rewrite final_snoc. unfold next. rewrite (not_crashed m h CR). cbn [fst snd]. unfold act. rewrite FR. unfold call. rewrite (alive_hub m h A), EN.
    destruct (watch_cases (final m h) (if notif (final m h) then crash (final m h) else emit (with_emno (with_em (final m h) true (Some (Em t (emno (final m h)) v 0 None))) (S (emno (final m h)))) [EEmit t (emno (final m h)) v])) as [->|[s ->]];
      destruct (notif (final m h)); cbn; rewrite <- ?app_assoc; intros Y; apply app_inv_head in Y; discriminate.
  - destruct Y as (_ & E2 & Y & _). right. split; [exact Y|]. eexists. split; [exact E2|]. cbn. auto.
  - destruct Y as (Y & _). contradiction.
  - destruct Y as (x & Y & _). exfalso. apply N. unfold emitting. rewrite Y. discriminate.
Qed.
Print Assumptions C102_emit.

(** No emission begins twice or ends twice, and none calls anybody after its end or before its beginning. *)
Theorem C102_emission_once m h a t e b v : trace m h = a ++ EEmit t e v :: b -> (forall t' v', ~ In (EEmit t' e v') a) /\ forall t' k s v', ~ In (ECall t' e k s v') a.
Proof. intros E. exact (n_good _ (NI_final m h) _ _ _ E). Qed.
Print Assumptions C102_emission_once.
Theorem C102_nothing_after_the_end m h a t e b : trace m h = a ++ EEnd t e :: b -> (forall t', ~ In (EEnd t' e) b) /\ forall t' k s v, ~ In (ECall t' e k s v) b.
Proof.
  intros E. split.
  - intros t' X. apply in_split in X as (b1 & b2 & ->). change (a ++ EEnd t e :: b1 ++ EEnd t' e :: b2) with (a ++ (EEnd t e :: b1) ++ EEnd t' e :: b2) in E. rewrite app_assoc in E.
    apply (n_good _ (NI_final m h)) in E. apply (E t). apply in_or_app. right. left. reflexivity.
  - intros t' k s v X. apply in_split in X as (b1 & b2 & ->). change (a ++ EEnd t e :: b1 ++ ECall t' e k s v :: b2) with (a ++ (EEnd t e :: b1) ++ ECall t' e k s v :: b2) in E. rewrite app_assoc in E.
    apply (n_good _ (NI_final m h)) in E. apply (E t). apply in_or_app. right. left. reflexivity.
Qed.
Print Assumptions C102_nothing_after_the_end.

Definition h102 : history := [(0, AMakePtr); (0, AConnectPtr 0); (0, AConnectPtr 0); (0, AConnect CAware); (1, AEmit 7); (1, AStep); (1, ADisconnectPtr 0); (1, AConnect CPlain); (1, AReturn); (1, AStep); (1, AReturn); (1, AStep); (1, AReturn); (1, AStep); (1, AReturn); (1, AStep)].
Example C102_applies : may_call Multi h102 2 /\ signal_alive Multi h102 /\ holds Multi h102 0 /\ ~ emitting Multi h102 /\ live (trace Multi h102) = [(1, 0); (2, 1); (3, 2)] /\
  filter (fun e => match e with ECall _ _ _ _ _ | EEmit _ _ _ | EEnd _ _ => true | _ => false end) (trace Multi h102) = [EEmit 1 0 7; ECall 1 0 0 0 7; ECall 1 0 1 0 7; ECall 1 0 2 1 7; ECall 1 0 3 2 7; EEnd 1 0] /\
  trace Multi (h102 ++ [(2, AEmit 8)]) = trace Multi h102 ++ [EEmit 2 1 8] /\
  trace Multi (h102 ++ [(2, ADisconnectPtr 0)]) = trace Multi h102 ++ [ELeave 0; ERet 2 (ADisconnectPtr 0) (RBool true)].
Proof.
  split; [split; [vm_compute; reflexivity|decide_in]|]. split; [decide_in|]. split; [split; [exists 0; intr|]|].
  - intros t X. revert X. decide_in.
  - split; [intros X; apply X; vm_compute; reflexivity|]. do 3 (split; [vm_compute; reflexivity|]). vm_compute; reflexivity.
Qed.
