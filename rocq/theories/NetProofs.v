From Verif Require Import SerModel SerSpec SerProofs SerProofs2 SerProofs3 SerProofs4 NetModel IpcModel IpcSpec IpcProofs.
Local Open Scope N_scope.

(** * receiver *)
Lemma recv_body_ok rs : Forall positive rs -> forall mlen got pending,
  len got + len pending = mlen ->
  (length pending <= length rs)%nat ->
  recv_body mlen got pending rs = Delivered (got ++ pending).
Proof.
  intros Hp. induction Hp as [|r rs Hr Hp IH]; intros mlen got pending Hl Hn; cbn [recv_body length] in *.
  - assert (pending = []) by (destruct pending; [reflexivity|cbn in Hn; lia]). subst pending.
    rewrite len_nil in Hl. destruct (N.ltb_spec (len got) mlen); [lia|].
    replace (len got =? mlen) with true by (symmetry; apply N.eqb_eq; lia). rewrite app_nil_r. reflexivity.
  - destruct (N.ltb_spec (len got) mlen).
    + destruct r as [|k]; [contradiction|]. cbn in Hr.
      set (bs := os_read pending mlen k).
      assert (Lb : len bs <= len pending).
      { unfold bs, os_read, len. rewrite firstn_length. lia. }
      assert (Lp : (1 <= length bs)%nat).
      { unfold bs, os_read. rewrite firstn_length. unfold len in *. lia. }
      assert (Eb : pending = bs ++ skipn (length bs) pending).
      { unfold bs, os_read. set (n := N.to_nat (N.min k mlen)). rewrite firstn_length.
        destruct (Nat.le_gt_cases n (length pending)).
        - rewrite Nat.min_l by assumption. symmetry. apply firstn_skipn.
        - rewrite Nat.min_r by lia. rewrite firstn_all2 by lia. rewrite skipn_all, app_nil_r. reflexivity. }
      destruct (N.ltb_spec mlen (len got + len bs)); [lia|].
      rewrite IH.
      * rewrite <- app_assoc, <- Eb. reflexivity.
      * rewrite len_app. rewrite Eb in Hl at 1. rewrite len_app in Hl. lia.
      * rewrite skipn_length. lia.
    + replace (len got =? mlen) with true by (symmetry; apply N.eqb_eq; lia).
      assert (pending = []) by (destruct pending; [reflexivity|rewrite len_cons in Hl; lia]).
      subst. rewrite app_nil_r. reflexivity.
Qed.

(** Without the premise on the number of reads: correct delivery or still waiting, nothing else. *)
Lemma recv_body_safe rs : Forall positive rs -> forall mlen got pending,
  len got + len pending = mlen ->
  recv_body mlen got pending rs = Delivered (got ++ pending) \/ recv_body mlen got pending rs = StillReading.
Proof.
  intros Hp mlen got pending Hl.
  assert (X : forall rs, Forall positive rs -> forall got pending, len got + len pending = mlen ->
    recv_body mlen got pending rs = Delivered (got ++ pending) \/ recv_body mlen got pending rs = StillReading).
  { clear - mlen. intros rs Hp. induction Hp as [|r rs Hr Hp IH]; intros got pending Hl; cbn [recv_body].
    - destruct (N.ltb_spec (len got) mlen); [right; reflexivity|left].
      replace (len got =? mlen) with true by (symmetry; apply N.eqb_eq; lia).
      assert (pending = []) by (destruct pending; [reflexivity|rewrite len_cons in Hl; lia]).
      subst. rewrite app_nil_r. reflexivity.
    - destruct (N.ltb_spec (len got) mlen).
      + destruct r as [|k]; [contradiction|].
        set (bs := os_read pending mlen k).
        assert (Eb : pending = bs ++ skipn (length bs) pending).
        { unfold bs, os_read. set (n := N.to_nat (N.min k mlen)). rewrite firstn_length.
          destruct (Nat.le_gt_cases n (length pending)).
          - rewrite Nat.min_l by assumption. symmetry. apply firstn_skipn.
          - rewrite Nat.min_r by lia. rewrite firstn_all2 by lia. rewrite skipn_all, app_nil_r. reflexivity. }
        assert (Hl2 := Hl). rewrite Eb, len_app in Hl2.
        destruct (N.ltb_spec mlen (len got + len bs)); [lia|].
        destruct (IH (got ++ bs) (skipn (length bs) pending)) as [E|E]; [rewrite len_app; lia| |right; exact E].
        left. rewrite E, <- app_assoc, <- Eb. reflexivity.
      + left. replace (len got =? mlen) with true by (symmetry; apply N.eqb_eq; lia).
        assert (pending = []) by (destruct pending; [reflexivity|rewrite len_cons in Hl; lia]).
        subst. rewrite app_nil_r. reflexivity. }
  apply X; assumption.
Qed.

Lemma firstn_le n (x : list byte) : firstn 4 (le 4 n ++ x) = le 4 n.
Proof.
  pose proof (le_length 4 n) as L. rewrite firstn_app, L, Nat.sub_diag, firstn_O, app_nil_r.
  apply firstn_all2. lia.
Qed.
Lemma skipn_le n (x : list byte) : skipn 4 (le 4 n ++ x) = x.
Proof.
  pose proof (le_length 4 n) as L. rewrite skipn_app, L, Nat.sub_diag. rewrite skipn_all2 by lia. reflexivity.
Qed.

Lemma receive_frame payload k rs : len payload < 2 ^ 32 -> 4 <= k ->
  receive (frame payload) (RGot k) rs = recv_body (len payload) [] payload rs.
Proof.
  intros Hl Hk. unfold receive, frame, os_read. rewrite N.min_r by exact Hk. change (N.to_nat 4) with 4%nat.
  rewrite firstn_le, skipn_le.
  rewrite len_le. change (N.of_nat 4 =? 4) with true. cbn iota. rewrite un_le_le; [reflexivity|].
  change (256 ^ N.of_nat 4) with (2 ^ 32). exact Hl.
Qed.

Lemma receive_lemma payload k rs : len payload < 2 ^ 32 -> 4 <= k -> Forall positive rs ->
  (receive (frame payload) (RGot k) rs = Delivered payload \/ receive (frame payload) (RGot k) rs = StillReading) /\
  ((length payload <= length rs)%nat -> receive (frame payload) (RGot k) rs = Delivered payload).
Proof.
  intros Hl Hk Hp. rewrite receive_frame by assumption. split.
  - apply (recv_body_safe rs Hp (len payload) [] payload). reflexivity.
  - intros Hn. apply (recv_body_ok rs Hp (len payload) [] payload); [reflexivity|exact Hn].
Qed.

Lemma split_length_lemma payload k rs : k < 4 -> receive (frame payload) (RGot k) rs = Dropped.
Proof.
  intros Hk. unfold receive, os_read. 
  assert (L : len (firstn (N.to_nat (N.min k 4)) (frame payload)) < 4).
  { unfold len. rewrite firstn_length. lia. }
  destruct (N.eqb_spec (len (firstn (N.to_nat (N.min k 4)) (frame payload))) 4); [lia|reflexivity].
Qed.

(** No overflow as long as the peer does not send more than it announced (it may send less). *)
Lemma recv_body_no_overflow rs : forall mlen got pending, len got + len pending <= mlen ->
  recv_body mlen got pending rs <> Overflow /\
  (forall p, recv_body mlen got pending rs = Delivered p -> p = got ++ pending /\ len p = mlen).
Proof.
  induction rs as [|r rs IH]; intros mlen got pending Hl; cbn [recv_body].
  - destruct (N.ltb_spec (len got) mlen); [split; discriminate|].
    destruct (N.eqb_spec (len got) mlen); split; try discriminate. intros p E. injection E as <-.
    assert (pending = []) by (destruct pending; [reflexivity|rewrite len_cons in Hl; lia]). subst.
    rewrite app_nil_r. auto.
  - destruct (N.ltb_spec (len got) mlen).
    + destruct r as [|k]; [split; discriminate|]. set (bs := os_read pending mlen k).
      assert (Eb : pending = bs ++ skipn (length bs) pending).
      { unfold bs, os_read. set (n := N.to_nat (N.min k mlen)). rewrite firstn_length.
        destruct (Nat.le_gt_cases n (length pending)).
        - rewrite Nat.min_l by assumption. symmetry. apply firstn_skipn.
        - rewrite Nat.min_r by lia. rewrite firstn_all2 by lia. rewrite skipn_all, app_nil_r. reflexivity. }
      assert (Hl2 := Hl). rewrite Eb, len_app in Hl2.
      destruct (N.ltb_spec mlen (len got + len bs)); [lia|].
      destruct (IH mlen (got ++ bs) (skipn (length bs) pending)) as [A B]; [rewrite len_app; lia|].
      split; [exact A|]. intros p E. destruct (B p E) as [-> L]. rewrite <- app_assoc, <- Eb in *. auto.
    + destruct (N.eqb_spec (len got) mlen); split; try discriminate. intros p E. injection E as <-.
      assert (pending = []) by (destruct pending; [reflexivity|rewrite len_cons in Hl; lia]). subst.
      rewrite app_nil_r. auto.
Qed.

(** The peer closes early: the loop never ends, whatever number of reads is granted. *)
Lemma recv_spins mlen got n : len got < mlen -> recv_body mlen got [] (repeat (RGot 1) n) = StillReading.
Proof.
  intros H. induction n as [|n IH]; cbn [repeat recv_body].
  - destruct (N.ltb_spec (len got) mlen); [reflexivity|lia].
  - destruct (N.ltb_spec (len got) mlen); [|lia]. unfold os_read.
    rewrite firstn_nil. rewrite len_nil. destruct (N.ltb_spec mlen (len got + 0)); [lia|].
    rewrite app_nil_r. cbn [skipn length]. exact IH.
Qed.

Lemma spins_lemma announced sent n : announced < 2 ^ 32 -> len sent < announced ->
  exists rs, (length rs >= n)%nat /\ receive (le 4 announced ++ sent) (RGot 4) rs = StillReading.
Proof.
  intros Ha Hs.
  assert (R : forall rs, receive (le 4 announced ++ sent) (RGot 4) rs = recv_body announced [] sent rs).
  { intros rs. unfold receive, os_read. change (N.to_nat (N.min 4 4)) with 4%nat.
    rewrite firstn_le, skipn_le.
    rewrite len_le. change (N.of_nat 4 =? 4) with true. cbn iota. rewrite un_le_le; [reflexivity|].
    change (256 ^ N.of_nat 4) with (2 ^ 32). exact Ha. }
  exists (RGot announced :: repeat (RGot 1) n). split; [cbn; rewrite repeat_length; lia|].
  rewrite R. cbn [recv_body]. rewrite len_nil. destruct (N.ltb_spec 0 announced); [|lia].
  unfold os_read. rewrite N.min_id. rewrite firstn_all2 by (unfold len in *; lia).
  destruct (N.ltb_spec announced (0 + len sent)); [lia|].
  rewrite skipn_all. cbn [app]. apply recv_spins. exact Hs.
Qed.

(** * sender *)

Lemma slice_skip (payload : list byte) total k :
  slice payload total k ++ skipn (N.to_nat (total + k)) payload = skipn (N.to_nat total) payload.
Proof.
  unfold slice. rewrite N2Nat.inj_add. rewrite <- skipn_skipn'. apply firstn_skipn.
Qed.

Lemma send_body_ok payload ws : Forall no_error ws -> forall total out b,
  len payload < two32 -> total <= len payload ->
  send_body payload (len payload) total ws out = Sent SSuccess b ->
  b = out ++ skipn (N.to_nat total) payload.
Proof.
  intros Hw. induction Hw as [|w ws Hw1 Hw IH]; intros total out b Hl Ht E; cbn [send_body] in E; [discriminate|].
  destruct w as [|k]; [contradiction|].
  set (k' := N.min k (len payload - total)) in *.
  rewrite (N.mod_small (total + k')) in E by lia.
  destruct (N.ltb_spec (total + k') (len payload)).
  - apply IH in E; [|exact Hl|lia]. rewrite E, <- app_assoc. f_equal. apply slice_skip.
  - injection E as <-. f_equal.
    rewrite <- (slice_skip payload total k'). 
    rewrite (skipn_all2 (n := N.to_nat (total + k'))) by (unfold len in *; lia). rewrite app_nil_r. reflexivity.
Qed.

Lemma send_complete_lemma conn payload w0 ws b : len payload < 2 ^ 32 -> Forall no_error ws ->
  send conn payload w0 ws = Sent SSuccess b -> b = frame payload.
Proof.
  intros Hl Hw E. unfold send in E. destruct conn; [|discriminate].
  rewrite N.mod_small in E by exact Hl. destruct w0 as [|k]; [discriminate|].
  destruct (N.eqb_spec k 4); [|discriminate].
  apply send_body_ok in E; [|exact Hw|exact Hl|lia]. exact E.
Qed.

(** What reaches the OS is always a prefix of the frame. *)
Lemma send_body_prefix payload ws : forall total out,
  len payload < two32 -> total <= len payload ->
  match send_body payload (len payload) total ws out with
  | Sent _ b | StillSending b => exists m, b ++ m = out ++ skipn (N.to_nat total) payload
  end.
Proof.
  induction ws as [|w ws IH]; intros total out Hl Ht; cbn [send_body].
  - eauto.
  - destruct w as [|k]; [eauto|]. set (k' := N.min k (len payload - total)) in *.
    rewrite (N.mod_small (total + k')) by lia.
    destruct (N.ltb_spec (total + k') (len payload)).
    + specialize (IH (total + k') (out ++ slice payload total k') Hl ltac:(lia)).
      destruct (send_body _ _ _ _ _) as [st b|b]; destruct IH as [m E]; exists m; rewrite E, <- app_assoc;
        f_equal; apply slice_skip.
    + exists (skipn (N.to_nat (total + k')) payload). rewrite <- app_assoc. f_equal. apply slice_skip.
Qed.

Lemma send_prefix_lemma conn payload w0 ws : len payload < 2 ^ 32 ->
  match send conn payload w0 ws with
  | Sent _ b | StillSending b => exists m, b ++ m = frame payload
  end.
Proof.
  intros Hl. unfold send. destruct conn; [|exists (frame payload); reflexivity].
  rewrite N.mod_small by exact Hl. destruct w0 as [|k]; [exists (frame payload); reflexivity|].
  destruct (N.eqb_spec k 4).
  - apply (send_body_prefix payload ws 0 (le 4 (len payload))); [exact Hl|lia].
  - exists (skipn (N.to_nat k) (le 4 (len payload)) ++ payload). unfold frame. rewrite app_assoc, firstn_skipn. reflexivity.
Qed.

(** Sending terminates when every write makes progress. *)
Lemma send_progress payload ws : Forall (fun w => match w with WErr => True | WTook k => 0 < k end) ws ->
  forall total out, len payload < two32 -> total <= len payload ->
  (length (skipn (N.to_nat total) payload) < length ws)%nat ->
  exists b, send_body payload (len payload) total ws out = Sent SSuccess b.
Proof.
  intros Hw. induction Hw as [|w ws Hw1 Hw IH]; intros total out Hl Ht Hn; cbn [send_body length] in *; [lia|].
  destruct w as [|k]; [eauto|]. set (k' := N.min k (len payload - total)) in *.
  rewrite (N.mod_small (total + k')) by lia.
  destruct (N.ltb_spec (total + k') (len payload)); [|eauto].
  apply IH; [exact Hl|lia|]. rewrite skipn_length in *. unfold len in *. lia.
Qed.

Lemma send_error_lemma payload k ws : 0 < len payload < 2 ^ 32 -> k < len payload ->
  exists b, send true payload (WTook 4) (WTook k :: WErr :: ws) = Sent SSuccess b /\ len b < len (frame payload).
Proof.
  intros [H0 Hl] Hk. unfold send. rewrite N.mod_small by exact Hl. cbn [N.eqb send_body].
  change (4 =? 4) with true. cbn iota. rewrite N.sub_0_r, (N.min_l k) by lia. rewrite N.add_0_l.
  rewrite (N.mod_small k) by (unfold two32; lia). destruct (N.ltb_spec k (len payload)); [|lia].
  eexists. split; [reflexivity|]. unfold frame. rewrite !len_app.
  assert (L : len (slice payload 0 k) <= k) by (unfold slice, len; rewrite firstn_length; lia). lia.
Qed.

(** Payloads of 2^32 bytes or more: the length wraps, the tail is silently not sent. *)
Lemma send_oversize_lemma payload : len payload = 2 ^ 32 + 1 ->
  exists b, send true payload (WTook 4) [WTook 1] = Sent SSuccess b /\ len b = 5.
Proof.
  intros Hl. unfold send. rewrite Hl. change ((2 ^ 32 + 1) mod two32) with 1. cbn [send_body].
  change (4 =? 4) with true. change (N.min 1 (1 - 0)) with 1. change ((0 + 1) mod two32 <? 1) with false. cbn iota.
  eexists. split; [reflexivity|]. rewrite len_app, len_le. unfold slice, len. rewrite skipn_O, firstn_length.
  change (N.to_nat 1) with 1%nat. destruct payload as [|x payload]; [discriminate|]. cbn [length Nat.min]. reflexivity.
Qed.

(** * codec + sender + receiver *)
Lemma transport_lemma h t c b w0 ws sent k rs :
  header_ok h = true -> readable t = true -> fits (TPtr true t) c = true ->
  to_bytes (Msg h (POut t c)) = Some b -> len b < 2 ^ 32 ->
  Forall no_error ws -> send true b w0 ws = Sent SSuccess sent ->
  4 <= k -> Forall positive rs -> (length b <= length rs)%nat ->
  exists b' s, receive sent (RGot k) rs = Delivered b' /\ from_bytes b' = Some (Msg h (PIn s)) /\
            translate t (Some s) = (TSuccess, c).
Proof.
  intros Hh Hr Hf E Hl Hw Es Hk Hp Hn. apply send_complete_lemma in Es; [|exact Hl|exact Hw]. subst sent.
  exists b. destruct (receive_lemma b k rs Hl Hk Hp) as [_ R].
  destruct (data_roundtrip h t c b Hh Hr Hf E) as (s & F & T & _); [eapply N.lt_trans; [exact Hl|reflexivity]|].
  exists s. rewrite R by exact Hn. auto.
Qed.

(** * socket names *)
Lemma c_str_id s : ~ In 0 s -> c_str s = s.
Proof.
  induction s as [|c s IH]; intros H; cbn [c_str]; [reflexivity|].
  destruct (N.eqb_spec c 0); [subst; exfalso; apply H; left; reflexivity|].
  rewrite IH; [reflexivity|]. intros I. apply H. right. exact I.
Qed.

Lemma c_str_pad n a m b : c_str (a ++ repeat 0 n) = c_str (b ++ repeat 0 m) -> ~ In 0 a -> ~ In 0 b -> a = b.
Proof.
  assert (P : forall a n, ~ In 0 a -> c_str (a ++ repeat 0 n) = a).
  { clear. induction a as [|x a IH]; intros n H; cbn [app c_str].
    - destruct n; reflexivity.
    - destruct (N.eqb_spec x 0); [subst; exfalso; apply H; left; reflexivity|].
      rewrite IH; [reflexivity|]. intros I. apply H. right. exact I. }
  intros E Ha Hb. rewrite !P in E by assumption. exact E.
Qed.

Lemma c_str_no0 s : ~ In 0 (c_str s).
Proof.
  induction s as [|c s IH]; cbn [c_str]; [auto|]. destruct (N.eqb_spec c 0); [auto|].
  intros [E|E]; [congruence|auto].
Qed.

Lemma sun_path_lemma n1 p1 n2 p2 a1 a2 : sun_path n1 p1 = Some a1 -> sun_path n2 p2 = Some a2 ->
  (a1 = a2 <-> c_str n1 = c_str n2) /\ (~ In 0 n1 -> ~ In 0 n2 -> (a1 = a2 <-> n1 = n2)).
Proof.
  unfold sun_path. intros E1 E2. destruct (len n1 <? 108); [|discriminate]. destruct (len n2 <? 108); [|discriminate].
  injection E1 as <-. injection E2 as <-.
  assert (K : 0 :: c_str n1 ++ repeat 0 (108 - length (0 :: c_str n1)) =
              0 :: c_str n2 ++ repeat 0 (108 - length (0 :: c_str n2)) <-> c_str n1 = c_str n2).
  { split.
    - intros E. injection E as E. eapply c_str_pad; [rewrite E; reflexivity|apply c_str_no0|apply c_str_no0].
    - intros ->. reflexivity. }
  split; [exact K|]. intros H1 H2. rewrite <- (c_str_id n1 H1) at 3. rewrite <- (c_str_id n2 H2) at 3. exact K.
Qed.

Lemma no_overflow_lemma announced sent rs k : announced < 2 ^ 32 -> len sent <= announced ->
  receive (le 4 announced ++ sent) (RGot k) rs <> Overflow /\
  (forall p, receive (le 4 announced ++ sent) (RGot k) rs = Delivered p -> p = sent /\ len p = announced).
Proof.
  intros Ha Hs. unfold receive, os_read.
  destruct (N.le_gt_cases 4 k) as [Hk|Hk].
  - rewrite N.min_r by exact Hk. change (N.to_nat 4) with 4%nat. rewrite firstn_le, skipn_le.
    rewrite len_le. change (N.of_nat 4 =? 4) with true. cbn iota.
    rewrite un_le_le by (change (256 ^ N.of_nat 4) with (2 ^ 32); exact Ha).
    apply (recv_body_no_overflow rs announced [] sent). rewrite len_nil. lia.
  - assert (L : len (firstn (N.to_nat (N.min k 4)) (le 4 announced ++ sent)) < 4).
    { unfold len. rewrite firstn_length. lia. }
    destruct (N.eqb_spec (len (firstn (N.to_nat (N.min k 4)) (le 4 announced ++ sent))) 4); [lia|].
    split; discriminate.
Qed.

Lemma len_repeat {A} (x : A) n : len (repeat x (N.to_nat n)) = n.
Proof. unfold len. rewrite repeat_length. apply N2Nat.id. Qed.
