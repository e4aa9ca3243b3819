From Verif Require Import SerModel SerSpec SerProofs SerProofs2 SerProofs3 SerProofs4 IpcModel IpcSpec.
Local Open Scope N_scope.

Lemma dsr_ok {R} t old s v rest (k : interp t -> istream -> option R) :
  readable t = true -> fits t v = true -> merged t old v = v -> unread s (enc t v ++ rest) ->
  exists s', dsr t old s k = k v s' /\ unread s' rest.
Proof.
  intros Hr Hf Hm U. destruct (reads_back_ok t Hr v old s rest Hf U) as (s' & E & U' & _).
  exists s'. unfold dsr. rewrite E, Hm. auto.
Qed.

Lemma dsr_short {R} t old s v p q (k : interp t -> istream -> option R) :
  readable t = true -> fits t v = true -> unread s p -> p ++ q = enc t v -> q <> [] -> len (p ++ q) < 2 ^ 63 ->
  (forall v' s', dead s' -> k v' s' = None) -> dsr t old s k = None.
Proof.
  intros Hr Hf U E Hq Hl Hk. unfold dsr. destruct (de t old s) as [[ok w] s'] eqn:D.
  rewrite E in Hl.
  pose proof (proj1 starves_all t Hr v old s p q ok w s' Hf E Hq Hl U D) as Hd.
  destruct ok; [apply Hk; exact Hd | reflexivity].
Qed.

Lemma dsr_dead {R} t old s (k : interp t -> istream -> option R) : dead s ->
  (forall v' s', dead s' -> k v' s' = None) -> dsr t old s k = None.
Proof.
  intros D Hk. unfold dsr. destruct (de t old s) as [[ok w] s'] eqn:E.
  pose proof (de_dead _ _ _ _ _ _ D E). destruct ok; [apply Hk; assumption | reflexivity].
Qed.

Lemma dsr_num_dead {R} w sg old s (k : interp (TNum w sg) -> istream -> option R) : dead s ->
  dsr (TNum w sg) old s k = None.
Proof.
  intros D. unfold dsr. cbn [de]. unfold de_num. destruct (read s (N.of_nat w)) as [s' r] eqn:E.
  destruct (read_dead _ _ _ _ D E) as [[_ F] _]. rewrite F. reflexivity.
Qed.

Lemma dsr_str_dead {R} w old s (k : interp (TStr w) -> istream -> option R) : dead s ->
  dsr (TStr w) old s k = None.
Proof.
  intros D. unfold dsr. cbn [de]. unfold de_str. destruct (de_size s) as [[ok n] s1] eqn:E.
  destruct (de_size_dead _ _ _ _ D E) as [D1 ->]. destruct D1 as [_ F]. rewrite F. reflexivity.
Qed.

Definition header_enc (h : header) (pt : N) : list byte := enc header_ty (header_val h pt).

Lemma header_enc_eq h pt :
  header_enc h pt = enc (TStr 1) (h_sid h) ++ enc (TStr 1) (h_op h) ++ enc (TNum 1 true) (Num (h_code h)) ++
     enc (TNum 8 false) (Num (h_req h)) ++ enc addr_ty (h_name h, (Num (h_port h), tt)) ++ enc (TNum 1 true) (Num pt).
Proof.
  unfold header_enc, header_ty, header_val, addr_ty. cbn [enc encs fst snd]. rewrite !app_nil_r. reflexivity.
Qed.

Definition tail_enc (p : payload) : list byte :=
  match p with
  | PError d c => enc (TStr 1) d ++ enc (TNum 1 true) (Num c)
  | POut t c => enc (TPtr true t) c
  | _ => []
  end.

Lemma to_bytes_enc m b : to_bytes m = Some b ->
  b = header_enc (m_hdr m) (payload_type (m_payload m)) ++ tail_enc (m_payload m).
Proof.
  unfold to_bytes. change ostream_new with (at_end []). rewrite ser_enc. destruct (m_payload m) as [|d c|t c|s]; intros E.
  - injection E as <-. cbn [odata at_end tail_enc app]. rewrite app_nil_r. reflexivity.
  - rewrite !ser_enc in E. injection E as <-. cbn [odata at_end tail_enc app]. rewrite app_assoc. reflexivity.
  - rewrite ser_enc in E. injection E as <-. reflexivity.
  - discriminate.
Qed.

(** fromBytes after the header, in continuation form. *)
Definition after (h : header) (pt : N) (s : istream) : option ipcmsg :=
  if pt =? 2 then
    dsr (TStr 1) [] s (fun d s => dsr (TNum 1 true) (Num 9) s (fun c _ => Some (Msg h (PError d (num_val c)))))
  else Some (Msg h (PIn s)).

Lemma str_fits s : str_ok s = true -> fits (TStr 1) s = true.
Proof. exact (fun H => H). Qed.

Ltac hdr_facts H :=
  unfold header_ok in H; do 5 (apply andb_true_iff in H as [H ?]).

Lemma merged_str s : merged (TStr 1) [] s = s.
Proof. cbn [merged]. destruct s; reflexivity. Qed.

Ltac step1 v U U' :=
  lazymatch goal with |- context [@dsr ?R ?t ?o ?s ?k] =>
    let s1 := fresh "s" in let E := fresh "E" in
    lazymatch type of U with unread _ (_ ++ ?r) =>
    destruct (fun a b c => @dsr_ok R t o s v r k a b c U) as (s1 & E & U');
    [reflexivity | try assumption | try apply merged_str; try reflexivity | rewrite E; clear E] end
  end.

Lemma addr_fits h : str_ok (h_name h) = true -> (h_port h <? 2 ^ 16) = true ->
  fits addr_ty (h_name h, (Num (h_port h), tt)) = true.
Proof.
  intros. unfold addr_ty. cbn [fits fits_all fst snd]. rewrite andb_true_r. apply andb_true_iff.
  split; [apply str_fits; assumption|assumption].
Qed.
Lemma addr_merged h : merged addr_ty ([], (Num 65535, tt)) (h_name h, (Num (h_port h), tt)) = (h_name h, (Num (h_port h), tt)).
Proof. cbn [merged merged_all addr_ty fst snd]. destruct (h_name h); reflexivity. Qed.

Lemma from_header h pt b rest : header_ok h = true -> pt < 256 -> unread (istream_of b) (header_enc h pt ++ rest) ->
  exists s, from_bytes b = after h pt s /\ unread s rest.
Proof.
  intros H Hp U. hdr_facts H. rewrite header_enc_eq, <- !app_assoc in U. unfold from_bytes.
  step1 (h_sid h) U U1. step1 (h_op h) U1 U2. step1 (Num (h_code h)) U2 U3. step1 (Num (h_req h)) U3 U4.
  step1 (h_name h, (Num (h_port h), tt)) U4 U5; [apply addr_fits; assumption | apply addr_merged |].
  step1 (Num pt) U5 U6; [apply N.ltb_lt; exact Hp|].
  eexists. split; [|exact U6]. unfold after. cbn [num_val fst snd]. destruct h; reflexivity.
Qed.

Lemma unread_to_bytes b : len b < 2 ^ 63 -> unread (istream_of b) b.
Proof. exact (unread_istream_of b). Qed.

Lemma header_bytes_len h pt : len (header_enc h pt) >= 1.
Proof.
  rewrite header_enc_eq, !len_app. cbn [enc]. unfold count4. rewrite !len_app, len_le. lia.
Qed.

Lemma error_roundtrip h d c b : header_ok h = true -> str_ok d = true -> c < 256 ->
  to_bytes (Msg h (PError d c)) = Some b -> len b < 2 ^ 63 ->
  from_bytes b = Some (Msg h (PError d c)).
Proof.
  intros Hh Hd Hc E Hl. pose proof (to_bytes_enc _ _ E) as B. cbn [m_hdr m_payload payload_type tail_enc] in B.
  pose proof (unread_to_bytes _ Hl) as U. rewrite B in U at 2.
  destruct (from_header h 2 b _ Hh ltac:(reflexivity) U) as (s & -> & Us).
  unfold after. change (2 =? 2) with true. cbn iota.
  rewrite <- (app_nil_r (enc (TNum 1 true) _)) in Us.
  step1 d Us U1. step1 (Num c) U1 U2; [apply N.ltb_lt; exact Hc|]. reflexivity.
Qed.

Lemma data_roundtrip h t c b : header_ok h = true -> readable t = true -> fits (TPtr true t) c = true ->
  to_bytes (Msg h (POut t c)) = Some b -> len b < 2 ^ 63 ->
  exists s, from_bytes b = Some (Msg h (PIn s)) /\ translate t (Some s) = (TSuccess, c) /\ unread s (enc (TPtr true t) c).
Proof.
  intros Hh Hr Hf E Hl. pose proof (to_bytes_enc _ _ E) as B. cbn [m_hdr m_payload payload_type tail_enc] in B.
  pose proof (unread_to_bytes _ Hl) as U. rewrite B in U at 2.
  destruct (from_header h 1 b _ Hh ltac:(reflexivity) U) as (s & -> & Us).
  exists s. split; [reflexivity|]. split; [|exact Us].
  assert (U2 : unread s (enc (TPtr true t) c ++ [])) by (rewrite app_nil_r; exact Us).
  destruct (reads_back_ok (TPtr true t) Hr c None s [] Hf U2) as (s' & E' & U' & _).
  unfold translate. rewrite E'. destruct U' as (_ & F & _). rewrite F. reflexivity.
Qed.

Lemma null_arrives h b : header_ok h = true -> to_bytes (Msg h PNull) = Some b -> len b < 2 ^ 63 ->
  exists s, from_bytes b = Some (Msg h (PIn s)) /\ unread s [] /\
            forall t, translate t (Some s) = (TSourceCorrupted, None).
Proof.
  intros Hh E Hl. pose proof (to_bytes_enc _ _ E) as B. cbn [m_hdr m_payload payload_type tail_enc] in B.
  pose proof (unread_to_bytes _ Hl) as U. rewrite B in U at 2.
  destruct (from_header h 3 b _ Hh ltac:(reflexivity) U) as (s & -> & Us).
  exists s. split; [reflexivity|]. split; [exact Us|]. intros t. unfold translate. cbn [de].
  unfold de_smartptr, de_rawptr.
  destruct (read_short s [] 1 Us) as (s2 & R & D); [reflexivity|reflexivity|].
  rewrite R. cbn. destruct D as [_ D]. rewrite D. reflexivity.
Qed.

(** * Truncation *)
Lemma prefix_cases {A} (p q a b : list A) : p ++ q = a ++ b -> q <> [] ->
  (exists c, a = p ++ c /\ c <> []) \/ (exists p', p = a ++ p' /\ p' ++ q = b).
Proof.
  revert a. induction p as [|x p IH]; intros a E Hq.
  - destruct a as [|y a]; [right; exists []; auto|]. left. exists (y :: a). split; [reflexivity|discriminate].
  - destruct a as [|y a]; [right; exists (x :: p); auto|]. injection E as <- E.
    destruct (IH a E Hq) as [(c & -> & Hc)|(p' & -> & E')]; [left; exists c; split; [reflexivity|exact Hc] | right; exists p'; split; [reflexivity|exact E']].
Qed.

Lemma step_cut {R} t old s v p q rest (k : interp t -> istream -> option R) :
  readable t = true -> fits t v = true -> merged t old v = v -> unread s p -> p ++ q = enc t v ++ rest -> q <> [] ->
  len (p ++ q) < 2 ^ 63 -> (forall v' s', dead s' -> k v' s' = None) ->
  dsr t old s k = None \/
  exists s' p', dsr t old s k = k v s' /\ unread s' p' /\ p' ++ q = rest.
Proof.
  intros Hr Hf Hm U E Hq Hl Hk. destruct (prefix_cases _ _ _ _ E Hq) as [(c & Hc & Hn)|(p' & -> & E')].
  - left. apply (dsr_short t old s v p c k); auto. rewrite <- Hc. rewrite E, len_app in Hl. lia.
  - right. destruct (dsr_ok (R:=R) t old s v p' k Hr Hf Hm U) as (s' & E1 & U1). exists s', p'. auto.
Qed.

Ltac cut1 v U E U' Q' :=
  lazymatch goal with |- context [@dsr ?R ?t ?o ?s ?k] =>
    let s1 := fresh "s" in let p1 := fresh "p" in let N1 := fresh "N1" in let E1 := fresh "E1" in
    lazymatch type of E with ?p ++ ?q = _ ++ ?r =>
    destruct (fun a b c => @step_cut R t o s v p q r k a b c U E) as [N1|(s1 & p1 & E1 & U' & Q')];
    [reflexivity | try assumption | try apply merged_str; try reflexivity | assumption | assumption
    | intros; try (apply dsr_num_dead; assumption); try (apply dsr_str_dead; assumption)
    | left; exact N1
    | rewrite E1; clear E1] end
  end.

Lemma from_header_cut h pt p q rest : header_ok h = true -> pt < 256 -> q <> [] -> len (p ++ q) < 2 ^ 63 ->
  p ++ q = header_enc h pt ++ rest ->
  from_bytes p = None \/ exists s p', from_bytes p = after h pt s /\ unread s p' /\ p' ++ q = rest.
Proof.
  intros H Hp Hq Hl E. hdr_facts H. rewrite header_enc_eq, <- !app_assoc in E.
  assert (U : unread (istream_of p) p) by (apply unread_istream_of; unfold max_buffer; rewrite len_app in Hl; lia).
  unfold from_bytes.
  cut1 (h_sid h) U E U1 Q1.
  assert (L1 : len (p0 ++ q) < 2 ^ 63) by (rewrite Q1; rewrite E, len_app in Hl; clear - Hl; lia).
  cut1 (h_op h) U1 Q1 U2 Q2.
  assert (L2 : len (p1 ++ q) < 2 ^ 63) by (rewrite Q2; rewrite Q1, len_app in L1; clear - L1; lia).
  cut1 (Num (h_code h)) U2 Q2 U3 Q3.
  assert (L3 : len (p2 ++ q) < 2 ^ 63) by (rewrite Q3; rewrite Q2, len_app in L2; clear - L2; lia).
  cut1 (Num (h_req h)) U3 Q3 U4 Q4.
  { apply dsr_dead; [assumption|]. intros. apply dsr_num_dead. assumption. }
  assert (L4 : len (p3 ++ q) < 2 ^ 63) by (rewrite Q4; rewrite Q3, len_app in L3; clear - L3; lia).
  cut1 (h_name h, (Num (h_port h), tt)) U4 Q4 U5 Q5; [apply addr_fits; assumption | apply addr_merged |].
  assert (L5 : len (p4 ++ q) < 2 ^ 63) by (rewrite Q5; rewrite Q4, len_app in L4; clear - L4; lia).
  destruct (prefix_cases _ _ _ _ Q5 Hq) as [(c & Hc & Hn)|(p6 & P6 & E6)].
  - left. unfold dsr. destruct (de (TNum 1 true) (Num 3) s3) as [[ok w] s'] eqn:D.
    assert (ok = false).
    { eapply (proj1 reports_false (TNum 1 true) eq_refl eq_refl (Num pt)); [apply N.ltb_lt; exact Hp|exact (eq_sym Hc)|exact Hn| |exact U5|exact D].
      rewrite Hc. assert (LL : len (p4 ++ c) = N.of_nat 1) by (rewrite <- Hc; apply len_le). rewrite LL. reflexivity. }
    subst ok. reflexivity.
  - right. rewrite P6 in U5. step1 (Num pt) U5 U6; [apply N.ltb_lt; exact Hp|].
    eexists. exists p6. split; [|split; [exact U6|exact E6]]. unfold after. cbn [num_val fst snd]. destruct h; reflexivity.
Qed.

Lemma truncated_lemma m b p q : header_ok (m_hdr m) = true -> payload_ok (m_payload m) = true ->
  to_bytes m = Some b -> len b < 2 ^ 63 -> b = p ++ q -> q <> [] ->
  from_bytes p = None \/
  exists s t c, m_payload m = POut t c /\ from_bytes p = Some (Msg (m_hdr m) (PIn s)) /\
                fst (translate t (Some s)) <> TSuccess.
Proof.
  intros Hh Hp E Hl Eb Hq. pose proof (to_bytes_enc _ _ E) as B. destruct m as [h pl]. cbn [m_hdr m_payload] in *.
  rewrite Eb in B. 
  assert (Hpt : payload_type pl < 256) by (destruct pl; reflexivity).
  rewrite Eb in Hl.
  destruct (from_header_cut h _ p q _ Hh Hpt Hq Hl B) as [N|(s & p' & E1 & U & Ep)]; [left; exact N|].
  assert (Hl' : len (p' ++ q) < 2 ^ 63) by (rewrite Ep; rewrite B, len_app in Hl; clear - Hl; lia).
  rewrite E1. destruct pl as [|d c|t c|s0]; cbn [tail_enc payload_type] in *.
  - exfalso. apply Hq. destruct p'; [exact Ep|discriminate].
  - left. unfold after. change (2 =? 2) with true. cbn iota. cbn [payload_ok] in Hp. apply andb_true_iff in Hp as [Hd Hc].
    destruct (fun a b c => @step_cut ipcmsg (TStr 1) [] s d p' q _ (fun d0 s0 => dsr (TNum 1 true) (Num 9) s0 (fun c0 _ => Some (Msg h (PError d0 (num_val c0))))) a b c U Ep) as [N1|(s1 & p1 & E2 & U1 & Q1)];
      [reflexivity | exact Hd | apply merged_str | exact Hq | exact Hl' | intros; apply dsr_num_dead; assumption | exact N1 |].
    rewrite E2. clear E2.
    unfold dsr. destruct (de (TNum 1 true) (Num 9) s1) as [[ok w] s'] eqn:D.
    assert (ok = false).
    { eapply (proj1 reports_false (TNum 1 true) eq_refl eq_refl (Num c)); [exact Hc|exact Q1|exact Hq| |exact U1|exact D].
      cbn [enc]. rewrite len_le. reflexivity. }
    subst ok. reflexivity.
  - right. exists s, t, c. split; [reflexivity|]. split; [reflexivity|].
    unfold translate. cbn [payload_ok] in Hp. apply andb_true_iff in Hp as [Hr Hf].
    destruct (de (TPtr true t) None s) as [[ok w] s'] eqn:D.
    assert (Hd : dead s').
    { eapply (proj1 starves_all (TPtr true t) Hr c); [exact Hf|exact Ep|exact Hq| |exact U|exact D]. rewrite <- Ep. exact Hl'. }
    destruct Hd as [_ F]. rewrite F. destruct ok; discriminate.
  - discriminate.
Qed.
