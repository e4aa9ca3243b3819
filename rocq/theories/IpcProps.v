(** Property theorems about the IPC codec and the unix transport: C09 - C13, C57. *)
From Verif Require Import SerModel SerSpec IpcModel NetModel IpcSpec IpcProofs NetProofs.
Local Open Scope N_scope.

Definition ex_hdr : header := Hdr [115; 118; 99] [111; 112] 4 77 [99; 108] 65535.
Definition ex_payload : payload := POut (TSeq (TStr 1)) (Some [[104; 105]; []]).

(** ** C09 *)
Theorem C09_error_roundtrip h d c b : header_ok h = true -> str_ok d = true -> c < 256 ->
  to_bytes (Msg h (PError d c)) = Some b -> len b < 2 ^ 63 ->
  from_bytes b = Some (Msg h (PError d c)).
Proof. exact (error_roundtrip h d c b). Qed.
Print Assumptions C09_error_roundtrip.

Theorem C09_data_roundtrip h t c b : header_ok h = true -> readable t = true -> fits (TPtr true t) c = true ->
  to_bytes (Msg h (POut t c)) = Some b -> len b < 2 ^ 63 ->
  exists s, from_bytes b = Some (Msg h (PIn s)) /\ translate t (Some s) = (TSuccess, c) /\ unread s (enc (TPtr true t) c).
Proof. exact (data_roundtrip h t c b). Qed.
Print Assumptions C09_data_roundtrip.

(** A strict prefix of a message is refused, or its payload is reported as unreadable. *)
Theorem C09_truncated m b p q : header_ok (m_hdr m) = true -> payload_ok (m_payload m) = true ->
  to_bytes m = Some b -> len b < 2 ^ 63 -> b = p ++ q -> q <> [] ->
  from_bytes p = None \/
  exists s t c, m_payload m = POut t c /\ from_bytes p = Some (Msg (m_hdr m) (PIn s)) /\
                fst (translate t (Some s)) <> TSuccess.
Proof. exact (truncated_lemma m b p q). Qed.
Print Assumptions C09_truncated.

Example C09_applies : exists b,
  header_ok ex_hdr = true /\ payload_ok ex_payload = true /\ to_bytes (Msg ex_hdr ex_payload) = Some b /\ len b < 2 ^ 63 /\
  length b = 46%nat /\ to_bytes (Msg ex_hdr (PError [98; 97; 100] 3)) <> None.
Proof.
  exists (match to_bytes (Msg ex_hdr ex_payload) with Some b => b | None => [] end).
  split; [|split; [|split; [|split; [|split]]]]; vm_compute; (reflexivity || discriminate).
Qed.

(** ** C10 *)
Theorem C10_null_payload_refuted h b : header_ok h = true -> to_bytes (Msg h PNull) = Some b -> len b < 2 ^ 63 ->
  exists s, from_bytes b = Some (Msg h (PIn s)) /\ unread s [] /\
            forall t, translate t (Some s) = (TSourceCorrupted, None).
Proof. exact (null_arrives h b). Qed.
Print Assumptions C10_null_payload_refuted.

Example C10_applies : exists b, header_ok ex_hdr = true /\ to_bytes (Msg ex_hdr PNull) = Some b /\ len b < 2 ^ 63.
Proof.
  exists (match to_bytes (Msg ex_hdr PNull) with Some b => b | None => [] end).
  split; [|split]; vm_compute; reflexivity.
Qed.

(** ** C11 *)
Theorem C11_framing payload k rs : len payload < 2 ^ 32 -> 4 <= k -> Forall positive rs ->
  (receive (frame payload) (RGot k) rs = Delivered payload \/ receive (frame payload) (RGot k) rs = StillReading) /\
  ((length payload <= length rs)%nat -> receive (frame payload) (RGot k) rs = Delivered payload).
Proof. exact (receive_lemma payload k rs). Qed.
Print Assumptions C11_framing.

Example C11_applies :
  receive (frame [x0a; x0b; x0c]) (RGot 4) [RGot 1; RGot 1; RGot 7] = Delivered [x0a; x0b; x0c] /\
  receive (frame [x0a; x0b; x0c]) (RGot 4) [RGot 3] = Delivered [x0a; x0b; x0c].
Proof. split; vm_compute; reflexivity. Qed.

(** If the four length bytes do not arrive in one read the message is lost. *)
Theorem C11_split_length_refuted payload k rs : k < 4 -> receive (frame payload) (RGot k) rs = Dropped.
Proof. exact (split_length_lemma payload k rs). Qed.
Print Assumptions C11_split_length_refuted.

(** Codec, sender and receiver together. *)
Theorem C11_transport h t c b w0 ws sent k rs :
  header_ok h = true -> readable t = true -> fits (TPtr true t) c = true ->
  to_bytes (Msg h (POut t c)) = Some b -> len b < 2 ^ 32 ->
  Forall no_error ws -> send true b w0 ws = Sent SSuccess sent ->
  4 <= k -> Forall positive rs -> (length b <= length rs)%nat ->
  exists b' s, receive sent (RGot k) rs = Delivered b' /\ from_bytes b' = Some (Msg h (PIn s)) /\
            translate t (Some s) = (TSuccess, c).
Proof. exact (transport_lemma h t c b w0 ws sent k rs). Qed.
Print Assumptions C11_transport.

Example C11_transport_applies : exists b sent,
  to_bytes (Msg ex_hdr ex_payload) = Some b /\ len b < 2 ^ 32 /\
  send true b (WTook 4) [WTook 1; WTook 40; WTook 9] = Sent SSuccess sent /\ sent = frame b.
Proof.
  exists (match to_bytes (Msg ex_hdr ex_payload) with Some b => b | None => [] end).
  exists (frame (match to_bytes (Msg ex_hdr ex_payload) with Some b => b | None => [] end)).
  split; [|split; [|split]]; vm_compute; reflexivity.
Qed.

(** ** C12 *)
Theorem C12_no_overflow_partial announced sent rs k : announced < 2 ^ 32 -> len sent <= announced ->
  receive (le 4 announced ++ sent) (RGot k) rs <> Overflow /\
  (forall p, receive (le 4 announced ++ sent) (RGot k) rs = Delivered p -> p = sent /\ len p = announced).
Proof. exact (no_overflow_lemma announced sent rs k). Qed.
Print Assumptions C12_no_overflow_partial.

Theorem C12_overflow_refuted : exists announced sent rs, announced < 2 ^ 32 /\
  receive (le 4 announced ++ sent) (RGot 4) rs = Overflow.
Proof. exists 4, [x01; x02; x03; x04; x05; x06; x07], [RGot 3; RGot 4]. split; [reflexivity | vm_compute; reflexivity]. Qed.
Print Assumptions C12_overflow_refuted.

(** A peer that closes before sending what it announced keeps the receiver busy forever. *)
Theorem C12_termination_refuted announced sent n : announced < 2 ^ 32 -> len sent < announced ->
  exists rs, (length rs >= n)%nat /\ receive (le 4 announced ++ sent) (RGot 4) rs = StillReading.
Proof. exact (spins_lemma announced sent n). Qed.
Print Assumptions C12_termination_refuted.

(** ** C13 *)
Theorem C13_success_means_sent_partial conn payload w0 ws b : len payload < 2 ^ 32 -> Forall no_error ws ->
  send conn payload w0 ws = Sent SSuccess b -> b = frame payload.
Proof. exact (send_complete_lemma conn payload w0 ws b). Qed.
Print Assumptions C13_success_means_sent_partial.

(** Whatever the OS does, only a prefix of the frame ever reaches it. *)
Theorem C13_only_a_prefix conn payload w0 ws : len payload < 2 ^ 32 ->
  match send conn payload w0 ws with
  | Sent _ b | StillSending b => exists m, b ++ m = frame payload
  end.
Proof. exact (send_prefix_lemma conn payload w0 ws). Qed.
Print Assumptions C13_only_a_prefix.

Theorem C13_success_means_sent_refuted payload k ws : 0 < len payload < 2 ^ 32 -> k < len payload ->
  exists b, send true payload (WTook 4) (WTook k :: WErr :: ws) = Sent SSuccess b /\ len b < len (frame payload).
Proof. exact (send_error_lemma payload k ws). Qed.
Print Assumptions C13_success_means_sent_refuted.

Theorem C13_oversize_refuted payload : len payload = 2 ^ 32 + 1 ->
  exists b, send true payload (WTook 4) [WTook 1] = Sent SSuccess b /\ len b = 5.
Proof. exact (send_oversize_lemma payload). Qed.
Print Assumptions C13_oversize_refuted.

Example C13_applies : send true [x0a; x0b] (WTook 4) [WTook 1; WErr] = Sent SSuccess (le 4 2 ++ [x0a]) /\
  send true [x0a; x0b] (WTook 4) [WTook 1; WTook 0; WTook 9] = Sent SSuccess (frame [x0a; x0b]) /\
  len (repeat x00 (N.to_nat (2 ^ 32 + 1))) = 2 ^ 32 + 1.
Proof. split; [reflexivity|split; [reflexivity|apply len_repeat]]. Qed.

(** ** C57: which receiver an address denotes *)
Theorem C57_socket_name n1 p1 n2 p2 a1 a2 : sun_path n1 p1 = Some a1 -> sun_path n2 p2 = Some a2 ->
  (a1 = a2 <-> c_str n1 = c_str n2) /\ (~ In 0 n1 -> ~ In 0 n2 -> (a1 = a2 <-> n1 = n2)).
Proof. exact (sun_path_lemma n1 p1 n2 p2 a1 a2). Qed.
Print Assumptions C57_socket_name.

Theorem C57_port_ignored_refuted : exists n p1 p2 a, p1 <> p2 /\ sun_path n p1 = Some a /\ sun_path n p2 = Some a.
Proof. exists [97], 1, 2. eexists. repeat split. discriminate. Qed.
Print Assumptions C57_port_ignored_refuted.

Example C57_applies : exists a b, sun_path [97; 98] 1 = Some a /\ sun_path [97] 1 = Some b /\ a <> b /\ length a = 108%nat.
Proof. do 2 eexists. repeat split. vm_compute. discriminate. Qed.
