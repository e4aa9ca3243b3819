(** Property theorems about serialization: C01 - C08. *)
From Verif Require Import SerModel SerSpec SerProofs4 SerProofs5.
Local Open Scope N_scope.

(** A non-trivial type and value used to show that the hypotheses below are satisfiable:
    map<string, pair<vector<int32>, variant<int64, shared_ptr<string>>>> inside a struct with a set<uint8>. *)
Definition ex_ty : ty :=
  TStruct (TCons (TMap (TStr 1) (TPair (TSeq (TNum 4 true)) (TVar (TNum 8 true) (TCons (TPtr true (TStr 1)) TNil))))
          (TCons (TSet (TNum 1 false)) TNil)).
Definition ex_val : interp ex_ty :=
  ([([97; 98], ([Num 1; Num 4294967295], inr (inl (Some [99])))); ([98], ([], inl (Num 7)))], ([Num 3; Num 200], tt)).
Definition ex_seq_ty : ty := TSeq (TPair (TStr 1) (TNum 4 true)).
Definition ex_seq_val : interp ex_seq_ty := [([97; 98], Num 5); ([], Num 6)].

(** ** C01: round trip into a freshly constructed object, leaving exactly the trailing bytes unread. *)
Theorem C01_roundtrip t v old rest :
  readable t = true -> fits t v = true -> fresh t old -> len (bytes_of t v ++ rest) < 2 ^ 63 ->
  exists s', de t old (istream_of (bytes_of t v ++ rest)) = (true, v, s') /\ unread s' rest.
Proof. exact (roundtrip_lemma t v old rest). Qed.
Print Assumptions C01_roundtrip.

Example C01_applies :
  readable ex_ty = true /\ fits ex_ty ex_val = true /\ fresh ex_ty (dinit ex_ty) /\
  len (bytes_of ex_ty ex_val ++ [xff]) < 2 ^ 63 /\ length (bytes_of ex_ty ex_val) = 59%nat.
Proof. split; [|split; [|split; [left|split]]]; vm_compute; reflexivity. Qed.

(** The wire format is the documented concatenation of field encodings. *)
Theorem C01_wire_format t v d :
  odata (ser t v (OS d (length d))) = d ++ enc t v /\ opos (ser t v (OS d (length d))) = length (d ++ enc t v).
Proof. exact (wire_lemma t v d). Qed.
Print Assumptions C01_wire_format.

(** An empty tuple / struct is reported as a failed read although nothing is missing. *)
Theorem C01_empty_struct_refuted :
  forall s, de (TStruct TNil) tt s = (false, tt, s) /\ de (TTup TNil) tt s = (false, tt, s).
Proof. intros s. split; reflexivity. Qed.
Print Assumptions C01_empty_struct_refuted.

(** ** C02: serializedSize. *)
Theorem C02_size t v d : has_size t = true ->
  let written := len (odata (ser t v (OS d (length d)))) - len d in
  ssize t v mod 2 ^ 32 = written mod 2 ^ 32 /\ (written < 2 ^ 32 -> ssize t v = written).
Proof. exact (size_lemma t v d). Qed.
Print Assumptions C02_size.

Example C02_applies : has_size ex_seq_ty = true /\ ssize ex_seq_ty ex_seq_val = 22 /\
  len (odata (ser ex_seq_ty ex_seq_val (OS [xff] 1))) - len [xff] = 22.
Proof. repeat split; vm_compute; reflexivity. Qed.

(** ** C03: concatenated values. *)
Theorem C03_batch vs rest :
  Forall (fun a : anyval => readable (projT1 a) = true /\ fits (projT1 a) (projT2 a) = true) vs ->
  len (odata (ser_all vs ostream_new) ++ rest) < 2 ^ 63 ->
  odata (ser_all vs ostream_new) = flat_map (fun a => bytes_of (projT1 a) (projT2 a)) vs /\
  exists s', de_all (map (@projT1 _ _) vs) (istream_of (odata (ser_all vs ostream_new) ++ rest)) = (Some vs, s') /\
             unread s' rest.
Proof. exact (batch_lemma vs rest). Qed.
Print Assumptions C03_batch.

Example C03_applies :
  let vs : list anyval := [existT _ ex_ty ex_val; existT _ ex_seq_ty ex_seq_val; existT _ (TNum 2 false) (Num 258)] in
  Forall (fun a : anyval => readable (projT1 a) = true /\ fits (projT1 a) (projT2 a) = true) vs /\
  len (odata (ser_all vs ostream_new) ++ [x01; x02]) < 2 ^ 63.
Proof. split; [repeat constructor | vm_compute; reflexivity]. Qed.

(** ** C04: unambiguous, prefix free. *)
Theorem C04_prefix_free t v1 v2 r1 r2 :
  readable t = true -> fits t v1 = true -> fits t v2 = true -> len (bytes_of t v1 ++ r1) < 2 ^ 63 ->
  bytes_of t v1 ++ r1 = bytes_of t v2 ++ r2 -> v1 = v2 /\ r1 = r2.
Proof. exact (prefix_free_lemma t v1 v2 r1 r2). Qed.
Print Assumptions C04_prefix_free.

Example C04_applies :
  bytes_of ex_seq_ty ex_seq_val ++ [x07] = bytes_of ex_seq_ty ex_seq_val ++ [x07] /\
  bytes_of ex_seq_ty ex_seq_val <> bytes_of ex_seq_ty [([97; 98], Num 6); ([], Num 6)].
Proof. split; [reflexivity | vm_compute; discriminate]. Qed.

(** ** C05: the raw input stream. *)
Theorem C05_stream b sizes : len b < 2 ^ 63 -> Forall (fun n => n < 2 ^ 63) sizes ->
  let '(results, s) := run_reads (istream_of b) sizes in
  results = spec_reads b true sizes /\ oob s = false /\ ipos s <= len (ibuf s) /\
  ieof s = (existsb is_some results && (ipos s =? len b)).
Proof. exact (stream_lemma b sizes). Qed.
Print Assumptions C05_stream.

Example C05_applies : fst (run_reads (istream_of [x01; x02; x03]) [2; 0; 2; 1]) = [Some [x01; x02]; Some []; None; None].
Proof. vm_compute. reflexivity. Qed.

(** A failed stream stays failed, whatever flags are cleared. *)
Theorem C05_sticky s n : igood s = false ->
  let '(s', r) := read s n in r = None /\ igood s' = false /\ ifail s' = true /\ ipos s' = ipos s /\ oob s' = oob s /\
  forall g f e m, snd (read (iclear s' g f e) m) = None.
Proof. exact (sticky_lemma s n). Qed.
Print Assumptions C05_sticky.

(** reset() gives an empty, good stream. *)
Theorem C05_reset s n : 0 < n < 2 ^ 63 ->
  let '(s', r) := read (ireset s) n in r = None /\ ifail s' = true /\ oob s' = oob s.
Proof. exact (reset_lemma s n). Qed.
Print Assumptions C05_reset.

(** No byte string makes deserialization read outside the buffer, for any type. *)
Theorem C05_in_bounds t old b :
  cpp_widths t = true -> len b < 2 ^ 63 ->
  let '(_, _, s') := de t old (istream_of b) in oob s' = false /\ ipos s' <= len (ibuf s').
Proof. exact (in_bounds_lemma t old b). Qed.
Print Assumptions C05_in_bounds.

(** "for every read size" is false: readingPos_ + size wraps, the bounds check passes and memcpy leaves the buffer. *)
Theorem C05_huge_size_refuted :
  exists b n, len b < 2 ^ 63 /\ n < 2 ^ 64 /\
  oob (snd (run_reads (istream_of b) [1; n])) = true.
Proof. exists [x00; x00], (2 ^ 64 - 1). vm_compute. repeat split. Qed.
Print Assumptions C05_huge_size_refuted.

(** ** C06: truncated input. *)
(** The fail bit of the stream is set whatever the type and the cut position... *)
Theorem C06_truncated_sets_fail t v old p q :
  readable t = true -> fits t v = true -> len (bytes_of t v) < 2 ^ 63 ->
  bytes_of t v = p ++ q -> q <> [] ->
  let '(_, _, s') := de t old (istream_of p) in ifail s' = true.
Proof. exact (truncated_fail_lemma t v old p q). Qed.
Print Assumptions C06_truncated_sets_fail.

(** ... but the returned value says so only for numbers, strings, one-field structs and variants of those. *)
Theorem C06_truncated_returns_false_partial t v old p q :
  readable t = true -> reports t = true -> fits t v = true -> len (bytes_of t v) < 2 ^ 63 ->
  bytes_of t v = p ++ q -> q <> [] ->
  let '(ok, _, _) := de t old (istream_of p) in ok = false.
Proof. exact (truncated_false_lemma t v old p q). Qed.
Print Assumptions C06_truncated_returns_false_partial.

Example C06_applies :
  let v : interp (TVar (TNum 4 true) (TCons (TStr 1) TNil)) := inr (inl [97; 98]) in
  let p := firstn 9 (bytes_of _ v) in let q := skipn 9 (bytes_of _ v) in
  reports (TVar (TNum 4 true) (TCons (TStr 1) TNil)) = true /\ bytes_of _ v = p ++ q /\ q <> [].
Proof. repeat split. vm_compute. discriminate. Qed.

Definition accepts_truncated (t : ty) (v : interp t) (k : nat) : Prop :=
  readable t = true /\ fits t v = true /\ (k < length (bytes_of t v))%nat /\
  fst (fst (de t (vinit t) (istream_of (firstn k (bytes_of t v))))) = true.

Theorem C06_truncated_returns_false_refuted :
  (exists v k, accepts_truncated (TSeq (TNum 4 true)) v k) /\
  (exists v k, accepts_truncated (TPair (TNum 4 true) (TNum 4 true)) v k) /\
  (exists v k, accepts_truncated (TStruct (TCons (TNum 4 true) (TCons (TStr 1) TNil))) v k) /\
  (exists v k, accepts_truncated (TPtr true (TNum 4 true)) v k) /\
  (exists v k, accepts_truncated (TMap (TNum 4 true) (TNum 4 true)) v k).
Proof.
  split; [|split; [|split; [|split]]].
  - exists [Num 1; Num 2], 8%nat. vm_compute. repeat split. repeat constructor.
  - exists (Num 1, Num 2), 4%nat. vm_compute. repeat split. repeat constructor.
  - exists (Num 1, ([97], tt)), 4%nat. vm_compute. repeat split. repeat constructor.
  - exists (Some (Num 1)), 0%nat. vm_compute. repeat split. repeat constructor.
  - exists [(Num 1, Num 2)], 8%nat. vm_compute. repeat split. repeat constructor.
Qed.
Print Assumptions C06_truncated_returns_false_refuted.

(** Whatever bytes arrive, if the fail bit stays clear then they start with the encoding of what was read. *)
Theorem C06_accepted_input_is_an_encoding t old b ok v s' :
  canonical t = true -> cpp_widths t = true -> len b < 2 ^ 63 ->
  de t old (istream_of b) = (ok, v, s') -> ifail s' = false ->
  ok = true /\ exists v0 rest, fits t v0 = true /\ b = bytes_of t v0 ++ rest /\ v = merged t old v0 /\ unread s' rest.
Proof. exact (sound_lemma t old b ok v s'). Qed.
Print Assumptions C06_accepted_input_is_an_encoding.

Example C06_accepted_applies :
  canonical ex_seq_ty = true /\ cpp_widths ex_seq_ty = true /\
  ifail (snd (de ex_seq_ty [] (istream_of (bytes_of ex_seq_ty ex_seq_val ++ [x00])))) = false.
Proof. vm_compute. repeat split. Qed.

(** A variant index out of range is reported by the variant itself, but swallowed by an enclosing struct. *)
Theorem C06_bad_variant_index_swallowed_refuted :
  exists b, let t := TStruct (TCons (TNum 1 false) (TCons (TVar (TNum 1 false) TNil) TNil)) in
  let '(ok, _, s') := de t (vinit t) (istream_of b) in
  ok = true /\ ifail s' = false /\ forall v rest, bytes_of t v ++ rest <> b.
Proof. exact bad_index_lemma. Qed.
Print Assumptions C06_bad_variant_index_swallowed_refuted.

(** ** C07: amplification. *)
Theorem C07_bounded_refuted t n : n < 2 ^ 32 ->
  exists b v s', len b = 4 /\ de (TSeq t) [] (istream_of b) = (true, v, s') /\ len v = n.
Proof. exact (amplify_lemma t n). Qed.
Print Assumptions C07_bounded_refuted.

(** The produced elements are uninitialised memory when the element type is a number. *)
Theorem C07_uninitialised_refuted w sg n : 0 < N.of_nat w < 2 ^ 16 -> 0 < n < 2 ^ 32 ->
  exists s', de (TSeq (TNum w sg)) [] (istream_of (le 4 n)) = (true, repeat Indet (N.to_nat n), s').
Proof. exact (uninit_lemma w sg n). Qed.
Print Assumptions C07_uninitialised_refuted.

(** When the stream did not fail, the element count is bounded by the input. *)
Theorem C07_bounded_partial t b ok v s' k :
  canonical t = true -> cpp_widths t = true -> len b < 2 ^ 63 ->
  (forall e, fits t e = true -> k <= len (bytes_of t e)) ->
  de (TSeq t) [] (istream_of b) = (ok, v, s') -> ifail s' = false ->
  4 + k * len v <= len b.
Proof. exact (bound_lemma t b ok v s' k). Qed.
Print Assumptions C07_bounded_partial.

Example C07_applies : (forall e, fits (TNum 4 true) e = true -> 4 <= len (bytes_of (TNum 4 true) e)) /\
  snd (fst (de (TSeq (TNum 4 true)) [] (istream_of (le 4 2 ++ le 4 7 ++ le 4 8)))) = [Num 7; Num 8].
Proof. split; [intros [n|] H; [|discriminate]; apply num4_len | vm_compute; reflexivity]. Qed.

(** ** C08: reading into an object that already has contents. *)
Theorem C08_into_existing t v old rest :
  readable t = true -> fits t v = true -> len (bytes_of t v ++ rest) < 2 ^ 63 ->
  exists s', de t old (istream_of (bytes_of t v ++ rest)) = (true, merged t old v, s') /\ unread s' rest.
Proof. exact (into_lemma t v old rest). Qed.
Print Assumptions C08_into_existing.

Theorem C08_overwrites_partial t v old rest :
  overwrites t = true -> readable t = true -> fits t v = true -> len (bytes_of t v ++ rest) < 2 ^ 63 ->
  exists s', de t old (istream_of (bytes_of t v ++ rest)) = (true, v, s') /\ unread s' rest.
Proof. exact (overwrite_lemma t v old rest). Qed.
Print Assumptions C08_overwrites_partial.

Example C08_applies :
  overwrites (TPtr true (TSeq (TNum 1 false))) = true /\
  snd (fst (de (TPtr true (TSeq (TNum 1 false))) (Some [Num 9]) (istream_of (bytes_of _ (Some [Num 1] : interp (TPtr true (TSeq (TNum 1 false)))))))) = Some [Num 1].
Proof. vm_compute. repeat split. Qed.

Theorem C08_overwrites_refuted :
  (exists old v, let t := TSeq (TNum 1 false) in
     snd (fst (de t old (istream_of (bytes_of t v)))) <> v /\ fst (fst (de t old (istream_of (bytes_of t v)))) = true) /\
  (exists old v, let t := TStr 1 in
     snd (fst (de t old (istream_of (bytes_of t v)))) <> v /\ fst (fst (de t old (istream_of (bytes_of t v)))) = true) /\
  (exists old v, let t := TMap (TNum 1 false) (TNum 1 false) in
     snd (fst (de t old (istream_of (bytes_of t v)))) = old /\ old <> v /\
     fst (fst (de t old (istream_of (bytes_of t v)))) = true).
Proof.
  split; [|split].
  - exists [Num 1], [Num 2]. vm_compute. split; [discriminate | reflexivity].
  - exists [97], []. vm_compute. split; [discriminate | reflexivity].
  - exists [(Num 1, Num 1)], [(Num 1, Num 2)]. vm_compute. repeat split. discriminate.
Qed.
Print Assumptions C08_overwrites_refuted.


(** ** C99: a read that reports failure leaves the object as it was. *)
Theorem C99_failed_read_keeps_partial t old b v s' :
  keeps t = true -> de t old (istream_of b) = (false, v, s') -> v = old.
Proof. exact (keeps_lemma t old b v s'). Qed.
Print Assumptions C99_failed_read_keeps_partial.

Example C99_applies :
  let t := TStruct (TCons (TPtr true (TNum 4 true)) (TCons (TVar (TNum 8 true) (TCons (TStr 1) TNil)) TNil)) in
  keeps t = true /\
  fst (de t (Some (Num 5), (inr (inl [97]), tt)) (istream_of [Byte.x01; Byte.x00])) = (false, (Some (Num 5), (inr (inl [97]), tt))).
Proof. vm_compute. repeat split. Qed.

(** A string is first resized to the announced length, a raw pointer becomes null. *)
Theorem C99_failed_read_keeps_refuted :
  (exists old b, fst (fst (de (TStr 1) old (istream_of b))) = false /\ snd (fst (de (TStr 1) old (istream_of b))) <> old) /\
  (exists old b, let t := TPtr false (TNum 4 true) in
     fst (fst (de t old (istream_of b))) = false /\ snd (fst (de t old (istream_of b))) <> old).
Proof.
  split.
  - exists [97; 98], (le 4 1). vm_compute. split; [reflexivity | discriminate].
  - exists (Some (Num 5)), [Byte.x01; Byte.x00]. vm_compute. split; [reflexivity | discriminate].
Qed.
Print Assumptions C99_failed_read_keeps_refuted.
