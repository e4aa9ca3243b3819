(** Vocabulary for the statements about the IPC codec and transport. *)
From Verif Require Import SerModel SerSpec IpcModel NetModel.
Local Open Scope N_scope.

(** Header fields in range of their C++ types. *)
Definition str_ok (s : list N) : bool := (len s <? 2 ^ 32) && forallb (fun c => c <? 256) s.
Definition header_ok (h : header) : bool :=
  str_ok (h_sid h) && str_ok (h_op h) && (h_code h <? 256) && (h_req h <? 2 ^ 64) && str_ok (h_name h)
  && (h_port h <? 2 ^ 16).

(** Payloads the codec can carry: errors with a one-byte code, contents the serializer can represent (C01). *)
Definition payload_ok (p : payload) : bool :=
  match p with
  | PNull => true
  | PError d c => str_ok d && (c <? 256)
  | POut t c => readable t && fits (TPtr true t) c
  | PIn _ => false
  end.


(** A message on the wire: 4-byte little-endian length, then the bytes. *)
Definition frame (payload : list byte) : list byte := le 4 (len payload) ++ payload.

(** Every read makes progress / no write fails. *)
Definition positive (k : rres) : Prop := match k with RGot k => 0 < k | RErr => False end.
Definition no_error (w : wres) : Prop := match w with WErr => False | WTook _ => True end.
