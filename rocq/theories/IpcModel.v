(** Model of the local-IPC message codec:
    src/common/maf/messaging/client-server/ipc/LocalIPCMessage.cpp,
    include/maf/messaging/client-server/ipc/local/{IncomingPayload,OutgoingPayload,ParamTrait}.h.
    Built on the serializer model.  Out of the model: payload classes other than the three below, sharing of one
    stream object between several payload clones (a translation reads through a private view anyway), logging. *)
From Verif Require Export SerModel.
Local Open Scope N_scope.

(** Header members of CSMessage (CSMessage.h:51-56).  Strings are lists of char codes. *)
Record header := Hdr
  { h_sid : list N; h_op : list N; h_code : N; h_req : N; h_name : list N; h_port : N }.

(** CSPayloadIFPtr: null, CSError, OutgoingPayloadT<Content> holding a shared_ptr<Content>,
    IncomingPayload holding a stream. *)
Inductive payload :=
| PNull
| PError (desc : list N) (code : N)
| POut (t : ty) (content : option (interp t))
| PIn (s : istream).

Record ipcmsg := Msg { m_hdr : header; m_payload : payload }.

(** CSPayloadType (CSMsgPayloadIF.h:10-15); LocalIPCMessage.cpp:41 uses NA for a null payload. *)
Definition payload_type (p : payload) : N :=
  match p with PIn _ => 0 | POut _ _ => 1 | PError _ _ => 2 | PNull => 3 end.

(** Address is tuplizable: as_tuple = tie(name_, port_) (Address.h:39-40). *)
Definition addr_ty : ty := TStruct (TCons (TStr 1) (TCons (TNum 2 false) TNil)).
(** The argument tuple of serializeBatch (LocalIPCMessage.cpp:39-41): OpCode and CSPayloadType are char enums,
    RequestID is uint64_t. *)
Definition header_ty : ty :=
  TTup (TCons (TStr 1) (TCons (TStr 1) (TCons (TNum 1 true) (TCons (TNum 8 false)
       (TCons addr_ty (TCons (TNum 1 true) TNil)))))).

Definition header_val (h : header) (pt : N) : interp header_ty :=
  (h_sid h, (h_op h, (Num (h_code h), (Num (h_req h), ((h_name h, (Num (h_port h), tt)), (Num pt, tt)))))).

(** LocalIPCMessage::toBytes (LocalIPCMessage.cpp:22-26, 35-52; OutgoingPayload.h:47-51).
    [None]: an IncomingPayload is static_cast to OutgoingPayload - undefined behaviour. *)
Definition to_bytes (m : ipcmsg) : option (list byte) :=
  let o := ser header_ty (header_val (m_hdr m) (payload_type (m_payload m))) ostream_new in
  match m_payload m with
  | PNull => Some (odata o)
  | PError d c => Some (odata (ser (TNum 1 true) (Num c) (ser (TStr 1) d o)))
  | POut t c => Some (odata (ser (TPtr true t) c o))
  | PIn _ => None
  end.

(** DSR::operator>> (Serializer.h:475-481): a failed read throws; the exception ends fromBytes with false. *)
Definition dsr {R} (t : ty) (old : interp t) (s : istream) (k : interp t -> istream -> option R) : option R :=
  let '(ok, v, s') := de t old s in if ok then k v s' else None.

Definition num_val (n : num) : N := match n with Num n => n | Indet => 0 end.

(** LocalIPCMessage::fromBytes on a default constructed message (LocalIPCMessage.cpp:28-33, 54-75; initial member
    values CSMessage.h:51-56, Address.h:45-46; OpCode::Invalid = 10, CSErrorCode::Unknown = 9, NA = 3). *)
Definition from_bytes (b : list byte) : option ipcmsg :=
  dsr (TStr 1) [] (istream_of b) (fun sid s =>
  dsr (TStr 1) [] s (fun op s =>
  dsr (TNum 1 true) (Num 10) s (fun code s =>
  dsr (TNum 8 false) (Num (2 ^ 64 - 1)) s (fun req s =>
  dsr addr_ty ([], (Num 65535, tt)) s (fun addr s =>
  dsr (TNum 1 true) (Num 3) s (fun pt s =>
    let h := Hdr sid op (num_val code) (num_val req) (fst addr) (num_val (fst (snd addr))) in
    if num_val pt =? 2 then
      dsr (TStr 1) [] s (fun d s =>
      dsr (TNum 1 true) (Num 9) s (fun c _ => Some (Msg h (PError d (num_val c)))))
    else Some (Msg h (PIn s)))))))).

Inductive tstatus := TSuccess | TNoSource | TSourceCorrupted | TDestSrcMismatch.

(** ParamTrait::translate<Content> on a null or incoming payload (ParamTrait.h:21-65); the stream view starts at the
    stream's position with the stream's state (IByteStream.h:96-98) and leaves the stream itself unchanged. *)
Definition translate (t : ty) (s : option istream) : tstatus * option (interp t) :=
  match s with
  | None => (TNoSource, None)
  | Some s =>
      let '(ok, c, s') := de (TPtr true t) None s in
      if ok then ((if ifail s' then TSourceCorrupted else TSuccess), c)
      else (TDestSrcMismatch, None)
  end.
