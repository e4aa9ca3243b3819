(** Model of the unix-domain-socket transport:
    src/platforms/unix/maf/messaging/client-server/ipc/{LocalIPCBufferSenderImpl,LocalIPCBufferReceiverImpl}.cpp,
    SocketShared.h.  The operating system is an oracle: every write()/read() result is an input.
    Out of the model: socket creation, select(), the table of 30 client descriptors, the Windows transport. *)
From Verif Require Export SerModel.
Local Open Scope N_scope.

(** ActionCallStatus values returned by send. *)
Inductive send_status := SSuccess | SFailedUnknown | SReceiverUnavailable.

(** Result of one ::write call: -1, or the number of bytes taken (the OS never takes more than requested). *)
Inductive wres := WErr | WTook (k : N).

(** Outcome of send(): the status and the bytes handed to the OS, or still inside the loop when the given write
    results are used up. *)
Inductive send_out := Sent (st : send_status) (bytes : list byte) | StillSending (bytes : list byte).

(** The body loop (LocalIPCBufferSenderImpl.cpp:56-69, do { } while): [total] is totalWritten (uint32),
    [size] payloadSize.  After the loop the status is set to Success whatever happened (line 69). *)
Fixpoint send_body (payload : list byte) (size total : N) (ws : list wres) (out : list byte) : send_out :=
  match ws with
  | [] => StillSending out
  | WErr :: _ => Sent SSuccess out
  | WTook k :: ws' =>
      let k := N.min k (size - total) in
      let out' := out ++ slice payload total k in
      let total' := (total + k) mod two32 in
      if total' <? size then send_body payload size total' ws' out' else Sent SSuccess out'
  end.

(** LocalIPCBufferSenderImpl::send (LocalIPCBufferSenderImpl.cpp:44-87).  [conn]: connectToSocket succeeded;
    [w0]: result of the first write (the 4 length bytes). *)
Definition send (conn : bool) (payload : list byte) (w0 : wres) (ws : list wres) : send_out :=
  if conn then
    let size := len payload mod two32 in
    match w0 with
    | WErr => Sent SFailedUnknown []
    | WTook k => if k =? 4 then send_body payload size 0 ws (le 4 size)
                 else Sent SFailedUnknown (firstn (N.to_nat k) (le 4 size))
    end
  else Sent SReceiverUnavailable [].

(** One ::read call: -1, or at most [k >= 1] bytes of what the peer has sent; 0 bytes exactly when the peer has
    closed the connection and everything was consumed. *)
Inductive rres := RErr | RGot (k : N).

Definition os_read (pending : list byte) (count : N) (k : N) : list byte :=
  firstn (N.to_nat (N.min k count)) pending.

Inductive recv_out :=
| Delivered (payload : list byte)      (* bytesComeCallback_ called *)
| Dropped                              (* connection closed, nothing delivered *)
| Overflow                             (* read() wrote past the end of the message buffer *)
| StillReading.                        (* all given read results used, still in the loop *)

(** The body loop (LocalIPCBufferReceiverImpl.cpp:162-174): every read asks for [mlen] bytes (not for what is
    missing) at payload.data() + totalRead. *)
Fixpoint recv_body (mlen : N) (got pending : list byte) (rs : list rres) : recv_out :=
  if len got <? mlen then
    match rs with
    | [] => StillReading
    | RErr :: _ => Dropped
    | RGot k :: rs' =>
        let bs := os_read pending mlen k in
        if mlen <? len got + len bs then Overflow
        else recv_body mlen (got ++ bs) (skipn (length bs) pending) rs'
    end
  else if len got =? mlen then Delivered got else Dropped.

(** One readable connection (LocalIPCBufferReceiverImpl.cpp:153-178); [pending] is everything the peer sends before
    closing; [r0] is the result of reading the length. *)
Definition receive (pending : list byte) (r0 : rres) (rs : list rres) : recv_out :=
  match r0 with
  | RErr => Dropped
  | RGot k =>
      let hd := os_read pending 4 k in
      if len hd =? 4 then recv_body (un_le hd) [] (skipn 4 pending) rs else Dropped
  end.

(** Socket address of an endpoint (SocketShared.h:65-71; receivers and senders use get_name() only):
    sun_path is 108 bytes, byte 0 is NUL, then the name up to its first NUL (strncpy), zero padded.
    [None]: isValidSocketPath is false (SocketShared.h:57-59). *)
Fixpoint c_str (s : list N) : list N :=
  match s with [] => [] | c :: s' => if c =? 0 then [] else c :: c_str s' end.
Definition sun_path (name : list N) (port : N) : option (list N) :=
  if len name <? 108 then
    let p := 0 :: c_str name in Some (p ++ repeat 0 (108 - length p))
  else None.
