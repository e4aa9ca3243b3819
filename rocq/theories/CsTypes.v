(** Types shared by the client-server models: CSTypes.h:20-38, CSStatus.h, CSError.h:11-22, CSMessage.h:51-56.
    Operation ids, service ids and addresses are opaque names (nat) compared by equality only;
    request ids are uint64_t values. *)
From Verif Require Export Amap.

Inductive opcode := StatusRegister | SignalRegister | Unregister | StatusGet | OpRequest | PartialRequestUpdate
  | Abort | RegisterServiceStatus | UnregisterServiceStatus | ServiceStatusUpdate | OpInvalid.

Inductive acs := Success | InvalidCall | InvalidParam | ServiceUnavailable | ReceiverBusy | ReceiverUnavailable
  | Timeout | NoAction | ActionBroken | FailedUnknown.

Inductive availability := Unavailable | Available | Unknown.

Inductive errcode := EInvalidParam | EServerUnreachable | EServiceUnavailable | EHandlerUnavailable
  | EResourceUnavailable | EResponseIgnored | EOperationFailed | ERequestRejected | ERequestTimeout | EUnknown.

(** A non-null CSPayloadIFPtr: user data or a CSError.  [payload_eqb] models CSMsgPayloadIF::equal for
    OutgoingPayloadT with content / ITC payloads / CSError: equality of type and value. *)
Inductive payload := Data (n : nat) | Err (c : errcode).

Definition errcode_eqb (a b : errcode) : bool :=
  match a, b with
  | EInvalidParam, EInvalidParam | EServerUnreachable, EServerUnreachable
  | EServiceUnavailable, EServiceUnavailable | EHandlerUnavailable, EHandlerUnavailable
  | EResourceUnavailable, EResourceUnavailable | EResponseIgnored, EResponseIgnored
  | EOperationFailed, EOperationFailed | ERequestRejected, ERequestRejected
  | ERequestTimeout, ERequestTimeout | EUnknown, EUnknown => true
  | _, _ => false
  end.
Definition payload_eqb (a b : payload) : bool :=
  match a, b with
  | Data x, Data y => Nat.eqb x y
  | Err x, Err y => errcode_eqb x y
  | _, _ => false
  end.

Lemma payload_eqb_spec a b : reflect (a = b) (payload_eqb a b).
Proof.
  destruct a as [x|x], b as [y|y]; cbn; try (constructor; discriminate).
  - destruct (Nat.eqb_spec x y); constructor; congruence.
  - destruct x, y; constructor; (reflexivity || discriminate).
Qed.

Definition opcode_eqb (a b : opcode) : bool :=
  match a, b with
  | StatusRegister, StatusRegister | SignalRegister, SignalRegister | Unregister, Unregister | StatusGet, StatusGet
  | OpRequest, OpRequest | PartialRequestUpdate, PartialRequestUpdate | Abort, Abort
  | RegisterServiceStatus, RegisterServiceStatus | UnregisterServiceStatus, UnregisterServiceStatus
  | ServiceStatusUpdate, ServiceStatusUpdate | OpInvalid, OpInvalid => true
  | _, _ => false
  end.
Lemma opcode_eqb_spec a b : reflect (a = b) (opcode_eqb a b).
Proof. destruct a, b; constructor; (reflexivity || discriminate). Qed.

(** CSMessage (the service id is fixed by the object that handles it). *)
Record msg := Msg { m_code : opcode; m_op : nat; m_rid : N; m_pay : option payload; m_src : nat }.

(** RequestIDInvalid = (uint64_t)-1. *)
Definition rid_invalid : N := (2 ^ 64 - 1)%N.
