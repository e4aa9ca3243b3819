# sepcon/maf in Rocq: design

(First version, written before the proofs; section 4 is kept current as the model grows.)

## 1. Method

The code in /repo is read as text and transcribed into total, computable Gallina functions
(`rocq/theories/*Model.v`).  Stateful classes become a record plus one function per method
(`state -> args -> state * outputs`), loops become structural recursion, external effects
(send over a transport, `read`/`write` results, clock, slot bodies, scheduler choices) become
explicit inputs of the step functions, so that a theorem "for all inputs" ranges over all of
them.  Undefined behaviour (null dereference, iterator invalidation, buffer overrun, violated
std-algorithm precondition) is a distinct outcome, never assumed away.

Each area has
* `XModel.v`   the transcription, every definition citing file:lines of /repo,
* `XSpec.v`    (when needed) a small specification that does not use the model's helpers,
* `XProofs.v`  lemmas,
* `XProps.v`   only the property theorems (`exact lemma.` + `Print Assumptions`) and the `Example`s that
  show their hypotheses can be met.

Where the code violates the property as a user would state it, there is a theorem
`..._refuted : exists ...` (closed witness run through the model) and beside it the strongest
version that does hold.

## 2. Plan per property

| area | properties | modelled | proof shape |
|---|---|---|---|
| serializer | C01-C08 | type universe (numbers/enums of k bytes, strings, pointers, sequences, sets, maps, pairs, tuples, variants), byte streams with their state bits, serialize/deserialize exactly as written (including `success |=`) | structural induction on types; refutations by computation |
| IPC codec | C09-C10 | LocalIPCMessage toBytes/fromBytes on the serializer model | corollary of C01/C03 |
| unix transport | C11-C13 | send/receive loops with read/write results as oracle lists | induction on chunk lists; refutations |
| ids and orders | C14-C16 | allocateNewID as atomic step over 2^64 counter; operator< | invariant over interleavings; order axioms |
| provider | C17-C27 | ServiceProvider + Request state machine, outputs = messages/handler calls/abort callbacks, send outcome oracle | invariants by induction over operation lists, refinement to history functions |
| requester | C28-C35 | ServiceRequester state machine | same |
| end to end | C36-C38 | requester x provider x message soup; ClientBase/ServerBase/LocalIPC client+server | invariants over all schedules |
| queue/processor/router | C39-C45 | small-step interleaving semantics with mutex/atomic granularity | invariants over schedules; refuting schedules |
| timers | C46-C48 | TimerMgr with std heap algorithms | invariants |
| signals/observables | C49-C54 | slot keepers with re-entrant slot scripts | induction |
| waiting for a service status | C121, C122 | monitor with spurious wake-ups and expiries | invariants over schedules |
| synchronous timer | C123, C124 | monitor with executors, re-entrant callbacks | invariants over schedules |
| csmgmt, factories | C125, C126 | one agent per call, one step per critical section | invariants over schedules |
| waitable connections | C127, C128 | one agent per call, one step per critical section; cross-thread calls inside a notification | invariants over schedules |
| slots with executors | C129, C130 | one agent per call, the processor, its queue; one step per hand-over | invariants over schedules; refuting schedules |
| AsyncProcessor | C131, C132 | one agent per call, the launched threads, one step between two points of interference | invariants over schedules; refuting schedules, continued by anything |
| ProcessorChain | C133, C134 | chains as nested functions; histories of construction, copying, then and calls | induction over chains and histories |
| thread pools | C55-C56 | small-step interleaving | invariants |

None of the listed properties is "not applicable": the runtime parts (real threads, clock, OS) are
replaced by nondeterministic inputs; the memory model is sequential consistency at the granularity of
the atomic operations / critical sections of the code.

## 3. Trusted base

* The kernel of Coq 8.16.1 (`coqc`; no `-type-in-type`, no `Unset Guard Checking`, no plugins, no native_compute; `vm_compute`
  is used, so its evaluator is trusted too).
* `Print Assumptions` follows every property theorem in the `*Props*.v` files; every one prints
  "Closed under the global context": no axiom at all, neither of the standard library nor of our own.  (vcheck's list of library
  axioms names `Coq.ssr.ssrunder.Under_rel.*`: parameters of a module type of the standard library that gets loaded with `ssreflect`;
  no theorem depends on them.)
* The reading of the C++ source: each definition of a model cites file and lines of /repo.  Nothing checks that the transcription is faithful.
* The abstractions of section 4.
* The semantics given to threads: sequential consistency, interleaving at the granularity of critical sections, single atomic accesses and
  calls that leave the object.  C++ data races on plain members are undefined behaviour; where we found one it is recorded as such or
  listed in section 4.

How statements are kept honest: a property theorem speaks about the history (calls, returns, messages, callbacks) and about the
definitions of a `*Spec*.v`, not about fields of the model where this can be avoided; each `*Props*.v` has `Example`s that meet the
hypotheses of the theorems on concrete runs; wrong programs (`seeded/LOG.jsonl`) are run against the theorems.  Caveat on the
latter: an edit of a model usually breaks the proof script of a lemma many theorems of the area use, so that "theorem failed" alone says
little; for each seeded edit the theorem that states the broken claim was named beforehand and its *statement* re-read.  The gaps found that way led to
C53 (additions), C99-C115.

## 4. What is modelled and what is not

| area | model | specification and proofs | properties | simplifications (details in the header of the model) |
|---|---|---|---|---|
| serializer, streams | Bytes, SerModel | SerSpec, SerProofs1-5, SerProps | C01-C08, C99 | closed universe of types; no unordered/multi containers, custom comparators, bad_alloc, BasicStreamBuf |
| local IPC codec | IpcModel | IpcSpec, IpcProofs, IpcProps | C09, C10 | three payload classes |
| unix transport | NetModel | NetProofs (theorems there and in IpcProps) | C11-C13, C57 | OS results are inputs; no socket creation, select(), Windows pipes |
| ids, addresses, registration ids | IdModel | IdSpec, IdProofs, IdProps | C14-C16, C57 | - |
| provider, request | ProvModel, ProvRace | ProvSpec, ProvProofs1-4, ProvProps, ProvProps2 | C17-C27, C58, C111 | calls atomic except for racing replies (ProvRace); handlers are events |
| requester | ReqModel | ReqSpec, ReqObsSpec, ReqSyncSpec, ReqSerSpec, ReqSpec2; Req*.v; ReqProps, ReqProps2 | C28-C35, C59-C63, C112, C115 | threads at lock granularity; callbacks do not throw |
| requester x provider | E2eSpec (composition) | E2eProofs1-2, E2eProps | C36, C97, C98 | network may lose, reorder, duplicate, never invents |
| server object | SrvModel | SrvSpec, SrvSpec2, SrvProofs1-8, SrvProps, SrvProps2, CsProps | C37, C38, C91-C94, C113 | provider = its answer |
| client object | CliModel | CliSpec, CliSpec2, CliProofs1-7, CliProps, CliProps2 | C37, C38, C94-C96, C114 | requester = its answer |
| typed stub | StubModel (on ProvModel) | StubSpec, StubProofs1-5, StubProps | C116-C118 | executor = bag of accepted tasks |
| typed proxy | ProxyModel (on ReqModel) | ProxySpec, ProxyProofs1-4, ProxyProps | C119, C120 | translation = function of the content |
| queue | QueueModel | QueueSpec, QueueProofs1-4, QueueProps | C39, C40, C64, C65, C100, C101 | container = list with oracle for front() |
| processor | ProcModel (on QueueModel, SigModel) | ProcSpec, ProcSpec2, ProcProofs1-40, ProcProps, ProcProps2 | C41-C43, C76-C81, C106-C109 | user code does not throw |
| routing | RouteModel | RouteSpec, RouteSpec2, RouteProofs1-10, RouteProps, RouteProps2 | C44, C45, C86-C90, C110 | processor = stopped flag + handled types |
| timers | TimerModel | TimerSpec, TimerProofs1-4, TimerProps | C46-C48, C72-C75 | heap = list with minimum in front |
| signals | SigModel | SigSpec, SigProofs1-10, SigProps, SigProps2 | C49-C52, C66-C68, C102 | one signal; FutureInvocation not modelled |
| observables, compounds | ObsModel, CompModel (on SigModel) | ObsSpec, ObsProofs1-8, CompProofs, ObsProps, ObsProps2, CompProps | C53, C54, C69-C71 | slots do not throw |
| waiting for a service status | WaitModel | WaitSpec, WaitProofs, WaitProps | C121, C122 | signal not destroyed while in use |
| csmgmt, factories | FacModel | FacSpec, FacProofs1-6, FacProps | C125, C126 | clients / servers = numbers, their life modelled elsewhere |
| waitable connections | FutModel | FutSpec, FutProofs1-6, FutProps | C127, C128 | values are numbers; one wait at a time on one FutureInvocation |
| slots with executors | ExecModel | ExecSpec, ExecProofs1-5, ExecProps | C129, C130 | values are numbers; slots do not use the signal (SigModel does); unbounded queue |
| AsyncProcessor | AsyncModel | AsyncSpec, AsyncProofs1-7, AsyncProps | C131, C132 | what the queue holds is up to the schedule (ProcModel has it); threadInit and threadDeinit do not throw |
| ProcessorChain | ChainModel | ChainSpec, ChainProps | C133, C134 | values are numbers; functions keep no state; a moved-from std::function is empty |
| thread pools | PoolModel (on QueueModel) | PoolSpec, PoolProofs1-8, PoolProps, PoolProps2 | C55, C56, C82-C85, C103-C105 | setMaxThreadCount not modelled |
Shared: CsTypes (opcodes, statuses, payloads, messages), Amap (association maps), ListUtil.

Not modelled: executor variants of observables, Dumper, AggregateCompare and the
field-listing macros, Json11Trait, logging, TimeMeasurement, the Windows named pipes, SocketShared (socket creation, select loop,
descriptor table), Upcoming, AsyncServiceStatusObserver and
ServiceStatusObserverDelegater, BasicStreamBuf, the samples and the test programs.

"partial" in MANIFEST.json: the property as a user would state it is false of the code (a `_refuted` theorem gives a run of the model
that violates it) or needs a hypothesis; the `_partial` theorem is the strongest version we could prove.

## 5. Property by property

* **C01** Serialization round trip (proved): `C01_roundtrip`, `C01_wire_format`, `C01_empty_struct_refuted`. Round trip for every type of the universe except empty structs/tuples, for which the code always reports failure (C01_empty_struct_refuted).
* **C02** serializedSize is exact (proved): `C02_size`. Every type that has a serializedSize overload (no variant).
* **C03** Concatenated values are self delimiting (proved): `C03_batch`. 
* **C04** The encoding is unambiguous (proved): `C04_prefix_free`. 
* **C05** Input stream never reads out of bounds, failure is sticky (partial): `C05_stream`, `C05_sticky`, `C05_reset`, `C05_in_bounds`, `C05_huge_size_refuted`. Holds for read sizes below 2^63 and for every use of the stream by deserialize; refuted for sizes near 2^64 (pos+size wraps). clear() does not revive a failed stream (Good is never set again), reset() does.
* **C06** Truncated input is reported (partial): `C06_truncated_sets_fail`, `C06_truncated_returns_false_partial`, `C06_truncated_returns_false_refuted`, `C06_accepted_input_is_an_encoding`, `C06_bad_variant_index_swallowed_refuted`. The stream fail bit is always set; the return value reports it only for the types in [reports]; refuted for sequences, maps, pairs, structs, pointers.
* **C07** Malformed input cannot blow up the result (partial): `C07_bounded_refuted`, `C07_uninitialised_refuted`, `C07_bounded_partial`. Refuted: 4 bytes give any number (<2^32) of elements. Proved when the stream did not fail.
* **C08** Reading replaces the previous contents of the target (partial): `C08_into_existing`, `C08_overwrites_partial`, `C08_overwrites_refuted`. Exact result of reading into an existing object proved for all types; overwriting refuted for sequences, maps and empty strings.
* **C09** IPC message round trip (proved): `C09_error_roundtrip`, `C09_data_roundtrip`, `C09_truncated`. Round trip for error and data payloads; null payloads see C10. Also: no strict prefix of a message is taken for an intact one.
* **C10** A message without payload stays without payload over IPC (partial): `C10_null_payload_refuted`. Refuted for every payload-less message; exact observable behaviour proved (empty data payload, translation gives null + SourceCorrupted).
* **C11** Transport framing is independent of how the OS splits the bytes (proved): `C11_framing`, `C11_transport`, `C11_split_length_refuted`. Any chunking of the body; the 4 length bytes must arrive in one read (otherwise the message is lost: C11_split_length_refuted).
* **C12** A misbehaving peer cannot corrupt or hang the receiver (partial): `C12_no_overflow_partial`, `C12_overflow_refuted`, `C12_termination_refuted`. Safe only for peers that send at most what they announced; overflow and endless loop refute the full claim.
* **C13** send() reports Success only if the whole message was written (partial): `C13_success_means_sent_partial`, `C13_only_a_prefix`, `C13_success_means_sent_refuted`, `C13_oversize_refuted`. Holds when no write fails; refuted when one does and for payloads of 2^32 bytes or more.
* **C14** Allocated ids are valid and pairwise distinct (proved): `C14_ids_unique`, `C14_allocation_terminates`. 
* **C15** Addresses can be used as map keys (partial): `C15_address_order_same_port_partial`, `C15_address_order_same_name_partial`, `C15_address_order_refuted`. operator< is a strict order among addresses with the same port or the same name; refuted in general (not even asymmetric).
* **C16** Registration ids are ordered consistently (partial): `C16_regid_order_partial`, `C16_regid_order_refuted`, `C16_same_operation_equivalent_refuted`. A strict partial order (irreflexive, transitive); not a strict weak order, and any two ids of one operation are equivalent.
* **C17** Every incoming request reaches its handler or is answered with an error (proved): `C17_request_dispatch`, `C17_handlers_called_only_for_requests`. 
* **C18** At most one final response per request (proved): `C18_at_most_one_final_per_request_message`, `C18_at_most_one_final`, `C18_replies_exact`, `C18_no_undefined_behaviour`, `C18_colliding_ids_refuted`. 
* **C19** Partial updates keep the request open and are delivered in order (proved): `C19_partial_update_keeps_open`, `C19_replies_only_from_replying`, `C18_replies_exact`, `C19_update_after_final_refuted`. Sequential histories; the racing case is refuted (C19_update_after_final_refuted, counted under C22).
* **C20** Abort stops a request exactly once (proved): `C20_abort_exact`, `C20_abort_unknown`, `C20_callback_at_most_once_partial`, `C20_callback_race`, `C18_replies_exact`, `C20_callback_twice_after_deinit_refuted`, `C20_callback_without_abort_refuted`. The at-most-once theorem excludes histories with deinit, after which it is refuted.
* **C21** Clients cannot interfere with each other's requests (partial): `C21_other_keys_do_not_interfere_partial`, `C21_abort_by_other_client_refuted`. Proved for requests with different keys; refuted: an abort is matched by request id alone.
* **C22** Concurrent replies to one request are safe (partial): `C22_one_outcome`, `C22_safe_partial`, `C22_null_dereference_refuted`, `C19_update_after_final_refuted`. At most one final outcome always; no null dereference if at most one of the concurrent calls answers or aborts; refuted otherwise.
* **C23** Status property: readers see the last value set, subscribers hear exactly the changes (proved): `C23_get_status`, `C23_status_get_request`, `C23_unchanged_is_silent`, `C23_change_notifies_subscribers`, `C23_null_over_unset_notifies_refuted`. 
* **C24** Subscribers get the current value and every later change until they unregister (proved): `C24_notifications_exact`, `C24_subscriber_in_step`. 
* **C25** Unreachable clients are dropped, busy ones retried once (proved): `C25_unreachable_dropped_busy_retried`. 
* **C26** Broadcasting reports whether somebody was reached (partial): `C26_broadcast_result_partial`, `C26_inverted_refuted`. Exact result proved; it is the opposite of the documented one.
* **C27** Shutting a provider down leaves nothing behind (partial): `C27_deinit_clears`, `C27_deinit_refuses_replies`, `C27_deinit_runs_callbacks_once_partial`, `C27_second_deinit_repeats_refuted`. Tables empty and late replies refused always; callbacks once for the first deinit, refuted for a second one.
* **C28** A response reaches the callback of its own request, at most once (proved): `C28_answer_runs_the_callback_once`, `C28_at_most_one_final_answer`, `C28_only_its_own_answers`, `C28_unknown_id_runs_nothing`. Fewer than 2^64-1 calls.
* **C29** No callback after abort or loss of the service (proved): `C29_aborted_request_is_never_answered`, `C29_no_answer_after_service_lost`, `C29_no_answer_after_deinit`, `C29_abort_sent_at_most_once`, `C29_abort_of_pending_request_is_sent`. For asynchronous requests; the abort sent by a synchronous request that timed out is in C35.
* **C30** A request that could not be sent leaves no trace (proved): `C30_failed_request_is_never_answered`, `C30_failed_registration_is_never_called`, `C30_failed_request_changes_nothing`. Equality of all later behaviour is proved for a failing call that did not overlap others; for overlapping calls: its callback is never run.
* **C31** Server registration follows local subscribers (proved): `C31_register_sent_for_first_subscriber_only`, `C31_unregister_sent_when_none_is_left`, `C31_unregister_all_sends_one`. 
* **C32** Each update reaches every local subscriber once, in registration order (proved): `C32_update_reaches_each_subscriber_once`, `C32_never_more_than_once`, `C32_only_its_own_updates`, `C32_in_registration_order`, `C32_not_called_after_service_lost`, `C32_not_called_after_unregister`. 
* **C33** Cached status is the last update (proved): `C33_known_status_is_answered_locally`, `C33_late_subscriber_gets_the_last_update`. 
* **C34** Service status observers see a consistent chain of changes (proved): `C34_each_change_is_told_once`, `C34_statuses_change`, `C34_told_in_order`, `C34_new_observer_is_told_at_once`. 
* **C35** A synchronous request has exactly one outcome (proved): `C35_every_return_has_a_reason`, `C35_returns_once`, `C35_nothing_after_the_return`, `C35_answered_call_returns`, `C35_bounded_call_returns`, `C35_call_returns_when_service_lost`. Progress is stated as: after eight further steps of the call.
* **C36** End to end: responses are never mixed up (proved): `C36_answers_are_never_mixed_up`, `C36_at_most_one_final_answer`, `C36_synchronous_result_is_the_servers`. One client with any number of threads composed with the provider (any other clients) through a network that may lose, duplicate and reorder but not invent; fewer than 2^64-1 calls.
* **C37** One requester/provider per service id, messages routed by service id (proved): `C37_same_provider`, `C37_one_service_per_provider`, `C37_server_dispatch`, `C37_same_requester`, `C37_one_service_per_requester`, `C37_client_dispatch`. Every interleaving of any number of threads on the server and on the client; until deinit().
* **C38** Clients learn which services are available (proved): `C38_clients_are_told`, `C38_nothing_told_without_provider`, `C38_answers`, `C38_requesters_are_told`, `C38_end_to_end`, `C38_end_to_end_requester`. Server side, client side and both composed; concurrent threads. Violations outside the hypotheses are C91, C92, C93, C96.
* **C39** Queue is FIFO and loses/duplicates nothing (proved): `C39_first_in_first_out`, `C39_each_call_at_most_once`, `C39_every_push_arrives`, `C39_every_sequence_arrives`, `C39_earlier_push_is_in_front`, `C39_size_is_exact`. 
* **C40** A closed queue hands out nothing, and consumers do not sleep beside elements (proved): `C40_closed_queue_gives_and_takes_nothing`, `C40_close_wakes_the_sleeping`, `C40_woken_consumer_returns`, `C40_no_sleep_beside_an_element`. 
* **C41** A processor runs accepted executions one at a time, in order (proved): `C41_in_order`, `C41_at_most_once`, `C41_started_in_order`, `C41_one_at_a_time`, `C41_nothing_after_stop`, `C41_starts_after_stop`, `C41_refused_never_runs`, `C41_accepted`, `C41_no_lost_wakeup`. 
* **C42** Posting needs a handler; messages are handled by the handlers connected when they are processed (proved): `C42_refused`, `C42_taken`, `C42_handled`, `C42_nobody_missed`, `C42_connect`, `C42_disconnect`. 
* **C43** execute() runs inline on the own thread and is queued otherwise (proved): `C43_inline_is_own`, `C43_queued_is_other`, `C43_runs_before_return`, `C43_queued_before_return`, `C43_not_refused`, `C43_refused_when_stopped`. 
* **C44** Routing by id reaches the one joined processor (proved): `C44_join_only_when_free`, `C44_leave_only_by_stop`, `C44_find_tells_the_joined_one`, `C44_second_creation_yields_null`, `C44_created_is_joined`, `C44_post_reaches_the_joined_one`, `C44_post_to_all`. 
* **C45** Stopping a processor removes only itself from routing (proved): `C45_stop_removes_only_itself`, `C45_stopped_has_left`, `C45_stays_joined`, `C45_other_ids_untouched`. 
* **C46** Timers fire when due, in order of their due times (proved): `C46_only_running_timers_fire`, `C46_stopped_timer_is_silent`, `C46_one_shot_fires_once`, `C46_never_early`, `C46_running`, `C46_in_order`, `C46_sleeps_until_the_first`, `C46_fires_when_due`, `C46_no_undefined_behaviour`. 
* **C47** Cyclic timers do not drift (proved): `C47_never_before_its_time`, `C47_no_sleep_beyond_it`. 
* **C48** Restarting a running timer (proved): `C48_restart_defers`, `C48_restart_is_due`. 
* **C49** A signal calls exactly its connected slots, in connection order (proved): `C49_only_connected_slots_in_order`, `C49_nobody_is_missed`, `C49_emission_goes_on`. 
* **C50** Connections can be cut and restored (proved): `C50_connected_is_exact`, `C50_disconnect`, `C50_reconnect`, `C50_scoped_connection`, `C50_dead_objects_are_not_called`, `C50_destroyed_signal_calls_nobody`. For connections of slots given by value; a SlotPtr may be connected several times, and then connected() tells whether it is connected at all.
* **C51** Signals survive re-entrancy and exceptions (partial): `C51_safe_partial`, `C51_clear_inside_a_slot_refuted`, `C51_throwing_slot_refuted`. Proved when no slot throws, clears or emits; refuted otherwise.
* **C52** Single-slot signals hold at most one slot (proved): `C52_at_most_one_slot`, `C52_first_slot_is_kept`, `C52_one_call_per_emission`, `C52_the_slot_is_called`. 
* **C53** Observables notify exactly on change, after the change (proved): `C53_value_and_signal`, `C53_set_the_same`, `C53_set_another`, `C53_everybody_learns`, `C53_told_the_current_value`, `C53_told_a_value_that_was_set`, `C53_silent_set`, `C53_reference`, `C53_new_observer`, `C53_new_observer_is_told`, `C53_set_all_the_same`, `C53_set_all_another`, `C53_only_observers_are_told`, `C53_observers_were_accepted`, `C53_refused`. 
* **C54** Compound observables mirror their components (proved): `C54_is_an_observable`, `C54_mirrors`. The variants with an executor are not modelled.
* **C55** A thread pool runs each task at most once and finishes each exactly once (proved): `C55_at_most_once`, `C55_order`, `C55_every_task_is_finished`, `C55_quiet_after_shutdown`, `C55_nothing_happens_after_shutdown`, `C55_stops_what_is_executed`. All three pools, any number of threads; run/stop/done of a task are events; null tasks and exceptions are not modelled.
* **C56** Priority pool serves the highest priority pending task first (proved): `C56_highest_priority_first`, `C56_nothing_is_lost`, `C56_thread_takes_highest_priority`, `C56_thread_takes_oldest`. 
* **C57** Different addresses are different receivers (partial): `C57_socket_name`, `C57_port_ignored_refuted`. Exact characterisation of socket identity proved; the ports-matter half is refuted.
* **C58** Server-side listeners hear exactly the broadcasts of their operation (proved): `C58_server_side_listeners`. 
* **C59** Losing the service leaves no request pending (partial): `C59_request_survives_loss_of_service_refuted`. Refuted by a concrete schedule; C29 is the part that holds.
* **C60** The server is registered at exactly while there are local subscribers (partial): `C60_stale_unregister_is_sent_refuted`, `C60_racing_registration_without_register_refuted`. Refuted; C31 is the part that holds.
* **C61** A status remembered from a lost service is never reported as current (partial): `C61_status_survives_service_restart_refuted`, `C61_null_status_update_refuted`. Refuted; C33 is the part that holds.
* **C62** Overlapping status reports (partial): `C62_change_told_twice_refuted`, `C62_stale_status_told_last_refuted`. Refuted; C34 is the part that holds.
* **C63** Synchronous requests never disturb the receiver and never wait in vain (partial): `C63_final_after_partial_throws_refuted`, `C63_unbounded_wait_after_loss_refuted`. Refuted; C35 is the part that holds.
* **C64** close() always releases the consumers (partial): `C64_refuted`. Refuted: no step of any call releases the consumer. C40 is the part that holds.
* **C65** A queue can be closed and reopened while consumers wait (partial): `C65_no_undefined_behaviour_without_reopen_partial`, `C65_refuted`. Refuted with reOpen, proved without.
* **C66** connectionCount() and connected() are exact (partial): `C66_count_partial`, `C66_connected_partial`, `C66_refuted`. Refuted after a disconnect inside an emission; lower bound always, exact otherwise.
* **C67** Every single-connection signal type holds at most one slot (partial): `C67_except_the_shared_mutex_one_partial`, `C67_refuted`. Refuted for SharedMutexSCSignal.
* **C68** A slot is not destroyed while it runs (partial): `C68_kept_connections_partial`, `C68_dead_object_refuted`, `C68_self_cutting_slot_refuted`. Refuted for self-owning slots; proved for kept plain slots.
* **C69** Every way of connecting tells the new observer the current value (partial): `C69_callable_objects_partial`, `C69_refuted`. Proved for callable objects, refuted for the other overloads.
* **C70** Observers are up to date (partial): `C70_up_to_date_partial`, `C70_nested_references_refuted`, `C70_set_in_an_observer_refuted`. Proved for callable observers whose observable has announced its last change; refuted otherwise.
* **C71** A compound observable can only be changed through its components (partial): `C71_changed_directly_refuted`, `C71_silent_component_refuted`. Refuted; C54 is the part that holds.
* **C72** A slow task cannot upset the timers (partial): `C72_timer_lost_and_processor_hung_refuted`, `C72_fires_early_refuted`. Refuted; C46 is the part that holds.
* **C73** A timer may be stopped or destroyed on any thread (partial): `C73_silent_partial`, `C73_stopped_elsewhere_refuted`. Refuted; the timer is silent.
* **C74** restart() works for timers that are not running (partial): `C74_restarted_timer_is_dead_refuted`, `C74_restart_of_the_only_timer_refuted`. Refuted; C48 is the part that holds.
* **C75** A timer may be started by its own callback (partial): `C75_started_by_its_callback_refuted`. Refuted.
* **C76** true means that the execution will run (partial): `C76_true_but_dropped_refuted`, `C76_future_without_task_refuted`. Refuted; C41_accepted is the part that holds.
* **C77** A message is only taken if somebody can handle it (partial): `C77_taken_without_handler_refuted`. Refuted; C42_taken is the part that holds.
* **C78** A handler may send messages of its own type to its own processor (partial): `C78_own_type_inside_handler_refuted`, `C78_only_then_partial`. Refuted; no other way to fail the assertion.
* **C79** Calls on a processor return (partial): `C79_deadlock_refuted`. Refuted.
* **C80** execute() from an execution of the same processor is synchronous (partial): `C80_nested_run_refuted`. Refuted; C43 is the part that holds.
* **C81** An execution of a processor runs on the thread that runs the processor (partial): `C81_foreign_thread_refuted`. Refuted; C43_inline_is_own is the part that holds.
* **C82** shutdown() of a thread pool returns once the running tasks have (partial): `C82_shutdown_hangs_refuted`. The code violates the property; the theorem shows it for every continuation without spurious wake-ups.
* **C83** Every task handed to a pool is finished (partial): `C83_task_forgotten_refuted`. The code violates the property; the strongest true version is C55_every_task_is_finished.
* **C84** Destroying a pool is safe (partial): `C84_run_after_shutdown_refuted`, `C84_fixed_pools_partial`. Violated for the dynamic pool, proved for the others.
* **C85** shutdown() asks every task that it waits for to stop (partial): `C85_started_after_stop_refuted`, `C85_stopped_before_start_refuted`. The code violates the property; what it does guarantee is C55_stops_what_is_executed.
* **C86** create() never returns a processor that is not reachable under its id (partial): `C86_both_created_one_reachable_refuted`. Refuted for every continuation; C44_created_is_joined is the part that holds.
* **C87** stop() never removes another processor from routing (partial): `C87_successor_removed_refuted`, `C87_successor_removed_by_second_stop_refuted`. Refuted; C45 is the part that holds.
* **C88** A reused processor is reachable again (partial): `C88_reused_not_reachable_refuted`, `C88_never_joins_again`. Refuted for every continuation and, as C88_never_joins_again, for every history.
* **C89** Processors are told who is reachable (partial): `C89_told_of_new_processor`, `C89_told_of_leaving_processor`, `C89_new_processor_told_nothing_refuted`. The first part is proved, the second refuted for every history.
* **C90** Calls into routing return (partial): `C90_calls_return_partial`, `C90_send_to_all_hangs_refuted`. Proved without re-entrant handlers, refuted with them.
* **C91** Deinitialising a server tells its clients (partial): `C91_deinit_tells_nobody_refuted`. Refuted; true for single services by C38_clients_are_told.
* **C92** Clients agree about a service (partial): `C92_clients_agree_partial`, `C92_start_stop_race_refuted`. Proved for one start/stop at a time, refuted for concurrent ones.
* **C93** Status updates are not lost (partial): `C93_refused_update_is_lost_refuted`. Refuted; with accepted messages true by C38_clients_are_told.
* **C94** A client that deinitialises is forgotten by the server (partial): `C94_leaving_never_unregisters`, `C94_gone_client_still_notified_refuted`. Refuted.
* **C95** A client registers with its server exactly until that succeeded (proved): `C95_registers_until_sent`, `C95_registers_once`. 
* **C96** A client notices that its server was replaced (partial): `C96_restarted_server_unnoticed_refuted`. Refuted; C95_registers_once shows that no further registration is sent.
* **C97** End to end: a get answers with a value the property really had (proved): `C97_get_callback`, `C97_get_result`. Same composition as C36.
* **C98** End to end: subscribers see real values only (proved): `C98_subscribers_see_real_values`. Same composition as C36.
* **C99** A failed read leaves the object as it was (partial): `C99_failed_read_keeps_partial`, `C99_failed_read_keeps_refuted`. Proved for every type built from numbers, containers, smart pointers and variants; refuted for strings and raw pointers.
* **C100** The answers of a queue are true when they are given (proved): `C100_empty_handed_for_cause`, `C100_empty_is_exact`, `C100_is_closed_is_exact`, `C100_consumer_takes_what_is_there`, `C100_reopen_opens`, `C39_size_is_exact`. 
* **C101** A queue never gets stuck (proved): `C101_never_stuck`, `C101_priority_queue_never_stuck`, `C101_everything_is_handed_out`. 
* **C102** Every call on a signal has exactly its effect (proved): `C102_connect`, `C102_connect_ptr`, `C102_disconnect_ptr`, `C102_disconnect_all`, `C102_emit`, `C102_emission_once`, `C102_nothing_after_the_end`. 
* **C103** The number of threads of a pool (partial): `C103_fixed_pools`, `C103_dynamic_pool_limit`, `C103_dynamic_pool_exact`, `C103_never_fewer`, `C103_dynamic_pool_limit_refuted`. Proved for the fixed pools and for a dynamic pool whose run() calls do not overlap; refuted for overlapping ones. setMaxThreadCount is not modelled.
* **C104** Every task given to a pool gets executed (proved): `C104_every_task_gets_executed`, `C104_idle_when_done`. 
* **C105** Only the lost wake-up can keep a shutdown from completing (proved): `C105_shutdown_completes`. The wake-ups the code itself may lose are C82.
* **C106** The calls of a processor that submit nothing (proved): `C106_stopped`, `C106_stopped_changes`, `C106_new_is_not_stopped`, `C106_stop`, `C106_reuse`, `C106_pending`, `C106_connected`, `C106_table_changes`, `C106_disconnect_type`, `C106_disconnect_one`, `C106_reconnect`, `C106_handlers_change`. 
* **C107** connected(type) tells whether messages of the type are handled (partial): `C107_not_connected_partial`, `C107_connected_refuted`. The property is false of the code: the answer is about the table entry, not about handlers.
* **C108** A reconnected handler gets messages again (partial): `C108_reconnected_partial`, `C108_reconnected_refuted`. Proved when disconnect(type) is never called on the processor; refuted otherwise.
* **C109** What a run loop does, and what it returns (proved): `C109_run_loop`. Deadlines are a scheduler action (ATimeout), so "its time was up" is an action of the history.
* **C110** What each routing call does, and who causes what (proved): `C110_send_to_all`, `C110_post_to_all_once`, `C110_stop_closes`, `C110_reuse_opens`, `C110_connect_listens`, `C110_disconnect_silences`, `C110_causes`, `C110_who_posts`. 
* **C111** The remaining calls of a provider, and everything it sends (proved): `C111_register_handler`, `C111_unregister_handler`, `C111_start_announces`, `C111_only_start_and_stop_announce`, `C111_availability`, `C111_foreign_message`, `C111_unregister`, `C111_silent`, `C111_on_aborted`, `C111_everything_sent`. 
* **C112** Everything a call of a requester does; observers of the service status (proved): `C112_course`, `C112_course_so_far`, `C112_only_observers_are_told`, `C112_unobserved_is_not_told`, `C112_thrown_observer_is_dropped`. 
* **C113** The remaining calls of the server (proved): `C113_has_provider`, `C113_everything_told`, `C113_unregistered_is_not_told`, `C113_unreachable_is_forgotten`, `C113_unregister_reaches_all`, `C113_freed_at_most_once`, `C113_deinit_frees_all`, `C113_freed_by_deinit_only`, `C113_new_after_deinit`, `C113_results`. 
* **C114** The remaining calls of the client (proved): `C114_has_requester`, `C114_everything_told`, `C114_registered_when_present`, `C114_unregistered_by_deinit`, `C114_deinit_unregisters_known`, `C114_freed_at_most_once`, `C114_deinit_frees_all`, `C114_freed_by_deinit_only`, `C114_new_after_deinit`, `C114_forgotten`, `C114_results`. The server must not have been lost meanwhile and deinit called once for the exact count of unregistrations.
* **C115** Every call of a requester reports its outcome (partial): `C115_reports_partial`, `C115_second_subscription_refuted`, `C115_abort_refuted`, `C115_get_status_refuted`. Every call except registerSignal and abortRequest reports an outcome; refuted for those two, and the success reported by getStatus with a callback can be wrong.
* **C116** A request given to a typed handler is answered, even if the handler forgets it (proved): `C116_every_request_is_answered`, `C116_open_request_is_somewhere`, `C116_one_place`, `C116_replies_through_handle`, `C116_valid_means_unanswered`, `C116_move`. 
* **C117** A registered handler serves every request (proved): `C117_register`, `C117_no_executor`, `C117_request_reaches_the_executor`, `C117_task_calls_the_function`, `C117_only_the_function`, `C117_at_most_once`, `C117_bad_call_only_if_empty`. 
* **C118** No request gets lost between provider and user (partial): `C116_refused_task_never_answered_refuted`, `C116_overwritten_handle_refuted`, `C117_empty_handler_accepted_refuted`, `C116_open_request_is_somewhere`. Refuted in three ways; these are the only ways in which an open request gets out of reach (C116_open_request_is_somewhere).
* **C119** Typed callbacks and results of a proxy (proved): `C119_below`, `C119_refused`, `C119_only_what_arrived`, `C119_never_used_up`, `C119_nothing_lost`, `C119_in_order`, `C119_results`, `C119_sync_response`, `C119_error_means`, `C119_answered_at_most_once`. 
* **C120** A proxy tells the user when a callback cannot be called or content is incomplete (partial): `C120_no_executor_no_answer_refuted`, `C120_refused_signal_unreported_refuted`, `C120_corrupted_content_passed_on_refuted`, `C119_refused`. Refuted: sendRequestAsync without executor sends the request and never calls back; a refused registerSignal<Signal> leaves callStatus unassigned; SourceCorrupted content is passed on. The other refusals are reported (C119_refused).
* **C121** Waiting for a status of a service (proved): `C121_ready`, `C121_interrupted`, `C121_timeout`, `C121_current`, `C121_told_and_stopped_by_calls`, `C121_returns_once`, `C121_no_lost_wakeup`, `C121_timed_returns`, `C121_others_never_block`. 
* **C122** A wait does not miss a status (partial): `C122_short_change_is_missed_refuted`, `C122_ready_without_news_refuted`, `C121_no_lost_wakeup`. Refuted: a status that changes back before the waiter looks is missed (the wait goes on forever); a fresh signal answers Ready for Unavailable without having been told anything. If the status stays, the wait returns (C121_no_lost_wakeup).
* **C123** A synchronous timer fires when due, and never after stop() (proved): `C123_never_early`, `C123_stopped_is_silent`, `C123_takes_effect`, `C123_returns`, `C123_running`, `C123_due_fires`, `C123_stop_ends`, `C123_one_shot`, `C123_callback_is_there`. 
* **C124** A synchronous timer can be restarted, replaced and stopped at any time (partial): `C124_restart_does_nothing_refuted`, `C124_replaced_start_fires_refuted`, `C124_nested_start_cannot_be_stopped_refuted`, `C124_empty_callback_refuted`, `C123_stop_ends`. Refuted in four ways: restart() only wakes the waiter, which goes on waiting; the replaced start may overlook that it was stopped, fires, and its return switches the new start off; a start made by the callback waits with the mutex held; the callback is moved into the executor and empty if the timer was made cyclic meanwhile. With a single start in progress stop() works (C123_stop_ends).
* **C125** csmgmt hands out one requester per connection and service, and shuts everything down (proved): `C125_same_for_everyone`, `C125_one_inside_the_process`, `C125_different_otherwise`, `C125_null_only_when`, `C125_unknown_type_null`, `C125_got_is_connected`, `C125_failed_never_started`, `C125_connected_once`, `C125_started_once`, `C125_only_shutdown_closes`, `C125_taken_down_once`, `C125_shutdown_complete`, `C125_stop_before_deinit`, `C125_new_server_after_shutdown`, `C125_returns_once`, `C125_never_deadlocks`. A provider made on an already closed server is excepted from being taken down (C126).
* **C126** After a shutdown csmgmt can be used afresh and nothing old stays alive (partial): `C126_closed_clients_are_handed_out_refuted`, `C126_in_process_never_taken_down_refuted`, `C126_provider_on_closed_server_refuted`, `C125_shutdown_complete`, `C125_new_server_after_shutdown`. Refuted in three ways: closed clients stay in the factory and are handed out again, stopped, without a new init; requesters and providers inside the process are never taken down; a get that overlaps with shutdownAllServers makes a provider on a closed server which no later shutdown finds. The true part: C125_shutdown_complete, C125_new_server_after_shutdown.
* **C127** A waitable connection delivers the first notification to the waiting thread, once (proved): `C127_slot`, `C127_once`, `C127_returns_once`, `C127_results`, `C127_true_iff_slot`, `C127_notify_reaches`, `C127_first_notification`, `C127_cancelled`, `C127_broken`, `C127_own_connection`, `C127_wait_returns`, `C127_time_up`, `C127_fired_is_handled`. 
* **C128** A wait does not outlive its connection, and no notification is lost (partial): `C128_wait_after_cancel_hangs_refuted`, `C128_missed_notification_refuted`, `C128_slot_after_cancel_refuted`, `C128_empty_only_if_lost`, `C128_cancel_before_firing_partial`. Refuted in three ways: an untimed wait on a connection cancelled before it fired never returns (the connection keeps the slot with its promise for a reconnect); a notification between connect and the check connected() is lost and an empty FutureInvocation is returned; cancel after the firing does not prevent the slot from being called. True: a cancel that returns before the firing prevents the call for good.
* **C129** A slot with an executor gets every notification, in order, on its processor (proved): `C129_every_slot_in_order`, `C129_who_runs_it`, `C129_run_on_processor`, `C129_at_most_once`, `C129_in_order`, `C129_nothing_lost`, `C129_blocking_waits`, `C129_posted_is_dealt_with`, `C129_notify_returns`, `C129_call_returns`, `C129_returns`. 
* **C130** Executors do not weaken what a signal promises (partial): `C130_run_after_disconnect_refuted`, `C130_silently_lost_refuted`, `C130_overtaken_refuted`, `C130_deadlock_refuted`, `C130_after_disconnect_partial`, `C130_async_in_order_partial`. Refuted in four ways: a slot with the default or asynchronous executor runs after disconnect returned; notify returns though a stopped processor refused the value; with the default executor code on the processor overtakes the queue; with the blocking executor notify waits for the processor with the mutex held, and code on the processor that uses the signal waits for it: neither returns until the processor is stopped. True: after disconnect nothing new is handed over, and without executor, with the direct or the blocking one nothing runs; the asynchronous executor keeps the order.
* **C131** An AsyncProcessor runs its processor on one thread and leaves none behind (proved): `C131_launch`, `C131_run_order`, `C131_ends_only_if_stopped`, `C131_running_exact`, `C131_wait_means_ended`, `C131_nothing_left`, `C131_no_stray`, `C131_assign_waits`, `C131_threw`, `C131_stop_wait_returns`, `C131_returns_once`. 
* **C132** stopAndWait, launch, move assignment and destruction of an AsyncProcessor do what they say (partial): `C132_launch_does_nothing_refuted`, `C132_assign_blocks_refuted`, `C132_self_wait_refuted`, `C132_lost_stop_refuted`, `C132_reuse_overtakes_refuted`, `C132_terminate_refuted`, `C131_stop_wait_returns`. Refuted in six ways: launch starts nothing if the outcome of a thread that has ended was not collected by a wait, and running() says true; move assignment waits for the old thread without stopping its processor; stopAndWait by an execution waits for its own thread; stop, which does not take the mutex of the queue, may wake nobody just before the thread goes to sleep; reuse takes back a stop that the thread has not noticed; if an execution threw, the destructor ends the program. True: a wait on a stopped processor can always end by its own steps and those of the thread, spurious wake-ups included, if the thread is not within an execution (C131).
* **C133** A ProcessorChain runs its functions in the order in which they were added (proved): `C133_call_exact`, `C133_composition`, `C133_throw`, `C133_valid_exact`, `C133_then_exact`. 
* **C134** A ProcessorChain stays usable (partial): `C134_then_empties_the_chain_refuted`, `C134_valid_but_throws_refuted`, `C134_connected_is_inverted_refuted`, `C134_no_dud_partial`. Refuted in three ways: then moves the functions out of the chain, which then returns the default value; a chain made by then from such a chain says it is valid and always throws; connected() is the negation of valid(). True: if no chain is used to make another after then was called on it, every other chain runs its functions.
