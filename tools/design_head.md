# sepcon/maf in Rocq: design

(First version, written before the proofs; section 4 is kept current as the model grows.)

## 1. Method

The code in /repo is read as text and transcribed into total, computable Gallina functions
(`rocq/theories/*Model.v`).  Stateful classes become a record plus one function per method
(`state -> args -> state * outputs`), loops become structural recursion, external effects
(send over a transport, `read`/`write` results, clock, slot bodies, scheduler choices) become
explicit inputs of the step functions, so that a theorem "for all inputs" ranges over all of
them.  Undefined behaviour (null dereference, iterator invalidation, buffer overrun, violated
std-algorithm precondition) is a distinct outcome, never assumed away.

Each area has
* `XModel.v`   the transcription, every definition citing file:lines of /repo,
* `XSpec.v`    (when needed) a small specification that does not use the model's helpers,
* `XProofs.v`  lemmas,
* `XProps.v`   only the property theorems (`exact lemma.` + `Print Assumptions`) and the `Example`s that
  show their hypotheses can be met.

Where the code violates the property as a user would state it, there is a theorem
`..._refuted : exists ...` (closed witness run through the model) and beside it the strongest
version that does hold.

## 2. Plan per property

| area | properties | modelled | proof shape |
|---|---|---|---|
| serializer | C01-C08 | type universe (numbers/enums of k bytes, strings, pointers, sequences, sets, maps, pairs, tuples, variants), byte streams with their state bits, serialize/deserialize exactly as written (including `success |=`) | structural induction on types; refutations by computation |
| IPC codec | C09-C10 | LocalIPCMessage toBytes/fromBytes on the serializer model | corollary of C01/C03 |
| unix transport | C11-C13 | send/receive loops with read/write results as oracle lists | induction on chunk lists; refutations |
| ids and orders | C14-C16 | allocateNewID as atomic step over 2^64 counter; operator< | invariant over interleavings; order axioms |
| provider | C17-C27 | ServiceProvider + Request state machine, outputs = messages/handler calls/abort callbacks, send outcome oracle | invariants by induction over operation lists, refinement to history functions |
| requester | C28-C35 | ServiceRequester state machine | same |
| end to end | C36-C38 | requester x provider x message soup; ClientBase/ServerBase/LocalIPC client+server | invariants over all schedules |
| queue/processor/router | C39-C45 | small-step interleaving semantics with mutex/atomic granularity | invariants over schedules; refuting schedules |
| timers | C46-C48 | TimerMgr with std heap algorithms | invariants |
| signals/observables | C49-C54 | slot keepers with re-entrant slot scripts | induction |
| waiting for a service status | C121, C122 | monitor with spurious wake-ups and expiries | invariants over schedules |
| synchronous timer | C123, C124 | monitor with executors, re-entrant callbacks | invariants over schedules |
| csmgmt, factories | C125, C126 | one agent per call, one step per critical section | invariants over schedules |
| waitable connections | C127, C128 | one agent per call, one step per critical section; cross-thread calls inside a notification | invariants over schedules |
| slots with executors | C129, C130 | one agent per call, the processor, its queue; one step per hand-over | invariants over schedules; refuting schedules |
| AsyncProcessor | C131, C132 | one agent per call, the launched threads, one step between two points of interference | invariants over schedules; refuting schedules, continued by anything |
| ProcessorChain | C133, C134 | chains as nested functions; histories of construction, copying, then and calls | induction over chains and histories |
| thread pools | C55-C56 | small-step interleaving | invariants |

None of the listed properties is "not applicable": the runtime parts (real threads, clock, OS) are
replaced by nondeterministic inputs; the memory model is sequential consistency at the granularity of
the atomic operations / critical sections of the code.

## 3. Trusted base

* The kernel of Coq 8.16.1 (`coqc`; no `-type-in-type`, no `Unset Guard Checking`, no plugins, no native_compute; `vm_compute`
  is used, so its evaluator is trusted too).
* `Print Assumptions` follows every property theorem in the `*Props*.v` files; every one prints
  "Closed under the global context": no axiom at all, neither of the standard library nor of our own.  (vcheck's list of library
  axioms names `Coq.ssr.ssrunder.Under_rel.*`: parameters of a module type of the standard library that gets loaded with `ssreflect`;
  no theorem depends on them.)
* The reading of the C++ source: each definition of a model cites file and lines of /repo.  Nothing checks that the transcription is faithful.
* The abstractions of section 4.
* The semantics given to threads: sequential consistency, interleaving at the granularity of critical sections, single atomic accesses and
  calls that leave the object.  C++ data races on plain members are undefined behaviour; where we found one it is recorded as such or
  listed in section 4.

How statements are kept honest: a property theorem speaks about the history (calls, returns, messages, callbacks) and about the
definitions of a `*Spec*.v`, not about fields of the model where this can be avoided; each `*Props*.v` has `Example`s that meet the
hypotheses of the theorems on concrete runs; wrong programs (`seeded/LOG.jsonl`) are run against the theorems.  Caveat on the
latter: an edit of a model usually breaks the proof script of a lemma many theorems of the area use, so that "theorem failed" alone says
little; for each seeded edit the theorem that states the broken claim was named beforehand and its *statement* re-read.  The gaps found that way led to
C53 (additions), C99-C115.

## 4. What is modelled and what is not

| area | model | specification and proofs | properties | simplifications (details in the header of the model) |
|---|---|---|---|---|
| serializer, streams | Bytes, SerModel | SerSpec, SerProofs1-5, SerProps | C01-C08, C99 | closed universe of types; no unordered/multi containers, custom comparators, bad_alloc, BasicStreamBuf |
| local IPC codec | IpcModel | IpcSpec, IpcProofs, IpcProps | C09, C10 | three payload classes |
| unix transport | NetModel | NetProofs (theorems there and in IpcProps) | C11-C13, C57 | OS results are inputs; no socket creation, select(), Windows pipes |
| ids, addresses, registration ids | IdModel | IdSpec, IdProofs, IdProps | C14-C16, C57 | - |
| provider, request | ProvModel, ProvRace | ProvSpec, ProvProofs1-4, ProvProps, ProvProps2 | C17-C27, C58, C111 | calls atomic except for racing replies (ProvRace); handlers are events |
| requester | ReqModel | ReqSpec, ReqObsSpec, ReqSyncSpec, ReqSerSpec, ReqSpec2; Req*.v; ReqProps, ReqProps2 | C28-C35, C59-C63, C112, C115 | threads at lock granularity; callbacks do not throw |
| requester x provider | E2eSpec (composition) | E2eProofs1-2, E2eProps | C36, C97, C98 | network may lose, reorder, duplicate, never invents |
| server object | SrvModel | SrvSpec, SrvSpec2, SrvProofs1-8, SrvProps, SrvProps2, CsProps | C37, C38, C91-C94, C113 | provider = its answer |
| client object | CliModel | CliSpec, CliSpec2, CliProofs1-7, CliProps, CliProps2 | C37, C38, C94-C96, C114 | requester = its answer |
| typed stub | StubModel (on ProvModel) | StubSpec, StubProofs1-5, StubProps | C116-C118 | executor = bag of accepted tasks |
| typed proxy | ProxyModel (on ReqModel) | ProxySpec, ProxyProofs1-4, ProxyProps | C119, C120 | translation = function of the content |
| queue | QueueModel | QueueSpec, QueueProofs1-4, QueueProps | C39, C40, C64, C65, C100, C101 | container = list with oracle for front() |
| processor | ProcModel (on QueueModel, SigModel) | ProcSpec, ProcSpec2, ProcProofs1-40, ProcProps, ProcProps2 | C41-C43, C76-C81, C106-C109 | user code does not throw |
| routing | RouteModel | RouteSpec, RouteSpec2, RouteProofs1-10, RouteProps, RouteProps2 | C44, C45, C86-C90, C110 | processor = stopped flag + handled types |
| timers | TimerModel | TimerSpec, TimerProofs1-4, TimerProps | C46-C48, C72-C75 | heap = list with minimum in front |
| signals | SigModel | SigSpec, SigProofs1-10, SigProps, SigProps2 | C49-C52, C66-C68, C102 | one signal; FutureInvocation not modelled |
| observables, compounds | ObsModel, CompModel (on SigModel) | ObsSpec, ObsProofs1-8, CompProofs, ObsProps, ObsProps2, CompProps | C53, C54, C69-C71 | slots do not throw |
| waiting for a service status | WaitModel | WaitSpec, WaitProofs, WaitProps | C121, C122 | signal not destroyed while in use |
| csmgmt, factories | FacModel | FacSpec, FacProofs1-6, FacProps | C125, C126 | clients / servers = numbers, their life modelled elsewhere |
| waitable connections | FutModel | FutSpec, FutProofs1-6, FutProps | C127, C128 | values are numbers; one wait at a time on one FutureInvocation |
| slots with executors | ExecModel | ExecSpec, ExecProofs1-5, ExecProps | C129, C130 | values are numbers; slots do not use the signal (SigModel does); unbounded queue |
| AsyncProcessor | AsyncModel | AsyncSpec, AsyncProofs1-7, AsyncProps | C131, C132 | what the queue holds is up to the schedule (ProcModel has it); threadInit and threadDeinit do not throw |
| ProcessorChain | ChainModel | ChainSpec, ChainProps | C133, C134 | values are numbers; functions keep no state; a moved-from std::function is empty |
| thread pools | PoolModel (on QueueModel) | PoolSpec, PoolProofs1-8, PoolProps, PoolProps2 | C55, C56, C82-C85, C103-C105 | setMaxThreadCount not modelled |
Shared: CsTypes (opcodes, statuses, payloads, messages), Amap (association maps), ListUtil.

Not modelled: executor variants of observables, Dumper, AggregateCompare and the
field-listing macros, Json11Trait, logging, TimeMeasurement, the Windows named pipes, SocketShared (socket creation, select loop,
descriptor table), Upcoming, AsyncServiceStatusObserver and
ServiceStatusObserverDelegater, BasicStreamBuf, the samples and the test programs.

"partial" in MANIFEST.json: the property as a user would state it is false of the code (a `_refuted` theorem gives a run of the model
that violates it) or needs a hypothesis; the `_partial` theorem is the strongest version we could prove.
