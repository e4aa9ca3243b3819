# ---------------------------------------------------------------- serialization
p('C01','Serialization round trip',
 'Writing any serializable value to an output stream and reading it back from a stream holding those bytes into a fresh object of the same type succeeds and yields an equal value, for numbers, enums, strings, smart/raw pointers, sequences, sets, maps, pairs, tuples, tuplizable structs and variants nested to any depth.',
 'every serializable type built from these constructors, every value of it whose strings/containers have fewer than 2^32 elements, every trailing byte sequence',
 'Types nest without bound and values are unbounded; tests sample a few structs.',
 [S+'Serializer.h: serialize/deserialize, SerializerSFINAE, DeserializerSFINAE',S+'VariantSerializer.h',S+'OByteStream.h',S+'IByteStream.h'])
p('C02','serializedSize is exact',
 'serializedSize(v) equals (modulo 2^32, the width of its result type) the number of bytes serialize(v) appends to the stream.',
 'every serializable type and every value',
 'Needs structural induction over types and values.',
 [S+'Serializer.h: serializedSize',S+'OByteStream.h'])
p('C03','Concatenated values are self delimiting',
 'Values written one after another (operator<<, batch()) are read back in the same order by the matching sequence of reads; each read consumes exactly the bytes of its own value and leaves the rest of the stream untouched.',
 'every list of typed values and every suffix',
 'Unbounded sequences of heterogeneous types.',
 [S+'Serializer.h: SR, DSR, batch',S+'IByteStream.h'])
p('C04','The encoding is unambiguous',
 'Two different values of the same type never have the same encoding, and no encoding is a proper prefix of the encoding of another value of the same type.',
 'every serializable type, every pair of its values within the 2^32 size limit',
 'Quantifies over all pairs of values.',
 [S+'Serializer.h'])
p('C05','Input stream never reads out of bounds, failure is sticky',
 'Whatever sequence of reads is issued, the input stream never hands out bytes outside its buffer, its position never exceeds the buffer size, a read that does not fit fails without consuming or writing anything, and once it failed every later read fails until the stream is reset or cleared; end-of-file is reported exactly when the last byte was consumed.',
 'every buffer, every sequence of read/reset/clear operations',
 'Unbounded operation histories and buffer sizes.',
 [S+'IByteStream.h: IByteStream::read, reset, clear',S+'Buffer.h'])
p('C06','Truncated input is reported',
 'Reading a value from a stream holding only a strict prefix of its encoding reports failure (deserialize returns false / DSR throws). The code violates this for sequences, pairs, tuples and pointers; it holds for numbers, enums, strings and for the types built so that only the first field can fail.',
 'every type, every value, every cut position',
 'All cut positions of all encodings.',
 [S+'Serializer.h: DeserializerSFINAE (iterable, pointer), pair, tuple overloads'])
p('C07','Malformed input cannot blow up the result',
 'The number of elements produced by reading a container is bounded by the number of input bytes. The code violates this: after the four count bytes the loop runs `count` times whatever the stream holds.',
 'every byte string',
 'All byte strings, sizes up to 2^32.',
 [S+'Serializer.h: DeserializerSFINAE<Iterable>'])
p('C08','Reading replaces the previous contents of the target',
 'Deserializing into an object that already has a value overwrites that value, so the result depends on the bytes only. Violated for sequences (elements are appended) and for empty strings (old text is kept); holds for numbers, pointers and variants.',
 'every type, every old value of the target, every encoded value',
 'Pairs of arbitrary old/new values.',
 [S+'Serializer.h: deserialize'])
p('C99','A failed read leaves the object as it was',
 'When deserializing into an existing object reports failure, the object still has the value it had before: for numbers, containers, smart pointers, variants, and structs and pairs of those, whatever the input bytes. Violated for strings (resized to the announced length before the bytes are read) and raw pointers (set to null).',
 'every type, every old value, every byte string',
 'All malformed inputs.',
 [S+'Serializer.h: DeserializerSFINAE', S+'VariantSerializer.h'])
p('C09','IPC message round trip',
 'A message serialized for the local-IPC transport and parsed on the other side has the same service id, operation id, operation code, request id and source address; an error payload is recovered with its description and code and a data payload is recovered as a stream positioned at exactly the payload bytes.',
 'every message (all header fields and payloads)',
 'All strings/ids/payloads.',
 [SC+'ipc/LocalIPCMessage.cpp: toBytes, fromBytes',CS+'ipc/local/OutgoingPayload.h',CS+'ipc/local/IncomingPayload.h'])
p('C10','A message without payload stays without payload over IPC',
 'A message sent with a null payload arrives with a null payload. Violated: the receiver always attaches an (empty) data payload.',
 'every payload-less message',
 'All headers.',
 [SC+'ipc/LocalIPCMessage.cpp: fromBytes'])
p('C11','Transport framing is independent of how the OS splits the bytes',
 'When a peer sends one length-prefixed message on a connection, the receiver delivers exactly that message once, whatever way the operating system splits the body into read() chunks.',
 'every payload, every chunking of the body',
 'Exponentially many chunkings, decided by the kernel scheduler.',
 [UX+'LocalIPCBufferReceiverImpl.cpp',UX+'LocalIPCBufferSenderImpl.cpp'])
p('C12','A misbehaving peer cannot corrupt or hang the receiver',
 'Whatever bytes a peer sends and whenever it disconnects, the receiver writes only inside its message buffer and finishes serving the connection. Violated: read() is asked for the full message length at every iteration (overflow when more data is pending) and end-of-file makes the loop spin forever.',
 'every peer byte stream and chunking, every disconnect point',
 'Adversarial schedules.',
 [UX+'LocalIPCBufferReceiverImpl.cpp'])
p('C13','send() reports Success only if the whole message was written',
 'If the transport reports Success, the complete frame was handed to the OS. Violated: a write error in the middle of the body leaves the loop and Success is still returned.',
 'every payload and every sequence of write() results',
 'Partial-write/error schedules are chosen by the OS.',
 [UX+'LocalIPCBufferSenderImpl.cpp: send'])
# ---------------------------------------------------------------- ids / addresses
p('C14','Allocated ids are valid and pairwise distinct',
 'Ids handed out by an id manager, to any number of concurrently allocating threads in any interleaving, are never the invalid id and pairwise distinct until 2^64-1 ids have been allocated.',
 'every number of threads, every interleaving, every allocation count below the wrap',
 'Interleavings and 2^64 histories.',
 ['include/maf/utils/IDManager.h: IDManager::allocateNewID'])
p('C15','Addresses can be used as map keys',
 'The ordering on addresses is a strict weak order whose equivalence is address equality (what std::map/std::set need). Violated: ("a",2) and ("b",1) are each less than the other; it does hold on any set of addresses that share the port (or share the name).',
 'every pair/triple of addresses',
 'Order axioms quantify over all triples.',
 [SC+'Address.cpp: operator<',CS+'Address.h'])
p('C16','Registration ids are ordered consistently',
 'The ordering on registration ids is a strict weak order. Violated: incomparability is not transitive; it is a strict partial order.',
 'every triple of registration ids',
 'Order axioms quantify over all triples.',
 [CS+'RegID.h: operator<'])
# ---------------------------------------------------------------- provider
p('C17','Every incoming request reaches its handler or is answered with an error',
 'A request message is handed to the handler registered for exactly its operation id, once; if there is none, the sender gets a HandlerUnavailable error carrying the same operation id and request id, and nothing else happens.',
 'every provider history, every message',
 'Any history of registrations/requests.',
 [SC+'ServiceProvider.cpp: onIncomingMessage, onActionRequest, registerRequestHandler'])
p('C18','At most one final response per request',
 'However often and in whatever order a server replies to a request object, the client is sent at most one final response for it; later replies return InvalidCall and send nothing. Requests are identified by operation id and request id; when two requests share both (different clients), the number of final responses is still bounded by the number of requests (see C21 for what else goes wrong).',
 'every history of calls on a provider (one call at a time; see C22 for threads)',
 'All histories of replies, aborts, deinit, other requests.',
 [SC+'ServiceProvider.cpp: respondToRequest',SC+'Request.cpp: reply, update'])
p('C19','Partial updates keep the request open and are delivered in order',
 'A partial update sent before the final response reaches the requesting client with the id of the request and leaves the request answerable; after the final response or an abort no further update is sent.',
 'every history of calls on a provider in which no two requests share operation id and request id (one call at a time; see C22 for threads)',
 'All histories.',
 [SC+'ServiceProvider.cpp: respondToRequest',SC+'Request.cpp'])
p('C20','Abort stops a request exactly once',
 'When the client aborts a pending request its abort callback runs exactly once, the request becomes invalid and nothing is sent to the client for it any more; aborting an unknown request has no effect; however abort and onAborted race, the callback runs exactly once if the request was aborted. (Before deinit; see C27.)',
 'every history of calls with distinct request keys; every schedule of threads answering, updating, aborting and registering the callback',
 'All histories.',
 [SC+'ServiceProvider.cpp: onRequestAborted',SC+'Request.cpp: onAborted'])
p('C21','Clients cannot interfere with each other\'s requests',
 'An abort or a response concerns only the request of the client that issued it. Violated: pending requests are looked up by operation and request id only, and every client numbers its requests from 0, so an abort by client B kills the request of client A.',
 'every pair of clients and every interleaving of their requests',
 'Needs arbitrary multi-client histories.',
 [SC+'ServiceProvider.cpp: pickOutRequestInfo, getRequestInfo, onRequestAborted'])
p('C22','Concurrent replies to one request are safe',
 'However many threads answer, update or abort the same request, at most one final response is sent, never after an abort took effect, and no undefined behaviour occurs. Violated: two answering threads (or an answering and an aborting one) can both pass the validity check and the second dereferences a null request; an update can be sent after the final response. With at most one answering-or-aborting thread it is safe.',
 'every number of threads and every interleaving of their critical sections',
 'Race: schedules.',
 [SC+'Request.cpp: reply',SC+'ServiceProvider.cpp: respondToRequest'])
p('C23','Status property: readers see the last value set, subscribers hear exactly the changes',
 'getStatus returns the last value set; setStatus notifies the registered clients iff the value differs from the current one, and returns NoAction otherwise (setting null on an unset property is announced too).',
 'every history of setStatus/getStatus/removal/registration',
 'All histories and values.',
 [SC+'ServiceProvider.cpp: setStatus, getStatus, removeProperty'])
p('C24','Subscribers get the current value and every later change until they unregister',
 'A client that registers for a status immediately gets the current value (if any), then each change exactly once and in order, until it unregisters; clients not registered get nothing.',
 'every history with any number of clients',
 'All multi-client histories.',
 [SC+'ServiceProvider.cpp: onStatusChangeRegister, broadcast, saveRegisterInfo, removeRegisterInfo'])
p('C25','Unreachable clients are dropped, busy ones retried once',
 'While broadcasting, a client whose send fails (other than busy) loses its registrations for all operations; a busy client is retried exactly once and stays registered; every registered client is attempted.',
 'every registration table and every assignment of send outcomes',
 'All outcome assignments.',
 [SC+'ServiceProvider.cpp: broadcastToClients'])
p('C26','Broadcasting reports whether somebody was reached',
 'The status returned by a broadcast is Success iff at least one registered client was reached. Violated: the result is inverted.',
 'every table and send outcomes',
 'All outcome assignments.',
 [SC+'ServiceProvider.cpp: broadcastToClients'])
p('C27','Shutting a provider down leaves nothing behind',
 'After deinit no client is registered, no property value is left, every pending request is invalid (replies are refused) and each of their abort callbacks ran exactly once. No later event runs them again: violated, the pending-request table is not emptied (the wrong table is cleared), so a second deinit or a late abort message repeats the callbacks.',
 'every provider history',
 'All histories.',
 [SC+'ServiceProvider.cpp: deinit, invalidateAndRemoveAllRequests'])
# ---------------------------------------------------------------- requester
p('C28','A response reaches the callback of its own request, at most once',
 'A final response runs the callback passed with the request carrying that operation and request id, exactly once if it is pending and never otherwise; partial updates run it without consuming it; responses with unknown ids run nothing.',
 'every requester history, every incoming message',
 'All histories of requests, responses, duplicates, aborts.',
 [SC+'ServiceRequester.cpp: onRequestResult, sendRequestAsync'])
p('C29','No callback after abort or loss of the service',
 'After abortRequest returned, after deinit, or after the service was reported unavailable, the callback of every request whose message had been handed to the transport before is never run by any message arriving later; the abort of a pending request is sent, and never more than once.',
 'every interleaving of the steps of any number of concurrent calls',
 'All histories.',
 [SC+'ServiceRequester.cpp: abortRequest, onServiceStatusChanged, clearAllAsyncRequests'])
p('C30','A request that could not be sent leaves no trace',
 'If sending fails, the returned id is invalid, the callback is never run and the requester accepts exactly the same later behaviour as if the call had not been made (except for the consumed id).',
 'every requester state and failure code',
 'All states.',
 [SC+'ServiceRequester.cpp: sendRequestAsync, registerNotification'])
p('C31','Server registration follows local subscribers',
 'When (un)registrations do not overlap each other: a registration sends exactly one Register message if it is the first local subscriber of the operation and none otherwise; an unregistration sends exactly one Unregister message if no local subscriber is left and the service is available, none otherwise; unregisterAll sends one.',
 'every history in which (un)registrations and service status reports do not overlap (other calls may)',
 'All histories.',
 [SC+'ServiceRequester.cpp: registerNotification, unregister, unregisterAll'])
p('C32','Each update reaches every local subscriber once, in registration order',
 'An incoming status/signal message runs the callback of each subscriber currently registered for the operation exactly once, in registration order, with the payload, and no other callback.',
 'every history',
 'All histories.',
 [SC+'ServiceRequester.cpp: onRegistersUpdated'])
p('C33','Cached status is the last update',
 'While subscribed, reading a status without contacting the server returns the last received update, and a late subscriber is immediately called with it; the remembered update is dropped when the last subscriber leaves.',
 'every history in which subscriptions, status updates and status reads do not overlap (other calls may)',
 'All histories.',
 [SC+'ServiceRequester.cpp: cachePropertyStatus, getCachedProperty, getStatus, onServiceStatusChanged'])
p('C34','Service status observers see a consistent chain of changes',
 'An observer registered throughout is notified by each status report exactly once if it changed the status and not at all otherwise; when reports do not overlap, it is told exactly the sequence of changes, in order, each different from the one before; an observer registered while the service is available is told so immediately.',
 'every history of service status reports and observer (un)registrations',
 'All histories.',
 [SC+'ServiceRequester.cpp: onServiceStatusChanged, registerServiceStatusObserver'])
p('C35','A synchronous request has exactly one outcome',
 'A synchronous request returns at most once: with the payload of an answer carrying its own id, or Timeout (after aborting the request unless it was already answered or dropped), or ActionBroken if the request was dropped (service lost, deinit, abort), or the send error, or ServiceUnavailable without anything sent; after it returned no arriving message runs its callback; an answered, a timed-out, or a call whose service was lost does return.',
 'every interleaving of response, timeout and service loss',
 'Schedules.',
 [SC+'ServiceRequester.cpp: sendMessageSync'])
# ---------------------------------------------------------------- end to end
p('C36','End to end: responses are never mixed up',
 'With any number of clients\' requests in flight through a transport that may reorder, duplicate or lose messages, a callback is only ever run with a payload the server produced for that very request, and at most once with a final one.',
 'every schedule of one client requester, the network and the provider',
 'Asynchronous schedules with faults.',
 [SC+'ServiceRequester.cpp',SC+'ServiceProvider.cpp',SC+'Request.cpp'])
p('C37','One requester/provider per service id, messages routed by service id',
 'Asking twice for the requester (provider) of a service yields the same object; a message is processed by the object of exactly its service id and refused when there is none.',
 'every history',
 'All histories.',
 [SC+'ClientBase.cpp',SC+'ServerBase.cpp'])
p('C38','Clients learn which services are available',
 'A client that registered with a server is told about every service being served at that time and about each later start/stop, so that - if startServing/stopServing of a service are called one at a time, the status messages are accepted and delivered in order, and the client did not find the server absent - whenever no start/stop and no handling of a status message is under way, getServiceStatus(sid) and what the requester of sid was told last are what the last start/stop asked for. When the server is found absent every service becomes unavailable.',
 'every history of start/stop/register',
 'All histories.',
 [SC+'ipc/LocalIPCServer.cpp',SC+'ipc/LocalIPCClient.cpp',SC+'ServerBase.cpp',SC+'ClientBase.cpp'])
# ---------------------------------------------------------------- threading
p('C39','Queue is FIFO and loses/duplicates nothing',
 'For any number of producers and consumers in any interleaving, the elements taken out are exactly the first elements put in, in insertion order, each taken once, until the queue is closed or cleared.',
 'every number of threads and every interleaving',
 'Schedules.',
 ['include/maf/threading/ThreadSafeQueue.h'])
p('C40','A closed queue hands out nothing, and consumers do not sleep beside elements',
 'A call made after close() returned (and not followed by reOpen) gets no element, stores none and never sleeps; close() wakes every consumer that sleeps when it is called, and such a consumer returns without an element; without close() no consumer is left sleeping while the queue holds an element.',
 'every number of threads and every interleaving',
 'Schedules; the windows are a few instructions wide.',
 ['include/maf/threading/ThreadSafeQueue.h: close, wait'])
p('C41','A processor runs accepted executions one at a time, in order',
 'Executions accepted by executeAsync, execute, waitableExecute, post or waitablePost leave the queue in acceptance order, each once, none is lost; each runs at most once. If one thread runs the processor (and no execution runs it again), they start in that order, one at a time, on that thread. Once every stop() has returned nothing more is taken out, at most the one execution taken before still starts. false means it never runs; true without any stop() means it was queued, or has run inside the call. A run loop does not sleep while executions are pending.',
 'every number of threads and every interleaving of submitting threads, running threads, stop and reuse',
 'Schedules.',
 [M+'Processor.cpp: executeAsync, run, stop','include/maf/threading/ThreadSafeQueue.h'])
p('C42','Posting needs a handler; messages are handled by the handlers connected when they are processed',
 'If post() or waitablePost() refuses, the message is never handled, and at a moment during the call the processor was stopped or had no handler of its type; if it takes the message there was a handler at a moment during the call (unless handlers disconnect handlers of their own type, C77). A handler gets a message only while connected, each message once, in connection order and on one thread; when the processing ends all handlers connected by then had it. connect() and disconnect() of a handler take effect before they return.',
 'every history of connect/disconnect/post/run by any threads',
 'All histories.',
 [M+'Processor.cpp: post, waitablePost, connect, disconnect, processMessage'])
p('C43','execute() runs inline on the own thread and is queued otherwise',
 'Calling execute, waitableExecute or waitablePost from a thread whose outermost run loop is that of the processor (for the latter two: of a processor with the same id) runs the callable before the call returns; from any other thread it is queued. Without stop() executeAsync, execute and waitableExecute are never refused; once stop() has returned they are refused and the callable does not run, until reuse().',
 'every history of any threads, with any nesting of run loops and executions',
 'All histories.',
 [M+'Processor.cpp: execute, waitableExecute, this_processor'])
p('C44','Routing by id reaches the one joined processor',
 'A processor joins routing only while its id is free and only through the create() that returns it, and leaves only through a stop() of a processor with the same id; so at any time at most one is joined under an id. findProcessor tells exactly that one, create() yields null only if the id is in use, and a create() that no other create() of the same id overlaps makes its processor the joined one. post(id) hands the message to a processor joined under id during the call, at most once, and tells whether that took it; postToAll reaches each joined processor that takes the message exactly once.',
 'every interleaving of create, stop, reuse, find, post, postToAll, sendToAll, connect, disconnect by any number of threads',
 'Schedules.',
 [M+'Router.cpp',M+'Processor.cpp: create',M+'Routing.cpp'])
p('C45','Stopping a processor removes only itself from routing',
 'If processors are not reused, not created twice at a time under one id and not stopped by two threads at once, then stop() removes from routing the stopped processor and no other; after it has returned this processor is not joined, and a processor that nobody stopped stays joined. Without these conditions stop() still never removes a processor with another id.',
 'every interleaving of create, stop, reuse, find, post by any number of threads',
 'All histories.',
 [M+'Processor.cpp: stop, reuse',M+'Router.cpp: removeProcessor',M+'Router.h: ProcessorCompare'])
p('C46','Timers fire when due, in order of their due times',
 'A timer fires only while it is running: not after it was stopped, a one-shot timer once per start; never before its interval has passed since it was last started; running() tells exactly whether it is due. If timers are stopped on their own thread, restarted only while running, and tasks run while the processor waits for a timer do not outlast its due time after touching timers, then timers fire in the order of their due times, the processor never sleeps longer than until the first of them, and the first one fires next when its time has come.',
 'every sequence of start, stop, restart, tasks, callbacks and delays',
 'All histories and delays.',
 ['src/common/maf/messaging/Timer.cpp: TimerMgr'])
p('C47','Cyclic timers do not drift',
 'Under the same conditions the n-th firing of a cyclic timer is due exactly n intervals after its start, however late the earlier firings were: it never fires before, and the processor does not sleep beyond that time.',
 'every history and n',
 'All histories and delays.',
 ['src/common/maf/messaging/Timer.cpp: updateShortestTimer'])
p('C48','Restarting a running timer',
 'Restarting a running timer makes it due one interval after the restart: it does not fire before, and the processor does not sleep beyond that time.',
 'every history',
 'All histories and delays.',
 ['src/common/maf/messaging/Timer.cpp: restart'])
p('C49','A signal calls exactly its connected slots, in connection order',
 'Emitting a signal calls every slot connected at that time once, in connection order; a slot disconnected (even from within another slot of the same emission, before its turn) is not called; a slot connected during the emission is called at the end of the same emission; the emission goes on unless a slot is running.',
 'every history of connect/disconnect/emit, including re-entrant ones',
 'Re-entrant histories of unbounded length.',
 ['include/maf/utils/SignalSlots.h: MultiSlotKeeper'])
p('C50','Connections can be cut and restored',
 'connected() of a connection tells exactly whether its slot is connected; disconnect() cuts it and answers true iff it was connected; reconnect() restores a connection that was cut (in a single-slot signal if the place is free) and does nothing otherwise; a scoped connection disconnects when destroyed; a slot bound to a dead object, or of a destroyed signal, is never called.',
 'every history',
 'All histories.',
 ['include/maf/utils/SignalSlots.h: Connection, ScopedConnection'])
p('C51','Signals survive re-entrancy and exceptions',
 'Clearing a signal from one of its slots, or a slot throwing, leaves the signal usable. Violated: clearing invalidates the running iteration (undefined behaviour); an exception leaves it permanently in the "emitting" state.',
 'every re-entrant/throwing slot behaviour',
 'All slot behaviours.',
 ['include/maf/utils/SignalSlots.h: MultiSlotKeeper::notify, clear'])
p('C52','Single-slot signals hold at most one slot',
 'A single-connection signal keeps the first connected slot; further connects are refused until it is disconnected; an emission calls at most one slot.',
 'every history',
 'All histories.',
 ['include/maf/utils/SignalSlots.h: SingleSlotKeeper, SharedMutexSCSignal'])
p('C53','Observables notify exactly on change, after the change',
 'Setting an observable (or dropping a mutable reference to it) starts one notification iff the value then differs from what it was; the value is changed before anybody is told, and everybody connected learns it; an observer is told the value the observable has when it is called, as long as nothing was changed silently; silent assignment tells nobody; a callable passed to connect() is told the current value by it; nobody is told anything but connected observers and the one being connected, and a slot that is refused is never called.',
 'every interleaving of assignments, references and connections',
 'All histories.',
 ['include/maf/utils/Observable.h'])
p('C54','Compound observables mirror their components',
 'Whenever nobody uses a component and no slot of the compound is running, the corresponding part of the compound equals the value of that component, whatever was done to the components by whatever threads; provided the last change of the component was announced and the compound was not changed directly. A compound is an observable (C53).',
 'every interleaving of uses of the components and of the compound',
 'All histories.',
 ['include/maf/utils/Observable.h: BasicCompoundObservable_'])
p('C55','A thread pool runs each task at most once and finishes each exactly once',
 'Under any interleaving each submitted task is started, ended and finished (given to done) at most once, in that order, and a task finished without having ended is never started. Every task whose run() call returned before shutdown was called is finished exactly once by the time shutdown returns; everything that was started has then ended, and nothing happens to any task afterwards. The first shutdown calls stop() exactly once for each task registered as running, and nobody else does.',
 'every number of threads and tasks, every interleaving of submitters, pool threads and shutdown calls, for all three pools',
 'Schedules.',
 ['include/maf/threading/ThreadPoolImplBase.h','src/common/maf/threading/threadpool/StableThreadPool.cpp'])
p('C56','Priority pool serves the highest priority pending task first',
 'Whenever a thread of the priority pool takes a task, no waiting task has a strictly higher priority; the other pools take the task that waits longest; the queue loses no task.',
 'every history of submissions and takes',
 'All histories.',
 ['src/common/maf/threading/threadpool/PriorityThreadPool.cpp','include/maf/threading/Queue.h','include/maf/threading/ThreadPoolImplBase.h'])
# ---------------------------------------------------------------- appended
p('C57','Different addresses are different receivers',
 'Two receivers (or a receiver and a destination) denote the same socket iff their addresses are equal. Violated: only the name is used, the port is ignored, and the name is cut at its first NUL character.',
 'every pair of addresses',
 'All pairs of addresses.',
 [UX+'SocketShared.h: createUnixAbstractSocketAddr, isValidSocketPath'])
p('C58','Server-side listeners hear exactly the broadcasts of their operation',
 'A callback connected on the server side to a status or signal is called exactly when that status changes or that signal is broadcast, with the payload, in connection order, until it is disconnected.',
 'every history of calls on a provider',
 'All histories.',
 [SC+'ServiceProvider.cpp: registerNotification, broadcastServerSide, broadcast'])

p('C59','Losing the service leaves no request pending',
 'Once the service was reported unavailable and the report processed, no request is pending and no callback of an earlier call is run. Violated: a call that passed the availability check before the report stores its request after the table was cleared, and it is answered later.',
 'every interleaving of requests and a loss of service','Depends on the schedule.',[SC+'ServiceRequester.cpp: onServiceStatusChanged, storeAndSendRequestToServer'])
p('C60','The server is registered at exactly while there are local subscribers',
 'At any time a Register has been sent and not followed by an Unregister iff the operation has local subscribers. Violated: unregistering an id that is not registered sends an Unregister, and when the first of two racing registrations fails to send, the second one stays subscribed although no Register was sent.',
 'every interleaving of registrations and unregistrations','Depends on the schedule.',[SC+'ServiceRequester.cpp: registerNotification, unregister'])
p('C61','A status remembered from a lost service is never reported as current',
 'After the service went away its remembered statuses are forgotten, and a null update is never dereferenced. Violated in both parts.',
 'every history','All histories.',[SC+'ServiceRequester.cpp: onServiceStatusChanged, cachePropertyStatus, getCachedProperty'])
p('C62','Overlapping status reports',
 'Even if two status reports are processed concurrently, an observer is told each change once and the last thing it is told is the current status. Violated in both parts.',
 'every interleaving of status reports','Depends on the schedule.',[SC+'ServiceRequester.cpp: onServiceStatusChanged, forwardServiceStatusToObservers'])
p('C63','Synchronous requests never disturb the receiver and never wait in vain',
 'An incoming message never makes the receiving thread throw, and a synchronous request without timeout returns once its service is lost. Violated: a partial update completes the request and the final answer then throws std::future_error; a request stored after the loss was processed waits for ever.',
 'every interleaving','Depends on the schedule.',[SC+'ServiceRequester.cpp: sendMessageSync, onRequestResult'])

p('C64','close() always releases the consumers',
 'After close() returned, every consumer that was in wait() returns. Violated: the flag is set without the mutex, a consumer between its check and its sleep misses the notification and sleeps for ever.',
 'every interleaving of wait() and close()','A window of a few instructions.',['include/maf/threading/ThreadSafeQueue.h: close, wait'])
p('C65','A queue can be closed and reopened while consumers wait',
 'Whatever the interleaving of wait(), close() and reOpen(), the container is never asked for the front of nothing. Holds without reOpen; violated with it: the predicate held because the queue was closed, and the queue is open and empty when isClosed() is read again.',
 'every interleaving of wait(), close() and reOpen()','A window of a few instructions.',['include/maf/threading/ThreadSafeQueue.h: wait, reOpen'])

p('C100','The answers of a queue are true when they are given',
 'wait() returns without an element only if the queue is closed; waitFor()/waitUntil() and tryPop() only if it is closed or empty at that moment; size(), empty() and isClosed() tell the exact state; reOpen() opens the queue; and a consumer that is awake beside an element of an open queue takes one.',
 'every interleaving of any number of queue calls','All interleavings.',['include/maf/threading/ThreadSafeQueue.h: wait, waitFor, waitUntil, tryPop, empty, isClosed, reOpen'])
p('C101','A queue never gets stuck',
 'Whatever calls were made and wherever they are, if they are let run then each of them returns or sleeps in wait(); and if close() is never called, a call sleeps only when nothing is left in the queue. For FIFO and priority queues, without reOpen() (see C65).',
 'every interleaving of any number of queue calls','Every reachable state must have a way on.',['include/maf/threading/ThreadSafeQueue.h'])

p('C66','connectionCount() and connected() are exact',
 'connectionCount() of a signal is the number of connected slots and connected() tells whether there is any. Violated: a slot disconnected during an emission is counted until the next emission passes it; they are never too small, and exact as long as nothing is disconnected during an emission, or with a single slot.',
 'every history of a signal','All histories.',['include/maf/utils/SignalSlots.h: MultiSlotKeeper::remove, connected, connectionCount'])
p('C67','Every single-connection signal type holds at most one slot',
 'SCSignal, SCSignalST and SharedMutexSCSignal all keep at most one slot. Violated by SharedMutexSCSignal, which is an alias of a multi-slot signal.',
 'every history of each signal type','All histories.',['include/maf/utils/SignalSlots.h: SharedMutexSCSignal'])
p('C68','A slot is not destroyed while it runs',
 'Whatever slots do with the signal and their connections, the function object of a running slot stays alive until it returns. Violated: the closure of a slot bound to a dead object, and a connection-aware slot that disconnects itself, destroy themselves while they run. Holds for plain slots and SlotPtr whose connections are kept.',
 'every history of a signal','All re-entrant histories.',['include/maf/utils/SignalSlots.h: connect(ConnectionAwareSlotType), connect(obj, slot)'])

p('C69','Every way of connecting tells the new observer the current value',
 'However a slot is passed to connect() of an observable (callable object, std::function, object and method), it is told the current value. Violated by std::function and object/method arguments, which bind to inherited overloads.',
 'every history of an observable','All histories and overloads.',['include/maf/utils/Observable.h: connect, connect_'])
p('C70','Observers are up to date',
 'Whenever nobody uses an observable, every observer was last told its current value. Violated: a set inside an observer trips an assertion, and nested references undo a change behind the observers\' back. Holds for callable observers when the last change was announced.',
 'every history of an observable','All histories.',['include/maf/utils/Observable.h: set, mutable_, ~StateRef'])
p('C71','A compound observable can only be changed through its components',
 'A compound always equals the tuple of its components. Violated: mutable_() and silentSet() of a compound are public, and silent changes of a component are not mirrored.',
 'every history of a compound observable','All histories.',['include/maf/utils/Observable.h: BasicCompoundObservable_'])

p('C72','A slow task cannot upset the timers',
 'Whatever tasks do while the processor waits for a timer, and however long they take, every running timer fires, and no cyclic timer fires before its time. Violated: if such a task starts a timer with an earlier due time and outlasts the awaited one, the wrong timer is removed or advanced: the new timer is lost and the processor hangs in a busy loop, or a cyclic timer fires twice for one period.',
 'every history','Depends on delays.',['src/common/maf/messaging/Timer.cpp: checkAllTimers, onShortestTimerExpired'])
p('C73','A timer may be stopped or destroyed on any thread',
 'Stopping or destroying a timer on a thread other than its processor\'s silences it, and the processor goes on. Violated in the second part: the timer stays in the heap of its processor and the latter hangs in a busy loop when it becomes due.',
 'every history','Depends on threads.',['src/common/maf/messaging/Timer.cpp: stop, checkAllTimers'])
p('C74','restart() works for timers that are not running',
 'restart() of a timer that has expired or was stopped makes it due after its interval. Violated: it is marked as running but never added, and never fires again even if started; if no timer is running the front of an empty heap is read.',
 'every history','All histories.',['src/common/maf/messaging/Timer.cpp: restart'])
p('C75','A timer may be started by its own callback',
 'start() called by the callback of the same timer is safe. Violated: the callback is replaced, hence destroyed, while it runs.',
 'every history','Undefined behaviour.',['src/common/maf/messaging/Timer.cpp: runTimer, onExpired'])
p('C76','true means that the execution will run',
 'If executeAsync() returns true or waitableExecute() a valid future, the execution runs unless the processor is stopped afterwards. Violated: stop() may close the queue between the check and the push; the execution is dropped silently and true is returned.',
 'every interleaving','Schedules.',[M+'Processor.cpp: executeAsync, addExecution','include/maf/threading/ThreadSafeQueue.h: push'])
p('C77','A message is only taken if somebody can handle it',
 'post() returns false if no handler is connected. Violated: a handler that disconnects itself while it runs leaves an empty entry behind, so the next post() returns true and nobody gets the message.',
 'every history','All histories.',[M+'Processor.cpp: post, msgConnected','include/maf/utils/SignalSlots.h: MultiSlotKeeper'])
p('C78','A handler may send messages of its own type to its own processor',
 'Sending a message from within a handler is safe. Violated by waitablePost() of the type being handled on the processor thread: the nested emission fails an assertion. This is the only way to make the assertion fail.',
 'every history','All histories.',[M+'Processor.cpp: waitablePost, processMessage'])
p('C79','Calls on a processor return',
 'No call other than the run loops blocks for ever. Violated: a handler that calls connect/post on its processor while another thread posts the type being handled deadlocks with it (map mutex and signal mutex taken in opposite orders).',
 'every interleaving','Schedules.',[M+'Processor.cpp: msgConnected, connect, processMessage'])
p('C80','execute() from an execution of the same processor is synchronous',
 'An execution of a processor that calls execute() on that processor has its callable run before the call returns. Violated when the run loop of the processor is nested in an execution of another one: the callable is queued (waiting for it would be a self-deadlock).',
 'every nesting of run loops','All histories.',[M+'Processor.cpp: execute, testAndSetThreadLocalInstance'])
p('C81','An execution of a processor runs on the thread that runs the processor',
 'Violated: waitableExecute and waitablePost compare ids, so the thread of a stopped processor runs executions of a new processor with the same id, concurrently with the thread that runs it.',
 'every history of create/stop/run','All histories.',[M+'Processor.cpp: waitableExecute, waitablePost'])
p('C82','shutdown() of a thread pool returns once the running tasks have',
 'Violated: the queue is closed and its sleepers notified without its mutex, so that a thread that just found it empty and open goes to sleep for good; shutdown then waits for that thread for ever.',
 'every interleaving','Schedules.',['include/maf/threading/ThreadPoolImplBase.h: stopThePool, waitForThreadsExited','include/maf/threading/ThreadSafeQueue.h: close, wait'])
p('C83','Every task handed to a pool is finished',
 'Once shutdown has returned, every task whose run() call returned has been finished (deleted if it asked for that). Violated for a task submitted while shutdown is under way: it can be put into the queue after that was cleared, and is neither run nor finished, ever.',
 'every interleaving','Schedules.',['include/maf/threading/ThreadPoolImplBase.h: run, stopThePool','include/maf/threading/ThreadSafeQueue.h: push, clear'])
p('C84','Destroying a pool is safe',
 'The destructor joins all threads of the pool. True for the pools with a fixed number of threads; violated for the dynamic pool: run() after shutdown() launches a thread that nobody joins, and the destructor calls std::terminate.',
 'every history','All histories.',['src/common/maf/threading/threadpool/DynamicCountThreadPool.cpp: run','include/maf/threading/ThreadPoolImplBase.h: tryLaunchNewThread, shutdown'])
p('C85','shutdown() asks every task that it waits for to stop',
 'Violated: a task that a thread has taken but not yet registered is started after the running tasks were stopped, without ever being asked to stop; for one that is registered but not started stop() is called before run().',
 'every interleaving','Schedules.',['include/maf/threading/ThreadPoolImplBase.h: coptRun, stopRunningTasks'])
p('C86','create() never returns a processor that is not reachable under its id',
 'Violated for two concurrent creations of one id (check, then act; the result of addProcessor is ignored): both return a processor, one of them is never reachable.',
 'every interleaving','Schedules.',[M+'Processor.cpp: create',M+'Router.cpp: addProcessor'])
p('C87','stop() never removes another processor from routing',
 'Violated: the set compares ids, so stop() of a processor that is not joined (reused after it had left, or stopped by two threads) removes a running processor with the same id.',
 'every interleaving and history','Schedules and histories.',[M+'Processor.cpp: stop',M+'Router.cpp: removeProcessor',M+'Router.h: ProcessorCompare'])
p('C88','A reused processor is reachable again',
 'Violated: reuse() opens the queue but does not join routing; a processor that has left is never reachable again in any continuation.',
 'every history','All histories.',[M+'Processor.cpp: reuse, stop'])
p('C89','Processors are told who is reachable',
 'Every joined processor that listens for status updates is told of each processor that joins and of each that is stopped, exactly once; a new processor is told who is already there. The first part holds; the second is violated for every history: no handler can be connected before create() has returned.',
 'every interleaving','Schedules.',[M+'Router.cpp: notifyAllAboutNewProcessor, informNewProcessorAboutJoinedOnes, removeProcessor'])
p('C90','Calls into routing return',
 'Every call of routing returns, if the threads go on. True as long as handlers that sendToAll() runs on the calling thread do not use routing; violated otherwise: the router mutex is held while they run, and the calling thread and everyone who uses routing hang for ever.',
 'every interleaving','Schedules.',[M+'Router.cpp: sendToAll'])

# ---------------------------------------------------------------- client and server objects
p('C91','Deinitialising a server tells its clients',
 'When a server is deinitialised, every registered client is told that its services are no longer available. Violated: deinit() empties the provider table before it stops the providers, and a stopped provider that is not in the table is not announced, so clients go on believing the services are available.',
 'every history','Histories.',[SC+'ServerBase.cpp: deinit, onServiceStatusChanged'])
p('C92','Clients agree about a service',
 'Two registered clients that got every message agree about each service whenever no call is under way. True while startServing/stopServing of that service are called one at a time; violated when they run concurrently: the status is stored and announced in two steps, so the announcements can be in the opposite order and registered clients stay with the wrong status.',
 'every interleaving','Schedules.',[SC+'ServiceProvider.cpp: startServing, stopServing',SC+'ipc/LocalIPCServer.cpp: notifyServiceStatusToClient'])
p('C93','Status updates are not lost',
 'A client that is registered eventually learns of a start/stop even if the transport refuses a message. Violated: a refused status message (e.g. receiver busy) is never repeated, the client keeps the old status.',
 'every history','Histories with failing sends.',[SC+'ipc/LocalIPCServer.cpp: notifyServiceStatusToClient'])
p('C94','A client that deinitialises is forgotten by the server',
 'After a client was deinitialised and the server handled the messages it sent, the server sends it nothing more. Violated: the leave messages carry a service id, and the server forgets a client only for a message without one; a client that knows no service sends none at all.',
 'every history','Histories.',[SC+'ClientBase.cpp: deinit',SC+'ipc/LocalIPCServer.cpp: onIncomingMessage'])
p('C95','A client registers with its server exactly until that succeeded',
 'Every look of the client at the server that finds it present sends exactly one registration if none was sent successfully since the server was last found absent, and none otherwise.',
 'every history of looks, messages and send results','Histories.',[SC+'ipc/LocalIPCClient.cpp: monitorServerStatus, onServerStatusChanged'])
p('C96','A client notices that its server was replaced',
 'After a server went away and another one took its address, the client\'s view becomes that of the new server. Violated: when both looks of the client find a server, it does not register with the new one and keeps the old view for ever.',
 'every history','Histories.',[SC+'ipc/LocalIPCClient.cpp: monitorServerStatus'])
p('C97','End to end: a get answers with a value the property really had',
 'Whatever getStatus delivers - through its callback or as the result of the synchronous form - is empty or a value the property had at the provider at some time; when the answer came over the wire, it is the value at the moment the provider processed that very get.',
 'every schedule of the requester, every history of the provider, every loss, duplication and reordering of messages','Asynchronous schedules with faults.',
 [SC+'ServiceRequester.cpp: getStatus, onRequestResult, cachePropertyStatus',SC+'ServiceProvider.cpp: onStatusGetRequest'])
p('C98','End to end: subscribers see real values only',
 'A subscriber of an operation is only ever called with a value the property had at the provider at some time, or with a payload the provider broadcast as a signal of that operation.',
 'every schedule of the requester, every history of the provider, every loss, duplication and reordering of messages','Asynchronous schedules with faults.',
 [SC+'ServiceRequester.cpp: onRegistersUpdated, registerStatus',SC+'ServiceProvider.cpp: setStatus, broadcast, updateLatestStatus'])

p('C102','Every call on a signal has exactly its effect',
 'connect() of a multi-slot signal always succeeds, puts the new slot behind all others and returns a new Connection; a SlotPtr may be connected several times, and disconnect(SlotPtr) removes one of its connections and says whether there was one; disconnect() disconnects everybody; calling the signal starts exactly one emission, which is over at once only if nobody is connected; an emission begins once, ends at most once and calls nobody before its beginning or after its end.',
 'every history of a signal, including calls made by slots while they run','All histories.',['include/maf/utils/SignalSlots.h: connect, disconnect, notify, MultiSlotKeeper'])
TPANCH=['include/maf/threading/ThreadPoolImplBase.h: run, shutdown','src/common/maf/threading/threadpool/DynamicCountThreadPool.cpp: run','include/maf/threading/ThreadSafeQueue.h']
p('C103','The number of threads of a pool',
 'A fixed pool keeps exactly the threads it was created with; a dynamic pool never has more than its limit, gains one thread per run() until it is reached, and never loses one. Violated for overlapping run() calls of a dynamic pool: two calls that read the count at the same time exceed the limit; when the calls do not overlap, it holds.',
 'every schedule of any number of threads calling run() and shutdown()','Schedules.',TPANCH)
p('C104','Every task given to a pool gets executed',
 'As long as nobody shuts the pool down and it has a thread, the pool can come to a standstill only when every task given to run() has been run exactly once and run() has returned; from every state this can be reached without any further call.',
 'every schedule, any number of threads and tasks, FIFO and priority queues','Liveness over all schedules.',TPANCH)
p('C105','Only the lost wake-up can keep a shutdown from completing',
 'Once shutdown() was called, from every reachable state the pool can go on - if its sleeping threads are woken up - until all calls of run() and shutdown() have returned and all threads have ended.',
 'every schedule, any number of threads and tasks, FIFO and priority queues','Liveness over all schedules.',TPANCH)

PRANCH=['src/common/maf/messaging/Processor.cpp: ProcessorImpl, MsgConnection','include/maf/messaging/Processor.h']
p('C106','The calls of a processor that submit nothing',
 'stopped(), pendingCount() and connected(type) answer with the state at some moment of the call. Only stop() makes a processor stopped and only reuse() undoes it; stop() does not return before it was stopped, and when reuse() returns it is usable. disconnect() of one connection removes that handler and no other; reconnect() puts it behind the others unless it is still connected; disconnect(type) removes the handlers of that type and touches another type only if it has no handlers left; nothing else changes the handlers.',
 'every history of any number of threads, processors, message types and handlers, including calls made by executions and handlers','Schedules; all histories.',PRANCH)
p('C107','connected(type) tells whether messages of the type are handled',
 'connected(type) is true exactly if a handler of that type is connected. Violated: after the last handler was disconnected through its connection, connected(type) is still true, while post() of such a message is refused; "false" is reliable.',
 'every history of a processor','All histories.',PRANCH)
p('C108','A reconnected handler gets messages again',
 'When reconnect() of a message connection has returned, the handler is one of the handlers of its message type. Violated after disconnect(type): reconnect() returns normally, but no message posted afterwards ever gets to the handler; it holds if disconnect(type) is not called.',
 'every history of a processor, and every continuation','All histories and continuations.',PRANCH)
p('C109','What a run loop does, and what it returns',
 'Between its call and its return a run loop takes one execution after the other and runs each to its end before it takes the next. runOnceFor/runOnceUntil run at most one and return true exactly if they ran one. A run loop that returns otherwise does so because the processor was stopped at some moment of the call, or because its time was up with nothing pending.',
 'every schedule of any number of threads, processors and nested run loops','Schedules.',PRANCH)
p('C110','What each routing call does, and who causes what',
 'sendToAll posts its message, at one moment of the call, exactly once to every joined processor that takes it except the calling one; postToAll posts nothing besides that. A processor was stopped at some moment of each stop() that returned; when reuse(), connect() or disconnect() returns, it has taken effect. Processors are stopped, reopened, connected and disconnected only by a running call of that function on them, and every message that reaches a processor is the argument of the post call that posted it, or a status message of a create() or stop().',
 'every interleaving of create, stop, reuse, find, post, postToAll, sendToAll, connect, disconnect by any number of threads','Schedules.',
 [M+'Router.cpp: sendToAll, postToAll, post',M+'Processor.cpp: stop, reuse'])
p('C111','The remaining calls of a provider, and everything it sends',
 'registerRequestHandler succeeds exactly if a handler is given and none is in charge; unregisterRequestHandler tells whether one was. startServing/stopServing, and nothing else, announce the availability, and availability() tells the last one set. A message whose code is no request to a provider is reported as not handled and has no effect; unregistering is accepted without sending anything; removing a property without notification and (dis)connecting listeners are silent; onAborted on a closed request runs the callback at once without other effect, on an open one it is silent. Every message a provider sends is the answer to the message being handled (to its sender, with its ids), a user reply to an open request (to the client that made it), or a broadcast to a subscriber.',
 'every history of calls and every behaviour of the transport','All histories.',
 ['src/common/maf/messaging/client-server/ServiceProvider.cpp','src/common/maf/messaging/client-server/Request.cpp'])
p('C112','Everything a call of a requester does; observers of the service status',
 'For each call of a requester, what it does from its beginning to its return is exactly one of the courses the API allows: which messages it sends (code, operation, id, payload) and in which order, which callbacks it runs itself, which observers it tells, and which result it returns; whether it takes the "service available" course depends only on a status the service had during the call. Only registered observers are told about the service status; an observer that was unregistered, or that was told and turned out to be gone (threw UnavailableException), is not told again unless registered again.',
 'every interleaving of the steps of any number of concurrent calls and every behaviour of the transport',
 'All interleavings.',
 [SC+'ServiceRequester.cpp'])
p('C115','Every call of a requester reports its outcome',
 'Each call that has an outcome (registering, requesting, getting a status, aborting) reports it: after the call the caller knows whether it succeeded, and a reported success means that the callback will be run or the value was returned.',
 'every interleaving of the steps of any number of concurrent calls and every behaviour of the transport',
 'All interleavings.',
 [SC+'ServiceRequester.cpp: registerNotification, abortRequest, getStatus'])
p('C113','The remaining calls of the server',
 'hasServiceProvider answers exactly whether the service has a provider. Every availability message was sent to a client that had registered, about a service that has a provider, and tells what somebody asked for (startServing, stopServing, deinit). A client that unregistered, or whose address turned out to be unreachable, is not told anything until it registers again. Unregistering is forwarded to every provider exactly once, as a message for its service. deinit deinitialises every provider that existed exactly once, nothing else does, and afterwards getServiceProvider makes new providers. (Un)registering is always accepted, getServiceProvider always yields a provider.',
 'every interleaving of the steps of any number of concurrent calls and every result of the transport',
 'All interleavings.',
 [SC+'ServerBase.cpp','src/common/maf/messaging/client-server/ipc/LocalIPCServer.cpp'])
p('C114','The remaining calls of the client',
 'hasServiceRequester answers exactly whether the service has a requester. Every availability a requester is told was reported by a status message for its service, or is "unavailable" after the server was found absent. The client registers with the server only while handling a look at the server that found it present. deinit tells the server, exactly once for each, that the client gives up every service it had been told about (and only those), deinitialises every requester handed out before exactly once, and leaves nothing behind: later requesters are new and services count as unavailable until a status message arrives again. Requesters are deinitialised by deinit only. All other calls report success.',
 'every interleaving of the steps of any number of concurrent calls, every result of the transport and every sequence of messages',
 'All interleavings.',
 [SC+'ClientBase.cpp','src/common/maf/messaging/client-server/ipc/LocalIPCClient.cpp'])
p('C116','A request given to a typed handler is answered, even if the handler forgets it',
 'When the executor has run every task it accepted and the user has destroyed every request object, every request received has exactly one final answer, or the client aborted it: what a handler neither responds to nor rejects is answered with ResponseIgnored when its request object is destroyed. At any moment an open request waits in the executor or is held by exactly one request object, which valid() reports valid and whose replies go to the client that asked, with its operation and request id. Moving a request object sends nothing and hands the request over; after the final answer nothing more is sent. (Provided that the executor neither refuses nor discards a task and no request object is overwritten, see C118.)',
 'every history of registrations, incoming messages, executor decisions, uses, moves and destructions of request objects, and every result of the transport',
 'All histories of any length and any order in which the executor runs its tasks.',
 [CS+'BasicStub.h: registerRequestHandler',CS+'RequestT.h',SC+'Request.cpp: reply'])
p('C117','A registered handler serves every request',
 'registerRequestHandler on a typed stub with an executor succeeds exactly if no handler is in charge of the operation. However many requests an operation has had, each next one is handed to the executor together with the function in charge, although calling the stored wrapper moves the function out of it; whenever the executor runs that task, exactly the function that was in charge on arrival is called with a fresh object for that request, even if it was unregistered or replaced meanwhile. No request is given to a function twice, and nothing else calls user functions.',
 'every history of registrations, incoming messages, executor decisions and uses of request objects',
 'All histories; the move makes the second request the critical one.',
 [CS+'BasicStub.h: registerRequestHandler',SC+'ServiceProvider.cpp: getRequestHandlerCallback'])
p('C118','No request gets lost between provider and user',
 'Every request that a typed stub received is answered sooner or later even if the executor refuses or discards its task, or the user assigns to a request variable; and a handler that cannot be called is refused at registration.',
 'every history of registrations, incoming messages, executor decisions and uses of request objects',
 'All histories.',
 [CS+'BasicStub.h: registerRequestHandler',CS+'RequestT.h'])
p('C119','Typed callbacks and results of a proxy',
 'A callback given to a proxy call is called on the executor the proxy had at that moment, only with what the requester received for that call, translated to the type asked for (an error payload becomes an error response, an absent one an empty output, content of another type nothing). It is never used up: every message the requester delivers to it leads to exactly one call, unless the executor refuses or discards it; an executor that runs its tasks first come, first served calls the callbacks of all calls in the order in which the messages arrived; the callback of an asynchronous request without partial updates is called at most once. A synchronous call returns exactly the requester\'s verdict, with OperationFailed for every failure. Calls without usable callback are refused at once with InvalidParam.',
 'every interleaving of any number of concurrent calls on any number of proxies sharing a requester, every behaviour of executors and transport',
 'All interleavings and executor behaviours.',
 [CS+'BasicProxy.h',CS+'ResponseT.h'])
p('C120','A proxy tells the user when a callback cannot be called or content is incomplete',
 'A call whose callback can never be called (no executor) is refused and says so in callStatus; content that was truncated on the way is reported as an error instead of being passed to the callback.',
 'every history of calls, every type and every content',
 'All histories and contents.',
 [CS+'BasicProxy.h: sendRequestAsync, registerSignal, convert'])

p('C121','Waiting for a status of a service',
 'waitIfNot(status) returns Ready only if the signal was last told that status and was not stopped, Interrupted only if it was stopped (from then on no wait ends in any other way), TimeOut only if an interval was given and has elapsed while the status was another one and the signal not stopped; currentStatus() returns the last status told. Every call returns at most once. A wait whose status is there, or whose signal is stopped, returns without any further event: no wake-up is lost. A wait with an interval returns when that has elapsed; stop, currentStatus and the delivery of a status never block.',
 'every interleaving of any number of waits, stops and status reports, all spurious wake-ups and expiries',
 'All interleavings and wake-ups.',
 [CS+'ServiceStatusSignal.h: ServiceStatusSignal'])
p('C122','A wait does not miss a status',
 'A wait that is in progress when the signal is told the awaited status returns Ready; Ready means that the signal was told the status.',
 'every interleaving of waits and status reports',
 'All interleavings.',
 [CS+'ServiceStatusSignal.h: ServiceStatusSignal'])

p('C123','A synchronous timer fires when due, and never after stop()',
 'start() calls its callback for the k-th time not before k intervals have passed since it took effect, only while the timer is running, and not after it returned; between stop() and the next start nothing fires. A start that is due fires by its own steps (unless a callback is running); stop() ends the only start in progress without waiting for its deadline. start() takes effect at most once and returns at most once, only after its callback ran, the timer was stopped, or another start returned. running() tells the truth. A one-shot timer fires at most once per start, and what is called is the callback given (if setCyclic is not used).',
 'every interleaving of any number of threads, any re-entrant use by callbacks, every clock and every spurious wake-up',
 'All interleavings and times.',
 [M+'SyncTimer.cpp','include/maf/messaging/SyncTimer.h'])
p('C124','A synchronous timer can be restarted, replaced and stopped at any time',
 'restart() defers the time-out by the interval; starting a timer that is running replaces the previous start, whose callback is not called any more, and the new callback is called when due; stop() can be called on any thread at any time; the callback called is never empty.',
 'every interleaving of calls on the timer',
 'All interleavings and times.',
 [M+'SyncTimer.cpp: start, restart, stop'])

p('C125','csmgmt hands out one requester per connection and service, and shuts everything down',
 'getServiceRequester / getServiceProvider: as long as no shutdown is called, all callers asking for the same type, address and service get the same object, made on a client (server) that was initialised and started exactly once however many threads ask at once; other services, and other addresses between processes, get different objects; in the process there is one per service for good. A null pointer is returned only for an unknown type or when the init done by this very call failed; a client whose init failed is never started. Nothing is closed unless a shutdown is called, and a shutdown that has returned stopped, then deinitialised, everything started before it was called and took down each requester and provider between processes once; a server obtained afterwards is a new one. Each call returns at most once and no interleaving of calls deadlocks.',
 'every interleaving of any number of get and shutdown calls on any threads, with any addresses, services and failing inits',
 'All interleavings and failures.',
 [SC+'CSMgmt.cpp',SC+'ClientFactory.cpp',SC+'ServerFactory.cpp','include/maf/utils/containers/Map2D.h'])
p('C126','After a shutdown csmgmt can be used afresh and nothing old stays alive',
 'After shutdownAllClients a new getServiceRequester connects afresh; a shutdown takes down everything handed out before; nothing is handed out on a closed server.',
 'every interleaving of get and shutdown calls',
 'All interleavings.',
 [SC+'CSMgmt.cpp',SC+'ClientFactory.cpp: close',SC+'ServerFactory.cpp: close'])
p('C127','A waitable connection delivers the first notification to the waiting thread, once',
 'waitableConnect makes a connection that is called by at most one notification, the first to end after the connection was made, and the slot given by the user is called at most once, by a wait on that FutureInvocation, before that wait returns, with the value of the notification. wait returns true exactly if it called the slot; otherwise another wait did, the time was up, or the signal was disconnected. A notification that has ended reached every connection made before, unless cancelled or disconnected. A connection that was cancelled before it fired is never fired. A wait whose outcome is there returns, whatever other calls do; a wait with a time limit returns when the time is up.',
 'every interleaving of any number of waitableConnect, notify, disconnect, cancel and wait calls on any threads, also of calls made inside a notification',
 'All interleavings.',
 ['include/maf/utils/SignalSlots.h: FutureInvocation, waitableConnect'])
p('C128','A wait does not outlive its connection, and no notification is lost',
 'A wait on a connection that is cancelled returns; waitableConnect does not lose a notification that comes while it runs; after cancel the slot is not called any more.',
 'every interleaving of waitableConnect, notify, disconnect, cancel and wait calls',
 'All interleavings.',
 ['include/maf/utils/SignalSlots.h: FutureInvocation, waitableConnect'])
p('C129','A slot with an executor gets every notification, in order, on its processor',
 'notify hands its value to every slot connected when it began (and to no other), once each and in connection order: the slot is run by the notifying thread if it has no executor or the direct executor, or if the notifying code runs on the processor and the executor is the default or the blocking one; otherwise it is posted to the processor, which runs it once, with that value, never while it runs other code, and in the order of posting. Nothing is lost unless the processor is stopped or destroyed; what is posted is dealt with once the processor runs its queue. With the blocking executor notify waits until the slot was run. A notification that began can always return by its own steps and those of the processor unless other code on the processor is waiting for the signal; every call returns by its own steps, those of the notification in progress and of the processor if no call made on the processor is waiting; disconnect returns when the slot is not connected any more.',
 'every interleaving of any number of connect, disconnect and notify calls on any threads and by code on the processor, with any mixture of executors, and of running, stopping, reusing and destroying the processor',
 'All interleavings.',
 ['include/maf/utils/SignalSlots.h: connect with executor, MultiSlotKeeper',M+'Processor.cpp: executors','src/common/maf/utils/DirectExecutor.cpp'])
p('C130','Executors do not weaken what a signal promises',
 'A slot is not run after its disconnect returned; notify does not silently lose a value; a slot gets the values in the order in which they were notified; notify always returns.',
 'every interleaving of connect, disconnect and notify calls with any mixture of executors, and of running, stopping, reusing and destroying the processor',
 'All interleavings.',
 ['include/maf/utils/SignalSlots.h: connect with executor, MultiSlotKeeper',M+'Processor.cpp: executors'])
p('C131','An AsyncProcessor runs its processor on one thread and leaves none behind',
 'launch starts a new thread, and only for an object that holds none. The thread calls threadInit first and threadDeinit last, each at most once, and runs executions only in between and only while the processor is open; it ends only when it finds the processor stopped or an execution has thrown. running() says whether the object holds a thread whose outcome it has not collected. A wait collects an outcome only after the thread has ended; when wait or stopAndWait without a duration, or the destructor, has returned, the object holds no thread, so that a thread that has not ended is always held by an object or by a move assignment, which returns only after it has ended. An exception comes out of a wait, or ends the program, only if an execution threw. A wait on a stopped processor whose thread is not within an execution can always end by its own steps and those of the thread.',
 'every interleaving of any number of processors, AsyncProcessor objects and their threads, and of launch, wait, stopAndWait, running, move assignment, destruction, stop and reuse calls made on any threads and by executions, with any executions, throwing or not',
 'All interleavings of the launched threads with the calls, of any length.',
 ['include/maf/messaging/ProcessorEx.h: AsyncProcessor',M+'Processor.cpp: run, stop, reuse','include/maf/threading/ThreadSafeQueue.h: wait, close'])
p('C132','stopAndWait, launch, move assignment and destruction of an AsyncProcessor do what they say',
 'launch makes the processor run; stopAndWait returns once the processor was stopped; move assignment and destruction stop and end the thread of the object and let the program go on.',
 'every interleaving of any number of processors, AsyncProcessor objects and their threads, and of launch, wait, stopAndWait, running, move assignment, destruction, stop and reuse calls made on any threads and by executions, with any executions, throwing or not',
 'All interleavings, and calls that never return.',
 ['include/maf/messaging/ProcessorEx.h: AsyncProcessor',M+'Processor.cpp: run, stop, reuse','include/maf/threading/ThreadSafeQueue.h: wait, close'])
p('C133','A ProcessorChain runs its functions in the order in which they were added',
 'Calling a chain runs the functions it was built of by then, in that order, the first on the argument and every other one on what the one before returned; the call returns what the last one returned, or throws when one throws, and then none after it runs. then and copying make a chain of what the original was made of and leave all other chains as they were. valid says whether then was not called on the chain.',
 'any number of chains, built by any sequence of default construction, copying and then, of any length, with any functions, throwing or not, called with any values, in any order',
 'Chains of every length and every history of copying and then.',
 ['include/maf/utils/ProcessorChain.h: ProcessorChain, then, operator(), valid'])
p('C134','A ProcessorChain stays usable',
 'A chain from which another one was made by then still works; a chain that says it is valid runs its functions; connected says whether the chain is usable.',
 'any number of chains, built by any sequence of default construction, copying and then, of any length, with any functions, called with any values, in any order',
 'Every history of copying and then.',
 ['include/maf/utils/ProcessorChain.h: ProcessorChain, then, operator(), valid, connected'])
