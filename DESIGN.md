# Design of the Rocq model of casual

## Scope and method

The model is written in Gallina (Coq 8.16.1, standard library only) in `rocq/theories`. Each component `X` has

* `XModel.v`  - executable definitions, function by function; each one has a comment citing the file and lines in /repo, and what was simplified;
* `XSpec.v`   - the small independent vocabulary of the statements;
* `XProofs.v` (and further files) - lemmas and invariants;
* `XProps.v`  - only the property theorems `Cnn_...`, examples that meet their hypotheses, and `Print Assumptions` of every one.

Undefined behaviour of C++ (reading outside of a buffer, dereferencing the end of a container) is a distinct outcome of the model, as are
exceptions and termination of the process when they can be observed. When the code as it is violates a property as stated in English, there
is a theorem `Cnn_..._refuted` which gives a concrete run, and the strongest true variant is proved beside it (`_partial` when clauses of
the English statement are missing). The theorems quantify over every input, state or history: invariants are proved by induction over lists
of events, codecs by induction over values; there are no bounds on sizes or steps. `vm_compute` is used for examples, for witnesses, and for
facts about finite tables (result codes, message kinds), which are lifted to the quantified statement by lemmas.

The theorems are tested against wrong programs: `seeded/LOG.jsonl` has, for each attempt, the definition edited, the edit, the claim it
breaks, and the theorems that no longer hold.

## Components

### Queue storage (`Queue*.v`): C01, C02, C03, C04, C05, C06, C07, C10, C11, C36, C37, C38

*Modelled:* queue/source/group/queuebase.cpp, queuebase/statement.cpp, schema.h: the tables as lists of rows, every SQL statement and trigger as a function, the Queuebase methods on top.

*Proof:* invariants by induction over lists of operations; exact before/after descriptions of each operation.

*Simplified or left out:* SQLite itself; the upgrade of old schema versions; payload bytes are opaque.

### Queue group (`Group*.v`): C08, C09, C12, C39, C40, C41

*Modelled:* queue/source/group/handle.cpp, state.cpp, main.cpp: request handlers, capacity, persistent replies, pending dequeues, the timer, crashes.

*Proof:* invariants over handler steps; a crash continues from the last persisted tables.

*Simplified or left out:* Administration requests other than those that change messages; concurrent group processes share nothing.

### Result codes (`Codes*.v`): C19, C20

*Modelled:* common/source/code/{xa,tx,convert}.cpp.

*Proof:* finite tables by computation, lists of codes by algebra.

*Simplified or left out:* Integers outside of the enumerations are one value.

### Fan-out coordination (`Fan*.v`): C18

*Modelled:* common/include/common/message/coordinate.h, namespace fan.

*Proof:* induction over events.

*Simplified or left out:* shared_ptr identity is a key.

### Transaction manager (`Tm*.v`): C13, C14, C15, C16, C17, C21, C42

*Modelled:* transaction/source/manager/{handle,state,log}.cpp.

*Proof:* invariants over all schedules of requests, replies, failures and exits; runs of several managers only through their messages.

*Simplified or left out:* Identifiers are integers; the routing of a request to a proxy instance; configuration.

### Transaction context of a process (TX) (`Ctx*.v`): C21, C22, C23, C24, C43, C44

*Modelled:* common/source/transaction/{context,transaction}.cpp.

*Proof:* case analysis per call, invariants over call sequences; resource managers are oracles.

*Simplified or left out:* Resource managers are arbitrary codes.

### Service manager (`Svc*.v`): C25, C26, C27, C28, C45, C46, C47, C48

*Modelled:* service/source/manager/{handle,state}.cpp, common/include/casual/container.h.

*Proof:* invariants over message histories.

*Simplified or left out:* Metrics, event subscriptions, configuration, administration.

### IPC transport (`Ipc*.v`): C29, C30, C49

*Modelled:* common communication/device.h, ipc.cpp, ipc/message.cpp: cutting to datagrams, assembling, cache, discard.

*Proof:* induction on datagrams, invariant on the cache.

*Simplified or left out:* Sockets and signals.

### Send coordinator (`Send*.v`): C50, C51

*Modelled:* common communication/ipc/send.{h,cpp}, partial::send.

*Proof:* invariants over runs; refinement to a queue per destination.

*Simplified or left out:* Devices with a connector; reentrant callbacks.

### Network byte order (`Bo*.v`): C31

*Modelled:* common/source/network/byteorder.cpp.

*Proof:* arithmetic on bytes for both byte orders.

*Simplified or left out:* Floating point is its bit pattern.

### Order buffer (`Ord*.v`): C32

*Modelled:* buffer/source/order.cpp.

*Proof:* history refinement to a list of values.

*Simplified or left out:* One buffer.

### Field buffer (`Field*.v`): C33

*Modelled:* buffer/source/field.cpp.

*Proof:* refinement of every history on any number of buffers to lists of fields.

*Simplified or left out:* Repository of names, printing, matching.

### Text codecs (`Text*.v`): C34, C53, C54, C55

*Modelled:* common transcode, uuid, transaction/{global,id}.cpp, http/source/common.cpp.

*Proof:* round trips by induction; tables by computation.

*Simplified or left out:* base64 is RFC 4648.

### TCP transport (`Tcp*.v`): C52

*Modelled:* common communication/tcp.cpp, tcp/message.cpp, device.h.

*Proof:* induction over reads of arbitrary size.

*Simplified or left out:* Connecting, listening.

### Binary archives (`Arc*.v`): C35

*Modelled:* common serialize/value.h, native/binary.h, native/network.h, memory.h, transaction/id.h.

*Proof:* induction on the type; prefix-freeness.

*Simplified or left out:* Unordered containers, text archives.

### Interdomain protocol (`Proto*.v`): C56, C57, C58

*Modelled:* gateway/message.h, message/protocol.h, protocol/transform.h, protocol/version.h, tcp/logical/connect/main.cpp, common message/service.h, queue/ipc/message.h, domain discovery messages, and the protocol documentation (ProtoDoc.v is extracted from it).

*Proof:* message layouts are types of the archive model (C35), so bytes follow from it; the tables of the documentation are compared with the layouts by computation; transforms case by case.

*Simplified or left out:* Headers, requested, visibility and other members that are not part of the layout are not carried; time is a parameter.

### Calls of a process (`Call*.v`): C43, C59, C60, C61, C62

*Modelled:* common service/call/context.cpp, service/call/state.cpp, service/lookup.cpp (idle, no entry, busy, signal, failed send), xatmi tpcall/tpacall/tpgetrply/tpcancel result codes, composed with the client transaction context model (Ctx).

*Proof:* a process is the call context together with the transaction context of C21-C24; histories are lists of inputs with events; an invariant relates pending descriptors and the inbound device to the events of the history.

*Simplified or left out:* Buffers are a payload tag; the inbound device is the list of reply messages with discarded correlations (its chunk level behaviour is C29/C30/C49); deadlines and signals are inputs; fresh uuids are a counter; conversations aren't part.

### Server request handling (`Serve*.v`): C63, C64, C65

*Modelled:* common server/handle/{service,call}.h, server/handle/{service,policy,conversation}.cpp, server/service.cpp, execute.h; the routine is any list of the inputs of the Calls model.

*Proof:* one function from request, routine, ending and failures to the process after and the list of what can be seen; all ways through it are enumerated by a lemma; the transactions in the routine are followed with the step lemmas of Ctx and Calls.

*Simplified or left out:* Buffers, deadline, headers and metrics are left out; conversations inside of the routine aren't part; a finalize that raises has made any prefix of what it would have done.

### Conversations (`Conv*.v`): C66, C67, C68, C69

*Modelled:* common source/service/conversation/context.cpp, service/conversation/state.h, the conversational part of server/handle/{service,conversation}.cpp, xatmi/conversation.cpp, message/dispatch.h (the pump); any number of processes with a network between them. ConvTx: what tpconnect does to the transaction context (CtxModel).

*Proof:* a step function per process and call, a world of processes with ordered channels; an invariant for each conversation that relates what each side has seen (sent, got, control, descriptors) with what is in the channel and the inbox (ConvInv, ConvShape), kept by every action (ConvKeep, ConvAct) and read off in ConvUse.

*Simplified or left out:* Payloads are integers; messages arrive whole and in order (C29, C30); the discard of messages at disconnect is left out since no call can tell; outcomes of lookup, send failures, signals and the death of a server are inputs. A server that returns to the pump has closed the conversations it has connected itself (refuted without).

### Gateway outbound (`Gwo*.v`): C70, C71, C72, C73, C74, C75, C76

*Modelled:* gateway source/group/outbound/{handle,state}.cpp, gateway/group/{tcp,connection}.h (send, lost, Holder), casual/task/concurrent.h; GwoSvc: with the service manager's update (SvcModel).

*Proof:* one process with any number of connections, a step function over its inputs (requests at the connections, messages of the remotes, connects, losses, configuration, shutdown, idle) that gives effects; histories; invariants that relate tasks, destinations, associations and leavings with the history (GwoInv, GwoKeep, GwoTight, GwoReply, GwoConsult, GwoClose), use of removed connections as the distinct outcome Undefined, casual::terminate as Terminated.

*Simplified or left out:* A connection is named by the identity of its ipc device, which is never used again (a uuid); descriptors are reused freely once closed. What a socket does not take at once is kept by the device and its later failure is the input Broken. Messages are abstract (the encoding and versions are C56-C58). Reconnecting and the registration at discovery are left out; whether the managers can be reached is not modelled.

### Gateway inbound (`Gwi*.v`): C77, C78, C79, C80, C81

*Modelled:* gateway source/group/inbound/{handle,state,main}.cpp, inbound/task/create.cpp, gateway/group/{tcp,connection}.h (send, lost, Holder), casual/task/concurrent.h.

*Proof:* one process with any number of connections, a step function over its inputs (messages of the remotes, messages at the devices of the connections, connects, losses, failing sends, events of the TM, configuration, shutdown, idle) that gives effects; histories; the specification is in terms of inputs and effects only; invariants relate tasks, cache and leavings with the history (GwiInv, GwiOnce, GwiKeep, GwiPass, GwiReply, GwiThere, GwiCache, GwiClose, GwiLeave); the use of a removed task as the distinct outcome Undefined, casual::terminate as Terminated.

*Simplified or left out:* As for the outbound: a connection is named by its ipc device, descriptors are reused freely once closed, later failures of kept writes are the input Broken; messages are abstract. The assumptions on the environment are hypotheses: unique (no correlation twice), honest and once (the managers answer what they are asked, once), tm_consistent (the TM gives one branch per transaction); without unique see C77_loop_refuted. The registration at discovery, the limits (size, messages) and the transformation of v1.2 messages are left out.

### Queue forward (`Qfw*.v`): C82, C83, C84, C85, C86

*Modelled:* queue source/forward/{handle,state}.cpp, forward/state.h.

*Proof:* one process with any number of service- and queue-forwards, a step function over its inputs (messages of the managers, queue groups, services and the domain manager, failing sends, deaths, configuration, shutdown) that gives effects; histories; a flow is known by the correlation of its dequeue; the specification (QfwSpec) is in terms of inputs and effects only: the story of a flow, active, waiting, knows, remaining; invariants relate the pending lists and the instances with the history (QfwInv, QfwFlow, QfwCount, QfwShape, QfwStop, QfwEnd, QfwQuiet, QfwLook, QfwRef, QfwKnow, QfwStart).

*Simplified or left out:* Correlations and transactions are drawn from a counter (uuids are unique). The four pending lists are one list with a stage. Payloads are abstract. The metric counters, the group's memberships and the informational state are left out. A message that can't be delivered is an input (NotDequeued, NotEnqueued) for the sends that have an error callback or are dropped; a call that can't be delivered is answered by the error callback, as CallReply with a code. What the TM answers to a commit or rollback is only 'has more to come' or not.

### Queue manager (`Qmg*.v`): C87, C88, C89, C90

*Modelled:* queue source/manager/{handle,state,configuration,transform,main}.cpp, manager/state.h, common casual/task.h (Coordinator), configuration model/change.h.

*Proof:* one process, a step function over its inputs (configuration, lookups, advertisements, discovery, connects, replies, exits, deaths, lost devices, shutdown, idle) that gives effects (replies, spawned and stopped processes, configurations sent); histories; the specification (QmgSpec) is in terms of inputs and effects only: offers (an inductive relation: what is offered, with what order and what enabled), waiting, complete, settled, wants, calm; invariants relate the queue map, the pending lookups, the groups and the coordinator with the history (QmgEnt, QmgQueues, QmgOffers, QmgLook, QmgLook2, QmgTasks); what the coordinator does is by predicates that the start of each task keeps (QmgConform - QmgConform5).

*Simplified or left out:* Names, aliases, devices, pids and correlations are integers. Of the configuration of a group the alias and what is enabled for each queue are kept, the rest is one number. The map of vectors of queues is one list sorted by order (what is for a name is the vector of that name); the place among equal orders is that of a stable sort. The pids of the spawned processes are drawn from a counter. A send to a device that is gone does nothing. Errors of the runtime (State::runlevel error), the group coordinator of memberships, the administration services, metrics and the events are left out. A lookup on behalf of another domain doesn't wait (that is how the gateway sends it).

### Discovery (`Dsc*.v`): C91, C92, C93, C94, C95, C96

*Modelled:* domain source/discovery/{handle,state}.cpp, domain discovery/state.h, domain message/discovery.h, common message/coordinate.h (fan::Out, minimal::fan::Out).

*Proof:* one process, a step function over its inputs (registrations, requests, replies, topology updates, the timer, deaths, lost devices, configuration, shutdown) that gives effects; histories; the specification (DscSpec) is in terms of inputs and effects only: open (an inductive relation: what has been asked and has neither been replied to nor failed), quiet, armed, refused (asked, and replied to without the name, or failed), provides, official and called (the names in other domains and here), told_here, told_there, not_here, not_there, fetched, explored, spread, rediscovered; conservation of requests by counting (DscHold, DscTheorems), an invariant for all that is pending (DscDyn, DscOps, DscMove, DscStep), where the updates are kept until they're done (DscGoals, DscTimer). Two domains that are connected to each other: net (DscNet).

*Simplified or left out:* Names, devices, pids, domains and correlations are integers; services and queues are one list with two constructors; all that a service or queue has besides the name is one number. The correlations that are sent are drawn from a counter. What the heuristic says (whether to accumulate) is an input. A send to a device that is gone does nothing; the error callbacks of the send coordinator are left out. The order of the contents isn't modelled, and of two services with the same name the first stays (the code's sort may leave any). The administration, the counters of metrics and the state of the domain's instances are left out.

### Domain manager (`Dom*.v`): C97, C98, C99, C100, C101, C102, C103, C104

*Modelled:* domain/source/manager: handle.cpp (boot, shutdown, scale, process connect/lookup/exit, assassination, fatal error), state.cpp (instances, scale, remove, Group::boot::Order, scalables), state/order.cpp, task/create.cpp (scale groups, done events), common/include/casual/task.h (Coordinator), libstdc++'s stable_sort (insertion sort of chunks, merges)

*Proof:* A transition system of the manager process: an input with what the spawns give leads to a state and a list of effects. Invariants over all histories: the marks of the tasks (what has begun and ended) are a prefix of a plan that's fixed at begin and shutdown; instances against children; singletons against approvals; pending lookups against those asked.

*Simplified or left out:* Pids, devices, aliases and ids are integers; restarts by the administration, the configuration get/put, environment, the time and the number of restarts, subscribers to events, and the file persistence aren't modelled; a failed send is a no-op.

## Plan and status per property

| id | property | status | where | remark |
|----|----------|--------|-------|--------|
| C01 | Queue: isolation of uncommitted work | proved | Queue |  |
| C02 | Queue: no duplicate delivery | proved | Queue |  |
| C03 | Queue: no lost messages | proved | Queue |  |
| C04 | Queue: rollback, retry and error queue | proved | Queue | Complete description of what a rollback does to held, enqueued and foreign messages. The unconditional frame claim is refuted by C04_settled_message_moved_refuted (rollback3 has no state filter). |
| C05 | Queue: FIFO order | proved | Queue |  |
| C06 | Queue: selective dequeue | proved | Queue |  |
| C07 | Queue: reported metrics are exact | proved | Queue |  |
| C08 | Queue: capacity is enforced | proved | Group |  |
| C09 | Queue: acknowledged work is durable | proved | Group |  |
| C10 | Queue: restore is the inverse of error moves | proved | Queue |  |
| C11 | Queue: recovery directives | proved | Queue |  |
| C12 | Queue: blocking dequeue is eventually served | partial | Group | Accounting and service at idle/timeout points are proved in full. The timer half is proved under the hypothesis that the queue had no message already available (C12_timer_partial); in general it is false: C12_timer_always_armed_refuted (lost wakeup). C12_idle_sleeps_refuted: a selective request makes the idle process spin. |
| C13 | TM: commit only after unanimous vote | partial | Tm | Proved for every run with honest resources, nobody joining after the vote began and an obedient upstream manager; both remaining conditions are necessary (the _refuted theorems). C13_own_decision needs neither. |
| C14 | TM: unanimous outcome | partial | Tm | What the caller is told is exactly characterised (C14_rolled_back, C14_committed). 'Nobody has been asked to commit' needs that nobody rolls back meanwhile (see C15). Refuted for an upstream manager: a domain whose severest vote is XAER_NOTA answers read-only and leaves a prepared resource. |
| C15 | TM: decision is stable | partial | Tm | Proved for transactions nobody rolls back from outside and whose owner stays alive; without that it is false (two machine-checked counterexamples). |
| C16 | TM: decision is durable before it is acted upon | partial | Tm | The second half ('prepared' is told only when it is on disk) is proved in full; the first half (commit requests wait for the record) is false: C16_commit_before_durable_refuted. |
| C17 | TM: one final answer per commit request | partial | Tm | At most one final reply is unconditional; exactly one, and removal, for undisturbed transactions whose resources answer or are given up. Refuted otherwise: C17_commit_never_answered_refuted. |
| C18 | Fan-out: the callback fires exactly once with every outcome | proved | Fan |  |
| C19 | XA severity is a total order | proved | Codes |  |
| C20 | TX code composition | proved | Codes |  |
| C21 | TX result of a commit tells the truth | proved | Ctx, Tm | Manager's half and client's half; refuted for the one-phase commit inside the process, where XA_RB* is reported as TX_HAZARD (C21_client_one_phase_refuted). |
| C22 | TX: transaction demarcation state machine | partial | Ctx | Proved for every call sequence; the clause "a refused call leaves all state unchanged" holds when no resource manager was involved (C22_refused_unchanged, C22_commit_refused, C22_rollback_refused) and is refuted when a resource manager fails: C22_failed_suspend_refuted, C22_failed_resume_refuted, C22_failed_stacked_begin_refuted. |
| C23 | TX: chained mode reports failure to begin | partial | Ctx | When the new transaction starts the completion code is kept; when it does not, TX_ERROR is added, not NO_BEGIN: C23_no_begin_refuted. |
| C24 | TX: service completion never commits unfinished work | partial | Ctx | All proved but the clause on pending replies, which is false: C24_pending_refuted. |
| C25 | Service manager: a sequential instance serves one caller at a time | proved | Svc | For every message history. `releases` lists what ends a reservation. |
| C26 | Service manager: no lookup is forgotten | partial | Svc | Exactly-once answering is proved for every history. No lost wakeup and oldest-first are proved for histories without prepare-shutdown, undeliverable replies, fatal kills and discards of lookups already replied to; without those restrictions, and for order across re-advertise and for concurrent processes, they are refuted by witnesses. |
| C27 | Service manager: concurrent priority | partial | Svc | The order that counts is the one given when the process first advertised the service; later order updates have no effect (refuted). Assumes unambiguous routes, one process per ipc, no fatal kill (an advertise of a disabled instance is ignored). |
| C28 | Service manager: deadlines | partial | Svc | Expiry is neither early nor missed when the timer fires; the timer is armed for every deadline when no queued lookup has one, and after each firing. Refuted: deadlines of queued lookups do not arm it, removing the last deadline reads past the end, lookups waiting for discovery get none. |
| C29 | IPC transport round-trip | proved | Ipc |  |
| C30 | IPC transport: interleaved senders | partial | Ipc | Proved for any interleaving and any use of the device but clear; with clear in the middle of a message it is false (C30_clear_refuted). Order between messages with different keys: C30_no_overtaking, when the first had arrived before the other started. |
| C31 | Network byte order round-trip | proved | Bo |  |
| C32 | Order buffer round-trip | partial | Ord | Round trip and the cursor are proved for every history. That reading past the end always reports out-of-bounds is false: the value is read before the check (C32_past_end_refuted), and a block of bytes can be read at the end (C32_past_end_binary_refuted); the _partial theorems say what is true. |
| C33 | Field buffer laws | proved | Field | Every history of operations on any number of buffers, on hosts of both byte orders, against lists of fields. Payloads that were not made by these operations are outside the claim, and are not handled safely (C33_received_refuted). |
| C34 | Base64 and hex round-trip | proved | Text | base64 is third party code (cppcodec) and modelled by RFC 4648. Hex text in upper case is decoded to something else (C34_hex_upper_case_refuted); the encoder writes lower case. |
| C35 | Archive round-trip | proved | Arc | Round trip for every type built of the modelled serializations, any mix of hosts with the network archive; overwriting an object with optionals/insert containers and malformed input are refuted by witness (C35_overwrite_refuted, C35_malformed_refuted). |
| C36 | Queue: commit is exact | proved | Queue |  |
| C37 | Queue: clear and remove are exact | proved | Queue |  |
| C38 | Queue: configuration update | proved | Queue |  |
| C39 | Queue: a vote to commit is durable | partial | Group | False of the code: prepare is answered without persisting (handle.cpp:476-490). The theorem is a machine-checked counterexample. |
| C40 | Queue: other acknowledged operations are durable | partial | Group | False of the code: these replies are not deferred until a persist. The theorems are machine-checked counterexamples. |
| C41 | Queue: the transaction manager knows before the client | proved | Group |  |
| C42 | TM: the final reply is the last one | partial | Tm | False of the code; machine-checked counterexample. |
| C43 | Resource managers see a legal XA sequence | proved | Call, Ctx | For processes with fixed resources that agree, and a constant transaction control, also with synchronous calls in between (no resource is associated with anything as long as the call is on its way); refuted for dynamic resources in stacked mode and when the control is changed with transactions stacked. |
| C44 | A callee's failure dooms the caller's transaction | partial | Ctx | Never committed: proved. The cause is garbled by a cast between two enumerations: C44_cause_refuted. |
| C45 | Service manager: routed only to processes that advertise the service | proved | Svc | Assumes unambiguous routes, one process per ipc and no fatal kill; the second theorem also no prepare-shutdown. |
| C46 | Service manager: absent means absent | proved | Svc | Assumes unambiguous routes, one process per ipc, no fatal kill, no prepare-shutdown. |
| C47 | Service manager: directory consistency | proved | Svc |  |
| C48 | Service manager: a server that is about to be killed gets no new work | partial | Svc | Refuted: once the server has acknowledged, a later lookup is given the server although the kill has been ordered. |
| C49 | IPC: a discarded correlation is never delivered | partial | Ipc | Proved when no message of another type shares the correlation; otherwise false (C49_shared_correlation_refuted). |
| C50 | IPC send coordinator: nothing lost, nothing twice, in order | proved | Send | For messages with a non-empty payload, which every serialized message has; an empty one is dropped without a trace (C50_empty_refuted). Callbacks that call the coordinator are not modelled. |
| C51 | IPC: from process to process | proved | Send |  |
| C52 | TCP: messages between domains arrive once, in order, unchanged | partial | Tcp | Proved for messages with a payload that are sent by the other end. False for messages without payload (C52_empty_payload_refuted) and for messages pushed locally (C52_push_refuted). |
| C53 | HTTP: payload and buffer type survive the trip | proved | Text | An empty content type is undefined behaviour (C53_empty_content_refuted); no buffer type is translated to it. base64 is third party code (cppcodec) and modelled by RFC 4648. |
| C54 | Identifiers as text are read back | partial | Text | False for the nil uuid and for global ids longer than 32 bytes (C54_nil_refuted, C54_long_gtrid_refuted), proved for all others. |
| C55 | XID equality and order | proved | Text |  |
| C56 | Interdomain protocol: the wire is as documented | partial | Proto | every documented message is as documented; refuted: the discovery reply of version 1.3 is not documented, and the documentation has another null XID (format 0) than the code (-1). |
| C57 | Interdomain protocol: version negotiation | proved | Proto |  |
| C58 | Interdomain protocol: a message means the same for every version | partial | Proto | delivered the same up to what the version has no room for; refuted for the stronger claim: before 1.3 the duplex of a conversation and a passed deadline are lost and a failed dequeue is an empty queue, before 1.4 a disabled queue is enabled. |
| C59 | Calls: descriptors and replies match | proved | Call | refuted outside of the claim: a second reply to the same request (timeout reply and a late service reply) makes a later TPGETANY fail with TPEBADDESC; an error with TPGETANY does not tell which call it is about. |
| C60 | Calls: cancelled and failed calls leave nothing behind | proved | Call | refuted for the stronger claim: an interrupted tpcall leaves its call outstanding, and a failed send leaves the call associated with the transaction, which cannot be committed any more. |
| C61 | Calls: service invocations are isolated | partial | Call | proved for invocations that leave no call outstanding; refuted in general: Context::clean is empty, so the reply to a call left behind is given to the next invocation, and the descriptor of a call whose reply is discarded stays valid and waits for ever. |
| C62 | Calls: a transaction is not committed around its calls | proved | Call | for transactions that the process has not been invoked in (those it cannot commit anyway). |
| C63 | Server: every request is answered once and acknowledged once | proved | Serve | for every routine, ending and failure to communicate; a caller that cannot be reached is tried twice at most. |
| C64 | Server: the transaction a service is invoked in | proved | Serve | service routines are any list of calls and tx operations but those the server itself makes. |
| C65 | Server: the transaction ends the way the caller is told | partial | Serve | proved for services that exist, while the transaction manager can be reached, and for calls (not conversations); refuted otherwise: a conversation that returns TPFAIL is committed; if the transaction manager cannot be reached at the end, the second try of the destructor has nothing left to do and the caller is told success, or may commit after an exception; an unknown service lets the caller commit; a transaction of the server that is rolled back since it is rollback-only is reported as success; a forward does not tell that the transaction is rollback-only. |
| C66 | Conversations: the control | partial | Conv | proved for every schedule; refuted: with TPNOCHANGE and another type of the buffer, tprecv fails with TPEOTYPE and takes the control without telling (C66_type_mismatch_refuted). |
| C67 | Conversations: the data | partial | Conv | proved for servers that do not go back to the message pump with an open conversation that they have connected; without that data is lost (C67_pump_refuted), and a TPEOTYPE loses data or how the service returned (C67_type_mismatch_refuted). |
| C68 | Conversations: descriptors and the end | partial | Conv | proved but for: a signal in tprecv ends the conversation silently and the other waits for ever; tpreturn closes another conversation that uses the index of the one that was disconnected; tpconnect waits although it was told that the server is gone (the three refuted theorems). |
| C69 | Conversations: the transaction | partial | Conv | refuted: the association that tpconnect makes with the transaction is never taken away, so tx_commit is refused with TX_PROTOCOL_ERROR for as long as the transaction is current (C69_commit_refused, for all histories). With TPNOTRAN nothing is in the way. |
| C70 | Gateway outbound: requests and replies | proved | Gwo | C70_reply for histories without a queue request that failed to be sent (see C71_queue_refuted). |
| C71 | Gateway outbound: nobody is left waiting | partial | Gwo | proved for histories where no queue request is given to a connection that turns out to be broken. Refuted: a queue request whose send fails is never answered and the outbound never stops; a call whose send fails uses the removed connection (undefined behaviour); the caller of a conversation is not told that the connection is lost; a failing disconnect removes the executing task (undefined behaviour). |
| C72 | Gateway outbound: the transaction manager knows the connections of a transaction | partial | Gwo | proved with the same restriction; refuted: the descriptor of a queue request that could not be sent stays associated, and the next connection with that descriptor is taken as known by the transaction manager. |
| C73 | Gateway outbound: connections are closed in an orderly way | partial | Gwo | the closing is proved; survival is proved if each connection is asked to leave at most once. Refuted: asked twice while busy terminates the process (C73_twice_refuted). |
| C74 | Gateway outbound: prepare, commit, rollback and discovery | proved | Gwo |  |
| C75 | Gateway outbound: what is advertised | partial | Gwo | proved except that nothing is advertised after a connection is asked to leave: the answer of a discovery in flight is (C75_leaving_refuted). |
| C76 | Gateway outbound: a service the remote does not have | partial | Gwo | refuted: the outbound sends the advertise message of sequential servers, which has no effect on the concurrent instance in any state of the service manager (C76_unadvertise_ineffective), so the next call is routed there again. |
| C77 | Gateway inbound: requests from other domains | partial | Gwi | proved for correlations that are not used twice and a remote branch that is not one of the own TM. Refuted: the branch equals that of the request, from a domain connected to itself (C77_same_branch_refuted); a request that takes a way through the domain twice (C77_loop_refuted). |
| C78 | Gateway inbound: replies to other domains | partial | Gwi | refuted: the failing write of a reply is undefined behaviour (C78_send_refuted); without a queue-manager the remote is never answered (C78_offline_refuted); an undelivered conversation connect is told to the next connection with the descriptor (C78_reuse_refuted). |
| C79 | Gateway inbound: transactions of other domains | partial | Gwi | refuted: the answer carries the branch of this domain (C79_answer_refuted); after a loss of the only connection a rollback on a new one is not passed to the TM (C79_again_refuted). |
| C80 | Gateway inbound: connections are closed in an orderly way | partial | Gwi | closing is proved; refuted: a queue request without a transaction in flight is lost (C80_in_flight_refuted), a call without reply, or a conversation to an absent service, keeps the connection for ever (C80_oneway_refuted, C80_conversation_refuted), a remote that leaves twice, or sends in a conversation too early, takes the process down (C80_twice_refuted, C80_early_refuted). |
| C81 | Gateway inbound: lookups are not left behind | partial | Gwi | lookups without answer are discarded; refuted: an answered lookup whose branch is pending is neither used nor discarded (C81_reserved_refuted). |
| C82 | Queue forward: a message is moved in one transaction | partial | Qfw | the story, the transaction and the commit are proved; refuted: a target that is gone makes the enqueue go to the nil process and nobody is told: the flow stays for ever (C82_nowhere_refuted). |
| C83 | Queue forward: not more instances than configured | partial | Qfw | the limit is proved; what is told as running is exact if no send of a dequeue has failed; otherwise an instance is lost for ever (C83_lost_refuted). |
| C84 | Queue forward: shutdown | partial | Qfw | quiet, bounded and done are proved; refuted: a forget is sent to nowhere if the queue has been forgotten (C84_forget_refuted) or is gone (C84_dead_refuted), and a configuration after the shutdown begins it all again (C84_update_refuted). |
| C85 | Queue forward: where the requests go | partial | Qfw | proved for the source; for the target unless it is unknown: C82_nowhere_refuted. |
| C86 | Queue forward: instances are started, and started again | partial | Qfw | proved if no send of a dequeue fails, but for a queue that asks to forget (C86_forget_refuted); refuted: a target that dies while the source is looked up (C86_stuck_refuted), a new source for a known alias (C86_changed_refuted). |
| C87 | Queue manager: where a queue is | partial | Qmg | proved if no gateway advertises a queue it offers already; refuted otherwise: the order of one of the two is changed (C87_order_refuted), what was enabled before is used (C87_enabled_refuted); and refuted: an updated configuration of a group isn't stored, lookups are answered by what was enabled at the start (C87_update_refuted). |
| C88 | Queue manager: every lookup has an end | proved | Qmg |  |
| C89 | Queue manager: what the discovery is told | proved | Qmg |  |
| C90 | Queue manager: the groups are what the configuration says | partial | Qmg | serial, answered, ready and done are proved; what runs is what is wanted, one process each, and the end, are proved if updates and shutdown come when what was asked for before is done; refuted otherwise: C90_shutdown_refuted, C90_twice_refuted, C90_nowhere_refuted; and refuted: a modified forward group is never told (C90_forward_refuted). |
| C91 | Discovery: every request is answered | partial | Dsc | once, answered, at shutdown and the end are proved; refuted: the process ends with requests that are accumulated and not answered (C91_left_refuted). |
| C92 | Discovery: what is answered | partial | Dsc | sound and complete relative to what is told, by the names it has here; refuted: a service that is configured without routes is dropped from replies though it is asked for (C92_found_refuted). |
| C93 | Discovery: who is asked, for what | proved | Dsc |  |
| C94 | Discovery: changes of the topology | proved | Dsc |  |
| C95 | Discovery: rediscovery | partial | Dsc | once, answered and complete are proved; refuted: the reply has the names of the other domains, not those it has here (C95_translated_refuted). |
| C96 | Discovery: requests between domains end | partial | Dsc | refuted: two domains that forward to each other send requests without bound (C96_bounded_refuted). |
| C97 | Domain manager: the batches of the boot | proved | Dom | The order is that of the model of libstdc++'s stable_sort for C98; placement and sequence hold whatever it gives. |
| C98 | Domain manager: dependencies are started first | partial | Dom | Proved (also through others) when each group is declared after those it depends on. C98_declared_refuted: four groups of the user where one is started before the one it depends on, since Group::boot::Order isn't a strict weak ordering. |
| C99 | Domain manager: one batch at a time | partial | Dom | C99_boots_refuted: a process that's configured to be restarted and ends before the domain is up isn't restarted, its batch never ends and the boot stands still. C99_goes_on: when a batch is still going on after a process has ended or connected, or what was spawned is told of, an instance of it isn't what's wanted of it. C99_starts: when a batch begins (other than by a shutdown or a scale), what hasn't been started of it is. |
| C100 | Domain manager: the shutdown | partial | Dom | The sequence, that it stops only after it, that each batch tells its processes to end (by a signal, or by asking the service manager or itself to prepare them and then the process), and that nothing is left of an entity that runs down (C100_ended; C100_gone_partial: unless a scale is asked for during the shutdown). C100_left_refuted: a process that hasn't connected is forgotten when its server is scaled in; C100_stops_refuted and C100_scaled_refuted: two ways it never stops. No other process is told (C100_only_*). C100_prepare_partial: for processes that connect once. |
| C101 | Domain manager: connects and singletons | partial | Dom | All but the denied connect for every history; that one when no process connects twice. C101_denied_refuted without that. C101_denied_scales: what a denied connect leaves of the configuration and the instances. C101_started_refuted: what's wanted after a denied connect isn't spawned, and a boot stands still. C101_connected: what an approved one leaves. |
| C102 | Domain manager: lookups of processes | partial | Dom | What's missing: processes that connect twice (answer, gone), and the processes of restarted executables (gone), see C102_gone_refuted. C102_answered_refuted: what waits at shutdown is never answered. |
| C103 | Domain manager: processes that end | partial | Dom | The restart when the domain is up; before it's up a process isn't restarted (C99_boots_refuted). The counts after an exit (C103_counts), and who may be killed on request (C103_killed). C103_kept_partial: those that aren't concerned stay; not servers' processes that haven't connected (C104_keeps_refuted). |
| C104 | Domain manager: the number of instances | partial | Dom | C104_request, C104_begins: the batches a request gives and when. C104_keeps_partial: for processes that are connected; C104_keeps_refuted for one that's spawned and hasn't connected. C104_negative_refuted: a negative number is undefined behaviour and can be asked for. C104_spawned_refuted: only the first series of vacant instances is spawned when they aren't next to each other. |

## What was found in the code

Each of these was met when a proof of the property as stated didn't close. Those marked (R) have a machine-checked witness (a theorem
`..._refuted`); the others are from reading.

**Queue.** (R) prepare is answered before anything is persisted (C39), as are other acknowledgements (C40); (R) rollback moves messages that
had been settled (rollback3 has no state filter, C04); (R) lost wakeups of a blocking dequeue (C12); (R) an idle group process spins when a
selective request waits.

**Transaction manager.** (R) commit requests leave before the log record is persisted (C16); (R) rollback and commit are mixed when the owner
exits or the user rolls back during the vote (C15); (R) a commit request is never answered when a rollback completes first (C17); (R) a domain
whose severest vote is XAER_NOTA answers read-only to its upstream and keeps prepared resources (C14); (R) a "prepared" reply after the final
one (C42). A primary key violation in Log::prepare raises; Log::logged() isn't used, so there is no recovery after a crash; an external
instance that registers again gets a new id; the exit of a busy local proxy never fails the coordination; replies from removed instances are
lost.

**TX context.** (R) one-phase commit XA_RB* becomes TX_HAZARD (C21); (R) a failed suspend returns an error but suspends, a failed resume leaves
the transaction current and unsuspended, a failing stacked begin leaves the outer resources suspended (C22); (R) a failing chained begin gives
TX_ERROR rather than NO_BEGIN (C23); (R) finalize with pending replies commits (C24); (R) dynamic resources that never were started are resumed
in stacked mode (C43); (R) the reply's state is cast between two enumerations which swaps rollback and timeout (C44). A failing begin never rolls
back the branches that did start.

**Service manager.** (R) the discard of a replied lookup frees the instance without serving the waiting lookups; an undeliverable reply
leaves its target reserved forever; re-advertise of a busy server breaks FIFO; a waiting lookup isn't given to concurrent instances after the
last local unadvertise (C26); (R) order updates have no effect (C27); (R) the deadline of a queued lookup doesn't arm the timer, an ack that
removes the only deadline reads the end iterator, lookups waiting for discovery get no deadline (C28); (R) a killed server is given to new
lookups (C48). (Un)advertise from a disabled instance is ignored and only enables it; prepare-shutdown of a busy timed-out instance has a nil
correlation so the ack never completes it; swapped routes merge services; clear-advertise drops callers silently; discard of the nil
correlation frees timed-out instances.

**Transport.** (R) clear in the middle of a message makes later datagrams raise (C30); (R) a discard is hidden by a partial of another type
with the same correlation (C49); (R) an empty payload is dropped without a trace (C50), and raises over tcp; (R) locally pushed messages on a
tcp device never complete (C52). Callbacks of Remote::failed that use the coordinator invalidate its iteration.

**Codecs.** (R) the order buffer decodes before its bounds check, and a negative stored size moves the cursor backwards (C32); (R) a field
buffer made from a received payload reads outside of it on truncated headers, and loops forever on some negative sizes (C33); typed get
doesn't check the stored size; get_value sets *count before the field is known to exist; next with a negative index succeeds; remove of an id
<= 0 reports success. (R) hex in upper case is decoded wrong (C34), odd length is undefined; (R) the nil uuid is printed as "nil" which can't
be parsed; text of a global id with more than 32 bytes terminates the reading process (C54); (R) an empty http content type is undefined (C53).
(R) reading to an object that has optionals or maps keeps old content; short buffers are read outside of; XID lengths aren't checked so a
peer can write outside of the XID (C35).

**Interdomain protocol.** (R) the discovery reply of 1.3 isn't documented, the documentation says that an XID with format 0 is null but it is
-1 (C56); (R) before 1.3 the duplex of a conversation isn't carried over so the callee always gets send, a passed deadline becomes no deadline,
the code of a failed dequeue or enqueue is replaced, before 1.4 retry delay and enable flags are lost so disabled queues are discovered as
enabled (C58). "us since epoch" in the documentation is ns. The parent span is lost before 1.3.

**Calls.** (R) a second reply to a request - the service manager's timeout reply and then the service's own - stays in the queue and makes a later
TPGETANY fail with TPEBADDESC; (R) an error with TPGETANY doesn't set the descriptor (C59); TPGETANY with nothing outstanding blocks forever; (R) an
interrupted tpcall leaks descriptor and association; (R) a failed send leaves the call associated with the transaction, so commit is impossible
(C60); (R) call::Context::clean is empty, calls left behind leak to the next invocation (C61). A signal during the lookup: the correlation is
exchanged before the receive (lookup.cpp:67), so the lookup is never discarded and the instance stays reserved. Cancel in a rollback-only
transaction leaves the correlation. A TPNOCHANGE mismatch consumes the reply. A forward keeps the original remaining deadline and ignores the
outcome of finalize.

**Server.** (R) a conversation that returns TPFAIL has its transaction committed, complement::reply for conversations doesn't set the transaction
state (service.cpp:136-153); (R) if the transaction manager can't be reached in finalize, execute_transaction is run again by its destructor, with no
transactions left, and the caller is told success; (R) the same after an exception gives TPESVCERR with transaction state ok; (R) a request to a
service that the server doesn't have (any more) gives TPESVCERR with state ok, so the caller may commit; (R) an own transaction that is rollback-only
is rolled back at the end and the caller told success; (R) a forward ignores the outcome of finalize (C65). Unmodelled: the accept of a conversation
that fails leaks the descriptor; Conversation::operator() has no guard, exceptions escape to the message pump; an acknowledge that raises skips
server::context().finalize(); a forward keeps the deadline.

**Conversations.** (R) TPEOTYPE in tprecv takes the control without telling (C66), and loses data or the return (C67); (R) the message pump takes and
ignores data of a conversation that the server has connected and left open (C67); (R) a signal (or timeout) in tprecv unreserves the descriptor but
tells nobody, the other side waits for ever (C68); (R) service::call unreserves the descriptor index at the end whatever it stands for, so a service
that was disconnected and then has connected another conversation closes that one, and nobody is told (C68); (R) tpconnect waits for the connect reply
only, not for the reply of the service manager that tells that the server has died (C68); (R) tpconnect associates its correlation with the
transaction and nothing takes it away: the transaction can't be committed, only rolled back (C69).

**Gateway outbound.** (R) A queue request whose tcp send fails: the connection is lost with all its tasks, and then the task is added; it is never
answered and the outbound never stops (C71), and the descriptor stays associated with the transaction, so the next connection with that descriptor is not
told to the transaction manager (C72); (R) a call (v1.3) whose send fails uses the pointer to the removed connection (C71); (R) the caller of a
conversation is not told when the connection is lost: the task has no Failed handler (C71); (R) a disconnect of a conversation whose send fails removes
the task that is executed (C71); (R) a connection that is asked to leave twice while it is busy (a disconnect from the remote and a shutdown) is
extracted twice, which is casual::terminate (C73); (R) the answer to a discovery in flight advertises a connection that has been asked to leave, after the
reset (C75); (R) on TPENOENT the outbound unadvertises with service::Advertise (sequential) instead of service::concurrent::Advertise: no effect but a
server without services that the service manager then has for the gateway (C76).

**Gateway inbound.** (R) the write of a call or resource reply that fails: tcp::send loses the connection, which removes the unit that is executed, and
Coordinator::operator() then uses the iterator (C78); (R) without a queue-manager the emulated lookup reply is pushed to ipc::inbound(), which has only the
management handlers, and not to the device of the connection: the remote domain waits for ever and the connection is never closed (C78, create.cpp:94-97);
(R) handle_transaction takes the trid to answer with after it has been replaced: the other domain is answered with the internal branch (C79); (R) when the
only connection of a transaction is lost, the cache forgets the transaction, and transaction::active::Request is only used for the log: the rollback on a
new connection is answered XAER_PROTO and never reaches the TM (C79); (R) the answer of the lookup is there, the branch is not, and the connection is lost:
the reserved instance gets no call and the lookup isn't discarded, and the service-manager doesn't listen to ipc::Destroyed (C81); (R) a call with
TPNOREPLY has nothing that ends its task (C80); (R) a conversation whose lookup fails neither (C80); (R) an enqueue or dequeue without a transaction doesn't
keep a leaving connection open (C80); (R) a remote domain that sends a disconnect reply twice, or conversation data before the lookup has been answered,
makes the process casual::terminate, or without assertions use an empty optional (C80); (R) the task is found by correlation only, so a request that comes back to the
domain by another connection gets the answers of the first (C77); (R) origin_trid == trid is taken as "no branch yet" (C77).

**Queue forward.** (R) A dequeue whose send fails: the callback removes the pending but not the running instance, so one instance less is used for ever
and State::done is never true (C83); (R) an enqueue to a target that has been invalidated is sent to the nil process, without an error callback: the
flow never ends (C82); (R) the forgets of a shutdown, or of a death, are sent to the process that the forward has for the source at that point, which may
be nil or the dead one: nobody answers and the process doesn't end (C84); (R) a configuration update after the shutdown sets the instances again, and the
flows go on (C84); (R) a forget request from a group removes the instance and nothing looks up the queue or starts it again (C86); (R) when the target dies
while the source is looked up the lookup is discarded, the reply to the discard only erases, and nothing is looked up again (C86); (R) a configuration
update with a new source, target or service for an alias only takes the number of instances (C86).

**Queue manager.** (R) modified_forward_groups looks for the alias in state.groups instead of state.forward.groups: a modified forward group never gets its
configuration (or a queue group with the same alias gets it), and the update is answered (C90); (R) a shutdown while the groups are started finds the forward
groups that the coordinator has not started yet neither in the state nor in the difference: they are started afterwards and never told to stop, and the process
doesn't end (C90); (R) an update at that point starts them twice (C90); (R) group::connect gives the message to the coordinator before it stores the device:
a modify task that is next sends the configuration to the nil device, and takes the reply to the first configuration as its own (C90); (R) a modified group keeps
its old configuration in the state: the enabled flags of its queues and the next difference are by the old (C87); (R) State::update for an advertisement adds a
queue that the gateway offers already a second time: the order directive changes only one of them, and flags that are not valid any more are found (C87). Not
modelled: pending::lookups::check gives remote queues to an External lookup that waits (the gateway never sends such).

**Discovery.** (R) State::done doesn't look at what is accumulated: a shutdown with accumulated requests ends the process and those are never answered (C91);
(R) content::normalize::reply replaces a configured service by its routes: with no routes it's dropped, although content::normalize::request asks for it by that
name, and the reply is without it (C92); (R) the reply to a rediscovery isn't normalised: it has the names of the other domains (C95); (R) a discovery with
the directive forward has no trace of where it has been (an implicit topology update has): two domains with inbounds that forward, connected to each other, send
a request that none can fulfil back and forth without end, each holding one more pending request for each round (C96). Not claimed: the accumulated lookup content is shared by all the
accumulated requests, a request may be answered with what was looked up for another (it's sound, C92); a second registration of a device is ignored, also
if it has other abilities; the reply of an extended lookup doesn't set reply.domain.

**Domain manager.** (R) Group::boot::Order isn't a strict weak ordering (direct dependencies only), and is given to std::stable_sort: a group that's declared before one it
depends on can be started first (transform.cpp 48-67 says the order isn't relied on) (C98); (R) a server with restart that ends before the domain is up isn't restarted, and its
instance stays scale-out: the batch isn't done, the boot stands still (C99), and a shutdown then hangs, as the active batch isn't cancelled and no event comes (C100);
(R) a server that's spawned and hasn't connected is dropped by a scale to fewer (Instance::state spawned isn't scaled in, but becomes exit): at shutdown the manager stops while
it's around (C100), when the domain is up it's approved when it connects and stays (C104); (R) a scale that's asked for during the shutdown isn't refused, and wants again what is to end: it then never stops
(C100); (R) a process that connects as two singletons leaves one of them behind when it ends, later ones are denied (C101); (R) lookups that wait at the shutdown are never
answered (C102); (R) a process of a restarted executable that connects is a grandchild too, and State::remove returns before it removes that: a lookup gives the process that has ended (C102); (R) a server that is denied as a singleton is scaled to 1 and nothing is spawned for it: before the domain is up its batch never ends (C101); (R) scale out spawns only the first contiguous series of the vacant instances (sorted::subrange on an
unsorted vector): when two ended before the domain was up with a running one between, a later scale out spawns only the first, and its batch never ends (C104); (R) a negative number
of instances is accepted from the administration, and std::next to before the beginning follows (C104). Not claimed: the description of the
started event is of the empty shared group (task/create.cpp 427-435, before the action sets it); `.casual.core` isn't among the reserved names (transform.cpp); scaling out an entity again wants back instances that were asked to end.


## Trusted base

* Coq's kernel (8.16.1), including its virtual machine for `vm_compute`.
* Axioms: `Print Assumptions` reports "Closed under the global context" for every one of the 515 theorems named in MANIFEST.json. No axioms
  of the standard library are used and none are added. (The tool that inspects the build lists the fields of `Coq.ssr.ssrunder.Under_rel`,
  a module type of the standard library which is loaded with `lia`'s ssreflect support; no theorem depends on them.)
* The faithfulness of the reading of the source: the models are written by hand from the text of the pinned commit. The code was not run.
* What the models take as given, and is not part of the code: SQLite executes statements as SQL says and a transaction is atomic; AF_UNIX
  datagram sockets deliver datagrams whole and in order per sender; a tcp connection is a stream of bytes; a fresh UUID differs from all others; the
  clock is read once per handler and doesn't go backwards where a statement says so; resource managers are arbitrary unless a theorem has a
  hypothesis on them; allocation of memory succeeds; third party codecs (base64) behave like their RFC.

## Not modelled at all

Startup and shutdown of processes as the operating system sees it, signals other than the timer, logging, metrics and event subscriptions,
administration commands and their output, the text formats of configuration and service protocols (yaml, json, ini, xml), XATMI in COBOL, the
build tools, the http server, and memory management. Properties of those aren't listed.
