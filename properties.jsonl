{"id": "C01", "title": "Queue: isolation of uncommitted work", "statement": "A dequeue or browse, whatever its selector, never returns a message that was enqueued in a transaction that has not been committed, nor a message that another transaction has dequeued and not yet rolled back.", "quantifier": "every sequence of enqueue, dequeue, browse, commit, rollback, restore, clear, remove and recovery requests on a queue group, every clock reading, every selector", "why_tests_cant": "the interleavings of transactions over one table are unbounded; a test exercises a handful", "anchors": ["middleware/queue/source/group/queuebase.cpp: Queuebase::enqueue, dequeue, browse, commit, rollback", "middleware/queue/source/group/queuebase/statement.cpp: dequeue.first, first_id, first_match, state.xid, commit1/2, rollback1/2/3"]}
{"id": "C02", "title": "Queue: no duplicate delivery", "statement": "If a dequeue returned a message, no later dequeue returns that same message unless, in between, the transaction that dequeued it was rolled back (in particular a non-transactional or committed dequeue is final).", "quantifier": "every history of queue-group operations between two dequeues", "why_tests_cant": "needs all histories between the two dequeues", "anchors": ["middleware/queue/source/group/queuebase.cpp: Queuebase::dequeue", "middleware/queue/source/group/queuebase/statement.cpp: state.xid, state.nullxid, commit2, rollback2"]}
{"id": "C03", "title": "Queue: no lost messages", "statement": "A message that is stored in a queue group stays stored, with identity, payload, type, properties, reply and origin unchanged, until it is removed by one of: rollback of the transaction that enqueued it, commit of the transaction that dequeued it, a non-transactional dequeue of it, or an explicit clear/remove of it.", "quantifier": "every history and every message", "why_tests_cant": "absence of loss is a statement about all operations on all other messages", "anchors": ["middleware/queue/source/group/queuebase.cpp", "middleware/queue/source/group/queuebase/statement.cpp"]}
{"id": "C04", "title": "Queue: rollback, retry and error queue", "statement": "Rolling back a transaction that dequeued a message makes it deliverable again with its redelivered count one higher, unless that exceeds the queue's retry count and the queue has an error queue, in which case the message is moved to that queue's error queue with redelivered 0 and available immediately; in an error queue it is never moved on.", "quantifier": "every queue configuration, retry count, message and history", "why_tests_cant": "the retry counter and the moves depend on the whole delivery history", "anchors": ["middleware/queue/source/group/queuebase/statement.cpp: rollback1, rollback2, rollback3", "middleware/queue/source/group/queuebase.cpp: Queuebase::create, rollback"]}
{"id": "C05", "title": "Queue: FIFO order", "statement": "A dequeue without selector returns, among the messages of the queue that are committed, not dequeued by anyone and whose available time has passed, one with the smallest enqueue timestamp, and returns no_message exactly when there is none.", "quantifier": "every table content and clock reading", "why_tests_cant": "order must hold among arbitrarily many messages with arbitrary timestamps and delays", "anchors": ["middleware/queue/source/group/queuebase/statement.cpp: dequeue.first", "middleware/queue/source/group/queuebase.cpp: Queuebase::dequeue"]}
{"id": "C06", "title": "Queue: selective dequeue", "statement": "A dequeue by properties returns only a committed, available message of that queue with exactly those properties, oldest first; a dequeue by id returns only the message with that id, in that queue, regardless of its available time.", "quantifier": "every selector and table content", "why_tests_cant": "selectors range over all strings and ids", "anchors": ["middleware/queue/source/group/queuebase/statement.cpp: dequeue.first_match, first_id"]}
{"id": "C07", "title": "Queue: reported metrics are exact", "statement": "At every point the count, size and uncommitted count reported for a queue equal the number and total payload size of the messages in it that are committed (including ones dequeued and pending), and the number that are enqueued but uncommitted.", "quantifier": "every sequence of operations, any number of queues", "why_tests_cant": "the counters are maintained incrementally by SQL triggers, so an error would appear only after some specific operation sequence", "anchors": ["middleware/queue/include/queue/group/queuebase/schema.h: triggers insert_message, update_message_state, update_message_queue, delete_message"]}
{"id": "C08", "title": "Queue: capacity is enforced", "statement": "A queue group with a configured capacity never accepts an enqueue that makes the total stored payload exceed the capacity, and the size it tracks always equals the total payload stored.", "quantifier": "every sequence of requests and all payload sizes", "why_tests_cant": "incremental accounting across commit, rollback, recovery and removal", "anchors": ["middleware/queue/source/group/handle.cpp: enqueue::detail::has::sufficient::capacity, state.size", "middleware/queue/source/group/state.cpp"]}
{"id": "C09", "title": "Queue: acknowledged work is durable", "statement": "When the reply to a non-transactional enqueue, or to a transaction commit or rollback, is sent, the effect of that request is already persisted: after a crash at any later point, the recovered queue group still contains it.", "quantifier": "every schedule of requests, batches and idle points, every crash point", "why_tests_cant": "crash points between any two steps cannot be enumerated by tests", "anchors": ["middleware/queue/source/group/handle.cpp: detail::persistent::reply, handle::persist", "middleware/queue/source/group/queuebase.cpp: Queuebase::persist"]}
{"id": "C10", "title": "Queue: restore is the inverse of error moves", "statement": "Restoring a queue moves exactly the committed messages that originated in it and now live in another queue back to it, changes nothing else and reports that number.", "quantifier": "every table content", "why_tests_cant": "all contents", "anchors": ["middleware/queue/source/group/queuebase/statement.cpp: restore", "middleware/queue/source/group/queuebase.cpp: Queuebase::restore"]}
{"id": "C11", "title": "Queue: recovery directives", "statement": "A recovery commit (rollback) of a set of transactions has the same effect on the messages as committing (rolling back) them one by one, and reports exactly those transactions that had messages pending.", "quantifier": "every table and gtrid list", "why_tests_cant": "all tables", "anchors": ["middleware/queue/source/group/queuebase.cpp: recovery_commit, recovery_rollback"]}
{"id": "C12", "title": "Queue: blocking dequeue is eventually served", "statement": "A blocking dequeue that found no message stays pending until it is answered, forgotten, or its process dies; and whenever a pending dequeue's queue holds a committed message that becomes available in the future, a timer is armed for it.", "quantifier": "every set of pending requests, table and clock", "why_tests_cant": "timers and pending lists interact over many requests", "anchors": ["middleware/queue/source/group/handle.cpp: dequeue::handle, detail::pending::dequeues, signal::timeout", "middleware/queue/source/group/state.cpp: Pending::extract, forget, remove"]}
{"id": "C13", "title": "TM: commit only after unanimous vote", "statement": "A resource receives a commit request without the one-phase flag only if every resource involved in that transaction (in every branch) answered prepare with XA_OK or XA_RDONLY; resources that answered XA_RDONLY get no further request.", "quantifier": "every number of branches and resources, every vote, every order of replies and failures", "why_tests_cant": "2PC correctness quantifies over all votes and schedules", "anchors": ["middleware/transaction/source/manager/handle.cpp: commit::request, detail::coordinate::prepare, commit"]}
{"id": "C14", "title": "TM: unanimous outcome", "statement": "If any involved resource votes no or fails during prepare, no resource receives a commit request, every resource that voted (other than read-only) receives a rollback request, and the caller is told the transaction rolled back.", "quantifier": "every vote assignment and failure pattern", "why_tests_cant": "all assignments", "anchors": ["middleware/transaction/source/manager/handle.cpp: detail::coordinate::prepare, rollback"]}
{"id": "C15", "title": "TM: decision is stable", "statement": "Once the transaction manager has sent a commit request for a transaction it never sends a rollback request for it.", "quantifier": "every schedule of requests, replies, process exits", "why_tests_cant": "depends on exits arriving at any point", "anchors": ["middleware/transaction/source/manager/handle.cpp: event::process::exit, rollback::request"]}
{"id": "C16", "title": "TM: decision is durable before it is acted upon", "statement": "Before the first (two-phase) commit request for a transaction leaves the transaction manager, the prepared record is persisted in its log; and the caller is told 'prepare logged' only after it is persisted.", "quantifier": "every crash point and batch boundary", "why_tests_cant": "crash points", "anchors": ["middleware/transaction/source/manager/handle.cpp: detail::persist, send::persist::reply", "middleware/transaction/source/manager/log.cpp"]}
{"id": "C17", "title": "TM: one final answer per commit request", "statement": "Every commit or rollback request accepted by the transaction manager gets exactly one final reply, sent when the last involved resource has answered or failed, and the transaction is then removed from the manager.", "quantifier": "every number of resources, every order of replies, losses by process death", "why_tests_cant": "all orders", "anchors": ["middleware/transaction/source/manager/handle.cpp", "middleware/common/include/common/message/coordinate.h"]}
{"id": "C18", "title": "Fan-out: the callback fires exactly once with every outcome", "statement": "A fan-out over n pending requests invokes its completion exactly once, when each has been received or failed, with all received replies and one outcome per request; late or unknown replies are ignored.", "quantifier": "every n, every order of replies and failures, duplicates included", "why_tests_cant": "all permutations", "anchors": ["middleware/common/include/common/message/coordinate.h: fan::Out, Entry"]}
{"id": "C19", "title": "XA severity is a total order", "statement": "The most severe of a set of XA codes does not depend on order or grouping; heuristic codes dominate resource failures, which dominate rollbacks, which dominate ok, which dominates read-only.", "quantifier": "all codes, all sequences of codes", "why_tests_cant": "all sequences", "anchors": ["middleware/common/source/code/xa.cpp: severest"]}
{"id": "C20", "title": "TX code composition", "statement": "Accumulating TX codes with + gives ok only if all are ok; on the codes resources can produce it is independent of order and grouping.", "quantifier": "all codes and sequences", "why_tests_cant": "all sequences", "anchors": ["middleware/common/source/code/tx.cpp: operator +"]}
{"id": "C21", "title": "TX result of a commit tells the truth", "statement": "tx_commit returns TX_OK only if every involved resource that was asked to commit answered XA_OK or XA_RDONLY (or XAER_NOTA); a rollback decided by the transaction manager is reported as TX_ROLLBACK.", "quantifier": "every set of replies and outcomes", "why_tests_cant": "all reply sets", "anchors": ["middleware/transaction/source/manager/handle.cpp: detail::accumulate::code, create::reply", "middleware/common/source/transaction/context.cpp: Context::commit", "middleware/common/source/code/convert.cpp"]}
{"id": "C22", "title": "TX: transaction demarcation state machine", "statement": "For every sequence of tx_begin, tx_commit, tx_rollback, tx_suspend and tx_resume, commit and rollback succeed only for a transaction owned by the caller and current; commit also requires that it is not rollback-only and has no pending replies; a refused call leaves all state unchanged; suspended transactions can be resumed exactly once and no transaction is lost.", "quantifier": "every call sequence and every control mode", "why_tests_cant": "all call sequences", "anchors": ["middleware/common/source/transaction/context.cpp: Context::begin, commit, rollback, suspend, resume, control_continuation"]}
{"id": "C23", "title": "TX: chained mode reports failure to begin", "statement": "In chained mode, when a commit (rollback) completes but the new transaction cannot be started, the result is the NO_BEGIN variant of the completion code.", "quantifier": "every completion code and resource failure", "why_tests_cant": "all codes", "anchors": ["middleware/common/source/transaction/context.cpp: Context::control_continuation", "middleware/common/source/code/tx.cpp"]}
{"id": "C24", "title": "TX: service completion never commits unfinished work", "statement": "When a service routine ends, every transaction it was part of is consumed; those it owns are committed only if the service succeeded, they are not rollback-only and they have no pending replies; otherwise they are rolled back.", "quantifier": "every list of transactions and states", "why_tests_cant": "all lists", "anchors": ["middleware/common/source/transaction/context.cpp: Context::finalize"]}
{"id": "C25", "title": "Service manager: a sequential instance serves one caller at a time", "statement": "An instance is handed to a caller only when idle, and is not handed to anyone else until it acknowledges, dies or withdraws everything, or the caller gives the lookup back (discards it, or the reply cannot be delivered).", "quantifier": "every schedule of advertise, lookup, ack, exit, discard, shutdown", "why_tests_cant": "all schedules", "anchors": ["middleware/service/source/manager/state.cpp: reserve_sequential, unreserve, remove", "middleware/service/source/manager/handle.cpp"]}
{"id": "C26", "title": "Service manager: no lookup is forgotten", "statement": "Every lookup request is answered or stays pending exactly once; when an instance that provides the requested service becomes available the oldest such pending lookup is served.", "quantifier": "every schedule", "why_tests_cant": "all schedules", "anchors": ["middleware/service/source/manager/handle.cpp: service::lookup, ack", "middleware/service/source/manager/state.cpp: update"]}
{"id": "C27", "title": "Service manager: concurrent priority", "statement": "A lookup that is routed to a concurrent instance is always routed to one advertising the service with the smallest (order, hops) among all advertising it.", "quantifier": "every advertise/unadvertise/order update sequence", "why_tests_cant": "all sequences", "anchors": ["middleware/service/source/manager/state.cpp: Instances::add, remove, prioritize, next_concurrent, update"]}
{"id": "C28", "title": "Service manager: deadlines", "statement": "Timeouts expire in deadline order: an expiry at time t reports exactly the calls whose deadline has passed and the timer is always armed for the earliest remaining deadline.", "quantifier": "every sequence of add, remove and expire", "why_tests_cant": "all sequences", "anchors": ["middleware/service/source/manager/state.cpp: Deadline::add, remove, expired"]}
{"id": "C29", "title": "IPC transport round-trip", "statement": "A message of any size, split in transport chunks, possibly with already received chunks resent, is reassembled to exactly the original type, correlation and payload; gaps and overruns are rejected.", "quantifier": "every payload, chunk size, and duplication pattern", "why_tests_cant": "all sizes and duplications", "anchors": ["middleware/common/include/common/communication/ipc/message.h: Transport, Complete, complete::Send", "middleware/common/source/communication/ipc/message.cpp: Complete::add"]}
{"id": "C30", "title": "IPC transport: interleaved senders", "statement": "Chunks of several messages arriving interleaved on one inbound queue are reassembled each to its own message, and messages are consumed in the order they were completed/started as requested by type or correlation.", "quantifier": "every interleaving of any number of senders", "why_tests_cant": "all interleavings", "anchors": ["middleware/common/include/common/communication/device.h: Inbound", "middleware/common/source/communication/ipc.cpp"]}
{"id": "C31", "title": "Network byte order round-trip", "statement": "Encoding then decoding any value of a supported scalar type is the identity, and the encoded bytes are the big-endian representation.", "quantifier": "all values", "why_tests_cant": "the domain is 2^64", "anchors": ["middleware/common/source/network/byteorder.cpp", "middleware/common/include/common/network/byteorder.h"]}
{"id": "C32", "title": "Order buffer round-trip", "statement": "Values added in some order are read back in the same order and equal; reading past the end reports out-of-bounds and does not move the cursor.", "quantifier": "every sequence of typed values", "why_tests_cant": "all sequences", "anchors": ["middleware/buffer/source/order.cpp"]}
{"id": "C33", "title": "Field buffer laws", "statement": "A field buffer behaves like a list of (id, value) pairs per id with occurrence index: add appends an occurrence, get returns the value added, remove and change affect only the addressed occurrence, and the other fields keep value and order.", "quantifier": "every operation sequence", "why_tests_cant": "all sequences", "anchors": ["middleware/buffer/source/field.cpp"]}
{"id": "C34", "title": "Base64 and hex round-trip", "statement": "Decoding the encoding of any byte sequence gives it back.", "quantifier": "all byte sequences", "why_tests_cant": "all byte sequences", "anchors": ["middleware/common/source/transcode.cpp"]}
{"id": "C35", "title": "Archive round-trip", "statement": "Writing any message with the native and the network binary archives and reading it back gives an equal message; the network sizes are bounded and platform independent.", "quantifier": "all messages built from scalars, strings, binaries, optionals and containers", "why_tests_cant": "all messages", "anchors": ["middleware/common/include/common/serialize/native/binary.h", "middleware/common/include/common/serialize/native/network.h"]}
{"id": "C36", "title": "Queue: commit is exact", "statement": "Committing a transaction makes exactly the messages it enqueued deliverable, removes exactly the messages it dequeued, changes nothing else, and the released payload it reports is the total payload of the removed messages.", "quantifier": "every table content and transaction", "why_tests_cant": "all contents", "anchors": ["middleware/queue/source/group/queuebase.cpp: Queuebase::commit", "middleware/queue/source/group/queuebase/statement.cpp: commit1, commit2"]}
{"id": "C37", "title": "Queue: clear and remove are exact", "statement": "Clearing a queue removes exactly its committed, untaken messages and reports their number; removing messages by id removes exactly the listed messages of that queue (untaken ones, or any with force) and reports exactly those removed.", "quantifier": "every table content, queue and id list", "why_tests_cant": "all contents", "anchors": ["middleware/queue/source/group/queuebase.cpp: Queuebase::clear, remove, force_remove"]}
{"id": "C38", "title": "Queue: configuration update", "statement": "An accepted configuration update creates or adjusts every wanted queue with its error queue, keeps every queue that is wanted or not empty, drops the others, and never touches a message; queue names stay unique.", "quantifier": "every existing set of queues and messages, every wanted configuration", "why_tests_cant": "all configurations and contents", "anchors": ["middleware/queue/source/group/handle.cpp: configuration::update::request", "middleware/queue/source/group/queuebase.cpp: Queuebase::update, create, remove"]}
{"id": "C39", "title": "Queue: a vote to commit is durable", "statement": "When the queue group answers a prepare request positively, everything done in that transaction survives a crash, so that a later commit has its full effect.", "quantifier": "every schedule of requests and idle points, every crash point", "why_tests_cant": "crash points between any two steps", "anchors": ["middleware/queue/source/group/handle.cpp: prepare::request", "middleware/queue/source/group/queuebase.cpp: Queuebase::persist"]}
{"id": "C40", "title": "Queue: other acknowledged operations are durable", "statement": "When a non-transactional dequeue is answered with a message, or a clear, remove or recovery request is answered, the effect survives a crash (so that the message is not delivered a second time).", "quantifier": "every schedule of requests and idle points, every crash point", "why_tests_cant": "crash points between any two steps", "anchors": ["middleware/queue/source/group/handle.cpp: dequeue::handle, clear::request, message::remove::request, message::recovery::request"]}
{"id": "C41", "title": "Queue: the transaction manager knows before the client", "statement": "Before a transactional enqueue is acknowledged or a message handed out to a transactional dequeue, the transaction manager has been told that the group takes part in that transaction, and has not settled it since.", "quantifier": "every schedule of requests, batches, crashes", "why_tests_cant": "all schedules", "anchors": ["middleware/queue/source/group/handle.cpp: detail::transaction::involved, done"]}
{"id": "C42", "title": "TM: the final reply is the last one", "statement": "After the final reply to a commit request the transaction manager sends no further reply to that request; in particular 'prepared and logged' never comes after the final outcome.", "quantifier": "every schedule of votes, commit replies and idle points", "why_tests_cant": "all schedules", "anchors": ["middleware/transaction/source/manager/handle.cpp: send::persist::reply, coordinate::commit", "middleware/common/source/transaction/context.cpp: Context::commit"]}
{"id": "C43", "title": "Resource managers see a legal XA sequence", "statement": "For every sequence of begin, commit, rollback, suspend, resume, service invocation and completion, every resource manager of the process sees, for every XID, a sequence of xa_start/xa_end/xa_commit/xa_rollback that the XA specification allows, is associated with at most the transaction the process is in, and has every other transaction of the process suspended.", "quantifier": "every call sequence, any number of transactions and resources, every control mode", "why_tests_cant": "all call sequences over any number of stacked and suspended transactions", "anchors": ["middleware/common/source/transaction/context.cpp: Context::begin, commit, rollback, suspend, resume, control_continuation, join, start, branch, finalize; local::resources"]}
{"id": "C44", "title": "A callee's failure dooms the caller's transaction", "statement": "When a reply says that the transaction of the call is not ok at the callee, the caller can no longer commit that transaction, and tx_info shows the cause (rollback-only, timeout).", "quantifier": "every sequence of calls and replies, every later history", "why_tests_cant": "the state must survive every later call", "anchors": ["middleware/common/source/transaction/context.cpp: Context::update, precondition::commit, finalize", "middleware/common/include/common/message/service.h: transaction::State", "middleware/common/include/common/transaction/transaction.h: Transaction::State"]}
{"id": "C45", "title": "Service manager: routed only to processes that advertise the service", "statement": "A lookup is given a local server only if that server advertises the service at that moment (not withdrawn, alive), under one of the names the service is routed to; it is given to another domain only if no local server advertises it and the requester is not itself another domain.", "quantifier": "every sequence of advertise, withdraw, exit, lookup, ack, timeout; any routes that are unambiguous", "why_tests_cant": "all schedules", "anchors": ["middleware/service/source/manager/state.cpp: update, remove, find_or_add_service", "middleware/service/source/manager/handle.cpp: detail::lookup, dispatch::lookup"]}
{"id": "C46", "title": "Service manager: absent means absent", "statement": "A caller is told that a service is absent only if, at that moment, no local server advertises it and (unless the requester is another domain) no other process offers it.", "quantifier": "every schedule", "why_tests_cant": "all schedules", "anchors": ["middleware/service/source/manager/handle.cpp: discover, no_entry, discovery::api::reply", "middleware/service/source/manager/state.cpp"]}
{"id": "C47", "title": "Service manager: directory consistency", "statement": "No sequence of messages makes the service manager use an instance or a service that has been removed (it never throws on a stale index, a stale pending shutdown or a stale reservation).", "quantifier": "every message sequence", "why_tests_cant": "all sequences", "anchors": ["middleware/common/include/casual/container.h: Index", "middleware/service/source/manager/state.cpp", "middleware/service/source/manager/handle.cpp"]}
{"id": "C48", "title": "Service manager: a server that is about to be killed gets no new work", "statement": "After the service manager has ordered that a server is killed (timeout with contract kill or terminate) it does not give the server to any caller.", "quantifier": "every schedule", "why_tests_cant": "all schedules", "anchors": ["middleware/service/source/manager/handle.cpp: timeout, order_assassination, ack", "middleware/service/source/manager/state.cpp: reserve_sequential"]}
{"id": "C49", "title": "IPC: a discarded correlation is never delivered", "statement": "After a correlation has been discarded on an inbound device, the message with that correlation is not delivered, whether it had arrived completely, in part, or not at all.", "quantifier": "every point of the arrival of the message, every interleaving with other messages", "why_tests_cant": "all schedules", "anchors": ["middleware/common/include/common/communication/device.h: Inbound::discard"]}
{"id": "C50", "title": "IPC send coordinator: nothing lost, nothing twice, in order", "statement": "Messages given to the non-blocking sender leave for each destination in the order given, every datagram exactly once; a message is either sent completely, or still pending (and the process waits for the destination to become writable), or given up, and then its error callback is called exactly once.", "quantifier": "every sequence of sends, every pattern of full and lost destinations", "why_tests_cant": "all schedules", "anchors": ["middleware/common/source/communication/ipc/send.cpp: Coordinator, Remote", "middleware/common/source/communication/ipc.cpp: partial::send"]}
{"id": "C51", "title": "IPC: from process to process", "statement": "What any number of processes send to a process with the non-blocking sender is, for each type and correlation, what the receiver hands out, in the same order and each message once and unchanged, followed by what is on its way.", "quantifier": "every schedule of senders and receiver, every pattern of full destinations", "why_tests_cant": "all schedules", "anchors": ["middleware/common/source/communication/ipc/send.cpp", "middleware/common/include/common/communication/device.h: Inbound"]}
{"id": "C52", "title": "TCP: messages between domains arrive once, in order, unchanged", "statement": "Messages that are sent on a tcp connection between domains are received each exactly once, with type, correlation and payload unchanged, those of the same type and correlation in the order they were sent, however the sockets split the bytes and whatever the byte order of the two hosts; the connection never fails because of how bytes are split.", "quantifier": "every sequence of messages, every split at the sending and the receiving end, every interleaving of sending, receiving and asking for messages", "why_tests_cant": "the ways to split a stream are unbounded", "anchors": ["middleware/common/source/communication/tcp.cpp: policy::local::send, receive", "middleware/common/include/common/communication/tcp/message.h", "middleware/common/source/communication/tcp/message.cpp", "middleware/common/include/common/communication/device.h: Inbound"]}
{"id": "C53", "title": "HTTP: payload and buffer type survive the trip", "statement": "What a buffer of any type is translated to for http (content type and body) is translated back to the same buffer type and bytes at the other side.", "quantifier": "every known buffer type and every payload", "why_tests_cant": "all payloads", "anchors": ["middleware/http/source/common.cpp: buffer::transcode, protocol::convert"]}
{"id": "C54", "title": "Identifiers as text are read back", "statement": "A unique id, and the global transaction id, written as text (in headers, logs and on the command line) is read back as the same id.", "quantifier": "all ids, all global transaction ids up to the size XA allows", "why_tests_cant": "all byte sequences", "anchors": ["middleware/common/source/uuid.cpp", "middleware/common/source/transaction/global.cpp"]}
{"id": "C55", "title": "XID equality and order", "statement": "Transaction ids are equal exactly if format, global id and branch are equal, and their order is a strict total order consistent with equality (they are keys in sorted containers).", "quantifier": "all pairs and triples of XIDs, whatever is in the unused bytes", "why_tests_cant": "all XIDs", "anchors": ["middleware/common/source/transaction/id.cpp", "middleware/common/include/common/transaction/id.h"]}
{"id": "C56", "title": "Interdomain protocol: the wire is as documented", "statement": "Every message that a domain sends to another domain has, on every platform, the number, the members, the order, the sizes and the bytes that the protocol documentation gives for it, messages are told apart by their numbers, and a connection with a negotiated version only carries messages of that version.", "quantifier": "every message kind, every value of its members, every host byte order, every version", "why_tests_cant": "all messages", "anchors": ["middleware/gateway/include/gateway/message.h", "middleware/gateway/documentation/protocol/protocol.maintenance.md", "middleware/common/include/common/message/service.h", "middleware/common/include/common/message/type.h"]}
{"id": "C57", "title": "Interdomain protocol: version negotiation", "statement": "Two connected domains use the same protocol version, the highest that both have; a peer that asks for or replies with something else is refused.", "quantifier": "all pairs of domains, all requests and replies that a peer may send", "why_tests_cant": "all requests", "anchors": ["middleware/gateway/source/group/tcp/logical/connect/main.cpp", "middleware/gateway/include/gateway/message/protocol/version.h"]}
{"id": "C58", "title": "Interdomain protocol: a message means the same for every version", "statement": "A call, reply, conversation, queue or discovery message that is sent to a domain that has an older protocol version arrives as the same message, up to what that version has no room for, and is dropped only if the version does not have it.", "quantifier": "every message, every version, every pair of hosts", "why_tests_cant": "all messages", "anchors": ["middleware/gateway/include/gateway/message/protocol/transform.h", "middleware/gateway/include/gateway/message/protocol.h", "middleware/gateway/source/group/outbound/handle.cpp", "middleware/gateway/source/group/inbound/handle.cpp", "middleware/gateway/source/group/inbound/task/create.cpp"]}
{"id": "C59", "title": "Calls: descriptors and replies match", "statement": "Outstanding calls have different descriptors and different requests; tpacall gives a descriptor that is not outstanding; tpgetrply gives, for a descriptor, the reply to exactly the request that the descriptor stands for, unchanged and at most once, as soon as it has arrived, and otherwise tells that it has not; a descriptor that is not outstanding is refused; with TPGETANY any outstanding call's waiting reply is given, provided no request is answered twice.", "quantifier": "every sequence of calls, cancels, transactions and arriving replies, in any order", "why_tests_cant": "all schedules of replies", "anchors": ["middleware/common/source/service/call/context.cpp: Context::async, reply, cancel, sync", "middleware/common/source/service/call/state.cpp: State::Pending", "middleware/common/source/service/lookup.cpp", "middleware/xatmi/source/xatmi/explicit.cpp: casual_service_asynchronous_receive"]}
{"id": "C60", "title": "Calls: cancelled and failed calls leave nothing behind", "statement": "A call that has been cancelled is never answered; a call can be cancelled unless it is part of a transaction that may still be committed; a failed tpacall, and a tpcall that is not interrupted by a signal, leave no outstanding call.", "quantifier": "every history before and after the cancel or the failure, every failing step of the call", "why_tests_cant": "all histories and failure points", "anchors": ["middleware/common/source/service/call/context.cpp: Context::cancel, async, sync", "middleware/common/source/transaction/context.cpp: Context::associate, disassociate, associated"]}
{"id": "C61", "title": "Calls: service invocations are isolated", "statement": "What a service invocation is given are replies to requests that the same invocation has made, not replies to calls that an earlier invocation in the same process has left behind.", "quantifier": "every sequence of invocations in a process", "why_tests_cant": "all histories", "anchors": ["middleware/common/source/service/call/context.cpp: Context::clean", "middleware/common/include/common/server/handle/service.h"]}
{"id": "C62", "title": "Calls: a transaction is not committed around its calls", "statement": "A transaction that a process has started cannot be committed as long as there is a call in the transaction that the process has no reply to, nor when a reply has told that something is wrong with the transaction.", "quantifier": "every sequence of calls, replies, suspends, resumes, commits and rollbacks", "why_tests_cant": "all histories", "anchors": ["middleware/common/source/transaction/context.cpp: Context::commit, update, associate", "middleware/common/source/service/call/context.cpp"]}
{"id": "C63", "title": "Server: every request is answered once and acknowledged once", "statement": "However a service routine ends - tpreturn, tpforward, exception, no tpreturn, unknown service, unreachable transaction manager - the caller gets exactly one reply with the correlation of its request (none if it wants none, or if the request has been forwarded), the reply is what the routine returned or TPESVCERR, and the service manager gets exactly one acknowledge, last.", "quantifier": "every request, everything the routine may do, every way it ends, every failure to communicate", "why_tests_cant": "exceptions at every point of the handling", "anchors": ["middleware/common/include/common/server/handle/service.h: call", "middleware/common/source/server/handle/service.cpp", "middleware/common/include/common/execute.h"]}
{"id": "C64", "title": "Server: the transaction a service is invoked in", "statement": "A service routine is invoked in the transaction that its configuration asks for - the caller's, a branch of it, a new one that was never used before, or none - and TPTRAN says so; while the routine runs nothing it does takes the caller's transaction away; when the request is done the server holds no transaction, so that requests do not affect each other.", "quantifier": "every sequence of requests, everything the routines may do, every failure", "why_tests_cant": "all histories of a server", "anchors": ["middleware/common/source/server/handle/policy.cpp: Default::transaction", "middleware/common/source/transaction/context.cpp: join, start, branch, finalize"]}
{"id": "C65", "title": "Server: the transaction ends the way the caller is told", "statement": "A caller may commit its transaction after a reply only if the routine returned TPSUCCESS, the transaction was fine at that point and no call in it was unanswered; at the end of a request something is asked to commit only if the routine returned TPSUCCESS; and a caller that is told success can rely on that the transactions the service had of its own, and that were fine, are committed.", "quantifier": "every sequence of requests, everything the routine may do, every way it ends; caller and server together", "why_tests_cant": "needs every schedule of two processes", "anchors": ["middleware/common/include/common/server/handle/service.h: call, normalize_code", "middleware/common/source/server/handle/service.cpp: complement::reply", "middleware/common/source/transaction/context.cpp: finalize, commit, update"]}
{"id": "C66", "title": "Conversations: the control", "statement": "At any time at most one of the two sides has the control of a conversation; only that side may tpsend and only the other may tprecv (TPEPROTO otherwise, without any effect); the side that has the control has received everything the other side has sent; and each side is told when it gets the control: by tpconnect's flags, by TPSVCINFO, and by TPEV_SENDONLY.", "quantifier": "every number of processes and conversations, every interleaving of calls and message deliveries", "why_tests_cant": "needs every schedule of two processes", "anchors": ["middleware/common/source/service/conversation/context.cpp: Context::connect, send, receive", "middleware/common/source/server/handle/service.cpp: transform::parameter", "middleware/xatmi/source/xatmi/conversation.cpp"]}
{"id": "C67", "title": "Conversations: the data", "statement": "What one side receives in a conversation is what the other side has sent, in the order sent, nothing lost or duplicated; an event that ends the conversation (TPEV_DISCONIMM, TPEV_SVCERR, TPEV_SVCFAIL, TPEV_SVCSUCC) has its cause at the other side, and the return of the service is told, with its user code, after all its data.", "quantifier": "every number of processes and conversations, every interleaving of calls and message deliveries, every point where the other side may go away", "why_tests_cant": "needs every schedule of two processes", "anchors": ["middleware/common/source/service/conversation/context.cpp: check::pending_event, Context::receive", "middleware/common/include/common/server/handle/service.h", "middleware/common/include/common/message/dispatch.h"]}
{"id": "C68", "title": "Conversations: descriptors and the end", "statement": "A descriptor stands for exactly one conversation, from that tpconnect returns it or the service is invoked with it, until the conversation has ended at that side; any other descriptor gives TPEBADDESC without effect; a call on one conversation does not affect the others; and when one side ends the conversation the other is told, so that nobody waits for ever.", "quantifier": "every number of processes and conversations, every interleaving, every signal and failure to send", "why_tests_cant": "needs every schedule of two processes, with signals", "anchors": ["middleware/common/include/common/service/conversation/state.h: reserve, at, unreserve", "middleware/common/source/service/conversation/context.cpp: Context::disconnect, receive, connect"]}
{"id": "C69", "title": "Conversations: the transaction", "statement": "A transaction that a conversation has been part of can be committed when the conversation has ended.", "quantifier": "every transaction, every sequence of calls around the conversation", "why_tests_cant": "all histories", "anchors": ["middleware/common/source/service/conversation/context.cpp: Context::connect", "middleware/common/source/transaction/transaction.cpp: associate, replied", "middleware/common/source/transaction/context.cpp: precondition::commit, update"]}
{"id": "C70", "title": "Gateway outbound: requests and replies", "statement": "A call, enqueue, dequeue or conversation that a process gives to a connection is passed on once and unchanged to the domain of that connection and nothing else is; a process gets at most one reply to each request; the reply is the one the remote domain has sent for that request, or tells of a loop between domains, or that the connection is lost; and a reply of the remote domain gets to the process that waits for it.", "quantifier": "every interleaving of requests, replies, connects, losses and shutdowns, any number of connections and processes", "why_tests_cant": "all schedules", "anchors": ["middleware/gateway/source/group/outbound/handle.cpp: service::call::request, queue::basic::request, conversation::connect::request, create::task", "middleware/common/include/casual/task/concurrent.h: Coordinator", "middleware/gateway/include/gateway/group/tcp.h: send"]}
{"id": "C71", "title": "Gateway outbound: nobody is left waiting", "statement": "When a connection is lost each process that waits for a reply from it is told; the outbound stops when it has been told to and the connections are gone, but not as long as somebody waits; and no loss of a connection makes the outbound misbehave.", "quantifier": "every point where a connection may be lost, every history before", "why_tests_cant": "all failure points", "anchors": ["middleware/gateway/source/group/outbound/handle.cpp: connection::lost, shutdown, idle", "middleware/gateway/source/group/outbound/state.cpp: State::done, State::failed", "middleware/gateway/include/gateway/group/tcp.h: send"]}
{"id": "C72", "title": "Gateway outbound: the transaction manager knows the connections of a transaction", "statement": "As soon as a request in a transaction has been sent on a connection the transaction manager has been told that the connection is involved, exactly once until it says that the transaction is over.", "quantifier": "every history, every reuse of descriptors and identities", "why_tests_cant": "all histories", "anchors": ["middleware/gateway/source/group/outbound/handle.cpp: associate_and_involve", "middleware/gateway/source/group/outbound/state.cpp: pending::Transactions"]}
{"id": "C73", "title": "Gateway outbound: connections are closed in an orderly way", "statement": "A connection is given up only if it is broken or has been asked to leave; one that is asked to leave is closed when, and not before, no transaction uses it and nobody waits for an answer from it; and asking connections to leave does not take the outbound down.", "quantifier": "every interleaving of disconnects, configuration changes, shutdown and traffic", "why_tests_cant": "all schedules", "anchors": ["middleware/gateway/source/group/outbound/handle.cpp: connection::disconnect, remove, lost, idle, shutdown", "middleware/gateway/source/group/outbound/state.cpp: State::idle", "middleware/gateway/include/gateway/group/connection.h: Holder::extract"]}
{"id": "C74", "title": "Gateway outbound: prepare, commit, rollback and discovery", "statement": "The transaction manager gets at most one answer to each prepare, commit and rollback, and it is that of the remote domain; the same for a discovery, that may be refused only by a connection that is about to leave; the answer of the remote gets to the one that asked if the connection is still there.", "quantifier": "every history, any number of connections", "why_tests_cant": "all schedules", "anchors": ["middleware/gateway/source/group/outbound/handle.cpp: transaction::resource::basic_request, basic_reply, discovery", "middleware/gateway/source/group/outbound/state.cpp: reply::Destination"]}
{"id": "C75", "title": "Gateway outbound: what is advertised", "statement": "For a connection only services and queues that its remote domain has said that it has are advertised, one hop further away, and all of them; all of it is taken back before the connection is gone and when it is asked to leave, and nothing is advertised after that.", "quantifier": "every interleaving of discoveries, disconnects and losses", "why_tests_cant": "all schedules", "anchors": ["middleware/gateway/source/group/outbound/handle.cpp: domain::discovery::reply, unadvertise, connection::lost"]}
{"id": "C76", "title": "Gateway outbound: a service the remote does not have", "statement": "When the remote domain tells that it does not have the service, no more calls to that service are routed to the connection until it is advertised again.", "quantifier": "every state of the service manager, every history of the outbound", "why_tests_cant": "two processes, every state", "anchors": ["middleware/gateway/source/group/outbound/handle.cpp: service::unadvertise", "middleware/service/source/manager/state.cpp: State::update"]}
{"id": "C77", "title": "Gateway inbound: requests from other domains", "statement": "A call, conversation, enqueue or dequeue from another domain makes the gateway ask for who has it and, if it is in a transaction that is not in use already, ask the transaction manager for a branch; when they have answered, in any order, the request is given to the process that was told, once, otherwise unchanged, in the same global transaction but with the branch of this domain, and nothing else is given to any process.", "quantifier": "every interleaving of requests, answers, losses and reconnects, any number of connections", "why_tests_cant": "all schedules", "anchors": ["middleware/gateway/source/group/inbound/task/create.cpp: handle_service, handle_conversation, handle_queue, send::service_request, send::queue_request", "middleware/gateway/source/group/inbound/state.cpp: transaction::Cache", "middleware/common/include/casual/task/concurrent.h: Coordinator"]}
{"id": "C78", "title": "Gateway inbound: replies to other domains", "statement": "A domain gets at most one reply to each call, prepare, commit and rollback; it is the one of the process or of the transaction manager, and gets to the domain that has asked; if nobody has the service or the queue, or the process is gone, the domain is told; and no failure to send makes the gateway misbehave.", "quantifier": "every interleaving of requests, replies, losses and reconnects, every reuse of descriptors", "why_tests_cant": "all schedules and failure points", "anchors": ["middleware/gateway/source/group/inbound/handle.cpp: internal::service, conversation, queue, domain", "middleware/gateway/source/group/inbound/task/create.cpp: fake_service_error_reply, send_to_partner_ipc", "middleware/gateway/include/gateway/group/tcp.h: send"]}
{"id": "C79", "title": "Gateway inbound: transactions of other domains", "statement": "All that is done for a global transaction of another domain is done with one branch, given by the transaction manager of this domain; as long as some connection uses the transaction prepare, commit and rollback for it are given to the transaction manager with that branch, otherwise the other domain is told that it is not known; the answer is for the transaction that was asked for.", "quantifier": "every history, any number of connections in the same transaction", "why_tests_cant": "all histories", "anchors": ["middleware/gateway/source/group/inbound/task/create.cpp: handle_transaction", "middleware/gateway/source/group/inbound/state.cpp: Cache::associate, add, find, failed, disassociate", "middleware/gateway/source/group/inbound/handle.cpp: event::transaction::disassociate"]}
{"id": "C80", "title": "Gateway inbound: connections are closed in an orderly way", "statement": "A connection is given up only if it is broken or told to leave; one that is told to leave is closed when, and not before, nothing that it has asked for is in progress and no transaction uses it; at shutdown all are asked to leave, and the gateway stops when they are gone; nothing a remote domain does takes the gateway down.", "quantifier": "every interleaving of disconnects, configuration changes, shutdown, and traffic", "why_tests_cant": "all schedules", "anchors": ["middleware/gateway/source/group/inbound/handle.cpp: external::disconnect::reply, connection::lost, disconnect, idle, shutdown", "middleware/gateway/source/group/inbound/state.cpp: State::disconnectable, done, extract", "middleware/gateway/include/gateway/group/connection.h: Holder::extract"]}
{"id": "C81", "title": "Gateway inbound: lookups are not left behind", "statement": "When a connection is closed each lookup that has not led to a call is discarded at the service manager, so no instance stays reserved for a call that never comes; and no other lookup is discarded.", "quantifier": "every point where a connection may be closed, every history before", "why_tests_cant": "all failure points", "anchors": ["middleware/gateway/source/group/inbound/task/create.cpp: the Failed handlers of handle_service and handle_conversation", "middleware/gateway/source/group/inbound/handle.cpp: connection::lost", "middleware/common/include/casual/task/concurrent.h: Coordinator::failed"]}
{"id": "C82", "title": "Queue forward: a message is moved in one transaction", "statement": "A message that is forwarded is dequeued, given to the service (or to the other queue), and the reply is enqueued where configured, all in one transaction that is of that message only; the transaction is committed only if every step of it has been answered positively, it is committed or rolled back at most once, and each answer leads to the next step; a message is not given back without a reason.", "quantifier": "every interleaving of answers, errors, lost queues, configuration and shutdown, any number of forwards and instances", "why_tests_cant": "all schedules", "anchors": ["middleware/queue/source/forward/handle.cpp: service::pending, queue, transaction::commit, rollback", "middleware/queue/source/forward/state.cpp"]}
{"id": "C83", "title": "Queue forward: not more instances than configured", "statement": "A forward never asks for a message if it has as many in progress as it is configured for, and never if it is not enabled; the number that is told as running is the number in progress.", "quantifier": "every history of configurations, answers and failures", "why_tests_cant": "all histories", "anchors": ["middleware/queue/source/forward/handle.cpp: comply::queue, send::dequeue", "middleware/queue/source/forward/state.cpp: forward::Instances"]}
{"id": "C84", "title": "Queue forward: shutdown", "statement": "When it is told to shut down, what waits for a message or a service is withdrawn, nothing new is begun, what is in progress is brought to an end in a bounded number of answers, and the process ends when, and not before, nothing is in progress.", "quantifier": "every point where the shutdown may come, every history before", "why_tests_cant": "all points of all flows", "anchors": ["middleware/queue/source/forward/handle.cpp: shutdown::request, forget::reply, lookup::discard", "middleware/queue/source/forward/state.cpp: State::done"]}
{"id": "C85", "title": "Queue forward: where the requests go", "statement": "A message is asked for only at the process, and with the queue id, that the queue manager has told for the configured queue, and only if the queue is in this domain; the message is put only where the queue manager has told that the target is.", "quantifier": "every interleaving of lookups, deaths and moves of queues", "why_tests_cant": "all histories", "anchors": ["middleware/queue/source/forward/handle.cpp: queue::lookup::reply, send::dequeue, send::enqueue", "middleware/queue/source/forward/state.cpp: State::invalidate"]}
{"id": "C86", "title": "Queue forward: instances are started, and started again", "statement": "For what is configured and enabled the queues are looked up; when they are found there are as many messages asked for as there are instances configured; and when one ends another is begun, or the queue is looked up again.", "quantifier": "every interleaving of configuration, lookups and ends", "why_tests_cant": "all histories", "anchors": ["middleware/queue/source/forward/handle.cpp: configuration::update::request, comply, queue::lookup::reply, commit::reply, rollback::reply, forget", "middleware/queue/source/forward/state.cpp"]}
{"id": "C87", "title": "Queue manager: where a queue is", "statement": "A lookup is answered with a queue that is offered at that point by a running group of the domain or by a gateway, that has the name, is enabled for what is asked for, and is in this domain if that is asked for, and there is no such queue nearer; that there is none is told only when that is so, or at shutdown, and only to those who do not want to wait.", "quantifier": "every interleaving of lookups, advertisements, orders, deaths and configuration, any number of groups and gateways", "why_tests_cant": "all histories", "anchors": ["middleware/queue/source/manager/handle.cpp: lookup::request, concurrent::advertise, pending::lookups::check", "middleware/queue/source/manager/state.cpp: State::queue, local_queue, update, remove_queues"]}
{"id": "C88", "title": "Queue manager: every lookup has an end", "statement": "A lookup is answered at most once; nobody waits for a queue that is offered, nor after the shutdown; one that is not to wait is answered when the other domains have been asked; a lookup that is withdrawn is either never answered, or has been answered, and the one who withdraws is told which.", "quantifier": "every interleaving of lookups, withdrawals, deaths, advertisements and shutdown", "why_tests_cant": "all schedules", "anchors": ["middleware/queue/source/manager/handle.cpp: lookup::request, lookup::discard::request, discovery::api::reply, pending::lookups::check, discard, shutdown::request"]}
{"id": "C89", "title": "Queue manager: what the discovery is told", "statement": "Asked for names, it tells exactly which of them are offered (in the domain, or at all) and with what enabled; asked for what is known it tells exactly the queues that gateways offer and those that somebody waits for.", "quantifier": "every history, every set of names", "why_tests_cant": "all histories", "anchors": ["middleware/queue/source/manager/handle.cpp: domain::discover::lookup::request, fetch::known::request"]}
{"id": "C90", "title": "Queue manager: the groups are what the configuration says", "statement": "Groups are stopped and started one kind at a time, nothing before what was begun is complete; when that is done exactly the configured groups and forward groups run, one process each; an update is answered once, when all of it is done; the manager is ready when, and not before, all have their configuration, and ends when, and not before, it has been told to and all groups have ended.", "quantifier": "every interleaving of configuration updates, connects, replies, exits and shutdown, any number of groups", "why_tests_cant": "all schedules and all points of an update", "anchors": ["middleware/queue/source/manager/configuration.cpp: conform, added_groups, removed_groups, modified_groups", "middleware/common/include/casual/task.h: Coordinator", "middleware/configuration/include/configuration/model/change.h: calculate", "middleware/queue/source/manager/state.cpp: State::ready, done", "middleware/queue/source/manager/handle.cpp: group::connect, forward::connect, process::exit, shutdown::request"]}
{"id": "C91", "title": "Discovery: every request is answered", "statement": "A discovery request, from a process of the domain or from another domain, is answered at most once, to the one that asked; when all that have been asked for it have replied or have failed it has been answered; after the shutdown it is answered at once; and the process ends when, and not before, what it has been asked for is done.", "quantifier": "every interleaving of requests, replies, failures, timeouts and shutdown, any number of providers", "why_tests_cant": "all schedules", "anchors": ["middleware/domain/source/discovery/handle.cpp: api::request, request, send_aggregated_discovery, timeout, shutdown", "middleware/domain/source/discovery/state.cpp: State::done, Accumulate", "middleware/common/include/common/message/coordinate.h: fan::Out"]}
{"id": "C92", "title": "Discovery: what is answered", "statement": "What is in an answer has been told of by a process of this domain or by another domain, under the name it has here, and is wanted; what is wanted and not in it was looked for: all that may have it had been asked after the request arrived and have replied without it or have failed.", "quantifier": "every interleaving of requests, replies and failures, every configuration of routes, requests that are accumulated and those that are not", "why_tests_cant": "all schedules and all contents", "anchors": ["middleware/domain/source/discovery/handle.cpp: content::normalize, content::send_reply, handle_extended_lookup, send_aggregated_discovery", "middleware/domain/source/discovery/state.cpp: pending::Content"]}
{"id": "C93", "title": "Discovery: who is asked, for what", "statement": "Only processes that are registered for it at that point are asked; other domains are asked only for what requests that may go further want and for what is known, by the names it has there; a request that is not to go further does not.", "quantifier": "every history of registrations, failures, configurations and requests", "why_tests_cant": "all histories", "anchors": ["middleware/domain/source/discovery/handle.cpp: send::requests, request, send_aggregated_discovery, provider registration", "middleware/domain/source/discovery/state.cpp: Providers::registration, filter"]}
{"id": "C94", "title": "Discovery: changes of the topology", "statement": "When a domain has connected it is explored for what the connection is configured with and all that is known; when the topology has changed farther away the connection that told of it is explored and all that want to know are told, with this domain added; an update that has been here is ignored, so that an update passes each domain at most once.", "quantifier": "every interleaving of updates, requests, timeouts and failures, any number of domains", "why_tests_cant": "all schedules and all topologies", "anchors": ["middleware/domain/source/discovery/handle.cpp: topology::direct::update, topology::implicit::update, topology explore, timeout"]}
{"id": "C95", "title": "Discovery: rediscovery", "statement": "A rediscovery is answered once; when it is, all that is known has been fetched and all other domains have been asked for all of it, and what is not in the answer was not told of by any of them.", "quantifier": "every interleaving of rediscoveries, other requests, replies and failures", "why_tests_cant": "all schedules", "anchors": ["middleware/domain/source/discovery/handle.cpp: rediscovery::request, collect::known::requests"]}
{"id": "C96", "title": "Discovery: requests between domains end", "statement": "A request leads to a bounded number of requests between domains, also if the domains are configured to forward discoveries to each other.", "quantifier": "every topology of domains, every interleaving", "why_tests_cant": "all topologies", "anchors": ["middleware/domain/source/discovery/handle.cpp: request, handle_extended_lookup", "middleware/gateway/source/group/inbound/handle.cpp: domain::discovery::request"]}
{"id": "C97", "title": "Domain manager: the batches of the boot", "statement": "Every server and executable that is a member of a group is in exactly one batch of the boot, nothing else is, and no batch is empty; the batches are started one after the other in that order, the next only when the one before has ended, and the domain is up after the last.", "quantifier": "every set of groups, servers and executables, every interleaving of spawns, connects, exits and requests", "why_tests_cant": "all configurations and all schedules", "anchors": ["middleware/domain/source/manager/state/order.cpp: boot", "middleware/domain/source/manager/handle.cpp: handle::boot", "middleware/domain/source/manager/task/create.cpp: scale::group", "middleware/common/include/casual/task.h: Coordinator"]}
{"id": "C98", "title": "Domain manager: dependencies are started first", "statement": "What a group depends on, directly or through others, is started before it, whatever the order the groups are configured in.", "quantifier": "every set of groups and dependencies, every membership", "why_tests_cant": "all configurations", "anchors": ["middleware/domain/source/manager/state.cpp: Group::boot::Order", "middleware/domain/source/manager/state/order.cpp: boot", "middleware/domain/source/manager/transform.cpp: local::groups"]}
{"id": "C99", "title": "Domain manager: one batch at a time", "statement": "When a batch has ended, all its instances are what is wanted of them or have failed; a process is spawned only for what is in the batch that is being started, or to replace one that has ended; and the boot comes to an end.", "quantifier": "every interleaving of spawns, failures to spawn, connects and exits", "why_tests_cant": "all schedules", "anchors": ["middleware/domain/source/manager/task/create.cpp: group_done, scale::group", "middleware/domain/source/manager/handle.cpp: scale::instances, local::scale::out"]}
{"id": "C100", "title": "Domain manager: the shutdown", "statement": "Told to shut down, it stops the batches in the opposite order of the boot, one at a time, and stops when, and not before, all are done; no process that connects is approved any more; no process is left behind; and it stops in the end.", "quantifier": "every point where the shutdown may come, every history before, every interleaving after", "why_tests_cant": "all points of a boot and of a run", "anchors": ["middleware/domain/source/manager/handle.cpp: handle::shutdown, scale::shutdown, process::connect", "middleware/domain/source/manager/state/order.cpp: shutdown", "middleware/domain/source/manager/state.cpp: State::execute"]}
{"id": "C101", "title": "Domain manager: connects and singletons", "statement": "Each connect of a process is answered at once and once; at any time at most one process is approved as a given singleton; a connect is denied only at shutdown or when another process is that singleton.", "quantifier": "every interleaving of connects, exits and requests, any number of processes and singletons", "why_tests_cant": "all histories", "anchors": ["middleware/domain/source/manager/handle.cpp: process::connect, singleton::connect", "middleware/domain/source/manager/state.cpp: State::singleton, State::remove"]}
{"id": "C102", "title": "Domain manager: lookups of processes", "statement": "A lookup is answered at most once; one that is direct, or comes at shutdown, is answered at once; no lookup waits for a singleton that there is, and each is answered when what it waits for connects; the answer is the process that is asked for, and one that has ended is not told.", "quantifier": "every interleaving of lookups, connects, exits and shutdown", "why_tests_cant": "all histories", "anchors": ["middleware/domain/source/manager/handle.cpp: process::detail::lookup, process::lookup, pending lookups in process::detail::connect", "middleware/domain/source/manager/state.cpp: State::remove"]}
{"id": "C103", "title": "Domain manager: processes that end", "statement": "A process that has ended is not the process of any instance any more; the process of an instance is a child that was spawned for it and has not ended; when a process that is wanted and is configured to be restarted ends while the domain is up, another is spawned for it.", "quantifier": "every interleaving of exits, spawns, connects and scaling, reuse of pids", "why_tests_cant": "all histories", "anchors": ["middleware/domain/source/manager/handle.cpp: event::process::exit", "middleware/domain/source/manager/state.cpp: State::remove, Server::remove, Executable::remove"]}
{"id": "C104", "title": "Domain manager: the number of instances", "statement": "Scaled to a number, that many instances are wanted; those that run are kept first; no process is lost: those that are not wanted stay until they have ended; nothing else of the server or executable is changed.", "quantifier": "every number, every set of instances in any state", "why_tests_cant": "all states of the instances and all numbers", "anchors": ["middleware/domain/source/manager/state.cpp: local::instance::scale", "middleware/domain/source/manager/handle.cpp: scale::aliases"]}
