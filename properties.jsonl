{"id": "C01", "title": "Buffers never exceed their retention limit", "statement": "For a buffer with retention KeepLast(n) or KeepFirst(n), after any history of pushes, pulls, drains and in-place edits from any number of sessions, the number of values a session can observe in the buffer is at most n.", "quantifier": "every retention policy, every n, every finite sequence of buffer operations over every set of sessions", "why_tests_cant": "the limit must survive arbitrarily long interleavings of eight different mutators; a test fixes one sequence", "anchors": ["src/buffer/buffer_storage.rs: BufferStorage::impl_push, force_push, push, push_as_oldest", "src/buffer.rs: RetentionPolicy"]}
{"id": "C02", "title": "A buffer is a per-session queue ordered from oldest to newest", "statement": "Every observation made through a buffer (count, oldest, newest, get(i), iter, pull, pull_newest, consume) equals the observation of an abstract per-session list in arrival order, where push appends at the newest end subject to the retention policy and push_as_oldest prepends at the oldest end.", "quantifier": "every sequence of operations and every policy", "why_tests_cant": "a refinement claim over all histories, the code stores the list reversed so each accessor has its own index arithmetic", "anchors": ["src/buffer/buffer_storage.rs: BufferStorage", "src/buffer.rs: BufferView, BufferMut"]}
{"id": "C03", "title": "No buffered value is lost or duplicated silently", "statement": "The values handed to push/force_push/push_as_oldest over any history are exactly the values still stored plus the values returned to a caller (as rejected, displaced, pulled, drained or consumed), plus the values discarded by clearing a session; as multisets.", "quantifier": "every sequence of operations, every policy, every session", "why_tests_cant": "conservation over unbounded histories cannot be sampled", "anchors": ["src/buffer/buffer_storage.rs: impl_push, push_as_oldest, pull, pull_newest, consume, drain, clear_session"]}
{"id": "C04", "title": "Buffer contents of one session are independent of other sessions", "statement": "The contents and every returned value that session s observes in a buffer are the same as if only the operations addressed to s had ever been performed.", "quantifier": "every interleaving of operations of any number of sessions", "why_tests_cant": "non-interference quantifies over pairs of unbounded histories", "anchors": ["src/buffer/buffer_storage.rs: BufferStorage.reverse_queues"]}
{"id": "C05", "title": "Positions in a buffer mean the same thing in every accessor", "statement": "Position 0 denotes the oldest value and positions grow toward the newest, in get, get_mut, iter and in the range given to drain; drain(range) removes and yields exactly the values that get reports at these positions, oldest first.", "quantifier": "every buffer content and every range", "why_tests_cant": "holds or fails per index arithmetic for all lengths and ranges; tests only drain the full range", "anchors": ["src/buffer/buffer_storage.rs: get, get_mut, drain", "src/buffer.rs: BufferMut::drain, BufferView::get"]}
{"id": "C06", "title": "Inputs to a node are consumed in arrival order, one execution per input", "statement": "Messages sent to a node are taken by its executions in exactly the order they were accepted; each accepted message schedules exactly one execution; messages of sessions that are no longer active are not accepted.", "quantifier": "every sequence of give/defer/sneak/take over every set of nodes and sessions", "why_tests_cant": "ordering over all interleavings of producers", "anchors": ["src/input.rs: InputStorage, ManageInput::give_input, defer_input, sneak_input, take_input"]}
{"id": "C07", "title": "Cleaning a session removes that session's pending inputs only", "statement": "After a node is cleaned for session s no pending message of s remains and the pending messages of every other session are untouched and in the same order; for a buffer node the still pending messages of s become buffer contents in their arrival order.", "quantifier": "every pending-input queue and every set of sessions", "why_tests_cant": "order-preservation of a reverse/partition algorithm for all queues", "anchors": ["src/input.rs: cleanup_inputs"]}
{"id": "C08", "title": "A closed gate silences a buffer without losing data", "statement": "While the gate of a buffer is closed for a session no listener is woken for that session and pushed values are still stored; opening a closed gate wakes each listener exactly once; opening an open gate or closing a closed gate has no effect; gates of different sessions are independent; an untouched gate is open.", "quantifier": "every sequence of gate actions, pushes and edits over every set of sessions and listeners", "why_tests_cant": "every interleaving of gate actions with data arrival", "anchors": ["src/operation/operate_buffer.rs: OperateBuffer::execute, GateState::apply, NotifyBufferUpdate", "src/operation/operate_gate.rs", "src/buffer/buffer_gate.rs"]}
{"id": "C09", "title": "Closing a gate through a buffer key takes effect", "statement": "After close_gate on a mutable gate access for a session, the gate reads as closed for that session, whatever happened before in that session.", "quantifier": "every gate history", "why_tests_cant": "depends on hidden per-session initialisation which a test that closes the gate first with an operation never exercises", "anchors": ["src/buffer/buffer_gate.rs: BufferGateMut::close_gate, open_gate, get"]}
{"id": "C10", "title": "A join fires all-or-nothing", "statement": "When a join executes, either every joined buffer has a value for the session and it removes (or clones) exactly the oldest value from each and emits exactly one combined message carrying these values in the declared order, or it emits nothing and no buffer changes.", "quantifier": "every list of joined buffers (by pull or by clone) and every buffer contents", "why_tests_cant": "atomicity has to hold for any number of buffers and any contents, including the same buffer named twice", "anchors": ["src/operation/join.rs: Join::execute", "src/buffer/buffering.rs: Buffering::buffered_count, Joining::fetch_for_join"]}
{"id": "C11", "title": "Joins pair values by position regardless of timing", "statement": "When values are delivered to the input slots of two or more keep-all buffers in any interleaving, the k-th message emitted by their join combines the k-th value delivered to each buffer, and the number of emitted messages equals the smallest number of values delivered to one buffer.", "quantifier": "every interleaving of arrivals of any length over any number of buffers", "why_tests_cant": "a statement about all schedules", "anchors": ["src/operation/join.rs: Join::execute", "src/operation/operate_buffer.rs: OperateBuffer::execute"]}
{"id": "C12", "title": "Collect emits complete, ordered, correctly sized batches", "statement": "A collect(min,max) emits batches whose concatenation, together with what is still held or disposed of, is exactly the sequence of values received for that session; each batch has at least min and at most max items; an undersized remainder is disposed of and reported rather than emitted.", "quantifier": "every min/max, every arrival sequence, every moment at which upstream becomes inactive, every set of sessions", "why_tests_cant": "batching boundaries over all histories", "anchors": ["src/operation/collect.rs: Collect::execute, on_unreachable"]}
{"id": "C13", "title": "Forking delivers exactly one message per branch", "statement": "fork_clone sends one copy to each target; unzip sends the i-th component to the i-th target; fork_result/fork_option sends the value to the matching branch only and reports a disposal for the other branch; spread sends each element in iteration order and reports a disposal when there is none.", "quantifier": "every value and every number of targets", "why_tests_cant": "for every number of branches, including none", "anchors": ["src/operation/fork_clone.rs", "src/operation/fork_unzip.rs", "src/operation/branching.rs", "src/operation/spread.rs"]}
{"id": "C14", "title": "Split sends each element to exactly one, the most specific, branch", "statement": "When a list or map is split, each element is sent exactly once: to the branch connected for its own position/key if one exists, else (maps) to the branch connected for its position among the elements without a branch of their own, else to the remaining branch, else it is dropped; elements arriving at a branch keep their order, and the branches that received nothing are exactly those reported as missed.", "quantifier": "every collection and every set of connected branches", "why_tests_cant": "for all connection tables and all collections", "anchors": ["src/chain/split.rs: SplitAsList::split, SplitAsMap::split, SplitDispatcher, SplitBuilder::output_for, next", "src/operation/operate_split.rs"]}
{"id": "C15", "title": "A reachability check that answers yes is right", "statement": "If the check reports that an operation can still be triggered, there really is a chain of connections from an operation that currently holds work for the session, with every multi-input operation on the way having all of its inputs available or reachable.", "quantifier": "every workflow graph, cycles included, and every distribution of pending work", "why_tests_cant": "all finite graphs", "anchors": ["src/operation.rs: OperationReachability::check_upstream, check_reachability, SingleInputStorage::is_reachable", "src/operation/join.rs: is_reachable"]}
{"id": "C16", "title": "A reachability check that answers no is right when no operation needs several inputs", "statement": "In a workflow whose operations each need only one of their inputs, if some operation holding work for the session has a path of connections to the terminal, the check reports the terminal reachable; the check terminates on every graph.", "quantifier": "every finite graph including cyclic ones", "why_tests_cant": "all graphs, memoisation under cycles is the risk", "anchors": ["src/operation.rs: OperationReachability::check_upstream", "src/operation/scope.rs: Terminate::is_reachable"]}
{"id": "C17", "title": "A session is not cancelled as unreachable while a join upstream of the terminal can still fire", "statement": "If the terminal of a workflow can still be triggered (considering joins that need all their inputs), a reachability check reports it reachable.", "quantifier": "every finite graph with joins", "why_tests_cant": "depends on the visiting order and memoisation of partial results in cycles", "anchors": ["src/operation.rs: OperationReachability::check_upstream", "src/operation/join.rs: Join::is_reachable"]}
{"id": "C18", "title": "A serial service works on one request at a time in arrival order", "statement": "At any moment at most one request of a serial service is in progress, and the requests which are not preempted are started in the order in which they were received.", "quantifier": "every sequence of requests, completions, preemptions and session cleanups", "why_tests_cant": "all schedules of an asynchronous service", "anchors": ["src/service/delivery.rs: SerialDelivery, insert_serial_order, pop_next_delivery_impl", "src/service/async_srv.rs"]}
{"id": "C19", "title": "Preemption discards exactly the requests it should", "statement": "A preempting request discards exactly those waiting requests (and stops the one in progress) that carry its label and are not marked ensure; every other request is kept in order; every discarded request is reported as supplanted exactly once.", "quantifier": "every queue and every delivery instruction", "why_tests_cant": "all queue contents", "anchors": ["src/service/delivery.rs: should_discard, insert_serial_order, DeliveryInstructions"]}
{"id": "C20", "title": "A service never sits idle while requests wait", "statement": "In every reachable state of a service with serial delivery (or of one label of a parallel one), if no request is in progress then no request is waiting, and the internal assertion on that never fires; after the request in progress completes, the oldest waiting request is started.", "quantifier": "every sequence of requests, completions and cleanups", "why_tests_cant": "an invariant over all histories", "anchors": ["src/service/delivery.rs: insert_serial_order (assert), pop_next_delivery_impl", "src/service/async_srv.rs: serve_next_async_request"]}
{"id": "C21", "title": "Different labels of a parallel service do not delay or discard one another", "statement": "In a parallel service unlabelled requests start immediately; requests with a label behave exactly like a serial service dedicated to that label, whatever is requested under other labels.", "quantifier": "every interleaving of requests over every set of labels", "why_tests_cant": "non-interference over all histories", "anchors": ["src/service/delivery.rs: ParallelDelivery, insert_new_order"]}
{"id": "C22", "title": "Ending a session never wedges a shared service", "statement": "If the session of the request in progress in a serial service is cleaned up (cancelled or finished early), the service eventually goes on to the next waiting request.", "quantifier": "every history ending in the cleanup of the session in progress, for async, workflow and continuous services", "why_tests_cant": "needs the one history in which cleanup hits the active request of a serial continuous service", "anchors": ["src/service/continuous.rs: ContinuousQueueStorage::cleanup, try_retire_request", "src/service/delivery.rs: Delivery::cleanup"]}
{"id": "C23", "title": "Cleaning one node does not discard another node's waiting request", "statement": "Cleaning up (or trimming) a node for a session removes the waiting service requests issued by this node for this session and nothing else.", "quantifier": "every queue shared by several nodes", "why_tests_cant": "requires two nodes of one session sharing one provider, all queue contents", "anchors": ["src/service/delivery.rs: Delivery::cleanup", "src/service/continuous.rs: ContinuousQueueStorage::cleanup"]}
{"id": "C24", "title": "A scope delivers exactly one outcome per session", "statement": "For every session started in a scope, at most one outcome leaves the scope: the first value which reached the terminal before a cancellation, or a cancellation; later values and cancellations are ignored.", "quantifier": "every sequence of terminations, cancellations, disposals and cleanup requests", "why_tests_cant": "races between termination, cancellation and parent cleanup", "anchors": ["src/operation/scope.rs: ScopedSessionStatus, Terminate::execute, OperateScope::finalize_scoped_session"]}
{"id": "C25", "title": "A scope releases its outcome only after it is clean", "statement": "The outcome of a scoped session leaves the scope only after every node of the scope has reported being clean for that session and every cleanup workflow started for it has finished.", "quantifier": "every order in which nodes and cleanup workflows report", "why_tests_cant": "all orders of asynchronous notifications", "anchors": ["src/operation/scope.rs: FinishCleanup, begin_cleanup_workflows, AwaitingCancel", "src/operation/cleanup.rs"]}
{"id": "C26", "title": "Cleanup completion is reported once, after all nodes", "statement": "Given the set of nodes asked to clean up for one cleanup request, completion is reported exactly once, precisely when the last of them notifies, in whatever order and with whatever unrelated cleanups in between.", "quantifier": "every set of nodes and every interleaving of notifications from several cleanups", "why_tests_cant": "all interleavings", "anchors": ["src/operation/cleanup.rs: CleanupContents, notify_cleaned, FinalizeCleanup"]}
{"id": "C27", "title": "An uninterruptible scope finishes before its parent proceeds", "statement": "If a parent session is cleaned up while an uninterruptible scope inside it is running, the parent is told the scope is clean only after the scope finished on its own.", "quantifier": "every history", "why_tests_cant": "timing-dependent: cleanup must arrive mid-run", "anchors": ["src/operation/scope.rs: ScopedSessionStatus::to_cleanup, dyn_cleanup"]}
{"id": "C28", "title": "A flush neither loses nor repeats scheduled work", "statement": "Every operation scheduled in the roster is executed exactly once, in scheduling order, or is still scheduled for the next flush when a limit interrupts this one; purging a target removes only that target's scheduled executions.", "quantifier": "every initial roster, every behaviour of the executed operations, every limit", "why_tests_cant": "all rosters and all limits", "anchors": ["src/flush.rs: flush_execution_impl, collect_from_channels", "src/operation.rs: OperationRoster"]}
{"id": "C29", "title": "Flush limits bound the work done", "statement": "With flush_loop_limit = n at most n operation executions happen in one flush and with channel_received_limit = n at most n channel items are received.", "quantifier": "every n and every amount of pending work", "why_tests_cant": "boundary must hold for each n; tests use one", "anchors": ["src/flush.rs: FlushParameters, flush_execution_impl, collect_from_channels"]}
{"id": "C30", "title": "Trimming selects exactly the nodes of the requested branches", "statement": "The set of nodes affected by a trim of downstream(p) is exactly p (if included) and everything reachable from p, and of a span(p,q) is exactly the nodes lying on a path from p to q, subject to the endpoint markers; an unreachable end is reported as an invalid span.", "quantifier": "every graph including cycles, every list of branches", "why_tests_cant": "all graphs", "anchors": ["src/operation/operate_trim.rs: calculate_nodes, calculate_downstream, calculate_all_spans, calculate_span", "src/trim.rs"]}
{"id": "C31", "title": "A trim passes its message on once every trimmed node is clean", "statement": "A message that triggers a trim is forwarded exactly once, after all trimmed nodes have been cleaned, to the trim's output; no message is kept forever.", "quantifier": "every set of trimmed nodes, all interleavings of several sessions' trims", "why_tests_cant": "all notification orders and the empty set", "anchors": ["src/operation/operate_trim.rs: Trim::execute, Trim::finalize_trim"]}
{"id": "C32", "title": "A promise has at most one outcome and it is stable", "statement": "Once a promise is observed as available, cancelled or disposed it stays so until the value is taken; the value can be taken exactly once; a promise whose sender disappears without sending becomes disposed and a later send never overwrites an observed outcome.", "quantifier": "every interleaving of sender and receiver operations", "why_tests_cant": "concurrent interleavings", "anchors": ["src/promise.rs: Promise, PromiseState::take, update", "src/promise/private.rs: Sender::set, Drop for Sender"]}
{"id": "C33", "title": "Flattening a nested promise gives the inner outcome", "statement": "A flattened promise becomes available with the inner value exactly when both outer and inner have been delivered, and becomes cancelled/disposed exactly when the first failing stage is, regardless of when flatten is called relative to the deliveries.", "quantifier": "every order of outer delivery, inner delivery and flatten, any nesting depth", "why_tests_cant": "all orders", "anchors": ["src/promise/private.rs: Promise::impl_flatten"]}
{"id": "C34", "title": "Waiting on a promise yields its result", "statement": "After wait_mut returns on a promise whose result was sent, the promise's cached state is no longer pending.", "quantifier": "every interleaving of send and wait_mut", "why_tests_cant": "depends on whether the send happened before the wait started", "anchors": ["src/promise.rs: Promise::wait_mut", "src/promise/private.rs: Promise::impl_wait"]}
{"id": "C35", "title": "Dropping a pending promise always notifies the sender side", "statement": "If a promise is dropped while pending, the on-drop callback registered by the sender runs exactly once, whenever it was registered.", "quantifier": "every interleaving of registration, send and drop", "why_tests_cant": "thread interleavings between drop and registration", "anchors": ["src/promise.rs: Drop for Promise", "src/promise/private.rs: Sender::on_promise_drop"]}
{"id": "C36", "title": "An asynchronous task has exactly one outcome", "statement": "Each started task either delivers its response once or is cancelled/disposed once, never both, and in both cases the service is unblocked exactly once and the node is told it is clean if cleanup was requested.", "quantifier": "every interleaving of completion, stop, cleanup, despawn and scope cancellation", "why_tests_cant": "all interleavings", "anchors": ["src/operation/operate_task.rs: OperateTask::execute, Drop, cleanup_task, stop_task"]}
{"id": "C37", "title": "Changes made through a buffer key wake every listener except their author", "statement": "If a buffer is changed through a mutable access, each listener of this buffer is woken exactly once for the session when the access ends and the gate is open, except the listener which made the change (unless closed loops are allowed); an access that changes nothing wakes nobody.", "quantifier": "every set of listeners and accesses", "why_tests_cant": "all listener sets", "anchors": ["src/buffer.rs: BufferMut, Drop for BufferMut", "src/operation/operate_buffer.rs: NotifyBufferUpdate"]}
{"id": "C38", "title": "Stream items arrive in order at the most specific matching target", "statement": "Items sent on a stream are delivered in sending order, each once, to the target connected to that stream's name, else to the target accepting any named stream of that type, else to the unnamed target of that type, else they are dropped without affecting other items.", "quantifier": "every connection table and every sequence of stream items", "why_tests_cant": "all tables and sequences", "anchors": ["src/stream/named_stream.rs: NamedStreamTargets::get, send_named_stream", "src/stream/stream_target_map.rs: get_named_or_anonymous", "src/stream/anonymous_stream.rs"]}
{"id": "C39", "title": "Streams collected into an entity are collected completely", "statement": "When a request's stream is collected into an entity (store, push, collect_streams), every item of the stream is appended to the collection in order.", "quantifier": "every number of stream items", "why_tests_cant": "a test sending a single item passes in either case", "anchors": ["src/series/push.rs: Push::execute", "src/series.rs: collect_streams, store, push"]}
{"id": "C40", "title": "A workflow session never hangs silently", "statement": "When no work is left for a session (nothing scheduled, no task running), the session has either produced its output or has been cancelled.", "quantifier": "every workflow graph of blocking operations, every input and schedule", "why_tests_cant": "liveness over all graphs and runs", "anchors": ["src/disposal.rs: emit_disposal", "src/operation/scope.rs: validate_scope_reachability", "src/flush.rs"]}
{"id": "C41", "title": "Concurrent sessions of a workflow do not influence each other's results", "statement": "The messages a session observes and its outcome are the same whether or not other sessions run in the same workflow at the same time.", "quantifier": "every workflow of session-local operations, every interleaving of any number of sessions", "why_tests_cant": "non-interference over all pairs of runs", "anchors": ["src/input.rs", "src/operation.rs: OperationRoster", "src/flush.rs", "src/operation/scope.rs"]}
{"id": "C42", "title": "Responses of a continuous service retire exactly the answered requests", "statement": "When a continuous service responds to some of its queued requests during a cycle, exactly these requests leave the queue, each answered once to its own requester in the order answered, and the other requests stay in order; a request cannot be answered twice in one cycle.", "quantifier": "every queue, every subset and order of responses", "why_tests_cant": "index arithmetic under arbitrary subsets", "anchors": ["src/service/continuous.rs: ContinuousQueueMut, OrderMut::respond, DeliverResponses, try_retire_request"]}
{"id": "C43", "title": "A join never rests while every buffer has a value", "statement": "When no wake-up of a join is pending for a session, at least one of its buffers is empty in this session, whichever way the values got into the buffers (input slots, keys, or behind a gate that was opened since).", "quantifier": "every history of deliveries, key accesses and gate actions", "why_tests_cant": "the number of wake-ups depends on the history", "anchors": ["src/operation/join.rs: Join::execute", "src/operation/operate_buffer.rs: OperateBuffer::execute, GateState::apply, NotifyBufferUpdate"]}
{"id": "C44", "title": "A collect takes notice of a loss exactly when the lost message could have reached it", "statement": "An operation is considered downstream of another one exactly when a chain of connections the user made (outputs, branches, streams of any kind) leads from the second to the first; the search ends on every workflow.", "quantifier": "every finite workflow graph, cyclic ones included", "why_tests_cant": "all graphs; cycles and kinds of connections", "anchors": ["src/operation.rs: immediately_downstream_of, is_downstream_of", "src/operation/collect.rs: collection_disposal_listener"]}
{"id": "C45", "title": "A scope tells its parent that it is clean only after all its runs are over", "statement": "When a parent session is cleaned up, the scope reports being clean for it only after every run of the scope which was started for that session has been cleaned and its cleanup workflows have ended, and it reports eventually.", "quantifier": "every history of runs, outcomes and cleanup requests", "why_tests_cant": "depends on which of several concurrent runs are in which phase when the request arrives", "anchors": ["src/operation/scope.rs: OperateScope::cleanup, ScopeSettings, FinishCleanup::finalize"]}
{"id": "C46", "title": "A task awaiting a promise is woken when its result arrives", "statement": "If a task polls a promise and is told to wait, and a result is stored for the promise, then the task's waker is called after the result was stored, so that its next poll returns the result.", "quantifier": "every interleaving of the polling task and the sender", "why_tests_cant": "the result may arrive at any moment of the poll; a test cannot place it between two locks", "anchors": ["src/promise.rs: Future for Promise::poll", "src/promise/private.rs: Sender::set"]}
{"id": "C47", "title": "An interrupted wait returns", "statement": "If an interrupter is triggered while a thread waits with it, or was triggered before and not reset, the wait returns.", "quantifier": "every interleaving of the waiting thread, the sender and the interrupter", "why_tests_cant": "depends on whether the interrupt comes between looking at the flag and going to sleep", "anchors": ["src/promise.rs: Interrupter, Promise::interruptible_wait", "src/promise/private.rs: Promise::impl_wait"]}
{"id": "C48", "title": "An unused series is dropped down to its last detach", "statement": "If nothing uses the end of a series then the sessions after the last detach are never run and those before it run as usual, each once and in order; without any detach none runs.", "quantifier": "every number of sessions, every placement of detach, every behaviour of the providers, every interleaving of the flush", "why_tests_cant": "tests check one chain; the claim is about every chain and every placement", "anchors": ["src/series.rs: Series::detach", "src/flush.rs: collect_from_channels, drop_target", "src/request.rs: request"]}
{"id": "C49", "title": "Dropping the final promise cancels the series", "statement": "When the promise taken from a series is dropped, the sessions which were not detached and have not run yet are not run.", "quantifier": "every series, every moment of dropping the promise", "why_tests_cant": "the moment of the drop is arbitrary; absence of an effect cannot be tested", "anchors": ["src/series.rs: documentation of Series", "src/flush.rs: collect_from_channels", "src/series/taken.rs: TakenResponse::setup", "src/series/internal.rs: SeriesLifecycle"]}
{"id": "C50", "title": "A series runs its sessions in order and gives one outcome", "statement": "Each session gets what the one before responded and runs at most once; when nothing is left to do, the promise, or the entity given to store or push, got the response of the last session, or, if a session failed, the promise got a cancellation; never more than one outcome.", "quantifier": "every number of sessions, every response or failure, every interleaving", "why_tests_cant": "all lengths and interleavings", "anchors": ["src/series.rs: then, take_response, store, push", "src/series/taken.rs: execute, cancel_taken_target", "src/series/internal.rs: cancel_execution", "src/input.rs: sneak_input"]}
{"id": "C51", "title": "A finished series leaves nothing behind", "statement": "Once a series is done, failed or dropped, none of the entities which were spawned for it exists.", "quantifier": "every series and ending, every interleaving", "why_tests_cant": "a leak is invisible to tests which look at responses", "anchors": ["src/series.rs: then", "src/series/push.rs: execute", "src/flush.rs: drop_target", "src/series/internal.rs: cancel_execution"]}
{"id": "C52", "title": "A message held by a trim keeps its scope waiting", "statement": "While a trim is cleaning its branches the message that triggered it is still under way: a scope is not told that nothing can reach its end as long as the trim is going to pass the message on.", "quantifier": "every moment between taking the message and passing it on", "why_tests_cant": "needs a disposal elsewhere exactly while nodes are being cleaned", "anchors": ["src/operation/operate_trim.rs: Trim::is_reachable, HoldingStorage", "src/operation.rs: OperationReachability"]}
{"id": "C53", "title": "A stream leaving a scope or workflow takes part in reachability and cleanup", "statement": "The node at which a stream leaves a scope or a workflow answers, when asked whether more items can come for a session, yes if an item of the session waits in it and otherwise what the scope answers; and when a session is cleaned up, exactly its waiting items are removed.", "quantifier": "every kind of stream, every set of waiting items, every session", "why_tests_cant": "the question only matters when a branch of a workflow was disposed while a stream still holds items", "anchors": ["src/operation/scope.rs: RedirectScopeStream, RedirectWorkflowStream", "src/stream/named_stream.rs: NamedStreamRedirect"]}
{"id": "C54", "title": "Discovery finds exactly the services that provide the required streams", "statement": "ServiceDiscovery yields a service if and only if its request and response types match and it was declared with every stream that the filter requires; optional streams do not matter.", "quantifier": "every set of services, every pack of streams, every filter", "why_tests_cant": "all combinations of stream packs and filters", "anchors": ["src/service/discovery.rs", "src/stream/stream_filter.rs", "src/stream/stream_availability.rs"]}
{"id": "C55", "title": "A stream cast is allowed only if the original service has the streams", "statement": "Service::stream_cast fails if the target stream pack contains streams that are not present in the original service, and succeeds otherwise.", "quantifier": "every pair of stream packs", "why_tests_cant": "all pairs of stream packs", "anchors": ["src/service.rs: stream_cast", "src/stream/stream_availability.rs: can_cast_to"]}
{"id": "C56", "title": "What comes out of a workflow is what its connections say, and every cancellation has its reason", "statement": "The response of a session is a value that the nodes make of its request, passing it on along the connections; a session is only cancelled because a node cancelled it for a value that came to it, because no value can come to the end any more, because an operation was broken, because of collects in a cycle or because somebody asked for it; an operation is only broken for a value of the wrong type, a missing message or a second response; no operation panics.", "quantifier": "every workflow, every number of sessions, every interleaving of execution, disposal and cancellation", "why_tests_cant": "the statement is about every path through every workflow", "anchors": ["src/operation/scope.rs: ScopedSession, Terminate", "src/disposal.rs: validate", "src/operation.rs: execute_operation", "src/flush.rs"]}
{"id": "C57", "title": "A connection leads to where it was connected, at both ends, whatever is built before and after", "statement": "In a workflow where no node has two streams of the same type or name: connecting an output to an input slot makes exactly the port of the output lead to the slot, and no later construction changes it; an output that is not connected stays where it is; an operation knows another one as its input if and only if one of the ports of the other leads to it; no connection leads to something that does not exist and none of these constructions reports an error.", "quantifier": "every sequence of node, chain, branch, listener, scope and connect constructions", "why_tests_cant": "every order of construction; a test connects a few nodes", "anchors": ["src/builder/connect.rs: Connect, try_connect", "src/operation.rs: SingleInputStorage", "src/stream/stream_target_map.rs", "src/operation/fork_clone.rs: AddBranchToForkClone", "src/operation/scope.rs: setup", "src/builder.rs"]}
{"id": "C58", "title": "A workflow built from a diagram is the diagram", "statement": "When a diagram is built without an error, every operation in it, including those in templates for every section that uses the template and those in scopes, is built, and nothing else; the request, every output of every operation and every error of a conversion is connected to the operation which the diagram names as its target, following the inputs and outputs of sections.", "quantifier": "every diagram, every registry, every order in which maps are iterated", "why_tests_cant": "every shape of diagram and every order in which operations become buildable", "anchors": ["src/diagram/workflow_builder.rs: create_workflow", "src/diagram.rs: Diagram, build_workflow", "src/diagram/section_schema.rs", "src/diagram/scope_schema.rs"]}
{"id": "C59", "title": "Connections in a diagram fit and are asked for", "statement": "Every connection joins an output and an input of the same message type; a conversion is inserted only where the types differ and only if the registry has it; every operation gets the message types and buffers which the registry has for it; nothing is connected which the diagram does not ask for.", "quantifier": "every diagram, every registry, every order of iteration", "why_tests_cant": "all combinations of registered types and operations", "anchors": ["src/diagram/serialization.rs", "src/diagram/workflow_builder.rs: ConnectToCancel, standard_input_connection", "src/dyn_node.rs: connect_to", "src/diagram/registration.rs"]}
{"id": "C60", "title": "A halted construction names what could not be built", "statement": "When building halts, the error names every operation which is not finished and only operations of the diagram that are not finished.", "quantifier": "every diagram and order of iteration for which building halts", "why_tests_cant": "about every way in which building can get stuck", "anchors": ["src/diagram/workflow_builder.rs: create_workflow, BuildStatus", "src/diagram.rs: DiagramErrorCode::BuildHalted"]}
{"id": "C61", "title": "The order of the operations in a diagram does not matter", "statement": "Two diagrams which list the same operations in different orders give the same workflow, or neither can be built.", "quantifier": "every diagram, every permutation", "why_tests_cant": "operations are kept in maps whose iteration order differs from run to run", "anchors": ["src/diagram/workflow_builder.rs: create_workflow, infer_input_type_into_target", "src/diagram/buffer_schema.rs: BufferAccessSchema"]}
{"id": "C62", "title": "Templates which contain themselves are found", "statement": "Before building, a diagram is rejected exactly if a section that is used names a template which does not exist or one which contains itself.", "quantifier": "every diagram and nesting of templates", "why_tests_cant": "all nestings of templates, of any depth", "anchors": ["src/diagram.rs: validate_template_usage, check_circular_template_dependency"]}
{"id": "C63", "title": "Sections and scopes are closed", "statement": "From outside of a section made from a template only the inputs and buffers exposed by the template are reached; from inside only its outputs and terminate lead outside; a scope is not entered or left by names at all.", "quantifier": "every diagram, every nesting of sections and scopes", "why_tests_cant": "every combination of equal names inside and outside", "anchors": ["src/diagram/section_schema.rs", "src/diagram/workflow_builder.rs: redirect_to_child_input, redirect_exposed_output_to_sibling, into_operation_ref", "src/diagram/scope_schema.rs"]}
{"id": "C64", "title": "Built-in targets work inside of sections and scopes", "statement": "The built-in targets terminate, dispose and cancel, the streams, and the implicit target for errors can be used by the operations inside of sections and scopes as they can outside.", "quantifier": "every diagram and nesting", "why_tests_cant": "every operation at every depth", "anchors": ["src/diagram.rs: BuiltinTarget, on_implicit_error", "src/diagram/workflow_builder.rs: initialize_builtin_operations", "src/diagram/transform_schema.rs", "src/diagram/stream_out_schema.rs"]}
{"id": "C65", "title": "Connections stay inside of one scope", "statement": "In a workflow built from a diagram every connection is between two elements of the same scope.", "quantifier": "every diagram with scopes", "why_tests_cant": "depends on where conversions are inserted", "anchors": ["src/diagram/scope_schema.rs", "src/diagram/serialization.rs", "src/diagram/workflow_builder.rs: Target"]}
{"id": "C66", "title": "Buffers can be used without knowing the type of their messages", "statement": "Each call on a buffer through an access that does not know the message type does what the typed call does, messages of another type are refused with the message handed back and nothing changed, a key opens only the session of the buffer it was made for, converting keys keeps that, and an access that changed something wakes each listener except the accessor once, however the access was obtained.", "quantifier": "every world, key and sequence of calls", "why_tests_cant": "all sequences of calls on all contents, types and listeners", "anchors": ["src/buffer/any_buffer.rs: AnyBufferMut, AnyBufferKey, AnyBufferWorldAccess"]}
{"id": "C67", "title": "Buffers can be used through JSON", "statement": "Each call on a buffer through a JSON access does what the typed call does with the deserialised message and returns the serialised one; a call that returns an error changes nothing; an access that changed something wakes each listener; iterating over a view yields each message in order.", "quantifier": "every world, key, sequence of calls and serialisation (which may fail)", "why_tests_cant": "all sequences of calls, with serialisation failing at any of them", "anchors": ["src/buffer/json_buffer.rs: JsonBufferMut, JsonMut, JsonBufferView, IterJsonBufferView, JsonBufferWorldAccess"]}
{"id": "C68", "title": "A map of buffers is accepted exactly if it fits the layout", "statement": "A map of buffers is accepted for a layout exactly if every buffer the layout needs is in the map and can be used the way the layout needs it; the layout then holds the buffers of the map with these identifiers; otherwise the error names each buffer that is missing or does not fit. Buffers for which the layout has no use are refused.", "quantifier": "every map, layout and registration of message types", "why_tests_cant": "the combinations of identifiers, message types, join behaviours and registrations are unbounded", "anchors": ["src/buffer/buffer_map.rs: IncompatibleLayout, BufferMapLayout", "src/buffer/any_buffer.rs: AsAnyBuffer, downcast_buffer", "src/buffer/json_buffer.rs: BufferMapLayout", "macros/src/derive_buffer.rs: impl_buffer_map_layout"]}
{"id": "C69", "title": "Joining takes from each buffer what was asked for", "statement": "References to a buffer can be converted to other kinds in any order and still refer to the same buffer with the same message type and join behaviour. A join over any accepted layout removes one message from each buffer that is to be pulled from, leaves the others as they are, and returns these messages.", "quantifier": "every sequence of conversions, layout, map and contents of the buffers", "why_tests_cant": "needs every sequence of conversions and every combination of layouts and join behaviours", "anchors": ["src/buffer.rs: Buffer, CloneFromBuffer, FetchFromBuffer", "src/buffer/any_buffer.rs: AnyBuffer", "src/buffer/json_buffer.rs: JsonBuffer", "src/buffer/buffering.rs: Joining", "src/buffer/buffer_map.rs: Joining"]}
{"id": "C70", "title": "Hints for message types agree with the layout", "statement": "The message types hinted for a set of identifiers are those the layout asks for; buffers created according to the hints are accepted by the layout; an error is reported if no buffers with these identifiers can be accepted.", "quantifier": "every layout and set of identifiers", "why_tests_cant": "all layouts and sets of identifiers, all maps that follow the hints", "anchors": ["src/buffer/buffer_map.rs: BufferMapLayoutHints, MessageTypeHintEvaluation", "macros/src/derive_buffer.rs: get_buffer_message_type_hints"]}
{"id": "C71", "title": "A join into a JSON value has every value in its place", "statement": "Joining buffers into one JSON value gives a value in which the value of each buffer can be found by its identifier, in whatever order the buffers are visited, and nothing else; different sets of buffers give different values.", "quantifier": "every set of identifiers and values", "why_tests_cant": "every set of identifiers (names, indices and both) in every order of iteration", "anchors": ["src/buffer/json_buffer.rs: impl Joining for HashMap<BufferIdentifier, JsonBuffer>"]}
{"id": "C72", "title": "Requests to services are taken once and in order", "statement": "Every request handed to a service is taken by it exactly once or reported as disposed to the node that made it, requests of one node are taken in the order they were made, and requests that a service causes while it runs are taken in that order as well.", "quantifier": "every sequence of requests, nested requests, services that disappear and return", "why_tests_cant": "all interleavings of nodes, nested requests and despawned services", "anchors": ["src/service/internal.rs: dispatch_service", "src/operation/operate_service.rs", "src/service/blocking.rs"]}
{"id": "C73", "title": "A service that goes away disposes what waited for it", "statement": "When a service is despawned every request waiting for it is reported as disposed to its session, and no other.", "quantifier": "every world of nodes, sessions and waiting requests", "why_tests_cant": "all sets of waiting requests at nodes and inside of the service", "anchors": ["src/operation/operate_service.rs: OperateService, dispose_for_despawned_service", "src/service/service_builder.rs"]}
{"id": "C74", "title": "Requests to callbacks are served once, in order, and end", "statement": "Every request to a callback, also those made while the callback runs, is served exactly once and in the order of arrival, the callback is available again afterwards, and handling the queue ends.", "quantifier": "every callback, sequence of requests and nested requests", "why_tests_cant": "all patterns of nested requests to the callback itself", "anchors": ["src/operation/operate_callback.rs: OperateCallback::execute", "src/callback.rs"]}
{"id": "C75", "title": "Injected requests keep to their session and leave nothing behind", "statement": "A request that is injected together with its service is handed over in the order of arrival, each response comes out once and in the session of its request, the session goes on exactly while one of its injected requests is waiting or in progress, a cleanup of the session is confirmed once and only after all of its tasks have stopped, it does not affect other sessions, and neither errors nor entities are left behind.", "quantifier": "every sequence of requests, responses, disposals and cleanups of any number of sessions", "why_tests_cant": "all orders in which services respond, refuse and stop while sessions are being cleaned up", "anchors": ["src/operation/injection.rs: Injection, InjectionFinish, InjectionStorage"]}
{"id": "C76", "title": "Keys to buffers keep a workflow going exactly while they are held", "statement": "After a buffer access or a listener has handed out keys to its buffers in a session, the nodes behind the buffers count as reachable while somebody holds one of the keys or a copy of it, and no longer: once the last copy is dropped the scope is told to check again and finds that the keys are not in use. A key goes out only for a buffer which was made active for the session, and the cleanup of a session ends the tracking of its keys and of no others.", "quantifier": "every sequence of accesses, copies, drops on any thread, notices, checks and cleanups, for any number of sessions and buffers", "why_tests_cant": "copies of keys can live in any service, and the drops race with the checks of the scope", "anchors": ["src/buffer/buffer_access_lifecycle.rs: BufferAccessLifecycle", "src/buffer/buffer_key_builder.rs: BufferKeyBuilder", "src/operation/operate_buffer_access.rs: OperateBufferAccess, get_access_keys, buffer_key_usage", "src/operation/listen.rs: Listen", "src/operation/cleanup.rs: OperationCleanup"]}
{"id": "C77", "title": "A workflow service works off its requests one at a time, in order, each with one outcome", "statement": "A workflow used as a service has at most one request in progress (or one per label), begins the oldest waiting request first and with the value that was sent, and gives each request exactly one outcome: a response to the node and in the session that asked, a cancellation, a disposal or an early end. A run ends as the first of a value at its terminal, a cancellation, a cleanup of its session or a supplanting request says. When a run ends the next request begins.", "quantifier": "every sequence of requests, values, cancellations, cleanups and ends of sessions, any number of nodes, sessions and labels", "why_tests_cant": "all interleavings of requests of many sessions with values, cancellations and cleanups in each state of a run", "anchors": ["src/service/workflow.rs: serve_workflow_impl, begin_workflow, serve_next_workflow_request", "src/service/delivery.rs: Delivery", "src/operation/scope.rs: cancel_one, dyn_cleanup, Terminate, finalize_scoped_session"]}
{"id": "C78", "title": "A preempting request to a workflow ends the requests that give way, and who asked is told", "statement": "A request with preemption disposes of exactly the waiting requests with its label that are not ensured and cancels the one in progress if it gives way, on behalf of the node and session that sent it; requests with other labels and ensured ones are not affected. When a workflow that serves a request is cancelled, the session of the request is told with the cause.", "quantifier": "every state of the service, every set of waiting and running requests, labels and sessions", "why_tests_cant": "depends on all combinations of labels, ensured flags, sessions and states of the runs", "anchors": ["src/service/workflow.rs: serve_workflow_impl", "src/service/delivery.rs: insert_new_order, DeliveryInstructions", "src/operation/scope.rs: cancel_one, finalize_scoped_session", "src/cancel.rs: emit_cancel"]}
{"id": "C79", "title": "A workflow written as a chain does what the chain says", "statement": "For a workflow written with the functions of Chain (then, map, trigger, noop, spread, dispose_on_*, cancel_on_*, fork_result, fork_option, branch_for_err, branch_for_none, branch_clone, fork_clone, fork_unzip, connect_on_err, connect_on_none, cancellation_filter, disposal_filter, connect, unused, then_cancel) and nodes that chains are connected to, loops included: every response is one of the results the chains give for the request; if they give one result at most, the session ends with exactly this result, or is cancelled as unreachable if there is none, whatever other sessions run. If the types fit and there are no loops, this needs no further assumption.", "quantifier": "every program of chains and nodes, every function in it, every value, every number of sessions and interleaving", "why_tests_cant": "the set of programs is infinite, and each of them with all values and schedules", "anchors": ["src/chain.rs", "src/chain/fork_clone_builder.rs", "src/chain/unzip.rs", "src/builder.rs: create_node, connect", "src/builder/connect.rs: connect"]}
{"id": "C80", "title": "A workflow whose requests have finitely many results comes to rest", "statement": "If each request that was made comes to finitely many results by the nodes and connections, then the flush loop ends by itself, with nothing left to do, and everyone who asked has been answered exactly once, loops, disposals and cancellations included.", "quantifier": "every workflow, every set of requests, every history before the flush", "why_tests_cant": "termination for all workflows and inputs; tests only see the runs that end in time", "anchors": ["src/flush.rs: flush_execution_impl, garbage_cleanup", "src/operation.rs: execute_operation", "src/operation/scope.rs: begin_scope, Terminate, validate_scope_reachability"]}
{"id": "C81", "title": "What can be done with a message type is what was registered for it, in any order", "statement": "What a registry offers for a type of message (serializing, deserializing, cloning, unzipping, forking results, splitting, joining, buffer access, listening, turning into a string, buffers and triggers) is exactly what its registrations asked for: no later registration takes anything away, opting out for one node does not disable what another one enabled, and order and repetition of the registrations do not matter. What was not registered gives an error that names the type.", "quantifier": "every sequence of registrations of messages and nodes with any options, every type", "why_tests_cant": "the order of registrations is spread over an application and its plugins; tests register a few nodes in one order", "anchors": ["src/diagram/registration.rs: CommonOperations, MessageRegistrationBuilder, NodeRegistrationBuilder, MessageRegistry", "src/diagram/serialization.rs: register_serialize, register_deserialize", "src/diagram/fork_clone_schema.rs: register_clone", "src/diagram/fork_result_schema.rs: on_register", "src/diagram/unzip_schema.rs: on_register", "src/diagram/split_schema.rs: on_register"]}
{"id": "C82", "title": "A registered builder can be used, with all messages that it deals with", "statement": "A node or section of a diagram is built by the builder that was registered last under its id, with an error for unknown ids, for configurations that cannot be read and for builders that refuse. All messages that come into or out of a registered node, or out of dividing its messages, can be buffered, and the buffers are of exactly that type; they can be joined into vectors, and be used as JSON or joined by cloning if the conversions or cloning were enabled.", "quantifier": "every sequence of registrations, every id, configuration and builder", "why_tests_cant": "combinations of registrations and of the parts of types; a wrong type parameter compiles and only fails for some diagrams", "anchors": ["src/diagram/registration.rs: register_node_builder_fallible, into_section_registration, get_node_registration, create_buffer, MessageRegistrationBuilder::new", "src/diagram/serialization.rs: register_json", "src/diagram/fork_result_schema.rs: on_register"]}
{"id": "C83", "title": "The published description of a registry tells what it can do", "statement": "The JSON description of a registry lists for each type of message exactly the operations that diagrams can use with it, and it conforms to the published JSON schema.", "quantifier": "every registry, every type of message", "why_tests_cant": "agreement of two separately written formats over all registries", "anchors": ["src/diagram/registration.rs: Serialize for MessageOperation, MessageOperationSchema", "registry.schema.json: MessageOperation"]}
{"id": "C84", "title": "The workflow of a diagram does what the diagram says", "statement": "If a diagram is accepted, then running its workflow does what can be read off the diagram: a request ends with exactly one response or cancellation; every response is something that the operations, applied along the targets written in the diagram, send to terminate, serialized or deserialized where the types require it; errors of conversions go to the implicit error target. What a cancellation gets to tell is the message that was sent to cancel, as its text if it has one, else serialized if that is possible. A run cancels itself only if something readable (or in no need of being read) is sent to cancel, if nothing comes to terminate, or if an operation is broken by a message that it cannot take apart or by a second response. If something is sent to terminate, nothing to cancel and nothing breaks, the request is answered.", "quantifier": "every diagram, registry, request, interleaving of sessions and cancellations, and whatever registered functions compute", "why_tests_cant": "relates two languages (JSON diagrams and the executed graph) for all programs; tests run a few diagrams, one session at a time", "anchors": ["src/diagram/workflow_builder.rs: create_workflow, connect_into_target", "src/diagram/serialization.rs: ImplicitSerialization, ImplicitDeserialization, ImplicitStringify", "src/diagram/node_schema.rs", "src/diagram/fork_clone_schema.rs", "src/diagram/unzip_schema.rs", "src/diagram/fork_result_schema.rs", "src/diagram/transform_schema.rs", "src/operation/scope.rs"]}
{"id": "C85", "title": "The trace tells what happened, and changes nothing", "statement": "While tracing of an operation is on, there is exactly one event for each message that it starts with, in the order in which messages are taken, across operations too; off, there is none. The event names the operation and contains the serialized message if and only if messages are asked for and can be serialized. Its session stack begins with a root session, each session is the parent of the next, and it ends with the session of the message. Tracing does not change what the workflow does; a message that cannot be serialized is simply left out of the event.", "quantifier": "every world, every sequence of deliveries, executions, cleanups, changes of the settings, spawns of sessions, series and despawns, every serializer", "why_tests_cant": "completeness and non-interference are about all runs; the tests follow one diagram with serializable numbers", "anchors": ["src/trace.rs", "src/input.rs: try_take_input", "src/diagram.rs: TraceToggle", "src/diagram/workflow_builder.rs: set_input_for_target"]}
{"id": "C86", "title": "The single threaded executor cancels every task, without starving any and without hanging a flush", "statement": "With the single_threaded_async feature: tasks which are cancelled begin to be cancelled in the order in which that was asked for, each once. The work of a cancellation is polled until it is done, never after, and reports its end once. If it wakes itself or is woken, it is polled again. single_threaded_poll_limit limits how many futures a flush polls, whatever they do and whatever other threads do meanwhile, so that the flush comes to its end; no matter the limit, every cancellation goes on within a bounded number of flushes. Without a limit a flush ends unless futures wake themselves for ever.", "quantifier": "every number of cancelled tasks, every behaviour of their futures, every interleaving of flushes, cancellations and wakings, every limit", "why_tests_cant": "order, fairness and termination are about unbounded runs and interleavings; the tests of the feature cancel few tasks and set no limit", "anchors": ["src/async_execution/single_threaded_execution.rs", "src/flush.rs: FlushParameters, single_threaded_poll_limit"]}
