{
 "C01": {
  "note": "Proved for all policies and histories except push_as_oldest on KeepFirst(0), for which unboundedness is proved (C01_keep_first_zero_refuted).",
  "status": "partial"
 },
 "C02": {
  "note": "Partial-range drain is treated in C05; push_as_oldest on KeepFirst(0) excluded (see C01).",
  "status": "proved"
 },
 "C05": {
  "note": "get/get_mut/iter agree; drain counts positions from the newest, which refutes the full statement; its exact behaviour is proved.",
  "status": "partial"
 },
 "C07": {
  "note": "Removal of exactly the session's inputs is proved; for buffer nodes the pending messages are stored but in reverse arrival order (refuted as stated, exact behaviour proved).",
  "status": "partial"
 },
 "C09": {
  "note": "False as stated: close_gate through a key is ignored until a gate node has acted in that session (C09_key_close_refuted). Proved once the session has a gate entry.",
  "status": "partial"
 },
 "C10": {
  "note": "Proved for distinct buffers; joining the same buffer twice loses a value (C10_duplicate_buffer_refuted).",
  "status": "partial"
 },
 "C12": {
  "note": "An undersized remainder is reported as a disposal and stays held (never emitted) until the session is cleaned. A collect with min 0 also emits empty batches when told of further disposals (see DESIGN.md findings).",
  "status": "proved"
 },
 "C13": {
  "note": "Proved for every value and every number of targets above zero; fork_clone with no target panics (C13_fork_clone_no_branch_refuted).",
  "status": "partial"
 },
 "C14": {
  "note": "",
  "status": "proved"
 },
 "C15": {
  "note": "",
  "status": "proved"
 },
 "C16": {
  "note": "Exactness and termination on every finite graph, including the check a collect makes of its upstream.",
  "status": "proved"
 },
 "C17": {
  "note": "Exact on acyclic graphs; refuted with a join of two buffers that feed each other through listeners: the memo keeps a provisional no.",
  "status": "partial"
 },
 "C18": {
  "note": "Asynchronous and continuous services. Arrival order proved for all histories. One at a time proved for all histories in which no stop met a finished request; false otherwise (C18_stop_failure_refuted, C18_continuous_two_refuted).",
  "status": "partial"
 },
 "C19": {
  "note": "Waiting requests: proved in full for serial services (asynchronous and continuous) and labels of asynchronous ones. Request in progress: while no stop has failed. Reported once: proved for asynchronous services.",
  "status": "partial"
 },
 "C20": {
  "note": "Asynchronous services: proved for all histories ('in progress' includes a completion whose unblocking is still in the roster). Continuous services: the assertion never fires; idle means empty while no request in progress was swept away by a session cleanup, false otherwise (C22_continuous_wedged_refuted).",
  "status": "partial"
 },
 "C21": {
  "note": "Queues of one label proved to answer like a dedicated serial service; unlabelled requests start at once; one per label while no stop has failed. One per label also for continuous services.",
  "status": "partial"
 },
 "C22": {
  "note": "Asynchronous services: proved. Continuous services: false, proved for every such history (C22_continuous_wedged_refuted). Workflow services: see C77.",
  "status": "partial"
 },
 "C23": {
  "note": "False as stated (C23_other_node_discarded_refuted): the queue is filtered by session only. Other sessions' requests and other nodes' tasks are proved untouched. Also false for continuous services (C23_continuous_other_node_refuted).",
  "status": "partial"
 },
 "C24": {
  "note": "At most one outcome, and it is the first deciding event: proved unless the parent cleans up an uninterruptible scope (refuted there: two outcomes). Exactly one when nothing is left to do: proved when the parent neither cleans up nor is cancelled as a whole. A second value reaching the terminal after the session ended cancels every other session of the scope (C24_late_value_refuted).",
  "status": "partial"
 },
 "C25": {
  "note": "Proved for every history in which the parent neither cleans up nor is cancelled as a whole; refuted when several runs of one parent session are cancelled together (they share a cleanup id) and when a parent cleanup meets a terminated session with a cleanup workflow.",
  "status": "partial"
 },
 "C26": {
  "note": "Proved for every interleaving in which the id is not used again before it completes; scopes do use one id for several runs, and then a completion is lost (C26_shared_cleanup_refuted).",
  "status": "partial"
 },
 "C27": {
  "note": "The scope itself is never interrupted (proved for all histories); the parent does not wait for it (refuted).",
  "status": "partial"
 },
 "C28": {
  "note": "For every behaviour of the operations, channel contents, limits and interleaving with commands from outside a flush: scheduled work is done once, or still held (or was purged). Order: nothing overtakes what is queued within a flush; at the loop limit the rest is appended behind what was deferred meanwhile. The single threaded async executor is not modelled.",
  "status": "proved"
 },
 "C29": {
  "note": "The loop limit is proved for every n (it counts queue executions only; awakenings and unblocked services are not counted by the code). The channel limit is per collection and lets n+1 items through (both refuted; n+1 per collection is the proved bound).",
  "status": "partial"
 },
 "C32": {
  "note": "For one promise, its sender and an interrupter as threads whose steps are the critical sections of the code, and for every interleaving. Disconnections through Arc counts are modelled by [upgrades]. Promises fed by flattening are FlattenModel (C33).",
  "status": "proved"
 },
 "C33": {
  "note": "Proved for every nesting depth, every order of sending, flattening, taking and of the progress of concurrent set calls, provided no promise is flattened or sent after its own value was taken (C33_taken_refuted shows the order matters otherwise). Dropping promises and poisoned mutexes are not in this model.",
  "status": "partial"
 },
 "C34": {
  "note": "Proved if no result was stored when the wait began; refuted otherwise (C34_sent_before_refuted): wait_mut then returns at once and leaves the promise pending. Termination of a wait needs the operating system to schedule the woken thread and is not stated.",
  "status": "partial"
 },
 "C35": {
  "note": "Proved if every registration which begins before the drop is complete by then, and callbacks are distinct; refuted if the drop falls between upgrade and lock (C35_race_refuted).",
  "status": "partial"
 },
 "C36": {
  "note": "Exactly one outcome proved for all histories. Unblocking once: while no stop has failed. Clean notice: when nothing of the node is already being stopped; false otherwise (C36_cleanup_hangs_refuted).",
  "status": "partial"
 },
 "C37": {
  "note": "Wake-up of every listener but the author proved. Last clause refuted for mutator calls without effect; whole claim refuted for World::buffer_mut, whose notification is dropped.",
  "status": "partial"
 },
 "C42": {
  "note": "Proved for every queue and all answers when nothing is discarded between the cycle and the delivery of its answers; false otherwise (C42_stale_index_refuted, C42_out_of_bounds_refuted).",
  "status": "partial"
 },
 "C43": {
  "note": "Proved for values delivered through input slots with open gates; refuted for values stored behind a closed gate and for several values pushed in one use of a key.",
  "status": "partial"
 },
 "C44": {
  "note": "Exact for every connection but named streams, which the search does not follow (C44_named_stream_refuted).",
  "status": "partial"
 },
 "C45": {
  "note": "Proved, as far as the nodes of the scope are concerned, for interruptible scopes and one request per session; refuted for running cleanup workflows, for a second request and for uninterruptible scopes (C27). Eventual reporting is refuted in C26_shared_cleanup_refuted.",
  "status": "partial"
 },
 "C46": {
  "note": "Proved if no result was stored before the poll ended; refuted if it is stored between the two locks of poll (C46_lost_wakeup_refuted).",
  "status": "partial"
 },
 "C47": {
  "note": "Proved for a waiter which sleeps; refuted for a waiter between looking at the flag and sleeping (C47_lost_interrupt_refuted).",
  "status": "partial"
 },
 "C48": {
  "note": "The session directly after the last detach is run although its target was dropped (C48_dropped_refuted, for every such series); later ones never run, locked ones always. One series per world; providers are abstract; streams not modelled here.",
  "status": "partial"
 },
 "C49": {
  "note": "False in the code: the loop over the dropped targets (flush.rs 279) iterates a list which was drained before, so dropping a promise changes nothing (proved for all series and all moments as C49_drop_refuted).",
  "status": "partial"
 },
 "C50": {
  "note": "For every series, response and interleaving. One series per world; streams not modelled.",
  "status": "proved"
 },
 "C51": {
  "note": "Proved except for push (the despawn in push.rs 98 has the wrong condition) and for the part before the last detach of a series whose end is not used; for these the entities provably stay.",
  "status": "partial"
 },
 "C30": {
  "status": "partial",
  "note": "For all graphs: the selection is exactly the specified nodes, each once, and an end upstream of its start is reported. Refuted: an unreachable end is cleaned instead of reported; nodes that lead back to the start are included; a span without ends selects nothing."
 },
 "C31": {
  "status": "partial",
  "note": "For all interleavings of any number of sessions: forwarded at most once, only after every selected node reported clean, not after the session was cleaned; delivered if every node reports. Refuted: with no selected node, with an unconnected output among the nodes, or with the trim among its own nodes the message never comes out."
 },
 "C52": {
  "status": "partial",
  "note": "Refuted: a trim that holds a message reports itself unreachable."
 },
 "C38": {
  "status": "partial",
  "note": "C38_routes proves the claim for items sent by a node (blocking, continuous, async) and C38_leaving for streams that leave a workflow or scope. C38_leaving_refuted shows where it is false: an item that cannot be delivered while leaving a workflow cancels all sessions of that workflow. Order between different streams of one pack is not claimed."
 },
 "C39": {
  "status": "partial",
  "note": "The claim is false for streams (C39_refuted: only the first item is collected, the redirect despawns itself). C39_first_partial says what is collected; C39_push and C39_taken prove completeness for pushed responses and for taken streams."
 },
 "C53": {
  "status": "partial",
  "note": "C53_workflow_partial proves the claim for unnamed and dynamically named workflow streams. C53_scope_refuted: false for all scope streams whose type is not its own input type and for workflow streams with a fixed name, where the wrong input type is asked for."
 },
 "C54": {
  "status": "partial",
  "note": "C54_discovery_partial proves the claim for filters that require no dynamically named stream. C54_dynamic_refuted: false for those. Extra query filters are not modelled."
 },
 "C55": {
  "status": "partial",
  "note": "The claim is false (C55_refuted): the check is made in the opposite direction."
 },
 "C40": {
  "status": "partial",
  "note": "Proved for workflows of blocking nodes (map, fork-clone, unzip, branch, spread, filter, cancel, collect), any connections including cycles, any interleaving of sessions, disposals and cancellations. Missing: joins and buffers (where C43_refuted shows the claim false), nested workflows, asynchronous nodes."
 },
 "C41": {
  "status": "partial",
  "note": "Refuted in general by three small workflows run by the flush loop: the response value, late responses and stale cancel nodes. Proved for workflows without collects in which every request has at most one result and none comes to a cancelling node: the outcome is given by the request alone. Missing: buffers, joins, nested workflows, asynchronous nodes."
 },
 "C56": {
  "status": "partial",
  "note": "Proved for workflows of blocking nodes (map, fork-clone, unzip, branch, spread, filter, cancel, collect), any connections and any interleaving. The reason of an unreachable terminal is only explained for workflows without collects, and only there a cancelling node which breaks is traced back to a message on its way to it (C56_broken_was_reached_partial), whose session had ended before (C56_missing_message_partial). Missing: joins and buffers, nested workflows, asynchronous nodes."
 },
 "C57": {
  "status": "proved",
  "note": "All sequences of constructions of src/builder.rs, src/node.rs, src/chain.rs: nodes with any number of outputs and streams, chains, further branches, listeners of buffers, scopes and connections. C57_same_streams_refuted shows that the condition on streams is needed. Not modelled: that an output and a slot are of the same scope (the code panics otherwise), and removing nodes."
 },
 "C58": {
  "status": "partial",
  "note": "Operations: proved, each is built exactly once (C58_operations_are_built, _once). Outputs: proved in full for diagrams with one level (C58_flat_outputs_arrive, C58_flat_outputs_have_one_target); in general an output is connected to its target or was lost on its way through a section (C58_*_partial), it is connected at most once, and not if it was lost (C58_outputs_are_connected_once). The claim is false in general: C58_outputs_arrive_refuted (an output that waits is overwritten), C58_transform_error_refuted (the error target of a transform inside of a section)."
 },
 "C59": {
  "status": "proved",
  "note": "For a successfully built diagram. C59_connections_have_their_target says where each connected output and input come from (C58 has the converse); C59_parts_have_one_role and C59_targets_have_one_input say that these are unambiguous."
 },
 "C60": {
  "status": "partial",
  "note": "Names all unfinished operations: proved. Only unfinished ones: false (C60_halted_names_only_unfinished_refuted). Only the names are modelled, not the texts of the reasons."
 },
 "C61": {
  "status": "partial",
  "note": "Proved: if both orders can be built, the operations, their targets and what names stand for are the same. False: the message types (C61_order_keeps_the_types_refuted) and whether it can be built at all (C61_order_keeps_buildable_refuted)."
 },
 "C62": {
  "status": "partial",
  "note": "The check is exact for sections directly in templates; templates that contain themselves through a scope are accepted (C62_check_finds_every_circle_refuted) but never built, in whatever way the circle is made (C62_circular_never_builds)."
 },
 "C63": {
  "status": "proved",
  "note": "For every connection of a built workflow: where it enters or leaves a section it passes an exposed input, buffer, output or terminate of it. C63_connections_keep_sections_closed adds that the input is the one made for the target."
 },
 "C64": {
  "status": "partial",
  "note": "Terminate in a section: proved. False for cancel inside of sections and scopes, transforms without error target, stream_out in a section: diagrams which use them are never built (C64_cancel_is_only_outside, C64_transform_needs_an_error_target_inside, C64_stream_out_is_not_in_a_section, C64_builtins_work_everywhere_refuted)."
 },
 "C65": {
  "status": "partial",
  "note": "The claim is false (C65_connections_stay_in_a_scope_refuted): errors of conversions inside of a scope and conversions in front of the terminate of a scope. Proved: these, conversions in front of a stream of a scope, and errors of transforms inside of namespaces are the only exceptions (C65_connections_stay_in_a_scope_partial, _unconverted)."
 },
 "C66": {
  "status": "partial",
  "note": "Effects on contents, refusal of other types and keys: proved for every call and both ways of access. Waking listeners is false for push_any and push_any_as_oldest (C66_boxed_push_notifies_refuted) and for accesses through the world (C66_world_access_notifies_refuted); proved otherwise."
 },
 "C67": {
  "status": "partial",
  "note": "False for push_as_oldest (stores as the newest), for errors of pulls and displaced messages, and for waking listeners (nobody is ever woken, not even by pulse): the _refuted theorems. Proved for all other calls."
 },
 "C68": {
  "status": "partial",
  "note": "Acceptance, contents and errors are proved as stated. Buffers without a use are refused by vectors, and all are used by maps; structs, single buffers and maps from names to JSON ignore them: C68_every_buffer_is_used_refuted."
 },
 "C69": {
  "status": "partial",
  "note": "Proved for layouts that keep the join behaviour. False for layouts that need Buffer<T> (vectors and single buffers pull from buffers that are to be cloned), for which message is cloned (oldest, or newest for JSON) and for clones through JsonBuffer of types without registered cloning: the _refuted theorems. Missing: messages that cannot be serialised."
 },
 "C70": {
  "status": "partial",
  "note": "Proved except for vectors, whose hints do not check that the indices are contiguous; hints are not refused for identifiers that cannot be used: C70_hints_refuse_what_does_not_fit_refuted."
 },
 "C71": {
  "status": "partial",
  "note": "Places are proved for every set of identifiers; uniqueness is false: C71_joined_json_is_unambiguous_refuted."
 },
 "C72": {
  "status": "partial",
  "note": "Requests of one node are taken in order and none is lost while services are available at the end. Services despawned at the end need that nothing nests; chains of nested requests need at most one nested request each. False otherwise: nested requests are served in reverse (C72_nested_requests_in_order_refuted), and an unavailable nested request is reported for the wrong service and forgotten (C72_nested_unavailable_refuted)."
 },
 "C73": {
  "status": "partial",
  "note": "Proved for requests waiting at nodes. False for requests in the queue of the service (C73_waiting_in_service_is_disposed_refuted)."
 },
 "C74": {
  "status": "partial",
  "note": "Order and exactly once are proved for whatever ends; that it ends is proved if requests made by queued requests do not reach the callback again, and is false otherwise (C74_requests_end_refuted: the lock is held while the queue is handled)."
 },
 "C75": {
  "status": "partial",
  "note": "For services that respond, dispose or stop at any time. Proved: order, once, the right session, reachability, cleanups with distinct ids are confirmed once and after the tasks in progress, other sessions are untouched, answered requests leave nothing. False: a disposed request keeps its session going for ever, a second cleanup does not wait for the tasks of the first, a response on its way becomes an error, cleaned entities are never despawned (the _refuted theorems). Streams and the transfer of disposals are not modelled."
 },
 "C76": {
  "status": "partial",
  "note": "Proved for all executions: held keys are counted as in use, buffers are made active before keys of them go out, the scope's cleanup ends the tracking of its session only. For one buffer and keys that are not dropped while a flush is running: in use exactly while held, and the last drop is noticed. False: with two or more buffers the keys count as in use for ever after the first one (C76_several_buffers_refuted); a key dropped on another thread can be missed (C76_dropped_elsewhere_refuted)."
 },
 "C77": {
  "status": "partial",
  "note": "Proved for all executions: every event fits to what happened before (no panic, right value, right node and session), one outcome, one in progress, oldest first. For executions in which the targets of responses exist and sessions end only after their requests: runs end as first decided, and the next request is served. False otherwise: if the target of a response is gone, or the session around an uninterruptible run ends, nothing behind it is ever begun (the _refuted theorems). Missing: the nodes inside of a run and its cleanup workflows are one step (they are in Scope*), streams, buffers."
 },
 "C78": {
  "status": "partial",
  "note": "Proved: exactly the waiting requests that give way are disposed of, the one in progress that gives way is cancelled unless already decided, sessions of requests from outside are told. False: all other runs of the session of the supplanted request are cancelled as well (C78_same_session_refuted); the session of an outer workflow is not told (C78_nested_refuted)."
 },
 "C79": {
  "status": "partial",
  "note": "Proved for all programs of chains and nodes with blocking providers, loops included: they build proper workflows, responses are among the results, outcomes are the result for programs with one response at most and without then_cancel (C41 shows why), and without any assumption on the values for typed programs without loops (C79_total_partial, with C80). Missing: asynchronous providers, streams, split, collect, join, buffers, scopes, gates inside of chains."
 },
 "C80": {
  "status": "partial",
  "note": "Proved for workflows of blocking nodes without collects, cycles included. Missing: collects, joins, buffers, nested workflows, asynchronous nodes; flush_loop_limit (the flush then goes on in the next frame)."
 },
 "C81": {
  "status": "partial",
  "note": "Nothing is lost and nothing unasked is proved for all sequences; the union and the independence of order under the condition that no result type is registered both with with_result and with_result_minimal, and without the condition for everything but serializing and cloning the parts of results. Refuted without it (F101)."
 },
 "C82": {
  "status": "partial",
  "note": "Builders, requests, responses and parts of messages, JSON buffers and joins by cloning are characterised exactly. Refuted: streams of nodes are not registered (F102); messages of nodes cannot be joined into vectors (F103); conversions enabled one by one give no JSON buffers (F104); unreadable configurations of sections panic and their published schema is that of () (F105). The types of sections' inputs and outputs are not modelled."
 },
 "C83": {
  "status": "partial",
  "note": "The seven operations with a key are listed exactly. Refuted: the entry of unzippable messages breaks the schema (F106); listening, buffer access and strings are not described (F107). Descriptions of nodes, sections and schemas of messages are not modelled."
 },
 "C84": {
  "status": "partial",
  "note": "Shown for diagrams of nodes without streams, forks, unzips, fork results and transforms, with a builtin implicit error target, with distinct names, and total functions of which serializing unit always succeeds; buffers, joins, listeners, accesses, splits, sections, scopes and streams are missing. A node only breaks for a message that a request leads to it, a cancelling node for one that is directed to the cancel target by a request whose session is over (C84_runs_partial); nothing breaks if every request gives at most one response and nothing for the cancel target (C84_outcome_partial), and then the ending of each session is exactly what its request gives. C84_rests_partial and C84_acyclic_partial: the flush loop ends by itself if no request leads to an endless chain, in particular without cycles if texts can be serialized. C84_cancels_refuted: a message directed to cancel which cannot be serialized does not cancel; the error goes to the implicit error target (F108). C84_tells_partial: what comes to the cancelling nodes; how the text is put into the cancellation is not modelled."
 },
 "C85": {
  "status": "partial",
  "note": "Events: proved for everything that goes through try_take_input, for all runs; the loop over parents is shown to end. Transparency: proved if messages are not asked for or serializers do not fail; refuted otherwise (C85_transparent_refuted, F109): the message is lost and the operation broken, although the documentation says that it is left out of the event. The settings of scopes and stream outputs in diagrams, and the texts in the information, are not modelled."
 },
 "C86": {
  "status": "partial",
  "note": "Proved for all interleavings of rounds of the two loops with sends and wakings. The limit is not what the documentation says: it is applied to each of two loops and a limit of zero counts as one, so that a flush may poll twice the limit (C86_bounded) and polls two futures with a limit of one or zero (C86_limit_refuted, F110). The futures of async services, callbacks and maps themselves are handed to a task pool of bevy; the executor neither polls nor counts them, and they are not modelled. async_task is trusted: what is scheduled is not scheduled again. What a cancellation sends when it is done is in the model of tasks."
 }
}