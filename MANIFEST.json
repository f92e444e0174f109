{
 "claims": [
  {
   "property": "C01",
   "status": "partial",
   "theorems": [
    "C01_retention_limit",
    "C01_keep_first_zero_refuted"
   ],
   "note": "Proved for all policies and histories except push_as_oldest on KeepFirst(0), for which unboundedness is proved (C01_keep_first_zero_refuted)."
  },
  {
   "property": "C02",
   "status": "proved",
   "theorems": [
    "C02_buffer_refines_queue",
    "C02_key_access_effect"
   ],
   "note": "Partial-range drain is treated in C05; push_as_oldest on KeepFirst(0) excluded (see C01)."
  },
  {
   "property": "C03",
   "status": "proved",
   "theorems": [
    "C03_buffer_conservation"
   ],
   "note": ""
  },
  {
   "property": "C04",
   "status": "proved",
   "theorems": [
    "C04_buffer_sessions_isolated"
   ],
   "note": ""
  },
  {
   "property": "C05",
   "status": "partial",
   "theorems": [
    "C05_drain_positions_partial",
    "C05_drain_agrees_with_get_refuted",
    "C05_get_positions"
   ],
   "note": "get/get_mut/iter agree; drain counts positions from the newest, which refutes the full statement; its exact behaviour is proved."
  },
  {
   "property": "C06",
   "status": "proved",
   "theorems": [
    "C06_inputs_fifo_per_session",
    "C06_inputs_fifo",
    "C06_one_execution_per_input",
    "C06_no_input_stranded",
    "C06_inactive_session_refused"
   ],
   "note": ""
  },
  {
   "property": "C07",
   "status": "partial",
   "theorems": [
    "C07_cleanup_removes_session_inputs",
    "C07_cleanup_keeps_other_order",
    "C07_cleanup_keeps_other_contents",
    "C07_cleanup_stores_pending_partial",
    "C07_cleanup_arrival_order_refuted",
    "C07_cleanup_keep_last_refuted"
   ],
   "note": "Removal of exactly the session's inputs is proved; for buffer nodes the pending messages are stored but in reverse arrival order (refuted as stated, exact behaviour proved)."
  },
  {
   "property": "C08",
   "status": "proved",
   "theorems": [
    "C08_closed_gate_is_silent",
    "C08_push_is_stored",
    "C08_open_gate_wakes",
    "C08_gate_action",
    "C08_key_open_wakes",
    "C08_gates_of_sessions_independent"
   ],
   "note": ""
  },
  {
   "property": "C09",
   "status": "partial",
   "theorems": [
    "C09_key_close_refuted",
    "C09_key_close_partial"
   ],
   "note": "False as stated: close_gate through a key is ignored until a gate node has acted in that session (C09_key_close_refuted). Proved once the session has a gate entry."
  },
  {
   "property": "C10",
   "status": "partial",
   "theorems": [
    "C10_join_atomic_partial",
    "C10_duplicate_buffer_refuted"
   ],
   "note": "Proved for distinct buffers; joining the same buffer twice loses a value (C10_duplicate_buffer_refuted)."
  },
  {
   "property": "C11",
   "status": "proved",
   "theorems": [
    "C11_join_pairs_by_position",
    "C11_listeners_are_distinct"
   ],
   "note": ""
  },
  {
   "property": "C12",
   "status": "proved",
   "theorems": [
    "C12_collect_batches",
    "C12_collect_stop",
    "C12_collect_stop_by_disposal",
    "C12_collect_cleanup"
   ],
   "note": "An undersized remainder is reported as a disposal and stays held (never emitted) until the session is cleaned. A collect with min 0 also emits empty batches when told of further disposals (see DESIGN.md findings)."
  },
  {
   "property": "C13",
   "status": "partial",
   "theorems": [
    "C13_fork_clone",
    "C13_fork_clone_no_branch_refuted",
    "C13_unzip",
    "C13_branch",
    "C13_spread"
   ],
   "note": "Proved for every value and every number of targets above zero; fork_clone with no target panics (C13_fork_clone_no_branch_refuted)."
  },
  {
   "property": "C14",
   "status": "proved",
   "theorems": [
    "C14_split_build",
    "C14_split_output_for",
    "C14_split_next",
    "C14_split",
    "C14_split_branch",
    "C14_split_once"
   ],
   "note": ""
  },
  {
   "property": "C15",
   "status": "proved",
   "theorems": [
    "C15_reachability_sound",
    "C15_collect_upstream_sound"
   ],
   "note": ""
  },
  {
   "property": "C16",
   "status": "proved",
   "theorems": [
    "C16_reachability_terminates",
    "C16_reachability_exact",
    "C16_collect_upstream_exact"
   ],
   "note": "Exactness and termination on every finite graph, including the check a collect makes of its upstream."
  },
  {
   "property": "C17",
   "status": "partial",
   "theorems": [
    "C17_join_cycle_refuted",
    "C17_reachability_exact_partial"
   ],
   "note": "Exact on acyclic graphs; refuted with a join of two buffers that feed each other through listeners: the memo keeps a provisional no."
  },
  {
   "property": "C18",
   "status": "partial",
   "theorems": [
    "C18_continuous_arrival_order",
    "C18_continuous_one_at_a_time_partial",
    "C18_continuous_two_refuted",
    "C18_one_at_a_time_partial",
    "C18_arrival_order",
    "C18_stop_failure_refuted"
   ],
   "note": "Asynchronous and continuous services. Arrival order proved for all histories. One at a time proved for all histories in which no stop met a finished request; false otherwise (C18_stop_failure_refuted, C18_continuous_two_refuted)."
  },
  {
   "property": "C19",
   "status": "partial",
   "theorems": [
    "C19_continuous_preempt",
    "C19_preempt_waiting_serial",
    "C19_preempt_waiting_label",
    "C19_preempt_in_progress_partial",
    "C19_no_preemption",
    "C19_reported_once"
   ],
   "note": "Waiting requests: proved in full for serial services (asynchronous and continuous) and labels of asynchronous ones. Request in progress: while no stop has failed. Reported once: proved for asynchronous services."
  },
  {
   "property": "C20",
   "status": "partial",
   "theorems": [
    "C20_continuous_never_panics",
    "C20_continuous_idle_means_empty_partial",
    "C20_continuous_idle_label_partial",
    "C20_continuous_next_starts",
    "C20_never_panics",
    "C20_idle_means_empty",
    "C20_idle_means_empty_label",
    "C20_next_starts",
    "C20_next_starts_label"
   ],
   "note": "Asynchronous services: proved for all histories ('in progress' includes a completion whose unblocking is still in the roster). Continuous services: the assertion never fires; idle means empty while no request in progress was swept away by a session cleanup, false otherwise (C22_continuous_wedged_refuted)."
  },
  {
   "property": "C21",
   "status": "partial",
   "theorems": [
    "C21_continuous_one_per_label_partial",
    "C21_label_like_serial_partial",
    "C21_unlabelled_start_at_once",
    "C21_one_per_label_partial"
   ],
   "note": "Queues of one label proved to answer like a dedicated serial service; unlabelled requests start at once; one per label while no stop has failed. One per label also for continuous services."
  },
  {
   "property": "C22",
   "status": "partial",
   "theorems": [
    "C22_continuous_wedged_refuted",
    "C22_async_goes_on_partial"
   ],
   "note": "Asynchronous services: proved. Continuous services: false, proved for every such history (C22_continuous_wedged_refuted). Workflow services: see C77."
  },
  {
   "property": "C23",
   "status": "partial",
   "theorems": [
    "C23_continuous_other_node_refuted",
    "C23_other_node_discarded_refuted",
    "C23_other_sessions_kept_partial",
    "C23_tasks_of_others_kept"
   ],
   "note": "False as stated (C23_other_node_discarded_refuted): the queue is filtered by session only. Other sessions' requests and other nodes' tasks are proved untouched. Also false for continuous services (C23_continuous_other_node_refuted)."
  },
  {
   "property": "C24",
   "status": "partial",
   "theorems": [
    "C24_at_most_once_partial",
    "C24_first_decides_partial",
    "C24_exactly_once_partial",
    "C24_uninterruptible_refuted",
    "C24_late_value_refuted"
   ],
   "note": "At most one outcome, and it is the first deciding event: proved unless the parent cleans up an uninterruptible scope (refuted there: two outcomes). Exactly one when nothing is left to do: proved when the parent neither cleans up nor is cancelled as a whole. A second value reaching the terminal after the session ended cancels every other session of the scope (C24_late_value_refuted)."
  },
  {
   "property": "C25",
   "status": "partial",
   "theorems": [
    "C25_released_clean_partial",
    "C25_shared_cleanup_refuted",
    "C25_restarted_workflow_refuted"
   ],
   "note": "Proved for every history in which the parent neither cleans up nor is cancelled as a whole; refuted when several runs of one parent session are cancelled together (they share a cleanup id) and when a parent cleanup meets a terminated session with a cleanup workflow."
  },
  {
   "property": "C26",
   "status": "partial",
   "theorems": [
    "C26_reported_once_partial",
    "C26_shared_cleanup_refuted"
   ],
   "note": "Proved for every interleaving in which the id is not used again before it completes; scopes do use one id for several runs, and then a completion is lost (C26_shared_cleanup_refuted)."
  },
  {
   "property": "C27",
   "status": "partial",
   "theorems": [
    "C27_not_interrupted_partial",
    "C27_parent_not_waiting_refuted"
   ],
   "note": "The scope itself is never interrupted (proved for all histories); the parent does not wait for it (refuted)."
  },
  {
   "property": "C28",
   "status": "proved",
   "theorems": [
    "C28_conserved",
    "C28_drained",
    "C28_order",
    "C28_order_collect",
    "C28_purge"
   ],
   "note": "For every behaviour of the operations, channel contents, limits and interleaving with commands from outside a flush: scheduled work is done once, or still held (or was purged). Order: nothing overtakes what is queued within a flush; at the loop limit the rest is appended behind what was deferred meanwhile. The single threaded async executor is not modelled."
  },
  {
   "property": "C29",
   "status": "partial",
   "theorems": [
    "C29_loop",
    "C29_channel_partial",
    "C29_channel_refuted",
    "C29_channel_flush_refuted"
   ],
   "note": "The loop limit is proved for every n (it counts queue executions only; awakenings and unblocked services are not counted by the code). The channel limit is per collection and lets n+1 items through (both refuted; n+1 per collection is the proved bound)."
  },
  {
   "property": "C30",
   "status": "partial",
   "theorems": [
    "C30_nodes_partial",
    "C30_single",
    "C30_unreachable_refuted",
    "C30_cycle_refuted",
    "C30_empty_refuted"
   ],
   "note": "For all graphs: the selection is exactly the specified nodes, each once, and an end upstream of its start is reported. Refuted: an unreachable end is cleaned instead of reported; nodes that lead back to the start are included; a span without ends selects nothing."
  },
  {
   "property": "C31",
   "status": "partial",
   "theorems": [
    "C31_once",
    "C31_delivered_partial",
    "C31_dispose",
    "C31_invalid",
    "C31_stuck_refuted"
   ],
   "note": "For all interleavings of any number of sessions: forwarded at most once, only after every selected node reported clean, not after the session was cleaned; delivered if every node reports. Refuted: with no selected node, with an unconnected output among the nodes, or with the trim among its own nodes the message never comes out."
  },
  {
   "property": "C32",
   "status": "proved",
   "theorems": [
    "C32_stable",
    "C32_truthful",
    "C32_once",
    "C32_delivered"
   ],
   "note": "For one promise, its sender and an interrupter as threads whose steps are the critical sections of the code, and for every interleaving. Disconnections through Arc counts are modelled by [upgrades]. Promises fed by flattening are FlattenModel (C33)."
  },
  {
   "property": "C33",
   "status": "partial",
   "theorems": [
    "C33_sound_partial",
    "C33_unique_partial",
    "C33_complete_partial",
    "C33_taken_refuted"
   ],
   "note": "Proved for every nesting depth, every order of sending, flattening, taking and of the progress of concurrent set calls, provided no promise is flattened or sent after its own value was taken (C33_taken_refuted shows the order matters otherwise). Dropping promises and poisoned mutexes are not in this model."
  },
  {
   "property": "C34",
   "status": "partial",
   "theorems": [
    "C34_waited_partial",
    "C34_sent_before_refuted"
   ],
   "note": "Proved if no result was stored when the wait began; refuted otherwise (C34_sent_before_refuted): wait_mut then returns at once and leaves the promise pending. Termination of a wait needs the operating system to schedule the woken thread and is not stated."
  },
  {
   "property": "C35",
   "status": "partial",
   "theorems": [
    "C35_callback_partial",
    "C35_race_refuted"
   ],
   "note": "Proved if every registration which begins before the drop is complete by then, and callbacks are distinct; refuted if the drop falls between upgrade and lock (C35_race_refuted)."
  },
  {
   "property": "C36",
   "status": "partial",
   "theorems": [
    "C36_one_outcome",
    "C36_unblocked_once_partial",
    "C36_clean_notice_partial",
    "C36_cleanup_hangs_refuted"
   ],
   "note": "Exactly one outcome proved for all histories. Unblocking once: while no stop has failed. Clean notice: when nothing of the node is already being stopped; false otherwise (C36_cleanup_hangs_refuted)."
  },
  {
   "property": "C37",
   "status": "partial",
   "theorems": [
    "C37_change_wakes_listeners",
    "C37_change_behind_closed_gate",
    "C37_read_wakes_nobody_partial",
    "C37_ineffective_access_refuted",
    "C37_world_access_refuted"
   ],
   "note": "Wake-up of every listener but the author proved. Last clause refuted for mutator calls without effect; whole claim refuted for World::buffer_mut, whose notification is dropped."
  },
  {
   "property": "C38",
   "status": "partial",
   "theorems": [
    "C38_routes",
    "C38_leaving",
    "C38_leaving_refuted"
   ],
   "note": "C38_routes proves the claim for items sent by a node (blocking, continuous, async) and C38_leaving for streams that leave a workflow or scope. C38_leaving_refuted shows where it is false: an item that cannot be delivered while leaving a workflow cancels all sessions of that workflow. Order between different streams of one pack is not claimed."
  },
  {
   "property": "C39",
   "status": "partial",
   "theorems": [
    "C39_refuted",
    "C39_first_partial",
    "C39_push",
    "C39_taken"
   ],
   "note": "The claim is false for streams (C39_refuted: only the first item is collected, the redirect despawns itself). C39_first_partial says what is collected; C39_push and C39_taken prove completeness for pushed responses and for taken streams."
  },
  {
   "property": "C40",
   "status": "partial",
   "theorems": [
    "C40_no_silent_hang_partial",
    "C40_flush_partial",
    "C40_progress_partial"
   ],
   "note": "Proved for workflows of blocking nodes (map, fork-clone, unzip, branch, spread, filter, cancel, collect), any connections including cycles, any interleaving of sessions, disposals and cancellations. Missing: joins and buffers (where C43_refuted shows the claim false), nested workflows, asynchronous nodes."
  },
  {
   "property": "C41",
   "status": "partial",
   "theorems": [
    "C41_response_refuted",
    "C41_late_refuted",
    "C41_cancel_refuted",
    "C41_outcome_partial",
    "C41_same_outcome_partial",
    "C41_not_broken_partial"
   ],
   "note": "Refuted in general by three small workflows run by the flush loop: the response value, late responses and stale cancel nodes. Proved for workflows without collects in which every request has at most one result and none comes to a cancelling node: the outcome is given by the request alone. Missing: buffers, joins, nested workflows, asynchronous nodes."
  },
  {
   "property": "C42",
   "status": "partial",
   "theorems": [
    "C42_retires_partial",
    "C42_view",
    "C42_stale_index_refuted",
    "C42_out_of_bounds_refuted"
   ],
   "note": "Proved for every queue and all answers when nothing is discarded between the cycle and the delivery of its answers; false otherwise (C42_stale_index_refuted, C42_out_of_bounds_refuted)."
  },
  {
   "property": "C43",
   "status": "partial",
   "theorems": [
    "C43_join_idle_partial",
    "C43_join_after_gate_refuted",
    "C43_join_after_key_refuted"
   ],
   "note": "Proved for values delivered through input slots with open gates; refuted for values stored behind a closed gate and for several values pushed in one use of a key."
  },
  {
   "property": "C44",
   "status": "partial",
   "theorems": [
    "C44_downstream_exact_partial",
    "C44_named_stream_refuted"
   ],
   "note": "Exact for every connection but named streams, which the search does not follow (C44_named_stream_refuted)."
  },
  {
   "property": "C45",
   "status": "partial",
   "theorems": [
    "C45_told_when_clean_partial",
    "C45_workflow_running_refuted",
    "C45_second_request_refuted"
   ],
   "note": "Proved, as far as the nodes of the scope are concerned, for interruptible scopes and one request per session; refuted for running cleanup workflows, for a second request and for uninterruptible scopes (C27). Eventual reporting is refuted in C26_shared_cleanup_refuted."
  },
  {
   "property": "C46",
   "status": "partial",
   "theorems": [
    "C46_wakes_partial",
    "C46_lost_wakeup_refuted"
   ],
   "note": "Proved if no result was stored before the poll ended; refuted if it is stored between the two locks of poll (C46_lost_wakeup_refuted)."
  },
  {
   "property": "C47",
   "status": "partial",
   "theorems": [
    "C47_interrupted_partial",
    "C47_triggered",
    "C47_lost_interrupt_refuted"
   ],
   "note": "Proved for a waiter which sleeps; refuted for a waiter between looking at the flag and sleeping (C47_lost_interrupt_refuted)."
  },
  {
   "property": "C48",
   "status": "partial",
   "theorems": [
    "C48_never_run",
    "C48_dropped_partial",
    "C48_dropped_refuted",
    "C48_locked"
   ],
   "note": "The session directly after the last detach is run although its target was dropped (C48_dropped_refuted, for every such series); later ones never run, locked ones always. One series per world; providers are abstract; streams not modelled here."
  },
  {
   "property": "C49",
   "status": "partial",
   "theorems": [
    "C49_drop_refuted",
    "C49_drop_all_refuted"
   ],
   "note": "False in the code: the loop over the dropped targets (flush.rs 279) iterates a list which was drained before, so dropping a promise changes nothing (proved for all series and all moments as C49_drop_refuted)."
  },
  {
   "property": "C50",
   "status": "proved",
   "theorems": [
    "C50_order",
    "C50_take",
    "C50_once",
    "C50_store"
   ],
   "note": "For every series, response and interleaving. One series per world; streams not modelled."
  },
  {
   "property": "C51",
   "status": "partial",
   "theorems": [
    "C51_gone_partial",
    "C51_push_refuted",
    "C51_detached_refuted"
   ],
   "note": "Proved except for push (the despawn in push.rs 98 has the wrong condition) and for the part before the last detach of a series whose end is not used; for these the entities provably stay."
  },
  {
   "property": "C52",
   "status": "partial",
   "theorems": [
    "C52_held_refuted"
   ],
   "note": "Refuted: a trim that holds a message reports itself unreachable."
  },
  {
   "property": "C53",
   "status": "partial",
   "theorems": [
    "C53_workflow_partial",
    "C53_scope_refuted"
   ],
   "note": "C53_workflow_partial proves the claim for unnamed and dynamically named workflow streams. C53_scope_refuted: false for all scope streams whose type is not its own input type and for workflow streams with a fixed name, where the wrong input type is asked for."
  },
  {
   "property": "C54",
   "status": "partial",
   "theorems": [
    "C54_discovery_partial",
    "C54_dynamic_refuted"
   ],
   "note": "C54_discovery_partial proves the claim for filters that require no dynamically named stream. C54_dynamic_refuted: false for those. Extra query filters are not modelled."
  },
  {
   "property": "C55",
   "status": "partial",
   "theorems": [
    "C55_refuted"
   ],
   "note": "The claim is false (C55_refuted): the check is made in the opposite direction."
  },
  {
   "property": "C56",
   "status": "partial",
   "theorems": [
    "C56_broken_was_reached_partial",
    "C56_missing_message_partial",
    "C56_response_partial",
    "C56_cancelled_partial",
    "C56_broken_partial"
   ],
   "note": "Proved for workflows of blocking nodes (map, fork-clone, unzip, branch, spread, filter, cancel, collect), any connections and any interleaving. The reason of an unreachable terminal is only explained for workflows without collects, and only there a cancelling node which breaks is traced back to a message on its way to it (C56_broken_was_reached_partial), whose session had ended before (C56_missing_message_partial). Missing: joins and buffers, nested workflows, asynchronous nodes."
  },
  {
   "property": "C57",
   "status": "proved",
   "theorems": [
    "C57_agree",
    "C57_connect",
    "C57_final",
    "C57_same_streams_refuted"
   ],
   "note": "All sequences of constructions of src/builder.rs, src/node.rs, src/chain.rs: nodes with any number of outputs and streams, chains, further branches, listeners of buffers, scopes and connections. C57_same_streams_refuted shows that the condition on streams is needed. Not modelled: that an output and a slot are of the same scope (the code panics otherwise), and removing nodes."
  },
  {
   "property": "C58",
   "status": "partial",
   "theorems": [
    "C58_operations_are_built_once",
    "C58_outputs_are_connected_once",
    "C58_flat_outputs_have_one_target",
    "C58_operations_are_built",
    "C58_outputs_arrive_partial",
    "C58_request_arrives_partial",
    "C58_scopes_partial",
    "C58_flat_outputs_arrive",
    "C58_targets_are_unambiguous",
    "C58_outputs_arrive_refuted",
    "C58_transform_error_refuted"
   ],
   "note": "Operations: proved, each is built exactly once (C58_operations_are_built, _once). Outputs: proved in full for diagrams with one level (C58_flat_outputs_arrive, C58_flat_outputs_have_one_target); in general an output is connected to its target or was lost on its way through a section (C58_*_partial), it is connected at most once, and not if it was lost (C58_outputs_are_connected_once). The claim is false in general: C58_outputs_arrive_refuted (an output that waits is overwritten), C58_transform_error_refuted (the error target of a transform inside of a section)."
  },
  {
   "property": "C59",
   "status": "proved",
   "theorems": [
    "C59_parts_have_one_role",
    "C59_targets_have_one_input",
    "C59_connections_have_their_target",
    "C59_connections_are_typed",
    "C59_every_connection_is_asked_for",
    "C59_operations_have_their_types",
    "C59_conversions_are_chosen"
   ],
   "note": "For a successfully built diagram. C59_connections_have_their_target says where each connected output and input come from (C58 has the converse); C59_parts_have_one_role and C59_targets_have_one_input say that these are unambiguous."
  },
  {
   "property": "C60",
   "status": "partial",
   "theorems": [
    "C60_halted_names_the_unfinished",
    "C60_halted_names_only_unfinished_refuted"
   ],
   "note": "Names all unfinished operations: proved. Only unfinished ones: false (C60_halted_names_only_unfinished_refuted). Only the names are modelled, not the texts of the reasons."
  },
  {
   "property": "C61",
   "status": "partial",
   "theorems": [
    "C61_order_keeps_the_operations_partial",
    "C61_order_keeps_the_types_refuted",
    "C61_order_keeps_buildable_refuted"
   ],
   "note": "Proved: if both orders can be built, the operations, their targets and what names stand for are the same. False: the message types (C61_order_keeps_the_types_refuted) and whether it can be built at all (C61_order_keeps_buildable_refuted)."
  },
  {
   "property": "C62",
   "status": "partial",
   "theorems": [
    "C62_template_check_is_exact",
    "C62_circular_never_builds",
    "C62_check_finds_every_circle_refuted"
   ],
   "note": "The check is exact for sections directly in templates; templates that contain themselves through a scope are accepted (C62_check_finds_every_circle_refuted) but never built, in whatever way the circle is made (C62_circular_never_builds)."
  },
  {
   "property": "C63",
   "status": "proved",
   "theorems": [
    "C63_connections_keep_sections_closed",
    "C63_sections_are_closed",
    "C63_scopes_are_closed"
   ],
   "note": "For every connection of a built workflow: where it enters or leaves a section it passes an exposed input, buffer, output or terminate of it. C63_connections_keep_sections_closed adds that the input is the one made for the target."
  },
  {
   "property": "C64",
   "status": "partial",
   "theorems": [
    "C64_terminate_in_a_section_partial",
    "C64_cancel_is_only_outside",
    "C64_transform_needs_an_error_target_inside",
    "C64_stream_out_is_not_in_a_section",
    "C64_builtins_work_everywhere_refuted"
   ],
   "note": "Terminate in a section: proved. False for cancel inside of sections and scopes, transforms without error target, stream_out in a section: diagrams which use them are never built (C64_cancel_is_only_outside, C64_transform_needs_an_error_target_inside, C64_stream_out_is_not_in_a_section, C64_builtins_work_everywhere_refuted)."
  },
  {
   "property": "C65",
   "status": "partial",
   "theorems": [
    "C65_scopes_are_well_defined",
    "C65_connections_stay_in_a_scope_partial",
    "C65_connections_stay_in_a_scope_unconverted",
    "C65_connections_stay_in_a_scope_refuted"
   ],
   "note": "The claim is false (C65_connections_stay_in_a_scope_refuted): errors of conversions inside of a scope and conversions in front of the terminate of a scope. Proved: these, conversions in front of a stream of a scope, and errors of transforms inside of namespaces are the only exceptions (C65_connections_stay_in_a_scope_partial, _unconverted)."
  },
  {
   "property": "C66",
   "status": "partial",
   "theorems": [
    "C66_any_access_effect",
    "C66_other_keys_open_nothing",
    "C66_keys_keep_their_buffer",
    "C66_access_notifies_partial",
    "C66_boxed_push_notifies_refuted",
    "C66_world_access_notifies_refuted"
   ],
   "note": "Effects on contents, refusal of other types and keys: proved for every call and both ways of access. Waking listeners is false for push_any and push_any_as_oldest (C66_boxed_push_notifies_refuted) and for accesses through the world (C66_world_access_notifies_refuted); proved otherwise."
  },
  {
   "property": "C67",
   "status": "partial",
   "theorems": [
    "C67_json_access_effect_partial",
    "C67_push_as_oldest_refuted",
    "C67_refused_values_change_nothing",
    "C67_errors_change_nothing_refuted",
    "C67_json_access_notifies_refuted",
    "C67_iteration_yields_the_messages"
   ],
   "note": "False for push_as_oldest (stores as the newest), for errors of pulls and displaced messages, and for waking listeners (nobody is ever woken, not even by pulse): the _refuted theorems. Proved for all other calls."
  },
  {
   "property": "C68",
   "status": "partial",
   "theorems": [
    "C68_layout_accepts_exactly_what_fits",
    "C68_layout_holds_the_buffers_of_the_map",
    "C68_errors_name_what_does_not_fit",
    "C68_vectors_need_every_index",
    "C68_every_buffer_is_used_partial",
    "C68_every_buffer_is_used_refuted"
   ],
   "note": "Acceptance, contents and errors are proved as stated. Buffers without a use are refused by vectors, and all are used by maps; structs, single buffers and maps from names to JSON ignore them: C68_every_buffer_is_used_refuted."
  },
  {
   "property": "C69",
   "status": "partial",
   "theorems": [
    "C69_conversions_keep_the_buffer_partial",
    "C69_join_takes_what_was_asked_partial",
    "C69_vector_join_clones_refuted",
    "C69_clones_the_same_message_refuted",
    "C69_cloning_is_checked_refuted"
   ],
   "note": "Proved for layouts that keep the join behaviour. False for layouts that need Buffer<T> (vectors and single buffers pull from buffers that are to be cloned), for which message is cloned (oldest, or newest for JSON) and for clones through JsonBuffer of types without registered cloning: the _refuted theorems. Missing: messages that cannot be serialised."
  },
  {
   "property": "C70",
   "status": "partial",
   "theorems": [
    "C70_hints_are_for_the_layout",
    "C70_hinted_buffers_fit_partial",
    "C70_refused_identifiers_never_fit",
    "C70_hints_refuse_what_does_not_fit_refuted"
   ],
   "note": "Proved except for vectors, whose hints do not check that the indices are contiguous; hints are not refused for identifiers that cannot be used: C70_hints_refuse_what_does_not_fit_refuted."
  },
  {
   "property": "C71",
   "status": "partial",
   "theorems": [
    "C71_joined_json_places_every_value",
    "C71_join_into_json",
    "C71_joined_json_is_unambiguous_refuted"
   ],
   "note": "Places are proved for every set of identifiers; uniqueness is false: C71_joined_json_is_unambiguous_refuted."
  },
  {
   "property": "C72",
   "status": "partial",
   "theorems": [
    "C72_requests_of_a_node_in_order",
    "C72_waiting_requests_in_order",
    "C72_every_request_is_taken",
    "C72_every_request_is_taken_despawned_partial",
    "C72_chains_are_in_order_partial",
    "C72_nested_requests_in_order_refuted",
    "C72_nested_unavailable_refuted"
   ],
   "note": "Requests of one node are taken in order and none is lost while services are available at the end. Services despawned at the end need that nothing nests; chains of nested requests need at most one nested request each. False otherwise: nested requests are served in reverse (C72_nested_requests_in_order_refuted), and an unavailable nested request is reported for the wrong service and forgotten (C72_nested_unavailable_refuted)."
  },
  {
   "property": "C73",
   "status": "partial",
   "theorems": [
    "C73_waiting_at_nodes_is_disposed",
    "C73_waiting_in_service_is_disposed_refuted"
   ],
   "note": "Proved for requests waiting at nodes. False for requests in the queue of the service (C73_waiting_in_service_is_disposed_refuted)."
  },
  {
   "property": "C74",
   "status": "partial",
   "theorems": [
    "C74_requests_once_in_order",
    "C74_every_request_is_served",
    "C74_nested_requests_in_order",
    "C74_requests_end_partial",
    "C74_requests_end_refuted"
   ],
   "note": "Order and exactly once are proved for whatever ends; that it ends is proved if requests made by queued requests do not reach the callback again, and is false otherwise (C74_requests_end_refuted: the lock is held while the queue is handled)."
  },
  {
   "property": "C75",
   "status": "partial",
   "theorems": [
    "C75_responses_are_passed_on",
    "C75_responses_come_out_once",
    "C75_requests_start_in_order",
    "C75_reachable_while_in_progress",
    "C75_disposed_request_ends_refuted",
    "C75_cleanup_is_confirmed_once",
    "C75_cleanup_waits_for_tasks_partial",
    "C75_overlapping_cleanups_refuted",
    "C75_cleanup_takes_only_its_session",
    "C75_errors_only_after_cleanup",
    "C75_cleanup_makes_no_errors_refuted",
    "C75_nothing_left_of_answered",
    "C75_nothing_left_after_cleanup_refuted"
   ],
   "note": "For services that respond, dispose or stop at any time. Proved: order, once, the right session, reachability, cleanups with distinct ids are confirmed once and after the tasks in progress, other sessions are untouched, answered requests leave nothing. False: a disposed request keeps its session going for ever, a second cleanup does not wait for the tasks of the first, a response on its way becomes an error, cleaned entities are never despawned (the _refuted theorems). Streams and the transfer of disposals are not modelled."
  },
  {
   "property": "C76",
   "status": "partial",
   "theorems": [
    "C76_held_keys_are_in_use",
    "C76_in_use_only_while_held_partial",
    "C76_several_buffers_refuted",
    "C76_dropped_keys_are_noticed_partial",
    "C76_dropped_elsewhere_refuted",
    "C76_buffers_are_active_before",
    "C76_cleanup_takes_only_its_session"
   ],
   "note": "Proved for all executions: held keys are counted as in use, buffers are made active before keys of them go out, the scope's cleanup ends the tracking of its session only. For one buffer and keys that are not dropped while a flush is running: in use exactly while held, and the last drop is noticed. False: with two or more buffers the keys count as in use for ever after the first one (C76_several_buffers_refuted); a key dropped on another thread can be missed (C76_dropped_elsewhere_refuted)."
  },
  {
   "property": "C77",
   "status": "partial",
   "theorems": [
    "C77_every_event_in_time",
    "C77_one_outcome",
    "C77_one_at_a_time",
    "C77_oldest_first",
    "C77_first_decision",
    "C77_next_is_served_partial",
    "C77_lost_target_refuted",
    "C77_outer_end_refuted"
   ],
   "note": "Proved for all executions: every event fits to what happened before (no panic, right value, right node and session), one outcome, one in progress, oldest first. For executions in which the targets of responses exist and sessions end only after their requests: runs end as first decided, and the next request is served. False otherwise: if the target of a response is gone, or the session around an uninterruptible run ends, nothing behind it is ever begun (the _refuted theorems). Missing: the nodes inside of a run and its cleanup workflows are one step (they are in Scope*), streams, buffers."
  },
  {
   "property": "C78",
   "status": "partial",
   "theorems": [
    "C78_waiting_requests_give_way",
    "C78_request_in_progress_gives_way",
    "C78_same_session_refuted",
    "C78_session_is_told",
    "C78_nested_refuted"
   ],
   "note": "Proved: exactly the waiting requests that give way are disposed of, the one in progress that gives way is cancelled unless already decided, sessions of requests from outside are told. False: all other runs of the session of the supplanted request are cancelled as well (C78_same_session_refuted); the session of an outer workflow is not told (C78_nested_refuted)."
  },
  {
   "property": "C79",
   "status": "partial",
   "theorems": [
    "C79_builds_partial",
    "C79_results_partial",
    "C79_response_partial",
    "C79_nothing_partial",
    "C79_outcome_partial",
    "C79_response_type_partial",
    "C79_total_partial",
    "C79_question_mark_partial",
    "C79_filters_partial"
   ],
   "note": "Proved for all programs of chains and nodes with blocking providers, loops included: they build proper workflows, responses are among the results, outcomes are the result for programs with one response at most and without then_cancel (C41 shows why), and without any assumption on the values for typed programs without loops (C79_total_partial, with C80). Missing: asynchronous providers, streams, split, collect, join, buffers, scopes, gates inside of chains."
  },
  {
   "property": "C80",
   "status": "partial",
   "theorems": [
    "C80_comes_to_rest_partial",
    "C80_everyone_is_answered_partial"
   ],
   "note": "Proved for workflows of blocking nodes without collects, cycles included. Missing: collects, joins, buffers, nested workflows, asynchronous nodes; flush_loop_limit (the flush then goes on in the next frame)."
  },
  {
   "property": "C81",
   "status": "partial",
   "theorems": [
    "C81_nothing_is_lost",
    "C81_nothing_unasked",
    "C81_union_partial",
    "C81_all_but_parts_of_results",
    "C81_order_partial",
    "C81_order_refuted",
    "C81_errors"
   ],
   "note": "Nothing is lost and nothing unasked is proved for all sequences; the union and the independence of order under the condition that no result type is registered both with with_result and with_result_minimal, and without the condition for everything but serializing and cloning the parts of results. Refuted without it (F101)."
  },
  {
   "property": "C82",
   "status": "partial",
   "theorems": [
    "C82_last_builder",
    "C82_last_section",
    "C82_messages_of_nodes",
    "C82_parts_are_known",
    "C82_streams_of_nodes_refuted",
    "C82_messages_join_into_vectors",
    "C82_node_messages_join_into_vectors_refuted",
    "C82_json_buffers",
    "C82_both_conversions_give_json_refuted",
    "C82_join_by_cloning",
    "C82_node_configuration",
    "C82_section_configuration_refuted"
   ],
   "note": "Builders, requests, responses and parts of messages, JSON buffers and joins by cloning are characterised exactly. Refuted: streams of nodes are not registered (F102); messages of nodes cannot be joined into vectors (F103); conversions enabled one by one give no JSON buffers (F104); unreadable configurations of sections panic and their published schema is that of () (F105). The types of sections' inputs and outputs are not modelled."
  },
  {
   "property": "C83",
   "status": "partial",
   "theorems": [
    "C83_description",
    "C83_schema",
    "C83_schema_refuted",
    "C83_description_is_complete_refuted"
   ],
   "note": "The seven operations with a key are listed exactly. Refuted: the entry of unzippable messages breaks the schema (F106); listening, buffer access and strings are not described (F107). Descriptions of nodes, sections and schemas of messages are not modelled."
  },
  {
   "property": "C84",
   "status": "partial",
   "theorems": [
    "C84_says_partial",
    "C84_runs_partial",
    "C84_answers_partial",
    "C84_rests_partial",
    "C84_acyclic_partial",
    "C84_tells_partial",
    "C84_outcome_partial",
    "C84_served_partial",
    "C84_cancels_refuted"
   ],
   "note": "Shown for diagrams of nodes without streams, forks, unzips, fork results and transforms, with a builtin implicit error target, with distinct names, and total functions of which serializing unit always succeeds; buffers, joins, listeners, accesses, splits, sections, scopes and streams are missing. A node only breaks for a message that a request leads to it, a cancelling node for one that is directed to the cancel target by a request whose session is over (C84_runs_partial); nothing breaks if every request gives at most one response and nothing for the cancel target (C84_outcome_partial), and then the ending of each session is exactly what its request gives. C84_rests_partial and C84_acyclic_partial: the flush loop ends by itself if no request leads to an endless chain, in particular without cycles if texts can be serialized. C84_cancels_refuted: a message directed to cancel which cannot be serialized does not cancel; the error goes to the implicit error target (F108). C84_tells_partial: what comes to the cancelling nodes; how the text is put into the cancellation is not modelled."
  },
  {
   "property": "C85",
   "status": "partial",
   "theorems": [
    "C85_one_event_per_message",
    "C85_operation_is_followed",
    "C85_order_across_operations",
    "C85_transparent_partial",
    "C85_transparent_refuted"
   ],
   "note": "Events: proved for everything that goes through try_take_input, for all runs; the loop over parents is shown to end. Transparency: proved if messages are not asked for or serializers do not fail; refuted otherwise (C85_transparent_refuted, F109): the message is lost and the operation broken, although the documentation says that it is left out of the event. The settings of scopes and stream outputs in diagrams, and the texts in the information, are not modelled."
  },
  {
   "property": "C86",
   "status": "partial",
   "theorems": [
    "C86_started_in_order",
    "C86_polled_until_ready",
    "C86_wakes",
    "C86_bounded",
    "C86_one_flush",
    "C86_no_starvation",
    "C86_unlimited_ends",
    "C86_unlimited_hangs",
    "C86_limit_refuted"
   ],
   "note": "Proved for all interleavings of rounds of the two loops with sends and wakings. The limit is not what the documentation says: it is applied to each of two loops and a limit of zero counts as one, so that a flush may poll twice the limit (C86_bounded) and polls two futures with a limit of one or zero (C86_limit_refuted, F110). The futures of async services, callbacks and maps themselves are handed to a task pool of bevy; the executor neither polls nor counts them, and they are not modelled. async_task is trusted: what is scheduled is not scheduled again. What a cancellation sends when it is done is in the model of tasks."
  }
 ]
}