# Formal model of bevy_impulse / crossflow in Rocq

Source: `/repo` (pinned commit, read as text only). Model and proofs: `/verif/rocq/theories`.
Properties: `properties.jsonl`; status per property: `MANIFEST.json`; mutation log: `seeded/LOG.jsonl`.

## Method

* One `*Model.v` file per area. It contains only total, computable Gallina
  functions, each with a comment citing the file and lines it models and naming
  every simplification.
* One `*Spec.v` file per area (when the specification is more than a line): the
  independent, abstract statement of what is expected, not using the model's helpers.
* One `*Proofs.v` file with the lemmas.
* `*Props.v` files hold only the property theorems, each with
  `Print Assumptions` beneath and an `Example` showing its hypotheses are met by a
  concrete non-trivial case.
* A property the faithful model violates is stated in its negation as
  `..._refuted : exists ..., ...` with a concrete witness, and the strongest true
  variant is proved beside it. These are listed under *Findings*.

Common conventions: `Entity` ids are `nat`; a `&mut` parameter becomes a returned
value; `Result`/`Option` stay data; a panic path is an explicit error value;
message payloads are an abstract type (section variable, generalised on closing).
`HashMap` is modelled as a total function or an association list with the lookup
behaviour of the map; where iteration order of a `HashMap` is observable the model
takes the order as an argument so theorems hold for all orders.

## What is modelled

| files in `rocq/theories` | code | properties |
|---|---|---|
| Buffer* | `src/buffer/buffer_storage.rs`, the accessors of `src/buffer.rs` that forward to it | C01-C05 |
| RosterModel | the lists of `OperationRoster` in `src/operation.rs`, `Cancel` of `src/cancel.rs` | used by others |
| Input* | `src/input.rs`: `ManageInput`, `InputStorage`, `cleanup_inputs` | C06, C07 |
| Gate* | `src/operation/operate_buffer.rs`, `operate_gate.rs`, `src/buffer/buffer_gate.rs`, `BufferMut` of `src/buffer.rs` | C08, C09, C37 |
| Join* | `src/operation/join.rs`, `src/buffer/buffering.rs`, `manage_buffer.rs`, `fetch_from_buffer.rs` | C10, C11, C43 |
| Ops* | `src/operation/{fork_clone,fork_unzip,branching,spread,collect,operate_split}.rs`, `src/chain/{unzip,split}.rs`, emission of disposals in `src/disposal.rs` | C12-C14 |
| Reach* | `check_upstream`, `ReachabilityCheck`, `is_reachable` of every operation, `is_downstream_of` in `src/operation.rs` | C15-C17, C44 |
| Delivery* | `src/service/delivery.rs`, `async_srv.rs`, `src/operation/operate_task.rs` | C18-C23, C36 |
| Continuous* | `src/service/continuous.rs` | C18-C23, C42 |
| Scope* | `src/operation/scope.rs`, `cleanup.rs` | C24-C27, C45 |
| Promise*, Flatten* | `src/promise.rs`, `src/promise/private.rs`, as threads that interleave at critical sections | C32-C35, C46, C47 |
| Flush* | `src/flush.rs`, `src/channel.rs` | C28, C29 |
| Series* | `src/request.rs`, `src/series.rs`, `src/series/*` | C48-C51 |
| Trim* | `src/trim.rs`, `src/operation/operate_trim.rs` | C30, C31, C52 |
| Stream* | `src/stream/*`, stream redirects of `scope.rs`, `src/service/discovery.rs` | C38, C39, C53-C55 |
| Exec*, Broken* | whole workflows: Input, Ops, Reach put together with `src/flush.rs`, `src/disposal.rs`, `execute_operation` of `src/operation.rs`, start, end and cancellation of sessions in `src/operation/scope.rs`, `operate_map.rs`, `filter.rs`, `operate_cancel.rs`, `noop.rs` | C40, C41, C56 |
| Connect* | `src/builder/connect.rs`, `src/builder.rs`, `src/node.rs`, `src/chain.rs` as far as they connect operations, `setup` of the operations, `src/stream/stream_target_map.rs` | C57 |
| Diagram* | building workflows from diagrams: `src/diagram/workflow_builder.rs`, `src/diagram/{node,fork_clone,fork_result,unzip,split,join,transform,buffer,section,scope,stream_out}_schema.rs` (`build_diagram_operation`, connectors), implicit conversions of `src/diagram/serialization.rs`, `src/diagram.rs` (names, templates, errors), `src/dyn_node.rs` (`connect_to`) | C58-C65 |
| Erased* | access to buffers without their message type and through JSON: `src/buffer/any_buffer.rs` (`AnyBufferMut`, keys, `World::any_buffer_mut`), `src/buffer/json_buffer.rs` (`JsonBufferMut`, `JsonMut`, views, `World::json_buffer_mut`) | C66, C67 |
| Layout* | references to buffers and their conversions (`src/buffer.rs`, `src/buffer/any_buffer.rs`, `src/buffer/json_buffer.rs`), `BufferMapLayout` of structs, single buffers, vectors and maps, hints (`src/buffer/buffer_map.rs`, `macros/src/derive_buffer.rs`), joining them, joining into JSON | C68 to C71 |
| Request* | requests to services: `src/operation/operate_service.rs`, `src/service/internal.rs` (`dispatch_service`), taking requests in `src/service/blocking.rs`, `async_srv.rs`, `continuous.rs`, disposal for despawned services | C72, C73 |
| Callback* | `src/operation/operate_callback.rs` (`execute`), queue and lock of `src/callback.rs` | C74 |
| Injection* | `src/operation/injection.rs` (all but streams and the transfer of disposals) | C75 |
| Key* | `src/buffer/buffer_access_lifecycle.rs`, `src/buffer/buffer_key_builder.rs`, the keys in `src/operation/operate_buffer_access.rs` (handing out, use, cleanup) and the notices of dropped keys in `src/flush.rs` | C76 |
| Workflow* | workflows as services: `src/service/workflow.rs`, with the queues of `delivery.rs` (Delivery*), the statuses of sessions (Scope*), `cancel_one`, `dyn_cleanup`, `Terminate` and `finalize_scoped_session` of `src/operation/scope.rs`; the nodes inside of a run are the environment | C77, C78 |
| Rest* | the flush loop of Exec* comes to an end: no model of its own | C80 |
| Chain* | `src/chain.rs` (the functions listed in C79), `chain/fork_clone_builder.rs`, `chain/unzip.rs`, `create_node`/`connect` of `src/builder.rs`, `src/builder/connect.rs`: programs of chains are compiled to the workflows of Exec*; the specification is a program on values | C79 |
| Registry* | `src/diagram/registration.rs`, `on_register`/`register_*` of `src/diagram/{serialization,fork_clone_schema,fork_result_schema,unzip_schema,split_schema}.rs`; types are numbers, a generic function is the type it was made for | C81-C83 |
| DiagramRun* | what `src/diagram/*` builds, as a workflow of Exec*: the log of Diagram* read as nodes and connections; operations and conversions of plain diagrams (nodes without streams, forks, unzips, fork results, transforms, implicit conversions, terminate, cancel); what registered functions compute is a parameter (`meaning`), each total | C59, C84 |
| Trace* | `src/trace.rs`, `src/input.rs` 264-328, `src/diagram.rs` 404-431, `src/diagram/workflow_builder.rs` 236-262: events about messages taken, session stacks over the `ChildOf` hierarchy of sessions, toggles and serializers; on top of Input* | C85 |
| Poll* | `src/async_execution/single_threaded_execution.rs`: the two channels and the loops of `poll`, interleaved with sends and wakings; futures are the answers to their polls. `async_task` is trusted; `spawn` (the task pool of bevy) is not modelled | C86 |
<!--MORE-->

How each is proved: a state machine (`step`, and `fold_left step` over an arbitrary list of
actions), an invariant by induction over the list, and the property from the invariant; or a
simulation by a simpler specification (`*Spec.v`); or functional correctness by induction over
the data. No theorem has a bound on sizes, depths or steps. Fuel occurs in `check_upstream`
(shown sufficient, C16), in the flush loop (`flush k`, for all `k`) and in the graph walk of trim
(shown sufficient).

## What is not modelled

* Bevy: the ECS world, commands, schedules and systems. Commands are applied in order; an
  entity is a number that is not used again; change detection and archetypes do not appear.
* User code is a total function of its input; panics in it, and what it does to the world, do
  not appear (except where the environment may act in any way: Flush*, Scope*, Delivery*).
* Rust's types: where messages of different types matter (Stream*) types are values; elsewhere
  payloads are one type.
* Memory: `Arc` counts appear where they decide something (promises, buffer keys), poisoned
  mutexes do not.
* Whole areas: the multi-threaded executor (`AsyncComputeTaskPool` of bevy), `diagram-editor`,
  macros other than `derive_buffer.rs`.
* Diagrams: parsing of JSON, which operations have trace settings (see Trace*), the texts of errors; in Diagram* the
  registry is an arbitrary record of functions (which types can be converted, which nodes and sections
  exist); how registrations fill it is modelled separately in Registry*, without tracing, texts,
  examples, JSON schemas of messages and metadata of sections; buffer settings; what the operations do when
  they run (see the other rows); `MAX_ITERATIONS` is a parameter; grpc and zenoh operations; the
  editor.
* Chains: `split`, `then_collect`, joins, buffers, gates, streams, nested scopes and asynchronous
  providers do not appear in the programs of Chain* (they have rows of their own as operations).
* Running diagrams: buffers, joins, listeners, accesses, splits, sections, scopes, stream outputs and streams of nodes (C84 is about plain diagrams); a conversion or transform and its `fork_result` count as one node; registered functions that never return or are cancelled
<!--NOT-->
* Each `*Model.v` says at each definition what it leaves out.

## Trusted base

* The Rocq 8.16.1 kernel with `vm_compute`, and the standard library. No plugin, no other
  library.
* Axioms: every `Print Assumptions` below a property theorem prints "Closed under the global
  context", that is, no axiom at all, including those of the standard library. (A listing of
  every constant in the loaded library files also shows the module parameters of
  `Coq.ssr.ssrunder`, which `lia`/`ssreflect` load; no theorem depends on them.)
* The tie between the model and the code is by reading: each definition cites the lines it was
  transcribed from. `seeded/LOG.jsonl` records edits of the model like realistic bugs and which
  theorems fail on them.

## Findings

What the code does other than one would expect. Proved about the model, with a concrete witness
or for all cases; names are theorems.

| | finding | theorem |
|---|---|---|
| F1 | `push_as_oldest` into a `KeepFirst(0)` buffer grows without bound (`buffer_storage.rs`) | C01_keep_first_zero_refuted |
| F2 | `drain(range)` counts positions from the newest, other accessors from the oldest | C05_drain_agrees_with_get_refuted |
| F4 | `World::buffer_mut` and `buffer_gate_mut` drop the notification of listeners | C37_world_access_refuted |
| F5 | opening or closing a gate through a key does nothing until a gate node acted in the session | C09_key_close_refuted |
| F6 | `flush.rs` 279 iterates a list that was drained before: dropping a promise stops nothing | C49_drop_refuted |
| F7 | the memo of `check_upstream` keeps a provisional no: a join within a cycle is called unreachable though it can run | C17_join_cycle_refuted |
| F9, F22 | `RedirectScopeStream` and `NamedStreamRedirect` ask for an input of the wrong type | C53_scope_refuted |
| F10, F52, F56 | the span of a trim always includes its end; an empty one, or nodes that lead back | C30_* |
| F11, F54, F55 | a trim without nodes, or with its own node among them, never passes its message on | C31_stuck_refuted |
| F12 | cleaning up the parent of an uninterruptible scope gives two outcomes | C24_*, C27_* |
| F14 | sessions cancelled together share one cleanup id and lose completions | C25_*, C26_shared_cleanup_refuted |
| F15 | `fork_clone` without branches panics | C13_fork_clone_no_branch_refuted |
| F16 | pending messages are stored in a buffer in reverse order when a session ends | C07_* |
| F18 | `Push` of a stream item despawns itself after the first item and not after the last | C39_refuted, C51_* |
| F19, F20, F46, F47 | races of promises: `wait_mut`, `on_promise_drop`, poll, interrupt | C34_*, C35_*, C46_*, C47_* |
| F21, F38 | a serial continuous service is blocked for ever when the running request's session is cleaned up | C22_continuous_wedged_refuted |
| F23 | dynamically named streams never match what a service says it offers | C54_dynamic_refuted |
| F24, F25 | joining one buffer twice loses a value; a join runs once per wake-up | C10_*, C43_* |
| F26 | the channel limit lets n+1 items through and is per collection | C29_* |
| F28 | `Delivery::cleanup` discards queued requests of other nodes in the same session | C23_* |
| F29 | searches downstream ignore named streams | C44_named_stream_refuted |
| F30 | a call that changes nothing counts as a change of the buffer | C37_* |
| F33 | a stop that fails (the task just finished) lets two requests run in a serial service | C18_stop_failure_refuted |
| F36 | indices of a continuous queue become stale | C42_* |
| F40, F58, F60 | a late value at the terminal, an undeliverable stream item that leaves a workflow, or a stale entry of a cancelling node cancels all sessions | C24_late_value_refuted, C41_late_refuted, C38_leaving_refuted, C41_cancel_refuted |
| F41-F43 | cancellation and cleanup workflows | C25_*, C45_* |
| F45 | flattening a promise that was taken | C33_taken_refuted |
| F48, F49 | detached series | C48_dropped_refuted, C51_detached_refuted |
| F53 | a trim that holds a message says it is unreachable | C52_held_refuted |
| F57 | `can_cast_to` of stream availability is checked in the opposite direction | C55_refuted |
| F61 | stale queue entries let one session change the response of another | C41_response_refuted |
| F66 | a second stream of the same type or name gives an output that no port leads to | C57_same_streams_refuted |
| F67 | outputs that connectors direct to an operation which is not built yet are overwritten by outputs that wait for the same operation (`HashMap::extend`): a connection is silently missing | C58_outputs_arrive_refuted |
| F68 | the error of a halted construction also names operations that were finished later | C60_halted_names_only_unfinished_refuted |
| F69 | the message type of a buffer or fork that gets JSON and typed values depends on the iteration order of a map | C61_order_keeps_the_types_refuted |
| F70 | a template that contains itself through a scope is not detected; building it ends with ExcessiveIterations | C62_check_finds_every_circle_refuted |
| F71 | buffer access and listen add type hints without reporting progress: one order of operations builds, another one halts | C61_order_keeps_buildable_refuted |
| F72 | cancel inside of a section or scope: unknown operation | C64_cancel_is_only_outside |
| F74, F75 | errors of conversions inside of a scope go to the cancel operation of the workflow; conversions for terminate and streams of a scope are created in the outer scope: connections cross scopes | C65_connections_stay_in_a_scope_refuted |
| F76 | the error target of a transform is put into its namespaces twice | C58_transform_error_refuted, C64_transform_needs_an_error_target_inside |
| F77 | stream_out inside of a section: unknown operation | C64_stream_out_is_not_in_a_section |
| F78 | JSON `push_as_oldest`, `push_json_as_oldest` call `push`: the message becomes the newest | C67_push_as_oldest_refuted |
| F79 | `push_any`, `push_any_as_oldest` do not set the flag for listeners: a join or listener does not see the message | C66_boxed_push_notifies_refuted |
| F80 | `World::any_buffer_mut`, `World::json_buffer_mut` drop the commands of the access: nobody is woken, not even by `pulse`; JSON access exists only in this form | C66_world_access_notifies_refuted, C67_json_access_notifies_refuted |
| F81 | JSON pulls lose the message if it cannot be serialised or read; a push reports an error though the message is stored and the displaced one is lost | C67_errors_change_nothing_refuted |
| F82 | `IncompatibleLayout::as_result` ignores `forbidden_buffers`: structs, single buffers and `HashMap<String, JsonBuffer>` accept maps with buffers they never use | C68_every_buffer_is_used_refuted |
| F83 | layouts of `Buffer<T>` (e.g. `Vec<T>: Joined`) made from a map forget that a buffer is to be cloned from: the join pulls | C69_vector_join_clones_refuted |
| F84 | a join that clones takes the oldest message, but the newest if it is joined as JSON (buffer.rs:212-226 says the newest) | C69_clones_the_same_message_refuted |
| F85 | `JsonBuffer::join_by_cloning` does not check that the messages can be cloned; after `as_any_buffer` each join fails | C69_cloning_is_checked_refuted |
| F86 | hints are given for identifiers which the layout refuses (gaps, names for a vector); unusable identifiers are no error | C70_hints_refuse_what_does_not_fit_refuted |
| F87 | joined JSON: buffers "array"/"object" collide with the mixed form; an unused index looks like a null value | C71_joined_json_is_unambiguous_refuted |
| F88 | `dispatch_service` takes pending requests from the back: nested requests are served in reverse | C72_nested_requests_in_order_refuted |
| F89 | an unavailable nested request is disposed for the outer provider; the nested one is forgotten (`internal.rs:236`) | C72_nested_unavailable_refuted |
| F90 | requests in the delivery or continuous queue of a despawned service are lost, their sessions never told | C73_waiting_in_service_is_disposed_refuted |
| F91 | a callback's lock is held while its queue is handled: a queued request that calls it again deadlocks (`operate_callback.rs:102-114`) | C74_requests_end_refuted |
| F92 | an injected request that is disposed of keeps its session reachable for ever, as it stays in the storage (`injection.rs:198-205`) | C75_disposed_request_ends_refuted |
| F93 | a second cleanup of a session is confirmed while tasks of the first are still stopping (`injection.rs:147-166`) | C75_overlapping_cleanups_refuted |
| F94 | a response on its way when its session is cleaned up is reported as a Broken error (`injection.rs:302-306`) | C75_cleanup_makes_no_errors_refuted |
| F95 | task entities of cleaned sessions are never despawned (`injection.rs:179-193`) | C75_nothing_left_after_cleanup_refuted |
| F96 | the keys of a buffer access or listener with two or more buffers count as in use for ever after the first one: all the lifecycles it holds for a session share one tracker (`operate_buffer_access.rs:159-162`, `buffer_key_builder.rs:38-47`, `buffer_access_lifecycle.rs:63-65`) | C76_several_buffers_refuted |
| F97 | the notice of a dropped key is sent before its tracker is released, so a key dropped on another thread can be missed (`buffer_access_lifecycle.rs:68-89`) | C76_dropped_elsewhere_refuted |
| F98 | if a workflow is asked by a node of another workflow and is cancelled, the outer workflow is not told: the cancellation is directed at its scoped session, which is not `Cancellable` (`scope.rs:1807-1809`, `cancel.rs:464-503`, 287-308) | C78_nested_refuted |
| F99 | if the session around a run of an uninterruptible workflow service ends, `dyn_cleanup` only defers and reports clean at once; the scoped session is despawned with its parent and the blocker is never released, so nothing behind the run is served any more (`scope.rs:392-446`) | C77_outer_end_refuted |
| F100 | if the target of a response is gone, `finalize_scoped_session` returns before it serves the next request, so the service is blocked for ever (`scope.rs:1889`, 1906-1909) | C77_lost_target_refuted |
| F34 | stopping one request of a workflow service cancels all runs of the same parent session, also with other labels and ensured ones (`workflow.rs:213-218`, `scope.rs:974-998`) | C78_same_session_refuted |
| F101 | `with_result` after `with_result_minimal` (for the same type, also from another node) does not enable serializing and cloning of the parts, the other order does (`fork_result_schema.rs:114-116` returns early) | C81_order_refuted |
| F102 | the types of the streams of a registered node are not registered: `UnregisteredType` for buffers, triggers, scopes | C82_streams_of_nodes_refuted |
| F103 | messages of nodes cannot be joined into `Vec` unless the node uses `with_unzip`, `with_result` or `with_split` ("Any message type can be joined into a Vec", `registration.rs:346`) | C82_node_messages_join_into_vectors_refuted |
| F104 | serializing and deserializing enabled by separate calls give no JSON buffers | C82_both_conversions_give_json_refuted |
| F105 | a section whose configuration cannot be read panics (`registration.rs:710`); the published schema of each section's configuration is that of `()` (708) | C82_section_configuration_refuted |
| F106 | the published entry of an unzippable message (`{"output_types": [...]}`, `registration.rs:837`) breaks the published schema (an array, 858 and registry.schema.json) | C83_schema_refuted |
| F107 | listening, buffer access and conversion to strings are missing in the description | C83_description_is_complete_refuted |
| F108 | a message directed to the cancel target which cannot be serialized does not cancel the workflow: the error is sent to `on_implicit_error` (`serialization.rs:259`), which may even be the response | C84_cancels_refuted |
| F109 | tracing with messages breaks operations: if a message cannot be serialized, it is lost and the operation fails (`input.rs:286-299`), while `diagram.rs:417-419` says that the message is left out of the event | C85_transparent_refuted |
| F110 | `single_threaded_poll_limit` is not a limit on how many futures a flush polls (`flush.rs:59-66`): each of two loops has it for itself and checks it after polling, so that a limit of `l` lets a flush poll `2 * max 1 l` futures; and only the futures of cancellations are polled there, those of services are left to bevy (`single_threaded_execution.rs:66-103`) | C86_limit_refuted, C86_bounded |
<!--FINDINGS-->

Seen in the code but not in a model: `clone_for_any_join` differs from its comment (F3);
`OperateDynamicGate::is_reachable` asks for the wrong input type and so is Broken (F8);
`to_cleanup(false)` on an ended session returns true (F13); `newest_mut_or_else` with capacity 0
gives `None` (F27); `OperateSplit::cleanup` does not clear disposals (F31); `is_reachable` of a scope looks
only at the first session of the parent (F39); a parent cancelled from outside and then cleaned
up with the same id hangs (F44); `process_stream_buffers` is Broken while a clone of a stream
buffer is held (F59); `on_implicit_error` of a scope is never used (F73); `AsyncCallbackSystem` never sets
`initialized` (`callback.rs:343-345`); the service kinds drop the request they have just taken if the
service's storage is missing (`blocking.rs:92-131`, `async_srv.rs:109-120`); `OperateBlockingMap` and
`OperateAsyncMap` do not clear disposals on cleanup; cancelled queued sessions of a workflow service
are not despawned (`workflow.rs:206-209`).
