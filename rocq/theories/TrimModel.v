(** * Trimming: which nodes a trim cleans, and what it does with its message

    Definitions only, in the order of /repo/src/operation/operate_trim.rs. *)

From Coq Require Import List Arith Bool Lia.
From Verif Require Import Base.
Import ListNotations.

(** ** The graph a trim looks at *)

(** What [immediately_downstream_of] (src/operation.rs 771-785) answers for each
    node of the workflow: the targets of its output and of its anonymous
    streams.  Simplification: the components that it looks up are replaced by
    the list of answers, one entry per node that has any; ReachModel.v models
    the lookup itself. *)
Definition graph := list (entity * list entity).

(** src/operation.rs 771-785: nothing is downstream of a node without any of
    the components. *)
Fixpoint down (g : graph) (x : entity) : list entity :=
  match g with
  | [] => []
  | (y, ts) :: g' => if x =? y then ts else down g' x
  end.

(** Not code: everything that is the target of something, used to bound the
    loops below. *)
Definition targets (g : graph) : list entity := concat (map snd g).

(** [HashSet::contains]. *)
Definition mem (x : entity) (l : list entity) : bool := existsb (Nat.eqb x) l.

(** [HashSet::insert], for sets kept as lists. *)
Definition set_add (x : entity) (l : list entity) : list entity :=
  if mem x l then l else l ++ [x].

(** [HashSet::remove], for sets kept as lists. *)
Definition set_remove (x : entity) (l : list entity) : list entity :=
  filter (fun y => negb (x =? y)) l.

(** ** The span between two points *)

(** The [span_map] of [calculate_span] (src/operation/operate_trim.rs 370):
    [HashMap<Entity, HashSet<Entity>>]. *)
Definition span_map := entity -> option (list entity).

(** [span_map.insert] / [entry.or_default()]. *)
Definition smap_set (m : span_map) (x : entity) (ps : list entity) : span_map :=
  fun y => if y =? x then Some ps else m y.

(** src/operation/operate_trim.rs 388-403: the loop over what is immediately
    downstream of [top]. *)
Fixpoint expand (top : entity) (flt nexts : list entity)
    (m : span_map) (queue : list entity) : span_map * list entity :=
  match nexts with
  | [] => (m, queue)
  | next :: nexts' =>
      if mem next flt then expand top flt nexts' m queue
      else
        match m next with
        | None => expand top flt nexts' (smap_set m next [top]) (queue ++ [next])
        | Some ps => expand top flt nexts' (smap_set m next (set_add top ps)) queue
        end
  end.

(** src/operation/operate_trim.rs 382-404: the loop that explores what is
    downstream of the initial point.  The [while let] becomes recursion on
    [fuel]; TrimProofs.v shows that the fuel given below suffices for every
    graph. *)
Fixpoint forward (fuel : nat) (g : graph) (to_point : entity) (flt : list entity)
    (m : span_map) (queue : list entity) : span_map :=
  match fuel with
  | 0 => m
  | S fuel' =>
      match pop_last queue with
      | (_, None) => m
      | (q, Some top) =>
          if top =? to_point then forward fuel' g to_point flt m q
          else
            let (m', q') := expand top flt (down g top) m q in
            forward fuel' g to_point flt m' q'
      end
  end.

(** src/operation/operate_trim.rs 408-418 (with [succ] the parents in the span
    map and nothing to skip) and 285-299 (with [succ] what is immediately
    downstream and [skip] the filter): visit everything that can be reached
    from the queue. *)
Fixpoint visit (fuel : nat) (succ : entity -> list entity) (skip : list entity)
    (queue nodes : list entity) : list entity :=
  match fuel with
  | 0 => nodes
  | S fuel' =>
      match pop_last queue with
      | (_, None) => nodes
      | (q, Some top) =>
          if mem top skip then visit fuel' succ skip q nodes
          else if mem top nodes then visit fuel' succ skip q nodes
          else visit fuel' succ skip (q ++ succ top) (nodes ++ [top])
      end
  end.

(** Not code: an amount of fuel for [visit] when only the nodes of [dom] have
    successors. *)
Definition visit_fuel (succ : entity -> list entity) (dom : list entity) : nat :=
  S (S (list_sum (map (fun x => length (succ x)) dom))).

(** src/operation/operate_trim.rs 412: [span_map.get(&top)]. *)
Definition parents (m : span_map) (x : entity) : list entity :=
  match m x with Some ps => ps | None => [] end.

(** src/operation/operate_trim.rs 361-421, [calculate_span]. *)
Definition calculate_span (g : graph) (initial_point to_point : entity)
    (flt : list entity) : list entity :=
  if mem to_point flt then []
  else
    let m0 : span_map := smap_set (fun _ => None) initial_point [] in
    let m := forward (2 + length (targets g)) g to_point flt m0 [initial_point] in
    visit (visit_fuel (parents m) (targets g)) (parents m) [] [to_point] [].

(** ** Branches *)

(** src/trim.rs 95-99, [TrimPoint]; the scope is only used for an assertion. *)
Record trim_point := TrimPoint { tp_id : entity; tp_inclusive : bool }.

(** src/trim.rs 140-142, [TrimPoint::accept]. *)
Definition accept (p : trim_point) (x : entity) : bool :=
  tp_inclusive p || negb (x =? tp_id p).

(** src/trim.rs 153-156, [TrimPolicy]. *)
Inductive trim_policy :=
| Downstream
| Span (points : list trim_point).

(** src/trim.rs 26-29, [TrimBranch]. *)
Record trim_branch := TrimBranch { tb_from : trim_point; tb_policy : trim_policy }.

(** src/trim.rs 34-40, [TrimBranch::single_point]. *)
Definition single_point (x : entity) : trim_branch :=
  let p := TrimPoint x true in TrimBranch p (Span [p]).

(** src/trim.rs 46-51, [TrimBranch::downstream]. *)
Definition downstream (p : trim_point) : trim_branch := TrimBranch p Downstream.

(** src/trim.rs 65-74, [TrimBranch::span]. *)
Definition span (p : trim_point) (endpoints : list trim_point) : trim_branch :=
  TrimBranch p (Span endpoints).

(** src/trim.rs 54-56, [TrimBranch::between]. *)
Definition between (p q : trim_point) : trim_branch := span p [q].

(** [Cancellation::invalid_span], src/cancel.rs: the two points that it names. *)
Inductive invalid_span := InvalidSpan (from_point : entity) (to_point : option entity).

(** The [Result<SmallVec<[Entity; 16]>, Cancellation>] of the calculations. *)
Inductive trim_nodes :=
| Nodes (l : list entity)
| Invalid (e : invalid_span).

(** [SmallVec::sort] on entities, by insertion. *)
Fixpoint insert_sorted (x : entity) (l : list entity) : list entity :=
  match l with
  | [] => [x]
  | y :: l' => if x <=? y then x :: l else y :: insert_sorted x l'
  end.

(** [SmallVec::sort]. *)
Fixpoint sort (l : list entity) : list entity :=
  match l with
  | [] => []
  | x :: l' => insert_sorted x (sort l')
  end.

(** [SmallVec::dedup]: removes consecutive repetitions. *)
Fixpoint dedup (l : list entity) : list entity :=
  match l with
  | [] => []
  | x :: l' =>
      match l' with
      | [] => [x]
      | y :: _ => if x =? y then dedup l' else x :: dedup l'
      end
  end.

(** src/operation/operate_trim.rs 279-283 and 340-346: the nodes between the
    scope entry and the initial point, without the latter. *)
Definition entry_filter (g : graph) (entry : entity) (p : trim_point) : list entity :=
  set_remove (tp_id p) (calculate_span g entry (tp_id p) []).

(** src/operation/operate_trim.rs 272-309, [calculate_downstream]. *)
Definition calculate_downstream (g : graph) (entry : entity) (p : trim_point) : trim_nodes :=
  let flt := entry_filter g entry p in
  let visited := visit (visit_fuel (down g) (map fst g)) (down g) flt [tp_id p] [] in
  match visited with
  | [] => Invalid (InvalidSpan (tp_id p) None)
  | _ => Nodes (filter (accept p) visited)
  end.

(** src/operation/operate_trim.rs 334-359, [calculate_span_nodes]. *)
Definition calculate_span_nodes (g : graph) (entry : entity) (p q : trim_point) : trim_nodes :=
  let flt := entry_filter g entry p in
  let sp := calculate_span g (tp_id p) (tp_id q) flt in
  match sp with
  | [] => Invalid (InvalidSpan (tp_id p) (Some (tp_id q)))
  | _ => Nodes (filter (fun n => accept p n && accept q n) sp)
  end.

(** src/operation/operate_trim.rs 317-327 and 248-264: the two loops that gather
    results until one of them is invalid. *)
Fixpoint gather {A} (f : A -> trim_nodes) (l : list A) : trim_nodes :=
  match l with
  | [] => Nodes []
  | a :: l' =>
      match f a with
      | Invalid e => Invalid e
      | Nodes ns =>
          match gather f l' with
          | Invalid e => Invalid e
          | Nodes ms => Nodes (ns ++ ms)
          end
      end
  end.

(** src/operation/operate_trim.rs 329-330 and 266-267. *)
Definition tidy (r : trim_nodes) : trim_nodes :=
  match r with
  | Nodes l => Nodes (dedup (sort l))
  | Invalid e => Invalid e
  end.

(** src/operation/operate_trim.rs 311-332, [calculate_all_spans]. *)
Definition calculate_all_spans (g : graph) (entry : entity) (p : trim_point)
    (points : list trim_point) : trim_nodes :=
  tidy (gather (calculate_span_nodes g entry p) points).

(** src/operation/operate_trim.rs 249-254. *)
Definition calculate_branch (g : graph) (entry : entity) (b : trim_branch) : trim_nodes :=
  match tb_policy b with
  | Downstream => calculate_downstream g entry (tb_from b)
  | Span points => calculate_all_spans g entry (tb_from b) points
  end.

(** src/operation/operate_trim.rs 242-270, [calculate_nodes]. *)
Definition calculate_nodes (g : graph) (entry : entity) (branches : list trim_branch) : trim_nodes :=
  tidy (gather (calculate_branch g entry) branches).

(** ** The trim operation *)

(** How a node reacts when it is told to clean up (src/operation/cleanup.rs
    61-78): it reports at once, it reports later (src/operation/operate_task.rs
    and the scopes wait for what is running in them), or it never reports since
    it has no [OperationCleanupStorage] (cleanup.rs 62-64), which is the case
    for an output that was never connected (src/builder.rs 82). *)
Inductive reaction := Now | Later | Never.

(** What does not change while a workflow runs: the trim node itself, the graph,
    the entry of its scope, its branches, and the reaction of every node. *)
Record tconfig := TConfig {
  tc_self : entity;
  tc_graph : graph;
  tc_entry : entity;
  tc_branches : list trim_branch;
  tc_reaction : entity -> reaction }.

Section Trim.
Context {V : Type}.

(** src/operation/cleanup.rs 179-191, [Cleanup], with the fields that differ
    between requests of the same cleaner. *)
Record cleanup := Cleanup { cl_node : entity; cl_session : entity; cl_id : entity }.

(** What can be seen of a trim: [LTake s v i] it took the message [v] of session
    [s] and trims under the id [i]; [LClean n i] node [n] reported that it is
    clean; [LForward s v i] it passed the message on; [LDispose s] it emitted a
    disposal; [LCancel s] it cancelled the scope; [LSweep s] it was cleaned
    itself for session [s]. *)
Inductive tlog :=
| LTake (s : entity) (v : V) (i : entity)
| LClean (n i : entity)
| LForward (s : entity) (v : V) (i : entity)
| LDispose (s : entity)
| LCancel (s : entity)
| LSweep (s : entity).

(** The components of the trim node (src/operation/operate_trim.rs 101-108), the
    cleanups that were requested and not answered yet, the finished cleanups in
    the roster (src/operation.rs, [OperationRoster::cleanup_finished]) and the
    next entity id.  [tw_log] is not code: it keeps what happened. *)
Record tworld := TWorld {
  tw_inputs : list (entity * V);
  tw_nodes : option trim_nodes;
  tw_holding : list (entity * (entity * V));
  tw_awaiting : list (entity * list entity);
  tw_asked : list cleanup;
  tw_finished : list cleanup;
  tw_next : entity;
  tw_log : list tlog }.

(** A trim as [Trim::setup] leaves it, src/operation/operate_trim.rs 95-111. *)
Definition trim_new : tworld := TWorld [] None [] [] [] [] 0 [].

Definition add_log (e : tlog) (w : tworld) : tworld :=
  TWorld (tw_inputs w) (tw_nodes w) (tw_holding w) (tw_awaiting w) (tw_asked w)
         (tw_finished w) (tw_next w) (tw_log w ++ [e]).

(** Not code: [HashMap] lookup, insertion and removal on association lists. *)
Fixpoint alookup {A} (k : entity) (l : list (entity * A)) : option A :=
  match l with
  | [] => None
  | (k', a) :: l' => if k =? k' then Some a else alookup k l'
  end.

Definition aremove {A} (k : entity) (l : list (entity * A)) : list (entity * A) :=
  filter (fun ka => negb (k =? fst ka)) l.

Definition ainsert {A} (k : entity) (a : A) (l : list (entity * A)) : list (entity * A) :=
  aremove k l ++ [(k, a)].

(** src/operation/cleanup.rs 150-156, [register_cleanup_of_node], and 194-206,
    [Cleanup::notify_cleaned]. *)
Definition notify_cleaned (c : cleanup) (w : tworld) : tworld :=
  let w := add_log (LClean (cl_node c) (cl_id c)) w in
  match alookup (cl_id c) (tw_awaiting w) with
  | None => w
  | Some ns =>
      let ns' := filter (fun n => negb (n =? cl_node c)) ns in
      match ns' with
      | [] =>
          TWorld (tw_inputs w) (tw_nodes w) (tw_holding w)
                 (aremove (cl_id c) (tw_awaiting w)) (tw_asked w)
                 (tw_finished w ++ [c]) (tw_next w) (tw_log w)
      | _ =>
          TWorld (tw_inputs w) (tw_nodes w) (tw_holding w)
                 (ainsert (cl_id c) ns' (tw_awaiting w)) (tw_asked w)
                 (tw_finished w) (tw_next w) (tw_log w)
      end
  end.

(** src/operation/operate_trim.rs 182-191: what [Trim::cleanup] drops. *)
Definition sweep (s : entity) (w : tworld) : tworld :=
  add_log (LSweep s)
    (TWorld (filter (fun i => negb (fst i =? s)) (tw_inputs w)) (tw_nodes w)
            (filter (fun h => negb (fst (snd h) =? s)) (tw_holding w))
            (tw_awaiting w) (tw_asked w) (tw_finished w) (tw_next w) (tw_log w)).

(** src/operation/cleanup.rs 61-78, [OperationCleanup::clean], called by the trim
    (operate_trim.rs 175-177) for one node. *)
Definition clean (cf : tconfig) (c : cleanup) (w : tworld) : tworld :=
  if cl_node c =? tc_self cf then notify_cleaned c (sweep (cl_session c) w)
  else
    match tc_reaction cf (cl_node c) with
    | Now => notify_cleaned c w
    | Later =>
        TWorld (tw_inputs w) (tw_nodes w) (tw_holding w) (tw_awaiting w)
               (tw_asked w ++ [c]) (tw_finished w) (tw_next w) (tw_log w)
    | Never => w
    end.

(** src/operation/operate_trim.rs 164-179: hold the message and clean the nodes. *)
Definition begin_trim (cf : tconfig) (s : entity) (v : V) (ns : list entity) (w : tworld) : tworld :=
  let i := tw_next w in
  let w :=
    add_log (LTake s v i)
      (TWorld (tw_inputs w) (tw_nodes w) (ainsert i (s, v) (tw_holding w))
              (ainsert i ns (tw_awaiting w)) (tw_asked w) (tw_finished w) (S i) (tw_log w)) in
  fold_left (fun w n => clean cf (Cleanup n s i) w) ns w.

(** src/operation/operate_trim.rs 113-180, [Trim::execute].  An input storage
    keeps the newest input in front and [take_input] takes the last one. *)
Definition execute (cf : tconfig) (w : tworld) : tworld :=
  match pop_last (tw_inputs w) with
  | (_, None) => w
  | (inputs, Some (s, v)) =>
      let r :=
        match tw_nodes w with
        | Some r => r
        | None => calculate_nodes (tc_graph cf) (tc_entry cf) (tc_branches cf)
        end in
      let w := TWorld inputs (Some r) (tw_holding w) (tw_awaiting w) (tw_asked w)
                      (tw_finished w) (tw_next w) (tw_log w) in
      match r with
      | Invalid _ => add_log (LCancel s) w
      | Nodes ns => begin_trim cf s v ns w
      end
  end.

(** src/operation/cleanup.rs 208-241, [Cleanup::trigger], and
    src/operation/operate_trim.rs 205-239, [Trim::finalize_trim]. *)
Definition finalize (c : cleanup) (w : tworld) : tworld :=
  let w := TWorld (tw_inputs w) (tw_nodes w) (tw_holding w)
                  (aremove (cl_id c) (tw_awaiting w)) (tw_asked w)
                  (tw_finished w) (tw_next w) (tw_log w) in
  match alookup (cl_id c) (tw_holding w) with
  | None => w
  | Some (s, v) =>
      let w := TWorld (tw_inputs w) (tw_nodes w) (aremove (cl_id c) (tw_holding w))
                      (tw_awaiting w) (tw_asked w) (tw_finished w) (tw_next w) (tw_log w) in
      add_log (LForward s v (cl_id c)) (add_log (LDispose (cl_session c)) w)
  end.

(** src/operation/operate_trim.rs 195-201, [Trim::is_reachable], given whether
    what is upstream of it is reachable. *)
Definition trim_is_reachable (s : entity) (upstream : bool) (w : tworld) : bool :=
  existsb (fun i => fst i =? s) (tw_inputs w) || upstream.

(** What can happen to a trim: a message arrives (src/input.rs, [give_input]);
    the flush executes it; the [k]-th node that was asked to clean up and did
    not answer reports, maybe not for the last time; the flush handles the next
    finished cleanup; another cleaner (the scope or another trim) cleans it. *)
Inductive tevent :=
| Arrive (s : entity) (v : V)
| Execute
| Report (k : nat) (again : bool)
| Finish
| Sweep (s : entity).

Definition tstep (cf : tconfig) (w : tworld) (e : tevent) : tworld :=
  match e with
  | Arrive s v =>
      TWorld ((s, v) :: tw_inputs w) (tw_nodes w) (tw_holding w) (tw_awaiting w)
             (tw_asked w) (tw_finished w) (tw_next w) (tw_log w)
  | Execute => execute cf w
  | Report k again =>
      match remove_nth k (tw_asked w) with
      | None => w
      | Some (c, cs) =>
          notify_cleaned c
            (if again then w
             else TWorld (tw_inputs w) (tw_nodes w) (tw_holding w) (tw_awaiting w)
                         cs (tw_finished w) (tw_next w) (tw_log w))
      end
  | Finish =>
      match tw_finished w with
      | [] => w
      | c :: cs =>
          finalize c (TWorld (tw_inputs w) (tw_nodes w) (tw_holding w) (tw_awaiting w)
                             (tw_asked w) cs (tw_next w) (tw_log w))
      end
  | Sweep s => sweep s w
  end.

Definition trun (cf : tconfig) (es : list tevent) : tworld := fold_left (tstep cf) es trim_new.

End Trim.

Arguments tworld : clear implicits.
Arguments tlog : clear implicits.
Arguments tevent : clear implicits.
