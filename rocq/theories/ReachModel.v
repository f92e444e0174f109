(** Model of the reachability check of src/operation.rs and of the [is_reachable] function
    of every kind of operation. No proofs in this file. *)
From Verif Require Import Base.

(** [ReachabilityResult]; [RFuel]: the model ran out of turns (shown not to happen). *)
Inductive rres := RYes | RNo | RBroken | RFuel.

(** What [is_reachable] of an operation consults, for one session. An [option bool] is a
    test on the operation's own data, [None] being its error Broken; a list of tests is
    evaluated in order. [inputs] is [SingleInputStorage], [None] when absent.
    - [KWork tests inputs]: a list of tests on own work, then the inputs. Map, noop, fork,
      unzip, branching, spread, split, filter, listen, gates, trim, cancel, buffer access
      (for example src/operation/operate_map.rs:139-144): [has_input].
      src/operation/operate_map.rs:272-280, operate_callback.rs:129-137: also active tasks.
      src/operation/scope.rs:1383-1397 [Terminate]: [has_input], staging.
      src/operation/injection.rs:198-208: [has_input], injected tasks.
      src/operation/operate_task.rs:361-370: one test, no inputs.
      src/operation/scope.rs:1580-1582: [has_input], no inputs; 1635-1639: always Broken.
      src/operation/scope.rs:2055-2066, 2098-2109 (stream redirects): [has_input], and the
      scope as only input.
    - [KService]: src/operation/operate_service.rs:117-135: the tests are [has_input], active
      tasks, continuous sessions, delivery; then the scope of the workflow which provides
      the service (src/service/workflow.rs:55-68), then the inputs.
    - [KScope]: src/operation/scope.rs:448-483: [has_input]; if a scoped session runs for
      this session, the answer of the check of the terminal in the scoped session (made
      with a visited map of its own, so given here as a value); then the inputs.
    - [KJoin]: src/operation/join.rs:92-115; every input with the number of values buffered.
    - [KBuffer]: src/operation/operate_buffer.rs:102-125 with 179-202 (related gate nodes,
      each with whether its action is to open) and
      src/operation/operate_buffer_access.rs:215-234 (accessors, each with whether one of
      its keys is in use).
    - [KCollect]: src/operation/collect.rs:132-165; [held] is the number of values held,
      [None] if there is no entry; [told] says that the check was made because of a
      disposal upstream of this node. *)
Inductive rkind :=
| KWork (tests : list (option bool)) (inputs : option (list entity))
| KService (tests : list (option bool)) (workflow : option entity) (inputs : option (list entity))
| KScope (has : option bool) (inner : option rres) (inputs : option (list entity))
| KJoin (inputs : list (entity * option nat))
| KBuffer (closed : bool) (gates : list (entity * bool)) (accessors : list (entity * option bool))
    (has : option bool) (inputs : option (list entity))
| KCollect (has : option bool) (min : nat) (held : option nat) (told : bool)
    (inputs : option (list entity)).

(** The operations of a world, and the [visited] map. *)
Notation rgraph := (emap rkind) (only parsing).
Notation visited := (emap bool) (only parsing).
Notation checker := (visited -> entity -> visited * rres) (only parsing).

(** Own tests in order: the first [true] answers yes, an error stops. *)
Fixpoint run_tests (tests : list (option bool)) : rres :=
  match tests with
  | [] => RNo
  | Some true :: _ => RYes
  | Some false :: r => run_tests r
  | None :: _ => RBroken
  end.

(** A loop "if check_upstream(x)? return Ok(true)". *)
Fixpoint any_upstream (chk : checker) (v : visited) (l : list entity) : visited * rres :=
  match l with
  | [] => (v, RNo)
  | m :: l' =>
      match chk v m with
      | (v1, RNo) => any_upstream chk v1 l'
      | other => other
      end
  end.

(** src/operation.rs:131-143 [SingleInputStorage::is_reachable]. *)
Definition single_input (chk : checker) (v : visited) (inputs : option (list entity)) : visited * rres :=
  match inputs with
  | None => (v, RNo)
  | Some l => any_upstream chk v l
  end.

(** src/operation/join.rs:104-114. *)
Fixpoint all_upstream (chk : checker) (v : visited) (l : list (entity * option nat)) : visited * rres :=
  match l with
  | [] => (v, RYes)
  | (m, count) :: l' =>
      match chk v m with
      | (v1, RYes) => all_upstream chk v1 l'
      | (v1, RNo) =>
          match count with
          | None => (v1, RBroken)
          | Some 0 => (v1, RNo)
          | Some (S _) => all_upstream chk v1 l'
          end
      | other => other
      end
  end.

(** src/operation/operate_buffer.rs:180-201 [is_opening_reachable]. *)
Definition opening_reachable (chk : checker) (v : visited) (closed : bool) (gates : list (entity * bool))
  : visited * rres :=
  if negb closed then (v, RYes)
  else any_upstream chk v (map fst (filter snd gates)).

(** src/operation/operate_buffer_access.rs:215-234. *)
Definition accessors_reachable (chk : checker) (v : visited) (accessors : list (entity * option bool))
  : visited * rres :=
  match run_tests (map snd accessors) with
  | RNo => any_upstream chk v (map fst accessors)
  | r => (v, r)
  end.

(** [is_reachable] of an operation. *)
Definition is_reachable (chk : checker) (v : visited) (k : rkind) : visited * rres :=
  match k with
  | KWork tests inputs =>
      match run_tests tests with
      | RNo => single_input chk v inputs
      | r => (v, r)
      end
  | KService tests workflow inputs =>
      match run_tests tests with
      | RNo =>
          match (match workflow with Some sc => chk v sc | None => (v, RNo) end) with
          | (v1, RNo) => single_input chk v1 inputs
          | other => other
          end
      | r => (v, r)
      end
  | KScope has inner inputs =>
      match run_tests [has] with
      | RNo =>
          match (match inner with Some r => r | None => RNo end) with
          | RNo => single_input chk v inputs
          | r => (v, r)
          end
      | r => (v, r)
      end
  | KJoin inputs => all_upstream chk v inputs
  | KBuffer closed gates accessors has inputs =>
      match opening_reachable chk v closed gates with
      | (v1, RNo) => accessors_reachable chk v1 accessors
      | (v1, RYes) =>
          match run_tests [has] with
          | RNo =>
              match accessors_reachable chk v1 accessors with
              | (v2, RNo) => single_input chk v2 inputs
              | other => other
              end
          | r => (v1, r)
          end
      | other => other
      end
  | KCollect has min held told inputs =>
      match run_tests [has] with
      | RNo =>
          if match held with Some h => (min <=? h) && told | None => false end
          then (v, RYes)
          else single_input chk v inputs
      | r => (v, r)
      end
  end.

(** src/operation.rs:413-448 [check_upstream]. A source which is not an operation is
    Broken. *)
Fixpoint check_upstream (fuel : nat) (g : rgraph) (v : visited) (n : entity) : visited * rres :=
  match fuel with
  | 0 => (v, RFuel)
  | S fuel' =>
      match v n with
      | Some b => (v, if b then RYes else RNo)
      | None =>
          let v1 := emap_set v n (Some false) in
          match g n with
          | None => (v1, RBroken)
          | Some k =>
              match is_reachable (check_upstream fuel' g) v1 k with
              | (v2, RYes) => (emap_set v2 n (Some true), RYes)
              | other => other
              end
          end
      end
  end.

(** src/operation.rs:470-485 [check_reachability]. *)
Definition check_reachability (fuel : nat) (g : rgraph) (n : entity) : rres :=
  snd (check_upstream fuel g emap_empty n).

(** src/operation/collect.rs:222-247 [is_upstream_active]: the collect itself counts as
    visited and its own progress does not count. *)
Definition is_upstream_active (fuel : nat) (g : rgraph) (n : entity) : rres :=
  match g n with
  | Some (KCollect has _ _ _ inputs) =>
      match run_tests [has] with
      | RNo => snd (single_input (check_upstream fuel g) (emap_set emap_empty n (Some false)) inputs)
      | r => r
      end
  | _ => RBroken
  end.

(** The outputs of an operation: [SingleTargetStorage], [ForkTargetStorage],
    [StreamTargetMap] with anonymous and named streams. *)
Record outputs := mk_outputs {
  out_single : option entity;
  out_fork : option (list entity);
  out_anonymous : list entity;
  out_named : list entity;
}.

(** src/operation.rs:771-785 [immediately_downstream_of]. *)
Definition immediately_downstream (w : entity -> outputs) (n : entity) : list entity :=
  (match out_single (w n), out_fork (w n) with
   | Some t, _ => [t]
   | None, Some l => l
   | None, None => []
   end) ++ out_anonymous (w n).

(** src/operation.rs:792-818 [is_downstream_of]. The stack [queue] is a list with its top
    in front; the outputs are pushed one by one. [None]: out of turns. *)
Fixpoint downstream_loop (fuel : nat) (w : entity -> outputs) (queue : list entity) (seen : list entity)
    (target : entity) : option bool :=
  match fuel with
  | 0 => None
  | S fuel' =>
      match queue with
      | [] => Some false
      | top :: rest =>
          if Nat.eqb top target then Some true
          else if existsb (Nat.eqb top) seen then downstream_loop fuel' w rest seen target
          else downstream_loop fuel' w (rev (immediately_downstream w top) ++ rest) (top :: seen) target
      end
  end.

Definition is_downstream_of (fuel : nat) (w : entity -> outputs) (source target : entity) : option bool :=
  if Nat.eqb source target then Some false
  else downstream_loop fuel w [source] [] target.
