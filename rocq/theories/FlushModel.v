(** The flush, src/flush.rs 90-391, as a machine which makes one call per step.

    What operations, channel items, services and so on do is arbitrary: a [behaviour]
    says how they change the rest of the world and which methods of the roster they
    call.  Not modelled: the trackers added to new services (flush.rs 225-234), error
    reports other than the limit warnings, the [single_threaded_async] executor
    (324-325), and the loop over [drop_targets] at 279-281, which is always empty as the list
    was drained at 269. *)
From Verif Require Import Base RosterModel.

Section Flush.
  Context {W item : Type}.

  (** The methods of [OperationRoster] (src/operation.rs 236-312). *)
  Inductive rcmd :=
  | CQueue (e : entity) | CAwake (e : entity) | CDefer (e : entity) | CCancel (c : cancel_req)
  | CUnblock (b : blocker) | CDisposed (d : disposal_notice) | CCleanup (c : cleanup_req)
  | CDespawn (e : entity) | CPurge (e : entity).

  Definition apply_cmd (r : roster) (c : rcmd) : roster :=
    match c with
    | CQueue e => ro_queue r e
    | CAwake e => ro_awake r e
    | CDefer e => ro_defer r e
    | CCancel c => ro_cancel r c
    | CUnblock b => ro_unblock r b
    | CDisposed d => ro_disposed r d
    | CCleanup c => ro_cleanup r c
    | CDespawn e => ro_despawn r e
    | CPurge e => ro_purge r e
    end.

  (** The calls a flush makes. *)
  Inductive task :=
  | TExec (e : entity)                (* flush.rs 139-143 execute_operation *)
  | TAwake (e : entity)               (* 161-165 awaken_task *)
  | TServe (b : blocker)              (* 133-134 serve_next *)
  | TCleanup (c : cleanup_req)        (* 175 Cleanup::trigger *)
  | TCancel (c : cancel_req)          (* 179 Cancel::trigger *)
  | TValidate (d : disposal_notice)   (* 289-321 *)
  | TItem (i : item)                  (* 196 *)
  | TDespawn (e : entity)             (* 101-103 *)
  | TRemoved (e : entity)             (* 238 dispose_for_despawned_service *)
  | TFinish (e : entity)              (* 266 *)
  | TDrop (e : entity).               (* 270 drop_target *)

  (** Everything outside of flush.rs. A command is for the roster at hand ([true]) or for the
      [DeferredRoster] of the world ([false]). *)
  Record behaviour := {
    loop_limit : W -> option nat;               (* FlushParameters in the world, 58 and 71 *)
    channel_limit : W -> option nat;
    act : task -> W -> W * list (bool * rcmd);
    poll : W -> W * list item;                  (* items which arrived in the channel before try_recv *)
    removed : W -> W * list entity;             (* services removed, 218-220 *)
    woken : W -> W * list entity;               (* the wake queue, 246-249 *)
    unused : W -> list (entity * bool) }.       (* unused targets and whether they are detached, 256 *)

  (** After which call [garbage_cleanup] runs. *)
  Inductive after := ATop | AServe | AExec | AAwake.

  (** Where the flush is. *)
  Inductive phase :=
  | Idle                     (* no flush is under way *)
  | Receive (n : nat)        (* 191, n items received *)
  | Collect                  (* 212-281 *)
  | Validate                 (* 283 *)
  | Top                      (* 99 *)
  | Clean (k : after)        (* 174 *)
  | Cancelling (k : after)   (* 178 *)
  | Serve                    (* 132 *)
  | Execute                  (* 138 *)
  | Awaken.                  (* 160 *)

  Inductive event :=
  | EStart | EEnd | EIter | ECollect | ELimit (reached : nat)
  | EChannelLimit (reached : nat)
  | EScheduled (here : bool) (c : rcmd)
  | ERun (t : task).

  Record fstate := {
    f_world : W;
    f_roster : roster;
    f_later : roster;                (* DeferredRoster *)
    f_channel : list item;
    f_count : nat;                   (* loop_count *)
    f_limits : option nat * option nat; (* the parameters read last: loop and channel limits *)
    f_phase : phase;
    f_log : list event }.

  Definition set_phase (s : fstate) p := {| f_world := f_world s; f_roster := f_roster s; f_later := f_later s; f_channel := f_channel s; f_count := f_count s; f_limits := f_limits s; f_phase := p; f_log := f_log s |}.
  Definition set_roster (s : fstate) r := {| f_world := f_world s; f_roster := r; f_later := f_later s; f_channel := f_channel s; f_count := f_count s; f_limits := f_limits s; f_phase := f_phase s; f_log := f_log s |}.
  Definition set_later (s : fstate) r := {| f_world := f_world s; f_roster := f_roster s; f_later := r; f_channel := f_channel s; f_count := f_count s; f_limits := f_limits s; f_phase := f_phase s; f_log := f_log s |}.
  Definition set_world (s : fstate) w := {| f_world := w; f_roster := f_roster s; f_later := f_later s; f_channel := f_channel s; f_count := f_count s; f_limits := f_limits s; f_phase := f_phase s; f_log := f_log s |}.
  Definition set_channel (s : fstate) c := {| f_world := f_world s; f_roster := f_roster s; f_later := f_later s; f_channel := c; f_count := f_count s; f_limits := f_limits s; f_phase := f_phase s; f_log := f_log s |}.
  Definition set_count (s : fstate) n := {| f_world := f_world s; f_roster := f_roster s; f_later := f_later s; f_channel := f_channel s; f_count := n; f_limits := f_limits s; f_phase := f_phase s; f_log := f_log s |}.
  Definition set_limits (s : fstate) l := {| f_world := f_world s; f_roster := f_roster s; f_later := f_later s; f_channel := f_channel s; f_count := f_count s; f_limits := l; f_phase := f_phase s; f_log := f_log s |}.
  Definition note (s : fstate) e := {| f_world := f_world s; f_roster := f_roster s; f_later := f_later s; f_channel := f_channel s; f_count := f_count s; f_limits := f_limits s; f_phase := f_phase s; f_log := f_log s ++ [e] |}.

  (** One call of a method of a roster. *)
  Definition issue (s : fstate) (hc : bool * rcmd) : fstate :=
    let '(here, c) := hc in
    let s := note s (EScheduled here c) in
    if here then set_roster s (apply_cmd (f_roster s) c) else set_later s (apply_cmd (f_later s) c).

  Context (b : behaviour).

  (** One call made by the flush. *)
  Definition call (t : task) (s : fstate) : fstate :=
    let '(w, cmds) := act b t (f_world s) in
    fold_left issue cmds (note (set_world s w) (ERun t)).
  Definition call_all (ts : list task) (s : fstate) : fstate := fold_left (fun s t => call t s) ts s.

  (** Takes the first or the last entry of a list of the roster. *)
  Definition with_queue (r : roster) x := mk_roster x (r_awake r) (r_deferred r) (r_cancel r) (r_unblock r) (r_disposed r) (r_cleanup r) (r_despawn r).
  Definition with_awake (r : roster) x := mk_roster (r_queue r) x (r_deferred r) (r_cancel r) (r_unblock r) (r_disposed r) (r_cleanup r) (r_despawn r).
  Definition with_cancel (r : roster) x := mk_roster (r_queue r) (r_awake r) (r_deferred r) x (r_unblock r) (r_disposed r) (r_cleanup r) (r_despawn r).
  Definition with_unblock (r : roster) x := mk_roster (r_queue r) (r_awake r) (r_deferred r) (r_cancel r) x (r_disposed r) (r_cleanup r) (r_despawn r).
  Definition with_disposed (r : roster) x := mk_roster (r_queue r) (r_awake r) (r_deferred r) (r_cancel r) (r_unblock r) x (r_cleanup r) (r_despawn r).
  Definition with_cleanup (r : roster) x := mk_roster (r_queue r) (r_awake r) (r_deferred r) (r_cancel r) (r_unblock r) (r_disposed r) x (r_despawn r).
  Definition with_despawn (r : roster) x := mk_roster (r_queue r) (r_awake r) (r_deferred r) (r_cancel r) (r_unblock r) (r_disposed r) (r_cleanup r) x.

  (** src/flush.rs 190-210: one turn of the loop. *)
  Definition receive (n : nat) (s : fstate) : fstate :=
    let '(w, items) := poll b (f_world s) in
    let s := set_channel (set_world s w) (f_channel s ++ items) in
    match f_channel s with
    | [] => set_phase s Collect
    | i :: rest =>
        let s := call (TItem i) (set_channel s rest) in
        match snd (f_limits s) with
        | Some limit => if limit <=? n then set_phase (note s (EChannelLimit n)) Collect else set_phase s (Receive (S n))
        | None => set_phase s (Receive (S n))
        end
    end.

  (** src/flush.rs 212-271. *)
  Definition collect (s : fstate) : fstate :=
    let s := note s ECollect in
    let s := set_roster s (ro_process_deferrals (f_roster s)) in
    let '(w, services) := removed b (f_world s) in
    let s := call_all (map TRemoved services) (set_world s w) in
    let s := set_later (set_roster s (ro_append (f_roster s) (f_later s))) roster_new in
    let '(w, awakened) := woken b (f_world s) in
    let s := fold_left issue (map (fun e => (true, CAwake e)) awakened) (set_world s w) in
    let targets := unused b (f_world s) in
    let s := call_all (map (fun p => TFinish (fst p)) (filter snd targets)) s in
    let s := call_all (map (fun p => TDrop (fst p)) (filter (fun p => negb (snd p)) targets)) s in
    set_phase s Validate.

  (** src/flush.rs 99-128: the end of the flush, or a new turn. *)
  Definition top (s : fstate) : fstate :=
    if ro_is_empty (f_roster s) then set_phase (note s EEnd) Idle
    else
      let gone := r_despawn (f_roster s) in
      let s := set_roster s (with_despawn (f_roster s) []) in
      let s := fold_left (fun s e => note (set_world s (fst (act b (TDespawn e) (f_world s)))) (ERun (TDespawn e))) gone s in
      let s := set_limits s (loop_limit b (f_world s), channel_limit b (f_world s)) in
      let go s := set_phase (note (set_count s (S (f_count s))) EIter) (Clean ATop) in
      match fst (f_limits s) with
      | Some limit =>
          if limit <=? f_count s then
            set_phase (note (note (set_roster (set_later s (ro_append (f_later s) (f_roster s))) roster_new)
              (ELimit (f_count s))) EEnd) Idle
          else go s
      | None => go s
      end.

  (** src/flush.rs 144-157: after an operation was executed. *)
  Definition counted (s : fstate) : fstate :=
    let s := set_count s (S (f_count s)) in
    match fst (f_limits s) with
    | Some limit => if limit <=? f_count s then set_phase (note s (ELimit (f_count s))) Awaken else set_phase s Execute
    | None => set_phase s Execute
    end.

  (** One step of the flush. *)
  Definition tick (s : fstate) : fstate :=
    let r := f_roster s in
    match f_phase s with
    | Idle => s
    | Receive n => receive n s
    | Collect => collect s
    | Validate =>
        match pop_last (r_disposed r) with
        | (rest, Some d) => call (TValidate d) (set_roster s (with_disposed r rest))
        | (_, None) => set_phase s Top
        end
    | Top => top s
    | Clean k =>
        match pop_last (r_cleanup r) with
        | (rest, Some c) => call (TCleanup c) (set_roster s (with_cleanup r rest))
        | (_, None) => set_phase s (Cancelling k)
        end
    | Cancelling k =>
        match r_cancel r with
        | c :: rest => call (TCancel c) (set_roster s (with_cancel r rest))
        | [] => match k with ATop | AServe => set_phase s Serve | AExec => counted s | AAwake => set_phase s Awaken end
        end
    | Serve =>
        match r_unblock r with
        | u :: rest => set_phase (call (TServe u) (set_roster s (with_unblock r rest))) (Clean AServe)
        | [] => set_phase s Execute
        end
    | Execute =>
        match r_queue r with
        | e :: rest => set_phase (call (TExec e) (set_roster s (with_queue r rest))) (Clean AExec)
        | [] => set_phase s Awaken
        end
    | Awaken =>
        match r_awake r with
        | e :: rest => set_phase (call (TAwake e) (set_roster s (with_awake r rest))) (Clean AAwake)
        | [] => set_phase s (Receive 0)
        end
    end.

  (** What happens: the flush goes on, a flush begins (flush.rs 94-98), or other systems run
      between flushes and schedule work in the [DeferredRoster]. *)
  Inductive input := Tick | Start | Outside (f : W -> W) (cmds : list rcmd).
  Definition fstep (s : fstate) (i : input) : fstate :=
    match i with
    | Tick => tick s
    | Start =>
        match f_phase s with
        | Idle =>
            let s := set_roster (set_count (note s EStart) 0) roster_new in
            set_phase (set_limits s (loop_limit b (f_world s), channel_limit b (f_world s))) (Receive 0)
        | _ => s
        end
    | Outside f cmds =>
        match f_phase s with
        | Idle => fold_left issue (map (fun c => (false, c)) cmds) (set_world s (f (f_world s)))
        | _ => s
        end
    end.

  Definition initial (w : W) : fstate :=
    {| f_world := w; f_roster := roster_new; f_later := roster_new; f_channel := []; f_count := 0;
       f_limits := (None, None); f_phase := Idle; f_log := [] |}.
  Definition frun (w : W) (is : list input) : fstate := fold_left fstep is (initial w).
End Flush.
Arguments rcmd : clear implicits.
Arguments behaviour : clear implicits.
Arguments task : clear implicits.
Arguments event : clear implicits.
Arguments fstate : clear implicits.
Arguments input : clear implicits.
