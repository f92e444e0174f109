(** Property theorems C08, C09 and C37: gates and the listeners of a buffer. *)
From Verif Require Import Base RosterModel BufferModel BufferSpec InputModel InputSpec
  GateModel GateSpec GateProofs.

(** Witness: buffer 1 keeps the last two values and has the listeners 11 and 12, its
    gate was closed for session 7. Sessions 7 and 8 are active and known to the buffer,
    as is the case for sessions that hold a key. *)
Definition gwit : gworld nat :=
  mk_gworld
    (fun b => if Nat.eqb b 1
       then Some (mk_bufnode (mk_storage (KeepLast 2) (fun _ => Some []))
                    (fun s => if Nat.eqb s 7 then Some Closed else None) [11; 12])
       else None)
    (mk_world (fun k => if Nat.eqb k 11 || Nat.eqb k 12
                        then Some (mk_node (Some []) false false None) else None)
       (fun _ => Some Active) roster_new) [].

Lemma gwit_ready : ready gwit 1 7 /\ ready gwit 1 8.
Proof.
  assert (H : forall t, In t (targets_of gwit 1) -> receives (gw_lis gwit) t).
  { cbn. intros t [<-|[<-|[]]]; eexists _, _; split; reflexivity. }
  repeat split; auto; discriminate.
Qed.

(** C02. The calls made through a mutable access do to the contents of the buffer what
    they are documented to do, in the order they are made, and leave everything else
    alone. (For [drain] of a partial range see C05: positions count from the newest.) *)
Theorem C02_key_access_effect :
  forall (V : Type) (w : gworld V) (b s : entity) (acc : option entity) (l : list (access V))
         (n : bufnode V) (q : list V),
  gw_bufs w b = Some n -> queues (bn_store n) s = Some q ->
  within_limit (policy (bn_store n)) (length q) -> policy (bn_store n) <> KeepFirst 0 ->
  forall b' s', buf_contents (gstep w (GKeyEdit b s acc l)) b' s'
    = (if Nat.eqb b' b && Nat.eqb s' s
       then access_result (policy (bn_store n)) (buf_contents w b s) l
       else buf_contents w b' s') /\
    gate_reads (gstep w (GKeyEdit b s acc l)) b' s' = gate_reads w b' s'.
Proof. exact @key_edit_effect. Qed.
Print Assumptions C02_key_access_effect.

Example C02_key_access_effect_case :
  exists n, gw_bufs gwit 1 = Some n /\ queues (bn_store n) 8 = Some [] /\
    within_limit (policy (bn_store n)) 0 /\ policy (bn_store n) <> KeepFirst 0 /\
    access_result (policy (bn_store n)) []
      [AMutate (MPush 1); AMutate (MPush 2); ARead; AMutate (MPush 3); AMutate MPullNewest] = [2].
Proof. eexists. repeat split; [lazy; lia|discriminate]. Qed.

(** C08. While the gate is closed nothing that happens to the buffer in this session
    wakes a listener, and the gate stays closed until somebody opens it. *)
Theorem C08_closed_gate_is_silent :
  forall (V : Type) (ops : list (gop V)) (w : gworld V) (b s : entity),
  gate_reads w b s = Some Closed ->
  Forall (fun c => nt_buffer c = b /\ nt_session c = s) (gw_cmds w) ->
  Forall (quiet b s) ops ->
  gate_reads (grun w ops) b s = Some Closed /\
  forall t s', wakes (grun w ops) t s' = wakes w t s'.
Proof. exact @quiet_run. Qed.
Print Assumptions C08_closed_gate_is_silent.

Example C08_closed_gate_is_silent_case :
  gate_reads gwit 1 7 = Some Closed /\
  Forall (quiet 1 7)
    [GPush 1 7 5; GKeyEdit 1 7 None [AMutate (MPush 6)]; GApply; GKeyGate 1 7 None [Closed]] /\
  buf_contents (grun gwit [GPush 1 7 5; GKeyEdit 1 7 None [AMutate (MPush 6)]]) 1 7 = [5; 6].
Proof. repeat split; repeat constructor. Qed.

(** C08. A pushed value is stored, subject to the retention policy, no matter whether
    the gate is open or closed; no other buffer or session changes. *)
Theorem C08_push_is_stored :
  forall (V : Type) (w : gworld V) (b s : entity) (v : V) (n : bufnode V),
  gw_bufs w b = Some n ->
  forall b' s', gate_reads (gstep w (GPush b s v)) b' s' = gate_reads w b' s' /\
    targets_of (gstep w (GPush b s v)) b' = targets_of w b' /\
    buf_contents (gstep w (GPush b s v)) b' s'
    = if Nat.eqb b' b then iter (fst (force_push (bn_store n) s v)) s' else buf_contents w b' s'.
Proof. exact @push_result. Qed.
Print Assumptions C08_push_is_stored.

Example C08_push_is_stored_case :
  buf_contents (grun gwit [GPush 1 7 5; GPush 1 7 6; GPush 1 7 8]) 1 7 = [6; 8].
Proof. reflexivity. Qed.

(** C08. A push through an open gate wakes every listener once per connection. *)
Theorem C08_open_gate_wakes :
  forall (V : Type) (w : gworld V) (b s : entity) (v : V),
  gate_reads w b s = Some Open -> ready w b s ->
  forall t s', wakes (gstep w (GPush b s v)) t s'
    = wakes w t s' + (if Nat.eqb s' s then count_occ Nat.eq_dec (targets_of w b) t else 0).
Proof. exact @open_push. Qed.
Print Assumptions C08_open_gate_wakes.

Example C08_open_gate_wakes_case :
  gate_reads gwit 1 8 = Some Open /\ ready gwit 1 8 /\
  wakes (gstep gwit (GPush 1 8 3)) 12 8 = 1.
Proof. repeat split; try (apply gwit_ready). Qed.

(** C08. A gate action by a node takes effect for exactly this buffer and session, and
    wakes the listeners exactly when it opens a closed gate. *)
Theorem C08_gate_action :
  forall (V : Type) (w : gworld V) (b s : entity) (g : gate),
  ready w b s ->
  (forall b' s', gate_reads (gstep w (GAction b s g)) b' s'
     = if Nat.eqb b' b && Nat.eqb s' s then Some g else gate_reads w b' s') /\
  (forall b' s', buf_contents (gstep w (GAction b s g)) b' s' = buf_contents w b' s') /\
  (forall t s', wakes (gstep w (GAction b s g)) t s'
     = wakes w t s' +
       (match gate_reads w b s, g with
        | Some Closed, Open =>
            if Nat.eqb s' s then count_occ Nat.eq_dec (targets_of w b) t else 0
        | _, _ => 0
        end)).
Proof.
  exact (fun V w b s g H =>
    conj (fun b' s' => action_reads w b s g b' s' (proj2 (proj2 H)))
      (conj (action_contents w b s g) (action_wakes w b s g H))).
Qed.
Print Assumptions C08_gate_action.

Example C08_gate_action_case :
  ready gwit 1 7 /\ wakes (gstep gwit (GAction 1 7 Open)) 11 7 = 1 /\
  wakes (grun gwit [GAction 1 7 Open; GAction 1 7 Open]) 11 7 = 1 /\
  gate_reads (gstep gwit (GAction 1 7 Open)) 1 7 = Some Open.
Proof. repeat split; try (apply gwit_ready). Qed.

(** C08. Opening a closed gate through a key wakes each listener once per connection,
    except the accessor. *)
Theorem C08_key_open_wakes :
  forall (V : Type) (w : gworld V) (b s : entity) (acc : option entity),
  gw_cmds w = [] -> ready w b s ->
  gate_reads w b s = Some Closed ->
  let w' := grun w [GKeyGate b s acc [Open]; GApply] in
  gate_reads w' b s = Some Open /\
  forall t s', wakes w' t s'
    = wakes w t s' +
      (if Nat.eqb s' s
       then (if match acc with Some a => Nat.eqb a t | None => false end
             then 0 else count_occ Nat.eq_dec (targets_of w b) t)
       else 0).
Proof. exact @key_open. Qed.
Print Assumptions C08_key_open_wakes.

Example C08_key_open_wakes_case :
  gw_cmds gwit = [] /\ ready gwit 1 7 /\ gate_reads gwit 1 7 = Some Closed /\
  wakes (grun gwit [GKeyGate 1 7 (Some 12) [Open]; GApply]) 11 7 = 1.
Proof. repeat split; try (apply gwit_ready). Qed.

(** C08. The gate of a session does not depend on what happens in other sessions. *)
Theorem C08_gates_of_sessions_independent :
  forall (V : Type) (ops : list (gop V)) (w : gworld V) (b s' : entity),
  Forall (fun o => gop_session o <> Some s') ops ->
  gate_reads (grun w ops) b s' = gate_reads w b s'.
Proof. exact @gate_other_run. Qed.
Print Assumptions C08_gates_of_sessions_independent.

Example C08_gates_of_sessions_independent_case :
  Forall (fun o : gop nat => gop_session o <> Some 7)
    [GAction 1 8 Closed; GKeyGate 1 8 None [Open]; GApply; GPush 1 8 4].
Proof. repeat constructor; discriminate. Qed.

(** C09. The claim as a whole is false of the code: [close_gate] through a key is
    ignored if no gate node has acted on this buffer in this session before. *)
Theorem C09_key_close_refuted :
  exists (w : gworld nat) (b s : entity),
    ready w b s /\ gate_reads w b s = Some Open /\
    gate_reads (gstep w (GKeyGate b s None [Closed])) b s = Some Open /\
    wakes (grun w [GKeyGate b s None [Closed]; GPush b s 3]) 11 s = 1.
Proof. exact (ex_intro _ gwit (ex_intro _ 1 (ex_intro _ 8
  (conj (proj2 gwit_ready) (conj eq_refl (conj eq_refl eq_refl)))))). Qed.
Print Assumptions C09_key_close_refuted.

(** C09, part. Once a gate node has acted on this buffer in this session, closing
    through a key takes effect, whatever happened in between. Missing: sessions in
    which no gate node has acted, see above. *)
Theorem C09_key_close_partial :
  forall (V : Type) (w : gworld V) (b s : entity) (g : gate) (ops : list (gop V))
         (acc : option entity),
  gw_bufs w b <> None ->
  gate_reads (gstep (grun (gstep w (GAction b s g)) ops) (GKeyGate b s acc [Closed])) b s
  = Some Closed.
Proof. exact @key_close_after_action. Qed.
Print Assumptions C09_key_close_partial.

Example C09_key_close_partial_case :
  gw_bufs gwit 1 <> None /\
  gate_reads (grun gwit [GAction 1 8 Open; GKeyGate 1 8 None [Open]; GPush 1 8 2]) 1 8 = Some Open.
Proof. split; [discriminate|reflexivity]. Qed.

(** C37. When an access with at least one mutating call (or a pulse) ends and the gate
    is open, each listener is woken once per connection, for this session only,
    except the accessor. *)
Theorem C37_change_wakes_listeners :
  forall (V : Type) (w : gworld V) (b s : entity) (acc : option entity) (l : list (access V)),
  touches l = true -> gw_cmds w = [] -> ready w b s ->
  gate_reads w b s = Some Open ->
  forall t s', wakes (grun w [GKeyEdit b s acc l; GApply]) t s'
    = wakes w t s' +
      (if Nat.eqb s' s
       then (if match acc with Some a => Nat.eqb a t | None => false end
             then 0 else count_occ Nat.eq_dec (targets_of w b) t)
       else 0).
Proof. exact @key_edit_notifies. Qed.
Print Assumptions C37_change_wakes_listeners.

Example C37_change_wakes_listeners_case :
  let w := gwit in let l := [ARead; AMutate (MPush 4); AMutate MPull; AMutate (MPush 5)] in
  touches l = true /\ gw_cmds w = [] /\ ready w 1 8 /\ gate_reads w 1 8 = Some Open /\
  wakes (grun w [GKeyEdit 1 8 (Some 11) l; GApply]) 11 8 = 0 /\
  wakes (grun w [GKeyEdit 1 8 (Some 11) l; GApply]) 12 8 = 1.
Proof. repeat split; try (apply gwit_ready). Qed.

(** C37. If the gate is closed nobody is woken. *)
Theorem C37_change_behind_closed_gate :
  forall (V : Type) (w : gworld V) (b s : entity) (acc : option entity) (l : list (access V)),
  gw_cmds w = [] -> gate_reads w b s = Some Closed ->
  forall t s', wakes (grun w [GKeyEdit b s acc l; GApply]) t s' = wakes w t s'.
Proof. exact @key_edit_closed. Qed.
Print Assumptions C37_change_behind_closed_gate.

Example C37_change_behind_closed_gate_case :
  gw_cmds gwit = [] /\ gate_reads gwit 1 7 = Some Closed /\
  touches [AMutate (MPush 4)] = true.
Proof. repeat split. Qed.

(** C37, part. An access which only reads schedules no notification at all. Missing:
    calls of a mutating method that change nothing, see below. *)
Theorem C37_read_wakes_nobody_partial :
  forall (V : Type) (w : gworld V) (b s : entity) (acc : option entity) (l : list (access V)),
  touches l = false ->
  gw_cmds (gstep w (GKeyEdit b s acc l)) = gw_cmds w /\
  forall t s', wakes (gstep w (GKeyEdit b s acc l)) t s' = wakes w t s'.
Proof. exact @key_edit_untouched. Qed.
Print Assumptions C37_read_wakes_nobody_partial.

Example C37_read_wakes_nobody_partial_case : touches (V:=nat) [ARead; ARead] = false.
Proof. reflexivity. Qed.

(** C37. The last clause is false of the code: pulling from an empty buffer changes
    nothing and wakes the listeners. *)
Theorem C37_ineffective_access_refuted :
  exists (w : gworld nat) (b s t : entity),
    ready w b s /\
    (forall b' s', buf_contents (gstep w (GKeyEdit b s None [AMutate MPull])) b' s'
                   = buf_contents w b' s') /\
    wakes w t s = 0 /\
    wakes (grun w [GKeyEdit b s None [AMutate MPull]; GApply]) t s = 1.
Proof.
  exists gwit, 1, 8, 11. split; [exact (proj2 gwit_ready)|]. split; [|split; reflexivity].
  intros [|[|b']] s'; [reflexivity| |reflexivity].
  cbn. unfold iter, emap_set, emap_empty. cbn. destruct (Nat.eqb s' 8); reflexivity.
Qed.
Print Assumptions C37_ineffective_access_refuted.

(** C37 is false for [World::buffer_mut]: the change is made and nobody is ever told. *)
Theorem C37_world_access_refuted :
  forall (V : Type) (w : gworld V) (b s : entity) (acc : option entity) (l : list (access V)),
  gw_cmds (world_buffer_mut w b s acc l) = gw_cmds w /\
  gw_bufs (world_buffer_mut w b s acc l) = gw_bufs (gstep w (GKeyEdit b s acc l)) /\
  forall t s', wakes (world_buffer_mut w b s acc l) t s' = wakes w t s'.
Proof. exact @world_buffer_mut_silent. Qed.
Print Assumptions C37_world_access_refuted.

Example C37_world_access_refuted_case :
  ready gwit 1 8 /\ gate_reads gwit 1 8 = Some Open /\
  buf_contents (world_buffer_mut gwit 1 8 None [AMutate (MPush 4)]) 1 8 = [4].
Proof. split; [apply gwit_ready|]. split; reflexivity. Qed.
