(** Property theorems C10, C11 and C43: joins. *)
From Verif Require Import Base RosterModel BufferModel BufferSpec InputModel InputSpec
  GateModel GateSpec JoinModel JoinSpec JoinProofs.

(** Witness: join node 10 with target 20 over the buffers 1 and 2, which keep
    everything; buffer 1 also has the listener 11. *)
Definition jbuf (ts : list entity) : bufnode nat :=
  mk_bufnode (mk_storage KeepAll (fun _ => Some [])) (fun _ => None) ts.
Definition jwit : jworld nat :=
  mk_jworld
    (mk_gworld
       (fun b => if Nat.eqb b 1 then Some (jbuf [11; 10]) else if Nat.eqb b 2 then Some (jbuf [10]) else None)
       (mk_world (fun k => if Nat.eqb k 10 || Nat.eqb k 11
                           then Some (mk_node (Some []) false false None) else None)
          (fun _ => Some Active) roster_new) [])
    (mk_world (fun k => if Nat.eqb k 20 then Some (mk_node (Some []) false false None) else None)
       (fun _ => Some Active) roster_new).

Definition jl : list (entity * fetch) := [(1, Pull); (2, Pull)].

(** C10. An execution of the join for session [s] either sends exactly one message with
    the oldest value of each buffer in the declared order and removes exactly these
    values (not the cloned ones), or some buffer is empty, nothing is sent and no buffer
    changes. The buffers have to be distinct, see below. *)
Theorem C10_join_atomic_partial :
  forall (V : Type) (w : jworld V) (j t : entity) (l : list (entity * fetch)) (s : entity)
         (u : unit) (rest : list (entity * unit)),
  NoDup (map fst l) -> l <> [] -> (forall p, In p l -> gw_bufs (jw w) (fst p) <> None) ->
  waiting w j = (s, u) :: rest -> receives (jw_out w) t -> w_status (jw_out w) s = Some Active ->
  let w' := jstep j t l w JExec in
  waiting w' j = rest /\
  ((exists vs, Forall2 (fun p v => hd_error (contents w (fst p) s) = Some v) l vs /\
      pending (jw_out w') t = pending (jw_out w) t ++ [(s, vs)] /\
      forall b s', contents w' b s'
        = if Nat.eqb s' s && pulled l b then tl (contents w b s') else contents w b s')
   \/ ((exists p, In p l /\ contents w (fst p) s = []) /\ jw_out w' = jw_out w /\
       forall b s', contents w' b s' = contents w b s')).
Proof. exact @join_atomic. Qed.
Print Assumptions C10_join_atomic_partial.

Example C10_join_atomic_partial_case :
  let w := jrun 10 20 jl jwit [JBuf (GPush 1 7 3); JBuf (GPush 2 7 4)] in
  NoDup (map fst jl) /\ jl <> [] /\ (forall p, In p jl -> gw_bufs (jw w) (fst p) <> None) /\
  waiting w 10 = [(7, tt); (7, tt)] /\ receives (jw_out w) 20 /\
  pending (jw_out (jstep 10 20 jl w JExec)) 20 = [(7, [3; 4])].
Proof.
  split; [repeat constructor; cbn; intuition lia|]. split; [discriminate|]. split.
  { intros p [<-|[<-|[]]]; discriminate. }
  split; [reflexivity|]. split; [|reflexivity]. eexists _, _. split; reflexivity.
Qed.

(** C10 is false when the same buffer is joined twice: with one value in it, the value
    is removed and nothing is sent. *)
Theorem C10_duplicate_buffer_refuted :
  let l := [(2, Pull); (2, Pull)] in
  let w := jrun 10 20 l jwit [JBuf (GPush 2 7 4)] in
  contents w 2 7 = [4] /\ waiting w 10 = [(7, tt)] /\
  contents (jstep 10 20 l w JExec) 2 7 = [] /\
  emitted (jstep 10 20 l w JExec) 20 7 = [].
Proof. exact (conj eq_refl (conj eq_refl (conj eq_refl eq_refl))). Qed.
Print Assumptions C10_duplicate_buffer_refuted.

(** C11. Values are delivered to the input slots of the joined buffers in any order, for
    any number of sessions, mixed in any way with executions of the join. The k-th
    message of a session combines the k-th values delivered to each buffer in it, and
    once no wake-up of the join is left the number of messages is the smallest number of
    values delivered to one of the buffers. *)
Theorem C11_join_pairs_by_position :
  forall (V : Type) (j t : entity) (l : list (entity * fetch)) (w : jworld V)
         (ops : list (jop V)) (s : entity),
  NoDup (map fst l) -> l <> [] -> Forall (fun p => snd p = Pull) l ->
  fresh w j t (map fst l) -> all_active w -> Forall plain ops ->
  let w' := jrun j t l w ops in
  (forall k row, nth_error (emitted w' t s) k = Some row ->
     length row = length l /\
     forall i b, nth_error (map fst l) i = Some b ->
       exists v, nth_error row i = Some v /\ nth_error (delivered b s ops) k = Some v) /\
  (of_session s (waiting w' j) = [] ->
     length (emitted w' t s) = smallest (map (fun b => length (delivered b s ops)) (map fst l))).
Proof. exact @join_pairs. Qed.
Print Assumptions C11_join_pairs_by_position.

Example C11_join_pairs_by_position_case :
  let ops := [JBuf (GPush 1 7 1); JBuf (GPush 1 7 2); JExec; JBuf (GPush 2 8 9);
              JBuf (GPush 2 7 3); JExec; JExec; JBuf (GPush 2 7 4); JExec; JExec] in
  NoDup (map fst jl) /\ jl <> [] /\ Forall (fun p => snd p = Pull) jl /\
  fresh jwit 10 20 (map fst jl) /\ all_active jwit /\ Forall plain ops /\
  emitted (jrun 10 20 jl jwit ops) 20 7 = [[1; 3]; [2; 4]].
Proof.
  split; [repeat constructor; cbn; intuition lia|]. split; [discriminate|].
  split; [repeat constructor|]. split; [|split; [split; reflexivity|split; [repeat constructor|reflexivity]]].
  split; [|split; [|split; [|split; [reflexivity|split; [|reflexivity]]]]].
  - intros b [<-|[<-|[]]]; eexists; repeat split.
  - intros b n H.
    assert (Hb : (b = 1 /\ n = jbuf [11; 10]) \/ (b = 2 /\ n = jbuf [10])).
    { cbn in H. destruct (Nat.eqb_spec b 1); [left; split; [assumption|congruence]|].
      destruct (Nat.eqb_spec b 2); [right; split; [assumption|congruence]|discriminate]. }
    destruct Hb as [[-> ->]|[-> ->]]; (split; [|intros Hn; exfalso; apply Hn; cbn; tauto]);
      cbn [jbuf bn_targets]; intros t' Ht'; cbn in Ht'.
    + destruct Ht' as [<-|[<-|[]]]; eexists _, _; split; reflexivity.
    + destruct Ht' as [<-|[]]; eexists _, _; split; reflexivity.
  - eexists _, _; split; reflexivity.
  - eexists _, _; split; reflexivity.
Qed.

(** C11. Connecting a join (or any listener) to a buffer several times notifies it once. *)
Theorem C11_listeners_are_distinct :
  forall (ts : list entity) (x : entity),
  NoDup ts -> NoDup (add_listener ts x) /\ In x (add_listener ts x).
Proof. exact add_listener_nodup. Qed.
Print Assumptions C11_listeners_are_distinct.

Example C11_listeners_are_distinct_case : add_listener (add_listener [4] 5) 5 = [4; 5].
Proof. reflexivity. Qed.

(** C43, part. When values only arrive through input slots and the gates are open, the
    join never rests while every buffer has a value. Missing: closed gates and changes
    through keys, for which the claim is false, see below. *)
Theorem C43_join_idle_partial :
  forall (V : Type) (j t : entity) (l : list (entity * fetch)) (w : jworld V)
         (ops : list (jop V)) (s : entity),
  NoDup (map fst l) -> l <> [] -> Forall (fun p => snd p = Pull) l ->
  fresh w j t (map fst l) -> all_active w -> Forall plain ops ->
  let w' := jrun j t l w ops in
  of_session s (waiting w' j) = [] ->
  exists b, In b (map fst l) /\ contents w' b s = [].
Proof. exact @join_idle. Qed.
Print Assumptions C43_join_idle_partial.

(** The hypotheses are those of C11, see [C11_join_pairs_by_position_case]. *)
Example C43_join_idle_partial_case :
  let ops := [JBuf (GPush 1 7 1); JBuf (GPush 2 7 3); JExec; JExec] in
  waiting (jrun 10 20 jl jwit ops) 10 = [].
Proof. reflexivity. Qed.

(** C43 is false: values that arrived while the gates were closed are not all joined
    when the gates open. Both buffers hold a value for session 7 and nothing is
    scheduled any more. *)
Theorem C43_join_after_gate_refuted :
  let ops := [JBuf (GAction 1 7 Closed); JBuf (GAction 2 7 Closed);
              JBuf (GPush 1 7 1); JBuf (GPush 1 7 2); JBuf (GPush 1 7 3);
              JBuf (GPush 2 7 4); JBuf (GPush 2 7 5); JBuf (GPush 2 7 6);
              JBuf (GAction 1 7 Open); JBuf (GAction 2 7 Open); JExec; JExec; JExec] in
  let w := jrun 10 20 jl jwit ops in
  waiting w 10 = [] /\ gw_cmds (jw w) = [] /\ emitted w 20 7 = [[1; 4]; [2; 5]] /\
  contents w 1 7 = [3] /\ contents w 2 7 = [6].
Proof. exact (conj eq_refl (conj eq_refl (conj eq_refl (conj eq_refl eq_refl)))). Qed.
Print Assumptions C43_join_after_gate_refuted.

(** C43 is false: several values pushed in one use of a key wake the join only once. *)
Theorem C43_join_after_key_refuted :
  let ops := [JBuf (GPush 1 7 1); JBuf (GPush 1 7 2); JExec; JExec;
              JBuf (GKeyEdit 2 7 None [AMutate (MPush 4); AMutate (MPush 5)]); JBuf GApply; JExec; JExec] in
  let w := jrun 10 20 jl jwit ops in
  waiting w 10 = [] /\ gw_cmds (jw w) = [] /\ emitted w 20 7 = [[1; 4]] /\
  contents w 1 7 = [2] /\ contents w 2 7 = [5].
Proof. exact (conj eq_refl (conj eq_refl (conj eq_refl (conj eq_refl eq_refl)))). Qed.
Print Assumptions C43_join_after_key_refuted.
