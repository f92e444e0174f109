(** Property theorems C01-C05: buffers. *)
From Verif Require Import Base BufferModel BufferSpec BufferProofs.

(** A history used as a witness for the hypotheses below: two sessions, pushes of
    all kinds, pulls, edits and clears. *)
Definition sample : list (bop nat) :=
  [OForcePush 0 1; OForcePush 0 2; OForcePush 1 7; OForcePush 0 3; OPush 1 8;
   OPushOldest 1 6; OPull 0; OPullNewest 1; OGetMut 0 0 S; OClear 1; OEnsure 1;
   ONewestMutOr 1 4 S; OConsume 0; OForcePush 0 9; ODrainAll 1].

(** C01. In every history a session never holds more values than its retention
    policy allows, whatever the operations and whatever the other sessions do. *)
Theorem C01_retention_limit :
  forall (V : Type) (p : retention) (ops : list (bop V)) (s : entity),
  (p = KeepFirst 0 -> Forall (fun o => pushes_oldest o = false) ops) ->
  within_limit p (count (fst (brun (new_storage p) ops)) s).
Proof. exact @buffer_limit. Qed.
Print Assumptions C01_retention_limit.

Example C01_retention_limit_case :
  (KeepLast 2 = KeepFirst 0 -> Forall (fun o => pushes_oldest o = false) sample) /\
  count (fst (brun (new_storage (KeepLast 2)) (firstn 6 sample))) 0 = 2.
Proof. split; [discriminate|reflexivity]. Qed.

(** C01, the excluded case: with [KeepFirst 0] values pushed as the oldest are all
    kept, so no bound at all holds. *)
Theorem C01_keep_first_zero_refuted :
  forall n : nat, exists ops : list (bop nat),
  ~ within_limit (KeepFirst 0) (count (fst (brun (new_storage (KeepFirst 0)) ops)) 0) /\
  n <= count (fst (brun (new_storage (KeepFirst 0)) ops)) 0.
Proof. exact keep_first_zero_unbounded. Qed.
Print Assumptions C01_keep_first_zero_refuted.

(** C02. Every observation made on a buffer, in every history, is the one of the
    specification: a list per session ordered from oldest to newest. *)
Theorem C02_buffer_refines_queue :
  forall (V : Type) (p : retention) (ops : list (bop V)),
  Forall (fun o => partial_drain o = false) ops ->
  (p = KeepFirst 0 -> Forall (fun o => pushes_oldest o = false) ops) ->
  let r := brun (new_storage p) ops in
  let sp := spec_run p (fun _ => None) ops in
  snd r = snd sp /\
  forall s, let l := match fst sp s with Some l => l | None => [] end in
    iter (fst r) s = l /\
    count (fst r) s = length l /\
    oldest (fst r) s = hd_error l /\
    newest (fst r) s = last_opt l /\
    forall i, get (fst r) s i = nth_error l i.
Proof. exact @buffer_refines. Qed.
Print Assumptions C02_buffer_refines_queue.

Example C02_buffer_refines_queue_case :
  Forall (fun o => partial_drain o = false) sample /\
  snd (brun (new_storage (KeepLast 2)) sample)
  = [RVal None; RVal None; RVal None; RVal (Some 1); RVal None; RVal (Some 6);
     RVal (Some 2); RVal (Some 8); RVal (Some 3); RUnit; RUnit; RVal (Some 4);
     RList [4]; RVal None; RList [5]].
Proof. split; [repeat constructor|reflexivity]. Qed.

(** C03. No value is lost or duplicated: what was offered to a session is exactly
    what is still stored, was handed back, or was discarded by clearing. *)
Theorem C03_buffer_conservation :
  forall (V : Type) (p : retention) (s : entity) (ops : list (bop V)),
  Forall (fun o => edits o = false) ops ->
  let r := brun (new_storage p) ops in
  Permutation (flat_map (offered s) ops)
    (iter (fst r) s ++ zip_back s ops (snd r) ++ cleared s (new_storage p) ops).
Proof. exact @buffer_conserves. Qed.
Print Assumptions C03_buffer_conservation.

Example C03_buffer_conservation_case :
  let ops := filter (fun o => negb (edits o)) sample in
  Forall (fun o => edits o = false) ops /\
  flat_map (offered 1) ops = [7; 8; 6] /\
  cleared 1 (new_storage (KeepLast 2)) ops = [7].
Proof. repeat split; repeat constructor. Qed.

(** C04. What a session observes and stores does not depend on the operations of
    the other sessions. *)
Theorem C04_buffer_sessions_isolated :
  forall (V : Type) (p : retention) (s : entity) (ops : list (bop V)),
  let r1 := brun (new_storage p) ops in
  let r2 := brun (new_storage p) (filter (fun o => Nat.eqb (op_session o) s) ops) in
  iter (fst r1) s = iter (fst r2) s /\
  outs_of s ops (snd r1) = snd r2.
Proof. exact @buffer_isolated. Qed.
Print Assumptions C04_buffer_sessions_isolated.

Example C04_buffer_sessions_isolated_case :
  outs_of 1 sample (snd (brun (new_storage (KeepLast 2)) sample))
  = [RVal None; RVal None; RVal (Some 6); RVal (Some 8); RUnit; RUnit; RVal (Some 4); RList [5]] /\
  filter (fun o => Nat.eqb (op_session o) 1) sample <> sample.
Proof. split; [reflexivity|discriminate]. Qed.

(** C05. Positions: [drain(lo..hi)] gives back, oldest first, the values at
    positions [len-hi .. len-lo) counted from the oldest, and keeps the others in
    order. The whole-range drain therefore empties the queue oldest first. *)
Theorem C05_drain_positions_partial :
  forall (V : Type) (b : storage V) (s : entity) (lo hi : nat),
  lo <= hi -> hi <= length (iter b s) ->
  let r := drain b s lo hi in
  let l := iter b s in
  snd r = Drained (firstn (hi - lo) (skipn (length l - hi) l)) /\
  iter (fst r) s = firstn (length l - hi) l ++ skipn (length l - lo) l.
Proof. exact @drain_positions. Qed.
Print Assumptions C05_drain_positions_partial.

Example C05_drain_positions_case :
  let b := fst (brun (new_storage KeepAll) [OForcePush 0 1; OForcePush 0 2; OForcePush 0 3]) in
  1 <= 3 /\ 3 <= length (iter b 0) /\ snd (drain b 0 1 3) = Drained [1; 2].
Proof. repeat split; cbn; lia. Qed.

(** C05. The positions accepted by [drain] are not those accepted by [get]: the
    value at position 0 is the oldest for [get] but [drain(0..1)] removes the
    newest. *)
Theorem C05_drain_agrees_with_get_refuted :
  exists (b : storage nat) (s : entity),
  get b s 0 = Some 1 /\ snd (drain b s 0 1) = Drained [2] /\
  exists ops, b = fst (brun (new_storage KeepAll) ops).
Proof. exact drain_get_disagree. Qed.
Print Assumptions C05_drain_agrees_with_get_refuted.

(** C05. [get], [get_mut] and iteration agree on positions. *)
Theorem C05_get_positions :
  forall (V : Type) (b : storage V) (s : entity) (i : nat) (f : V -> V),
  get b s i = nth_error (iter b s) i /\
  snd (get_mut b s i f) = nth_error (iter b s) i /\
  (forall j, nth_error (iter (fst (get_mut b s i f)) s) j
     = if Nat.eqb j i then option_map f (nth_error (iter b s) j) else nth_error (iter b s) j).
Proof. exact @get_positions. Qed.
Print Assumptions C05_get_positions.

Example C05_get_positions_case :
  let b := fst (brun (new_storage KeepAll) [OForcePush 0 1; OForcePush 0 2; OForcePush 0 3]) in
  iter (fst (get_mut b 0 1 S)) 0 = [1; 3; 3].
Proof. reflexivity. Qed.
