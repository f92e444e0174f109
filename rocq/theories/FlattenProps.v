(** C33: a flattened promise has the outcome of the promise inside. *)
From Verif Require Import Base PromiseModel FlattenModel FlattenSpec FlattenProofs FlattenProofs2.
From Coq Require Import Permutation.

(** Whatever anyone sees in a promise, flattened or not and nested to any depth, is the
    outcome which the sent results and the flattenings imply. *)
Theorem C33_sound_partial {T} (acts : list (faction T)) k s :
  clean (f_log (frun acts)) ->
  In (FSaw k s) (f_log (frun acts)) \/ In (FTook k s) (f_log (frun acts)) -> s <> Pending -> s <> Taken ->
  exists r, yields (f_log (frun acts)) k r /\ s = shown r.
Proof. exact (run_sound acts k s). Qed.
Print Assumptions C33_sound_partial.

(** That outcome is unique. *)
Theorem C33_unique_partial {T} (acts : list (faction T)) k r r' :
  clean (f_log (frun acts)) -> yields (f_log (frun acts)) k r -> yields (f_log (frun acts)) k r' -> r = r'.
Proof.
  intros C Y Y'. pose proof (good_run acts C) as H.
  destruct (good_progress (repeat 0 (burden (frun acts))) _ H) as (G & L & D).
  apply (good_functional _ k r r' G); [|rewrite L; assumption ..]. apply D. rewrite repeat_length. lia.
Qed.
Print Assumptions C33_unique_partial.

(** Calls of [set] which are under way end, however their threads are scheduled. Then every
    promise a user holds shows the outcome which is implied, unless it was taken already, and is
    pending only if nothing is implied. *)
Theorem C33_complete_partial {T} (acts : list (faction T)) :
  clean (f_log (frun acts)) ->
  exists n, forall schedule, n <= length schedule ->
    f_flight (progress (frun acts) schedule) = [] /\
    forall k, c_owned (f_cell (progress (frun acts) schedule) k) = true ->
      exists s, f_log (fstep (progress (frun acts) schedule) (DoPeek k)) = f_log (frun acts) ++ [FSaw k s] /\
        (forall r, yields (f_log (frun acts)) k r -> s = shown r \/ was_taken (f_log (frun acts)) k) /\
        (s = Pending -> forall r, ~ yields (f_log (frun acts)) k r).
Proof.
  intros C. pose proof (good_run acts C) as H. exists (burden (frun acts)). intros schedule L.
  destruct (good_progress schedule _ H) as (G & E & D). specialize (D L). split; [exact D|]. intros k O.
  destruct (good_complete _ k G D O) as [P1 P2]. rewrite E in P1, P2.
  exists (view (f_cell (progress (frun acts) schedule) k)). split; [|split; assumption].
  cbn [fstep]. rewrite O. cbn. rewrite E. reflexivity.
Qed.
Print Assumptions C33_complete_partial.

(** A promise of a promise of a promise: flattened twice, before anything is sent, with the innermost
    value sent first, the outermost second. *)
Definition nested : list (faction nat) :=
  [DoNew; DoNew; DoNew; DoFlatten 0; DoFlatten 3; DoSend 2 (RAvailable (Leaf 7));
   DoSend 0 (RAvailable (Nest 1)); DoSend 1 (RAvailable (Nest 2)); DoDeliver 1; DoDeliver 1; DoPeek 4].
Example C33_case :
  clean (f_log (frun nested)) /\ yields (f_log (frun nested)) 4 (RAvailable (Leaf 7)) /\
  c_owned (f_cell (progress (frun nested) [0; 0; 0; 0; 0]) 4) = true /\ length (f_flight (frun nested)) = 2 /\
  f_log (fstep (progress (frun nested) [0; 0; 0; 0; 0]) (DoPeek 4)) = f_log (frun nested) ++ [FSaw 4 (Available (Leaf 7))] /\
  In (FSaw 4 Pending) (f_log (frun nested)).
Proof.
  assert (L : f_log (frun nested) = [FFlattened 0 3; FFlattened 3 4; FSent 2 (RAvailable (Leaf 7)); FSent 0 (RAvailable (Nest 1));
    FSent 1 (RAvailable (Nest 2)); FSaw 4 Pending]) by (vm_compute; reflexivity).
  split; [|split; [|split; [|split; [|split]]]].
  - rewrite L. intros l1 k v l2 E. exfalso. assert (Hi : In (FTook k (Available v)) [FFlattened 0 3; FFlattened 3 4; FSent 2 (RAvailable (Leaf 7)); FSent 0 (RAvailable (Nest 1));
    FSent 1 (RAvailable (Nest 2)); FSaw 4 Pending]) by (rewrite E; apply in_or_app; cbn; auto).
    cbn in Hi. intuition discriminate.
  - rewrite L. apply (yields_inner _ 3 2); [cbn; auto| |apply yields_sent; cbn; auto].
    apply (yields_inner _ 0 1); [cbn; auto| |]; apply yields_sent; cbn; auto 10.
  - vm_compute. reflexivity.
  - vm_compute. reflexivity.
  - vm_compute. reflexivity.
  - rewrite L. cbn. auto 10.
Qed.

(** Without the hypothesis [clean] it is false: when the promise inside was taken before it was
    sent, what the flattened promise shows depends on the order of flattening and sending, and it
    is not what was taken. *)
Definition taken_first (rest : list (faction nat)) : list (faction nat) :=
  [DoNew; DoNew; DoSend 1 (RAvailable (Leaf 7)); DoDeliver 0; DoTake 1] ++ rest.
Theorem C33_taken_refuted :
  exists acts acts' : list (faction nat),
    Permutation (deeds (f_log (frun acts))) (deeds (f_log (frun acts'))) /\
    f_flight (frun acts) = [] /\ f_flight (frun acts') = [] /\
    In (FSaw 2 Taken) (f_log (frun acts)) /\ In (FSaw 2 Disposed) (f_log (frun acts')) /\
    yields (f_log (frun acts)) 2 (RAvailable (Leaf 7)) /\ yields (f_log (frun acts')) 2 (RAvailable (Leaf 7)).
Proof.
  exists (taken_first [DoSend 0 (RAvailable (Nest 1)); DoDeliver 0; DoFlatten 0; DoPeek 2]),
         (taken_first [DoFlatten 0; DoSend 0 (RAvailable (Nest 1)); DoDeliver 0; DoDeliver 0; DoPeek 2]).
  split; [vm_compute; do 2 apply perm_skip; apply perm_swap|].
  split; [vm_compute; reflexivity|]. split; [vm_compute; reflexivity|].
  split; [vm_compute; auto 10|]. split; [vm_compute; auto 10|].
  split; apply (yields_inner _ 0 1); try (apply yields_sent); vm_compute; auto 10.
Qed.
Print Assumptions C33_taken_refuted.
