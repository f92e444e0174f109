(** Property theorems C12, C13 and C14: collecting, forking, splitting. *)
From Verif Require Import Base RosterModel BufferModel InputModel InputSpec OpsModel OpsSpec OpsProofs.

(** Witness: nodes 1 to 9 take messages, 30 is an unused target; all nodes belong to the
    scope 100 and every session but 66 is active. Node 1 holds the messages [q]. *)
Definition owit (q : list (entity * val)) (sp : emap split_state) : oworld :=
  mk_ow
    (mk_world
       (fun k => if Nat.eqb k 1 then Some (mk_node (Some (rev q)) false false None)
                 else if k <? 10 then Some (mk_node (Some []) false false None)
                 else if Nat.eqb k 30 then Some (mk_node None true false None)
                 else None)
       (fun s => if Nat.eqb s 66 then Some Cleaning else Some Active) roster_new)
    (fun _ => Some 100) (fun _ => false) (fun _ _ => []) [] (fun _ => emap_empty) sp emap_empty.

Lemma owit_accepts q sp k : k <> 1 -> k <? 10 = true -> accepts (o_w (owit q sp)) k.
Proof.
  intros H1 H2. left. eexists _, _. unfold owit. cbn [o_w w_nodes]. destruct (Nat.eqb_spec k 1); [congruence|]. rewrite H2.
  split; reflexivity.
Qed.
Lemma owit_unused q sp : accepts (o_w (owit q sp)) 30.
Proof. right. eexists. cbn. split; [reflexivity|split; reflexivity]. Qed.

(** * C12 *)

(** For every history of arrivals, executions and disposal notices in any sessions, with
    any answers of the reachability checks, and clean-ups of other sessions: the batches
    sent for session [s] put one after the other, followed by what is held and by what
    still waits at the node, are the values that arrived, in order. Each batch has at
    least [min] and at most [max] elements, and fewer than [max] values are held. *)
Theorem C12_collect_batches :
  forall (min : nat) (max : option nat) (t n s : entity) (ops : list cop) (o : oworld),
  collect_setup_ok min max = true -> w_status (o_w o) s = Some Active ->
  receives (o_w o) n -> receives (o_w o) t -> t <> n ->
  pending (o_w o) n = [] -> pending (o_w o) t = [] -> (forall s, o_coll o n s = None) ->
  Forall (not_cleaning s) ops ->
  let o' := crun min max t n o ops in
  concat (batches o' t s) ++ progress o' n s ++ waiting_values o' n s = arrived s ops /\
  Forall (within min max) (batches o' t s) /\
  match max with Some m => length (progress o' n s) < m | None => True end.
Proof. exact collect_history. Qed.
Print Assumptions C12_collect_batches.

Example C12_collect_batches_case :
  let o := owit [] emap_empty in
  let ops := [CArrive 7 (VAtom 1); CArrive 8 (VAtom 9); CArrive 7 (VAtom 2); CExec (Some true);
              CExec (Some true); CCleanup true 8; CExec (Some true); CArrive 7 (VAtom 3);
              CExec (Some true); CArrive 7 (VAtom 4); CExec (Some true); CNotice 3 7 true (Some false);
              CArrive 7 (VAtom 5)] in
  (collect_setup_ok 2 (Some 3) = true /\ w_status (o_w o) 7 = Some Active /\
   receives (o_w o) 1 /\ receives (o_w o) 2 /\ Forall (not_cleaning 7) ops) /\
  batches (crun 2 (Some 3) 2 1 o ops) 2 7 = [[VAtom 1; VAtom 2; VAtom 3]] /\
  progress (crun 2 (Some 3) 2 1 o ops) 1 7 = [VAtom 4] /\
  disposals (crun 2 (Some 3) 2 1 o ops) 1 7 = [DDeficient 1 2 1].
Proof.
  split; [|split; [|split]]; try reflexivity.
  split; [reflexivity|]. split; [reflexivity|]. split; [do 2 eexists; split; reflexivity|]. split; [do 2 eexists; split; reflexivity|].
  repeat constructor; intros b; discriminate.
Qed.

(** When an execution learns that nothing more can come, all that is held leaves in one
    batch, unless it is less than [min]: then nothing is sent, the disposal is recorded at
    the node and the scope is told. *)
Theorem C12_collect_stop :
  forall (min : nat) (max : option nat) (t n : entity) (o : oworld) (s : entity) (v : val)
         (rest : list (entity * val)) (sc : entity),
  collect_setup_ok min max = true -> w_status (o_w o) s = Some Active ->
  receives (o_w o) t -> t <> n -> o_scope o n = Some sc ->
  pending (o_w o) n = (s, v) :: rest ->
  let l := progress o n s ++ [v] in
  match max with Some m => length l < m | None => True end ->
  let o' := cstep min max t n o (CExec (Some false)) in
  (min <= length l /\ batches o' t s = batches o t s ++ [l] /\ progress o' n s = [] /\
   notices o' = notices o /\ o_disp o' = o_disp o)
  \/ (length l < min /\ batches o' t s = batches o t s /\ progress o' n s = l /\
      notices o' = notices o ++ [mk_disposal sc n s] /\
      disposals o' n s = disposals o n s ++ [DDeficient n min (length l)]).
Proof. exact collect_stop. Qed.
Print Assumptions C12_collect_stop.

Example C12_collect_stop_case :
  let o := owit [(7, VAtom 5); (7, VAtom 6)] emap_empty in
  let o1 := cstep 2 None 2 1 o (CExec (Some true)) in
  (collect_setup_ok 2 None = true /\ receives (o_w o1) 2 /\ pending (o_w o1) 1 = [(7, VAtom 6)]) /\
  batches (cstep 2 None 2 1 o1 (CExec (Some false))) 2 7 = [[VAtom 5; VAtom 6]] /\
  batches (cstep 3 None 2 1 o1 (CExec (Some false))) 2 7 = [].
Proof.
  split; [|split; reflexivity]. split; [reflexivity|]. split; [|reflexivity]. do 2 eexists; split; reflexivity.
Qed.

(** The same when the node learns it through a disposal elsewhere. *)
Theorem C12_collect_stop_by_disposal :
  forall (min : nat) (max : option nat) (t n : entity) (o : oworld) (origin s sc : entity),
  w_status (o_w o) s = Some Active -> receives (o_w o) t -> receives (o_w o) n ->
  o_scope o n = Some sc -> origin <> n ->
  let l := progress o n s in
  let o' := cstep min max t n o (CNotice origin s true (Some false)) in
  (min <= length l /\ batches o' t s = batches o t s ++ [l] /\ progress o' n s = [] /\
   notices o' = notices o /\ o_disp o' = o_disp o)
  \/ (length l < min /\ batches o' t s = batches o t s /\ progress o' n s = l /\
      notices o' = notices o ++ [mk_disposal sc n s] /\
      disposals o' n s = disposals o n s ++ [DDeficient n min (length l)]).
Proof. exact collect_notice. Qed.
Print Assumptions C12_collect_stop_by_disposal.

Example C12_collect_stop_by_disposal_case :
  let o := crun 1 None 2 1 (owit [(7, VAtom 5)] emap_empty) [CExec (Some true)] in
  (w_status (o_w o) 7 = Some Active /\ o_scope o 1 = Some 100 /\ progress o 1 7 = [VAtom 5]) /\
  batches (cstep 1 None 2 1 o (CNotice 3 7 true (Some false))) 2 7 = [[VAtom 5]].
Proof. exact (conj (conj eq_refl (conj eq_refl eq_refl)) eq_refl). Qed.

(** Cleaning a session forgets what is held and what waits for it. *)
Theorem C12_collect_cleanup :
  forall (by_scope : bool) (n s : entity) (o : oworld),
  waiting_values (collect_cleanup by_scope n s o) n s = [] /\
  progress (collect_cleanup by_scope n s o) n s = [].
Proof. exact collect_cleaned. Qed.
Print Assumptions C12_collect_cleanup.

Example C12_collect_cleanup_case :
  let o := cstep 2 None 2 1 (owit [(7, VAtom 5); (7, VAtom 6); (8, VAtom 1)] emap_empty) (CExec (Some true)) in
  progress o 1 7 = [VAtom 5] /\ waiting_values o 1 7 = [VAtom 6] /\
  waiting_values (collect_cleanup true 1 7 o) 1 8 = [VAtom 1].
Proof. exact (conj eq_refl (conj eq_refl eq_refl)). Qed.

(** * C13 *)

(** fork_clone: one copy per branch (as many as a target has branches), each scheduled once,
    nothing disposed of. *)
Theorem C13_fork_clone :
  forall (ts : list entity) (n : entity) (o : oworld) (s : entity) (v : val) (rest : list (entity * val)),
  pending (o_w o) n = (s, v) :: rest -> w_status (o_w o) s = Some Active ->
  ts <> [] -> Forall (accepts (o_w o)) ts ->
  let o' := fst (fork_clone_execute ts n o) in
  snd (fork_clone_execute ts n o) = OpOk /\
  (forall m, receives (o_w o) m ->
     pending (o_w o') m
     = (if Nat.eqb m n then rest else pending (o_w o) m) ++ repeat (s, v) (count_occ Nat.eq_dec ts m)) /\
  queued o' = queued o ++ ts /\ notices o' = notices o /\ o_disp o' = o_disp o.
Proof. exact fork_clone_ok. Qed.
Print Assumptions C13_fork_clone.

Example C13_fork_clone_case :
  let o := owit [(7, VAtom 5); (8, VAtom 6)] emap_empty in
  Forall (accepts (o_w o)) [2; 30; 3] /\
  pending (o_w (fst (fork_clone_execute [2; 30; 3] 1 o))) 3 = [(7, VAtom 5)].
Proof.
  split; [|reflexivity].
  constructor; [apply owit_accepts; [discriminate|reflexivity]|].
  constructor; [apply owit_unused|].
  constructor; [apply owit_accepts; [discriminate|reflexivity]|constructor].
Qed.

(** "For every number of targets" is false for none: the code panics. *)
Theorem C13_fork_clone_no_branch_refuted :
  forall (n : entity) (o : oworld) (s : entity) (v : val) (rest : list (entity * val)),
  pending (o_w o) n = (s, v) :: rest -> snd (fork_clone_execute [] n o) = OpPanic.
Proof. exact fork_clone_none. Qed.
Print Assumptions C13_fork_clone_no_branch_refuted.

Example C13_fork_clone_no_branch_case :
  pending (o_w (owit [(7, VAtom 5)] emap_empty)) 1 = [(7, VAtom 5)].
Proof. reflexivity. Qed.

(** unzip: component [i] goes to target [i]. *)
Theorem C13_unzip :
  forall (ts : list entity) (n : entity) (o : oworld) (s : entity) (vs : list val) (rest : list (entity * val)),
  pending (o_w o) n = (s, VTuple vs) :: rest -> w_status (o_w o) s = Some Active ->
  length vs <= length ts -> Forall (accepts (o_w o)) ts ->
  let o' := fst (unzip_execute ts n o) in
  snd (unzip_execute ts n o) = OpOk /\
  (forall m, receives (o_w o) m ->
     pending (o_w o') m
     = (if Nat.eqb m n then rest else pending (o_w o) m)
       ++ map (fun v => (s, v)) (sent_to m (combine ts vs))) /\
  queued o' = queued o ++ firstn (length vs) ts /\ notices o' = notices o /\ o_disp o' = o_disp o.
Proof. exact unzip_ok. Qed.
Print Assumptions C13_unzip.

Example C13_unzip_case :
  let o := owit [(7, VTuple [VAtom 5; VNone; VUnit])] emap_empty in
  Forall (accepts (o_w o)) [2; 30; 3] /\
  pending (o_w (fst (unzip_execute [2; 30; 3] 1 o))) 2 = [(7, VAtom 5)] /\
  pending (o_w (fst (unzip_execute [2; 30; 3] 1 o))) 3 = [(7, VUnit)].
Proof.
  split; [|split; reflexivity].
  constructor; [apply owit_accepts; [discriminate|reflexivity]|].
  constructor; [apply owit_unused|].
  constructor; [apply owit_accepts; [discriminate|reflexivity]|constructor].
Qed.

(** fork_result and fork_option: the value goes to the branch that matches and nowhere else;
    a disposal for the other branch is recorded and the scope is told. *)
Theorem C13_branch :
  forall (n : entity) (o : oworld) (s : entity) (v : val) (ta tb : entity) (rest : list (entity * val)) (sc : entity)
         (act : val -> option (option val * option val)) (x : val) (used unused : entity),
  pending (o_w o) n = (s, v) :: rest -> w_status (o_w o) s = Some Active ->
  accepts (o_w o) ta -> accepts (o_w o) tb -> o_scope o n = Some sc ->
  (act = branch_result /\ ((v = VOk x /\ used = ta /\ unused = tb) \/ (v = VErr x /\ used = tb /\ unused = ta))
   \/ act = branch_option /\ ((v = VSome x /\ used = ta /\ unused = tb)
                              \/ (v = VNone /\ x = VUnit /\ used = tb /\ unused = ta))) ->
  let o' := fst (branching_execute act [ta; tb] n o) in
  snd (branching_execute act [ta; tb] n o) = OpOk /\
  (forall m, receives (o_w o) m ->
     pending (o_w o') m
     = (if Nat.eqb m n then rest else pending (o_w o) m) ++ (if Nat.eqb m used then [(s, x)] else [])) /\
  queued o' = queued o ++ [used] /\ notices o' = notices o ++ [mk_disposal sc n s] /\
  (forall n' s', o_disp o' n' s'
     = o_disp o n' s' ++ if Nat.eqb n' n && Nat.eqb s' s then [DBranching n unused] else []).
Proof. exact branch_ok. Qed.
Print Assumptions C13_branch.

Example C13_branch_case :
  let o := owit [(7, VErr (VAtom 5))] emap_empty in
  (accepts (o_w o) 2 /\ accepts (o_w o) 3) /\
  pending (o_w (fst (branching_execute branch_result [2; 3] 1 o))) 3 = [(7, VAtom 5)] /\
  pending (o_w (fst (branching_execute branch_result [2; 3] 1 o))) 2 = [].
Proof.
  split; [|split; reflexivity].
  split; apply owit_accepts; try discriminate; reflexivity.
Qed.

(** spread: the elements in order; with no element a disposal. *)
Theorem C13_spread :
  forall (t n : entity) (o : oworld) (s : entity) (l : list val) (rest : list (entity * val)) (sc : entity),
  pending (o_w o) n = (s, VList l) :: rest -> w_status (o_w o) s = Some Active ->
  accepts (o_w o) t -> o_scope o n = Some sc ->
  let o' := fst (spread_execute t n o) in
  snd (spread_execute t n o) = OpOk /\
  (forall m, receives (o_w o) m ->
     pending (o_w o') m
     = (if Nat.eqb m n then rest else pending (o_w o) m)
       ++ (if Nat.eqb m t then map (fun v => (s, v)) l else [])) /\
  queued o' = queued o ++ repeat t (length l) /\
  notices o' = notices o ++ (match l with [] => [mk_disposal sc n s] | _ => [] end) /\
  (forall n' s', o_disp o' n' s'
     = o_disp o n' s' ++
       match l with
       | [] => if Nat.eqb n' n && Nat.eqb s' s then [DEmptySpread n] else []
       | _ => []
       end).
Proof. exact spread_ok. Qed.
Print Assumptions C13_spread.

Example C13_spread_case :
  let o := owit [(7, VList [VAtom 1; VAtom 2]); (7, VList [])] emap_empty in
  pending (o_w (fst (spread_execute 2 1 o))) 2 = [(7, VAtom 1); (7, VAtom 2)] /\
  disposals (fst (spread_execute 2 1 (fst (spread_execute 2 1 o)))) 1 7 = [DEmptySpread 1].
Proof. exact (conj eq_refl eq_refl). Qed.

(** * C14 *)

(** Whatever a user does with a split builder, the split node is well formed: the keys
    connected are distinct and each has its own target. *)
Theorem C14_split_build :
  forall (ty : splittable) (ops : list bop),
  exists ts, split_wf (snd (brun ty ops)) (sb_used (fst (brun ty ops))) ts.
Proof. exact brun_wf. Qed.
Print Assumptions C14_split_build.

Example C14_split_build_case :
  sb_used (fst (brun (SplitArray 3) [BOutputFor (KSequential 1) 4; BOutputFor (KSequential 3) 5; BNext 6;
    BOutputFor KRemaining 7; BOutputFor (KSequential 1) 8; BNext 9; BNext 10]))
  = [KSequential 1; KSequential 0; KRemaining; KSequential 2].
Proof. reflexivity. Qed.

(** Asking for a branch: a key out of bounds or connected before is refused and nothing
    changes; else it is connected to the new target. *)
Theorem C14_split_output_for :
  forall (ty : splittable) (sb : split_builder) (sp : split_state) (k : skey) (t : entity) (ts : list entity),
  split_wf sp (sb_used sb) ts ->
  match output_for ty sb sp k t with
  | (sb', sp', None) => in_bounds ty k /\ ~ In k (sb_used sb) /\ split_wf sp' (sb_used sb ++ [k]) (ts ++ [t])
  | (sb', sp', Some KeyOutOfBounds) => ~ in_bounds ty k /\ sb' = sb /\ sp' = sp
  | (sb', sp', Some KeyAlreadyUsed) => In k (sb_used sb) /\ sb' = sb /\ sp' = sp
  end.
Proof. exact split_builder_calls. Qed.
Print Assumptions C14_split_output_for.

Example C14_split_output_for_case :
  split_wf (snd (brun SplitList [BNext 4])) (sb_used (fst (brun SplitList [BNext 4]))) [4].
Proof.
  unfold split_wf. cbn. split; [repeat constructor; cbn; tauto|].
  repeat (split; [reflexivity|]). split; [|reflexivity].
  intros k i. split.
  - intros [H|[]]. injection H as <- <-. reflexivity.
  - destruct i as [|[|i]]; cbn; intros H; try discriminate. injection H as <-. auto.
Qed.

(** Iterating over a split builder connects the least sequential key which is unused and
    not passed yet, and the loop needs no more turns than the model gives it. *)
Theorem C14_split_next :
  forall (ty : splittable) (sb : split_builder) (sp : split_state) (t : entity) (ts : list entity) (j : nat),
  split_wf sp (sb_used sb) ts -> seq_from (sb_last sb) = Some j ->
  (forall more, builder_next (S (S (length (sb_used sb))) + more) ty sb sp t
                = builder_next (S (S (length (sb_used sb)))) ty sb sp t) /\
  (forall sb' sp' k, builder_next (S (S (length (sb_used sb)))) ty sb sp t = (sb', sp', Some k) ->
     exists i, k = KSequential i /\ j <= i /\ ~ In k (sb_used sb) /\
               forall i', j <= i' < i -> In (KSequential i') (sb_used sb)).
Proof. exact split_next_ok. Qed.
Print Assumptions C14_split_next.

Example C14_split_next_case :
  let '(sb, sp) := brun SplitMap [BOutputFor (KSequential 0) 4; BOutputFor (KSequential 1) 5] in
  seq_from (sb_last sb) = Some 0 /\ snd (builder_next 4 SplitMap sb sp 6) = Some (KSequential 2).
Proof. exact (conj eq_refl eq_refl). Qed.

(** Splitting: the target of every connected key receives exactly the items planned for
    that key, in order; every delivery is scheduled; the keys for which there is no item
    are reported, all of them in one disposal; the node is ready for the next value. *)
Theorem C14_split :
  forall (is_map : bool) (n : entity) (o : oworld) (s : entity) (v : val) (rest : list (entity * val)) (sc : entity)
         (sp : split_state) (ks : list skey) (ts : list entity) (p : list (option skey * val)),
  o_split o n = Some sp -> split_wf sp ks ts ->
  pending (o_w o) n = (s, v) :: rest -> w_status (o_w o) s = Some Active ->
  Forall (accepts (o_w o)) ts -> o_scope o n = Some sc ->
  plan_of is_map ks v = Some p ->
  let o' := fst (split_execute is_map n o) in
  let missed := filter (no_items p) ks in
  snd (split_execute is_map n o) = OpOk /\
  (forall m, receives (o_w o) m ->
     pending (o_w o') m
     = (if Nat.eqb m n then rest else pending (o_w o) m)
       ++ map (fun x => (s, x)) (branch_items ks ts p m)) /\
  queued o' = queued o ++ concat (map (fun kt => repeat (snd kt) (length (planned (fst kt) p))) (combine ks ts)) /\
  (exists sp', o_split o' n = Some sp' /\ split_wf sp' ks ts) /\
  (forall n' s', o_disp o' n' s'
     = o_disp o n' s' ++ match missed with
                         | [] => []
                         | _ => if Nat.eqb n' n && Nat.eqb s' s
                                then [DIncompleteSplit n (map Some missed)] else []
                         end) /\
  notices o' = notices o ++ (match missed with [] => [] | _ => [mk_disposal sc n s] end).
Proof. exact split_ok. Qed.
Print Assumptions C14_split.

(** A branch with a target of its own gets its items and no others. *)
Theorem C14_split_branch :
  forall (ks : list skey) (ts : list entity) (p : list (option skey * val)) (i : nat) (k : skey) (t : entity),
  length ks = length ts -> NoDup ts -> nth_error ks i = Some k -> nth_error ts i = Some t ->
  branch_items ks ts p t = planned k p.
Proof. exact branch_items_own. Qed.
Print Assumptions C14_split_branch.

(** No element is planned for two branches and none with a destination is left out. *)
Theorem C14_split_once :
  forall (ks : list skey) (l : list val) (es : list (nat * val)), NoDup ks ->
  Permutation (concat (map (fun k => planned k (list_plan (connected ks) l)) ks))
    (map snd (filter (fun e : option skey * val => match fst e with Some _ => true | None => false end)
                (list_plan (connected ks) l))) /\
  Permutation (concat (map (fun k => planned k (map_plan (connected ks) es)) ks))
    (map snd (filter (fun e : option skey * val => match fst e with Some _ => true | None => false end)
                (map_plan (connected ks) es))).
Proof. exact plans_once. Qed.
Print Assumptions C14_split_once.

(** A map split with the branches "key 5", "position 0", "remaining" and "key 8". *)
Example C14_split_case :
  let sp := snd (brun SplitMap [BOutputFor (KSpecific 5) 2; BNext 3; BOutputFor KRemaining 4; BOutputFor (KSpecific 8) 5]) in
  let o := owit [(7, VList [VTuple [VAtom 9; VAtom 90]; VTuple [VAtom 5; VAtom 50]; VTuple [VAtom 6; VAtom 60]])]
             (fun n => if Nat.eqb n 1 then Some sp else None) in
  let o' := fst (split_execute true 1 o) in
  (Forall (accepts (o_w o)) [2; 3; 4; 5] /\
   plan_of true [KSpecific 5; KSequential 0; KRemaining; KSpecific 8] (snd (nth 0 (pending (o_w o) 1) (0, VUnit))) <> None) /\
  pending (o_w o') 2 = [(7, VTuple [VAtom 5; VAtom 50])] /\
  pending (o_w o') 3 = [(7, VTuple [VAtom 9; VAtom 90])] /\
  pending (o_w o') 4 = [(7, VTuple [VAtom 6; VAtom 60])] /\
  disposals o' 1 7 = [DIncompleteSplit 1 [Some (KSpecific 8)]].
Proof.
  split; [|exact (conj eq_refl (conj eq_refl (conj eq_refl eq_refl)))].
  split; [|discriminate].
  repeat (constructor; [apply owit_accepts; [discriminate|reflexivity]|]). constructor.
Qed.
