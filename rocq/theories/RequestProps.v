(** C72: requests are handed to services once and in order.
    C73: requests of a service that is gone are reported. *)
From Verif Require Import Base RequestModel RequestSpec RequestProofs RequestProofs2 RequestProofs3 RequestProofs4.

(** The requests of a node are taken in the order in which they were made, each once; the others
    wait at the node. *)
Theorem C72_requests_of_a_node_in_order :
  forall (V U : Type) (run : U -> nat -> nat -> nat -> V -> U * option (list (action V))) w0 w,
    rfresh w0 -> rreach run w0 w ->
    forall n, issued_at n (rw_log w) = taken_at n (rw_log w) ++ inputs_of n w.
Proof.
  intros V U run w0 w Hf R n.
  rewrite inputs_of_inp by exact (reach_nodup run w0 w Hf R). exact (reach_Inv1 run w0 w Hf R n).
Qed.

(** The requests that a service lets wait are continued in this order, each once. *)
Theorem C72_waiting_requests_in_order :
  forall (V U : Type) (run : U -> nat -> nat -> nat -> V -> U * option (list (action V))) w0 w p,
    rfresh w0 -> rreach run w0 w -> rw_alive w p = true ->
    queued_by p (rw_log w) = continued_by p (rw_log w) ++ orders_of p w.
Proof.
  intros V U run w0 w p Hf R Ha. pose proof (reach_Inv2 run w0 w Hf R p) as H. rewrite Ha in H. exact H.
Qed.

(** Once nothing is left to execute, every request was taken: if all services exist, also the
    requests made while services run. *)
Theorem C72_every_request_is_taken :
  forall (V U : Type) (run : U -> nat -> nat -> nat -> V -> U * option (list (action V))) w0 w,
    rfresh w0 -> rreach run w0 w -> all_available w -> rw_roster w = [] ->
    forall n, issued_at n (rw_log w) = taken_at n (rw_log w).
Proof.
  intros V U run w0 w Hf R Ha Hr n.
  destruct (reach_quiet run w0 w Hf (or_intror Ha) R) as [H3 Hq].
  rewrite (reach_Inv1 run w0 w Hf R n). specialize (H3 n). rewrite Hr, Hq in H3. cbn [cnt map] in H3.
  destruct (inp n (rw_nodes w)); [apply app_nil_r|cbn [length] in H3; lia].
Qed.

(** If services make no requests while they run, every request is taken, whichever services were
    despawned meanwhile. *)
Theorem C72_every_request_is_taken_despawned_partial :
  forall (V U : Type) (run : U -> nat -> nat -> nat -> V -> U * option (list (action V))) w0 w,
    rfresh w0 -> rreach run w0 w -> never_nests run -> rw_roster w = [] ->
    forall n, issued_at n (rw_log w) = taken_at n (rw_log w).
Proof.
  intros V U run w0 w Hf R Ha Hr n.
  destruct (reach_quiet run w0 w Hf (or_introl Ha) R) as [H3 Hq].
  rewrite (reach_Inv1 run w0 w Hf R n). specialize (H3 n). rewrite Hr, Hq in H3. cbn [cnt map] in H3.
  destruct (inp n (rw_nodes w)); [apply app_nil_r|cbn [length] in H3; lia].
Qed.

(** If each service makes at most one request while it runs, requests are served in the order in
    which they were made, whichever nodes and services they are for. *)
Theorem C72_chains_are_in_order_partial :
  forall (V U : Type) (run : U -> nat -> nat -> nat -> V -> U * option (list (action V)))
         w n s v fuel w',
    NoDup (map fst (rw_nodes w)) -> nests_once run -> all_available w -> rw_queue w = [] ->
    (forall m, inputs_of m w = []) -> made_order (rw_log w) = served_order (rw_log w) ->
    exec_node run fuel n (give n s v w) = Some w' ->
    made_order (rw_log w') = served_order (rw_log w').
Proof.
  intros V U run w n s v fuel w' Hnd Hn Ha Hq Hi Hl He.
  refine (proj2 (proj2 (exec_chain run fuel n s v w w' Hn Ha _ He))).
  split; [exact Hq|]. split; [|exact Hl].
  intros m. rewrite <- inputs_of_inp by exact Hnd. apply Hi.
Qed.

(** ** A world with three nodes; the service of the first one makes two requests *)
Definition rq_run (u : unit) (p n s : nat) (v : nat) : unit * option (list (action nat)) :=
  if Nat.eqb p 11 then (tt, Some [AcRequest 2 s 20; AcRequest 3 s 30]) else (tt, Some []).

Definition rq_run1 (u : unit) (p n s : nat) (v : nat) : unit * option (list (action nat)) :=
  if Nat.eqb p 11 then (tt, Some [AcRequest 2 s 20]) else (tt, Some []).

Definition rq_world (alive : nat -> bool) : rworld nat unit :=
  mk_rworld [(1, mk_snode 11 []); (2, mk_snode 12 []); (3, mk_snode 13 [])] alive alive [] [] [] [] tt [].

Lemma rq_fresh alive : rfresh (rq_world alive).
Proof.
  split; [|split].
  - cbn. repeat constructor; cbn; intuition discriminate.
  - intros n x [[= _ <-]|[[= _ <-]|[[= _ <-]|[]]]]; reflexivity.
  - repeat split.
Qed.

Lemma rq_available : all_available (rq_world (fun _ => true)).
Proof. intros n x _. reflexivity. Qed.

(** Running operations. *)
Definition rq_do {V U} (run : U -> nat -> nat -> nat -> V -> U * option (list (action V)))
    (w : rworld V U) (o : rop V) : option (rworld V U) :=
  match o with
  | OpGive n s v => Some (let w1 := give n s v w in set_roster w1 (rw_roster w1 ++ [n]))
  | OpExec => match rw_roster w with [] => None | n :: r => exec_node run 9 n (set_roster w r) end
  | OpNext p => Some (serve_next p w)
  | OpDespawn p => Some (despawn p w)
  | OpCollect => Some (collect w)
  end.

Fixpoint rq_all {V U} (run : U -> nat -> nat -> nat -> V -> U * option (list (action V)))
    (w : rworld V U) (os : list (rop V)) : option (rworld V U) :=
  match os with
  | [] => Some w
  | o :: os' => match rq_do run w o with None => None | Some w' => rq_all run w' os' end
  end.

Lemma rq_all_reach {V U} (run : U -> nat -> nat -> nat -> V -> U * option (list (action V))) os w0 w w' :
  rreach run w0 w -> rq_all run w os = Some w' -> rreach run w0 w'.
Proof.
  revert w. induction os as [|o os IH]; intros w R; cbn [rq_all]; [intros [= <-]; exact R|].
  destruct (rq_do run w o) as [w1|] eqn:E; [|discriminate]. apply IH. eapply rr_step; [exact R|].
  destruct o; cbn [rq_do] in E; try (injection E as <-; constructor).
  destruct (rw_roster w) as [|n r] eqn:Er; [discriminate|]. exact (rs_exec run w n r 9 w1 Er E).
Qed.

(** Requests made by the same service are served in the opposite order. *)
Theorem C72_nested_requests_in_order_refuted :
  exists (run : unit -> nat -> nat -> nat -> nat -> unit * option (list (action nat))) w0 w,
    rfresh w0 /\ all_available w /\ rreach run w0 w /\ rw_roster w = [] /\
    made_order (rw_log w) = [(1, 5, 10); (2, 5, 20); (3, 5, 30)] /\
    served_order (rw_log w) = [(1, 5, 10); (3, 5, 30); (2, 5, 20)].
Proof.
  exists rq_run, (rq_world (fun _ => true)). eexists. split; [apply rq_fresh|].
  match goal with |- ?A /\ ?B /\ ?C => cut (B /\ A /\ C); [intros (HB & HA & HC); exact (conj HA (conj HB HC))|] end. split.
  { apply (rq_all_reach _ [OpGive 1 5 10; OpExec] _ _ _ (rr_refl _ _)). vm_compute. reflexivity. }
  split; [intros n x _; reflexivity|]. repeat split; reflexivity.
Qed.

(** If a service requests something of a missing service while it runs, that request is never
    answered nor disposed; instead requests of another session that wait for the first service,
    which exists, are disposed. *)
Theorem C72_nested_unavailable_refuted :
  exists (run : unit -> nat -> nat -> nat -> nat -> unit * option (list (action nat))) w0 w,
    rfresh w0 /\ rreach run w0 w /\ rw_roster w = [] /\
    rw_alive w 11 = true /\ rw_alive w 12 = false /\
    issued_at 2 (rw_log w) = [(5, 20)] /\ taken_at 2 (rw_log w) = [] /\
    disposed_at 11 1 (rw_log w) = [(6, 10)].
Proof.
  exists rq_run1, (rq_world (fun p => negb (Nat.eqb p 12))). eexists. split; [apply rq_fresh|].
  split.
  { apply (rq_all_reach _ [OpGive 1 5 10; OpGive 1 6 10; OpExec; OpExec] _ _ _ (rr_refl _ _)). vm_compute. reflexivity. }
  repeat split; reflexivity.
Qed.

(** ** C73 *)

(** When a service that was there in an earlier flush is despawned, all requests that wait at its
    nodes are disposed, each once; other nodes are left alone. *)
Theorem C73_waiting_at_nodes_is_disposed :
  forall (V U : Type) (run : U -> nat -> nat -> nat -> V -> U * option (list (action V))) w0 w1 w p,
    rfresh w0 -> rreach run w0 w1 -> rreach run (collect w1) w -> rw_alive w p = true ->
    let w' := collect (despawn p w) in
    (forall n x, In (n, x) (rw_nodes w) -> sn_prov x = p ->
       disposed_at p n (rw_log w') = disposed_at p n (rw_log w) ++ inputs_of n w /\
       inputs_of n w' = []) /\
    (forall n x, In (n, x) (rw_nodes w) -> sn_prov x <> p -> ~ In (sn_prov x) (rw_removed w) ->
       inputs_of n w' = inputs_of n w /\
       forall q, disposed_at q n (rw_log w') = disposed_at q n (rw_log w)).
Proof.
  intros V U run w0 w1 w p Hf R1 R2 Ha w'.
  assert (R : rreach run w0 w).
  { eapply reach_trans; [|exact R2]. eapply rr_step; [exact R1|apply rs_collect]. }
  assert (Ht : rw_tracked w p = true) by (exact (reach_tracks run _ _ R2 (collect_tracks w1) p Ha)).
  pose proof (reach_nodup run w0 w Hf R) as Hnd.
  unfold w', collect, despawn. rewrite Ha, Ht. cbn [rw_nodes rw_alive rw_tracked rw_removed rw_orders rw_roster rw_queue rw_user rw_log].
  match goal with |- context [fold_left _ ?ps ?w1] => set (w2 := w1); set (rs := ps) end.
  assert (Hs : sig (rw_nodes (fold_left (fun w q => dispose_service q w) rs w2)) = sig (rw_nodes w)).
  { rewrite collect_fold_sig. reflexivity. }
  assert (Hnd' : NoDup (map fst (rw_nodes (fold_left (fun w q => dispose_service q w) rs w2)))).
  { rewrite <- sig_fst, Hs, sig_fst. exact Hnd. }
  split.
  - intros n x Hx <-.
    assert (Ho : owned n (sn_prov x) (rw_nodes w2) = true).
    { apply owned_sig. apply in_map_iff. exists (n, x). split; [reflexivity|exact Hx]. }
    rewrite !inputs_of_inp by assumption. rewrite collect_fold_log by exact Hnd.
    rewrite collect_fold_inp.
    assert (Hin : existsb (Nat.eqb (sn_prov x)) rs = true).
    { apply existsb_exists. exists (sn_prov x). split; [|apply Nat.eqb_refl].
      unfold rs. apply in_or_app. right. left. reflexivity. }
    rewrite Hin, Ho. split; [reflexivity|].
    replace (existsb _ rs) with true; [reflexivity|]. symmetry. apply existsb_exists.
    exists (sn_prov x). split; [|exact Ho]. unfold rs. apply in_or_app. right. left. reflexivity.
  - intros n x Hx Hne Hnr.
    assert (Ho : owned n (sn_prov x) (rw_nodes w2) = true).
    { apply owned_sig. apply in_map_iff. exists (n, x). split; [reflexivity|exact Hx]. }
    assert (Hno : forall q, In q rs -> owned n q (rw_nodes w2) = false).
    { intros q Hq. destruct (owned n q (rw_nodes w2)) eqn:E; [|reflexivity]. exfalso.
      assert (q = sn_prov x) as -> by exact (owned_one _ _ _ _ Hnd E Ho).
      unfold rs in Hq. apply in_app_or in Hq. destruct Hq as [Hq|[Hq|[]]]; [exact (Hnr Hq)|].
      exact (Hne (eq_sym Hq)). }
    rewrite !inputs_of_inp by assumption. rewrite collect_fold_inp. split.
    + replace (existsb _ rs) with false; [reflexivity|]. symmetry. apply not_true_iff_false.
      intros E. apply existsb_exists in E. destruct E as (q & Hq & E). rewrite (Hno q Hq) in E. discriminate.
    + intros q. rewrite collect_fold_log by exact Hnd.
      destruct (existsb (Nat.eqb q) rs) eqn:E; cbn [andb].
      * apply existsb_exists in E. destruct E as (q' & Hq' & E). apply Nat.eqb_eq in E. subst q'.
        rewrite (Hno q Hq'). apply app_nil_r.
      * apply app_nil_r.
Qed.

(** A request that waits in the queue of the service is lost: whatever happens later, its session
    is never told, unless it makes further requests. *)
Theorem C73_waiting_in_service_is_disposed_refuted :
  forall (V U : Type) (run : U -> nat -> nat -> nat -> V -> U * option (list (action V))) w0 w p n s v,
    never_nests run -> rfresh w0 -> rreach run w0 w ->
    rw_alive w p = true -> In (n, s, v) (orders_of p w) ->
    ~ told s (rw_log w) -> (forall m x, ~ In (s, x) (inputs_of m w)) ->
    orders_of p (despawn p w) = [] /\
    forall w', later run s (despawn p w) w' -> ~ told s (rw_log w').
Proof.
  intros V U run w0 w p n s v Hn Hf R Ha _ Ht Hi. split.
  - unfold despawn. rewrite Ha. unfold orders_of. cbn [rw_orders].
    pose proof (ords_filter p p (rw_orders w)) as E. rewrite Nat.eqb_refl in E. exact E.
  - intros w' L. refine (proj1 (silent_later run s _ w' Hn _ L)).
    apply silent_despawn. split; [exact Ht|]. intros m x.
    rewrite <- inputs_of_inp by exact (reach_nodup run w0 w Hf R). apply Hi.
Qed.

(** ** Cases *)

(** A service that lets every request but the first wait. *)
Definition rq_serial (u : nat) (p n s : nat) (v : nat) : nat * option (list (action nat)) :=
  match u with 0 => (1, Some []) | _ => (u, None) end.

Definition rq_world2 : rworld nat nat :=
  mk_rworld [(1, mk_snode 11 []); (2, mk_snode 11 []); (3, mk_snode 13 [])] (fun _ => true) (fun _ => true)
    [] [] [] [] 0 [].

Lemma rq_fresh2 : rfresh rq_world2.
Proof.
  split; [|split].
  - cbn. repeat constructor; cbn; intuition discriminate.
  - intros n x [[= _ <-]|[[= _ <-]|[[= _ <-]|[]]]]; reflexivity.
  - repeat split.
Qed.

Lemma rq_serial_never : never_nests rq_serial.
Proof. intros [|u] p n s v u' acts; cbn; intros [= _ <-] a []. Qed.

(** Three requests, the second and third wait, another one is still at its node. *)
Example C72_requests_of_a_node_in_order_case :
  exists w, rreach rq_serial rq_world2 w /\
    issued_at 1 (rw_log w) = [(5, 10); (6, 20); (7, 30); (8, 40)] /\
    taken_at 1 (rw_log w) = [(5, 10); (6, 20); (7, 30)] /\ inputs_of 1 w = [(8, 40)] /\
    queued_by 11 (rw_log w) = [(1, 6, 20); (1, 7, 30)] /\
    continued_by 11 (rw_log w) = [(1, 6, 20)] /\ orders_of 11 w = [(1, 7, 30)] /\
    rw_alive w 11 = true /\ rw_tracked w 11 = true /\ ~ told 7 (rw_log w) /\
    (forall m x, ~ In (7, x) (inputs_of m w)).
Proof.
  eexists. split.
  { apply (rq_all_reach _ [OpGive 1 5 10; OpGive 1 6 20; OpGive 1 7 30; OpExec; OpExec; OpExec; OpNext 11; OpGive 1 8 40] _ _ _ (rr_refl _ _)). vm_compute. reflexivity. }
  repeat split; try reflexivity.
  - intros (p & n & v & H). cbn in H. intuition discriminate.
  - intros m x. unfold inputs_of. cbn.
    destruct m as [|[|[|[|m]]]]; cbn; intuition discriminate.
Qed.

(** The same after a collection, as C73_waiting_at_nodes_is_disposed asks for, before which the
    service was not known to the flush. *)
Example C73_waiting_at_nodes_is_disposed_case :
  let w0 := mk_rworld (rw_nodes rq_world2) (fun _ => true) (fun _ => false) [] [] [] [] 0 [] in
  exists w1 w, rreach rq_serial w0 w1 /\ rreach rq_serial (collect w1) w /\
    rw_alive w 11 = true /\ inputs_of 1 w = [(6, 20); (8, 40)] /\ inputs_of 3 w = [(7, 30)] /\
    rw_log (collect (despawn 11 w)) =
      rw_log w ++ [RvDisposed 11 1 6 20; RvDisposed 11 1 8 40].
Proof.
  intros w0. eexists. eexists. split.
  { apply (rq_all_reach _ [OpGive 1 5 10; OpExec] _ _ _ (rr_refl _ _)). vm_compute. reflexivity. }
  split.
  { apply (rq_all_reach _ [OpGive 1 6 20; OpGive 3 7 30; OpGive 1 8 40] _ _ _ (rr_refl _ _)). vm_compute. reflexivity. }
  repeat split; reflexivity.
Qed.

Example C72_every_request_is_taken_case :
  exists w, rreach rq_run (rq_world (fun _ => true)) w /\ all_available w /\ rw_roster w = [] /\
    issued_at 2 (rw_log w) = [(5, 20)].
Proof.
  eexists. split.
  { apply (rq_all_reach _ [OpGive 1 5 10; OpExec] _ _ _ (rr_refl _ _)). vm_compute. reflexivity. }
  split; [intros n x _; reflexivity|]. split; reflexivity.
Qed.

(** A service is despawned while a request of it is on its way. *)
Example C72_every_request_is_taken_despawned_case :
  exists w, rreach rq_serial rq_world2 w /\ rw_roster w = [] /\ rw_alive w 11 = false /\
    taken_at 1 (rw_log w) = [(5, 10); (6, 20)] /\ disposed_at 11 1 (rw_log w) = [(6, 20)].
Proof.
  eexists. split.
  { apply (rq_all_reach _ [OpGive 1 5 10; OpGive 1 6 20; OpExec; OpDespawn 11; OpExec] _ _ _ (rr_refl _ _)). vm_compute. reflexivity. }
  repeat split; reflexivity.
Qed.

Lemma rq_run1_once : nests_once rq_run1.
Proof.
  intros u p n s v. unfold rq_run1. destruct (Nat.eqb p 11); do 2 eexists; (split; [reflexivity|]).
  - right. do 3 eexists. reflexivity.
  - left. reflexivity.
Qed.

Example C72_chains_are_in_order_case :
  exists w', exec_node rq_run1 9 1 (give 1 5 10 (rq_world (fun _ => true))) = Some w' /\
    served_order (rw_log w') = [(1, 5, 10); (2, 5, 20)].
Proof. eexists. split; [vm_compute; reflexivity|reflexivity]. Qed.

Print Assumptions C72_requests_of_a_node_in_order.
Print Assumptions C72_waiting_requests_in_order.
Print Assumptions C72_every_request_is_taken.
Print Assumptions C72_every_request_is_taken_despawned_partial.
Print Assumptions C72_chains_are_in_order_partial.
Print Assumptions C72_nested_requests_in_order_refuted.
Print Assumptions C72_nested_unavailable_refuted.
Print Assumptions C73_waiting_at_nodes_is_disposed.
Print Assumptions C73_waiting_in_service_is_disposed_refuted.
