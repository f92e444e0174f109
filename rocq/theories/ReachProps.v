(** Properties C15, C16, C17 and C44: reachability and downstream checks. *)
From Verif Require Import Base ReachModel ReachSpec ReachProofs.

(** ** C15: a yes is right, on every graph and whatever the number of turns. *)
Theorem C15_reachability_sound (g : emap rkind) fuel n :
  check_reachability fuel g n = RYes -> triggerable g n.
Proof. exact (reachability_yes g fuel n). Qed.
Print Assumptions C15_reachability_sound.

(** A cyclic graph: 0 holds work, 1 and 2 feed each other, 3 is a join of the buffers 4
    (fed by 2) and 5 (holding a value). *)
Definition reach_example : emap rkind := fun n =>
  match n with
  | 0 => Some (KWork [Some false; Some true] (Some []))
  | 1 => Some (KWork [Some false] (Some [2; 0]))
  | 2 => Some (KWork [Some false] (Some [1; 0]))
  | 3 => Some (KJoin [(4, Some 0); (5, Some 1)])
  | 4 => Some (KBuffer true [(6, true)] [] (Some false) (Some [2]))
  | 5 => Some (KBuffer false [] [] (Some false) (Some []))
  | 6 => Some (KWork [Some false] (Some [1]))
  | 7 => Some (KWork [Some false; Some false] (Some [3]))
  | _ => None
  end.
Example C15_reachability_sound_case : check_reachability 9 reach_example 7 = RYes.
Proof. reflexivity. Qed.

(** The check a collect makes of its upstream. *)
Theorem C15_collect_upstream_sound (g : emap rkind) fuel n has min held told inputs :
  g n = Some (KCollect has min held told inputs) -> is_upstream_active fuel g n = RYes ->
  has = Some true \/ exists m, listed m inputs /\ triggerable g m.
Proof. exact (upstream_active_yes g fuel n has min held told inputs). Qed.
Print Assumptions C15_collect_upstream_sound.
Example C15_collect_upstream_sound_case :
  let g := emap_set reach_example 8 (Some (KCollect (Some false) 2 (Some 1) false (Some [7]))) in
  is_upstream_active 9 g 8 = RYes.
Proof. reflexivity. Qed.

(** ** C16: the check ends with a yes or a no on every graph without loose ends, and more
    turns do not change the answer. *)
Theorem C16_reachability_terminates (g : emap rkind) nodes n : well_formed g nodes -> In n nodes ->
  forall more, let r := check_reachability (S (length nodes) + more) g n in
  r = check_reachability (S (length nodes)) g n /\ (r = RYes \/ r = RNo).
Proof. exact (reachability_answers g nodes n). Qed.
Print Assumptions C16_reachability_terminates.
Lemma reach_example_wf : well_formed reach_example [0;1;2;3;4;5;6;7].
Proof.
  assert (Hl : forall m l, listed m (Some l) -> In m l).
  { intros m l [l' [E H]]. injection E as <-. exact H. }
  split; [|split].
  - intros n. split.
    + do 8 (destruct n as [|n]; [intros _; cbn; tauto|]). cbn. congruence.
    + cbn. intros H. repeat (destruct H as [<-|H]; [discriminate|]). destruct H.
  - intros n k H. do 8 (destruct n as [|n]; [injection H as <-; cbn; intuition discriminate|]). discriminate.
  - intros n m H. do 8 (destruct n as [|n]; [cbn in H; repeat (destruct H as [H|H]); try (apply Hl in H; cbn in H);
      cbn; intuition lia|]). destruct H.
Qed.
Example C16_reachability_terminates_case : well_formed reach_example [0;1;2;3;4;5;6;7] /\ In 7 [0;1;2;3;4;5;6;7].
Proof. split; [exact reach_example_wf|cbn; tauto]. Qed.

(** When no operation needs several things the answer is exact, cycles or not. *)
Theorem C16_reachability_exact (g : emap rkind) nodes n fuel :
  well_formed g nodes -> In n nodes -> length nodes < fuel ->
  (forall m k, g m = Some k -> one_suffices k) ->
  (check_reachability fuel g n = RYes <-> triggerable g n) /\
  (check_reachability fuel g n = RNo <-> ~ triggerable g n).
Proof. exact (reachability_exact_or g nodes n fuel). Qed.
Print Assumptions C16_reachability_exact.
(** 1 and 2 form a cycle fed by 0, which holds work; 3 is a join of one buffer, 5 a
    collect, 6 an operation without upstream. *)
Definition or_example : emap rkind := fun n =>
  match n with
  | 0 => Some (KWork [Some true] (Some []))
  | 1 => Some (KWork [Some false] (Some [2; 0]))
  | 2 => Some (KService [Some false; Some false] (Some 6) (Some [1]))
  | 3 => Some (KJoin [(4, Some 0)])
  | 4 => Some (KBuffer false [] [(6, Some false)] (Some false) (Some [2]))
  | 5 => Some (KCollect (Some false) 3 (Some 1) false (Some [3]))
  | 6 => Some (KScope (Some false) (Some RNo) (Some []))
  | _ => None
  end.
Example C16_reachability_exact_case :
  well_formed or_example [0;1;2;3;4;5;6] /\ In 5 [0;1;2;3;4;5;6] /\
  (forall m k, or_example m = Some k -> one_suffices k) /\
  check_reachability 8 or_example 5 = RYes /\ check_reachability 8 or_example 6 = RNo.
Proof.
  assert (Hl : forall m l, listed m (Some l) -> In m l).
  { intros m l [l' [E H]]. injection E as <-. exact H. }
  split; [split; [|split]|split; [cbn; tauto|split; [|split; reflexivity]]].
  - intros n. split.
    + do 7 (destruct n as [|n]; [intros _; cbn; tauto|]). cbn. congruence.
    + cbn. intros H. repeat (destruct H as [<-|H]; [discriminate|]). destruct H.
  - intros n k H. do 7 (destruct n as [|n]; [injection H as <-; cbn; intuition discriminate|]). discriminate.
  - intros n m H. do 7 (destruct n as [|n]; [cbn in H; repeat (destruct H as [H|H]); try (apply Hl in H; cbn in H);
      try (injection H as <-); cbn; intuition lia|]). destruct H.
  - intros n k H. do 7 (destruct n as [|n]; [injection H as <-; cbn; eauto|]). discriminate.
Qed.

(** A collect's check of its upstream: a no means that nothing upstream can be triggered
    without the collect itself. *)
Theorem C16_collect_upstream_exact (g : emap rkind) fuel n has min held told inputs m :
  (forall m k, g m = Some k -> one_suffices k) ->
  g n = Some (KCollect has min held told inputs) -> is_upstream_active fuel g n = RNo ->
  has = Some false /\
  (listed m inputs -> ~ triggerable (fun x => if Nat.eq_dec x n then Some (KWork [] None) else g x) m).
Proof. exact (upstream_active_no' g fuel n has min held told inputs m). Qed.
Print Assumptions C16_collect_upstream_exact.
(** The collect 1 and the operation 2 form a cycle, the collect holds enough values. *)
Example C16_collect_upstream_exact_case :
  let g := fun n => match n with
    | 1 => Some (KCollect (Some false) 2 (Some 2) true (Some [2]))
    | 2 => Some (KWork [Some false] (Some [1]))
    | _ => None end in
  (forall m k, g m = Some k -> one_suffices k) /\ is_upstream_active 3 g 1 = RNo /\ triggerable g 2.
Proof.
  cbn zeta. split; [|split; [reflexivity|]].
  - intros m k H. do 3 (destruct m as [|m]; [try discriminate; injection H as <-; exact I|]). discriminate.
  - eapply T_work_in with (m := 1); [reflexivity|exists [1]; cbn; auto|].
    eapply T_collect_held; [reflexivity|lia].
Qed.

(** ** C17: false with joins in cycles. Join 0 of the buffers 1 and 2; buffer 1 receives
    from operation 3, which holds work, and from a listener 4 of buffer 2; buffer 2 receives
    from a listener 5 of buffer 1. While checking 2 the unfinished answer for 1 is taken for
    a no and kept for 2. *)
Theorem C17_join_cycle_refuted :
  exists g nodes n, well_formed g nodes /\ In n nodes /\ triggerable g n /\
    forall fuel, length nodes < fuel -> check_reachability fuel g n = RNo.
Proof. exact join_cycle_refuted. Qed.
Print Assumptions C17_join_cycle_refuted.

(** Without cycles the answer is exact, for joins of any number of buffers, closed gates
    included. Missing for the full claim: graphs with cycles (refuted above). *)
Theorem C17_reachability_exact_partial (g : emap rkind) nodes rank n fuel :
  well_formed g nodes -> In n nodes -> length nodes < fuel -> ranked g rank ->
  (check_reachability fuel g n = RYes <-> triggerable g n) /\
  (check_reachability fuel g n = RNo <-> ~ triggerable g n).
Proof. exact (reachability_exact_acyc g nodes rank n fuel). Qed.
Print Assumptions C17_reachability_exact_partial.
Definition acyc_example : emap rkind := fun n =>
  match n with
  | 0 => Some (KWork [Some true] (Some []))
  | 1 => Some (KBuffer true [(0, true)] [] (Some false) (Some [0]))
  | 2 => Some (KBuffer false [] [] (Some false) (Some [0; 1]))
  | 3 => Some (KJoin [(1, Some 0); (2, Some 0); (4, Some 1)])
  | 4 => Some (KBuffer true [] [] (Some false) (Some []))
  | 5 => Some (KJoin [(3, Some 0); (4, Some 0)])
  | _ => None
  end.
Example C17_reachability_exact_partial_case :
  well_formed acyc_example [0;1;2;3;4;5] /\ In 3 [0;1;2;3;4;5] /\
  ranked acyc_example (fun n => match n with 4 => 0 | _ => n end) /\
  check_reachability 7 acyc_example 3 = RYes /\ check_reachability 7 acyc_example 5 = RNo.
Proof.
  assert (Hl : forall m l, listed m (Some l) -> In m l).
  { intros m l [l' [E H]]. injection E as <-. exact H. }
  split; [split; [|split]|split; [cbn; tauto|split; [|split; reflexivity]]].
  - intros n. split.
    + do 6 (destruct n as [|n]; [intros _; cbn; tauto|]). cbn. congruence.
    + cbn. intros H. repeat (destruct H as [<-|H]; [discriminate|]). destruct H.
  - intros n k H. do 6 (destruct n as [|n]; [injection H as <-; cbn; intuition discriminate|]). discriminate.
  - intros n m H. do 6 (destruct n as [|n]; [cbn in H; repeat (destruct H as [H|H]); try (apply Hl in H; cbn in H);
      cbn; intuition lia|]). destruct H.
  - intros n m H. do 6 (destruct n as [|n]; [cbn in H; repeat (destruct H as [H|H]); try (apply Hl in H; cbn in H);
      repeat (destruct H as [H|H]); try contradiction; subst; cbn; lia|]). destruct H.
Qed.

(** ** C44: an operation is found downstream exactly when a chain of connections other than
    named streams leads to it, cycles or not. *)
Theorem C44_downstream_exact_partial (w : entity -> outputs) nodes source target fuel :
  one_storage w -> confined w nodes -> In source nodes -> 1 + connections w nodes < fuel ->
  exists b, is_downstream_of fuel w source target = Some b /\
            (b = true <-> source <> target /\ chain (plain w) source target).
Proof. exact (downstream_exact w nodes source target fuel). Qed.
Print Assumptions C44_downstream_exact_partial.
Definition down_example : entity -> outputs := fun n =>
  match n with
  | 0 => mk_outputs (Some 1) None [2] []
  | 1 => mk_outputs None (Some [0; 3]) [] []
  | 2 => mk_outputs None None [] [4]
  | _ => mk_outputs None None [] []
  end.
Example C44_downstream_exact_partial_case :
  one_storage down_example /\ confined down_example [0;1;2;3;4] /\ In 0 [0;1;2;3;4] /\
  is_downstream_of 9 down_example 0 3 = Some true /\ is_downstream_of 9 down_example 2 3 = Some false.
Proof.
  split; [|split; [|split; [cbn; tauto|split; reflexivity]]].
  - intros n. do 3 (destruct n as [|n]; [cbn; auto|]). cbn. auto.
  - intros n m _ H. do 3 (destruct n as [|n]; [destruct H as [H|l H1 H2|H]; cbn in *;
      try discriminate; try (injection H as <-); try (injection H1 as <-); cbn in *; intuition lia|]).
    destruct H as [H|l H1 H2|H]; cbn in *; try discriminate. destruct H.
Qed.

(** Named streams are not followed: an operation connected to another only through a named
    stream is not found downstream of it. *)
Theorem C44_named_stream_refuted :
  exists w source target, one_storage w /\ source <> target /\ chain (connected w) source target /\
    forall fuel, 2 <= fuel -> is_downstream_of fuel w source target = Some false.
Proof. exact named_stream_refuted. Qed.
Print Assumptions C44_named_stream_refuted.
