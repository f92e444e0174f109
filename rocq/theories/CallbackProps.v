(** C74: requests of a callback, also those made while it runs. *)
From Verif Require Import Base CallbackModel CallbackSpec CallbackProofs.

(** The callback runs for the requests of a node in their order, each once; afterwards the callback
    is available again. *)
Theorem C74_requests_once_in_order :
  forall (V U : Type) (crun : U -> nat -> nat -> V -> U * list (nat * nat * V)) u w r,
    creach crun u w r ->
    cw_available w = true /\ cw_locked w = false /\ cw_queue w = [] /\
    forall n, c_issued n (cw_log w) = c_served n (cw_log w) ++ cw_inputs w n.
Proof.
  intros V U crun u w r R. destruct (reach_all crun u w r R) as (H1 & (Ha & Hl & Hq) & _).
  repeat split; assumption.
Qed.

(** Once nothing is left to execute, the callback has run for every request. *)
Theorem C74_every_request_is_served :
  forall (V U : Type) (crun : U -> nat -> nat -> V -> U * list (nat * nat * V)) u w,
    creach crun u w [] -> forall n, c_issued n (cw_log w) = c_served n (cw_log w).
Proof.
  intros V U crun u w R n. destruct (reach_all crun u w [] R) as (H1 & (_ & _ & Hq) & H3).
  rewrite H1. specialize (H3 n). rewrite Hq in H3. cbn [cn] in H3.
  destruct (cw_inputs w n); [apply app_nil_r|cbn [length] in H3; lia].
Qed.

(** Requests made while the callback runs are served in the order in which they were made. *)
Theorem C74_nested_requests_in_order :
  forall (V U : Type) (crun : U -> nat -> nat -> V -> U * list (nat * nat * V)) u w n s v fuel w',
    creach crun u w [] -> c_made (cw_log w) = c_ran (cw_log w) ->
    cexec crun fuel n (cgive n s v w) = Done w' ->
    c_made (cw_log w') = c_ran (cw_log w').
Proof.
  intros V U crun u w n s v fuel w' R Hm E. destruct (reach_all crun u w [] R) as (H1 & H2 & H3).
  assert (Ho : COrd w []).
  { split; [symmetry; apply H2|]. split; [|rewrite app_nil_r; exact Hm].
    intros m. specialize (H3 m). destruct H2 as (_ & _ & Hq). rewrite Hq in H3. cbn [cn] in H3.
    destruct (cw_inputs w m); [reflexivity|cbn [length] in H3; lia]. }
  destruct (cexec_COrd crun fuel n s v w w' H2 Ho E) as (_ & _ & Hf). rewrite app_nil_r in Hf. exact Hf.
Qed.

(** A request ends if the requests made while the callback runs make no further requests. *)
Theorem C74_requests_end_partial :
  forall (V U : Type) (crun : U -> nat -> nat -> V -> U * list (nat * nat * V)) u w n s v,
    creach crun u w [] -> c_made (cw_log w) = c_ran (cw_log w) -> nests_flat crun ->
    exists fuel w', cexec crun fuel n (cgive n s v w) = Done w'.
Proof.
  intros V U crun u w n s v R Hm Hf. destruct (reach_all crun u w [] R) as (H1 & H2 & H3).
  apply cexec_flat; [exact Hf|exact H2|].
  split; [symmetry; apply H2|]. split; [|rewrite app_nil_r; exact Hm].
  intros m. specialize (H3 m). destruct H2 as (_ & _ & Hq). rewrite Hq in H3. cbn [cn] in H3.
  destruct (cw_inputs w m); [reflexivity|cbn [length] in H3; lia].
Qed.

(** If a request that was made while the callback ran makes one as well, the callback waits for
    itself for ever. *)
Theorem C74_requests_end_refuted :
  forall (V U : Type) (crun : U -> nat -> nat -> V -> U * list (nat * nat * V)) u w n s v u1 m t x r1 u2 y r2,
    creach crun u w [] ->
    crun (cw_user w) n s v = (u1, (m, t, x) :: r1) -> crun u1 m t x = (u2, y :: r2) ->
    forall fuel, cexec crun (S fuel) n (cgive n s v w) = Deadlock.
Proof.
  intros V U crun u w n s v u1 m t x r1 u2 y r2 R E1 E2 fuel.
  destruct (reach_all crun u w [] R) as (H1 & (Ha & Hl & Hq) & H3).
  assert (Hi : forall k, cw_inputs w k = []).
  { intros k. specialize (H3 k). rewrite Hq in H3. cbn [cn] in H3.
    destruct (cw_inputs w k); [reflexivity|cbn [length] in H3; lia]. }
  unfold cexec. cbn [cgive cw_locked cw_available]. rewrite Hl, Ha.
  unfold call at 1. cbn [set_available cgive cw_inputs cw_user]. rewrite Nat.eqb_refl, Hi. cbn [app].
  rewrite E1. cbn [nested cw_locked set_available cgive]. rewrite Hl.
  (* the further requests do not change the head of the queue, nor the head of the inputs of m *)
  match goal with |- context [nested r1 ?w0] => set (w1 := w0) end.
  assert (Hn : forall l (w2 : cworld V U), cw_locked w2 = false ->
            (exists q, cw_queue w2 = m :: q) -> (exists i, cw_inputs w2 m = (t, x) :: i) -> cw_user w2 = u1 ->
            match nested l w2 with
            | None => False
            | Some w3 => (exists q, cw_queue w3 = m :: q) /\ (exists i, cw_inputs w3 m = (t, x) :: i) /\
                         cw_user w3 = u1
            end).
  { induction l as [|[[k s'] v'] l IH]; intros w2 L [q Q] [i I] W; cbn [nested].
    - repeat split; [exists q; exact Q|exists i; exact I|exact W].
    - rewrite L. apply IH; [exact L| | |exact W].
      + exists (q ++ [k]). cbn [cenqueue cgive cw_queue]. rewrite Q. reflexivity.
      + cbn [cenqueue cgive cw_inputs]. destruct (Nat.eqb_spec m k) as [<-|]; [|exists i; exact I].
        exists (i ++ [(s', v')]). rewrite I. reflexivity. }
  specialize (Hn r1 w1). destruct (nested r1 w1) as [w3|] eqn:E3.
  - destruct Hn as ([q Q] & [i I] & W); [reflexivity| | |reflexivity|].
    + exists []. cbn [w1 cenqueue cgive set_available cw_queue]. rewrite Hq. reflexivity.
    + exists []. cbn [w1 cenqueue cgive cw_inputs]. rewrite Nat.eqb_refl.
      destruct (Nat.eqb_spec m n) as [->|]; [reflexivity|]. rewrite Hi. reflexivity.
    + cbn [drain]. rewrite Q. unfold call. cbn [set_locked set_cqueue cw_inputs cw_user]. rewrite I, W, E2.
      destruct y as [[k a] b]. cbn [nested cw_locked]. reflexivity.
  - exfalso. apply Hn; [reflexivity| | |reflexivity].
    + exists []. cbn [w1 cenqueue cgive set_available cw_queue]. rewrite Hq. reflexivity.
    + exists []. cbn [w1 cenqueue cgive cw_inputs]. rewrite Nat.eqb_refl.
      destruct (Nat.eqb_spec m n) as [->|]; [reflexivity|]. rewrite Hi. reflexivity.
Qed.

(** ** Cases: a callback that counts down *)
Definition cb_count (u : unit) (n s v : nat) : unit * list (nat * nat * nat) :=
  match v with 0 => (tt, []) | S v' => (tt, [(1, s, v'); (2, s, v')]) end.

(** A request that makes two requests: all three are served. *)
Example C74_nested_requests_in_order_case :
  exists w', cexec cb_count 5 1 (cgive 1 7 1 (cfresh tt)) = Done w' /\
    creach cb_count tt w' [] /\
    c_ran (cw_log w') = [(1, 7, 1); (1, 7, 0); (2, 7, 0)].
Proof.
  assert (H : match cexec cb_count 5 1 (cgive 1 7 1 (cfresh tt)) with
              | Done w' => c_ran (cw_log w') = [(1, 7, 1); (1, 7, 0); (2, 7, 0)]
              | _ => False end) by (vm_compute; reflexivity).
  destruct (cexec cb_count 5 1 (cgive 1 7 1 (cfresh tt))) as [w'| |] eqn:E; [|destruct H|destruct H].
  exists w'. split; [reflexivity|]. split; [|exact H].
  apply (cr_exec cb_count tt (cgive 1 7 1 (cfresh tt)) 1 [] 5); [|exact E].
  apply (cr_give cb_count tt (cfresh tt) [] 1 7 1). apply cr_fresh.
Qed.

(** A chain of two deadlocks. *)
Example C74_requests_end_refuted_case : cexec cb_count 5 1 (cgive 1 7 2 (cfresh tt)) = Deadlock.
Proof. reflexivity. Qed.

(** A callback whose requests make no further ones. *)
Example C74_requests_end_case :
  nests_flat (fun (u : unit) (n s v : nat) =>
                match v with 0 => (tt, []) | _ => (tt, [(1, s, 0); (2, s, 0)]) end).
Proof.
  intros u n s v m t x H u'. destruct v as [|v]; cbn in H; [destruct H|].
  destruct H as [[= _ _ <-]|[[= _ _ <-]|[]]]; reflexivity.
Qed.

Print Assumptions C74_requests_once_in_order.
Print Assumptions C74_every_request_is_served.
Print Assumptions C74_nested_requests_in_order.
Print Assumptions C74_requests_end_partial.
Print Assumptions C74_requests_end_refuted.
