(** C57: where the connections of a workflow lead to. *)
From Verif Require Import Base ConnectModel ConnectSpec ConnectProofs ConnectProofs2 ConnectProofs3 ConnectProofs4 ConnectProofs5.

(** Whatever is built, connections are known at both ends alike: [m] is one of the inputs
    of [t], once, if and only if a port of [m] leads to [t]; nothing leads to an entity
    that does not exist; every unused output is at the end of one port; nothing is
    reported as broken. *)
Theorem C57_agree l : Forall distinct_streams l ->
  let a := build l in
  (forall m t, In m (inputs a t) <-> exists p, p <> PStart /\ leads_to a m p = Some t) /\
  (forall t, NoDup (inputs a t)) /\
  (forall m p t, leads_to a m p = Some t -> exists_ a t) /\
  (forall o, In o (a_outs a) -> exists m p, leads_to a m p = Some o /\
     forall m' p', leads_to a m' p' = Some o -> m' = m /\ p' = p) /\
  cw_errors (a_w a) = [].
Proof.
  intros H a. destruct (sound_build l H) as [I S F]. fold a in I, S, F. split; [|split; [|split; [|split]]].
  - intros m t. unfold inputs. split.
    + intros Hin. destruct (cw_node (a_w a) t) as [d|] eqn:E; [|destruct Hin].
      destruct (i_up a I t d m E Hin) as [c [Ec Hc]]. destruct (F m c t Ec Hc) as [p [Hp Hq]]. exists p. split; [exact Hp|].
      rewrite leads_portof, Ec. exact Hq.
    + intros [p [Hp Hl]]. rewrite leads_portof in Hl. destruct (cw_node (a_w a) m) as [c|] eqn:Ec; [|discriminate].
      destruct (i_down a I m c t Ec (port_target c p t Hp Hl)) as [d [Ed Hd]]. rewrite Ed. exact Hd.
  - intros t. unfold inputs. destruct (cw_node (a_w a) t) as [d|] eqn:E; [|constructor]. exact (i_nodup a I t d E).
  - intros m p t Hl. exact (leads_live a m p t I Hl).
  - exact S.
  - exact (i_errors a I).
Qed.
Print Assumptions C57_agree.

(** Connecting an output to a slot makes the port which led to the output lead to the slot
    and changes no other port. *)
Theorem C57_connect l o n : Forall distinct_streams l -> In o (a_outs (build l)) -> In n (a_slots (build l)) ->
  let a := build (l ++ [AConnect o n]) in
  (forall m p, leads_to (build l) m p = Some o -> leads_to a m p = Some n) /\
  (forall m p, leads_to (build l) m p <> Some o -> leads_to a m p = leads_to (build l) m p) /\
  ~ exists_ a o.
Proof.
  intros H Ho Hn a. destruct (sound_build l H) as [I _ _]. assert (Ea : a = astep (build l) (AConnect o n)) by (subst a; unfold build; rewrite fold_left_app; reflexivity).
  rewrite Ea. clear a Ea. pose proof (connect_ports _ o n I Ho Hn) as P. split; [|split].
  - intros m p E. rewrite P, E. cbn. rewrite swap_o. reflexivity.
  - intros m p E. rewrite P. destruct (leads_to (build l) m p) as [t|]; [|reflexivity]. cbn. rewrite swap_other; [reflexivity|congruence].
  - unfold exists_. cbn [astep]. rewrite (proj2 (has_In (a_outs (build l)) o) Ho), (proj2 (has_In (a_slots (build l)) n) Hn).
    cbn [andb a_w]. destruct (connect_nodes _ o n I Ho Hn) as [_ [_ [W _]]]. rewrite W. auto.
Qed.
Print Assumptions C57_connect.

(** In the end: a port whose output was connected to [n] leads to [n], whatever is built
    before and after; one whose output is unused leads to it still; and a port that leads
    to a slot never changes. *)
Theorem C57_final l l' : Forall distinct_streams (l ++ l') ->
  (forall o n m p, In o (a_outs (build l)) -> In n (a_slots (build l)) ->
     leads_to (build l) m p = Some o -> leads_to (build (l ++ AConnect o n :: l')) m p = Some n) /\
  (forall o m p, In o (a_outs (build (l ++ l'))) ->
     leads_to (build l) m p = Some o -> leads_to (build (l ++ l')) m p = Some o) /\
  (forall t m p, ~ In t (a_outs (build l)) ->
     leads_to (build l) m p = Some t -> leads_to (build (l ++ l')) m p = Some t).
Proof.
  intros H. apply Forall_app in H. destruct H as [H H']. pose proof (sound_build l H) as [I _ _].
  split; [|split].
  - intros o n m p Ho Hn Hl. destruct (C57_connect l o n H Ho Hn) as [P _].
    replace (l ++ AConnect o n :: l') with ((l ++ [AConnect o n]) ++ l') by (rewrite <- app_assoc; reflexivity).
    unfold build. rewrite fold_left_app. fold (build (l ++ [AConnect o n])).
    assert (Hd : Forall distinct_streams (l ++ [AConnect o n])) by (apply Forall_app; split; [exact H|repeat constructor]).
    apply port_stays_run; [apply (sound_build _ Hd)|exact H'|apply P, Hl|].
    intros Hin. apply (i_used _ (s_wired _ (sound_build _ Hd)) n Hin).
    unfold build. rewrite fold_left_app. fold (build l). cbn [fold_left astep].
    rewrite (proj2 (has_In (a_outs (build l)) o) Ho), (proj2 (has_In (a_slots (build l)) n) Hn). exact Hn.
  - intros o m p Ho Hl. unfold build in *. rewrite fold_left_app in *. fold (build l) in *. apply port_waits_run; assumption.
  - intros t m p Hn Hl. unfold build in *. rewrite fold_left_app in *. fold (build l) in *. apply port_stays_run; assumption.
Qed.
Print Assumptions C57_final.

(** Two streams of the same type, or the same name, in one node: an error is reported, the
    second one is an output which no port leads to, and connecting it adds an input to the
    slot that never sends anything. *)
Theorem C57_same_streams_refuted : exists l o n,
  In o (a_outs (build l)) /\ In n (a_slots (build l)) /\ cw_errors (a_w (build l)) = [StreamDuplicate o] /\
  (forall m p, leads_to (build l) m p <> Some o) /\
  let a := build (l ++ [AConnect o n]) in
  inputs a n = [0] /\ (forall m p, leads_to a m p <> Some n) /\ In (NotConnected 0) (cw_errors (a_w a)).
Proof.
  exists [ACreate (mk_shape true None [7; 7] []); ACreate (mk_shape true None [] [])], 3, 4.
  assert (K : forall (a : api) t, (forall m, match cw_node (a_w a) m with Some c => ~ In t (targets c) /\ c_start c <> Some t | None => True end) ->
     forall m p, leads_to a m p <> Some t).
  { intros a t H m p E. rewrite leads_portof in E. specialize (H m). destruct (cw_node (a_w a) m) as [c|]; [|discriminate].
    destruct H as [H1 H2]. destruct (port_eq p) as [->|Hp]; [exact (H2 E)|]. exact (H1 (port_target c p t Hp E)). }
  split; [vm_compute; tauto|]. split; [vm_compute; tauto|]. split; [vm_compute; reflexivity|].
  split; [|split; [vm_compute; reflexivity|split; [|vm_compute; tauto]]].
  - apply K. intros m. do 6 (destruct m as [|m]; [vm_compute; intuition discriminate|]). vm_compute. exact Logic.I.
  - apply K. intros m. do 6 (destruct m as [|m]; [vm_compute; intuition discriminate|]). vm_compute. exact Logic.I.
Qed.
Print Assumptions C57_same_streams_refuted.

(** A service with a stream, a fork and a scope: the input of the scope is connected to a
    clone, its start to a node, and the stream to that node as well. *)
Definition ex_connect : list act :=
  [ACreate (mk_shape true None [1] []); (* node 0, output 1, stream 2 *)
   AChain 1 (mk_shape false (Some 0) [] []); (* fork at 1 *)
   ABranch 1; (* output 3 *)
   AScope; (* scope 4, exit 5, entry 6, terminal 7 *)
   AConnect 3 4;
   ACreate (mk_shape true None [] []); (* node 8, output 9 *)
   AConnect 6 8;
   AConnect 2 8;
   AConnect 9 7].

Example C57_case :
  Forall distinct_streams ex_connect /\
  let a := build ex_connect in
  a_outs a = [5] /\
  leads_to a 0 (PAnon 1) = Some 8 /\ leads_to a 1 (PFork 0) = Some 4 /\ leads_to a 4 PStart = Some 8 /\
  leads_to a 8 PSingle = Some 7 /\ leads_to a 4 PSingle = Some 5 /\ inputs a 8 = [0] /\ inputs a 4 = [1].
Proof. split; [repeat constructor; intros []|]. vm_compute. repeat split. Qed.
