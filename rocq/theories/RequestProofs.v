(** Invariants of the requests between nodes and services. *)
From Verif Require Import Base RequestModel RequestSpec.

Section Proofs.
  Context {V U : Type}.
  Implicit Types (w : rworld V U) (l : list (entity * snode V)).

  Definition inp (n : entity) l : list (entity * V) :=
    match find_node n l with Some x => sn_inputs x | None => [] end.

  Definition sig l : list (entity * entity) := map (fun nx => (fst nx, sn_prov (snd nx))) l.

  Lemma find_put n m i l :
    find_node n (put_inputs m i l) =
    (if Nat.eqb n m then option_map (fun x => mk_snode (sn_prov x) i) (find_node n l)
     else find_node n l).
  Proof.
    induction l as [|[k x] l IH]; cbn [find_node put_inputs].
    - destruct (Nat.eqb n m); reflexivity.
    - destruct (Nat.eqb_spec m k) as [->|Hmk]; cbn [find_node].
      + destruct (Nat.eqb_spec n k) as [->|Hnk]; [reflexivity|reflexivity].
      + destruct (Nat.eqb_spec n k) as [->|Hnk].
        * destruct (Nat.eqb_spec k m) as [->|]; [contradiction|reflexivity].
        * exact IH.
  Qed.

  Lemma sig_put m i l : sig (put_inputs m i l) = sig l.
  Proof.
    induction l as [|[k x] l IH]; cbn [put_inputs sig map]; [reflexivity|].
    destruct (Nat.eqb m k); cbn [sig map fst snd sn_prov]; [reflexivity|].
    f_equal. exact IH.
  Qed.

  Lemma inp_put n m i l :
    inp n (put_inputs m i l) =
    (if Nat.eqb n m then match find_node n l with Some _ => i | None => [] end else inp n l).
  Proof.
    unfold inp. rewrite find_put. destruct (Nat.eqb n m); [|reflexivity].
    destruct (find_node n l); reflexivity.
  Qed.

  Lemma find_sig n l x : find_node n l = Some x -> In (n, sn_prov x) (sig l).
  Proof.
    induction l as [|[k y] l IH]; cbn [find_node sig map fst snd]; [discriminate|].
    destruct (Nat.eqb_spec n k) as [->|H].
    - intros [= ->]. left; reflexivity.
    - intros E. right. apply IH, E.
  Qed.

  Lemma inputs_of_inp n w :
    NoDup (map fst (rw_nodes w)) -> inputs_of n w = inp n (rw_nodes w).
  Proof.
    unfold inputs_of, inp. induction (rw_nodes w) as [|[k x] l IH]; [reflexivity|].
    cbn [map fst flat_map snd find_node]. intros H. inversion H as [|? ? Hni Hnd]; subst.
    rewrite Nat.eqb_sym. destruct (Nat.eqb_spec n k) as [->|Hne].
    - replace (flat_map _ l) with (@nil (entity * V)); [apply app_nil_r|].
      symmetry. clear - Hni. induction l as [|[j y] l IH]; [reflexivity|].
      cbn [flat_map fst snd]. destruct (Nat.eqb_spec j k) as [->|].
      + exfalso. apply Hni. left; reflexivity.
      + apply IH. intros E. apply Hni. right. exact E.
    - apply IH, Hnd.
  Qed.

  Lemma flat_map_one {A B} (f : A -> list B) (l : list A) (x : A) :
    flat_map f (l ++ [x]) = flat_map f l ++ f x.
  Proof. rewrite flat_map_app. cbn [flat_map]. rewrite app_nil_r. reflexivity. Qed.

  (** Every request that was given to a node waits there or was taken, in order. *)
  Definition Inv1 w : Prop :=
    forall n, issued_at n (rw_log w) = taken_at n (rw_log w) ++ inp n (rw_nodes w).

  Lemma issued_disposed p n m (ii : list (entity * V)) :
    issued_at n (map (fun sv => RvDisposed p m (fst sv) (snd sv)) ii) = [].
  Proof. induction ii as [|a ii IH]; [reflexivity|exact IH]. Qed.

  Lemma taken_disposed p n m (ii : list (entity * V)) :
    taken_at n (map (fun sv => RvDisposed p m (fst sv) (snd sv)) ii) =
    if Nat.eqb m n then ii else [].
  Proof.
    induction ii as [|[s v] ii IH].
    - destruct (Nat.eqb m n); reflexivity.
    - unfold taken_at in *. cbn [map flat_map fst snd]. rewrite IH.
      destruct (Nat.eqb m n); reflexivity.
  Qed.

  Lemma issued_app n (a b : list (revent V)) : issued_at n (a ++ b) = issued_at n a ++ issued_at n b.
  Proof. apply flat_map_app. Qed.
  Lemma taken_app n (a b : list (revent V)) : taken_at n (a ++ b) = taken_at n a ++ taken_at n b.
  Proof. apply flat_map_app. Qed.

  Lemma give_Inv1 n s v w : Inv1 w -> Inv1 (give n s v w).
  Proof.
    intros H m. unfold give. destruct (find_node n (rw_nodes w)) as [x|] eqn:E; [|apply H].
    cbn [add_log set_nodes rw_log rw_nodes]. rewrite issued_app, taken_app, inp_put, H.
    cbn [issued_at taken_at flat_map]. rewrite !app_nil_r, <- app_assoc. f_equal.
    rewrite Nat.eqb_sym. destruct (Nat.eqb_spec m n) as [->|Hne].
    - rewrite E. unfold inp. rewrite E. reflexivity.
    - apply app_nil_r.
  Qed.

  Lemma dispose_node_Inv1 p n w : Inv1 w -> Inv1 (dispose_node p w n).
  Proof.
    intros H m. unfold dispose_node. destruct (find_node n (rw_nodes w)) as [x|] eqn:E; [|apply H].
    cbn [add_log set_nodes rw_log rw_nodes].
    rewrite issued_app, taken_app, inp_put, issued_disposed, taken_disposed, H, app_nil_r, <- app_assoc.
    f_equal. rewrite Nat.eqb_sym. destruct (Nat.eqb_spec m n) as [->|Hne].
    - rewrite E. unfold inp. rewrite E, app_nil_r. reflexivity.
    - reflexivity.
  Qed.

  Lemma fold_dispose_Inv1 p ns w : Inv1 w -> Inv1 (fold_left (dispose_node p) ns w).
  Proof.
    revert w. induction ns as [|n ns IH]; intros w H; [exact H|].
    apply IH, dispose_node_Inv1, H.
  Qed.

  Lemma dispose_service_Inv1 p w : Inv1 w -> Inv1 (dispose_service p w).
  Proof. apply fold_dispose_Inv1. Qed.

  Lemma despawn_Inv1 p w : Inv1 w -> Inv1 (despawn p w).
  Proof. intros H n. unfold despawn. destruct (rw_alive w p); apply H. Qed.

  Lemma enqueue_Inv1 n w : Inv1 w -> Inv1 (enqueue n w).
  Proof. intros H m. unfold enqueue. destruct (find_node n (rw_nodes w)); apply H. Qed.

  Lemma act_Inv1 w a : Inv1 w -> Inv1 (act w a).
  Proof.
    intros H. destruct a; cbn [act]; [apply enqueue_Inv1, give_Inv1, H|apply despawn_Inv1, H].
  Qed.

  Lemma acts_Inv1 acts w : Inv1 w -> Inv1 (fold_left act acts w).
  Proof.
    revert w. induction acts as [|a acts IH]; intros w H; [exact H|]. apply IH, act_Inv1, H.
  Qed.

  Variable run : U -> entity -> entity -> entity -> V -> U * option (list (action V)).

  Lemma serve_Inv1 q w : Inv1 w -> Inv1 (serve run q w).
  Proof.
    intros H. unfold serve. destruct (find_node (pd_src q) (rw_nodes w)) as [x|] eqn:E; [|exact H].
    destruct (sn_inputs x) as [|[s v] rest] eqn:Ei; [exact H|].
    assert (Hq : forall m, issued_at m (rw_log w) =
                 (taken_at m (rw_log w) ++ (if Nat.eqb (pd_src q) m then [(s, v)] else [])) ++
                 inp m (put_inputs (pd_src q) rest (rw_nodes w))).
    { intros m. rewrite H, inp_put, <- app_assoc. f_equal. rewrite Nat.eqb_sym.
      destruct (Nat.eqb_spec m (pd_src q)) as [->|Hne]; [|reflexivity].
      rewrite E. unfold inp. rewrite E, Ei. reflexivity. }
    destruct (run _ _ _ _ _) as [u [acts|]].
    - apply acts_Inv1. intros m.
      cbn [add_log set_nodes set_user rw_log rw_nodes]. rewrite issued_app, taken_app, Hq.
      cbn [issued_at taken_at flat_map]. rewrite !app_nil_r. reflexivity.
    - intros m. cbn [add_log set_nodes set_user set_orders rw_log rw_nodes].
      rewrite issued_app, taken_app, Hq. cbn [issued_at taken_at flat_map]. rewrite !app_nil_r.
      reflexivity.
  Qed.

  Lemma deliver_Inv1 fuel p w w' : Inv1 w -> deliver run fuel p w = Some w' -> Inv1 w'.
  Proof.
    revert w. induction fuel as [|fuel IH]; intros w H; cbn [deliver];
      destruct (pop_back (rw_queue w)) as [[q rest]|]; try discriminate;
      try (intros [= <-]; exact H).
    destruct (rw_alive w (pd_prov q)); apply IH.
    - apply serve_Inv1. exact H.
    - apply dispose_service_Inv1. exact H.
  Qed.

  Lemma exec_Inv1 fuel n w w' : Inv1 w -> exec_node run fuel n w = Some w' -> Inv1 w'.
  Proof.
    intros H. unfold exec_node. destruct (find_node n (rw_nodes w)) as [x|]; [|intros [= <-]; exact H].
    apply deliver_Inv1, enqueue_Inv1, H.
  Qed.

  Lemma serve_next_Inv1 p w : Inv1 w -> Inv1 (serve_next p w).
  Proof.
    intros H n. unfold serve_next. destruct (pop_order p (rw_orders w)) as [[o rest]|]; [|apply H].
    cbn [add_log set_orders rw_log rw_nodes]. rewrite issued_app, taken_app. cbn [issued_at taken_at flat_map].
    rewrite !app_nil_r. apply H.
  Qed.

  Lemma collect_Inv1 w : Inv1 w -> Inv1 (collect w).
  Proof.
    intros H. unfold collect.
    match goal with |- Inv1 (fold_left _ _ ?w1) => assert (H1 : Inv1 w1) by exact H; revert H1; generalize w1 end.
    induction (rw_removed w) as [|p ps IH]; intros w1 H1; [exact H1|].
    apply IH, dispose_service_Inv1, H1.
  Qed.

  Lemma step_Inv1 w o w' : Inv1 w -> rstep run w o w' -> Inv1 w'.
  Proof.
    intros H St. destruct St as [w n s v|w n r fuel w' Hr He|w p|w p|w].
    - intros m. exact (give_Inv1 n s v w H m).
    - eapply exec_Inv1; [|exact He]. exact H.
    - apply serve_next_Inv1, H.
    - apply despawn_Inv1, H.
    - apply collect_Inv1, H.
  Qed.

  Lemma find_in n l x : find_node n l = Some x -> In (n, x) l.
  Proof.
    induction l as [|[k y] l IH]; cbn [find_node]; [discriminate|].
    destruct (Nat.eqb_spec n k) as [->|Hne].
    - intros [= ->]. left; reflexivity.
    - intros E. right. apply IH, E.
  Qed.

  Lemma fresh_inp w n : rfresh w -> inp n (rw_nodes w) = [].
  Proof.
    intros (_ & H & _). unfold inp. destruct (find_node n (rw_nodes w)) as [x|] eqn:E; [|reflexivity].
    apply (H n), find_in, E.
  Qed.

  Lemma fresh_Inv1 w : rfresh w -> Inv1 w.
  Proof.
    intros Hf n. rewrite fresh_inp by exact Hf. destruct Hf as (_ & _ & _ & _ & _ & ->). reflexivity.
  Qed.

  Lemma reach_Inv1 w0 w : rfresh w0 -> rreach run w0 w -> Inv1 w.
  Proof.
    intros Hf R. induction R as [|w o w' R IH St]; [apply fresh_Inv1, Hf|].
    eapply step_Inv1; eassumption.
  Qed.

  (** The nodes and their services stay the same. *)
  Lemma give_sig n s v w : sig (rw_nodes (give n s v w)) = sig (rw_nodes w).
  Proof.
    unfold give. destruct (find_node n (rw_nodes w)); [|reflexivity].
    cbn [add_log set_nodes rw_nodes]. apply sig_put.
  Qed.

  Lemma dispose_node_sig p n w : sig (rw_nodes (dispose_node p w n)) = sig (rw_nodes w).
  Proof.
    unfold dispose_node. destruct (find_node n (rw_nodes w)); [|reflexivity].
    cbn [add_log set_nodes rw_nodes]. apply sig_put.
  Qed.

  Lemma fold_dispose_sig p ns w :
    sig (rw_nodes (fold_left (dispose_node p) ns w)) = sig (rw_nodes w).
  Proof.
    revert w. induction ns as [|n ns IH]; intros w; [reflexivity|].
    cbn [fold_left]. rewrite IH. apply dispose_node_sig.
  Qed.

  Lemma despawn_nodes p w : rw_nodes (despawn p w) = rw_nodes w.
  Proof. unfold despawn. destruct (rw_alive w p); reflexivity. Qed.

  Lemma enqueue_nodes n w : rw_nodes (enqueue n w) = rw_nodes w.
  Proof. unfold enqueue. destruct (find_node n (rw_nodes w)); reflexivity. Qed.

  Lemma act_sig w a : sig (rw_nodes (act w a)) = sig (rw_nodes w).
  Proof.
    destruct a; cbn [act]; [rewrite enqueue_nodes; apply give_sig|rewrite despawn_nodes; reflexivity].
  Qed.

  Lemma acts_sig acts w : sig (rw_nodes (fold_left act acts w)) = sig (rw_nodes w).
  Proof.
    revert w. induction acts as [|a acts IH]; intros w; [reflexivity|].
    cbn [fold_left]. rewrite IH. apply act_sig.
  Qed.

  Lemma serve_sig q w : sig (rw_nodes (serve run q w)) = sig (rw_nodes w).
  Proof.
    unfold serve. destruct (find_node (pd_src q) (rw_nodes w)) as [x|]; [|reflexivity].
    destruct (sn_inputs x) as [|[s v] rest]; [reflexivity|].
    destruct (run _ _ _ _ _) as [u [acts|]].
    - rewrite acts_sig. apply sig_put.
    - apply sig_put.
  Qed.

  Lemma deliver_sig fuel p w w' :
    deliver run fuel p w = Some w' -> sig (rw_nodes w') = sig (rw_nodes w).
  Proof.
    revert w. induction fuel as [|fuel IH]; intros w; cbn [deliver];
      destruct (pop_back (rw_queue w)) as [[q rest]|]; try discriminate;
      try (intros [= <-]; reflexivity).
    destruct (rw_alive w (pd_prov q)); intros H; apply IH in H; rewrite H.
    - rewrite serve_sig. reflexivity.
    - unfold dispose_service. rewrite fold_dispose_sig. reflexivity.
  Qed.

  Lemma collect_fold_sig ps w :
    sig (rw_nodes (fold_left (fun w p => dispose_service p w) ps w)) = sig (rw_nodes w).
  Proof.
    revert w. induction ps as [|p ps IH]; intros w; [reflexivity|].
    cbn [fold_left]. rewrite IH. apply fold_dispose_sig.
  Qed.

  Lemma step_sig w o w' : rstep run w o w' -> sig (rw_nodes w') = sig (rw_nodes w).
  Proof.
    intros St. destruct St as [w n s v|w n r fuel w' Hr He|w p|w p|w].
    - apply give_sig.
    - unfold exec_node in He. cbn [rw_nodes set_roster] in He.
      destruct (find_node n (rw_nodes w)) as [x|]; [|injection He as <-; reflexivity].
      apply deliver_sig in He. rewrite He, enqueue_nodes. reflexivity.
    - unfold serve_next. destruct (pop_order p (rw_orders w)) as [[o rest]|]; reflexivity.
    - rewrite despawn_nodes. reflexivity.
    - unfold collect. rewrite collect_fold_sig. reflexivity.
  Qed.

  Lemma reach_sig w0 w : rreach run w0 w -> sig (rw_nodes w) = sig (rw_nodes w0).
  Proof.
    intros R. induction R as [|w o w' R IH St]; [reflexivity|].
    rewrite (step_sig _ _ _ St). exact IH.
  Qed.

  Lemma sig_fst l : map fst (sig l) = map fst l.
  Proof. unfold sig. rewrite map_map. reflexivity. Qed.

  Lemma reach_nodup w0 w : rfresh w0 -> rreach run w0 w -> NoDup (map fst (rw_nodes w)).
  Proof.
    intros (H & _) R. rewrite <- sig_fst, (reach_sig _ _ R), sig_fst. exact H.
  Qed.
End Proofs.
