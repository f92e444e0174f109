(** After a collection of the flush every service is tracked until it is despawned. *)
From Verif Require Import Base RequestModel.

Section Proofs4.
  Context {V U : Type}.
  Variable run : U -> nat -> nat -> nat -> V -> U * option (list (action V)).
  Notation world := (rworld V U).

  Definition tracks (w : world) : Prop := forall p, rw_alive w p = true -> rw_tracked w p = true.

  Lemma give_tracks n s v w : tracks w -> tracks (give n s v w).
  Proof. intros H. unfold give. destruct (find_node n (rw_nodes w)); exact H. Qed.

  Lemma enqueue_tracks n w : tracks w -> tracks (enqueue n w).
  Proof. intros H. unfold enqueue. destruct (find_node n (rw_nodes w)); exact H. Qed.

  Lemma despawn_tracks p w : tracks w -> tracks (despawn p w).
  Proof.
    intros H q. unfold despawn. destruct (rw_alive w p); [|apply H].
    cbn [rw_alive rw_tracked]. destruct (Nat.eqb q p); [discriminate|apply H].
  Qed.

  Lemma acts_tracks acts : forall w, tracks w -> tracks (fold_left act acts w).
  Proof.
    induction acts as [|a acts IH]; intros w H; [exact H|]. cbn [fold_left]. apply IH.
    destruct a; cbn [act]; [apply enqueue_tracks, give_tracks; exact H|apply despawn_tracks; exact H].
  Qed.

  Lemma serve_tracks q w : tracks w -> tracks (serve run q w).
  Proof.
    intros H. unfold serve. destruct (find_node (pd_src q) (rw_nodes w)) as [x|]; [|exact H].
    destruct (sn_inputs x) as [|[s v] rest]; [exact H|].
    destruct (run _ _ _ _ _) as [u [acts|]]; [|exact H]. apply acts_tracks. exact H.
  Qed.

  Lemma dispose_nodes_tracks p l : forall w, tracks w -> tracks (fold_left (dispose_node p) l w).
  Proof.
    induction l as [|n l IH]; intros w H; [exact H|]. cbn [fold_left]. apply IH.
    unfold dispose_node. destruct (find_node n (rw_nodes w)); exact H.
  Qed.

  Lemma deliver_tracks fuel : forall p w w', tracks w -> deliver run fuel p w = Some w' -> tracks w'.
  Proof.
    induction fuel as [|fuel IH]; intros p w w' H; cbn [deliver];
      destruct (pop_back (rw_queue w)) as [[q rest]|]; try discriminate;
      try (intros [= <-]; exact H).
    destruct (rw_alive w (pd_prov q)); apply IH.
    - apply serve_tracks. exact H.
    - apply dispose_nodes_tracks. exact H.
  Qed.

  Lemma collect_tracks (w : world) : tracks (collect w).
  Proof.
    unfold collect. match goal with |- tracks (fold_left _ ?l ?v) => generalize l; assert (H : tracks v) end.
    { intros p H. exact H. }
    intros l. revert H. generalize (mk_rworld (rw_nodes w) (rw_alive w) (rw_alive w) [] (rw_orders w)
      (rw_roster w) (rw_queue w) (rw_user w) (rw_log w)).
    induction l as [|p l IH]; intros v H; [exact H|]. cbn [fold_left]. apply IH.
    apply dispose_nodes_tracks. exact H.
  Qed.

  Lemma step_tracks w o w' : rstep run w o w' -> tracks w -> tracks w'.
  Proof.
    intros St H. destruct St as [w n s v|w n r fuel w' Hr He|w p|w p|w].
    - exact (give_tracks n s v w H).
    - unfold exec_node in He. cbn [set_roster rw_nodes] in He.
      destruct (find_node n (rw_nodes w)) as [x|]; [|injection He as <-; exact H].
      eapply deliver_tracks; [|exact He]. apply enqueue_tracks. exact H.
    - unfold serve_next. destruct (pop_order p (rw_orders w)) as [[o rest]|]; exact H.
    - apply despawn_tracks. exact H.
    - apply collect_tracks.
  Qed.

  Lemma reach_tracks w0 w : rreach run w0 w -> tracks w0 -> tracks w.
  Proof. intros R H. induction R as [|w o w' R IH St]; [exact H|]. exact (step_tracks _ _ _ St IH). Qed.

  Lemma reach_trans w0 w1 w2 : rreach run w0 w1 -> rreach run w1 w2 -> rreach run w0 w2.
  Proof. intros R S. induction S as [|w o w' S IH St]; [exact R|]. exact (rr_step _ _ _ _ _ IH St). Qed.
End Proofs4.
