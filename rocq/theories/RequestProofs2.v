(** Waiting requests, and that none is forgotten. *)
From Verif Require Import Base RequestModel RequestSpec RequestProofs.

Definition pair_nat_dec (a b : nat * nat) : {a = b} + {a <> b}.
Proof. decide equality; apply Nat.eq_dec. Defined.

Section Proofs.
  Context {V U : Type}.
  Implicit Types (w : rworld V U) (l : list (entity * snode V)).
  Variable run : U -> entity -> entity -> entity -> V -> U * option (list (action V)).

  Definition ords (p : entity) (os : list (sorder V)) : list (entity * entity * V) :=
    flat_map (fun o => if Nat.eqb (so_prov o) p then [(so_src o, so_sess o, so_req o)] else []) os.

  Definition Inv2 w : Prop :=
    forall p, if rw_alive w p
              then queued_by p (rw_log w) = continued_by p (rw_log w) ++ ords p (rw_orders w)
              else ords p (rw_orders w) = [] /\
                   exists lost, queued_by p (rw_log w) = continued_by p (rw_log w) ++ lost.

  (** Steps which leave the waiting requests alone. *)
  Definition same2 w w' : Prop :=
    rw_alive w' = rw_alive w /\ rw_orders w' = rw_orders w /\
    forall p, queued_by p (rw_log w') = queued_by p (rw_log w) /\
              continued_by p (rw_log w') = continued_by p (rw_log w).

  Lemma same2_refl w : same2 w w.
  Proof. repeat split. Qed.
  Lemma same2_trans a b c : same2 a b -> same2 b c -> same2 a c.
  Proof.
    intros (A1 & O1 & L1) (A2 & O2 & L2). split; [congruence|]. split; [congruence|].
    intros p. destruct (L1 p), (L2 p). split; congruence.
  Qed.
  Lemma same2_Inv2 w w' : same2 w w' -> Inv2 w -> Inv2 w'.
  Proof.
    intros (A & O & L) H p. destruct (L p) as [-> ->]. rewrite A, O. apply H.
  Qed.

  Lemma queued_app p (a b : list (revent V)) : queued_by p (a ++ b) = queued_by p a ++ queued_by p b.
  Proof. apply flat_map_app. Qed.
  Lemma continued_app p (a b : list (revent V)) :
    continued_by p (a ++ b) = continued_by p a ++ continued_by p b.
  Proof. apply flat_map_app. Qed.

  Lemma give_same2 n s v w : same2 w (give n s v w).
  Proof.
    unfold give. destruct (find_node n (rw_nodes w)); [|apply same2_refl].
    split; [reflexivity|]. split; [reflexivity|]. intros p.
    cbn [add_log set_nodes rw_log]. rewrite queued_app, continued_app.
    cbn [queued_by continued_by flat_map]. rewrite !app_nil_r. split; reflexivity.
  Qed.

  Lemma queued_disposed p q n (ii : list (entity * V)) :
    queued_by p (map (fun sv => RvDisposed q n (fst sv) (snd sv)) ii) = [].
  Proof. induction ii as [|a ii IH]; [reflexivity|exact IH]. Qed.
  Lemma continued_disposed p q n (ii : list (entity * V)) :
    continued_by p (map (fun sv => RvDisposed q n (fst sv) (snd sv)) ii) = [].
  Proof. induction ii as [|a ii IH]; [reflexivity|exact IH]. Qed.

  Lemma dispose_node_same2 p n w : same2 w (dispose_node p w n).
  Proof.
    unfold dispose_node. destruct (find_node n (rw_nodes w)); [|apply same2_refl].
    split; [reflexivity|]. split; [reflexivity|]. intros q.
    cbn [add_log set_nodes rw_log].
    rewrite queued_app, continued_app, queued_disposed, continued_disposed, !app_nil_r.
    split; reflexivity.
  Qed.

  Lemma dispose_service_same2 p w : same2 w (dispose_service p w).
  Proof.
    unfold dispose_service. generalize (map fst (filter (fun nx => Nat.eqb (sn_prov (snd nx)) p) (rw_nodes w))).
    intros ns. revert w. induction ns as [|n ns IH]; intros w; [apply same2_refl|].
    cbn [fold_left]. eapply same2_trans; [apply dispose_node_same2|apply IH].
  Qed.

  Lemma collect_fold_same2 ps w : same2 w (fold_left (fun w p => dispose_service p w) ps w).
  Proof.
    revert w. induction ps as [|p ps IH]; intros w; [apply same2_refl|].
    cbn [fold_left]. eapply same2_trans; [apply dispose_service_same2|apply IH].
  Qed.

  Lemma enqueue_same2 n w : same2 w (enqueue n w).
  Proof. unfold enqueue. destruct (find_node n (rw_nodes w)); repeat split. Qed.

  Lemma ords_filter p q (os : list (sorder V)) :
    ords p (filter (fun o => negb (Nat.eqb (so_prov o) q)) os) =
    if Nat.eqb p q then [] else ords p os.
  Proof.
    induction os as [|o os IH].
    - destruct (Nat.eqb p q); reflexivity.
    - cbn [filter]. destruct (Nat.eqb_spec (so_prov o) q) as [E|E]; cbn [negb].
      + rewrite IH. unfold ords. cbn [flat_map]. rewrite E.
        destruct (Nat.eqb_spec p q) as [->|Hpq]; [reflexivity|].
        destruct (Nat.eqb_spec q p) as [->|]; [contradiction|reflexivity].
      + unfold ords in *. cbn [flat_map]. rewrite IH.
        destruct (Nat.eqb_spec p q) as [->|Hpq].
        * destruct (Nat.eqb_spec (so_prov o) q); [contradiction|reflexivity].
        * reflexivity.
  Qed.

  Lemma despawn_Inv2 p w : Inv2 w -> Inv2 (despawn p w).
  Proof.
    intros H q. specialize (H q). unfold despawn. destruct (rw_alive w p) eqn:Ep; [|exact H].
    cbn [rw_alive rw_orders rw_log]. rewrite ords_filter. destruct (Nat.eqb_spec q p) as [->|Hne].
    - rewrite Ep in H. split; [reflexivity|]. eexists; exact H.
    - exact H.
  Qed.

  Lemma act_Inv2 w a : Inv2 w -> Inv2 (act w a).
  Proof.
    intros H. destruct a; cbn [act].
    - apply (same2_Inv2 (give n s v w)); [apply enqueue_same2|].
      apply (same2_Inv2 w); [apply give_same2|exact H].
    - apply despawn_Inv2, H.
  Qed.

  Lemma acts_Inv2 acts w : Inv2 w -> Inv2 (fold_left act acts w).
  Proof.
    revert w. induction acts as [|a acts IH]; intros w H; [exact H|]. apply IH, act_Inv2, H.
  Qed.

  Lemma serve_Inv2 q w : rw_alive w (pd_prov q) = true -> Inv2 w -> Inv2 (serve run q w).
  Proof.
    intros Ha H. unfold serve. destruct (find_node (pd_src q) (rw_nodes w)) as [x|]; [|exact H].
    destruct (sn_inputs x) as [|[s v] rest]; [exact H|].
    destruct (run _ _ _ _ _) as [u [acts|]].
    - apply acts_Inv2. apply (same2_Inv2 w); [|exact H].
      split; [reflexivity|]. split; [reflexivity|]. intros p.
      cbn [add_log set_nodes set_user rw_log]. rewrite queued_app, continued_app.
      cbn [queued_by continued_by flat_map]. rewrite !app_nil_r. split; reflexivity.
    - intros p. cbn [add_log set_nodes set_user set_orders rw_log rw_alive rw_orders].
      rewrite queued_app, continued_app. cbn [queued_by continued_by flat_map].
      rewrite !app_nil_r. specialize (H p).
      unfold ords. rewrite flat_map_app. cbn [flat_map so_prov so_src so_sess so_req].
      rewrite app_nil_r. fold (ords p (rw_orders w)).
      destruct (Nat.eqb_spec (pd_prov q) p) as [<-|Hne].
      + rewrite Ha in *. rewrite H, app_assoc. reflexivity.
      + rewrite !app_nil_r. exact H.
  Qed.

  Lemma deliver_Inv2 fuel p w w' : Inv2 w -> deliver run fuel p w = Some w' -> Inv2 w'.
  Proof.
    revert w. induction fuel as [|fuel IH]; intros w H; cbn [deliver];
      destruct (pop_back (rw_queue w)) as [[q rest]|]; try discriminate;
      try (intros [= <-]; exact H).
    destruct (rw_alive w (pd_prov q)) eqn:Ea; apply IH.
    - apply serve_Inv2; [exact Ea|exact H].
    - eapply same2_Inv2; [apply dispose_service_same2|]. exact H.
  Qed.

  Lemma pop_order_ords p (os : list (sorder V)) o rest :
    pop_order p os = Some (o, rest) ->
    so_prov o = p /\
    (forall q, ords q os = (if Nat.eqb p q then [(so_src o, so_sess o, so_req o)] else []) ++ ords q rest).
  Proof.
    revert rest. induction os as [|a os IH]; intros rest; cbn [pop_order]; [discriminate|].
    destruct (Nat.eqb_spec (so_prov a) p) as [E|E].
    - intros [= <- <-]. split; [exact E|]. intros q. unfold ords at 1. cbn [flat_map].
      rewrite E. reflexivity.
    - destruct (pop_order p os) as [[x r]|] eqn:Ep; [|discriminate]. intros [= <- <-].
      destruct (IH _ eq_refl) as [Hp Ho]. split; [exact Hp|]. intros q.
      unfold ords in *. cbn [flat_map]. rewrite Ho.
      destruct (Nat.eqb_spec p q) as [->|Hne]; [|reflexivity].
      destruct (Nat.eqb_spec (so_prov a) q); [contradiction|]. reflexivity.
  Qed.

  Lemma serve_next_Inv2 p w : Inv2 w -> Inv2 (serve_next p w).
  Proof.
    intros H q. specialize (H q). unfold serve_next.
    destruct (pop_order p (rw_orders w)) as [[o rest]|] eqn:Eo; [|exact H].
    destruct (pop_order_ords _ _ _ _ Eo) as [Hp Ho].
    cbn [add_log set_orders rw_log rw_alive rw_orders].
    rewrite queued_app, continued_app. cbn [queued_by continued_by flat_map].
    rewrite !app_nil_r, Hp. rewrite Ho in H. destruct (rw_alive w q).
    - rewrite H, <- app_assoc. reflexivity.
    - destruct H as [H1 [lost H2]]. apply app_eq_nil in H1. destruct H1 as [H1 H1'].
      split; [exact H1'|]. destruct (Nat.eqb p q); [discriminate|].
      exists lost. rewrite app_nil_r. exact H2.
  Qed.

  Lemma step_Inv2 w o w' : Inv2 w -> rstep run w o w' -> Inv2 w'.
  Proof.
    intros H St. destruct St as [w n s v|w n r fuel w' Hr He|w p|w p|w].
    - apply (same2_Inv2 w); [|exact H]. destruct (give_same2 n s v w) as (A & O & L).
      split; [exact A|]. split; [exact O|]. exact L.
    - unfold exec_node in He. cbn [set_roster rw_nodes] in He.
      destruct (find_node n (rw_nodes w)); [|injection He as <-; exact H].
      eapply deliver_Inv2; [|exact He].
      eapply same2_Inv2; [apply enqueue_same2|]. exact H.
    - apply serve_next_Inv2, H.
    - apply despawn_Inv2, H.
    - unfold collect. eapply same2_Inv2; [apply collect_fold_same2|]. exact H.
  Qed.

  Lemma reach_Inv2 w0 w : rfresh w0 -> rreach run w0 w -> Inv2 w.
  Proof.
    intros Hf R. induction R as [|w o w' R IH St].
    - destruct Hf as (_ & _ & Ho & _ & _ & Hl). intros p. rewrite Ho, Hl.
      destruct (rw_alive w0 p); [reflexivity|]. split; [reflexivity|]. exists []. reflexivity.
    - eapply step_Inv2; eassumption.
  Qed.

  (** ** Nothing is forgotten *)

  Fixpoint cnt (n : entity) (r : list entity) : nat :=
    match r with [] => 0 | m :: r' => (if Nat.eqb m n then 1 else 0) + cnt n r' end.

  Lemma cnt_app n a b : cnt n (a ++ b) = cnt n a + cnt n b.
  Proof. induction a as [|x a IH]; [reflexivity|]. cbn [app cnt]. rewrite IH. lia. Qed.

  (** Every waiting input has an entry in the roster or among the pending requests. *)
  Definition Inv3 w : Prop :=
    forall n, length (inp n (rw_nodes w)) <= cnt n (rw_roster w) + cnt n (map pd_src (rw_queue w)).

  (** The pending requests are for the services of their nodes. *)
  Definition Qok w : Prop :=
    forall q, In q (rw_queue w) -> In (pd_src q, pd_prov q) (sig (rw_nodes w)).

  (** [w'] has fewer services than [w]. *)
  Definition fewer w w' : Prop := forall p, rw_alive w' p = true -> rw_alive w p = true.

  Lemma fewer_refl w : fewer w w.
  Proof. intros p H; exact H. Qed.
  Lemma fewer_trans a b c : fewer a b -> fewer b c -> fewer a c.
  Proof. intros H1 H2 p H. apply H1, H2, H. Qed.
  Lemma same2_fewer w w' : same2 w w' -> fewer w w'.
  Proof. intros (A & _) p. rewrite A. auto. Qed.

  Lemma despawn_fewer p w : fewer w (despawn p w).
  Proof.
    intros q. unfold despawn. destruct (rw_alive w p); [|auto].
    cbn [rw_alive]. destruct (Nat.eqb q p); [discriminate|auto].
  Qed.

  Lemma act_fewer w a : fewer w (act w a).
  Proof.
    destruct a; cbn [act]; [|apply despawn_fewer].
    apply same2_fewer. eapply same2_trans; [apply give_same2|apply enqueue_same2].
  Qed.

  Lemma acts_fewer acts w : fewer w (fold_left act acts w).
  Proof.
    revert w. induction acts as [|a acts IH]; intros w; [apply fewer_refl|].
    eapply fewer_trans; [apply act_fewer|apply IH].
  Qed.

  Lemma serve_fewer q w : fewer w (serve run q w).
  Proof.
    unfold serve. destruct (find_node (pd_src q) (rw_nodes w)) as [x|]; [|apply fewer_refl].
    destruct (sn_inputs x) as [|[s v] rest]; [apply fewer_refl|].
    destruct (run _ _ _ _ _) as [u [acts|]]; [|intros p H; exact H].
    eapply fewer_trans; [|apply acts_fewer]. intros p H; exact H.
  Qed.

  Lemma deliver_fewer fuel p w w' : deliver run fuel p w = Some w' -> fewer w w'.
  Proof.
    revert w. induction fuel as [|fuel IH]; intros w; cbn [deliver];
      destruct (pop_back (rw_queue w)) as [[q rest]|]; try discriminate;
      try (intros [= <-]; apply fewer_refl).
    destruct (rw_alive w (pd_prov q)); intros H; apply IH in H; eapply fewer_trans; try exact H.
    - exact (serve_fewer q (set_queue w rest)).
    - apply (same2_fewer (set_queue w rest)), dispose_service_same2.
  Qed.

  Lemma step_fewer w o w' : rstep run w o w' -> fewer w w'.
  Proof.
    intros St. destruct St as [w n s v|w n r fuel w' Hr He|w p|w p|w].
    - exact (same2_fewer _ _ (give_same2 n s v w)).
    - unfold exec_node in He. cbn [set_roster rw_nodes] in He.
      destruct (find_node n (rw_nodes w)); [|injection He as <-; intros q Hq; exact Hq].
      apply deliver_fewer in He. eapply fewer_trans; [|exact He].
      exact (same2_fewer _ _ (enqueue_same2 n (set_roster w r))).
    - unfold serve_next. destruct (pop_order p (rw_orders w)) as [[o rest]|]; intros q Hq; exact Hq.
    - apply despawn_fewer.
    - unfold collect. eapply fewer_trans; [|apply same2_fewer, collect_fold_same2].
      intros p H; exact H.
  Qed.

  Lemma pop_back_app (q : list pending) :
    match pop_back q with
    | None => q = []
    | Some (x, r) => q = r ++ [x]
    end.
  Proof.
    induction q as [|a q IH]; [reflexivity|]. cbn [pop_back].
    destruct (pop_back q) as [[y r]|]; subst; reflexivity.
  Qed.

  Lemma give_inp n s v w m :
    inp m (rw_nodes (give n s v w)) =
    match find_node n (rw_nodes w) with
    | None => inp m (rw_nodes w)
    | Some _ => inp m (rw_nodes w) ++ (if Nat.eqb m n then [(s, v)] else [])
    end.
  Proof.
    unfold give. destruct (find_node n (rw_nodes w)) as [x|] eqn:E; [|reflexivity].
    cbn [add_log set_nodes rw_nodes]. rewrite inp_put.
    destruct (Nat.eqb_spec m n) as [->|Hne].
    - rewrite E. unfold inp. rewrite E. reflexivity.
    - rewrite app_nil_r. reflexivity.
  Qed.

  Lemma give_find n s v w m :
    (find_node m (rw_nodes (give n s v w)) = None <-> find_node m (rw_nodes w) = None) /\
    rw_roster (give n s v w) = rw_roster w /\ rw_queue (give n s v w) = rw_queue w.
  Proof.
    unfold give. destruct (find_node n (rw_nodes w)) as [x|] eqn:E; [|tauto].
    cbn [add_log set_nodes rw_nodes rw_roster rw_queue]. rewrite find_put.
    split; [|split; reflexivity].
    destruct (Nat.eqb_spec m n) as [->|]; [|tauto]. rewrite E. cbn [option_map].
    split; discriminate.
  Qed.

  Lemma nested_Inv3 n s v w : Inv3 w -> Inv3 (enqueue n (give n s v w)).
  Proof.
    intros H m. unfold enqueue.
    destruct (give_find n s v w n) as (Hf & Hr & Hq).
    destruct (find_node n (rw_nodes (give n s v w))) as [x|] eqn:E.
    - cbn [set_queue rw_nodes rw_roster rw_queue]. rewrite Hr, Hq, map_app, cnt_app, give_inp.
      cbn [map pd_src cnt]. specialize (H m). destruct (find_node n (rw_nodes w)).
      + rewrite app_length. rewrite (Nat.eqb_sym n m).
        destruct (Nat.eqb m n); cbn [length]; lia.
      + lia.
    - rewrite Hr, Hq, give_inp. destruct (find_node n (rw_nodes w)) as [y|]; [|apply H].
      destruct Hf as [Hf _]. discriminate (Hf eq_refl).
  Qed.

  Lemma act_Inv3 w a : Inv3 w -> Inv3 (act w a).
  Proof.
    intros H. destruct a; cbn [act]; [apply nested_Inv3, H|].
    intros n. unfold despawn. destruct (rw_alive w p); apply H.
  Qed.

  Lemma acts_Inv3 acts w : Inv3 w -> Inv3 (fold_left act acts w).
  Proof.
    revert w. induction acts as [|a acts IH]; intros w H; [exact H|]. apply IH, act_Inv3, H.
  Qed.

  Lemma serve_Inv3 q w :
    (forall n, length (inp n (rw_nodes w)) <=
               cnt n (rw_roster w) + cnt n (map pd_src (rw_queue w)) + (if Nat.eqb (pd_src q) n then 1 else 0)) ->
    Inv3 (serve run q w).
  Proof.
    intros H. unfold serve. destruct (find_node (pd_src q) (rw_nodes w)) as [x|] eqn:E.
    2:{ intros n. specialize (H n). destruct (Nat.eqb_spec (pd_src q) n) as [E1|E1]; [subst n|lia].
        unfold inp. rewrite E. cbn [length]. lia. }
    destruct (sn_inputs x) as [|[s v] rest] eqn:Ei.
    { intros n. specialize (H n). destruct (Nat.eqb_spec (pd_src q) n) as [E1|E1]; [subst n|lia].
      unfold inp. rewrite E, Ei. cbn [length]. lia. }
    assert (Hq : forall m, length (inp m (put_inputs (pd_src q) rest (rw_nodes w))) <=
                           cnt m (rw_roster w) + cnt m (map pd_src (rw_queue w))).
    { intros m. specialize (H m). rewrite inp_put. rewrite (Nat.eqb_sym m).
      destruct (Nat.eqb_spec (pd_src q) m) as [E1|E1]; [subst m|lia].
      rewrite E. unfold inp in H. rewrite E, Ei in H. cbn [length] in H. lia. }
    destruct (run _ _ _ _ _) as [u [acts|]]; [apply acts_Inv3|]; exact Hq.
  Qed.

  Lemma dispose_node_inp p n w m :
    inp m (rw_nodes (dispose_node p w n)) = if Nat.eqb m n then [] else inp m (rw_nodes w).
  Proof.
    unfold dispose_node. destruct (find_node n (rw_nodes w)) as [x|] eqn:E.
    - cbn [add_log set_nodes rw_nodes]. rewrite inp_put. destruct (Nat.eqb_spec m n) as [->|]; [|reflexivity].
      rewrite E. reflexivity.
    - destruct (Nat.eqb_spec m n) as [->|]; [|reflexivity]. unfold inp. rewrite E. reflexivity.
  Qed.

  Lemma dispose_node_rest p n w :
    rw_roster (dispose_node p w n) = rw_roster w /\ rw_queue (dispose_node p w n) = rw_queue w.
  Proof. unfold dispose_node. destruct (find_node n (rw_nodes w)); split; reflexivity. Qed.

  Lemma fold_dispose_rest p ns w :
    rw_roster (fold_left (dispose_node p) ns w) = rw_roster w /\
    rw_queue (fold_left (dispose_node p) ns w) = rw_queue w.
  Proof.
    revert w. induction ns as [|n ns IH]; intros w; [split; reflexivity|]. cbn [fold_left].
    destruct (IH (dispose_node p w n)) as [-> ->]. apply dispose_node_rest.
  Qed.

  Lemma fold_dispose_inp p ns w m :
    inp m (rw_nodes (fold_left (dispose_node p) ns w)) =
    if existsb (Nat.eqb m) ns then [] else inp m (rw_nodes w).
  Proof.
    revert w. induction ns as [|n ns IH]; intros w; [reflexivity|].
    cbn [fold_left existsb]. rewrite IH, dispose_node_inp.
    destruct (Nat.eqb m n), (existsb (Nat.eqb m) ns); reflexivity.
  Qed.

  Lemma disposed_nodes p m l :
    existsb (Nat.eqb m) (map fst (filter (fun nx => Nat.eqb (sn_prov (snd nx)) p) l)) = true <->
    In (m, p) (sig l).
  Proof.
    rewrite existsb_exists. split.
    - intros (k & Hk & E). apply Nat.eqb_eq in E. subst k. apply in_map_iff in Hk.
      destruct Hk as ([k x] & <- & Hx). apply filter_In in Hx. destruct Hx as [Hx Hp].
      apply Nat.eqb_eq in Hp. cbn [snd] in Hp. subst p. apply in_map_iff.
      exists (k, x). split; [reflexivity|exact Hx].
    - intros H. apply in_map_iff in H. destruct H as ([k x] & [= <- <-] & Hx).
      exists k. split; [|apply Nat.eqb_refl]. apply in_map_iff. exists (k, x).
      split; [reflexivity|]. apply filter_In. split; [exact Hx|]. apply Nat.eqb_refl.
  Qed.

  Lemma dispose_service_inp p w m :
    (In (m, p) (sig (rw_nodes w)) -> inp m (rw_nodes (dispose_service p w)) = []) /\
    (~ In (m, p) (sig (rw_nodes w)) -> inp m (rw_nodes (dispose_service p w)) = inp m (rw_nodes w)).
  Proof.
    unfold dispose_service. rewrite fold_dispose_inp.
    destruct (existsb _ _) eqn:E.
    - apply disposed_nodes in E. tauto.
    - split; [|reflexivity]. intros H. apply disposed_nodes in H. congruence.
  Qed.

  Lemma dispose_service_Inv3 p w : Inv3 w -> Inv3 (dispose_service p w).
  Proof.
    intros H n. unfold dispose_service. rewrite fold_dispose_inp.
    destruct (fold_dispose_rest p (map fst (filter (fun nx => Nat.eqb (sn_prov (snd nx)) p) (rw_nodes w))) w)
      as [-> ->].
    specialize (H n). destruct (existsb _ _); cbn [length]; lia.
  Qed.

  Lemma sig_all w p n : all_available w -> In (n, p) (sig (rw_nodes w)) -> rw_alive w p = true.
  Proof.
    intros H Hin. apply in_map_iff in Hin. destruct Hin as ([k x] & [= <- <-] & Hx).
    apply (H k x Hx).
  Qed.

  Lemma sig_available w w' :
    fewer w w' -> sig (rw_nodes w') = sig (rw_nodes w) -> all_available w' -> all_available w.
  Proof.
    intros Hf Hs H n x Hx. apply Hf.
    assert (Hin : In (n, sn_prov x) (sig (rw_nodes w'))).
    { rewrite Hs. apply in_map_iff. exists (n, x). split; [reflexivity|exact Hx]. }
    exact (sig_all _ _ _ H Hin).
  Qed.

  Lemma enqueue_Qok n w : Qok w -> Qok (enqueue n w).
  Proof.
    intros H q. unfold enqueue. destruct (find_node n (rw_nodes w)) as [x|] eqn:E; [|apply H].
    cbn [set_queue rw_queue rw_nodes]. intros Hq. apply in_app_or in Hq.
    destruct Hq as [Hq|[<-|[]]]; [apply H, Hq|]. apply find_sig, E.
  Qed.

  Lemma give_Qok n s v w : Qok w -> Qok (give n s v w).
  Proof.
    intros H q Hq. rewrite give_sig. apply H.
    destruct (give_find n s v w n) as (_ & _ & E). rewrite <- E. exact Hq.
  Qed.

  Lemma act_Qok w a : Qok w -> Qok (act w a).
  Proof.
    intros H. destruct a; cbn [act].
    - apply enqueue_Qok, give_Qok, H.
    - intros q. unfold despawn. destruct (rw_alive w p); apply H.
  Qed.

  Lemma acts_Qok acts w : Qok w -> Qok (fold_left act acts w).
  Proof.
    revert w. induction acts as [|a acts IH]; intros w H; [exact H|]. apply IH, act_Qok, H.
  Qed.

  Lemma serve_Qok q w : Qok w -> Qok (serve run q w).
  Proof.
    intros H. unfold serve. destruct (find_node (pd_src q) (rw_nodes w)) as [x|]; [|exact H].
    destruct (sn_inputs x) as [|[s v] rest]; [exact H|].
    assert (Hs : forall u, Qok (set_user (set_nodes w (put_inputs (pd_src q) rest (rw_nodes w))) u)).
    { intros u a Ha. cbn [set_user set_nodes rw_nodes rw_queue] in *. rewrite sig_put. apply H, Ha. }
    destruct (run _ _ _ _ _) as [u [acts|]]; [apply acts_Qok|]; exact (Hs u).
  Qed.

  Lemma dispose_service_Qok p w : Qok w -> Qok (dispose_service p w).
  Proof.
    intros H q. unfold dispose_service. rewrite fold_dispose_sig.
    destruct (fold_dispose_rest p (map fst (filter (fun nx => Nat.eqb (sn_prov (snd nx)) p) (rw_nodes w))) w)
      as [_ ->]. apply H.
  Qed.

  Lemma cnt_pop n r q : cnt n (map pd_src (r ++ [q])) = cnt n (map pd_src r) + (if Nat.eqb (pd_src q) n then 1 else 0).
  Proof. rewrite map_app, cnt_app. cbn [map cnt]. lia. Qed.

  (** With all services available. *)
  Lemma deliver_available fuel p w w' :
    Inv3 w -> Qok w -> deliver run fuel p w = Some w' -> all_available w' ->
    Inv3 w' /\ Qok w' /\ rw_queue w' = [].
  Proof.
    revert w. induction fuel as [|fuel IH]; intros w H Hq Hd Ha; cbn [deliver] in Hd;
      pose proof (pop_back_app (rw_queue w)) as Hp;
      destruct (pop_back (rw_queue w)) as [[q rest]|]; try discriminate;
      try (injection Hd as <-; auto).
    assert (Hs : Qok (set_queue w rest)).
    { intros a Hin. apply Hq. rewrite Hp. apply in_or_app. left. exact Hin. }
    destruct (rw_alive w (pd_prov q)) eqn:Eq.
    - apply (IH (serve run q (set_queue w rest))); [|apply serve_Qok, Hs|exact Hd|exact Ha].
      apply serve_Inv3. intros n. cbn [set_queue rw_nodes rw_roster rw_queue].
      specialize (H n). rewrite Hp, cnt_pop in H. lia.
    - exfalso. assert (Hw : all_available w).
      { eapply sig_available; [| |exact Ha].
        - eapply fewer_trans; [|exact (deliver_fewer _ _ _ _ Hd)].
          exact (same2_fewer _ _ (dispose_service_same2 p (set_queue w rest))).
        - rewrite (deliver_sig _ _ _ _ _ Hd). exact (fold_dispose_sig p _ (set_queue w rest)). }
      rewrite (sig_all w (pd_prov q) (pd_src q) Hw) in Eq; [discriminate|].
      apply Hq. rewrite Hp. apply in_or_app. right. left. reflexivity.
  Qed.

  (** With services that make no requests while they run. *)
  Lemma despawns_queue acts w :
    (forall a, In a acts -> match a with AcRequest _ _ _ => False | AcDespawn _ => True end) ->
    rw_queue (fold_left act acts w) = rw_queue w.
  Proof.
    revert w. induction acts as [|a acts IH]; intros w H; [reflexivity|]. cbn [fold_left].
    rewrite IH by (intros b Hb; apply H; right; exact Hb).
    destruct a; [destruct (H _ (or_introl eq_refl))|]. cbn [act]. unfold despawn.
    destruct (rw_alive w p); reflexivity.
  Qed.

  Lemma serve_queue q w : never_nests run -> rw_queue (serve run q w) = rw_queue w.
  Proof.
    intros H. unfold serve. destruct (find_node (pd_src q) (rw_nodes w)) as [x|]; [|reflexivity].
    destruct (sn_inputs x) as [|[s v] rest]; [reflexivity|].
    destruct (run _ _ _ _ _) as [u [acts|]] eqn:E; [|reflexivity].
    rewrite (despawns_queue acts); [reflexivity|]. exact (H _ _ _ _ _ _ _ E).
  Qed.

  Lemma deliver_empty fuel p w w' : rw_queue w = [] -> deliver run fuel p w = Some w' -> w' = w.
  Proof. intros E. destruct fuel; cbn [deliver]; rewrite E; cbn [pop_back]; intros [= <-]; reflexivity. Qed.

  Lemma exec_never_nests fuel n w w' :
    never_nests run -> rw_queue w = [] ->
    (forall m, length (inp m (rw_nodes w)) <= cnt m (rw_roster w) + (if Nat.eqb n m then 1 else 0)) ->
    exec_node run fuel n w = Some w' -> Inv3 w' /\ rw_queue w' = [].
  Proof.
    intros Hn Hq H He. unfold exec_node in He. destruct (find_node n (rw_nodes w)) as [x|] eqn:E.
    2:{ injection He as <-. split; [|exact Hq]. intros m. rewrite Hq. cbn [map cnt].
        specialize (H m). destruct (Nat.eqb_spec n m) as [E1|E1]; [subst m|lia].
        unfold inp. rewrite E. cbn [length]. lia. }
    unfold enqueue in He. rewrite E, Hq in He. cbn [app] in He.
    destruct fuel as [|fuel]; cbn [deliver set_queue rw_queue pop_back] in He; [discriminate|].
    cbn [set_queue rw_alive pd_prov] in He.
    destruct (rw_alive w (sn_prov x)) eqn:Ea.
    - match type of He with deliver _ _ _ (serve _ ?q ?w1) = _ => set (w1' := w1) in * end.
      assert (Hq1 : rw_queue (serve run (mk_pending (sn_prov x) n) w1') = []).
      { rewrite serve_queue by exact Hn. reflexivity. }
      apply deliver_empty in He; [|exact Hq1]. subst w'. split; [|exact Hq1].
      apply serve_Inv3. intros m. cbn [set_queue w1' rw_nodes rw_roster rw_queue map cnt pd_src].
      specialize (H m). lia.
    - match type of He with deliver _ _ _ (dispose_service ?q ?w1) = _ => set (w1' := w1) in * end.
      assert (Hq1 : rw_queue (dispose_service (sn_prov x) w1') = []).
      { unfold dispose_service. destruct (fold_dispose_rest (sn_prov x)
          (map fst (filter (fun nx => Nat.eqb (sn_prov (snd nx)) (sn_prov x)) (rw_nodes w1'))) w1') as [_ ->].
        reflexivity. }
      apply deliver_empty in He; [|exact Hq1]. subst w'. split; [|exact Hq1].
      intros m. rewrite Hq1. cbn [map cnt].
      assert (Hr : rw_roster (dispose_service (sn_prov x) w1') = rw_roster w).
      { unfold dispose_service. destruct (fold_dispose_rest (sn_prov x)
          (map fst (filter (fun nx => Nat.eqb (sn_prov (snd nx)) (sn_prov x)) (rw_nodes w1'))) w1') as [-> _].
        reflexivity. }
      rewrite Hr. destruct (dispose_service_inp (sn_prov x) w1' m) as [H1 H2].
      specialize (H m). destruct (in_dec pair_nat_dec (m, sn_prov x) (sig (rw_nodes w1'))) as [Hi|Hi].
      + rewrite H1 by exact Hi. cbn [length]. lia.
      + rewrite H2 by exact Hi. cbn [w1' set_queue rw_nodes].
        destruct (Nat.eqb_spec n m) as [E1|E1]; [subst m|lia]. exfalso. apply Hi. apply find_sig, E.
  Qed.

  Lemma collect_fold_Inv3 ps w :
    Inv3 w -> Inv3 (fold_left (fun w p => dispose_service p w) ps w).
  Proof.
    revert w. induction ps as [|p ps IH]; intros w H; [exact H|]. apply IH, dispose_service_Inv3, H.
  Qed.

  Lemma collect_fold_rest ps w :
    rw_roster (fold_left (fun w p => dispose_service p w) ps w) = rw_roster w /\
    rw_queue (fold_left (fun w p => dispose_service p w) ps w) = rw_queue w.
  Proof.
    revert w. induction ps as [|p ps IH]; intros w; [split; reflexivity|]. cbn [fold_left].
    destruct (IH (dispose_service p w)) as [-> ->]. apply fold_dispose_rest.
  Qed.

  Definition quiet w : Prop := Inv3 w /\ rw_queue w = [].

  Lemma step_quiet w o w' :
    never_nests run \/ all_available w' -> quiet w -> rstep run w o w' -> quiet w'.
  Proof.
    intros Hc [H Hq] St. destruct St as [w n s v|w n r fuel w' Hr He|w p|w p|w].
    - destruct (give_find n s v w n) as (_ & Er & Eq). split.
      + intros m. cbn [set_roster rw_nodes rw_roster rw_queue]. rewrite Er, Eq, cnt_app, give_inp.
        cbn [cnt]. specialize (H m). rewrite (Nat.eqb_sym n m). destruct (find_node n (rw_nodes w)).
        * rewrite app_length. destruct (Nat.eqb m n); cbn [length]; lia.
        * lia.
      + cbn [set_roster rw_queue]. rewrite Eq. exact Hq.
    - assert (Hb : forall m, length (inp m (rw_nodes (set_roster w r))) <=
                   cnt m (rw_roster (set_roster w r)) + (if Nat.eqb n m then 1 else 0)).
      { intros m. specialize (H m). rewrite Hq, Hr in H. cbn [map cnt set_roster rw_nodes rw_roster] in *. lia. }
      destruct Hc as [Hn|Ha].
      + eapply exec_never_nests; [exact Hn| |exact Hb|exact He]. exact Hq.
      + unfold exec_node in He. destruct (find_node n (rw_nodes (set_roster w r))) as [x|] eqn:E.
        * edestruct (deliver_available fuel (sn_prov x) (enqueue n (set_roster w r))) as (A & _ & B);
            [| |exact He|exact Ha|split; [exact A|exact B]].
          -- intros m. unfold enqueue. rewrite E. cbn [set_queue set_roster rw_nodes rw_roster rw_queue] in *.
             rewrite Hq. cbn [app map cnt pd_src]. specialize (Hb m). lia.
          -- apply enqueue_Qok. intros q Hin. cbn [set_roster rw_queue] in Hin. rewrite Hq in Hin. destruct Hin.
        * injection He as <-. split; [|exact Hq]. intros m. specialize (Hb m).
          cbn [set_roster rw_nodes rw_roster rw_queue] in *. rewrite Hq. cbn [map cnt].
          destruct (Nat.eqb_spec n m) as [E1|E1]; [subst m|lia]. unfold inp. rewrite E. cbn [length]. lia.
    - unfold serve_next. destruct (pop_order p (rw_orders w)) as [[o rest]|]; split; assumption.
    - unfold despawn. destruct (rw_alive w p); split; assumption.
    - unfold collect. split.
      + apply collect_fold_Inv3. exact H.
      + match goal with |- rw_queue (fold_left _ ?ps ?w1) = _ => destruct (collect_fold_rest ps w1) as [_ ->] end.
        exact Hq.
  Qed.

  Lemma reach_quiet w0 w :
    rfresh w0 -> never_nests run \/ all_available w -> rreach run w0 w -> quiet w.
  Proof.
    intros Hf Hc R. induction R as [|w o w' R IH St].
    - split; [|apply Hf]. intros n. rewrite fresh_inp by exact Hf. cbn [length]. lia.
    - eapply step_quiet; [exact Hc| |exact St]. apply IH.
      destruct Hc as [Hn|Ha]; [left; exact Hn|right].
      eapply sig_available; [exact (step_fewer _ _ _ St)|exact (step_sig _ _ _ _ St)|exact Ha].
  Qed.

  (** ** Despawned services *)

  (** What [dispose_service] adds to the log. *)
  Lemma disposed_app p n (a b : list (revent V)) :
    disposed_at p n (a ++ b) = disposed_at p n a ++ disposed_at p n b.
  Proof. apply flat_map_app. Qed.

  Lemma disposed_disposed p n q m (ii : list (entity * V)) :
    disposed_at p n (map (fun sv => RvDisposed q m (fst sv) (snd sv)) ii) =
    if Nat.eqb q p && Nat.eqb m n then ii else [].
  Proof.
    induction ii as [|[s v] ii IH].
    - destruct (_ && _); reflexivity.
    - unfold disposed_at in *. cbn [map flat_map fst snd]. rewrite IH.
      destruct (Nat.eqb q p && Nat.eqb m n); reflexivity.
  Qed.

  Lemma fold_dispose_log p ns w q n :
    disposed_at q n (rw_log (fold_left (dispose_node p) ns w)) =
    disposed_at q n (rw_log w) ++
    (if Nat.eqb p q && existsb (Nat.eqb n) ns then inp n (rw_nodes w) else []).
  Proof.
    revert w. induction ns as [|m ns IH]; intros w.
    - cbn [fold_left existsb]. rewrite andb_false_r, app_nil_r. reflexivity.
    - cbn [fold_left existsb]. rewrite IH, dispose_node_inp. unfold dispose_node.
      destruct (find_node m (rw_nodes w)) as [x|] eqn:E.
      + cbn [add_log rw_log]. rewrite disposed_app, disposed_disposed, <- app_assoc. f_equal.
        cbn [set_nodes rw_log]. rewrite (Nat.eqb_sym m n).
        destruct (Nat.eqb p q); cbn [andb]; [|reflexivity].
        destruct (Nat.eqb_spec n m) as [->|]; cbn [orb]; [|reflexivity].
        unfold inp. rewrite E. destruct (existsb (Nat.eqb m) ns); apply app_nil_r.
      + f_equal. destruct (Nat.eqb p q); cbn [andb]; [|reflexivity].
        destruct (Nat.eqb_spec n m) as [->|]; cbn [orb]; [|reflexivity].
        unfold inp. rewrite E. destruct (existsb (Nat.eqb m) ns); reflexivity.
  Qed.

  Lemma fold_dispose_told p ns w s :
    told s (rw_log (fold_left (dispose_node p) ns w)) <->
    told s (rw_log w) \/ exists n v, In n ns /\ In (s, v) (inp n (rw_nodes w)).
  Proof.
    revert w. induction ns as [|m ns IH]; intros w; cbn [fold_left].
    - split; [auto|]. intros [H|(n & v & [] & _)]. exact H.
    - rewrite IH. clear IH. split.
      + intros [H|(n & v & Hn & Hv)].
        * unfold dispose_node in H. destruct (find_node m (rw_nodes w)) as [x|] eqn:E; [|left; exact H].
          destruct H as (q & n & v & Hin). cbn [add_log set_nodes rw_log] in Hin.
          apply in_app_or in Hin. destruct Hin as [Hin|Hin]; [left; exists q, n, v; exact Hin|].
          apply in_map_iff in Hin. destruct Hin as ([s' v'] & [= _ _ Hs _] & Hi). cbn [fst] in Hs. subst s'.
          right. exists m, v'. split; [left; reflexivity|]. unfold inp. rewrite E. exact Hi.
        * right. exists n, v. split; [right; exact Hn|]. rewrite dispose_node_inp in Hv.
          destruct (Nat.eqb n m); [destruct Hv|exact Hv].
      + intros [(q & n & v & Hin)|(n & v & [<-|Hn] & Hv)].
        * left. exists q, n, v. unfold dispose_node. destruct (find_node m (rw_nodes w)); [|exact Hin].
          cbn [add_log set_nodes rw_log]. apply in_or_app. left. exact Hin.
        * left. unfold inp in Hv. unfold dispose_node. destruct (find_node m (rw_nodes w)) as [x|]; [|destruct Hv].
          exists p, m, v. cbn [add_log set_nodes rw_log]. apply in_or_app. right.
          apply in_map_iff. exists (s, v). split; [reflexivity|exact Hv].
        * destruct (Nat.eqb_spec n m) as [->|Hne].
          -- left. unfold inp in Hv. unfold dispose_node. destruct (find_node m (rw_nodes w)) as [x|]; [|destruct Hv].
             exists p, m, v. cbn [add_log set_nodes rw_log]. apply in_or_app. right.
             apply in_map_iff. exists (s, v). split; [reflexivity|exact Hv].
          -- right. exists n, v. split; [exact Hn|]. rewrite dispose_node_inp.
             destruct (Nat.eqb_spec n m); [contradiction|exact Hv].
  Qed.
End Proofs.
