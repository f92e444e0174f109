(** Properties of streams: C38, C39, C53, C54, C55. *)
From Coq Require Import List Arith Bool Lia.
From Verif Require Import Base StreamModel StreamSpec StreamProofs StreamProofs2.
Import ListNotations.

(** * C38 *)

Section C38.
Context {V : Type}.
Implicit Types (cs : list (stream V * entity)) (w : st V).

Lemma typed_destination cs t e :
  connected_type cs t = Some e -> exists c, In c cs /\ snd c = e /\ carried (fst c) = t.
Proof.
  unfold connected_type. destruct (find (is_typed t) cs) as [c|] eqn:E; [|discriminate].
  intros H. injection H as <-. apply find_some in E. destruct E as [Hin Ht].
  exists c. split; [exact Hin|]. split; [reflexivity|].
  unfold is_typed in Ht. destruct (fst c); try discriminate;
    destruct (ty_eq_dec _ t); auto; discriminate.
Qed.

Lemma named_destination cs n t e :
  connected_name cs n t = Some e -> exists c, In c cs /\ snd c = e /\ carried (fst c) = t.
Proof.
  unfold connected_name. destruct (find (is_named n) cs) as [c|] eqn:E; [|discriminate].
  destruct (ty_eq_dec (carried (fst c)) t) as [Et|]; [|discriminate].
  intros H. injection H as <-. apply find_some in E. destruct E as [Hin _]. exists c. auto.
Qed.

Lemma destination_connected cs n t e u form :
  destination_named cs n t = Some (e, u, form) \/ destination_unnamed cs t = Some (e, u, form) ->
  exists c, In c cs /\ snd c = e /\ carried (fst c) = u.
Proof.
  unfold destination_named, destination_unnamed. intros [H|H].
  - destruct (connected_name cs n t) as [x|] eqn:E1.
    + injection H as <- <- _. apply (named_destination cs n). exact E1.
    + destruct (connected_type cs (NamedTy t)) as [x|] eqn:E2.
      * injection H as <- <- _. apply typed_destination. exact E2.
      * destruct (connected_type cs t) as [x|] eqn:E3; [|discriminate].
        injection H as <- <- _. apply typed_destination. exact E3.
  - destruct (connected_type cs t) as [x|] eqn:E3; [|discriminate].
    injection H as <- <- _. apply typed_destination. exact E3.
Qed.

Lemma parcels_fitting cs s ses items w :
  well_typed cs w -> forall p, In p (parcels cs s ses items) -> fitting w p.
Proof.
  intros Hw p Hp. unfold parcels in Hp. apply in_map_iff in Hp. destruct Hp as (i & <- & _).
  intros e t form n Hto Hn. cbn [pc_to] in Hto.
  assert (exists c, In c cs /\ snd c = e /\ carried (fst c) = t) as (c & Hc & <- & <-).
  { destruct s as [f|k f|f]; cbn [destination_of] in Hto.
    - exact (destination_connected cs 0 _ _ _ _ (or_intror Hto)).
    - exact (destination_connected cs k _ _ _ _ (or_introl Hto)).
    - exact (destination_connected cs (fst i) _ _ _ _ (or_introl Hto)). }
  exact (Hw c n Hc Hn).
Qed.

End C38.

(** For every table of connections, every stream, every sequence of items,
    every world and each of the three ways of sending: every target gets
    exactly the items for which it is the most specific connection, in order,
    and is woken once for each; an item whose side effect fails or whose
    target is gone leaves one error and nothing else; no session is
    cancelled. *)
Theorem C38_routes : forall V (r : route) (cs : list (stream V * entity)) (s : stream V)
    source session (items : list (item V)) (w : st V),
  well_typed cs w ->
  let w' := send_all r cs s source session items w in
  let ps := parcels cs s session items in
  delivered ps w w' /\
  st_broken w' = st_broken w ++ repeat source (failures w ps) /\
  st_cancel w' = st_cancel w.
Proof.
  intros V r cs s source session items w Hw. cbn zeta. rewrite send_all_parcels.
  exact (parcels_spec (Reported source) _ w (parcels_fitting cs s session items w Hw)).
Qed.
Print Assumptions C38_routes.

(** A node with three connections: the stream named 7, any named stream of the
    type, and a target nobody uses for the unnamed one. *)
Definition copy (t : nat) : effect nat := mkEffect (Ty (100 + t)) (Ty t) (Ty t) Some.
Definition picky (t : nat) : effect nat :=
  mkEffect (Ty (200 + t)) (Ty t) (Ty t) (fun v => if Nat.eqb v 13 then None else Some (S v)).
Definition three : list (stream nat * entity) :=
  [(SNamed 7 (copy 1), 10); (SDyn (copy 1), 11); (SAnon (copy 1), 12); (SNamed 7 (copy 1), 13)].
Definition wstart : st nat :=
  mkSt (fun e => match e with
                 | 10 => Some (mkNode (Some (Ty 1)) false [])
                 | 11 => Some (mkNode (Some (NamedTy (Ty 1))) false [])
                 | 12 => Some (mkNode None true [])
                 | 13 => Some (mkNode (Some (Ty 1)) false [])
                 | _ => None end)
       (fun s => Nat.eqb s 5) [] [] [] (fun _ => None).

Example C38_routes_case :
  well_typed three wstart /\
  let w' := send_all Channelled three (SDyn (picky 1)) 3 5 [(7, 1); (8, 2); (7, 13); (7, 4)] wstart in
  st_nodes w' 10 = Some (mkNode (Some (Ty 1)) false [(5, Plain 5); (5, Plain 2)]) /\
  st_nodes w' 11 = Some (mkNode (Some (NamedTy (Ty 1))) false [(5, Named 8 3)]) /\
  st_wakes w' = [10; 11; 10] /\ st_broken w' = [3].
Proof.
  split; [|vm_compute; auto].
  intros c n Hc Hn. unfold three in Hc. cbn [In] in Hc.
  destruct Hc as [<-|[<-|[<-|[<-|[]]]]]; cbn in Hn; injection Hn as <-; unfold accepts; cbn; auto.
Qed.

(** Streams that leave a workflow or a scope: when the node at which they leave
    has been executed once for each of its inputs, all the inputs have been
    sent on, in order, in the session outside, to the most specific connection
    made by the one who runs the workflow; inputs of sessions that have ended
    are discarded.  Each item that cannot be delivered cancels the scope that
    it leaves (see the next theorem), and nothing else does. *)
Theorem C38_leaving : forall V (r : redirect V) outs self t u
    (items : list (entity * datum V)) (w : st V),
  st_nodes w self = Some (mkNode t u (rev items)) ->
  (forall i, In i items -> well_formed r (snd i)) ->
  (match r with
   | RScope f target =>
       (forall i, In i items -> outs (fst i) <> None) /\ target <> self /\
       (forall n, st_nodes w target = Some n -> accepts n (ef_out f))
   | _ =>
       forall ses cs parent, outs ses = Some (cs, parent) ->
         well_typed cs w /\ (forall c, In c cs -> snd c <> self)
   end) ->
  let ps := flat_map (parcel_out r outs) items in
  let w0 := put_node self (Some (mkNode t u [])) w in
  let w' := redirect_run (length items) r (exits_of outs) self w in
  delivered ps w0 w' /\
  st_cancel w' = st_cancel w ++ repeat self (failures w0 ps) /\
  st_broken w' = st_broken w.
Proof.
  intros V r outs self t u items w Hn Hwf Hr.
  refine (redirect_run_spec r outs self (mkNode t u []) items w Hn Hwf _ _).
  { destruct r; auto. exact (proj1 Hr). }
  intros p Hp. apply in_flat_map in Hp. destruct Hp as ([ses d] & Hin & Hp).
  unfold parcel_out in Hp. cbn [fst snd] in Hp.
  destruct (outs ses) as [[cs parent]|] eqn:Eo; [|destruct Hp].
  assert (Hgen : forall e u' (form : V -> datum V), (exists c, In c cs /\ snd c = e /\ carried (fst c) = u') ->
            match r with RScope _ _ => False | _ => True end ->
            forall n, st_nodes w e = Some n -> accepts n u' /\ e <> self).
  { intros e u' _ (c & Hc & <- & <-) Hns n Hnn.
    destruct r as [f x|f|k f|f]; [destruct Hns| | |];
      destruct (Hr _ _ _ Eo) as [Hw Hne]; split; [apply Hw|apply Hne| apply Hw|apply Hne| apply Hw|apply Hne]; auto. }
  assert (Hgen' : forall e u' (form : V -> datum V),
            (exists c, In c cs /\ snd c = e /\ carried (fst c) = u') ->
            match r with RScope _ _ => False | _ => True end -> e <> self).
  { intros e u' _ (c & Hc & <- & <-) Hns.
    destruct r as [f x|f|k f|f]; [destruct Hns| | |];
      destruct (Hr _ _ _ Eo) as [Hw Hne]; apply Hne; exact Hc. }
  specialize (Hwf _ Hin). cbn [snd] in Hwf.
  destruct r as [f x|f|k f|f], d as [v|k' v]; cbn in Hwf; try contradiction;
    destruct Hp as [<-|[]]; cbn [pc_to].
  - destruct Hr as (_ & Hne & Ha). split; [|intros e u' form H; injection H as <- _ _; exact Hne].
    intros e u' form n H Hx. cbn in H. injection H as <- <- _. exact (Ha n Hx).
  - destruct Hr as (_ & Hne & Ha). split; [|intros e u' form H; injection H as <- _ _; exact Hne].
    intros e u' form n H Hx. cbn in H. injection H as <- <- _. exact (Ha n Hx).
  - split.
    + intros e u' form n H Hx. cbn [pc_to] in H.
      exact (proj1 (Hgen e u' form (destination_connected cs 0 _ _ _ _ (or_intror H)) I n Hx)).
    + intros e u' form H. exact (Hgen' e u' form (destination_connected cs 0 _ _ _ _ (or_intror H)) I).
  - split.
    + intros e u' form n H Hx. cbn [pc_to] in H.
      exact (proj1 (Hgen e u' form (destination_connected cs k _ _ _ _ (or_introl H)) I n Hx)).
    + intros e u' form H. exact (Hgen' e u' form (destination_connected cs k _ _ _ _ (or_introl H)) I).
  - split.
    + intros e u' form n H Hx. cbn [pc_to] in H.
      exact (proj1 (Hgen e u' form (destination_connected cs k' _ _ _ _ (or_introl H)) I n Hx)).
    + intros e u' form H. exact (Hgen' e u' form (destination_connected cs k' _ _ _ _ (or_introl H)) I).
Qed.
Print Assumptions C38_leaving.

(** A workflow with two sessions, 20 (run for session 5) and 21 (ended). *)
Definition wleave : st nat :=
  put_node 30 (Some (mkNode (Some (NamedTy (Ty 1))) false
                       (rev [(20, Named 7 1); (21, Named 7 2); (20, Named 9 3)]))) wstart.
Definition outs1 (s : entity) : option (list (stream nat * entity) * entity) :=
  if Nat.eqb s 20 then Some (three, 5) else None.

Example C38_leaving_case :
  let w' := redirect_run 3 (RDyn (copy 1)) (exits_of outs1) 30 wleave in
  st_nodes w' 10 = Some (mkNode (Some (Ty 1)) false [(5, Plain 1)]) /\
  st_nodes w' 11 = Some (mkNode (Some (NamedTy (Ty 1))) false [(5, Named 9 3)]) /\
  st_cancel w' = [] /\
  (forall i, In i [(20, Named 7 1); (21, Named 7 2); (20, Named 9 3)] ->
     well_formed (RDyn (copy 1)) (snd i)) /\
  (forall ses cs parent, outs1 ses = Some (cs, parent) ->
     well_typed cs wleave /\ (forall c, In c cs -> snd c <> 30)).
Proof.
  cbn zeta. split; [vm_compute; reflexivity|]. split; [vm_compute; reflexivity|].
  split; [vm_compute; reflexivity|]. split.
  - intros i Hi. cbn [In] in Hi. destruct Hi as [<-|[<-|[<-|[]]]]; cbn; exact I.
  - intros ses cs parent H. unfold outs1 in H. destruct (Nat.eqb ses 20); [|discriminate].
    injection H as <- <-. split.
    + intros c n Hc Hn. unfold three in Hc. cbn [In] in Hc.
      destruct Hc as [<-|[<-|[<-|[<-|[]]]]]; cbn in Hn; injection Hn as <-; unfold accepts; cbn; auto.
    + intros c Hc. unfold three in Hc. cbn [In] in Hc.
      destruct Hc as [<-|[<-|[<-|[<-|[]]]]]; cbn; discriminate.
Qed.

(** Refuted for streams that leave a workflow: an item that cannot be
    delivered does affect other items.  The node at which it leaves cancels its
    scope, for all sessions. *)
Theorem C38_leaving_refuted : forall V (r : redirect V) outs self t u
    (before : list (entity * datum V)) ses d (w : st V) p,
  st_nodes w self = Some (mkNode t u (before ++ [(ses, d)])) ->
  well_formed r d ->
  parcel_out r outs (ses, d) = [p] ->
  undeliverable (is_alive (put_node self (Some (mkNode t u before)) w)) p = true ->
  let w' := redirect_execute r (exits_of outs) self w in
  st_cancel w' = st_cancel w ++ [self].
Proof.
  intros V r outs self t u before ses d w p Hn Hwf Hp Hu. cbn zeta.
  rewrite (redirect_execute_parcels r outs self w _ before ses d Hn eq_refl Hwf).
  2:{ destruct r; auto. unfold parcel_out in Hp. cbn [fst] in Hp. destruct (outs ses); [discriminate|discriminate]. }
  rewrite Hp. cbn [fold_left]. unfold parcel_step, parcel_try. unfold with_queue. cbn [nd_ty nd_unused].
  set (w1 := put_node self (Some (mkNode t u before)) w) in *.
  unfold undeliverable in Hu. destruct (pc_value p) as [v|]; [|reflexivity].
  destruct (pc_to p) as [[[e t'] form]|]; [|discriminate].
  cbn [send_output]. unfold is_alive in Hu. destruct (st_nodes w1 e); [discriminate|]. reflexivity.
Qed.
Print Assumptions C38_leaving_refuted.

Example C38_leaving_refuted_case :
  let w := put_node 30 (Some (mkNode (Some (NamedTy (Ty 1))) false [(20, Named 7 13)])) wstart in
  st_cancel (redirect_execute (RDyn (picky 1)) (exits_of outs1) 30 w) = [30].
Proof. reflexivity. Qed.

(** * C39 *)

(** Refuted: however a stream with a collection as its target is used, the
    collection gets no more than the first item. *)
Theorem C39_refuted : forall V (p : push) (f : effect V) source session self hs (w : st V) u c,
  ps_stream p = true ->
  st_active w session = true ->
  st_nodes w self = Some (mkNode (Some (ef_out f)) u []) ->
  st_coll w (ps_target p) = Some c ->
  let w' := push_run p f source session self hs w in
  exists k, k <= 1 /\
    st_coll w' (ps_target p) =
      Some (c ++ map (entry p (ef_out f) session) (firstn k (sent f hs))).
Proof.
  intros V p f source session self hs w u c Hs Ha Hn Hc. cbn zeta.
  destruct (run_stream p f source session self hs w c [] Hs Ha) as [(_ & H & _)|(x & H1 & _ & _ & H2)].
  - exists u. exact Hn.
  - exact Hc.
  - exists 0. split; [lia|]. cbn. rewrite app_nil_r. exact H.
  - exists 1. split; [lia|]. cbn [app] in H1.
    destruct (sent f hs) as [|y l]; [discriminate|]. injection H1 as ->. exact H2.
Qed.
Print Assumptions C39_refuted.

(** What holds: the first item is collected once the redirect has been
    executed after it. *)
Theorem C39_first_partial : forall V (p : push) (f : effect V) source session self h1 v v' h2 h3
    (w : st V) u c,
  ps_stream p = true ->
  st_active w session = true ->
  st_nodes w self = Some (mkNode (Some (ef_out f)) u []) ->
  st_coll w (ps_target p) = Some c ->
  sent f h1 = [] -> ef_fun f v = Some v' ->
  st_coll (push_run p f source session self (h1 ++ Send v :: h2 ++ Execute :: h3) w) (ps_target p) =
    Some (c ++ [entry p (ef_out f) session v']).
Proof.
  intros V p f source session self h1 v v' h2 h3 w u c Hs Ha Hn Hc H1 Hv.
  assert (E : h1 ++ Send v :: h2 ++ Execute :: h3 = (h1 ++ Send v :: h2) ++ (Execute :: h3))
    by (rewrite <- app_assoc; reflexivity).
  rewrite E, run_app.
  assert (Es : sent f (h1 ++ Send v :: h2) = v' :: sent f h2).
  { unfold sent in *. rewrite flat_map_app, H1. cbn [flat_map]. rewrite Hv. reflexivity. }
  destruct (run_stream p f source session self (h1 ++ Send v :: h2) w c [] Hs Ha)
    as [(H & Hc' & Ha')|(x & Hx & _ & Hd & Hc')].
  - exists u. exact Hn.
  - exact Hc.
  - rewrite Es in H. cbn [app] in H. rewrite run_cons. cbn [push_step].
    destruct (execute_waits p f session self _ c v' _ H Hc') as (G1 & _ & G3). rewrite Hs in G3.
    destruct (run_dead p f source session self h3 _ G3) as [_ D]. rewrite D. exact G1.
  - rewrite Es in Hx. cbn in Hx. injection Hx as <-.
    destruct (run_dead p f source session self (Execute :: h3) _ Hd) as [_ D]. rewrite D. exact Hc'.
Qed.
Print Assumptions C39_first_partial.

(** The responses that are pushed (no streams) are all collected, in order. *)
Theorem C39_push : forall V (p : push) (f : effect V) source session self hs (w : st V) u c,
  ps_stream p = false ->
  st_active w session = true ->
  st_nodes w self = Some (mkNode (Some (ef_out f)) u []) ->
  st_coll w (ps_target p) = Some c ->
  (exists done rest, sent f hs = done ++ rest /\
     st_coll (push_run p f source session self hs w) (ps_target p) =
       Some (c ++ map (entry p (ef_out f) session) done)) /\
  st_coll (push_run p f source session self (hs ++ repeat Execute (length (sent f hs))) w)
      (ps_target p) =
    Some (c ++ map (entry p (ef_out f) session) (sent f hs)).
Proof.
  intros V p f source session self hs w u c Hs Ha Hn Hc.
  destruct (run_plain p f source session self hs w c [] Hs Ha) as (done & rest & H1 & H2 & H3 & H4).
  - exists u. exact Hn.
  - exact Hc.
  - cbn [app] in H1. split.
    + exists done, rest. auto.
    + rewrite run_app. rewrite (run_drain p f source session self (length (sent f hs)) _ _ rest Hs
        ltac:(rewrite H1, app_length; lia) H2 H4).
      rewrite H1, map_app, app_assoc. reflexivity.
Qed.
Print Assumptions C39_push.

(** A stream that is taken is received completely and in order. *)
Theorem C39_taken : forall V (f : effect V) source session self hs (w : st V) u,
  st_active w session = true ->
  st_nodes w self = Some (mkNode (Some (ef_out f)) u []) ->
  (exists done rest, sent f hs = done ++ rest /\
     snd (taken_run f source session self hs (w, [])) = map Plain done) /\
  snd (taken_run f source session self (hs ++ repeat Execute (length (sent f hs))) (w, [])) =
    map Plain (sent f hs).
Proof.
  intros V f source session self hs w u Ha Hn.
  destruct (trun_spec f source session self hs w [] [] Ha) as (done & rest & H1 & H2 & H3 & H4).
  - exists u. exact Hn.
  - cbn [app] in H1, H4. split.
    + exists done, rest. auto.
    + rewrite trun_app. destruct (taken_run f source session self hs (w, [])) as [w1 rs].
      cbn [fst snd] in *. subst rs.
      rewrite (trun_drain f source session self _ w1 _ rest); [|rewrite H1, app_length; lia|exact H2].
      rewrite H1, map_app. reflexivity.
Qed.
Print Assumptions C39_taken.

Definition wcoll : st nat :=
  mkSt (fun e => if Nat.eqb e 10 then Some (mkNode (Some (Ty 1)) false []) else None)
       (fun _ => true) [] [] [] (fun e => if Nat.eqb e 50 then Some [] else None).
Definition story : list (happening nat) := [Send 1; Send 13; Execute; Send 2; Execute; Send 3; Execute].

Example C39_case :
  st_coll (push_run (mkPush 50 true None) (picky 1) 3 5 10 story wcoll) 50 = Some [(Ty 1, 5, Plain 2)] /\
  st_coll (push_run (mkPush 50 false (Some 4)) (picky 1) 3 5 10 story wcoll) 50 =
    Some [(NamedTy (Ty 1), 5, Named 4 2); (NamedTy (Ty 1), 5, Named 4 3); (NamedTy (Ty 1), 5, Named 4 4)] /\
  snd (taken_run (picky 1) 3 5 10 story (wcoll, [])) = [Plain 2; Plain 3; Plain 4] /\
  sent (picky 1) story = [2; 3; 4].
Proof. vm_compute. auto. Qed.

(** Both findings together: a workflow whose stream is collected is cancelled
    by the second item of its stream. *)
Example C39_cancel_case :
  let w := put_node 30 (Some (mkNode (Some (Ty 1)) false [(20, Plain 2); (20, Plain 1)])) wcoll in
  let outs s := if Nat.eqb s 20 then Some ([(SAnon (copy 1), 10)], 5) else None in
  let w := redirect_execute (RAnon (copy 1)) (exits_of outs) 30 w in
  let w := push_execute (mkPush 50 true None) (Ty 1) 10 w in
  let w := redirect_execute (RAnon (copy 1)) (exits_of outs) 30 w in
  st_coll w 50 = Some [(Ty 1, 5, Plain 1)] /\ st_cancel w = [30].
Proof. vm_compute. auto. Qed.

(** * C53 *)

(** Where the types agree, the node at which a stream leaves answers whether it
    still has an item for the session, and its cleanup removes exactly the
    items of the session. *)
Theorem C53_workflow_partial : forall V (r : redirect V) q session upstream,
  (match r with RAnon _ => True | RDyn _ => True | _ => False end) ->
  let n := redirect_node r q in
  redirect_reachable r n session upstream =
    (if in_dec Nat.eq_dec session (map fst q) then Some true else upstream) /\
  redirect_cleanup r n session =
    redirect_node r (filter (fun i => negb (Nat.eqb (fst i) session)) q).
Proof.
  intros V r q session upstream Hr. cbn zeta.
  assert (Et : asked_ty r = storage_ty r) by (destruct r; cbn in *; tauto).
  unfold redirect_reachable, redirect_cleanup, has_input, cleanup_inputs, redirect_node.
  cbn [nd_ty nd_unused nd_queue]. rewrite Et, ty_eqb_refl. split; [|reflexivity].
  destruct (in_dec Nat.eq_dec session (map fst q)) as [Hin|Hnot].
  - assert (E : existsb (fun i => Nat.eqb (fst i) session) q = true); [|rewrite E; reflexivity].
    apply existsb_exists. apply in_map_iff in Hin. destruct Hin as (i & Ei & Hi).
    exists i. split; [exact Hi|]. apply Nat.eqb_eq. exact Ei.
  - assert (E : existsb (fun i => Nat.eqb (fst i) session) q = false); [|rewrite E; reflexivity].
    apply not_true_iff_false. intros H. apply existsb_exists in H. destruct H as (i & Hi & Ei).
    apply Nat.eqb_eq in Ei. apply Hnot. apply in_map_iff. exists i. auto.
Qed.
Print Assumptions C53_workflow_partial.

(** Refuted for the streams of a scope, unless the stream type is its own
    input type, and for the streams of a workflow that have a fixed name:
    every question about reachability fails, and cleanup leaves the items. *)
Theorem C53_scope_refuted : forall V (r : redirect V) q session upstream,
  (match r with
   | RScope f _ => ef_self f <> ef_in f
   | RStatic _ _ => True
   | _ => False
   end) ->
  let n := redirect_node r q in
  redirect_reachable r n session upstream = None /\ redirect_cleanup r n session = n.
Proof.
  intros V r q session upstream Hr. cbn zeta.
  assert (Et : storage_ty r <> asked_ty r).
  { destruct r as [f x|f|k f|f]; cbn in *; try contradiction.
    - congruence.
    - intros E. clear Hr. induction (ef_in f) as [a|a IH]; [discriminate|]. injection E as E. apply IH. exact E. }
  unfold redirect_reachable, redirect_cleanup, has_input, cleanup_inputs, redirect_node.
  cbn [nd_ty nd_unused nd_queue].
  destruct (ty_eqb_spec (storage_ty r) (asked_ty r)); [contradiction|]. auto.
Qed.
Print Assumptions C53_scope_refuted.

Example C53_case :
  ef_self (copy 1) <> ef_in (copy 1) /\
  redirect_reachable (RAnon (copy 1)) (redirect_node (RAnon (copy 1)) [(20, Plain 1); (21, Plain 2)]) 21 (Some false)
    = Some true /\
  nd_queue (redirect_cleanup (RAnon (copy 1)) (redirect_node (RAnon (copy 1)) [(20, Plain 1); (21, Plain 2)]) 21)
    = [(20, Plain 1)] /\
  nd_queue (redirect_cleanup (RScope (copy 1) 9) (redirect_node (RScope (copy 1) 9) [(20, Plain 1); (21, Plain 2)]) 21)
    = [(20, Plain 1); (21, Plain 2)].
Proof. split; [discriminate|]. vm_compute. auto. Qed.

(** * C54 *)

(** The discovery finds exactly the providers with the request and response
    types that provide each stream asked for, as long as no dynamically named
    stream is asked for. *)
Theorem C54_discovery_partial : forall V marker (f : sfilter V)
    (ps : list (entity * (ty * ty) * list (stream V))) e,
  (forall p, In p ps -> clear_names (snd p)) ->
  (forall s, asks f s -> is_dynamic s = false) ->
  (In e (discover marker f
           (map (fun p => mkProvider (fst (fst p)) (snd (fst p)) (Some (offers (snd p)))) ps)) <->
   exists pack, In (e, marker, pack) ps /\ forall s, asks f s -> provides pack s).
Proof.
  intros V marker f ps e Hc Hd. unfold discover. rewrite in_map_iff. split.
  - intros (p & <- & Hp). apply filter_In in Hp. destruct Hp as [Hp Hr].
    apply filter_In in Hp. destruct Hp as [Hp Hm].
    apply in_map_iff in Hp. destruct Hp as ([[e' m] pack] & <- & Hin).
    cbn [pv_id pv_marker pv_avail fst snd] in *.
    apply andb_true_iff in Hm. destruct Hm as [H1 H2].
    destruct (ty_eqb_spec (fst m) (fst marker)) as [E1|]; [|discriminate].
    destruct (ty_eqb_spec (snd m) (snd marker)) as [E2|]; [|discriminate].
    exists pack. split.
    + destruct m, marker; cbn in *; subst; exact Hin.
    + apply required_spec; auto. exact (Hc _ Hin).
  - intros (pack & Hin & Hs).
    exists (mkProvider e marker (Some (offers pack))). split; [reflexivity|].
    apply filter_In. split.
    + apply filter_In. split.
      * apply in_map_iff. exists (e, marker, pack). auto.
      * cbn [pv_marker]. rewrite !ty_eqb_refl. reflexivity.
    + cbn [pv_avail]. apply required_spec; auto. exact (Hc _ Hin).
Qed.
Print Assumptions C54_discovery_partial.

(** Refuted for dynamically named streams: a service that has only
    one dynamically named stream is not found by a discovery requiring that
    stream, and every service that has an unnamed stream of the value type is
    found although it may have no dynamically named stream. *)
Theorem C54_dynamic_refuted : forall V (f : effect V) (pack : list (stream V)),
  required_available (Some (offers [SDyn f])) (Require [SDyn f]) = false /\
  (In (SAnon f) pack -> required_available (Some (offers pack)) (Require [SDyn f]) = true).
Proof.
  intros V f pack. split.
  - cbn. unfold has_anonymous. cbn. rewrite orb_false_r, andb_true_r.
    assert (ef_out f <> NamedTy (ef_out f)).
    { intros E. induction (ef_out f) as [a|a IH]; [discriminate|]. injection E as E. apply IH. exact E. }
    destruct (ty_eqb_spec (ef_out f) (NamedTy (ef_out f))); [contradiction|reflexivity].
  - intros Hin. cbn [required_available forallb available]. rewrite andb_true_r.
    apply has_anonymous_in. unfold offers. apply offers_anon. right. left. exists f. auto.
Qed.
Print Assumptions C54_dynamic_refuted.

Example C54_case :
  let p1 := [SAnon (copy 1); SNamed 3 (copy 2)] in
  let p2 := [SDyn (copy 1)] in
  let ps := map (fun p => mkProvider (fst (fst p)) (snd (fst p)) (Some (offers (snd p))))
              [(1, (Ty 8, Ty 9), p1); (2, (Ty 8, Ty 9), p2); (3, (Ty 8, Ty 8), p1)] in
  discover (V := nat) (Ty 8, Ty 9) (FTuple [Require [SNamed 3 (copy 2)]; Optional [SAnon (copy 4)]]) ps = [1] /\
  discover (V := nat) (Ty 8, Ty 9) (Require [SDyn (copy 1)]) ps = [1] /\
  discover (V := nat) (Ty 8, Ty 9) (FTuple []) ps = [1; 2].
Proof. vm_compute. auto. Qed.

(** * C55 *)

(** Refuted: the cast to a pack with more streams always succeeds, and the
    cast to a pack that lacks an unnamed stream of the original always fails;
    the documentation says the opposite of both. *)
Theorem C55_refuted : forall V (from more to : list (stream V)) (f : effect V),
  stream_cast from (from ++ more) = true /\
  (In (SAnon f) from -> ~ provides to (SAnon f) -> stream_cast from to = false).
Proof.
  intros V from more to f. split.
  - unfold stream_cast, can_cast_to. apply andb_true_iff. split; apply forallb_forall.
    + intros t Ht. apply has_anonymous_in. unfold offers in *. rewrite fold_left_app.
      apply offers_anon. left. exact Ht.
    + intros [n t] Ht. cbn [fst snd]. unfold offers in *. rewrite fold_left_app, offers_named.
      rewrite (look_name_in _ n t).
      * cbn [or_else]. apply ty_eqb_refl.
      * apply offers_nodup. constructor.
      * exact Ht.
  - intros Hin Hnot. unfold stream_cast, can_cast_to. apply andb_false_iff. left.
    apply not_true_iff_false. intros H. rewrite forallb_forall in H.
    assert (Ht : In (ef_out f) (av_anon (offers from))).
    { unfold offers. apply offers_anon. right. left. exists f. auto. }
    apply H in Ht. apply has_anonymous_in in Ht. unfold offers in Ht. apply offers_anon in Ht.
    destruct Ht as [[]|Ht]. apply Hnot. exact Ht.
Qed.
Print Assumptions C55_refuted.

Example C55_case :
  stream_cast (V := nat) [SAnon (copy 1)] [SAnon (copy 1); SAnon (copy 2)] = true /\
  stream_cast (V := nat) [SAnon (copy 1); SAnon (copy 2)] [SAnon (copy 1)] = false /\
  ~ provides [SAnon (copy 1)] (SAnon (copy 2)).
Proof.
  split; [reflexivity|]. split; [reflexivity|].
  intros [(g & [E|[]] & H)|(g & [E|[]] & _)]; [|discriminate].
  injection E as <-. discriminate.
Qed.
