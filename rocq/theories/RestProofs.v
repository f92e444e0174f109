(** A flush comes to rest: the messages on their way are worth less with every operation. *)
From Verif Require Import Base RosterModel BufferModel InputModel InputSpec InputProofs GateModel
  OpsModel OpsSpec OpsProofs ReachModel ReachSpec ReachProofs ExecModel ExecSpec ExecProofs ExecProofs2 ExecProofs3
  ExecProofs4 ExecProofs5.

Section Rest.
Variable f : workflow.
Hypothesis Hb : built f.
Hypothesis Hfree : collect_free f.

(** ** What comes of a message within a number of steps *)
Fixpoint ends_in (k : nat) (n : entity) (v : val) : Prop :=
  match k with
  | 0 => False
  | S k' => forall kd ms dropped, f_kind f n = Some kd -> reacts kd v = Some (Sends ms dropped) ->
      forall t u, In (t, u) ms -> ends_in k' t u
  end.

Lemma ends_in_mono k : forall j n v, k <= j -> ends_in k n v -> ends_in j n v.
Proof.
  induction k as [|k IH]; intros [|j] n v Hj; cbn; try lia; try tauto.
  intros H kd ms d Hk Hr t u Hin. apply (IH j); [lia|]. exact (H kd ms d Hk Hr t u Hin).
Qed.

Scheme yields_mut := Induction for yields Sort Prop
  with yield_all_mut := Induction for yield_all Sort Prop.

Lemma yields_ends n v l : yields f n v l -> exists k, ends_in k n v.
Proof.
  intros Y. induction Y using yields_mut with
    (P0 := fun ms l _ => exists k, forall t u, In (t, u) ms -> ends_in k t u).
  - exists 1. cbn. intros kd ms d Hk Hr. rewrite (proj2 (proj1 (proj2 (proj2 (proj2 (proj2 Hb)))) (f_terminal f)) eq_refl) in Hk. injection Hk as <-. discriminate.
  - exists 1. cbn. intros kd ms d Hk Hr. rewrite e in Hk. injection Hk as <-. discriminate.
  - exists 1. cbn. intros kd ms d Hk Hr. rewrite e in Hk. injection Hk as <-. congruence.
  - exists 1. cbn. intros kd ms d Hk Hr. rewrite e in Hk. injection Hk as <-. congruence.
  - destruct IHY as [j Hj]. exists (S j). cbn. intros kd ms' d Hk Hr t u Hin. rewrite e in Hk. injection Hk as <-.
    rewrite e0 in Hr. injection Hr as <- <-. exact (Hj t u Hin).
  - exists 0. intros t u [].
  - destruct IHY as [j1 H1]. destruct IHY0 as [j2 H2]. exists (Nat.max j1 j2). intros t u [E|Hin].
    + injection E as <- <-. apply (ends_in_mono j1); [lia|exact H1].
    + apply (ends_in_mono j2); [lia|exact (H2 t u Hin)].
Qed.

Fixpoint weight (k : nat) (n : entity) (v : val) : nat :=
  match k with
  | 0 => 1
  | S k' =>
      match f_kind f n with
      | Some kd =>
          match reacts kd v with
          | Some (Sends ms _) => 1 + list_sum (map (fun m => 1 + weight k' (fst m) (snd m)) ms)
          | _ => 1
          end
      | None => 1
      end
  end.

Lemma weight_stable k : forall j n v, ends_in k n v -> k <= j -> weight j n v = weight k n v.
Proof.
  induction k as [|k IH]; intros [|j] n v; cbn; try tauto; try lia.
  intros H Hj. destruct (f_kind f n) as [kd|] eqn:Ek; [|reflexivity]. destruct (reacts kd v) as [r|] eqn:Er; [|reflexivity].
  destruct r as [ms d| |]; try reflexivity. do 2 f_equal. apply map_ext_in. intros [t u] Hin. cbn. f_equal.
  apply IH; [|lia]. exact (H kd ms d eq_refl Er t u Hin).
Qed.

Variable H : nat.
Notation W := (weight H).

Lemma weight_sends n v kd ms d : ends_in H n v -> f_kind f n = Some kd -> reacts kd v = Some (Sends ms d) ->
  W n v = 1 + list_sum (map (fun m => 1 + W (fst m) (snd m)) ms) /\ (forall t u, In (t, u) ms -> ends_in H t u).
Proof.
  destruct H as [|k] eqn:EH; cbn [ends_in]; [tauto|]. intros E Hk Hr.
  assert (A : forall t u, In (t, u) ms -> ends_in k t u) by (intros t u Hin; exact (E kd ms d Hk Hr t u Hin)).
  split.
  - cbn [weight]. rewrite Hk, Hr. do 2 f_equal. apply map_ext_in. intros [t u] Hin. cbn [fst snd]. f_equal.
    symmetry. exact (weight_stable k (S k) t u (A t u Hin) (Nat.le_succ_diag_r k)).
  - intros t u Hin. exact (ends_in_mono k (S k) t u (Nat.le_succ_diag_r k) (A t u Hin)).
Qed.

(** ** What all the messages are worth *)
Definition worth (n : entity) (l : list (entity * val)) : nat := list_sum (map (fun p => W n (snd p)) l).
Definition total (pend : entity -> list (entity * val)) (ns : list entity) : nat :=
  list_sum (map (fun n => worth n (pend n)) ns).

Notation pend x := (pending (o_w (x_o x))).

Lemma list_sum_cons x l : list_sum (x :: l) = x + list_sum l.
Proof. reflexivity. Qed.
Lemma worth_app n a b : worth n (a ++ b) = worth n a + worth n b.
Proof. unfold worth. rewrite map_app, list_sum_app. reflexivity. Qed.
Lemma total_le p q ns : (forall n, worth n (p n) <= worth n (q n)) -> total p ns <= total q ns.
Proof.
  intros L. unfold total. induction ns as [|n ns IH]; [apply le_n|]. cbn [map]. rewrite !list_sum_cons.
  specialize (L n). lia.
Qed.
Lemma total_add p q ns : total (fun n => p n ++ q n) ns = total p ns + total q ns.
Proof.
  unfold total. induction ns as [|n ns IH]; [reflexivity|]. cbn [map]. rewrite !list_sum_cons, worth_app, IH. lia.
Qed.
Lemma total_nil ns : total (fun _ => []) ns = 0.
Proof. unfold total. induction ns as [|n ns IH]; [reflexivity|]. cbn [map]. rewrite list_sum_cons, IH. reflexivity. Qed.

Lemma total_ext p q ns : (forall n, In n ns -> p n = q n) -> total p ns = total q ns.
Proof.
  intros E. unfold total. f_equal. apply map_ext_in. intros n Hin. now rewrite (E n Hin).
Qed.

(** One message is taken. *)
Lemma total_take (w : world val) n s v more ns : NoDup ns -> In n ns -> pending w n = (s, v) :: more ->
  total (after_take w n) ns + W n v = total (pending w) ns.
Proof.
  intros N Hin Hp. induction ns as [|m ns IH]; [destruct Hin|]. inversion N as [|? ? N1 N2]; subst.
  unfold total in *. cbn [map]. rewrite !list_sum_cons. destruct Hin as [->|Hin].
  - assert (E : list_sum (map (fun n0 => worth n0 (after_take w n n0)) ns) = list_sum (map (fun n0 => worth n0 (pending w n0)) ns)).
    { f_equal. apply map_ext_in. intros m Hm. unfold after_take. destruct (Nat.eqb_spec m n) as [->|]; [tauto|reflexivity]. }
    rewrite E. unfold after_take. rewrite Nat.eqb_refl, Hp. cbn [tl]. unfold worth at 3. cbn [map snd]. rewrite list_sum_cons.
    fold (worth n more). lia.
  - rewrite <- (IH N2 Hin). unfold after_take at 1. destruct (Nat.eqb_spec m n) as [->|]; [tauto|]. lia.
Qed.
Lemma total_take_none (w : world val) n ns : pending w n = [] -> total (after_take w n) ns = total (pending w) ns.
Proof.
  intros Hp. apply total_ext. intros m _. unfold after_take. destruct (Nat.eqb_spec m n) as [->|]; [now rewrite Hp|reflexivity].
Qed.
Lemma total_take_le (w : world val) n ns : total (after_take w n) ns <= total (pending w) ns.
Proof.
  apply total_le. intros m. unfold after_take. destruct (Nat.eqb_spec m n) as [->|]; [|apply le_n].
  destruct (pending w n) as [|p l]; [apply le_n|]. cbn [tl]. unfold worth. cbn [map]. rewrite list_sum_cons. lia.
Qed.

(** Messages are sent. *)
Lemma total_sent s ms ns : NoDup ns ->
  total (fun m => map (pair s) (sent_to m ms)) ns <= list_sum (map (fun m => W (fst m) (snd m)) ms).
Proof.
  intros N. induction ms as [|[t u] ms IH].
  - cbn. rewrite total_nil. lia.
  - cbn [map fst snd]. rewrite list_sum_cons.
    assert (A : total (fun m => map (pair s) (sent_to m [(t, u)])) ns <= W t u).
    { clear IH. unfold sent_to. cbn [filter fst]. induction ns as [|m ns IH]; [cbn; lia|]. inversion N as [|? ? N1 N2]; subst.
      unfold total in *. cbn [map]. rewrite list_sum_cons. destruct (Nat.eqb_spec t m) as [->|].
      - assert (E : list_sum (map (fun n => worth n (map (pair s) (map snd (if m =? n then [(m, u)] else [])))) ns) = 0).
        { transitivity (total (fun _ => []) ns); [|apply total_nil]. unfold total. f_equal. apply map_ext_in. intros k Hk.
          destruct (Nat.eqb_spec m k) as [->|]; [tauto|reflexivity]. }
        rewrite E. unfold worth. cbn. lia.
      - cbn [map]. specialize (IH N2). unfold worth at 1. cbn [map list_sum fold_right]. exact IH. }
    transitivity (total (fun m => map (pair s) (sent_to m [(t, u)]) ++ map (pair s) (sent_to m ms)) ns).
    + apply total_le. intros m. rewrite <- map_app, <- sent_to_app. apply le_n.
    + rewrite total_add. lia.
Qed.
Lemma live_sum ms : list_sum (map (fun m => W (fst m) (snd m)) (live f ms)) <= list_sum (map (fun m => W (fst m) (snd m)) ms).
Proof.
  unfold live. induction ms as [|m ms IH]; [apply le_n|]. cbn [filter]. destruct (negb (unused f (fst m))); cbn [map]; rewrite ?list_sum_cons; lia.
Qed.

(** ** Steps *)
Definition bounded (x : xworld) : Prop := forall n s v, In (s, v) (pend x n) -> ends_in H n v.
Definition value (x : xworld) : nat := 2 * total (pend x) (f_nodes f) + length (queue (x_o x)).

(** Less messages. *)
Record less (x x' : xworld) : Prop := mk_less {
  l_sub : forall n, exists P : entity * val -> bool, pend x' n = filter P (pend x n);
  l_queue : queue (x_o x') = queue (x_o x);
  l_told : told (x_o x') = told (x_o x);
  l_asked : asked (x_o x') = asked (x_o x);
  l_shaped : shaped f (x_o x');
}.

Lemma filter_true {A} (l : list A) : filter (fun _ => true) l = l.
Proof. induction l as [|x l IH]; cbn; [reflexivity|now rewrite IH]. Qed.
Lemma filter_filter {A} (P Q : A -> bool) l : filter P (filter Q l) = filter (fun x => P x && Q x) l.
Proof.
  induction l as [|x l IH]; cbn; [reflexivity|]. destruct (Q x); cbn; destruct (P x); cbn; now rewrite IH.
Qed.

Lemma less_refl x : shaped f (x_o x) -> less x x.
Proof. intros S. constructor; auto. intros n. exists (fun _ => true). now rewrite filter_true. Qed.
Lemma less_trans a b c : less a b -> less b c -> less a c.
Proof.
  intros [A1 A2 A3 A4 A5] [B1 B2 B3 B4 B5]. constructor; try congruence. intros n.
  destruct (A1 n) as [P EP]. destruct (B1 n) as [Q EQ]. rewrite EQ, EP, filter_filter. eauto.
Qed.
Lemma less_bounded x x' : less x x' -> bounded x -> bounded x'.
Proof.
  intros L B n s v Hin. destruct (l_sub _ _ L n) as [P E]. rewrite E in Hin. apply filter_In in Hin. exact (B n s v (proj1 Hin)).
Qed.
Lemma worth_filter n P l : worth n (filter P l) <= worth n l.
Proof.
  unfold worth. induction l as [|p l IH]; [apply le_n|]. cbn [filter]. destruct (P p); cbn [map]; rewrite ?list_sum_cons; lia.
Qed.
Lemma less_value x x' : less x x' -> value x' <= value x.
Proof.
  intros L. unfold value. rewrite (l_queue _ _ L).
  assert (total (pend x') (f_nodes f) <= total (pend x) (f_nodes f)); [|lia].
  apply total_le. intros n. destruct (l_sub _ _ L n) as [P ->]. apply worth_filter.
Qed.

Lemma finish_less s e x : shaped f (x_o x) -> less x (finish f s e x).
Proof.
  intros S. destruct (in_dec Nat.eq_dec s (x_ongoing x)) as [Hin|Hn].
  - destruct (finish_effect f s e x Hb S Hin) as (A1 & A2 & A3 & A4 & _). constructor; rewrite ?A4; auto.
    intros n. rewrite A2. destruct (_ && _); [exists (fun _ => true); now rewrite filter_true|]. unfold others. eauto.
  - rewrite (finish_other f s e x Hn). apply less_refl, S.
Qed.

Lemma finish_all_less c l : forall x, shaped f (x_o x) ->
  less x (fold_left (fun x s => finish f s (ECancelled s c) x) l x).
Proof.
  induction l as [|s l IH]; intros x S; cbn [fold_left]; [apply less_refl, S|].
  pose proof (finish_less s (ECancelled s c) x S) as L. exact (less_trans _ _ _ L (IH _ (l_shaped _ _ L))).
Qed.

(** The world with another roster. *)
Lemma set_roster_pend x r n : pend (set_o x (with_roster (x_o x) r)) n = pend x n.
Proof. reflexivity. Qed.
Lemma set_roster_shaped x r : shaped f (x_o x) -> shaped f (x_o (set_o x (with_roster (x_o x) r))).
Proof. intros S. exact S. Qed.

(** A cancellation is carried out. *)
Lemma do_cancel_step x c rest : shaped f (x_o x) -> asked (x_o x) = c :: rest ->
  let x' := do_cancel f x in
  (bounded x -> bounded x') /\ value x' <= value x /\ asked (x_o x') = rest /\ told (x_o x') = told (x_o x) /\
  queue (x_o x') = queue (x_o x) /\ shaped f (x_o x').
Proof.
  intros S E x'. subst x'. unfold do_cancel. rewrite E.
  match goal with |- context [set_o x ?o] => set (x0 := set_o x o) end.
  assert (S0 : shaped f (x_o x0)) by exact S.
  assert (L : forall x', less x0 x' ->
     (bounded x -> bounded x') /\ value x' <= value x /\ asked (x_o x') = rest /\ told (x_o x') = told (x_o x) /\
     queue (x_o x') = queue (x_o x) /\ shaped f (x_o x')).
  { intros x' L. split; [intros B; exact (less_bounded _ _ L B)|]. split; [exact (less_value _ _ L)|].
    rewrite (l_asked _ _ L), (l_told _ _ L), (l_queue _ _ L). split; [reflexivity|]. split; [reflexivity|]. split; [reflexivity|].
    exact (l_shaped _ _ L). }
  apply L. destruct (Nat.eqb (c_target c) (f_scope f)); [|apply less_refl, S0].
  destruct (c_session c); [apply finish_less, S0|apply finish_all_less, S0].
Qed.

Lemma garbage_step k : forall x, shaped f (x_o x) -> length (asked (x_o x)) <= k ->
  let x' := garbage k f x in
  (bounded x -> bounded x') /\ value x' <= value x /\ asked (x_o x') = [] /\ told (x_o x') = told (x_o x) /\
  queue (x_o x') = queue (x_o x) /\ shaped f (x_o x').
Proof.
  induction k as [|k IH]; intros x S Hk; cbn [garbage].
  - destruct (asked (x_o x)) as [|c l] eqn:E; [|cbn in Hk; lia]. refine (conj _ (conj _ (conj _ (conj _ (conj _ _))))); auto.
  - destruct (asked (x_o x)) as [|c l] eqn:E; [refine (conj _ (conj _ (conj _ (conj _ (conj _ _))))); auto|].
    destruct (do_cancel_step x c l S E) as (A1 & A2 & A3 & A4 & A5 & A6).
    destruct (IH (do_cancel f x) A6) as (B1 & B2 & B3 & B4 & B5 & B6); [rewrite A3; cbn in Hk; lia|].
    cbn zeta. rewrite B3, B4, B5. refine (conj _ (conj _ (conj _ (conj _ (conj _ _))))); auto; try congruence; lia.
Qed.

Lemma collect_garbage_step x : shaped f (x_o x) ->
  let x' := collect_garbage f x in
  (bounded x -> bounded x') /\ value x' <= value x /\ asked (x_o x') = [] /\ told (x_o x') = told (x_o x) /\
  queue (x_o x') = queue (x_o x) /\ shaped f (x_o x').
Proof. intros S. apply garbage_step; [exact S|]. apply le_n. Qed.

(** A notice is handled: without collects nobody listens. *)
Lemma listeners_free origin s l o : listeners f origin s l o = (o, true).
Proof.
  induction l as [|n l IH]; cbn [listeners]; [reflexivity|]. specialize (Hfree n). unfold is_collect in Hfree.
  destruct (f_kind f n) as [k|]; [|exact IH]. destruct k; try exact IH. discriminate.
Qed.

Lemma validate_less origin s x : shaped f (x_o x) -> less x (fst (validate f origin s x)).
Proof.
  intros S. unfold validate. rewrite listeners_free.
  assert (E : set_o x (x_o x) = x) by (destruct x; reflexivity). rewrite E.
  destruct (check_reachability _ _ _); cbn [fst]; try (apply less_refl, S). apply finish_less, S.
Qed.

Lemma pop_last_length {A} (l : list A) : l <> [] -> exists r d, pop_last l = (r, Some d) /\ S (length r) = length l.
Proof.
  intros N. destruct (rev_case l) as [->|[r [d ->]]]; [congruence|]. exists r, d. rewrite pop_last_app, app_length. cbn.
  split; [reflexivity|lia].
Qed.

Lemma notice_step x : shaped f (x_o x) -> told (x_o x) <> [] ->
  let x' := notice f x in
  (bounded x -> bounded x') /\ value x' <= value x /\ S (length (told (x_o x'))) = length (told (x_o x)) /\
  shaped f (x_o x').
Proof.
  intros S N x'. subst x'. unfold notice. destruct (pop_last_length _ N) as (r & d & E & L). rewrite E.
  match goal with |- context [set_o x ?o] => set (x0 := set_o x o) end.
  assert (S0 : shaped f (x_o x0)) by exact S.
  assert (Q : forall x', less x0 x' ->
     (bounded x -> bounded x') /\ value x' <= value x /\ Datatypes.S (length (told (x_o x'))) = length (told (x_o x)) /\ shaped f (x_o x')).
  { intros x' Hl. split; [intros B; exact (less_bounded _ _ Hl B)|]. split; [exact (less_value _ _ Hl)|].
    rewrite (l_told _ _ Hl). split; [exact L|exact (l_shaped _ _ Hl)]. }
  apply Q. destruct (Nat.eqb _ _); [apply validate_less, S0|apply less_refl, S0].
Qed.

(** An operation is executed. *)
Lemma pending_in_nodes o n s v more : shaped f o -> pending (o_w o) n = (s, v) :: more -> In n (f_nodes f).
Proof.
  intros [Hn _] E. apply (proj1 (proj2 Hb)). intros Hk. specialize (Hn n). rewrite Hk in Hn. rewrite pending_node, Hn in E. discriminate.
Qed.

Lemma did_step x n rest s v more o' ms ns cs kd d :
  shaped f (x_o x) -> bounded x -> queue (x_o x) = n :: rest -> pend x n = (s, v) :: more ->
  f_kind f n = Some kd -> reacts kd v = Some (Sends ms d) -> did f (popped (x_o x) rest) o' n s ms ns cs ->
  bounded (set_o x o') /\ value (set_o x o') < value x.
Proof.
  intros S B Hq Hp Hk Hr D. pose proof (pending_in_nodes _ n s v more S Hp) as Hin.
  assert (En : ends_in H n v) by (apply (B n s v); rewrite Hp; left; reflexivity).
  destruct (weight_sends n v kd ms d En Hk Hr) as [Ew Hms]. split.
  - intros m s' u Hm. cbn [set_o x_o] in Hm. rewrite (di_pending _ _ _ _ _ _ _ _ D) in Hm. apply in_app_or in Hm.
    destruct Hm as [Hm|Hm].
    + apply after_take_in in Hm. exact (B m s' u Hm).
    + apply in_map_iff in Hm. destruct Hm as (u0 & E & Hu). injection E as <- <-. apply sent_in in Hu. apply live_in in Hu.
      exact (Hms m u0 (proj1 Hu)).
  - unfold value. cbn [set_o x_o]. rewrite (di_queue _ _ _ _ _ _ _ _ D), app_length, map_length, Hq.
    change (queue (popped (x_o x) rest)) with rest.
    pose proof (proj1 Hb) as ND.
    assert (T : total (pending (o_w o')) (f_nodes f) + W n v <= total (pend x) (f_nodes f) + list_sum (map (fun m => W (fst m) (snd m)) ms)).
    { rewrite (total_ext (pending (o_w o')) (fun m => after_take (o_w (x_o x)) n m ++ map (pair s) (sent_to m (live f ms)))).
      2:{ intros m _. exact (di_pending _ _ _ _ _ _ _ _ D m). }
      rewrite total_add. pose proof (total_take (o_w (x_o x)) n s v more (f_nodes f) ND Hin Hp) as T1.
      pose proof (total_sent s (live f ms) (f_nodes f) ND) as T2. pose proof (live_sum ms) as T3. lia. }
    assert (E : list_sum (map (fun m : entity * val => 1 + W (fst m) (snd m)) ms) = length ms + list_sum (map (fun m => W (fst m) (snd m)) ms)).
    { clear. induction ms as [|m ms IH]; [reflexivity|]. cbn [map length]. rewrite !list_sum_cons, IH. lia. }
    cbn [length]. lia.
Qed.

Lemma drop_step x n rest o' :
  bounded x -> queue (x_o x) = n :: rest ->
  (forall m, pending (o_w o') m = after_take (o_w (x_o x)) n m) -> queue o' = rest ->
  bounded (set_o x o') /\ value (set_o x o') < value x.
Proof.
  intros B Hq Hp Hq'. split.
  - intros m s u Hm. cbn [set_o x_o] in Hm. rewrite Hp in Hm. apply after_take_in in Hm. exact (B m s u Hm).
  - unfold value. cbn [set_o x_o]. rewrite Hq, Hq'. pose proof (total_take_le (o_w (x_o x)) n (f_nodes f)) as T.
    rewrite (total_ext (pending (o_w o')) (after_take (o_w (x_o x)) n)) by (intros m _; apply Hp). cbn [length]. lia.
Qed.

Lemma broken_step x n : bounded x -> bounded (broken f n x) /\ value (broken f n x) = value x.
Proof. intros B. split; [exact B|reflexivity]. Qed.

Lemma exec_step x n rest : base f x -> bounded x -> queue (x_o x) = n :: rest ->
  bounded (exec f x) /\ value (exec f x) < value x.
Proof.
  intros Bs B Hq. pose proof (b_shaped _ _ Bs) as S.
  destruct (exec_executed f x n rest Hb Bs Hq) as
    [o' Hp P|o' Hp Hk P|o' k s v more ms dropped ns Hk Hr Hp Hs D F Hd K|o' k s v more c Hk Hr Hp Hs D Hc K
    |o' k s v more Hk Hr Hp Hs D K|o' min max t s v more Hk Hp Hs Hcol|o' s v more Hn Hp Hs P|o' s v more Hn Hp Hs P].
  - apply (drop_step x n rest); auto; [exact (pu_pending _ _ _ _ P)|]. rewrite (pu_roster _ _ _ _ P). reflexivity.
  - assert (A : bounded (set_o x o') /\ value (set_o x o') < value x).
    { apply (drop_step x n rest); auto; [exact (pu_pending _ _ _ _ P)|]. rewrite (pu_roster _ _ _ _ P). reflexivity. }
    exact A.
  - exact (did_step x n rest s v more o' ms ns [] k dropped S B Hq Hp Hk Hr D).
  - apply (drop_step x n rest); auto.
    + intros m. rewrite (di_pending _ _ _ _ _ _ _ _ D). cbn. now rewrite app_nil_r.
    + rewrite (di_queue _ _ _ _ _ _ _ _ D). cbn. now rewrite app_nil_r.
  - assert (A : bounded (set_o x o') /\ value (set_o x o') < value x).
    { apply (drop_step x n rest); auto.
      + intros m. rewrite (di_pending _ _ _ _ _ _ _ _ D). cbn. now rewrite app_nil_r.
      + rewrite (di_queue _ _ _ _ _ _ _ _ D). cbn. now rewrite app_nil_r. }
    exact A.
  - pose proof (Hfree n) as X. unfold is_collect in X. rewrite Hk in X. discriminate.
  - assert (A : bounded (set_o x o') /\ value (set_o x o') < value x).
    { apply (drop_step x n rest); auto; [exact (pu_pending _ _ _ _ P)|]. rewrite (pu_roster _ _ _ _ P). reflexivity. }
    assert (S' : shaped f (x_o (set_o x o'))) by exact (pu_shaped _ _ _ _ P).
    pose proof (finish_less s (EOut s v) (set_o x o') S') as L. split; [exact (less_bounded _ _ L (proj1 A))|].
    pose proof (less_value _ _ L). lia.
  - assert (A : bounded (set_o x o') /\ value (set_o x o') < value x).
    { apply (drop_step x n rest); auto; [exact (pu_pending _ _ _ _ P)|]. rewrite (pu_roster _ _ _ _ P). reflexivity. }
    exact A.
Qed.

(** ** The start of a session *)
Lemma start_bounded s v x : base f x -> bounded x -> ends_in H (f_entry f) v -> bounded (start f s v x).
Proof.
  intros Bs B E. unfold start. destruct (known s (x_log x)); [exact B|].
  match goal with |- context [o_give ?o _ _ _] => set (o1 := o) end.
  assert (Hs1 : w_status (o_w o1) s = Some Active) by (cbn -[emap_set]; apply emap_set_eq).
  assert (He : f_kind f (f_entry f) <> None) by (apply (proj1 (proj2 Hb)), Hb).
  destruct (give_change f o1 (f_entry f) s v (b_shaped _ _ Bs) Hs1 He) as [o2 [Eg [C _]]]. rewrite Eg.
  set (x1 := mk_x o2 (x_ongoing x ++ [s]) (x_initial x) (x_log x ++ [EStart s v])).
  assert (B1 : bounded x1).
  { intros m s' u Hm. cbn [x1 x_o] in Hm. rewrite (ch_pending _ _ _ _ _ _ _ C) in Hm. apply in_app_or in Hm. destruct Hm as [Hm|Hm].
    - exact (B m s' u Hm).
    - apply in_map_iff in Hm. destruct Hm as (u0 & Eu & Hu). injection Eu as <- <-. apply sent_in in Hu. apply live_in in Hu.
      destruct Hu as [[Hu|[]] _]. injection Hu as <- <-. exact E. }
  assert (S1 : shaped f (x_o x1)) by exact (ch_shaped _ _ _ _ _ _ _ C).
  destruct (x_initial x) as [[| |]|].
  - exact B1.
  - exact (less_bounded _ _ (validate_less _ _ _ S1) B1).
  - exact (less_bounded _ _ (finish_less _ _ _ S1) B1).
  - destruct (circular f (f_nodes f)).
    + match goal with |- bounded (finish f s ?e ?y) => exact (less_bounded _ _ (finish_less s e y S1) B1) end.
    + pose proof (validate_less (f_scope f) s x1 S1) as L. destruct (validate f (f_scope f) s x1) as [x2 [b|]]; cbn [fst] in L.
      * pose proof (less_bounded _ _ L B1) as B2. destruct b; exact B2.
      * exact (less_bounded _ _ L B1).
Qed.

Lemma run_bounded acts : (forall s v, In (XStart s v) acts -> ends_in H (f_entry f) v) ->
  bounded (xrun f acts (fresh f)).
Proof.
  intros A. induction acts as [|a acts IH] using rev_ind.
  - intros n s v Hin. cbn in Hin. unfold fresh_node in Hin. rewrite pending_node in Hin. cbn in Hin.
    destruct (f_kind f n) as [k|]; [|destruct Hin]. destruct k; destruct Hin.
  - unfold xrun. rewrite fold_left_app. cbn [fold_left]. fold (xrun f acts (fresh f)). set (x := xrun f acts (fresh f)) in *.
    assert (B : bounded x) by (apply IH; intros s v Hin; apply (A s v), in_or_app; auto). clear IH.
    pose proof (proj1 (run_sound f acts Hb)) as Bs. fold x in Bs. pose proof (b_shaped _ _ Bs) as S.
    destruct a as [s v| | | |s]; cbn [xstep].
    + apply start_bounded; auto. apply (A s v), in_or_app. right. left. reflexivity.
    + destruct (queue (x_o x)) as [|n rest] eqn:Hq; [unfold exec; rewrite Hq; exact B|]. exact (proj1 (exec_step x n rest Bs B Hq)).
    + destruct (asked (x_o x)) as [|c rest] eqn:Hq; [unfold do_cancel; rewrite Hq; exact B|]. exact (proj1 (do_cancel_step x c rest S Hq) B).
    + destruct (told (x_o x)) as [|c rest] eqn:Hq; [unfold notice; rewrite Hq; exact B|].
      refine (proj1 (notice_step x S _) B). rewrite Hq. discriminate.
    + exact B.
Qed.

(** ** The flush *)
Definition reached (x : xworld) : Prop := exists acts, x = xrun f acts (fresh f).
Lemma reached_base x : reached x -> base f x.
Proof. intros [acts ->]. exact (proj1 (run_sound f acts Hb)). Qed.
Lemma reached_step x a : reached x -> reached (xstep f x a).
Proof. intros [acts ->]. exists (acts ++ [a]). unfold xrun. rewrite fold_left_app. reflexivity. Qed.
Lemma reached_garbage k : forall x, reached x -> reached (garbage k f x).
Proof.
  induction k as [|k IH]; intros x R; cbn [garbage]; [exact R|]. destruct (asked (x_o x)); [exact R|]. apply IH, (reached_step x XDoCancel R).
Qed.

Lemma flush_rests_from : forall a b x, reached x -> bounded x -> value x <= a -> length (told (x_o x)) <= b ->
  exists n, forall m, n <= m -> quiet (flush m f x).
Proof.
  induction a as [a IHa] using lt_wf_ind. induction b as [b IHb] using lt_wf_ind. intros x R B Ha Hb'.
  pose proof (reached_base x R) as Bs. pose proof (b_shaped _ _ Bs) as S.
  destruct (queue (x_o x)) as [|n rest] eqn:Hq.
  - destruct (told (x_o x)) as [|d l] eqn:Ht.
    + exists 1. intros [|m] Hm; [lia|]. cbn [flush]. rewrite Hq, Ht.
      destruct (collect_garbage_step x S) as (_ & _ & A1 & A2 & A3 & _). split; [|split]; congruence.
    + destruct (notice_step x S ltac:(congruence)) as (N1 & N2 & N3 & N4).
      destruct (collect_garbage_step (notice f x) N4) as (C1 & C2 & C3 & C4 & C5 & C6).
      destruct (IHb (length (told (x_o (notice f x)))) ltac:(rewrite Ht in N3; cbn in *; lia) (collect_garbage f (notice f x)))
        as [k Hk].
      * apply reached_garbage, (reached_step x XNotice R).
      * auto.
      * lia.
      * rewrite C4. apply le_n.
      * exists (Datatypes.S k). intros [|m] Hm; [lia|]. cbn [flush]. rewrite Hq, Ht. apply Hk. lia.
  - destruct (exec_step x n rest Bs B Hq) as [E1 E2].
    pose proof (b_shaped _ _ (reached_base _ (reached_step x XExec R))) as S1. cbn [xstep] in S1.
    destruct (collect_garbage_step (exec f x) S1) as (C1 & C2 & C3 & C4 & C5 & C6).
    destruct (IHa (value (exec f x)) ltac:(lia) (length (told (x_o (exec f x)))) (collect_garbage f (exec f x))) as [k Hk].
    + apply reached_garbage, (reached_step x XExec R).
    + auto.
    + lia.
    + rewrite C4. apply le_n.
    + exists (Datatypes.S k). intros [|m] Hm; [lia|]. cbn [flush]. rewrite Hq. apply Hk. lia.
Qed.
End Rest.

Theorem flush_rests f acts : built f -> collect_free f ->
  (forall s v, In (XStart s v) acts -> exists l, yields f (f_entry f) v l) ->
  exists n, forall m, n <= m -> quiet (flush m f (xrun f acts (fresh f))).
Proof.
  intros Hb Hfree A.
  assert (E : exists H, forall s v, In (XStart s v) acts -> ends_in f H (f_entry f) v).
  { induction acts as [|a acts IH]; [exists 0; intros s v []|].
    destruct IH as [h1 H1]; [intros s v Hin; apply (A s v); right; exact Hin|].
    destruct a as [s v| | | |s]; try (exists h1; intros s' v' [H|H]; [discriminate|exact (H1 s' v' H)]).
    destruct (A s v (or_introl eq_refl)) as [l Y]. destruct (yields_ends f Hb _ _ _ Y) as [h2 H2].
    exists (Nat.max h1 h2). intros s' v' [H|H].
    - injection H as <- <-. apply (ends_in_mono f h2); [lia|exact H2].
    - apply (ends_in_mono f h1); [lia|exact (H1 s' v' H)]. }
  destruct E as [h Hh].
  apply (flush_rests_from f Hb Hfree h _ _ _ (ex_intro _ acts eq_refl) (run_bounded f Hb Hfree h acts Hh) (le_n _) (le_n _)).
Qed.
