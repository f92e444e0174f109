(** Shared definitions: entity ids, finite updates of total maps, list helpers
    and the error values which stand for panics and broken operations. *)
From Coq Require Export List Arith Lia Bool Permutation.
Export ListNotations.

(** Entities (bevy_ecs::Entity) are opaque ids; only equality matters. *)
Notation entity := nat (only parsing).

(** A HashMap<Entity, A> as a total lookup function. *)
Definition emap (A : Type) := entity -> option A.

Definition emap_empty {A} : emap A := fun _ => None.

Definition emap_set {A} (m : emap A) (k : entity) (v : option A) : emap A :=
  fun k' => if Nat.eqb k' k then v else m k'.

Lemma emap_set_eq {A} (m : emap A) k v : emap_set m k v k = v.
Proof. unfold emap_set. rewrite Nat.eqb_refl. reflexivity. Qed.

Lemma emap_set_neq {A} (m : emap A) k k' v : k' <> k -> emap_set m k v k' = m k'.
Proof.
  intros H. unfold emap_set. destruct (Nat.eqb_spec k' k) as [E|E]; [contradiction|reflexivity].
Qed.

(** Removing the last element: SmallVec::pop / Vec::pop. *)
Fixpoint pop_last {A} (l : list A) : list A * option A :=
  match l with
  | [] => ([], None)
  | [x] => ([], Some x)
  | x :: l' => let '(r, o) := pop_last l' in (x :: r, o)
  end.

Lemma pop_last_app {A} (l : list A) (x : A) : pop_last (l ++ [x]) = (l, Some x).
Proof.
  induction l as [|a l IH]; [reflexivity|].
  cbn [app]. destruct (l ++ [x]) as [|b r] eqn:E.
  - destruct l; discriminate.
  - cbn [pop_last] in *. rewrite IH. reflexivity.
Qed.

Lemma pop_last_nil {A} : pop_last (@nil A) = ([], None).
Proof. reflexivity. Qed.

(** Last element of a slice: slice::last. *)
Fixpoint last_opt {A} (l : list A) : option A :=
  match l with
  | [] => None
  | [x] => Some x
  | _ :: l' => last_opt l'
  end.

Lemma last_opt_app {A} (l : list A) (x : A) : last_opt (l ++ [x]) = Some x.
Proof.
  induction l as [|a l IH]; [reflexivity|].
  cbn [app]. destruct (l ++ [x]) eqn:E; [destruct l; discriminate|].
  cbn [last_opt] in *. exact IH.
Qed.

Lemma rev_case {A} (l : list A) : l = [] \/ exists l' x, l = l' ++ [x].
Proof.
  destruct (rev l) as [|x r] eqn:E.
  - left. apply (f_equal (@rev A)) in E. rewrite rev_involutive in E. exact E.
  - right. exists (rev r), x. apply (f_equal (@rev A)) in E.
    rewrite rev_involutive in E. exact E.
Qed.

(** Replace the element at a position, if there is one. *)
Fixpoint update_nth {A} (n : nat) (f : A -> A) (l : list A) : list A :=
  match l, n with
  | [], _ => []
  | x :: l', 0 => f x :: l'
  | x :: l', S n' => x :: update_nth n' f l'
  end.

Lemma update_nth_length {A} n (f : A -> A) l : length (update_nth n f l) = length l.
Proof.
  revert n. induction l as [|x l IH]; intros [|n]; cbn [update_nth length]; auto.
Qed.

(** Remove the element at a position: Vec::remove, [None] when it would panic. *)
Fixpoint remove_nth {A} (n : nat) (l : list A) : option (A * list A) :=
  match l, n with
  | [], _ => None
  | x :: l', 0 => Some (x, l')
  | x :: l', S n' =>
      match remove_nth n' l' with
      | Some (y, r) => Some (y, x :: r)
      | None => None
      end
  end.

Lemma skipn_skipn {A} (n m : nat) (l : list A) : skipn n (skipn m l) = skipn (n + m) l.
Proof.
  revert l. induction m as [|m IH]; intros l; [rewrite Nat.add_0_r; reflexivity|].
  rewrite Nat.add_succ_r. destruct l as [|x l]; [rewrite !skipn_nil; reflexivity|].
  cbn [skipn]. apply IH.
Qed.

(** Permutations between concatenations of the same lists. *)
Ltac perm_bubble x :=
  match goal with
  | |- Permutation (x ++ _) (x ++ _) => apply Permutation_app_head
  | |- Permutation (x ++ ?l) ?r =>
      match r with
      | context [?y ++ x ++ ?t] =>
          apply (fun H => Permutation_trans H
                   (ltac:(rewrite (Permutation_app_swap_app y x t); apply Permutation_refl)
                     : Permutation _ r)); perm_bubble x
      end
  end.
Ltac perm_close :=
  match goal with
  | |- Permutation [] [] => apply Permutation_refl
  | |- Permutation (?x ++ _) _ => perm_bubble x; perm_close
  end.
Ltac perm :=
  repeat match goal with |- context [?x :: ?y :: ?l] => change (x :: y :: l) with ([x] ++ y :: l) end;
  rewrite <- ?app_assoc;
  match goal with
  | |- Permutation ?l ?r =>
      rewrite <- (app_nil_r l); rewrite <- (app_nil_r r)
  end;
  rewrite <- ?app_assoc; perm_close.

Lemma filter_length_le {A} (f : A -> bool) l : length (filter f l) <= length l.
Proof. induction l as [|x l IH]; cbn; [lia|]. destruct (f x); cbn; lia. Qed.

Lemma NoDup_app_comm_snoc {A} (l : list A) (x : A) : NoDup l -> ~ In x l -> NoDup (l ++ [x]).
Proof.
  intros Hl Hx. apply (Permutation_NoDup (l := x :: l)).
  - apply Permutation_cons_append.
  - constructor; assumption.
Qed.
