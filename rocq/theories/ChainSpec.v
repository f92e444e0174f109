(** What a workflow written as chains is expected to do: a program on values, without
    entities, operations or messages. *)
From Verif Require Import Base RosterModel BufferModel InputModel OpsModel ExecModel ExecSpec ChainModel.

(** What one step does with a value: it goes on with some values, or cancels. *)
Inductive done := Goes (vs : list val) | Stops.

Inductive does : step -> val -> done -> Prop :=
| D_map f v : does (SMap f) v (Goes [f v])
| D_trigger v : does STrigger v (Goes [VUnit])
| D_noop v : does SNoop v (Goes [v])
| D_spread l : does SSpread (VList l) (Goes l)
| D_keep_ok v : does SDisposeOnErr (VOk v) (Goes [v])
| D_drop_err e : does SDisposeOnErr (VErr e) (Goes [])
| D_keep_err e : does SDisposeOnOk (VErr e) (Goes [e])
| D_drop_ok v : does SDisposeOnOk (VOk v) (Goes [])
| D_keep_some v : does SDisposeOnNone (VSome v) (Goes [v])
| D_drop_none : does SDisposeOnNone VNone (Goes [])
| D_keep_none : does SDisposeOnSome VNone (Goes [VUnit])
| D_drop_some v : does SDisposeOnSome (VSome v) (Goes [])
| D_pass_ok v : does SCancelOnErr (VOk v) (Goes [v])
| D_cancel_err e : does SCancelOnErr (VErr e) Stops
| D_pass_some v : does SCancelOnNone (VSome v) (Goes [v])
| D_cancel_none : does SCancelOnNone VNone Stops.

(** What comes of a value that is given to a chain, if this is finite: results, in the
    order of the branches. *)
Inductive means (p : program) : chain -> val -> list result -> Prop :=
| M_end v : means p (CConnect SEnd) v [RValue v]
| M_node i f c v l : nth_error (p_nodes p) i = Some (f, c) -> means p c (f v) l ->
    means p (CConnect (SNode i)) v l
| M_unused v : means p CUnused v []
| M_cancel v : means p CThenCancel v [RCancelled]
| M_goes s c v vs l : does s v (Goes vs) -> means_all p (map (fun u => (c, u)) vs) l ->
    means p (CStep s c) v l
| M_stops s c v : does s v Stops -> means p (CStep s c) v [RCancelled]
| M_ok a d v l : means p a v l -> means p (CForkResult a d) (VOk v) l
| M_err a d e l : means p d e l -> means p (CForkResult a d) (VErr e) l
| M_some a d v l : means p a v l -> means p (CForkOption a d) (VSome v) l
| M_none a d l : means p d VUnit l -> means p (CForkOption a d) VNone l
| M_not_err d c v l : means p c v l -> means p (CBranchForErr d c) (VOk v) l
| M_for_err d c e l : means p d e l -> means p (CBranchForErr d c) (VErr e) l
| M_not_none d c v l : means p c v l -> means p (CBranchForNone d c) (VSome v) l
| M_for_none d c l : means p d VUnit l -> means p (CBranchForNone d c) VNone l
| M_branch_clone d c v l : means_all p [(c, v); (d, v)] l -> means p (CBranchClone d c) v l
| M_clone cs v l : means_all p (map (fun c => (c, v)) cs) l -> means p (CForkClone cs) v l
| M_unzip cs vs l : length cs = length vs -> means_all p (combine cs vs) l ->
    means p (CForkUnzip cs) (VTuple vs) l
with means_all (p : program) : list (chain * val) -> list result -> Prop :=
| M_nil : means_all p [] []
| M_cons c v ms l l' : means p c v l -> means_all p ms l' -> means_all p ((c, v) :: ms) (l ++ l').

(** The program can be written: chains are connected to nodes which were created, and
    clones go to at least one branch (chain/fork_clone_builder.rs:79 has two to twelve). *)
Section Proper.
Variable nodes : nat.
Definition proper_slot (s : slot) : Prop := match s with SEnd => True | SNode i => i < nodes end.
Inductive proper : chain -> Prop :=
| P_connect s : proper_slot s -> proper (CConnect s)
| P_unused : proper CUnused
| P_cancel : proper CThenCancel
| P_step s c : proper c -> proper (CStep s c)
| P_fork_result a d : proper a -> proper d -> proper (CForkResult a d)
| P_fork_option a d : proper a -> proper d -> proper (CForkOption a d)
| P_for_err d c : proper d -> proper c -> proper (CBranchForErr d c)
| P_for_none d c : proper d -> proper c -> proper (CBranchForNone d c)
| P_branch_clone d c : proper d -> proper c -> proper (CBranchClone d c)
| P_clone c cs : Forall proper (c :: cs) -> proper (CForkClone (c :: cs))
| P_unzip cs : Forall proper cs -> proper (CForkUnzip cs).
End Proper.

Definition proper_program (p : program) : Prop :=
  proper (length (p_nodes p)) (p_main p) /\
  Forall (fun n => proper (length (p_nodes p)) (snd n)) (p_nodes p).

(** ** Types *)
Inductive ty :=
| TUnit
| TAtom
| TTuple (ts : list ty)
| TResult (a b : ty)
| TOption (a : ty)
| TList (a : ty).

Inductive fits : ty -> val -> Prop :=
| F_unit : fits TUnit VUnit
| F_atom n : fits TAtom (VAtom n)
| F_tuple ts vs : Forall2 fits ts vs -> fits (TTuple ts) (VTuple vs)
| F_ok a b v : fits a v -> fits (TResult a b) (VOk v)
| F_err a b v : fits b v -> fits (TResult a b) (VErr v)
| F_some a v : fits a v -> fits (TOption a) (VSome v)
| F_none a : fits (TOption a) VNone
| F_list a vs : Forall (fits a) vs -> fits (TList a) (VList vs).

Definition maps (g : val -> val) (a b : ty) : Prop := forall v, fits a v -> fits b (g v).

(** The types of a step. *)
Inductive step_ty : step -> ty -> ty -> Prop :=
| T_map f a b : maps f a b -> step_ty (SMap f) a b
| T_trigger a : step_ty STrigger a TUnit
| T_noop a : step_ty SNoop a a
| T_spread a : step_ty SSpread (TList a) a
| T_on_err a b : step_ty SDisposeOnErr (TResult a b) a
| T_on_ok a b : step_ty SDisposeOnOk (TResult a b) b
| T_on_none a : step_ty SDisposeOnNone (TOption a) a
| T_on_some a : step_ty SDisposeOnSome (TOption a) TUnit
| T_cancel_err a b : step_ty SCancelOnErr (TResult a b) a
| T_cancel_none a : step_ty SCancelOnNone (TOption a) a.

(** A chain for values of a type, in a workflow with responses of type [r] and nodes with
    requests of types [ins]. *)
Section Typed.
Variable r : ty.
Variable ins : list ty.
Inductive typed : chain -> ty -> Prop :=
| T_end : typed (CConnect SEnd) r
| T_node i a : nth_error ins i = Some a -> typed (CConnect (SNode i)) a
| T_unused a : typed CUnused a
| T_then_cancel a : typed CThenCancel a
| T_step s c a b : step_ty s a b -> typed c b -> typed (CStep s c) a
| T_fork_result c d a b : typed c a -> typed d b -> typed (CForkResult c d) (TResult a b)
| T_fork_option c d a : typed c a -> typed d TUnit -> typed (CForkOption c d) (TOption a)
| T_for_err d c a b : typed c a -> typed d b -> typed (CBranchForErr d c) (TResult a b)
| T_for_none d c a : typed c a -> typed d TUnit -> typed (CBranchForNone d c) (TOption a)
| T_branch_clone d c a : typed c a -> typed d a -> typed (CBranchClone d c) a
| T_clone cs a : Forall (fun c => typed c a) cs -> typed (CForkClone cs) a
| T_unzip cs ts : Forall2 typed cs ts -> typed (CForkUnzip cs) (TTuple ts).
End Typed.

(** A program from requests of type [q] to responses of type [r]. *)
Definition typed_program (p : program) (q r : ty) : Prop :=
  exists ins outs, typed r ins (p_main p) q /\ length ins = length (p_nodes p) /\
    forall i g c, nth_error (p_nodes p) i = Some (g, c) ->
      exists a b, nth_error ins i = Some a /\ nth_error outs i = Some b /\ maps g a b /\ typed r ins c b.

(** ** Programs without loops: chains of nodes go to later nodes only *)
Inductive forward (k : nat) : chain -> Prop :=
| W_end : forward k (CConnect SEnd)
| W_node i : k <= i -> forward k (CConnect (SNode i))
| W_unused : forward k CUnused
| W_cancel : forward k CThenCancel
| W_step s c : forward k c -> forward k (CStep s c)
| W_fork_result a d : forward k a -> forward k d -> forward k (CForkResult a d)
| W_fork_option a d : forward k a -> forward k d -> forward k (CForkOption a d)
| W_for_err d c : forward k d -> forward k c -> forward k (CBranchForErr d c)
| W_for_none d c : forward k d -> forward k c -> forward k (CBranchForNone d c)
| W_branch_clone d c : forward k d -> forward k c -> forward k (CBranchClone d c)
| W_clone cs : Forall (forward k) cs -> forward k (CForkClone cs)
| W_unzip cs : Forall (forward k) cs -> forward k (CForkUnzip cs).

Definition forward_program (p : program) : Prop :=
  forall i g c, nth_error (p_nodes p) i = Some (g, c) -> forward (S i) c.

(** ** How many results a value can have, if the nodes have at most [ws]. *)
Section Most.
Variable ws : list nat.
Inductive most : chain -> nat -> Prop :=
| N_end n : 1 <= n -> most (CConnect SEnd) n
| N_node i w n : nth_error ws i = Some w -> w <= n -> most (CConnect (SNode i)) n
| N_unused n : most CUnused n
| N_cancel n : 1 <= n -> most CThenCancel n
| N_dispose s c n : In s [SDisposeOnErr; SDisposeOnOk; SDisposeOnNone; SDisposeOnSome; STrigger; SNoop] ->
    most c n -> most (CStep s c) n
| N_map f c n : most c n -> most (CStep (SMap f) c) n
| N_stop s c n : In s [SCancelOnErr; SCancelOnNone] -> 1 <= n -> most c n -> most (CStep s c) n
| N_spread c n : most c 0 -> most (CStep SSpread c) n
| N_fork_result a d n : most a n -> most d n -> most (CForkResult a d) n
| N_fork_option a d n : most a n -> most d n -> most (CForkOption a d) n
| N_for_err d c n : most d n -> most c n -> most (CBranchForErr d c) n
| N_for_none d c n : most d n -> most c n -> most (CBranchForNone d c) n
| N_branch_clone d c n m k : most c n -> most d m -> n + m <= k -> most (CBranchClone d c) k
| N_clone cs ns k : Forall2 most cs ns -> list_sum ns <= k -> most (CForkClone cs) k
| N_unzip cs ns k : Forall2 most cs ns -> list_sum ns <= k -> most (CForkUnzip cs) k.
End Most.

(** The program has one response at most. *)
Definition single (p : program) : Prop :=
  exists ws, most ws (p_main p) 1 /\
    forall i g c, nth_error (p_nodes p) i = Some (g, c) -> exists w, nth_error ws i = Some w /\ most ws c w.

(** ** Programs without [then_cancel] *)
Inductive never_cancels : chain -> Prop :=
| V_connect s : never_cancels (CConnect s)
| V_unused : never_cancels CUnused
| V_step s c : never_cancels c -> never_cancels (CStep s c)
| V_fork_result a d : never_cancels a -> never_cancels d -> never_cancels (CForkResult a d)
| V_fork_option a d : never_cancels a -> never_cancels d -> never_cancels (CForkOption a d)
| V_for_err d c : never_cancels d -> never_cancels c -> never_cancels (CBranchForErr d c)
| V_for_none d c : never_cancels d -> never_cancels c -> never_cancels (CBranchForNone d c)
| V_branch_clone d c : never_cancels d -> never_cancels c -> never_cancels (CBranchClone d c)
| V_clone cs : Forall never_cancels cs -> never_cancels (CForkClone cs)
| V_unzip cs : Forall never_cancels cs -> never_cancels (CForkUnzip cs).

Definition without_cancel (p : program) : Prop :=
  never_cancels (p_main p) /\ forall g c, In (g, c) (p_nodes p) -> never_cancels c.
