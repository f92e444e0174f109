(** Properties of workflows built from diagrams, at work (C84). *)
From Verif Require Import Base OpsModel ExecModel ExecSpec ExecProofs7 ExecProofs8 ExecProps BrokenProps RestProofs RestProofs2 RestProps DiagramModel DiagramSpec DiagramSpec2 DiagramSpec3 DiagramProofs7 DiagramProofs8 DiagramProofs17 DiagramProps
  DiagramRunModel DiagramRunSpec DiagramRunProofs.

(** ** C59: which conversions are made *)

(** Every conversion stands before a target that asks for it: texts are made for the cancel
    target alone, and whenever there is a way to make them; what is neither a text nor JSON nor
    can be made either one triggers the cancellation without being read; JSON is taken apart
    for everything else than cancellations and JSON is never serialized again. The error of a
    conversion is a text. *)
Theorem C59_conversions_are_chosen g d q p ss log k i out er :
  builds g d q p ss log -> In (LConv k i out er) log ->
  (forall e, er = Some e -> o_ty e = TString) /\
  exists r s, In (LSlot r s) log /\ In (LConnect out s) log /\
    match k with
    | CString => r = RCancel [] /\ r_string g (s_ty i) = true
    | CTrigger => r = RCancel [] /\ r_string g (s_ty i) = false /\ r_ser g (s_ty i) = false /\ s_ty i <> TJson /\ s_ty i <> TString
    | CDeserialize => r <> RCancel []
    | CSerialize => s_ty i <> TJson /\ (r = RCancel [] -> r_string g (s_ty i) = false /\ s_ty i <> TString)
    end.
Proof. intros B H. exact (builds_convs _ _ _ _ _ _ B _ _ _ _ H). Qed.
Print Assumptions C59_conversions_are_chosen.

(** ** C84: the workflow of a diagram does what the diagram says *)

(** What is shown here for plain diagrams (nodes without streams, forks, unzips, results and
    transforms); missing are buffers, joins, listeners, accesses, splits, sections, scopes and
    streams.

    A plain diagram which is accepted becomes a workflow in the sense of [built]. The messages
    which come to its terminal are those that the diagram directs there, converted as their
    types require; it can be cancelled by its own nodes exactly if the diagram directs
    something to the cancel target which can be made readable or need not be; everything that
    is sent has somewhere to go. *)
Theorem C84_says_partial g d q p log : builds g d q p [] log -> plain d -> distinct d ->
  exists T, input_types log T /\ (forall id o, In (id, o) (d_ops d) -> suits g o (T id)) /\
  forall m, unit_total m -> let f := workflow_of m log in
    ExecSpec.built f /\
    forall v,
      (forall r, ExecSpec.occurs f (f_entry f) v (f_terminal f) r <-> comes d g m q p T v AtTerminate r) /\
      ((exists n, occurs_with f (f_entry f) v n Cancels) <-> exists w, comes d g m q p T v AtCancel w) /\
      (forall n, occurs_with f (f_entry f) v n Breaks ->
         exists id o w, In (id, o) (d_ops d) /\ comes d g m q p T v (AtOp id) w /\ foreign o w) /\
      (forall t ty w, comes d g m q p T v (Sent t ty) w -> settled d m p T t ty w).
Proof.
  intros B Pl Di. exists (type_of log). split; [|split].
  - intros u s bufs outs. exact (type_eq g d q p log B Pl Di u s bufs outs).
  - exact (suited g d q p log B Pl Di).
  - intros m Un f. split; [eapply is_built; eassumption|]. intros v. split; [|split; [|split]].
    + intros r. eapply terminal_iff; eassumption.
    + rewrite <- (cancel_iff g d q p log B Pl Di m Un v). split.
      * intros (n & k & w & O & K & R). exists n, w. split; [exact O|].
        destruct (no_kind g d q p log B Pl Di m n k K) as [X|[->|[->| ->]]]; try discriminate; [|exact K].
        destruct k; try contradiction; cbn [reacts] in R; try discriminate.
        -- destruct w; try discriminate. destruct (_ =? _); discriminate.
        -- destruct (act w) as [[]|]; discriminate.
      * intros (n & w & O & K). exists n, OCancel, w. auto.
    + intros n (k & w & O & K & R). eapply breaks_iff; try eassumption. exists w, k. split; [exact O|auto].
    + intros t ty w. eapply all_settled; eassumption.
Qed.
Print Assumptions C84_says_partial.

(** Whatever is done in whatever order: the workflow comes to rest with one ending for each
    request; responses are what the diagram directs to its end; without a message to the
    cancel target, a broken node or a cancellation from outside, a session is only cancelled
    if nothing is directed to the end. Nodes break for messages that are not what they take
    apart, for more than one response, and for a message to the cancel target whose session is
    over. *)
Theorem C84_runs_partial g d q p log : builds g d q p [] log -> plain d -> distinct d ->
  exists T, input_types log T /\
  forall m acts, unit_total m -> let f := workflow_of m log in let x := xrun f acts (fresh f) in
    (forall s r, In (EOut s r) (x_log x) ->
       exists v, started x s v /\ (forall v', started x s v' -> v' = v) /\ comes d g m q p T v AtTerminate r) /\
    (forall s v c, started x s v -> In (ECancelled s c) (x_log x) ->
       ((c = cause_triggered \/ c = cause_filtered) /\ exists w, comes d g m q p T v AtCancel w) \/
       (c = cause_unreachable /\ forall r, ~ comes d g m q p T v AtTerminate r) \/
       (c = cause_broken /\ exists n, In (EBroken n) (x_log x)) \/
       (c = cause_external /\ In (XCancel s) acts)) /\
    (forall n, In (EBroken n) (x_log x) ->
       (f_kind f n = Some OCancel /\ exists s v w e, started x s v /\ comes d g m q p T v AtCancel w /\ In e (endings x s)) \/
       (exists s v id o w, started x s v /\ In (id, o) (d_ops d) /\ comes d g m q p T v (AtOp id) w /\ foreign o w) \/
       (exists s v r w, started x s v /\ In (EOut s r) (x_log x) /\ comes d g m q p T v AtTerminate w)) /\
    (forall s v, quiet x -> started x s v -> exists e, endings x s = [e]).
Proof.
  intros B Pl Di. destruct (C84_says_partial _ _ _ _ _ B Pl Di) as (T & HT & _ & W). exists T. split; [exact HT|].
  intros m acts Un f x. destruct (W m Un) as [Hb V]. fold f in Hb, V. split; [|split; [|split]].
  - intros s r H. destruct (C56_response_partial f acts s r Hb H) as (v & S & U & O). exists v. split; [exact S|]. split; [exact U|].
    apply (proj1 (V v)). exact O.
  - intros s v c S H. destruct (V v) as (V1 & V2 & _).
    destruct (C56_cancelled_partial f acts s v c Hb S H) as [[Hc E]|[[Hc E]|[E|[[Hc E]|E]]]].
    + left. split; [exact Hc|]. apply V2. exact E.
    + right. left. split; [exact Hc|]. intros r C. apply V1 in C. revert r C. apply E. intros n. unfold is_collect.
      destruct (f_kind f n) as [k|] eqn:K; [|reflexivity].
      destruct (no_kind g d q p log B Pl Di m n k K) as [X|[->|[->| ->]]]; try reflexivity. destruct k; try contradiction; reflexivity.
    + right. right. left. exact E.
    + exfalso. destruct E as (n & _ & _ & E & _). unfold is_collect in E. destruct (f_kind f n) as [k|] eqn:K; [|discriminate].
      destruct (no_kind g d q p log B Pl Di m n k K) as [X|[->|[->| ->]]]; try discriminate. destruct k; try contradiction; discriminate.
    + right. right. right. exact E.
  - intros n H. destruct (proj1 (C56_broken_partial f acts Hb) n H) as [E|[(s & v & S & E)|(En & s & v & r & w & S & E & O)]]; [left| |]; [|right|right].
    + split; [exact E|]. assert (Hf : collect_free f).
      { intros a. unfold is_collect. destruct (f_kind f a) as [k|] eqn:K; [|reflexivity].
        destruct (no_kind g d q p log B Pl Di m a k K) as [X|[->|[->| ->]]]; try reflexivity. destruct k; try contradiction; reflexivity. }
      destruct (in_split _ _ H) as (l1 & l2 & El).
      destruct (C56_missing_message_partial f acts n l1 l2 Hb Hf E El) as (s & v & w & e & S & O & Ie & Ee).
      destruct (proj1 (proj1 (proj2 (V v)))) as [u C]; [exists n, OCancel, w; auto|]. exists s, v, u, e.
      assert (U : forall i, In i l1 -> In i (x_log x)) by (intros i Hi; rewrite El; apply in_or_app; left; exact Hi).
      split; [exact (U _ S)|]. split; [exact C|]. apply filter_In. split; [exact (U _ Ie)|exact Ee].
    + left. destruct (proj1 (proj2 (proj2 (V v))) _ E) as (id & o & w & X & Y & Z). exists s, v, id, o, w. auto.
    + right. exists s, v, r, w. split; [exact S|]. split; [exact E|]. apply (proj1 (V v)). rewrite <- En. exact O.
  - intros s v Q S. exact (C40_no_silent_hang_partial f acts s v Hb Q S).
Qed.
Print Assumptions C84_runs_partial.

(** A request is answered if the diagram directs something to its end and nothing to the cancel
    target, unless a node breaks or the session is cancelled from outside; and the answer is
    something that the diagram directs there. *)
Theorem C84_answers_partial g d q p log : builds g d q p [] log -> plain d -> distinct d ->
  exists T, input_types log T /\
  forall m acts s v r, unit_total m -> let f := workflow_of m log in let x := xrun f acts (fresh f) in
    quiet x -> started x s v -> (forall n, ~ In (EBroken n) (x_log x)) -> ~ In (XCancel s) acts ->
    comes d g m q p T v AtTerminate r -> (forall w, ~ comes d g m q p T v AtCancel w) ->
    exists r', endings x s = [EOut s r'] /\ comes d g m q p T v AtTerminate r'.
Proof.
  intros B Pl Di. destruct (C84_runs_partial _ _ _ _ _ B Pl Di) as (T & HT & W). exists T. split; [exact HT|].
  intros m acts s v r Un f x Q S Nb Nx C Nc. destruct (W m acts Un) as (W1 & W2 & _ & W4). fold f in W1, W2, W4. fold x in W1, W2, W4.
  destruct (W4 s v Q S) as [e E]. assert (He : In e (x_log x) /\ ends s e = true).
  { apply filter_In. change (In e (endings x s)). rewrite E. left. reflexivity. }
  destruct He as [H1 H2]. destruct e as [ | s' r'|s' c| | ]; try discriminate; cbn in H2; apply Nat.eqb_eq in H2; subst s'.
  - exists r'. split; [exact E|]. destruct (W1 _ _ H1) as (v' & S' & U & C'). rewrite (U _ S). exact C'.
  - exfalso. destruct (W2 s v c S H1) as [[_ [w Z]]|[[_ Z]|[[_ [n Z]]|[_ Z]]]]; [exact (Nc _ Z)|exact (Z _ C)|exact (Nb _ Z)|exact (Nx Z)].
Qed.
Print Assumptions C84_answers_partial.

(** If no request leads to an endless chain of steps through the diagram, then the flush loop
    ends by itself, with one ending for everyone who asked; responses are what the diagram
    directs to its end. *)
Theorem C84_rests_partial g d q p log : builds g d q p [] log -> plain d -> distinct d ->
  exists T, input_types log T /\
  forall m acts, unit_total m -> let f := workflow_of m log in
    (forall s v, In (XStart s v) acts -> ending d g m p T (Sent (Some (d_start d)) q, v)) ->
    exists n, forall k, n <= k -> let x := flush k f (xrun f acts (fresh f)) in
      quiet x /\
      forall s v, In (XStart s v) acts ->
        exists u e, started x s u /\ endings x s = [e] /\
          match e with EOut _ r => comes d g m q p T u AtTerminate r | _ => True end.
Proof.
  intros B Pl Di. exists (type_of log). split; [intros u s bufs outs; exact (type_eq g d q p log B Pl Di u s bufs outs)|].
  intros m acts Un f E.
  assert (Hb : ExecSpec.built f) by (eapply is_built; eassumption).
  assert (Hf : collect_free f).
  { intros n. unfold is_collect. destruct (f_kind f n) as [k|] eqn:K; [|reflexivity].
    destruct (no_kind g d q p log B Pl Di m n k K) as [X|[->|[->| ->]]]; try reflexivity. destruct k; try contradiction; reflexivity. }
  destruct (C80_everyone_is_answered_partial f acts Hb Hf) as [n Hn].
  { intros s v H. exact (request_yields g d q p log B Pl Di m v (E s v H)). }
  exists n. intros k L x. destruct (Hn k L) as [Q A]. fold x in Q, A. split; [exact Q|]. intros s v H.
  destruct (A s v H) as [[u S] [e Ee]]. exists u, e. split; [exact S|]. split; [exact Ee|].
  assert (He : In e (x_log x) /\ ends s e = true).
  { apply filter_In. change (In e (endings x s)). rewrite Ee. left. reflexivity. }
  destruct He as [H1 H2]. destruct e as [ | s' r| | | ]; try exact I. cbn in H2. apply Nat.eqb_eq in H2. subst s'.
  destruct (flush_run f k (xrun f acts (fresh f))) as [a Ea]. rewrite <- xrun_app in Ea. unfold x in H1, S. rewrite Ea in H1, S.
  destruct (C56_response_partial f (acts ++ a) s r Hb H1) as (v' & _ & U & O). rewrite (U _ S).
  eapply terminal_iff; eassumption.
Qed.
Print Assumptions C84_rests_partial.

(** In particular, if the diagram has no cycles; errors of conversions are texts, which can be
    serialized. *)
Theorem C84_acyclic_partial g d q p log : builds g d q p [] log -> plain d -> distinct d -> acyclic d ->
  exists T, input_types log T /\
  forall m acts, unit_total m -> text_total m -> let f := workflow_of m log in
    exists n, forall k, n <= k -> let x := flush k f (xrun f acts (fresh f)) in
      quiet x /\
      forall s v, In (XStart s v) acts ->
        exists u e, started x s u /\ endings x s = [e] /\
          match e with EOut _ r => comes d g m q p T u AtTerminate r | _ => True end.
Proof.
  intros B Pl Di Ac. destruct (C84_rests_partial _ _ _ _ _ B Pl Di) as (T & HT & W). exists T. split; [exact HT|].
  intros m acts Un Tt f. apply (W m acts Un). intros s v _. apply acyclic_ending; assumption.
Qed.
Print Assumptions C84_acyclic_partial.

(** What comes to a cancelling node is what a cancellation has to tell of a message that the
    diagram directs to the cancel target. *)
Theorem C84_tells_partial g d q p log : builds g d q p [] log -> plain d -> distinct d ->
  exists T, input_types log T /\
  forall m v n w', unit_total m -> let f := workflow_of m log in
    ExecSpec.occurs f (f_entry f) v n w' -> f_kind f n = Some OCancel ->
    exists t ty w, comes d g m q p T v (Sent t ty) w /\ where_ d t = NBuiltin BCancel /\ shown g m ty w w'.
Proof.
  intros B Pl Di. exists (type_of log). split; [intros u s bufs outs; exact (type_eq g d q p log B Pl Di u s bufs outs)|].
  intros m v n w' Un f O K. eapply cancel_shows; eassumption.
Qed.
Print Assumptions C84_tells_partial.

Lemma diagram_outcome g d q p log : builds g d q p [] log -> plain d -> distinct d -> let T := type_of log in
  forall m acts, unit_total m -> let f := workflow_of m log in let x := xrun f acts (fresh f) in
    (forall s v, In (XStart s v) acts -> exists l, gives d g m p T (Sent (Some (d_start d)) q, v) l /\ length l <= 1) ->
    (forall n, ~ In (EBroken n) (x_log x)) /\
    forall s v l, quiet x -> started x s v -> ~ In (XCancel s) acts -> gives d g m p T (Sent (Some (d_start d)) q, v) l ->
      endings x s = match l with [r] => [EOut s r] | _ => [ECancelled s cause_unreachable] end.
Proof.
  intros B Pl Di T.
  intros m acts Un f x G.
  assert (Hb : ExecSpec.built f) by (eapply is_built; eassumption).
  assert (Hf : collect_free f).
  { intros n. unfold is_collect. destruct (f_kind f n) as [k|] eqn:K; [|reflexivity].
    destruct (no_kind g d q p log B Pl Di m n k K) as [X|[->|[->| ->]]]; try reflexivity. destruct k; try contradiction; reflexivity. }
  assert (Y : forall v l, gives d g m p (type_of log) (Sent (Some (d_start d)) q, v) l -> yields f (f_entry f) v (map RValue l)).
  { intros v l X. eapply request_gives; eassumption. }
  assert (No : forall r l, In r (map RValue l) -> r <> RBreaks /\ r <> RCancelled).
  { intros r l X. apply in_map_iff in X as (y & <- & _). split; discriminate. }
  assert (Nc : forall v l n, gives d g m p (type_of log) (Sent (Some (d_start d)) q, v) l -> ~ occurs_with f (f_entry f) v n Cancels).
  { intros v l n X O. destruct (proj2 (No _ _ (proj2 (yields_occurs f Hb Hf _ _ _ (Y _ _ X)) n O)) eq_refl). }
  assert (Hn : forall s' v' n w, In (XStart s' v') acts -> ExecSpec.occurs f (f_entry f) v' n w -> f_kind f n <> Some OCancel).
  { intros s' v' n w H O K. destruct (G _ _ H) as (l & X & _). apply (Nc v' l n X). exists OCancel, w. auto. }
  assert (Ht : forall s' v', In (XStart s' v') acts -> exists l', yields f (f_entry f) v' l' /\ length l' <= 1 /\ ~ In RBreaks l').
  { intros s' v' H. destruct (G _ _ H) as (l & X & L). exists (map RValue l). split; [apply Y; exact X|]. rewrite map_length. split; [exact L|].
    intros H'. destruct (proj1 (No _ _ H') eq_refl). }
  pose proof (C41_not_broken_partial f acts Hb Hf Hn Ht) as Nb. split; [exact Nb|]. intros s v l Q S Nx X.
  assert (R : forall c, endings x s = [ECancelled s c] -> c = cause_unreachable).
  { intros c E. assert (Hin : In (ECancelled s c) (x_log x)).
    { assert (H : In (ECancelled s c) (endings x s)) by (rewrite E; left; reflexivity). apply filter_In in H. tauto. }
    destruct (C56_cancelled_partial f acts s v c Hb S Hin) as [[_ [n H]]|[[H _]|[[_ [n H]]|[[_ H]|[_ H]]]]]; [destruct (Nc _ _ _ X H)|exact H|destruct (Nb n H)| |destruct (Nx H)].
    destruct H as (n & _ & _ & H & _). rewrite (Hf n) in H. discriminate. }
  pose proof (C41_outcome_partial f acts s v _ Hb Hf Hn Ht Q S Nx (Y _ _ X)) as O. fold x in O.
  destruct l as [|r [|r' l]]; cbn [map] in O; [|exact O|]; destruct O as [c O]; rewrite O, (R c O); reflexivity.
Qed.

(** If every request comes to at most one response, to no cancel target and to no operation
    which cannot deal with it, then nothing breaks and the outcome of a session is what its own
    request gives: its response, or a cancellation because there is none, whatever other sessions
    there are, in whatever order. *)
Theorem C84_outcome_partial g d q p log : builds g d q p [] log -> plain d -> distinct d ->
  exists T, input_types log T /\
  forall m acts, unit_total m -> let f := workflow_of m log in let x := xrun f acts (fresh f) in
    (forall s v, In (XStart s v) acts -> exists l, gives d g m p T (Sent (Some (d_start d)) q, v) l /\ length l <= 1) ->
    (forall n, ~ In (EBroken n) (x_log x)) /\
    forall s v l, quiet x -> started x s v -> ~ In (XCancel s) acts -> gives d g m p T (Sent (Some (d_start d)) q, v) l ->
      endings x s = match l with [r] => [EOut s r] | _ => [ECancelled s cause_unreachable] end.
Proof.
  intros B Pl Di. exists (type_of log). split; [intros u s bufs outs; exact (type_eq g d q p log B Pl Di u s bufs outs)|].
  exact (diagram_outcome _ _ _ _ _ B Pl Di).
Qed.
Print Assumptions C84_outcome_partial.

(** So the flush loop comes to rest with all requests answered as the diagram says. *)
Theorem C84_served_partial g d q p log : builds g d q p [] log -> plain d -> distinct d ->
  exists T, input_types log T /\
  forall m acts, unit_total m -> let f := workflow_of m log in
    (forall s v, In (XStart s v) acts -> exists l, gives d g m p T (Sent (Some (d_start d)) q, v) l /\ length l <= 1) ->
    (forall s, ~ In (XCancel s) acts) ->
    exists n, forall k, n <= k -> let x := flush k f (xrun f acts (fresh f)) in
      quiet x /\
      forall s v, In (XStart s v) acts ->
        exists u l, started x s u /\ In (XStart s u) acts /\ gives d g m p T (Sent (Some (d_start d)) q, u) l /\
          endings x s = match l with [r] => [EOut s r] | _ => [ECancelled s cause_unreachable] end.
Proof.
  intros B Pl Di. exists (type_of log). split; [intros u s bufs outs; exact (type_eq g d q p log B Pl Di u s bufs outs)|].
  intros m acts Un f G Nx.
  assert (Hb : ExecSpec.built f) by (eapply is_built; eassumption).
  assert (Hf : collect_free f).
  { intros n. unfold is_collect. destruct (f_kind f n) as [k|] eqn:K; [|reflexivity].
    destruct (no_kind g d q p log B Pl Di m n k K) as [X|[->|[->| ->]]]; try reflexivity. destruct k; try contradiction; reflexivity. }
  destruct (C80_everyone_is_answered_partial f acts Hb Hf) as [n Hn].
  { intros s v H. destruct (G _ _ H) as (l & X & _). eexists. eapply request_gives; eassumption. }
  exists n. intros k L x. destruct (Hn k L) as [Q A]. fold x in Q, A. split; [exact Q|]. intros s v H.
  destruct (flush_inner f k (xrun f acts (fresh f))) as [a [Fa Ea]]. rewrite <- xrun_app in Ea. fold x in Ea.
  rewrite Forall_forall in Fa. destruct (A s v H) as [[u S] _]. rewrite Ea in S, Q. rewrite Ea.
  assert (G' : forall s v, In (XStart s v) (acts ++ a) -> In (XStart s v) acts).
  { intros s' v' X. apply in_app_or in X as [X|X]; [exact X|]. destruct (Fa _ X). }
  destruct (run_starts f s u (acts ++ a) (fresh f) S) as [[]|Hu]. apply G' in Hu. destruct (G _ _ Hu) as (l & X & _).
  exists u, l. split; [exact S|]. split; [exact Hu|]. split; [exact X|].
  apply (proj2 (diagram_outcome g d q p log B Pl Di m (acts ++ a) Un (fun s' v' X' => G s' v' (G' s' v' X'))) s u l Q S); [|exact X].
  intros Y. apply in_app_or in Y as [Y|Y]; [exact (Nx s Y)|destruct (Fa _ Y)].
Qed.
Print Assumptions C84_served_partial.

(** *** Cases *)

Lemma ex_distinct d : flat d [] -> NoDup (map fst (d_ops d)) -> d_templates d = [] ->
  (forall id start ops streams next, ~ In (id, OScope start ops streams next) (d_ops d)) -> distinct d.
Proof.
  intros F N T H. split; [exact N|]. split.
  - intros t X. rewrite T. discriminate.
  - intros ns id start ops streams next O. apply (flat_occurs _ _ F) in O as [_ O]. destruct (H _ _ _ _ _ O).
Qed.

(** Atoms from 10 on cannot be serialized, and only atoms below 5 can be read back; nodes put
    their request into a tuple; the rest is arbitrary. *)
Definition ex_meaning : meaning := {|
  m_node := fun b v => match b with 5 => VTuple [v; VAtom 1; VAtom 2] | _ => v end;
  m_ser := fun ty v => if ty =? TUnit then inl VUnit else if ty =? TString then inl v else match v with VAtom n => if n <? 10 then inl v else inr (VAtom 100) | _ => inl v end;
  m_de := fun _ v => match v with VAtom n => if n <? 5 then inl v else inr (VAtom 200) | _ => inr (VAtom 200) end;
  m_text := fun _ _ => VAtom 300;
  m_cel := fun _ v => inl v |}.

(** A number is put into a triple, which is taken apart; the first part is serialized for a
    node on JSON and read back for the response, the second is disposed of and the third is
    cloned to a transform and to nowhere. *)
Definition ex_plain : diagram := ex_diagram
  [(10, ONode 5 (NName 11) []); (11, OUnzip [NName 12; NBuiltin BDispose; NName 13]);
   (12, ONode 1 ex_terminate []); (13, OFork [NBuiltin BDispose; NName 14]);
   (14, OTransform (NBuiltin BDispose) None)] [] (NName 10) None.

Lemma ex_plain_builds : builds ex_registry ex_plain 4 4 [] (ex_log ex_plain 4 4 []).
Proof. apply ex_builds. vm_compute. reflexivity. Qed.

Lemma ex_plain_plain : plain ex_plain.
Proof.
  split; [|left; reflexivity]. intros id o [[= <- <-]|[[= <- <-]|[[= <- <-]|[[= <- <-]|[[= <- <-]|[]]]]]]; try exact I; try reflexivity. discriminate.
Qed.

Lemma ex_plain_distinct : distinct ex_plain.
Proof.
  apply ex_distinct; [exact (pl_flat _ ex_plain_plain)|repeat constructor; cbn; intuition discriminate|reflexivity|].
  intros id st ops str nx [E|[E|[E|[E|[E|[]]]]]]; discriminate.
Qed.

Lemma ex_unit : unit_total ex_meaning.
Proof. intros w. exists VUnit. reflexivity. Qed.

Lemma ex_text : text_total ex_meaning.
Proof. intros w. exists w. reflexivity. Qed.

Lemma ex_plain_acyclic : acyclic ex_plain.
Proof.
  exists (fun n => match n with 10 => 3 | 11 => 2 | 13 => 1 | _ => 0 end).
  intros id o t id' [[= <- <-]|[[= <- <-]|[[= <- <-]|[[= <- <-]|[[= <- <-]|[]]]]]] W E; cbn [written] in W.
  - subst t. injection E as <-. lia.
  - destruct W as (n & [<-|[<-|[<-|[]]]] & ->); try discriminate; injection E as <-; lia.
  - subst t. discriminate.
  - destruct W as (n & [<-|[<-|[]]] & ->); try discriminate; injection E as <-; lia.
  - destruct W as [->| ->]; discriminate.
Qed.

(** Requests below 5 give themselves as the response, and nothing else. *)
Lemma ex_gives n : n < 5 -> gives ex_plain ex_registry ex_meaning 4 (type_of (ex_log ex_plain 4 4 [])) (Sent (Some (d_start ex_plain)) 4, VAtom n) [VAtom n].
Proof.
  intros L. cut (exists l, gives ex_plain ex_registry ex_meaning 4 (type_of (ex_log ex_plain 4 4 [])) (Sent (Some (d_start ex_plain)) 4, VAtom n) l /\ l = [VAtom n]).
  { intros (l & G & ->). exact G. }
  destruct n as [|[|[|[|[|n]]]]]; [..|lia]; eexists.
  all: split.
  all: repeat first
    [ apply G_disposed; reflexivity
    | eapply G_goes_on; [first [eapply S_arrives; [reflexivity|vm_compute; reflexivity] | eapply S_response; [reflexivity|vm_compute; reflexivity]]|]
    | apply G_response
    | apply G_nil
    | apply G_cons
    | eapply G_sends; [cbn; repeat (first [left; reflexivity|right])|cbn; try (intros []; fail); try (intros X; apply (X _ eq_refl); reflexivity)|
        match goal with |- give_all _ _ _ _ _ ?l _ => let l' := eval vm_compute in l in change l with l' end] ].
  all: reflexivity.
Qed.

(** The request 3 is answered with 3. The request 7 cannot be read back, so the error cancels
    the workflow; neither can the request 12 be serialized. *)
Example C84_case :
  builds ex_registry ex_plain 4 4 [] (ex_log ex_plain 4 4 []) /\ plain ex_plain /\ distinct ex_plain /\ unit_total ex_meaning /\ text_total ex_meaning /\ acyclic ex_plain /\
  (let f := workflow_of ex_meaning (ex_log ex_plain 4 4 []) in
   let x := flush 100 f (xrun f [XStart 50 (VAtom 3); XStart 51 (VAtom 7); XStart 52 (VAtom 12)] (fresh f)) in
   quiet x /\ endings x 50 = [EOut 50 (VAtom 3)] /\ endings x 51 = [ECancelled 51 cause_triggered] /\
   endings x 52 = [ECancelled 52 cause_triggered]).
Proof.
  split; [exact ex_plain_builds|]. split; [exact ex_plain_plain|]. split; [exact ex_plain_distinct|]. split; [exact ex_unit|]. split; [exact ex_text|]. split; [exact ex_plain_acyclic|]. vm_compute. auto 10.
Qed.

Example C84_outcome_case :
  (forall n, n < 5 -> gives ex_plain ex_registry ex_meaning 4 (type_of (ex_log ex_plain 4 4 [])) (Sent (Some (d_start ex_plain)) 4, VAtom n) [VAtom n]) /\
  input_types (ex_log ex_plain 4 4 []) (type_of (ex_log ex_plain 4 4 [])) /\
  (let f := workflow_of ex_meaning (ex_log ex_plain 4 4 []) in
   let x := flush 100 f (xrun f [XStart 50 (VAtom 3); XExec; XStart 51 (VAtom 4); XExec] (fresh f)) in
   quiet x /\ endings x 50 = [EOut 50 (VAtom 3)] /\ endings x 51 = [EOut 51 (VAtom 4)]).
Proof.
  split; [exact ex_gives|]. split; [intros u s bufs outs; exact (type_eq _ _ _ _ _ ex_plain_builds ex_plain_plain ex_plain_distinct u s bufs outs)|].
  vm_compute. auto 10.
Qed.

(** *** What is directed to the cancel target does not always cancel the workflow *)

Definition ex_mute : registry := {|
  r_known := r_known ex_registry; r_ser := r_ser ex_registry; r_de := r_de ex_registry; r_clone := r_clone ex_registry;
  r_string := fun _ => false; r_node := r_node ex_registry; r_section := r_section ex_registry; r_unzip := r_unzip ex_registry;
  r_result := r_result ex_registry; r_split := r_split ex_registry; r_join := r_join ex_registry; r_access := r_access ex_registry;
  r_access_hints := r_access_hints ex_registry; r_listen := r_listen ex_registry; r_listen_hints := r_listen_hints ex_registry |}.

Definition ex_mute_diagram : diagram := ex_diagram [(10, ONode 0 (NBuiltin BCancel) [])] [] (NName 10) (Some ex_terminate).

Definition ex_mute_log : list entry :=
  match create_workflow ex_mute (fun _ l => l) 200 ex_mute_diagram 4 TString [] with inl c => c_log c | inr _ => [] end.

(** The only message of the workflow is directed to the cancel target. It cannot be
    serialized; nothing is cancelled then, and the error goes to the target of implicit errors,
    here the end of the workflow, which answers with it. *)
Theorem C84_cancels_refuted : exists g d q p log m T v w ty,
  builds g d q p [] log /\ plain d /\ distinct d /\ unit_total m /\ input_types log T /\
  comes d g m q p T v (Sent (Some (NBuiltin BCancel)) ty) w /\
  (forall w', ~ comes d g m q p T v AtCancel w') /\
  let f := workflow_of m log in
  let x := flush 100 f (xrun f [XStart 50 v] (fresh f)) in
  quiet x /\ endings x 50 = [EOut 50 (VAtom 100)].
Proof.
  assert (B : builds ex_mute ex_mute_diagram 4 TString [] ex_mute_log).
  { unfold ex_mute_log. destruct (create_workflow _ _ _ _ _ _ _) as [c|e] eqn:E; [|vm_compute in E; discriminate].
    exists (fun _ l => l), 200, c. split; [intros n l; apply Permutation_refl|]. auto. }
  assert (Pl : plain ex_mute_diagram).
  { split; [|right; exists BTerminate; reflexivity]. intros id o [[= <- <-]|[]]. reflexivity. }
  assert (Di : distinct ex_mute_diagram).
  { apply ex_distinct; [exact (pl_flat _ Pl)|repeat constructor; cbn; intuition discriminate|reflexivity|].
    intros id st ops str nx [E|[]]; discriminate. }
  destruct (C84_says_partial _ _ _ _ _ B Pl Di) as (T & HT & HS & W).
  exists ex_mute, ex_mute_diagram, 4, TString, ex_mute_log, ex_meaning, T, (VAtom 12), (VAtom 12), 4.
  split; [exact B|]. split; [exact Pl|]. split; [exact Di|]. split; [exact ex_unit|]. split; [exact HT|].
  assert (T10 : T 10 = 4).
  { destruct (HS 10 _ (or_introl eq_refl)) as (rsp & have & E). cbn in E. injection E as <- _ _. reflexivity. }
  split; [|split].
  - eapply (C_sends _ _ _ _ _ _ _ 10 _ (VAtom 12)); [|left; reflexivity|left; reflexivity].
    eapply C_arrives; [apply C_request|reflexivity|]. rewrite T10. reflexivity.
  - assert (A : forall x w', comes ex_mute_diagram ex_mute ex_meaning 4 TString T (VAtom 12) x w' ->
      match x with
      | Sent t ty => (w' = VAtom 12 /\ ty = 4) \/ t = None
      | AtOp _ => w' = VAtom 12
      | AtTerminate => True
      | AtCancel => False
      end).
    { induction 1 as [|t ty id w w' _ IH W1 C|t ty id w e _ IH W1 C|t ty w w' _ IH W1 C|t ty w e _ IH W1 C|t ty w _ IH W1 C|t ty w e _ IH W1 C|id o w t ty w' _ IH Hin X]; auto.
      - destruct IH as [[-> ->]| ->]; [|discriminate W1]. unfold convert in C. destruct (4 =? T id); [injection C as <-; reflexivity|].
        destruct (T id =? TJson); [discriminate|discriminate].
      - destruct IH as [[-> ->]| ->]; [|discriminate W1]. discriminate C.
      - destruct Hin as [[= <- <-]|[]]. destruct X as [[= <- <- <-]|[]]. left. rewrite IH. auto. }
    intros w' C. exact (A _ _ C).
  - vm_compute. auto 10.
Qed.
Print Assumptions C84_cancels_refuted.

(** A message that has a text comes to the cancelling node as that text. *)
Definition ex_tell_log : list entry := ex_log ex_mute_diagram 4 TString [].

Example C84_tells_case :
  builds ex_registry ex_mute_diagram 4 TString [] ex_tell_log /\ plain ex_mute_diagram /\ distinct ex_mute_diagram /\
  let f := workflow_of ex_meaning ex_tell_log in
  exists n, ExecSpec.occurs f (f_entry f) (VAtom 12) n (VAtom 300) /\ f_kind f n = Some OCancel.
Proof.
  assert (Pl : plain ex_mute_diagram).
  { split; [|right; exists BTerminate; reflexivity]. intros id o [[= <- <-]|[]]. reflexivity. }
  split; [apply ex_builds; vm_compute; reflexivity|]. split; [exact Pl|]. split.
  - apply ex_distinct; [exact (pl_flat _ Pl)|repeat constructor; cbn; intuition discriminate|reflexivity|].
    intros id st ops str nx [E|[]]; discriminate.
  - cbn zeta. eexists. split.
    + eapply O_sent; [eapply O_sent; [apply O_here|vm_compute; reflexivity|reflexivity|left; reflexivity]|vm_compute; reflexivity|reflexivity|left; reflexivity].
    + vm_compute. reflexivity.
Qed.
