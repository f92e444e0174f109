(** The workflow of a program does what the program means. *)
From Verif Require Import Base RosterModel BufferModel InputModel OpsModel OpsSpec ExecModel ExecSpec ChainModel ChainSpec ChainProofs.

Section Program.
Variable p : program.
Let nn := length (p_nodes p).

(** ** The nodes which are created first *)
Lemma create_spec l : forall b b', b' = create_nodes l b ->
  b_next b' = b_next b + 2 * length l /\ b_entry b' = b_entry b /\
  (forall e, e < b_next b -> b_kind b' e = b_kind b e) /\
  (forall j g c, nth_error l j = Some (g, c) ->
     b_kind b' (b_next b + 2 * j) = Some (OMap g (S (b_next b + 2 * j))) /\
     b_kind b' (S (b_next b + 2 * j)) = Some OUnused) /\
  (forall e, b_next b' <= e -> b_kind b' e = b_kind b e).
Proof.
  induction l as [|[g c] l IH]; intros b b' ->; cbn [create_nodes length].
  - repeat split; auto; try lia; destruct j; discriminate.
  - set (b1 := b_spawn OUnused (b_spawn (OMap g (S (b_next b))) b)).
    destruct (IH b1 _ eq_refl) as (N & E & K & J & F). clear IH.
    assert (N1 : b_next b1 = S (S (b_next b))) by reflexivity.
    assert (K1 : forall e, b_kind b1 e = if Nat.eqb e (S (b_next b)) then Some OUnused else
        if Nat.eqb e (b_next b) then Some (OMap g (S (b_next b))) else b_kind b e) by reflexivity.
    split; [rewrite N, N1; lia|]. split; [exact E|]. split; [|split].
    + intros e He. rewrite K by lia. rewrite K1. destruct (Nat.eqb_spec e (S (b_next b))); [lia|].
      destruct (Nat.eqb_spec e (b_next b)); [lia|reflexivity].
    + intros [|j] g' c' Hj.
      * injection Hj as <- <-. rewrite Nat.mul_0_r, Nat.add_0_r. rewrite !K by lia. rewrite !K1.
        rewrite Nat.eqb_refl. destruct (Nat.eqb_spec (b_next b) (S (b_next b))); [lia|]. rewrite Nat.eqb_refl. auto.
      * specialize (J j g' c' Hj). rewrite N1 in J.
        replace (b_next b + 2 * S j) with (S (S (b_next b)) + 2 * j) by lia. exact J.
    + intros e He. rewrite F by lia. rewrite K1. rewrite N, N1 in He. destruct (Nat.eqb_spec e (S (b_next b))); [lia|].
      destruct (Nat.eqb_spec e (b_next b)); [lia|reflexivity].
Qed.

Definition b_start : bworld := create_nodes (p_nodes p) b_new.

Lemma start_next : b_next b_start = 3 + 2 * nn.
Proof. exact (proj1 (create_spec (p_nodes p) b_new b_start eq_refl)). Qed.

Lemma nth_node i : i < nn -> exists g c, nth_error (p_nodes p) i = Some (g, c).
Proof.
  intros H. destruct (nth_error (p_nodes p) i) as [[g c]|] eqn:E; [eauto|]. apply nth_error_None in E. unfold nn in H. lia.
Qed.

Lemma start_cases e k : b_kind b_start e = Some k ->
  (e = the_terminal /\ k = OTerminate) \/ (e = the_input /\ k = OUnused) \/
  exists i g c, nth_error (p_nodes p) i = Some (g, c) /\
    ((e = node_input i /\ k = OMap g (node_output i)) \/ (e = node_output i /\ k = OUnused)).
Proof.
  destruct (create_spec (p_nodes p) b_new b_start eq_refl) as (N & E & K & J & F). fold nn in N. cbn [b_next b_new] in *. intros H.
  destruct (le_lt_dec 3 e) as [H3|H3].
  - destruct (le_lt_dec (b_next b_start) e) as [Hn|Hn].
    { rewrite F in H by exact Hn. cbn in H. destruct (Nat.eqb_spec e the_terminal) as [->|]; [unfold the_terminal in *; lia|].
      destruct (Nat.eqb_spec e the_input) as [->|]; [unfold the_input in *; lia|discriminate]. }
    right. right. assert (D : exists i, i < nn /\ (e = 3 + 2 * i \/ e = S (3 + 2 * i))).
    { pose proof (Nat.div_mod (e - 3) 2 ltac:(lia)) as D. pose proof (Nat.mod_upper_bound (e - 3) 2 ltac:(lia)) as B.
      exists ((e - 3) / 2). lia. }
    destruct D as (i & Hi & He). destruct (nth_node i Hi) as (g & c & Hg). destruct (J i g c Hg) as [J1 J2].
    exists i, g, c. split; [exact Hg|]. unfold node_input, node_output. destruct He as [->| ->].
    + left. split; [lia|]. rewrite J1 in H. injection H as <-. f_equal.
    + right. split; [lia|]. rewrite J2 in H. now injection H as <-.
  - rewrite K in H by exact H3. cbn [b_kind b_new] in H. destruct (Nat.eqb_spec e the_terminal) as [->|]; [injection H as <-; auto|].
    destruct (Nat.eqb_spec e the_input) as [->|]; [injection H as <-; auto|discriminate].
Qed.

Lemma start_terminal : b_kind b_start the_terminal = Some OTerminate.
Proof.
  destruct (create_spec (p_nodes p) b_new b_start eq_refl) as (N & E & K & J & F). rewrite K by (unfold the_terminal; cbn; lia). reflexivity.
Qed.
Lemma start_input : b_kind b_start the_input = Some OUnused.
Proof.
  destruct (create_spec (p_nodes p) b_new b_start eq_refl) as (N & E & K & J & F). rewrite K by (unfold the_input; cbn; lia). reflexivity.
Qed.
Lemma start_node i g c : nth_error (p_nodes p) i = Some (g, c) ->
  b_kind b_start (node_input i) = Some (OMap g (node_output i)) /\ b_kind b_start (node_output i) = Some OUnused.
Proof.
  intros H. destruct (create_spec (p_nodes p) b_new b_start eq_refl) as (N & E & K & J & F). exact (J i g c H).
Qed.

Lemma start_good : good nn b_start.
Proof.
  pose proof start_next as N. constructor.
  - intros e H. destruct (b_kind b_start e) as [k|] eqn:E; [|reflexivity]. exfalso.
    destruct (start_cases e k E) as [[-> _]|[[-> _]|(i & g & c & Hi & H')]]; unfold the_terminal, the_input, node_input, node_output in *; try lia.
    assert (i < nn) by (apply nth_error_Some; congruence). destruct H' as [[-> _]|[-> _]]; lia.
  - intros e k t E Hin. destruct (start_cases e k E) as [[_ ->]|[[_ ->]|(i & g & c & Hi & [[_ ->]|[_ ->]])]]; try destruct Hin as [<-|[]]; try destruct Hin.
    rewrite (proj2 (start_node i g c Hi)). discriminate.
  - intros e. split; [|intros ->; exact start_terminal]. intros E.
    destruct (start_cases e _ E) as [[-> _]|[[_ H]|(i & g & c & Hi & [[_ H]|[_ H]])]]; try discriminate H. reflexivity.
  - destruct (b_kind b_start the_scope) as [k|] eqn:E; [|reflexivity]. exfalso.
    destruct (start_cases _ k E) as [[H _]|[[H _]|(i & g & c & Hi & [[H _]|[H _]])]]; unfold the_scope, the_terminal, the_input, node_input, node_output in H; lia.
  - intros i Hi. destruct (nth_node i Hi) as (g & c & Hg). rewrite (proj1 (start_node i g c Hg)). discriminate.
  - replace (b_entry b_start) with the_input; [rewrite start_input; discriminate|].
    symmetry. exact (proj1 (proj2 (create_spec (p_nodes p) b_new b_start eq_refl))).
  - intros e E. destruct (start_cases e _ E) as [[_ H]|[[_ H]|(i & g & c & Hi & [[_ H]|[_ H]])]]; discriminate H.
  - intros e mi ma t E. destruct (start_cases e _ E) as [[_ H]|[[_ H]|(i & g & c & Hi & [[_ H]|[_ H]])]]; discriminate H.
Qed.

(** ** The chains are built onto the outputs *)
Definition outs : list entity := the_input :: map node_output (seq 0 nn).
Definition chains : list chain := p_main p :: map snd (p_nodes p).

Lemma attach_nodes_all l : forall i b, attach_nodes i l b = attach_all (map snd l) (map node_output (seq i (length l))) b.
Proof. induction l as [|[g c] l IH]; intros i b; cbn; [reflexivity|]. apply IH. Qed.

Lemma assemble_all : assemble p = attach_all chains outs b_start.
Proof. unfold assemble, chains, outs. cbn [attach_all]. rewrite attach_nodes_all. reflexivity. Qed.

Lemma outs_nodup : NoDup outs.
Proof.
  constructor.
  - rewrite in_map_iff. unfold the_input, node_output. intros (i & H & _). lia.
  - apply FinFun.Injective_map_NoDup; [|apply seq_NoDup]. intros i j. unfold node_output. lia.
Qed.
Lemma outs_open : Forall (open nn b_start) outs.
Proof.
  constructor; [|rewrite Forall_map, Forall_forall; intros i Hi]; constructor.
  - exact start_input.
  - intros [|i] H; cbn; unfold the_input, the_terminal, node_input; lia.
  - apply in_seq in Hi. destruct (nth_node i ltac:(lia)) as (g & c & Hg). exact (proj2 (start_node i g c Hg)).
  - intros [|j] H; cbn; unfold node_output, the_terminal, node_input; lia.
Qed.

Definition R_all (e : entity) : Prop := In e outs \/ b_next b_start <= e < b_next (assemble p).
Notation f := (workflow_of p).

(** What there is in the end. *)
Record holds_program : Prop := {
  hp_good : good nn (assemble p);
  hp_main : at_ nn R_all (f_kind f) (p_main p) (f_entry f);
  hp_node : forall i g c, nth_error (p_nodes p) i = Some (g, c) ->
    exists t, f_kind f (node_input i) = Some (OMap g t) /\ at_ nn R_all (f_kind f) c t;
}.

Lemma at_all_nth R K cs : forall ts i c, at_all nn R K cs ts -> nth_error cs i = Some c ->
  exists t, nth_error ts i = Some t /\ at_ nn R K c t.
Proof.
  induction cs as [|d cs IH]; intros [|t ts] [|i] c; cbn; try tauto; try discriminate.
  - intros [H _] E. injection E as <-. eauto.
  - intros [_ H] E. eauto.
Qed.

Lemma nth_map_seq {A} (h : nat -> A) n : forall s i, i < n -> nth_error (map h (seq s n)) i = Some (h (s + i)).
Proof.
  induction n as [|n IH]; intros s [|i] H; cbn; try lia; [now rewrite Nat.add_0_r|]. rewrite IH by lia. do 2 f_equal. lia.
Qed.

Theorem program_held : proper_program p -> holds_program.
Proof.
  intros [P1 P2]. destruct (attach_list nn chains) with (ts := outs) (b := b_start) as [ts' A].
  - rewrite Forall_forall. intros c _. apply buildable_all.
  - constructor; [exact P1|]. rewrite Forall_map. exact P2.
  - unfold outs, chains. cbn [length]. rewrite !map_length, seq_length. reflexivity.
  - exact outs_nodup.
  - exact start_good.
  - exact outs_open.
  - rewrite <- assemble_all in A.
    assert (T : map (to_news outs ts') outs = ts').
    { apply (to_news_all nn); [exact outs_nodup|exact (da_place _ _ _ _ _ _ A)|].
      intros t s Ht Hs. pose proof outs_open as O. rewrite Forall_forall in O. exact (o_slot _ _ _ (O t Ht) s Hs). }
    constructor.
    + exact (da_good _ _ _ _ _ _ A).
    + destruct (at_all_nth _ _ _ _ 0 (p_main p) (da_at _ _ _ _ _ _ A) eq_refl) as (t & Ht & Ha).
      cbn [f_kind f_entry workflow_of]. rewrite (da_entry _ _ _ _ _ _ A).
      replace (to_news outs ts' (b_entry b_start)) with t; [exact Ha|].
      replace (b_entry b_start) with the_input
        by (symmetry; exact (proj1 (proj2 (create_spec (p_nodes p) b_new b_start eq_refl)))).
      rewrite <- T in Ht. unfold outs at 2 in Ht. cbn [map nth_error] in Ht. now injection Ht as <-.
    + intros i g c Hi.
      assert (Hlt : i < nn) by (apply nth_error_Some; congruence).
      destruct (at_all_nth _ _ _ _ (S i) c (da_at _ _ _ _ _ _ A)) as (t & Ht & Ha).
      { cbn. now rewrite nth_error_map, Hi. }
      exists t. split; [|exact Ha]. cbn [f_kind workflow_of].
      rewrite (da_kind _ _ _ _ _ _ A).
      * rewrite (proj1 (start_node i g c Hi)). cbn [option_map]. f_equal.
        etransitivity; [exact (redirects_step outs ts' (SMap g) (node_output i))|]. cbn [step_kind]. f_equal.
        rewrite <- T in Ht. unfold outs at 2 in Ht. cbn [map nth_error] in Ht. rewrite map_map, (nth_map_seq (fun x => to_news outs ts' (node_output x))) in Ht by exact Hlt.
        cbn in Ht. now injection Ht as <-.
      * rewrite start_next. unfold node_input. lia.
      * unfold outs. cbn. rewrite in_map_iff. unfold the_input, node_input, node_output. intros [H|(j & H & _)]; lia.
Qed.

(** ** The workflow is as the builder makes them *)
Theorem program_built : proper_program p -> built f.
Proof.
  intros P. pose proof (hp_good (program_held P)) as G.
  assert (I : forall n, In n (f_nodes f) <-> f_kind f n <> None).
  { intros n. cbn [f_nodes f_kind workflow_of]. rewrite filter_In, in_seq. unfold present. split.
    - intros [_ H] E. rewrite E in H. discriminate.
    - intros H. split.
      + destruct (le_lt_dec (b_next (assemble p)) n) as [Hn|Hn]; [|lia]. destruct (H (g_fresh _ _ G n Hn)).
      + destruct (b_kind (assemble p) n); [reflexivity|congruence]. }
  split; [apply NoDup_filter, seq_NoDup|]. split; [exact I|]. split; [|split; [|split; [|split; [|split]]]].
  - intros n t Hin. apply I. unfold node_targets in Hin. destruct (f_kind f n) as [k|] eqn:E; [|destruct Hin]. exact (g_targets _ _ G n k t E Hin).
  - apply I. exact (g_entry _ _ G).
  - exact (g_terminal _ _ G).
  - exact (g_clone _ _ G).
  - exact (g_scope _ _ G).
  - intros n mi ma t E. destruct (g_collect _ _ G _ _ _ _ E).
Qed.

Lemma program_no_collect : proper_program p -> collect_free f.
Proof.
  intros P n. pose proof (hp_good (program_held P)) as G. unfold is_collect.
  destruct (f_kind f n) as [k|] eqn:E; [|reflexivity]. destruct k; try reflexivity. destruct (g_collect _ _ G _ _ _ _ E).
Qed.

(** ** What a chain means is what comes of the message *)
Scheme means_mut := Induction for means Sort Prop
  with means_all_mut := Induction for means_all Sort Prop.

Lemma does_goes s v vs t : does s v (Goes vs) ->
  exists dropped, reacts (step_kind s t) v = Some (Sends (map (fun u => (t, u)) vs) dropped).
Proof. intros D. inversion D; subst; cbn; eauto. Qed.
Lemma does_stops s v t : does s v Stops -> reacts (step_kind s t) v = Some Cancels.
Proof. intros D. inversion D; subst; reflexivity. Qed.

Lemma one_yield e v l : yields f e v l -> yield_all f [(e, v)] l.
Proof. intros H. rewrite <- (app_nil_r l). constructor; [exact H|constructor]. Qed.

Lemma at_all_forall2 R K cs : forall ts, at_all nn R K cs ts -> Forall2 (at_ nn R K) cs ts.
Proof. induction cs as [|c cs IH]; intros [|t ts]; cbn; try tauto; [constructor|]. intros [H1 H2]. constructor; auto. Qed.

Lemma forall2_pair (Q : chain -> entity -> Prop) cs ts v : Forall2 Q cs ts ->
  Forall2 (fun m e => Q (fst m) e) (map (fun c => (c, v)) cs) ts /\
  combine ts (map snd (map (fun c => (c, v : val)) cs)) = map (fun t => (t, v)) ts.
Proof.
  intros F. induction F as [|c t cs ts H F [IH1 IH2]]; cbn; [split; [constructor|reflexivity]|]. split; [constructor; auto|]. now rewrite IH2.
Qed.
Lemma forall2_same (Q : chain -> entity -> Prop) c t vs : Q c t ->
  Forall2 (fun m e => Q (fst m) e) (map (fun u : val => (c, u)) vs) (map (fun _ => t) vs) /\
  combine (map (fun _ => t) vs) (map snd (map (fun u : val => (c, u)) vs)) = map (fun u => (t, u)) vs.
Proof.
  intros H. induction vs as [|v vs [IH1 IH2]]; cbn; [split; [constructor|reflexivity]|]. split; [constructor; auto|]. now rewrite IH2.
Qed.
Lemma forall2_zip (Q : chain -> entity -> Prop) cs ts : Forall2 Q cs ts -> forall vs, length cs = length vs ->
  Forall2 (fun m e => Q (fst m) e) (combine cs vs) ts /\
  combine ts (map snd (combine cs (vs : list val))) = combine ts vs /\ length vs = length ts.
Proof.
  intros F. induction F as [|c t cs ts H F IH]; intros [|v vs] L; try discriminate L; cbn.
  - split; [constructor|auto].
  - destruct (IH vs ltac:(cbn in L; lia)) as (I1 & I2 & I3). split; [constructor; auto|]. split; [now rewrite I2|lia].
Qed.

Theorem means_yields : proper_program p -> forall c v l, means p c v l ->
  forall e, at_ nn R_all (f_kind f) c e -> yields f e v l.
Proof.
  intros P. pose proof (program_held P) as HP.
  apply (means_mut p (fun c v l _ => forall e, at_ nn R_all (f_kind f) c e -> yields f e v l)
    (fun ms l _ => forall es, Forall2 (fun m e => at_ nn R_all (f_kind f) (fst m) e) ms es ->
       yield_all f (combine es (map snd ms)) l)).
  - intros v e [_ ->]. apply (Y_out f).
  - intros i g c v l Hi _ IH e [_ ->]. destruct (hp_node HP i g c Hi) as (t & E & Ha).
    eapply Y_sends; [exact E|reflexivity|]. apply one_yield, IH, Ha.
  - intros v e [_ E]. apply Y_unused, E.
  - intros v e [_ E]. eapply Y_cancels; [exact E|reflexivity].
  - intros s c v vs l D _ IH e (_ & t & E & Ha). destruct (does_goes s v vs t D) as [dr X].
    destruct (forall2_same (at_ nn R_all (f_kind f)) c t vs Ha) as [F1 F2]. specialize (IH _ F1). rewrite F2 in IH.
    eapply Y_sends; [exact E|exact X|exact IH].
  - intros s c v D e (_ & t & E & Ha). eapply Y_cancels; [exact E|]. exact (does_stops s v t D).
  - intros a d v l _ IH e (_ & ta & td & E & Ha & Hd). eapply Y_sends; [exact E|reflexivity|]. apply one_yield, IH, Ha.
  - intros a d v l _ IH e (_ & ta & td & E & Ha & Hd). eapply Y_sends; [exact E|reflexivity|]. apply one_yield, IH, Hd.
  - intros a d v l _ IH e (_ & ta & td & E & Ha & Hd). eapply Y_sends; [exact E|reflexivity|]. apply one_yield, IH, Ha.
  - intros a d l _ IH e (_ & ta & td & E & Ha & Hd). eapply Y_sends; [exact E|reflexivity|]. apply one_yield, IH, Hd.
  - intros d a v l _ IH e (_ & ta & td & E & Ha & Hd). eapply Y_sends; [exact E|reflexivity|]. apply one_yield, IH, Ha.
  - intros d a v l _ IH e (_ & ta & td & E & Ha & Hd). eapply Y_sends; [exact E|reflexivity|]. apply one_yield, IH, Hd.
  - intros d a v l _ IH e (_ & ta & td & E & Ha & Hd). eapply Y_sends; [exact E|reflexivity|]. apply one_yield, IH, Ha.
  - intros d a l _ IH e (_ & ta & td & E & Ha & Hd). eapply Y_sends; [exact E|reflexivity|]. apply one_yield, IH, Hd.
  - intros d a v l _ IH e (_ & ta & td & E & Ha & Hd). eapply Y_sends; [exact E|reflexivity|].
    apply (IH [ta; td]). repeat constructor; assumption.
  - intros cs v l _ IH e (_ & ts & E & Ha). destruct (forall2_pair _ cs ts v (at_all_forall2 _ _ cs ts Ha)) as [F1 F2].
    specialize (IH ts F1). rewrite F2 in IH. eapply Y_sends; [exact E|reflexivity|exact IH].
  - intros cs vs l L _ IH e (_ & ts & E & Ha). destruct (forall2_zip _ cs ts (at_all_forall2 _ _ cs ts Ha) vs L) as (F1 & F2 & F3).
    specialize (IH ts F1). rewrite F2 in IH. eapply Y_sends; [exact E| |exact IH]. cbn. rewrite F3, Nat.eqb_refl. reflexivity.
  - intros es F. inversion F; subst. constructor.
  - intros c v ms l l' _ IH1 _ IH2 es F. inversion F; subst. cbn. constructor; [apply IH1; assumption|apply IH2; assumption].
Qed.

Theorem program_yields v l : proper_program p -> means p (p_main p) v l -> yields f (f_entry f) v l.
Proof. intros P M. exact (means_yields P _ _ _ M _ (hp_main (program_held P))). Qed.

End Program.
