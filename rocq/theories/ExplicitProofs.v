(** The graph with explicit hidden variables, and d-separation in it. *)
From Verif Require Import Base NxModel NxSpec ReachProofs NxProofs GraphModel GraphSpec GraphProofs.
Set Implicit Arguments.

(** No user node is called U0, U1, ... *)
Definition no_hidden_names (g : cg) : Prop := forall i, ~ In (uname i) (nodes (dag g)).

Section Explicit.
  Variable g : cg.
  Hypothesis W : wf_cg g.
  Hypothesis NH : no_hidden_names g.
  Notation G := (explicit_unob_var_dag g).
  Notation arcs := (latent_confounding_arcs g).

  Lemma parent_nodes p c : is_parent g p c -> In p (nodes (dag g)) /\ In c (nodes (dag g)).
  Proof.
    intros H. apply (wc_sync W) in H. apply ed_of in H. now apply (wf_ends (gwf_wf (wc_dag W))) in H.
  Qed.
  Lemma arc_nodes a b : In (a, b) arcs -> In a (nodes (dag g)) /\ In b (nodes (dag g)).
  Proof.
    intros H. destruct (latent_arcs_raw _ (gwf_wf (wc_dag W))) as (_ & _ & R3).
    assert (P : pair_in arcs a b) by now left. apply R3 in P as [P _].
    now apply (wf_ends (gwf_wf (wc_dag W))) in P.
  Qed.

  Lemma explicit_gwf : gwf G.
  Proof. apply add_hidden_gwf, observed_dag_of_gwf. Qed.

  Lemma explicit_edges p c k : In (p, c, k) (edges G) <->
    (k = K 0 /\ is_parent g p c) \/
    (k = Kn /\ exists i a b, nth_error arcs i = Some (a, b) /\ p = uname i /\ (c = a \/ c = b)).
  Proof.
    unfold explicit_unob_var_dag, observed_dag. rewrite add_hidden_edges, observed_dag_of_edges by apply W.
    cbn [plus]. unfold is_parent. split.
    - intros [H|(j & a & b & Hj & [H|H])]; auto; injection H as -> -> ->; right; split; auto;
        exists j, a, b; auto.
    - intros [H|(-> & i & a & b & Hi & -> & [->| ->])]; auto; right; exists i, a, b; auto.
  Qed.
  Lemma explicit_ed p c : ed G p c <->
    is_parent g p c \/
    (exists i a b, nth_error arcs i = Some (a, b) /\ p = uname i /\ (c = a \/ c = b)).
  Proof.
    split.
    - intros (k & H). apply explicit_edges in H. tauto.
    - intros [H|H]; [exists (K 0)|exists Kn]; apply explicit_edges; auto.
  Qed.
  Lemma explicit_nodes n : In n (nodes G) <->
    (exists m, is_parent g n m \/ is_parent g m n) \/
    (exists i a b, nth_error arcs i = Some (a, b) /\ (n = uname i \/ n = a \/ n = b)).
  Proof.
    unfold explicit_unob_var_dag, observed_dag. rewrite add_hidden_nodes, observed_dag_of_nodes by apply W.
    reflexivity.
  Qed.

  Lemma hidden_no_parent i p : ~ ed G p (uname i).
  Proof.
    intros H. apply explicit_ed in H as [H|(j & a & b & Hj & _ & [H|H])].
    - apply parent_nodes in H as [_ H]. eapply NH; eauto.
    - apply nth_error_In in Hj. apply arc_nodes in Hj as [Ha Hb]. subst. eapply NH; eauto.
    - apply nth_error_In in Hj. apply arc_nodes in Hj as [Ha Hb]. subst. eapply NH; eauto.
  Qed.
  Lemma hidden_children i a b : nth_error arcs i = Some (a, b) ->
    forall c, ed G (uname i) c <-> c = a \/ c = b.
  Proof.
    intros Hi c. rewrite explicit_ed. split.
    - intros [H|(j & a' & b' & Hj & Hu & Hc)].
      + apply parent_nodes in H as [H _]. exfalso. eapply NH; eauto.
      + apply uname_inj in Hu as ->. rewrite Hi in Hj. injection Hj as -> ->. auto.
    - intros H. right. exists i, a, b. auto.
  Qed.
  Lemma explicit_user_ed p c : (forall i, p <> uname i) -> (ed G p c <-> is_parent g p c).
  Proof.
    intros Hp. rewrite explicit_ed. split; auto. intros [H|(i & a & b & _ & H & _)]; auto.
    exfalso. eapply Hp; eauto.
  Qed.
  Lemma uname_dec (p : node) : In p (nodes (dag g)) -> forall i, p <> uname i.
  Proof. intros H i ->. eapply NH; eauto. Qed.

  Lemma explicit_simple : simple G.
  Proof.
    unfold simple. apply NoDup_map_inj_on; [|apply explicit_gwf].
    intros ((a, b), k) ((a', b'), k') H1 H2 He. cbn in He. injection He as -> ->.
    apply explicit_edges in H1, H2. f_equal.
    destruct H1 as [[-> H1]|(-> & i & x & y & Hi & -> & _)], H2 as [[-> H2]|(-> & j & x' & y' & Hj & Hu & _)]; auto.
    - subst. apply parent_nodes in H1 as [H1 _]. exfalso. eapply NH; eauto.
    - apply parent_nodes in H2 as [H2 _]. exfalso. eapply NH; eauto.
  Qed.

  Lemma explicit_acyclic : acyclic (is_parent g) -> acyclic (ed G).
  Proof.
    intros AC x Hx.
    assert (T : forall a b, reach (ed G) a b -> In a (nodes (dag g)) -> reach (is_parent g) a b).
    { induction 1 as [|a b c Hab Hbc IH]; intros Ha; [constructor|].
      apply (explicit_user_ed _ (uname_dec Ha)) in Hab. econstructor; eauto.
      apply IH. now apply parent_nodes in Hab. }
    assert (Hn : In x (nodes (dag g))).
    { apply reach1_last in Hx as (z & _ & Hz). apply explicit_ed in Hz as [Hz|(i & a & b & Hi & _ & Hz)].
      - now apply parent_nodes in Hz.
      - apply nth_error_In, arc_nodes in Hi. destruct Hz as [->| ->]; tauto. }
    destruct Hx as (y & Hxy & Hyx).
    apply (explicit_user_ed _ (uname_dec Hn)) in Hxy.
    apply (AC x). exists y. split; auto. apply T; auto. now apply parent_nodes in Hxy.
  Qed.

  Lemma explicit_dsep x y z : acyclic (is_parent g) ->
    incl x (nodes G) -> incl y (nodes G) -> incl z (nodes G) ->
    (forall a, In a x -> ~ In a z) -> (forall a, In a y -> ~ In a z) ->
    exists b : bool, is_d_separated g x y z = Ok b /\
      (b = true <-> dsep (ed G) (fun a => In a x) (fun a => In a y) (fun a => In a z)).
  Proof.
    intros AC Hx Hy Hz D1 D2. apply d_separated_correct; auto.
    - apply explicit_gwf.
    - apply explicit_simple.
    - now apply explicit_acyclic.
  Qed.
End Explicit.
