(** Properties C56-C58, C77-C83: Bayesian networks.  The graph specification is NxSpec ([acyclic], [conn], [reach1])
    over the edge relation [ed]; everything else a statement needs is defined beside it. *)
From Coq Require Import Lia Sorted QArith.
From Verif Require Import Base NxModel NxSpec ReachProofs NxProofs UtilsModel BayesModel.
Open Scope nat_scope.
Open Scope list_scope.
Set Implicit Arguments.

(** ** sorted() *)
Section Sort.
  Context {A : Type}.
  Variable leb : A -> A -> bool.
  Definition total_order : Prop :=
    (forall a b, leb a b = true \/ leb b a = true) /\
    (forall a b c, leb a b = true -> leb b c = true -> leb a c = true) /\
    (forall a b, leb a b = true -> leb b a = true -> a = b).
  Hypothesis T : total_order.

  Lemma ins_perm x l : Permutation (ins leb x l) (x :: l).
  Proof.
    induction l as [|y l IH]; cbn [ins]; auto. destruct (leb x y); auto.
    rewrite IH. apply perm_swap.
  Qed.
  Lemma sorted_perm l : Permutation (sorted leb l) l.
  Proof. induction l as [|x l IH]; cbn [sorted]; auto. rewrite ins_perm. now constructor. Qed.
  Lemma ins_sorted x l : StronglySorted (fun a b => leb a b = true) l -> StronglySorted (fun a b => leb a b = true) (ins leb x l).
  Proof.
    destruct T as (Tt & Tr & _).
    induction 1 as [|y l SS IH Hy]; cbn [ins]; [repeat constructor|].
    destruct (leb x y) eqn:E.
    - constructor; [now constructor|]. constructor; auto. eapply Forall_impl; [|exact Hy]. cbn. intros z Hz. eapply Tr; eauto.
    - constructor; auto. apply Forall_forall. intros z Hz. apply (Permutation_in _ (ins_perm x l)) in Hz as [<-|Hz].
      + destruct (Tt x y); congruence.
      + now apply (proj1 (Forall_forall _ _) Hy).
  Qed.
  Lemma sorted_sorted l : StronglySorted (fun a b => leb a b = true) (sorted leb l).
  Proof. induction l as [|x l IH]; cbn [sorted]; [constructor|]. now apply ins_sorted. Qed.
  Lemma sorted_In x l : In x (sorted leb l) <-> In x l.
  Proof. split; apply Permutation_in; [|symmetry]; apply sorted_perm. Qed.
  Lemma sorted_NoDup l : NoDup l -> NoDup (sorted leb l).
  Proof. intros H. eapply Permutation_NoDup; [symmetry; apply sorted_perm|auto]. Qed.
End Sort.

Lemma str_leb_order : total_order str_leb.
Proof.
  repeat split.
  - intros a. induction a as [|x a IH]; intros [|y b]; cbn [str_leb]; auto.
    destruct (Nat.ltb_spec (nat_of_ascii x) (nat_of_ascii y)); auto.
    destruct (Nat.ltb_spec (nat_of_ascii y) (nat_of_ascii x)); auto.
  - intros a. induction a as [|x a IH]; intros [|y b] [|z c]; cbn [str_leb]; auto; try discriminate.
    destruct (Nat.ltb_spec (nat_of_ascii x) (nat_of_ascii y)); destruct (Nat.ltb_spec (nat_of_ascii y) (nat_of_ascii x)); try lia;
      destruct (Nat.ltb_spec (nat_of_ascii y) (nat_of_ascii z)); destruct (Nat.ltb_spec (nat_of_ascii z) (nat_of_ascii y)); try lia;
      destruct (Nat.ltb_spec (nat_of_ascii x) (nat_of_ascii z)); destruct (Nat.ltb_spec (nat_of_ascii z) (nat_of_ascii x)); try lia; try discriminate; auto.
    apply IH.
  - intros a. induction a as [|x a IH]; intros [|y b]; cbn [str_leb]; auto; try discriminate.
    destruct (Nat.ltb_spec (nat_of_ascii x) (nat_of_ascii y)); destruct (Nat.ltb_spec (nat_of_ascii y) (nat_of_ascii x)); try lia; try discriminate.
    intros H1 H2. f_equal; [|auto].
    assert (E : nat_of_ascii x = nat_of_ascii y) by lia. apply (f_equal ascii_of_nat) in E. now rewrite !ascii_nat_embedding in E.
Qed.

Lemma mapE_ok {X Y} (f : X -> res Y) (h : X -> Y) l : (forall x, In x l -> f x = Ok (h x)) -> mapE f l = Ok (map h l).
Proof.
  induction l as [|x l IH]; intros H; cbn [mapE map]; auto. rewrite (H x) by now left. cbn [bind].
  rewrite IH by (intros; apply H; now right). reflexivity.
Qed.
Lemma mapE_inv {X Y} (f : X -> res Y) l ys : mapE f l = Ok ys -> Forall2 (fun x y => f x = Ok y) l ys.
Proof.
  revert ys. induction l as [|x l IH]; intros ys H; cbn [mapE] in H; [injection H as <-; constructor|].
  destruct (f x) as [y|] eqn:E; cbn [bind] in H; [|discriminate]. destruct (mapE f l) as [r|]; cbn [bind] in H; [|discriminate].
  injection H as <-. constructor; auto.
Qed.
Lemma mapE_err {X Y} (f : X -> res Y) l e0 x : In x l -> f x = Err e0 -> (forall y e, In y l -> f y = Err e -> e = e0) -> mapE f l = Err e0.
Proof.
  induction l as [|y l IH]; [easy|]. intros Hx E U. cbn [mapE].
  destruct (f y) as [z|e] eqn:Ey; cbn [bind].
  - destruct Hx as [->|Hx]; [congruence|]. rewrite IH; auto. intros y' e' Hy'. apply U. cbn [In]. tauto.
  - f_equal. apply (U y); auto. cbn [In]. tauto.
Qed.

(** ** C57: construction *)
Section C57.
  Definition connected (g : graph) : Prop := forall u v, In u (nodes g) -> In v (nodes g) -> conn (ed g) u v.

  Lemma conn_reach (g : graph) u v : reach (fun a b => In b (neighbours g a)) u v <-> conn (ed g) u v.
  Proof.
    assert (N : forall a b, In b (neighbours g a) <-> ed g a b \/ ed g b a).
    { intros. unfold neighbours. now rewrite in_app_iff, successors_spec, predecessors_spec. }
    split; induction 1; try constructor; econstructor; eauto; now apply N.
  Qed.
  Lemma wcc_closure (g : graph) v x : wf g -> In v (nodes g) -> (In x (closure g (neighbours g) [v]) <-> conn (ed g) v x).
  Proof.
    intros W Hv. rewrite closure_spec.
    - split; [intros (u & [<-|[]] & H)|intros H; exists v; split; [now left|]]; now apply conn_reach.
    - intros a [<-|[]]; auto.
    - intros a b Ha H. unfold neighbours in H. rewrite in_app_iff, successors_spec, predecessors_spec in H.
      destruct H as [H|H]; apply (wf_ends W) in H; tauto.
  Qed.
  Lemma conn_trans (R : str -> str -> Prop) x y z : conn R x y -> conn R y z -> conn R x z.
  Proof. induction 1; auto. intros. econstructor; eauto. Qed.
  Lemma conn_sym (R : str -> str -> Prop) x y : conn R x y -> conn R y x.
  Proof.
    induction 1; [constructor|]. eapply conn_trans; [exact IHconn|]. econstructor; [|constructor]. tauto.
  Qed.
  Lemma wcc_0 (g : graph) vs seen : wcc_count g vs seen = 0 <-> incl vs seen.
  Proof.
    revert seen. induction vs as [|v vs IH]; intros seen; cbn [wcc_count]; [split; [intros _ x []|auto]|].
    destruct (mem_spec v seen) as [H|H].
    - rewrite IH. split; intros I x; [intros [<-|Hx]; auto|intros Hx; apply I; now right].
    - split; [discriminate|]. intros I. elim H. apply I. now left.
  Qed.
  Lemma wcc_le1 (g : graph) : wf g -> (n_wcc g <= 1 <-> connected g).
  Proof.
    intros W. unfold n_wcc, connected. destruct (nodes g) as [|v vs] eqn:E; cbn [wcc_count mem].
    - split; [intros _ u w []|lia].
    - change (mem v []) with false. cbn iota.
      transitivity (wcc_count g vs ([] ++ closure g (neighbours g) [v]) = 0); [lia|]. rewrite wcc_0. cbn [app].
      assert (Hv : In v (nodes g)) by (rewrite E; now left).
      split.
      + intros I u w Hu Hw.
        assert (C : forall x, In x (v :: vs) -> conn (ed g) v x).
        { intros x [<-|Hx]; [constructor|]. apply wcc_closure; auto. }
        eapply conn_trans; [apply conn_sym, C, Hu|apply C, Hw].
      + intros C x Hx. apply wcc_closure; auto. apply C; [now left|now right].
  Qed.
  Lemma wcc_eq1 (g : graph) : wf g -> (n_wcc g = 1 <-> connected g /\ nodes g <> []).
  Proof.
    intros W. rewrite <- (wcc_le1 W). unfold n_wcc. destruct (nodes g) as [|v vs]; cbn [wcc_count mem]; [split; [discriminate|tauto]|].
    change (mem v []) with false. cbn iota. split; [intros H; split; [lia|discriminate]|lia].
  Qed.

  Definition good (g : graph) : Prop := acyclic (ed g) /\ connected g.
  Lemma check_dag_spec g directed : wf g -> (check_dag directed g = Ok tt <-> directed = true /\ good g).
  Proof.
    intros W. unfold check_dag, good. destruct directed; cbn [andb negb]; [|split; [discriminate|intros [? _]; discriminate]].
    rewrite <- (is_dag_spec W), <- (wcc_le1 W). destruct (is_dag g); cbn [negb]; [|split; [discriminate|intros (_ & ? & _); discriminate]].
    destruct (Nat.ltb_spec 1 (n_wcc g)); split; auto; try discriminate; lia.
  Qed.
  Lemma check_dag_fail g directed : wf g -> ~ (directed = true /\ good g) -> check_dag directed g = Err ValueError.
  Proof.
    intros W H. rewrite <- (check_dag_spec directed W) in H. unfold check_dag in *.
    destruct (negb (directed && is_dag g)); auto. destruct (Nat.ltb 1 (n_wcc g)); auto. now elim H.
  Qed.
  Lemma of_edges_acc (es : list (str * str * key)) : forall g0 : graph,
    let g := fold_left (fun g e => add_edge_key g (fst (fst e)) (snd (fst e)) (K 0)) es g0 in
    (forall u v, ed g u v <-> ed g0 u v \/ exists k, In (u, v, k) es) /\
    (forall x, In x (nodes g) <-> In x (nodes g0) \/ exists y k, In (x, y, k) es \/ In (y, x, k) es).
  Proof.
    induction es as [|((a, b), k) es IH]; intros g0; cbn [fold_left].
    - split; [intros u v|intros x]; split; auto; [intros [H|(k & [])]; auto|intros [H|(y & k & [[]|[]])]; auto].
    - destruct (IH (add_edge_key g0 a b (K 0))) as [E N]. cbn [fst snd]. split.
      + intros u v. rewrite E. unfold ed. cbn [add_edge_key edges]. split.
        * intros [(c & Hc)|(c & Hc)]; [|right; exists c; now right]. apply set_add_In in Hc as [Hc|Hc]; [|left; eauto].
          right. exists k. left. congruence.
        * intros [(c & Hc)|(c & [Hc|Hc])].
          -- left. exists c. apply set_add_In. now right.
          -- left. exists (K 0). apply set_add_In. left. congruence.
          -- right. eauto.
      + intros x. rewrite N. cbn [add_edge_key nodes]. rewrite !set_add_In. split.
        * intros [[->|[->|H]]|(y & c & H)]; auto.
          -- right. exists a, k. right. now left.
          -- right. exists b, k. left. now left.
          -- right. exists y, c. destruct H; [left|right]; now right.
        * intros [H|(y & c & [[H|H]|[H|H]])]; auto; try (right; exists y, c; tauto); left; [right; left|left]; congruence.
  Qed.

  (** DAG(g) of a dictionary, an edge list, an adjacency frame *)
  Theorem C57_accepts g : wf g -> (dag_init (GOther g) = Ok g <-> good g) /\ (~ good g -> dag_init (GOther g) = Err ValueError).
  Proof.
    intros W. cbn [dag_init]. split; [split|].
    - destruct (check_dag true g) as [[]|] eqn:E; [|discriminate]. intros _. now apply (check_dag_spec true W) in E.
    - intros G. now rewrite (proj2 (check_dag_spec true W) (conj eq_refl G)).
    - intros G. rewrite check_dag_fail; auto. tauto.
  Qed.
  (** DAG(g) of a networkx graph: accepted under the same condition when directed, never when undirected; the result has the
      same edges and the nodes of [g] that have an edge *)
  Theorem C57_networkx g directed : wf g ->
    ((exists d, dag_init (GNx directed g) = Ok d) <-> directed = true /\ good g) /\
    (~ (directed = true /\ good g) -> dag_init (GNx directed g) = Err ValueError) /\
    forall d, dag_init (GNx directed g) = Ok d ->
      (forall u v, ed d u v <-> ed g u v) /\
      (forall x, In x (nodes d) <-> exists y, ed g x y \/ ed g y x).
  Proof.
    intros W. cbn [dag_init]. split; [split|split].
    - intros (d & H). destruct (check_dag directed g) as [[]|] eqn:E; [|discriminate]. now apply (check_dag_spec directed W) in E.
    - intros G. rewrite (proj2 (check_dag_spec directed W) G). cbn [bind]. eauto.
    - intros G. now rewrite check_dag_fail.
    - intros d H. split; [intros u v; split|intros x; split].
      + destruct (check_dag directed g); cbn [bind] in H; [|discriminate]. assert (d = of_edges (edges g)) by congruence. subst.
        intros Q. apply (proj1 (of_edges_acc (edges g) empty_mdg)) in Q as [(k & [])|Q]. auto.
      + destruct (check_dag directed g); cbn [bind] in H; [|discriminate]. assert (d = of_edges (edges g)) by congruence. subst.
        intros Q. apply (proj1 (of_edges_acc (edges g) empty_mdg)). now right.
      + destruct (check_dag directed g); cbn [bind] in H; [|discriminate]. assert (d = of_edges (edges g)) by congruence. subst.
        intros Q. apply (proj2 (of_edges_acc (edges g) empty_mdg)) in Q as [[]|(y & k & [Q|Q])]; exists y; [left|right]; now exists k.
      + destruct (check_dag directed g); cbn [bind] in H; [|discriminate]. assert (d = of_edges (edges g)) by congruence. subst.
        intros (y & [(k & Q)|(k & Q)]); apply (proj2 (of_edges_acc (edges g) empty_mdg)); right; exists y, k; tauto.
  Qed.
  (** a connected graph with two or more nodes loses no node; the graph with one node and no edge loses it *)
  Theorem C57_networkx_nodes g d : wf g -> dag_init (GNx true g) = Ok d ->
    (forall x, In x (nodes d) <-> In x (nodes g)) \/ (exists x, nodes g = [x] /\ nodes d = []).
  Proof.
    intros W H. destruct (C57_networkx true W) as (A & _ & B). destruct (B d H) as [_ N].
    destruct A as [A _]. destruct A as (_ & _ & C); [eauto|].
    destruct (nodes g) as [|a [|b r]] eqn:E.
    - left. intros x. rewrite N. split; [|intros []]. intros (y & [Q|Q]); apply (wf_ends W) in Q; rewrite E in Q; cbn in Q; tauto.
    - destruct (nodes d) as [|z zs] eqn:D; [right; eauto|]. left.
      intros x. rewrite N.
      destruct (proj1 (N z) (or_introl eq_refl)) as (y & Hy).
      assert (Y : z = a /\ y = a) by (destruct Hy as [Q|Q]; apply (wf_ends W) in Q; rewrite E in Q; cbn in Q; intuition).
      destruct Y as [-> ->]. split.
      + intros (y & [Q|Q]); apply (wf_ends W) in Q; rewrite E in Q; cbn in *; intuition.
      + intros [<-|[]]. exists a. tauto.
    - left. intros x. rewrite N. split.
      + intros (y & [Q|Q]); apply (wf_ends W) in Q; rewrite E in Q; tauto.
      + intros Hx. assert (ND := wf_nodes W). rewrite E in ND.
        assert (X : exists y, In y (nodes g) /\ y <> x).
        { rewrite E. inversion ND as [|? ? Na _]; subst. destruct (eq_dec a x) as [<-|]; [exists b|exists a; split; [now left|auto]].
          split; [right; now left|]. intros ->. apply Na. now left. }
        destruct X as (y & Hy & Ny). rewrite <- E in Hx. specialize (C x y Hx Hy). inversion C; subst; [congruence|]. eauto.
  Qed.
  (** DAG(causal_graph) never works on a graph with edges *)
  Theorem C57_refuted_causal g : wf g -> edges g <> [] ->
    dag_init (GCausal g) = if check_dag true g then Err NetworkXError else Err ValueError.
  Proof.
    intros W H. cbn [dag_init]. destruct (check_dag true g) as [[]|e] eqn:E; cbn [bind].
    - unfold of_multi_edges. destruct (edges g); congruence.
    - unfold check_dag in E. destruct (negb _); [congruence|]. destruct (Nat.ltb _ _); congruence.
  Qed.
End C57.

(** ** C56: blankets *)
Section C56.
  Variable tsort : graph -> list str.
  (** nx.topological_sort returns a topological order of an acyclic graph *)
  Definition topo_correct : Prop := forall g, wf g -> acyclic (ed g) ->
    NoDup (tsort g) /\ (forall v, In v (tsort g) <-> In v (nodes g)) /\ topo_ordered (ed g) (tsort g).
  Hypothesis TS : topo_correct.

  (** [b] lists the nodes satisfying [P], each once, alphabetically or so that no node comes before one of its ancestors *)
  Definition lists (g : graph) (topo : bool) (P : str -> Prop) (b : list str) : Prop :=
    NoDup b /\ (forall x, In x b <-> P x) /\
    StronglySorted (fun x y => if topo then ~ reach1 (ed g) y x else str_leb x y = true) b.
  (** when sorting in topological order is possible *)
  Definition sortable (g : graph) (topo : bool) : Prop := topo = true -> good g /\ nodes g <> [].

  Lemma is_dag1_spec g : wf g -> (is_dag1 g = true <-> good g /\ nodes g <> []).
  Proof.
    intros W. unfold is_dag1, good. rewrite andb_true_iff, Nat.eqb_eq, (is_dag_spec W), (wcc_eq1 W). tauto.
  Qed.
  Lemma StronglySorted_split {A} (R : A -> A -> Prop) (l : list A) :
    (forall b1 x b2 y, l = b1 ++ x :: b2 -> In y b2 -> R x y) -> StronglySorted R l.
  Proof.
    induction l as [|x l IH]; intros H; constructor.
    - apply IH. intros b1 z b2 y -> Hy. apply (H (x :: b1) z b2); auto.
    - apply Forall_forall. intros y Hy. now apply (H [] x l).
  Qed.
  Lemma SS_filter {A} (R : A -> A -> Prop) f (l : list A) : StronglySorted R l -> StronglySorted R (filter f l).
  Proof.
    induction 1 as [|x l SS IH Hx]; cbn [filter]; [constructor|]. destruct (f x); auto. constructor; auto.
    apply Forall_forall. intros y Hy. apply filter_In in Hy as [Hy _]. now apply (proj1 (Forall_forall _ _) Hx).
  Qed.
  Lemma topo_SS (g : graph) l : topo_ordered (ed g) l -> NoDup l -> StronglySorted (fun x y => ~ reach1 (ed g) y x) l.
  Proof.
    intros T N. apply StronglySorted_split. intros b1 x b2 y E Hy R.
    assert (X : In y b1) by (eapply topo_reach1_in; eauto).
    subst l. apply NoDup_app_inv in N as (_ & _ & D). apply (D y X). now right.
  Qed.
  Lemma sort_nodes_spec g topo l : wf g -> NoDup l -> incl l (nodes g) ->
    (sortable g topo -> exists b, sort_nodes tsort g topo l = Ok b /\ lists g topo (fun x => In x l) b) /\
    (~ sortable g topo -> sort_nodes tsort g topo l = Err ValueError).
  Proof.
    intros W N I. unfold sort_nodes, sortable, topo_sorted_nodes. destruct topo.
    - split.
      + intros S. specialize (S eq_refl). rewrite (proj2 (is_dag1_spec W) S). cbn [bind]. eexists. split; [reflexivity|].
        destruct S as [[AC _] _]. destruct (TS W AC) as (T1 & T2 & T3). split; [now apply NoDup_filter|]. split.
        * intros x. rewrite filter_In, mem_In, T2. split; [tauto|]. intros H. split; auto.
        * apply SS_filter. now apply topo_SS.
      + intros S. destruct (is_dag1 g) eqn:E; auto. apply (is_dag1_spec W) in E. elim S. auto.
    - split; [|intros H; elim H; discriminate]. intros _. eexists. split; [reflexivity|]. split; [now apply sorted_NoDup|].
      split; [intros; apply sorted_In|]. apply sorted_sorted. apply str_leb_order.
  Qed.

  Lemma get_parents_ok g n : In n (nodes g) -> get_parents g n = Ok (sorted str_leb (predecessors g n)).
  Proof. intros H. unfold get_parents. now rewrite (proj2 (mem_In _ _) H). Qed.
  Lemma get_parents_err g n : ~ In n (nodes g) -> get_parents g n = Err NetworkXError.
  Proof. intros H. unfold get_parents. now rewrite (proj2 (mem_nIn _ _) H). Qed.
  Lemma get_children_ok g n : In n (nodes g) -> get_children g n = Ok (sorted str_leb (successors g n)).
  Proof. intros H. unfold get_children. now rewrite (proj2 (mem_In _ _) H). Qed.
  Lemma get_children_err g n : ~ In n (nodes g) -> get_children g n = Err NetworkXError.
  Proof. intros H. unfold get_children. now rewrite (proj2 (mem_nIn _ _) H). Qed.
  Lemma incl_dec (l m : list str) : {incl l m} + {exists x, In x l /\ ~ In x m}.
  Proof.
    destruct (subset l m) eqn:E; [left; now apply subset_spec|right].
    induction l as [|a l IH]; [discriminate|]. cbn [subset forallb] in E. apply andb_false_iff in E as [E|E].
    - exists a. split; [now left|]. now apply mem_nIn.
    - destruct (IH E) as (x & H1 & H2). exists x. split; auto. now right.
  Qed.

  (** the relatives a blanket collects *)
  Definition relative (g : graph) (k : kind) (n x : str) : Prop :=
    match k with
    | Upstream => ed g x n
    | Downstream => ed g n x
    | Markov => ed g x n \/ ed g n x \/ exists c, ed g n c /\ ed g x c
    end.
  Definition blanket_fun (k : kind) :=
    match k with Markov => markov | Downstream => downstream | Upstream => upstream end tsort.
  (** the elements of the plain blankets: [markov] removes the arguments when asked to, the other two only do not add them *)
  Definition in_blanket (g : graph) (k : kind) (self : bool) (l : list str) (x : str) : Prop :=
    (self = true /\ In x l) \/
    ((exists n, In n l /\ relative g k n x) /\ (k = Markov -> self = false -> ~ In x l)).

  Lemma concat_map_In {X Y} (f : X -> list Y) l y : In y (List.concat (map f l)) <-> exists x, In x l /\ In y (f x).
  Proof.
    rewrite <- flat_map_concat_map, in_flat_map. tauto.
  Qed.

  Theorem C56_plain g k self topo l : wf g -> incl l (nodes g) ->
    (sortable g topo -> exists b, blanket_fun k g (NList l) self topo = Ok b /\ lists g topo (in_blanket g k self l) b) /\
    (~ sortable g topo -> blanket_fun k g (NList l) self topo = Err ValueError).
  Proof.
    intros W I.
    assert (L : forall topo P Q b, (forall x, P x <-> Q x) -> lists g topo P b -> lists g topo Q b).
    { intros t P Q b H (H1 & H2 & H3). split; auto. split; auto. intros x. now rewrite H2. }
    destruct k; unfold blanket_fun.
    - unfold markov, node_list. cbn [to_list bind].
      rewrite (@mapE_ok _ _ _ (fun n => (sorted str_leb (predecessors g n), sorted str_leb (successors g n)))).
      2:{ intros x Hx. rewrite get_parents_ok, get_children_ok by auto. reflexivity. }
      cbn [bind]. rewrite !map_map. cbn [fst snd].
      set (P := List.concat (map (fun x => sorted str_leb (predecessors g x)) l)).
      set (C := List.concat (map (fun x => sorted str_leb (successors g x)) l)).
      assert (HP : forall x, In x P <-> exists n, In n l /\ ed g x n).
      { intros x. unfold P. rewrite concat_map_In. split; intros (n & H1 & H2); exists n; split; auto.
        - rewrite sorted_In in H2. now apply predecessors_spec in H2.
        - rewrite sorted_In. now apply predecessors_spec. }
      assert (HC : forall x, In x C <-> exists n, In n l /\ ed g n x).
      { intros x. unfold C. rewrite concat_map_In. split; intros (n & H1 & H2); exists n; split; auto.
        - rewrite sorted_In in H2. now apply successors_spec in H2.
        - rewrite sorted_In. now apply successors_spec. }
      assert (IC : incl (dedup C) (nodes g)).
      { intros x Hx. apply (proj1 (dedup_In _ _)) in Hx. apply HC in Hx as (n & _ & Hx). now apply (wf_ends W) in Hx. }
      rewrite (@mapE_ok _ _ _ (fun n => sorted str_leb (predecessors g n))) by (intros x Hx; now rewrite get_parents_ok by auto).
      cbn [bind]. set (CP := List.concat (map (fun n => sorted str_leb (predecessors g n)) (dedup C))).
      assert (HCP : forall x, In x CP <-> exists n c, In n l /\ ed g n c /\ ed g x c).
      { intros x. unfold CP. rewrite concat_map_In. split.
        - intros (c & H1 & H2). apply (proj1 (dedup_In _ _)) in H1. apply HC in H1 as (n & Hn & H1). rewrite sorted_In in H2.
          apply predecessors_spec in H2. eauto.
        - intros (n & c & Hn & H1 & H2). exists c. split; [apply (proj2 (dedup_In _ _)); apply HC; eauto|].
          rewrite sorted_In. now apply predecessors_spec. }
      set (B := dedup (P ++ C ++ CP)).
      assert (HB : forall x, In x B <-> exists n, In n l /\ relative g Markov n x).
      { intros x. unfold B. rewrite dedup_In, !in_app_iff, HP, HC, HCP. cbn [relative]. split.
        - intros [(n & H)|[(n & H)|(n & c & H)]]; exists n; split; try tauto. destruct H as (_ & ? & ?). right. right. eauto.
        - intros (n & Hn & [H|[H|(c & H1 & H2)]]); [left; eauto|right; left; eauto|right; right; exists n, c; auto]. }
      assert (IB : incl B (nodes g)).
      { intros x Hx. apply HB in Hx as (n & _ & [H|[H|(c & _ & H)]]); now apply (wf_ends W) in H. }
      set (R := if self then dedup (B ++ l) else diff B l).
      assert (HR : forall x, In x R <-> in_blanket g Markov self l x).
      { intros x. unfold R, in_blanket. destruct self.
        - rewrite dedup_In, in_app_iff, HB. split; [intros [H|H]|intros [H|[H _]]]; auto; try tauto. right. split; auto. discriminate.
        - rewrite diff_In, HB. split; [intros [H1 H2]; right; auto|]. intros [[H _]|[H1 H2]]; [discriminate|]. auto. }
      assert (NR : NoDup R) by (unfold R; destruct self; [apply dedup_NoDup|apply diff_NoDup, dedup_NoDup]).
      assert (IR : incl R (nodes g)).
      { intros x Hx. unfold R in Hx. destruct self; [apply (proj1 (dedup_In _ _)) in Hx; apply in_app_iff in Hx as [Hx|Hx]; auto|].
        apply diff_In in Hx as [Hx _]. auto. }
      destruct (@sort_nodes_spec g topo R W NR IR) as [S1 S2]. split; auto. intros S. destruct (S1 S) as (b & Eb & Lb).
      exists b. split; auto. eapply L; [|exact Lb]. auto.
    - unfold downstream, node_list. cbn [to_list bind].
      rewrite (@mapE_ok _ _ _ (fun n => sorted str_leb (successors g n))) by (intros x Hx; now rewrite get_children_ok by auto).
      cbn [bind]. set (C := List.concat (map (fun x => sorted str_leb (successors g x)) l)).
      assert (HC : forall x, In x C <-> exists n, In n l /\ ed g n x).
      { intros x. unfold C. rewrite concat_map_In. split; intros (n & H1 & H2); exists n; split; auto.
        - rewrite sorted_In in H2. now apply successors_spec in H2.
        - rewrite sorted_In. now apply successors_spec. }
      set (R := dedup (C ++ if self then l else [])).
      assert (HR : forall x, In x R <-> in_blanket g Downstream self l x).
      { intros x. unfold R, in_blanket. rewrite dedup_In, in_app_iff, HC. cbn [relative]. destruct self; split.
        - intros [H|H]; auto. right. split; auto. discriminate.
        - intros [[_ H]|[H _]]; auto.
        - intros [H|[]]. right. split; auto. discriminate.
        - intros [[H _]|[H _]]; [discriminate|auto]. }
      assert (NR : NoDup R) by apply dedup_NoDup.
      assert (IR : incl R (nodes g)).
      { intros x Hx. unfold R in Hx. apply (proj1 (dedup_In _ _)) in Hx. apply in_app_iff in Hx as [Hx|Hx].
        - apply HC in Hx as (n & _ & Hx). now apply (wf_ends W) in Hx.
        - destruct self; [auto|destruct Hx]. }
      destruct (@sort_nodes_spec g topo R W NR IR) as [S1 S2]. split; auto. intros S. destruct (S1 S) as (b & Eb & Lb).
      exists b. split; auto. eapply L; [|exact Lb]. auto.
    - unfold upstream, node_list. cbn [to_list bind].
      rewrite (@mapE_ok _ _ _ (fun n => sorted str_leb (predecessors g n))) by (intros x Hx; now rewrite get_parents_ok by auto).
      cbn [bind]. set (C := List.concat (map (fun x => sorted str_leb (predecessors g x)) l)).
      assert (HC : forall x, In x C <-> exists n, In n l /\ ed g x n).
      { intros x. unfold C. rewrite concat_map_In. split; intros (n & H1 & H2); exists n; split; auto.
        - rewrite sorted_In in H2. now apply predecessors_spec in H2.
        - rewrite sorted_In. now apply predecessors_spec. }
      set (R := dedup (C ++ if self then l else [])).
      assert (HR : forall x, In x R <-> in_blanket g Upstream self l x).
      { intros x. unfold R, in_blanket. rewrite dedup_In, in_app_iff, HC. cbn [relative]. destruct self; split.
        - intros [H|H]; auto. right. split; auto. discriminate.
        - intros [[_ H]|[H _]]; auto.
        - intros [H|[]]. right. split; auto. discriminate.
        - intros [[H _]|[H _]]; [discriminate|auto]. }
      assert (NR : NoDup R) by apply dedup_NoDup.
      assert (IR : incl R (nodes g)).
      { intros x Hx. unfold R in Hx. apply (proj1 (dedup_In _ _)) in Hx. apply in_app_iff in Hx as [Hx|Hx].
        - apply HC in Hx as (n & _ & Hx). now apply (wf_ends W) in Hx.
        - destruct self; [auto|destruct Hx]. }
      destruct (@sort_nodes_spec g topo R W NR IR) as [S1 S2]. split; auto. intros S. destruct (S1 S) as (b & Eb & Lb).
      exists b. split; auto. eapply L; [|exact Lb]. auto.
  Qed.

  (** other arguments: a comma-separated string and a tuple are the list they denote; unknown nodes are reported *)
  Theorem C56_arguments g k self topo l s :
    blanket_fun k g (NTuple l) self topo = blanket_fun k g (NList l) self topo /\
    blanket_fun k g (NStr s) self topo = blanket_fun k g (NList (split_names s)) self topo /\
    (~ incl l (nodes g) -> blanket_fun k g (NList l) self topo = Err NetworkXError).
  Proof.
    split; [destruct k; reflexivity|]. split; [destruct k; reflexivity|]. intros H.
    destruct (incl_dec l (nodes g)) as [|(x & Hx & Nx)]; [tauto|].
    destruct k; unfold blanket_fun; [unfold markov|unfold downstream|unfold upstream]; unfold node_list; cbn [to_list bind].
    - rewrite (@mapE_err _ _ _ l NetworkXError x Hx); [reflexivity|now rewrite get_parents_err|].
      intros y e _. unfold get_parents, get_children. destruct (mem y (nodes g)); cbn [bind]; congruence.
    - rewrite (@mapE_err _ _ _ l NetworkXError x Hx); [reflexivity|now rewrite get_children_err|].
      intros y e _. unfold get_children. destruct (mem y (nodes g)); congruence.
    - rewrite (@mapE_err _ _ _ l NetworkXError x Hx); [reflexivity|now rewrite get_parents_err|].
      intros y e _. unfold get_parents. destruct (mem y (nodes g)); congruence.
  Qed.

  Lemma remove_all_spec (R : str -> str -> Prop) ms : forall b, NoDup b -> StronglySorted R b ->
    let r := fold_left (fun b n => if mem n b then remove1 n b else b) ms b in
    NoDup r /\ StronglySorted R r /\ forall x, In x r <-> In x b /\ ~ In x ms.
  Proof.
    induction ms as [|m ms IH]; intros b N SS; cbn [fold_left]; [split; [auto|]; split; [auto|]; intros x; cbn; tauto|].
    assert (X : (if mem m b then remove1 m b else b) = remove1 m b).
    { destruct (mem_spec m b); auto. now rewrite remove1_nIn. }
    rewrite X. destruct (IH (remove1 m b)) as (H1 & H2 & H3).
    - now apply remove1_NoDup.
    - clear - SS. induction SS as [|x b SS IH Hx]; cbn [remove1]; [constructor|]. destruct (eqb m x); auto. constructor; auto.
      apply Forall_forall. intros y Hy. apply (proj1 (Forall_forall _ _) Hx). now apply (remove1_incl m).
    - split; auto. split; auto. intros x. rewrite H3, remove1_NoDup_In by auto. cbn [In]. split; [|intros [A B]; split; [split; auto|tauto]].
      intros [[A B] C]. split; auto. intros [D|D]; auto.
  Qed.

  (** get_blanket with a list or tuple: every kind, with the arguments exactly when return_self *)
  Theorem C56_get_blanket g k self topo l (tuple : bool) : wf g -> incl l (nodes g) -> sortable g topo ->
    exists b, get_blanket tsort g (if tuple then NTuple l else NList l) k self topo = Ok b /\
      lists g topo (fun x => (self = true /\ In x l) \/ (~ In x l /\ exists n, In n l /\ relative g k n x)) b.
  Proof.
    intros W I S. destruct (proj1 (C56_plain k true topo W I) S) as (b & Eb & N & P & SS).
    assert (E : get_blanket tsort g (if tuple then NTuple l else NList l) k self topo =
                Ok (if self then b else fold_left (fun b n => if mem n b then remove1 n b else b) l b)).
    { unfold get_blanket. unfold blanket_fun in Eb. destruct tuple, k; cbn [raw_items];
        try (change (markov tsort g (NTuple l) true topo) with (markov tsort g (NList l) true topo));
        try (change (upstream tsort g (NTuple l) true topo) with (upstream tsort g (NList l) true topo));
        try (change (downstream tsort g (NTuple l) true topo) with (downstream tsort g (NList l) true topo));
        rewrite Eb; reflexivity. }
    assert (P' : forall x, In x b <-> In x l \/ exists n, In n l /\ relative g k n x).
    { intros x. rewrite P. unfold in_blanket. split; [intros [[_ H]|[H _]]; auto|]. intros [H|H]; auto. right. split; auto. discriminate. }
    eexists. split; [exact E|]. destruct self.
    - split; auto. split; auto. intros x. rewrite P'. destruct (In_dec x l); tauto.
    - destruct (@remove_all_spec _ l b N SS) as (H1 & H2 & H3). split; auto. split; auto. intros x. rewrite H3, P'.
      split; [intros [[H|H] H']; tauto|]. intros [[H _]|[H1' H2']]; [discriminate|]. tauto.
  Qed.
  (** ... but with a string the characters are removed, not the named nodes *)
  Theorem C56_refuted_string g k topo s b n : wf g -> split_names s = [n] -> List.length n <> 1 ->
    get_blanket tsort g (NStr s) k false topo = Ok b -> In n b.
  Proof.
    intros W Hs Hn. unfold get_blanket. cbn [raw_items].
    destruct (C56_arguments g k true topo [] s) as (_ & Es & _). rewrite Hs in Es. unfold blanket_fun in Es.
    assert (I : incl [n] (nodes g) \/ ~ incl [n] (nodes g)).
    { destruct (incl_dec [n] (nodes g)) as [|(x & [<-|[]] & H)]; [now left|right; intros Q; apply H, Q; now left]. }
    intros H. destruct I as [I|I].
    - destruct (C56_plain k true topo W I) as [A B]. unfold blanket_fun in A, B.
      assert (D : sortable g topo).
      { unfold sortable. intros Et. destruct (is_dag1 g) eqn:E1; [now apply is_dag1_spec|].
        assert (B' : ~ sortable g topo).
        { intros Q. specialize (Q Et). apply (is_dag1_spec W) in Q. congruence. }
        specialize (B B'). destruct k; rewrite Es, B in H; discriminate. }
      destruct (A D) as (b0 & E0 & N & P & SS).
      assert (X : Ok b = Ok (fold_left (fun b n => if mem n b then remove1 n b else b) (map (fun c => [c]) s) b0)).
      { rewrite <- H. destruct k; rewrite Es, E0; reflexivity. }
      assert (X' : b = fold_left (fun b n => if mem n b then remove1 n b else b) (map (fun c => [c]) s) b0) by congruence.
      rewrite X'. apply (@remove_all_spec _ _ b0 N SS). split.
      + apply P. left. split; auto. now left.
      + intros Q. apply in_map_iff in Q as (c & <- & _). now apply Hn.
    - destruct (C56_arguments g k true topo [n] s) as (_ & _ & C). specialize (C I). unfold blanket_fun in C.
      destruct k; rewrite Es, C in H; discriminate.
  Qed.
End C56.

Lemma nth_error_firstn_lt {A} (l : list A) r j : j < r -> nth_error (firstn r l) j = nth_error l j.
Proof. revert r j. induction l as [|a l IH]; intros [|r] [|j] H; cbn; auto; try lia. apply IH. lia. Qed.
Lemma nth_error_skipn_add {A} (l : list A) r j : nth_error (skipn r l) j = nth_error l (r + j).
Proof. revert r. induction l as [|a l IH]; intros [|r]; cbn; auto. now destruct j. Qed.

(** ** C58: category states *)
Section C58.
  Context {C : Type} (leb : C -> C -> bool).
  Hypothesis T : total_order leb.

  (** positions below [i] hold values smaller than [v], those from [i] on values at least [v] *)
  Definition insertion_point (a : list C) (v : C) (i : nat) : Prop :=
    i <= List.length a /\ (forall j x, nth_error a j = Some x -> (leb v x = true <-> i <= j)).

  Lemma SS_nth (a : list C) i j x y : StronglySorted (fun p q => leb p q = true) a -> i <= j ->
    nth_error a i = Some x -> nth_error a j = Some y -> leb x y = true.
  Proof.
    intros SS. revert i j. induction SS as [|z a SS IH Hz]; intros i j L Hx Hy; [destruct i; discriminate|].
    destruct i, j; cbn in *; try lia.
    - injection Hx as <-. injection Hy as <-. destruct T as (Tt & _ & _). destruct (Tt z z); auto.
    - injection Hx as <-. apply (proj1 (Forall_forall _ _) Hz). eapply nth_error_In; eauto.
    - eapply IH; [|eauto|eauto]. lia.
  Qed.
  Lemma bisect_spec a v : StronglySorted (fun p q => leb p q = true) a -> forall fuel lo hi,
    lo <= hi -> hi <= List.length a -> hi - lo < fuel ->
    (forall j x, nth_error a j = Some x -> j < lo -> leb v x = false) ->
    (forall j x, nth_error a j = Some x -> hi <= j -> leb v x = true) ->
    insertion_point a v (bisect leb fuel a v lo hi).
  Proof.
    intros SS. destruct T as (Tt & Tr & _).
    induction fuel as [|f IH]; intros lo hi L1 L2 Lf Hlo Hhi; [lia|]. cbn [bisect].
    destruct (Nat.leb_spec hi lo) as [H|H].
    - assert (lo = hi) by lia. subst. split; auto. intros j x E. destruct (Nat.le_gt_cases hi j) as [Q|Q].
      + split; auto. intros _. eapply Hhi; eauto.
      + rewrite (Hlo j x E Q). split; [discriminate|lia].
    - pose proof (Nat.div2_decr (hi - lo) (hi - lo - 1) ltac:(lia)) as D.
      set (mid := lo + Nat.div2 (hi - lo)). assert (M : lo <= mid < hi) by (unfold mid; lia).
      destruct (nth_error a mid) as [x|] eqn:Ex; [|apply nth_error_None in Ex; lia].
      destruct (leb v x) eqn:E; cbn [negb].
      + apply IH; try lia; auto. intros j y Ej Lj. eapply Tr; [exact E|]. eapply SS_nth; eauto.
      + apply IH; try lia; auto. intros j y Ej Lj.
        destruct (leb v y) eqn:Ey; auto. assert (leb y x = true) by (eapply SS_nth; [exact SS| |eauto|eauto]; lia).
        rewrite <- E. symmetry. eapply Tr; eauto.
  Qed.
  Lemma searchsorted_spec a v : StronglySorted (fun p q => leb p q = true) a -> insertion_point a v (searchsorted leb a v).
  Proof.
    intros SS. unfold searchsorted. apply bisect_spec; auto; try lia.
    intros j x E L. assert (j < List.length a) by (apply nth_error_Some; congruence). lia.
  Qed.

  Theorem C58_round_trip classes : NoDup classes -> 2 <= List.length classes ->
    exists st, category_state leb classes = Ok st /\ Permutation st classes /\
      (forall v, In v classes -> encode leb st v < List.length classes /\ decode st (encode leb st v) = Ok v) /\
      (forall i, i < List.length classes -> exists v, decode st i = Ok v /\ In v classes /\ encode leb st v = i).
  Proof.
    intros N L. unfold category_state. apply Nat.leb_le in L. rewrite L. eexists. split; [reflexivity|].
    set (st := sorted leb classes). assert (P : Permutation st classes) by apply sorted_perm.
    assert (SS : StronglySorted (fun p q => leb p q = true) st) by (apply sorted_sorted; auto).
    assert (ND : NoDup st) by (eapply Permutation_NoDup; [symmetry; exact P|auto]).
    split; auto. rewrite <- (Permutation_length P).
    assert (K : forall i v, nth_error st i = Some v -> encode leb st v = i).
    { intros i v E. unfold encode. destruct (searchsorted_spec v SS) as [I1 I2]. set (r := searchsorted leb st v) in *.
      assert (R1 : r <= i) by (apply (I2 i v E); destruct T as (Tt & _); destruct (Tt v v); auto).
      assert (Li : i < List.length st) by (apply nth_error_Some; congruence).
      destruct (nth_error st r) as [w|] eqn:Ew; [|apply nth_error_None in Ew; lia].
      assert (leb v w = true) by (apply (I2 r w Ew); lia). assert (leb w v = true) by exact (@SS_nth st r i w v SS R1 Ew E).
      assert (v = w) by (destruct T as (_ & _ & Ta); auto). subst w.
      apply (proj1 (NoDup_nth_error st) ND); [lia|congruence]. }
    split.
    - intros v Hv. apply (Permutation_in _ (Permutation_sym P)) in Hv. apply In_nth_error in Hv as (i & Hi).
      rewrite (K i v Hi). split; [apply nth_error_Some; congruence|]. unfold decode. now rewrite Hi.
    - intros i Hi. destruct (nth_error st i) as [v|] eqn:E; [|apply nth_error_None in E; lia]. exists v.
      unfold decode. rewrite E. split; auto. split; [|now apply K]. eapply Permutation_in; [exact P|]. eapply nth_error_In; eauto.
  Qed.
  Theorem C58_too_few classes : List.length classes < 2 -> category_state leb classes = Err AssertionError.
  Proof. intros H. unfold category_state. destruct (Nat.leb_spec 2 (List.length classes)); auto. lia. Qed.
  (** an unknown value is not rejected: it is read back as the next class, or the index is one past the end *)
  Theorem C58_unknown classes v : ~ In v classes -> 2 <= List.length classes ->
    exists st, category_state leb classes = Ok st /\
      encode leb st v = List.length (filter (fun c => negb (leb v c)) classes) /\ decode st (encode leb st v) <> Ok v.
  Proof.
    intros N L. unfold category_state. apply Nat.leb_le in L. rewrite L. eexists. split; [reflexivity|].
    set (st := sorted leb classes). assert (P : Permutation st classes) by apply sorted_perm.
    assert (SS : StronglySorted (fun p q => leb p q = true) st) by (apply sorted_sorted; auto).
    split.
    - unfold encode. destruct (searchsorted_spec v SS) as [I1 I2]. set (r := searchsorted leb st v) in *.
      assert (F : List.length (filter (fun c => negb (leb v c)) classes) = List.length (filter (fun c => negb (leb v c)) st)).
      { clear - P. induction P; cbn [filter]; auto.
        - destruct (leb v x); cbn [negb List.length]; auto.
        - destruct (leb v x), (leb v y); cbn [negb List.length]; auto.
        - congruence. }
      rewrite F. rewrite <- (firstn_skipn r st) at 1. rewrite filter_app, app_length.
      assert (F1 : filter (fun c => negb (leb v c)) (firstn r st) = firstn r st).
      { assert (Z : forall (l : list C) (f : C -> bool), (forall x, In x l -> f x = true) -> filter f l = l).
        { clear. induction l as [|a l IH]; intros f H; cbn [filter]; auto. rewrite (H a) by now left. f_equal. apply IH. intros; apply H; now right. }
        apply Z. intros x Hx. apply In_nth_error in Hx as (j & Hj).
        assert (j < r). { assert (j < List.length (firstn r st)) by (apply nth_error_Some; congruence). rewrite firstn_length in H. lia. }
        rewrite nth_error_firstn_lt in Hj by lia. specialize (I2 j x Hj). destruct (leb v x); auto. assert (r <= j) by now apply I2. lia. }
      assert (F2 : filter (fun c => negb (leb v c)) (skipn r st) = []).
      { assert (Z : forall (l : list C) (f : C -> bool), (forall x, In x l -> f x = false) -> filter f l = []).
        { clear. induction l as [|a l IH]; intros f H; cbn [filter]; auto. rewrite (H a) by now left. apply IH. intros; apply H; now right. }
        apply Z. intros x Hx. apply In_nth_error in Hx as (j & Hj). rewrite nth_error_skipn_add in Hj.
        rewrite (proj2 (I2 _ x Hj)) by lia. reflexivity. }
      rewrite F1, F2, firstn_length. cbn [List.length]. lia.
    - unfold decode. destruct (nth_error st _) as [w|] eqn:E; [|discriminate]. intros Q. assert (w = v) by congruence. subst. apply N.
      eapply Permutation_in; [exact P|]. eapply nth_error_In; eauto.
  Qed.
End C58.

(** ** Dictionaries *)
Section Dict.
  Context {V : Type}.
  Implicit Types (d : dict V) (k : str).
  Lemma dget_None d k : dget d k = None <-> ~ In k (map fst d).
  Proof.
    unfold dget. induction d as [|(a, v) d IH]; cbn [find map fst In]; [tauto|].
    destruct (eqb_spec a k) as [->|N]; [split; [discriminate|tauto]|]. rewrite IH. tauto.
  Qed.
  Lemma dget_app d (e : dict V) k : dget (d ++ e) k = match dget d k with Some v => Some v | None => dget e k end.
  Proof.
    unfold dget. induction d as [|(a, v) d IH]; cbn [find app fst]; auto. destruct (eqb a k); auto.
  Qed.
  Lemma dget_one k k' (v : V) : dget [(k, v)] k' = if eqb k k' then Some v else None.
  Proof. unfold dget. cbn [find fst]. destruct (eqb k k'); reflexivity. Qed.
  Lemma dset_new d k v : ~ In k (map fst d) -> dset d k v = d ++ [(k, v)].
  Proof. intros H. unfold dset. now rewrite (proj2 (mem_nIn _ _) H). Qed.
  Lemma dget_dset d k v k' : dget (dset d k v) k' = if eqb k k' then Some v else dget d k'.
  Proof.
    unfold dset. destruct (mem_spec k (map fst d)) as [H|H].
    - unfold dget. induction d as [|(a, w) d IH]; [destruct H|]. cbn [map find fst].
      destruct (eqb_spec a k) as [->|N].
      + cbn [fst]. destruct (eqb_spec k k') as [->|N']; auto. clear IH H.
        assert (Z : forall l : dict V, find (fun e => eqb (fst e) k') (map (fun e => if eqb (fst e) k then (k, v) else e) l) = find (fun e => eqb (fst e) k') l).
        { induction l as [|(b, x) l IH]; cbn [map find fst]; auto. destruct (eqb_spec b k) as [->|Nb]; cbn [fst].
          - destruct (eqb_spec k k'); [congruence|auto].
          - destruct (eqb b k'); auto. }
        now rewrite Z.
      + cbn [fst]. destruct (eqb_spec a k') as [->|N'].
        * destruct (eqb_spec k k'); [congruence|reflexivity].
        * apply IH. destruct H; [cbn in H; congruence|auto].
    - rewrite dget_app, dget_one. destruct (dget d k') eqn:E; auto. destruct (eqb_spec k k') as [->|]; auto.
      apply (proj2 (dget_None d k')) in H. congruence.
  Qed.
  Lemma dset_keys d k v x : In x (map fst (dset d k v)) <-> x = k \/ In x (map fst d).
  Proof.
    assert (A : forall x, In x (map fst (dset d k v)) <-> dget (dset d k v) x <> None).
    { intros y. rewrite dget_None. destruct (In_dec y (map fst (dset d k v))); tauto. }
    rewrite A, dget_dset. destruct (eqb_spec k x) as [->|N]; [split; [auto|discriminate]|].
    rewrite dget_None. destruct (In_dec x (map fst d)); intuition congruence.
  Qed.
  (** d.update(e): entries of [e] win (the last one, if a key is repeated) *)
  Lemma dget_dupdate (e : dict V) : forall d k, dget (dupdate d e) k = match dget (rev e) k with Some v => Some v | None => dget d k end.
  Proof.
    induction e as [|(a, v) e IH]; intros d k; [reflexivity|]. unfold dupdate. cbn [fold_left fst snd].
    change (fold_left _ e ?x) with (dupdate x e). rewrite IH, dget_dset. cbn [rev]. rewrite dget_app, dget_one.
    destruct (dget (rev e) k); auto. destruct (eqb a k); auto.
  Qed.
  Lemma dget_rev d k : NoDup (map fst d) -> dget (rev d) k = dget d k.
  Proof.
    induction d as [|(a, v) d IH]; intros N; auto. inversion N as [|? ? Na Nd]; subst. cbn [rev]. rewrite dget_app, IH by auto.
    rewrite dget_one. change ((a, v) :: d) with ([(a, v)] ++ d). rewrite (dget_app [(a, v)]), dget_one.
    destruct (eqb_spec a k) as [->|]; [|destruct (dget d k); auto]. apply dget_None in Na. cbn [fst] in Na. now rewrite Na.
  Qed.
  Lemma dupdate_keys (e : dict V) : forall d k, In k (map fst (dupdate d e)) <-> In k (map fst d) \/ In k (map fst e).
  Proof.
    induction e as [|(a, v) e IH]; intros d k; [cbn; tauto|]. unfold dupdate. cbn [fold_left fst snd].
    change (fold_left _ e ?x) with (dupdate x e). rewrite IH, dset_keys. cbn [map fst In]. intuition congruence.
  Qed.
  Lemma dset_NoDup d k v : NoDup (map fst d) -> NoDup (map fst (dset d k v)).
  Proof.
    intros N. unfold dset. destruct (mem_spec k (map fst d)) as [H|H].
    - assert (E : map fst (map (fun e => if eqb (fst e) k then (k, v) else e) d) = map fst d); [|now rewrite E].
      rewrite map_map. apply map_ext. intros (a, b). cbn [fst]. destruct (eqb_spec a k); auto.
    - rewrite map_app. apply NoDup_app_intro; auto; [repeat constructor; intros []|]. cbn. intros x Hx [<-|[]]. auto.
  Qed.
  Lemma dupdate_NoDup (e : dict V) : forall d, NoDup (map fst d) -> NoDup (map fst (dupdate d e)).
  Proof.
    induction e as [|(a, v) e IH]; intros d N; auto. unfold dupdate. cbn [fold_left fst snd].
    change (fold_left _ e ?x) with (dupdate x e). apply IH. now apply dset_NoDup.
  Qed.
End Dict.

Lemma mapE_exists {X Y} (f : X -> res Y) (Q : X -> Y -> Prop) l :
  (forall x, In x l -> exists y, f x = Ok y /\ Q x y) -> exists ys, mapE f l = Ok ys /\ Forall2 Q l ys.
Proof.
  induction l as [|x l IH]; intros H; cbn [mapE]; [exists []; auto|].
  destruct (H x) as (y & E & Qy); [now left|]. destruct IH as (ys & E' & F); [intros; apply H; now right|].
  rewrite E, E'. cbn [bind]. exists (y :: ys). auto.
Qed.
Lemma Forall2_weaken {X Y} (P Q : X -> Y -> Prop) l m : (forall x y, P x y -> Q x y) -> Forall2 P l m -> Forall2 Q l m.
Proof. intros H. induction 1; constructor; auto. Qed.
Lemma Forall2_concat_In {X Y} (P : X -> Y -> Prop) l (ls : list (list Y)) y :
  Forall2 (fun x ys => forall z, In z ys <-> P x z) l ls -> (In y (List.concat ls) <-> exists x, In x l /\ P x y).
Proof.
  induction 1 as [|x ys l ls H F IH]; cbn [List.concat]; [split; [intros []|intros (x & [] & _)]|].
  rewrite in_app_iff, H, IH. split.
  - intros [Q|(z & Hz & Q)]; [exists x; split; [now left|auto]|exists z; split; [now right|auto]].
  - intros (z & [<-|Hz] & Q); [auto|right; eauto].
Qed.

(** ** C79: sampling *)
Section C79.
  Context {V : Type}.
  Variables (tsort : graph -> list str) (g : graph) (F : str -> inputs V -> V) (cond data : dict V).
  Hypothesis TS : topo_correct tsort.
  Hypothesis W : wf g.
  Hypothesis G : good g.
  Hypothesis NE : nodes g <> [].
  Notation known := (map fst data).

  (** the nodes that must be generated although nobody asked for them: unobserved parents of what is generated *)
  Inductive needed (ns : list str) : str -> Prop :=
  | needed_first n p : In n ns -> ed g p n -> ~ In p ns -> ~ In p known -> needed ns p
  | needed_next q p : needed ns q -> ed g p q -> ~ In p known -> needed ns p.
  Definition generated (ns : option (list str)) (x : str) : Prop :=
    match ns with None => In x (nodes g) | Some ns => In x ns \/ needed ns x end.

  (** [val] gives every generated node its conditioned value, else its observed value, else a draw from its distribution given
      the values of its parents in alphabetical order: the generated value of a generated parent, the observed value of another *)
  Definition consistent (gen : str -> Prop) (val : str -> option V) : Prop :=
    forall n, gen n -> exists vs,
      Forall2 (fun p v => (gen p /\ val p = Some v) \/ (~ gen p /\ dget data p = Some v)) (sorted str_leb (predecessors g n)) vs /\
      (forall v, dget cond n = Some v -> val n = Some v) /\
      (forall v, dget cond n = None -> dget data n = Some v -> val n = Some v) /\
      (dget cond n = None -> dget data n = None -> val n = Some (F n (Cols vs))).

  Lemma rank_exists : exists rank : str -> nat,
    (forall u v, ed g u v -> rank u < rank v) /\ forall v, In v (nodes g) -> rank v < List.length (nodes g).
  Proof.
    destruct (TS W (proj1 G)) as (T1 & T2 & T3). set (t := tsort g) in *.
    assert (L : List.length t = List.length (nodes g)).
    { apply Nat.le_antisymm; apply NoDup_incl_length; auto; [|apply (wf_nodes W)|]; intros x Hx; now apply T2. }
    exists (fun v => match index_of v t with Some i => i | None => 0 end). split.
    - intros u v E. assert (Hv : In v t) by (apply T2; now apply (wf_ends W) in E).
      assert (Hu : In u t) by (apply T2; now apply (wf_ends W) in E).
      destruct (index_of v t) as [j|] eqn:Ej; [|apply index_of_None in Ej; tauto].
      destruct (index_of u t) as [i|] eqn:Ei; [|apply index_of_None in Ei; tauto].
      apply index_of_Some in Ej as [Ej Lj]. apply index_of_Some in Ei as [Ei Li].
      apply nth_error_split in Ej as (l1 & l2 & Et & <-). specialize (T3 l1 v l2 Et u E).
      apply In_nth_error in T3 as (k & Hk). assert (Lk : k < List.length l1) by (apply nth_error_Some; congruence).
      assert (k = i); [|lia]. apply (proj1 (NoDup_nth_error t) T1); [rewrite Et, app_length; cbn; lia|].
      rewrite Ei, Et. rewrite nth_error_app1 by auto. auto.
    - intros v Hv. destruct (index_of v t) as [i|] eqn:Ei; [apply index_of_Some in Ei as [_ Li]; lia|].
      apply index_of_None in Ei. elim Ei. now apply T2.
  Qed.

  Lemma needed_unfold ns x : needed ns x <->
    exists n p, In n ns /\ ed g p n /\ ~ In p ns /\ ~ In p known /\ (x = p \/ needed [p] x).
  Proof.
    split.
    - induction 1 as [n p H1 H2 H3 H4|q p H IH H2 H3]; [exists n, p; repeat (split; auto)|].
      destruct IH as (n & r & A & B & C & D & E). exists n, r. repeat (split; auto). right.
      destruct E as [->|E]; [|eapply needed_next; eauto].
      apply needed_first with (n := r); auto; [now left|]. intros [<-|[]]. apply (proj1 G r). exists r. split; auto. constructor.
    - intros (n & p & A & B & C & D & [->|E]); [eapply needed_first; eauto|].
      induction E as [m q H1 H2 H3 H4|q r H IH H2 H3].
      + destruct H1 as [<-|[]]. eapply needed_next; eauto. eapply needed_first; eauto.
      + eapply needed_next; eauto.
  Qed.
  Lemma find_missing_spec (rank : str -> nat) : (forall u v, ed g u v -> rank u < rank v) ->
    forall fuel ns, incl ns (nodes g) -> (forall n, In n ns -> rank n < fuel) -> 0 < fuel ->
    exists m, find_missing g data fuel ns = Ok m /\ forall x, In x m <-> needed ns x.
  Proof.
    intros R. induction fuel as [|f IH]; intros ns I L P; [lia|]. cbn [find_missing].
    destruct (@mapE_exists _ _ (fun n : str =>
          do ps <- get_parents g n ;
          do qs <- mapE (fun p =>
            if negb (mem p ns) && negb (mem p known)
            then do m <- find_missing g data f [p] ; Ok (p :: m) else Ok []) ps ;
          Ok (List.concat qs))
        (fun n ys => forall x, In x ys <-> exists p, ed g p n /\ ~ In p ns /\ ~ In p known /\ (x = p \/ needed [p] x)) ns) as (ms & Em & Fm).
    - intros n Hn. rewrite get_parents_ok by auto. cbn [bind].
      destruct (@mapE_exists _ _ (fun p => if negb (mem p ns) && negb (mem p known)
            then do m <- find_missing g data f [p] ; Ok (p :: m) else Ok [])
          (fun p ys => forall x, In x ys <-> ~ In p ns /\ ~ In p known /\ (x = p \/ needed [p] x)) (sorted str_leb (predecessors g n))) as (qs & Eq & Fq).
      + intros p Hp. rewrite sorted_In in Hp. apply predecessors_spec in Hp.
        destruct (mem_spec p ns) as [H1|H1]; cbn [negb andb]; [exists []; split; auto; intros x; split; [intros []|tauto]|].
        destruct (mem_spec p known) as [H2|H2]; cbn [negb]; [exists []; split; auto; intros x; split; [intros []|tauto]|].
        destruct (IH [p]) as (m & -> & Hm).
        * intros x [<-|[]]. now apply (wf_ends W) in Hp.
        * intros x [<-|[]]. specialize (R p n Hp). specialize (L n Hn). lia.
        * specialize (R p n Hp). specialize (L n Hn). lia.
        * cbn [bind]. eexists. split; [reflexivity|]. intros x. cbn [In]. rewrite Hm. intuition.
      + rewrite Eq. cbn [bind]. eexists. split; [reflexivity|]. intros x. rewrite (@Forall2_concat_In _ _ _ _ _ x Fq).
        split; intros (p & Hp & Q); exists p; (split; [|auto]); [rewrite sorted_In in Hp; now apply predecessors_spec in Hp|].
        rewrite sorted_In. now apply predecessors_spec.
    - rewrite Em. cbn [bind]. eexists. split; [reflexivity|]. intros x. rewrite dedup_In, (@Forall2_concat_In _ _ _ _ _ x Fm), needed_unfold.
      split; [intros (n & Hn & p & Q); exists n, p; tauto|intros (n & p & Hn & Q); exists n; split; auto; exists p; tauto].
  Qed.

  Lemma sample_loop_spec : forall order ps,
    NoDup order -> (forall x, In x order -> ~ In x (map fst ps)) -> incl order (nodes g) ->
    (forall n, In n order -> dget data (inputs_name n) = None) ->
    (forall o1 n o2, order = o1 ++ n :: o2 -> forall p, ed g p n ->
       In p (map fst ps) \/ In p o1 \/ (~ In p (map fst ps ++ order) /\ In p known)) ->
    exists qs, sample_loop g F cond data order ps = Ok (ps ++ qs) /\ map fst qs = order /\
      forall n, In n order -> exists vs,
        Forall2 (fun p v => dget (ps ++ qs) p = Some v \/ (dget (ps ++ qs) p = None /\ dget data p = Some v)) (sorted str_leb (predecessors g n)) vs /\
        dget (ps ++ qs) n = Some (site F cond data n (Cols vs)).
  Proof.
    induction order as [|n order IH]; intros ps N D I NI P; cbn [sample_loop].
    - exists []. rewrite app_nil_r. split; [auto|]. split; [auto|]. intros n [].
    - unfold sample_node at 1. rewrite get_parents_ok by (apply I; now left). cbn [bind]. rewrite NI by now left.
      destruct (@mapE_exists _ _ (input_value data ps) (fun p v => dget ps p = Some v \/ (~ In p (map fst ps ++ n :: order) /\ dget data p = Some v))
          (sorted str_leb (predecessors g n))) as (vs & Ev & Fv).
      { intros p Hp. rewrite sorted_In in Hp. apply predecessors_spec in Hp. unfold input_value.
        destruct (P [] n order eq_refl p Hp) as [H|[[]|[H1 H2]]].
        - destruct (dget ps p) as [v|] eqn:E; [eauto|]. apply dget_None in E. tauto.
        - destruct (dget ps p) as [v|] eqn:E.
          + exfalso. apply H1. apply in_app_iff. left. destruct (In_dec p (map fst ps)) as [|Q]; auto. apply dget_None in Q. congruence.
          + destruct (dget data p) as [v|] eqn:E2; [eauto|]. apply dget_None in E2. tauto. }
      rewrite Ev. cbn [bind]. inversion N as [|? ? Nn No]; subst.
      rewrite dset_new by (apply D; now left).
      set (v := site F cond data n (Cols vs)).
      destruct (IH (ps ++ [(n, v)])) as (qs & Eq & Kq & Hq); auto.
      + intros x Hx. rewrite map_app, in_app_iff. cbn. intros [Q|[<-|[]]]; [|auto]. revert Q. apply D. now right.
      + intros x Hx. apply I. now right.
      + intros x Hx. apply NI. now right.
      + intros o1 m o2 E p Hp. destruct (P (n :: o1) m o2 ltac:(now rewrite E) p Hp) as [H|[[<-|H]|[H1 H2]]].
        * left. rewrite map_app, in_app_iff. auto.
        * left. rewrite map_app, in_app_iff. cbn. auto.
        * auto.
        * right. right. split; auto. rewrite map_app, <- app_assoc. exact H1.
      + exists ((n, v) :: qs). rewrite <- app_assoc in Eq. cbn [app] in Eq. split; [exact Eq|]. split; [cbn; now rewrite Kq|].
        intros m [<-|Hm].
        * exists vs. split.
          -- eapply Forall2_weaken; [|exact Fv]. cbn. intros p w [H|[H1 H2]].
             ++ left. now rewrite dget_app, H.
             ++ right. split; auto. apply dget_None. rewrite map_app. cbn [map fst]. now rewrite Kq.
          -- rewrite dget_app. rewrite (proj2 (dget_None ps n)) by (apply D; now left).
             change ((n, v) :: qs) with ([(n, v)] ++ qs). rewrite dget_app, dget_one. now rewrite eqb_refl.
        * destruct (Hq m Hm) as (ws & Fw & Ew). rewrite <- app_assoc in Ew, Fw. cbn [app] in Ew. exists ws. split; [|auto].
          exact Fw.
  Qed.

  (** all nodes, or the requested ones *)
  Theorem C79_sampling ns :
    (forall l, ns = Some l -> incl l (nodes g)) ->
    (forall n, In n (nodes g) -> ~ In (inputs_name n) known) ->
    exists r val, model tsort g F cond data ns = Ok r /\
      NoDup (map fst r) /\
      (forall x, In x (map fst r) <-> match ns with None => In x (nodes g) | Some l => In x l end) /\
      (forall x v, In (x, v) r -> val x = Some v) /\
      consistent (generated ns) val.
  Proof.
    intros I NI. destruct (TS W (proj1 G)) as (T1 & T2 & T3).
    assert (D1 : is_dag1 g = true) by now apply is_dag1_spec.
    assert (K : forall order, NoDup order -> (forall x, In x order <-> generated ns x) -> incl order (nodes g) ->
              (forall o1 n o2, order = o1 ++ n :: o2 -> forall p, ed g p n -> In p o1 \/ (~ In p order /\ In p known)) ->
              exists qs, sample_loop g F cond data order [] = Ok qs /\ map fst qs = order /\ consistent (generated ns) (dget qs)).
    { intros order No Ho Io Po. destruct (@sample_loop_spec order []) as (qs & E & Kq & Hq); auto.
      - intros n Hn. apply dget_None. auto.
      - intros o1 n o2 E p Hp. right. cbn [map app]. eauto.
      - cbn [app] in *. exists qs. split; auto. split; auto. intros n Hn. apply Ho in Hn.
        destruct (Hq n Hn) as (vs & Fv & Ev). exists vs. split.
        + eapply Forall2_weaken; [|exact Fv]. cbn. intros p v [H|[H1 H2]]; [left|right]; split; auto.
          * apply Ho. rewrite <- Kq. destruct (In_dec p (map fst qs)) as [|Q]; auto. apply dget_None in Q. congruence.
          * rewrite <- Ho, <- Kq. now apply dget_None.
        + rewrite Ev. unfold site. repeat split; intros.
          * now rewrite H.
          * now rewrite H, H0.
          * now rewrite H, H0. }
    unfold model. destruct ns as [ns|].
    - destruct rank_exists as (rank & R1 & R2). specialize (I ns eq_refl).
      destruct (@find_missing_spec rank R1 (S (List.length (nodes g))) ns I) as (m & Em & Hm); [|lia|].
      { intros n Hn. specialize (R2 n (I n Hn)). lia. }
      rewrite Em. cbn [bind]. unfold sort_nodes, topo_sorted_nodes. rewrite D1. cbn [bind].
      set (order := filter (fun n => mem n (ns ++ m)) (tsort g)).
      assert (Mn : forall x, needed ns x -> In x (nodes g)).
      { intros x Hx. destruct Hx as [? ? ? H _ _|? ? _ H _]; now apply (wf_ends W) in H. }
      assert (Ho : forall x, In x order <-> In x ns \/ needed ns x).
      { intros x. unfold order. rewrite filter_In, mem_In, in_app_iff, Hm, T2. split; [tauto|]. intros [H|H]; split; auto. }
      destruct (K order) as (qs & Eq & Kq & Cq).
      + unfold order. now apply NoDup_filter.
      + exact Ho.
      + intros x Hx. apply Ho in Hx as [Hx|Hx]; auto.
      + intros o1 n o2 E p Hp.
        assert (Hn : In n order) by (rewrite E, in_app_iff; cbn; auto).
        destruct (In_dec p order) as [Hpo|Hpo].
        * left. unfold order in E.
          assert (TO : StronglySorted (fun x y => ~ reach1 (ed g) y x) order) by (apply SS_filter; now apply topo_SS).
          fold order in E. rewrite E in Hpo, TO. apply in_app_iff in Hpo as [|[<-|Hpo]]; auto.
          -- exfalso. apply (proj1 G n). exists n. split; auto. constructor.
          -- exfalso. clear - TO Hpo Hp. induction o1 as [|a o1 IH]; cbn [app] in TO; inversion TO as [|? ? S1 S2]; subst.
             ++ apply (proj1 (Forall_forall _ _) S2 p Hpo). exists n. split; auto. constructor.
             ++ auto.
        * right. split; auto. destruct (In_dec p known) as [|Hk]; auto. exfalso. apply Hpo. apply Ho.
          apply Ho in Hn as [Hn|Hn]; [|right; eapply needed_next; eauto].
          destruct (In_dec p ns); [now left|right]. eapply needed_first; eauto.
      + rewrite Eq. cbn [bind]. exists (filter (fun e => mem (fst e) ns) qs), (dget qs). split; [reflexivity|].
        assert (Fk : forall q : dict V, map fst (filter (fun e => mem (fst e) ns) q) = filter (fun k => mem k ns) (map fst q)).
        { induction q as [|(a, b) q IHq]; cbn [filter map fst]; auto. destruct (mem a ns); cbn [map fst]; now rewrite IHq. }
        assert (Nq : NoDup (map fst qs)) by (rewrite Kq; now apply NoDup_filter).
        rewrite Fk. split; [now apply NoDup_filter|]. split.
        * intros x. rewrite filter_In, mem_In, Kq, Ho. tauto.
        * split; auto. intros x v Hx. apply filter_In in Hx as [Hx _]. clear - Nq Hx.
          induction qs as [|(a, b) qs IH]; [destruct Hx|]. change ((a, b) :: qs) with ([(a, b)] ++ qs). rewrite dget_app, dget_one.
          inversion Nq as [|? ? Na Nr]; subst. destruct Hx as [[= <- <-]|Hx]; [now rewrite eqb_refl|].
          destruct (eqb_spec a x) as [->|]; auto. elim Na. apply in_map_iff. exists (x, v). auto.
    - unfold topo_sorted_nodes. rewrite D1. cbn [bind].
      destruct (K (tsort g)) as (qs & Eq & Kq & Cq); auto.
      + intros x Hx. now apply T2.
      + intros o1 n o2 E p Hp. left. eapply T3; eauto.
      + rewrite Eq. exists qs, (dget qs). split; auto.
        assert (Nq : NoDup (map fst qs)) by now rewrite Kq. split; auto. split; [intros x; rewrite Kq; apply T2|]. split; auto.
        intros x v Hx. clear - Nq Hx.
          induction qs as [|(a, b) qs IH]; [destruct Hx|]. change ((a, b) :: qs) with ([(a, b)] ++ qs). rewrite dget_app, dget_one.
          inversion Nq as [|? ? Na Nr]; subst. destruct Hx as [[= <- <-]|Hx]; [now rewrite eqb_refl|].
          destruct (eqb_spec a x) as [->|]; auto. elim Na. apply in_map_iff. exists (x, v). auto.
  Qed.
  (** a consistent assignment is unique: the equations above determine every generated value *)
  Theorem C79_unique (gen : str -> Prop) val val' : (forall x, gen x -> In x (nodes g)) ->
    consistent gen val -> consistent gen val' -> forall n, gen n -> val n = val' n.
  Proof.
    intros GN C1 C2. destruct rank_exists as (rank & R1 & R2).
    assert (X : forall k n, rank n < k -> gen n -> val n = val' n); [|intros n; eapply X; apply Nat.lt_succ_diag_r].
    induction k as [|k IH]; intros n L Hn; [lia|].
    destruct (C1 n Hn) as (vs & F1 & A1 & B1 & D1). destruct (C2 n Hn) as (ws & F2 & A2 & B2 & D2).
    destruct (dget cond n) as [v|] eqn:Ec; [rewrite (A1 v), (A2 v); auto|].
    destruct (dget data n) as [v|] eqn:Ed; [rewrite (B1 v), (B2 v); auto|].
    rewrite D1, D2 by auto. do 2 f_equal. f_equal.
    assert (Q : forall p, In p (sorted str_leb (predecessors g n)) -> gen p -> val p = val' p).
    { intros p Hp Gp. apply IH; auto. rewrite sorted_In in Hp. apply predecessors_spec in Hp. specialize (R1 _ _ Hp). lia. }
    clear - F1 F2 Q. revert ws F2. induction F1 as [|p v ps vs H1 F1 IH]; intros ws F2; inversion F2 as [|? w ? ws' H2 F2']; subst; auto.
    f_equal; [|apply IH; auto; intros; apply Q; auto; now right].
    destruct H1 as [[G1 E1]|[G1 E1]], H2 as [[G2 E2]|[G2 E2]]; try tauto; [|congruence].
    rewrite Q in E1 by (auto; now left). congruence.
  Qed.
End C79.

(** ** C77, C78, C83: fit and do *)
Section NetProps.
  Context {P V St : Type}.
  Variables (tsort : graph -> list str) (g : graph) (enc : str -> P -> V).
  Variable svi_fit : option St -> list str -> St * dict V.
  Variable svi_do : option St -> dict V -> list str -> option (list str) -> St * dict V.
  Implicit Types (o : net P V St).
  Notation fit := (fit g svi_fit).
  Notation do_ := (do_ tsort g enc svi_do).
  (** the dictionary shown by the property "interventions" *)
  Definition interventions o : dict P := match intervs o with Some d => d | None => [] end.

  (** fitting again gives what fitting a new network gives exactly when nothing was intervened on and the optimiser ignores
      the parameters it is started with *)
  Theorem C77_refit_exact o cols o' f : fit o cols = Ok o' -> fit (@new_net P V St) cols = Ok f ->
    (o' = f <-> intervs o = None /\ svi_fit (pstate o) cols = svi_fit None cols).
  Proof.
    unfold BayesModel.fit. destruct (negb _); [discriminate|]. cbn [new_net intervs pstate]. intros E1 E2.
    assert (E1' : o' = Net true cols (intervs o) (snd (svi_fit (pstate o) cols)) (Some (fst (svi_fit (pstate o) cols)))) by congruence.
    assert (E2' : f = Net true cols None (snd (svi_fit None cols)) (Some (fst (svi_fit None cols)))) by congruence.
    subst. split.
    - intros H. injection H. intros A B C. split; [exact C|]. destruct (svi_fit (pstate o) cols), (svi_fit None cols). cbn in *. congruence.
    - intros [H1 H2]. now rewrite H1, H2.
  Qed.
  Theorem C77_refuted o cols o' : fit o cols = Ok o' -> interventions o' = interventions o.
  Proof.
    unfold BayesModel.fit. destruct (negb _); [discriminate|]. intros E.
    assert (E1' : o' = Net true cols (intervs o) (snd (svi_fit (pstate o) cols)) (Some (fst (svi_fit (pstate o) cols)))) by congruence.
    now subst.
  Qed.
  Theorem C77_first_fit cols : incl (nodes g) cols ->
    exists o', fit (@new_net P V St) cols = Ok o' /\ fitted o' = true /\ columns o' = cols /\ interventions o' = [].
  Proof.
    intros H. unfold BayesModel.fit. rewrite (proj2 (subset_spec _ _) H). cbn [negb]. eexists. split; [reflexivity|]. auto.
  Qed.

  (** a successful do: the new interventions are added to the old ones, and win *)
  Theorem C78_do o iv data n k epochs inplace self r : NoDup (map fst iv) ->
    do_ o iv data n k epochs inplace = (self, Ok r) ->
    (forall x, dget (interventions r) x = match dget iv x with Some v => Some v | None => dget (interventions o) x end) /\
    columns r = columns o /\ fitted r = true /\
    self = (if inplace then r else o).
  Proof.
    intros N. unfold BayesModel.do_. destruct (fitted o) eqn:Ef; cbn [negb]; [|intros H; congruence].
    destruct iv as [|e iv0]; [intros H; congruence|]. set (iv := e :: iv0) in *. clearbody iv.
    set (merged := dupdate _ iv).
    destruct (encode_all enc o merged) as [en|]; cbn [bind]; [|intros H; congruence].
    destruct (match data with None => _ | Some _ => _ end) as [dc|]; cbn [bind]; [|intros H; congruence].
    destruct (get_blanket _ _ _ _ _ _) as [b|]; cbn [bind]; [|intros H; congruence].
    destruct (negb (Nat.eqb epochs 0) && Nat.eqb (List.length b * snd dc) 0); [intros H; congruence|].
    set (res := Net true _ _ _ _). intros H. assert (r = res /\ self = if inplace then res else o) as [-> ->] by (split; congruence).
    repeat split. intros x. unfold interventions. cbn [res intervs]. unfold merged. rewrite dget_dupdate, dget_rev by auto.
    destruct (dget iv x); auto.
  Qed.
  (** a failing do leaves the network alone if it was to make a copy, or if there were no interventions *)
  Theorem C78_failure_partial o iv data n k epochs inplace self e :
    do_ o iv data n k epochs inplace = (self, Err e) -> inplace = false \/ interventions o = [] -> self = o.
  Proof.
    unfold BayesModel.do_, interventions. destruct (negb (fitted o)); [congruence|]. destruct iv; [congruence|].
    match goal with |- (match ?b with _ => _ end) = _ -> _ => destruct b end; [congruence|].
    intros H [->|D]; [congruence|]. unfold truthy in H. rewrite D in H. destruct inplace; congruence.
  Qed.
  Lemma encode_all_err o (d : dict P) x : In x (map fst d) -> ~ In x (columns o) -> encode_all enc o d = Err KeyError.
  Proof.
    intros H N. unfold encode_all. apply in_map_iff in H as ((a, b) & E & H). cbn in E. subst a. apply (@mapE_err _ _ _ _ KeyError (x, b)); auto.
    - cbn [fst]. now rewrite (proj2 (mem_nIn _ _) N).
    - intros (c, w) e' _. cbn [fst]. destruct (mem c (columns o)); congruence.
  Qed.
  (** otherwise it does not: one call with an unknown name on a network that has interventions ... *)
  Theorem C78_refuted o iv data n k epochs x : fitted o = true -> interventions o <> [] ->
    In x (map fst iv) -> ~ In x (columns o) ->
    exists self, do_ o iv data n k epochs true = (self, Err KeyError) /\ In x (map fst (interventions self)) /\
      fitted self = true /\ columns self = columns o /\ interventions self <> [].
  Proof.
    intros Ff D Hx Nx. unfold BayesModel.do_. rewrite Ff. cbn [negb]. destruct iv as [|e iv0]; [destruct Hx|].
    set (iv := e :: iv0) in *. clearbody iv. rewrite (@encode_all_err o _ x); [|apply dupdate_keys; now right|auto]. cbn [bind].
    unfold interventions in D. unfold truthy. destruct (match intervs o with Some d => d | None => [] end) as [|d0 ds] eqn:E; [congruence|].
    eexists. split; [reflexivity|]. cbn [set_intervs intervs interventions fitted columns]. repeat split; auto.
    - apply dupdate_keys. now right.
    - intros Q. assert (In x (map fst (dupdate (d0 :: ds) iv))) by (apply dupdate_keys; now right). rewrite Q in H. destruct H.
  Qed.
  (** ... breaks it for good: from then on do, predict and sample raise KeyError until the network is fitted with such a column *)
  Theorem C78_refuted_poisoned (F : str -> inputs V -> V) o x : fitted o = true -> In x (map fst (interventions o)) -> ~ In x (columns o) ->
    (forall iv data n k epochs inplace, iv <> [] -> exists self, do_ o iv data n k epochs inplace = (self, Err KeyError)) /\
    (forall data outcome, predict_draw tsort g enc F o data outcome = Err KeyError) /\
    (forall iv data n k epochs inplace self, do_ o iv data n k epochs inplace = (self, Err KeyError) -> In x (map fst (interventions self))).
  Proof.
    intros Ff Hx Nx. unfold interventions in *. repeat split.
    - intros iv data n k epochs inplace Hi. unfold BayesModel.do_. rewrite Ff. cbn [negb]. destruct iv as [|e iv0]; [congruence|].
      set (iv := e :: iv0) in *. clearbody iv. rewrite (@encode_all_err o _ x); [|apply dupdate_keys; now left|auto]. cbn [bind]. eauto.
    - intros data outcome. unfold predict_draw, conditioned. rewrite Ff. cbn [negb].
      destruct (truthy (intervs o)) as [|d0 ds] eqn:E; unfold truthy in E; [rewrite E in Hx; destruct Hx|].
      rewrite (@encode_all_err o _ x); [|now rewrite <- E|auto]. reflexivity.
    - intros iv data n k epochs inplace self. unfold BayesModel.do_. rewrite Ff. cbn [negb]. destruct iv as [|e iv0]; [congruence|].
      set (iv := e :: iv0) in *. clearbody iv. rewrite (@encode_all_err o _ x); [|apply dupdate_keys; now left|auto]. cbn [bind].
      intros H. assert (S' : self = if inplace then match truthy (intervs o) with [] => o | _ => set_intervs o (dupdate (truthy (intervs o)) iv) end else o) by congruence.
      rewrite S'. destruct inplace; auto. destruct (truthy (intervs o)) eqn:E; auto. rewrite <- E. cbn [set_intervs intervs]. apply dupdate_keys. now left.
  Qed.

  (** when do() succeeds: some node outside the intervened ones must be in their blanket *)
  Theorem C83_do_ok o iv data n k epochs inplace : topo_correct tsort -> wf g ->
    fitted o = true -> iv <> [] -> incl (map fst iv) (nodes g) -> incl (nodes g) (columns o) ->
    incl (map fst (interventions o)) (columns o) ->
    (forall cols m, data = Some (cols, m) -> incl cols (columns o) /\ m > 0) -> n > 0 -> epochs > 0 ->
    let r := snd (do_ o iv data n k epochs inplace) in
    ((exists m, r = Ok m) <-> exists a x, In a (map fst iv) /\ ~ In x (map fst iv) /\ relative g k a x) /\
    ((forall m, r <> Ok m) -> r = Err ZeroDivisionError).
  Proof.
    intros TS W Ff Hi In1 In2 In3 Hd Hn He. unfold BayesModel.do_. rewrite Ff. cbn [negb]. destruct iv as [|e iv0]; [congruence|].
    set (iv := e :: iv0) in *. clearbody iv. set (merged := dupdate _ iv).
    assert (Ee : exists en, encode_all enc o merged = Ok en).
    { unfold encode_all. eexists. apply (mapE_ok _ (fun e => (fst e, enc (fst e) (snd e)))). intros (a, b) Hab. cbn [fst snd].
      assert (Q : In a (columns o)). { assert (H : In a (map fst merged)) by (apply in_map_iff; exists (a, b); auto). apply dupdate_keys in H as [H|H]; auto. }
      now rewrite (proj2 (mem_In _ _) Q). }
    destruct Ee as (en & Ee). rewrite Ee. cbn [bind].
    set (dd := match data with None => _ | Some _ => _ end).
    assert (Ed : exists cs m, dd = Ok (cs, m) /\ m > 0).
    { unfold dd. destruct data as [(cols, m)|]; [|eauto]. destruct (Hd cols m eq_refl) as [H1 H2]. cbn zeta.
      rewrite (proj2 (subset_spec _ _)); [eauto|]. intros x Hx. apply (proj1 (dedup_In _ _)) in Hx. apply in_app_iff in Hx as [Hx|Hx]; auto. }
    destruct Ed as (cs & m & Ed & Hm). rewrite Ed. cbn [bind snd fst].
    destruct (@C56_get_blanket tsort TS g k false false (map fst iv) false W In1) as (b & Eb & Nb & Pb & _); [unfold sortable; discriminate|].
    rewrite Eb. cbn [bind]. apply Nat.neq_0_lt_0, Nat.eqb_neq in He. rewrite He. cbn [negb andb].
    assert (X : Nat.eqb (List.length b * m) 0 = true <-> b = []).
    { rewrite Nat.eqb_eq. split; [|intros ->; auto]. intros Q. destruct b; auto. cbn in Q. lia. }
    destruct (Nat.eqb (List.length b * m) 0) eqn:Eq; cbn [snd]; split.
    - split; [intros (q & Q); discriminate|]. intros (a & x & H1 & H2 & H3). exfalso.
      assert (Hx : In x b) by (apply Pb; right; split; eauto). rewrite (proj1 X eq_refl) in Hx. destruct Hx.
    - reflexivity.
    - split; [|eauto]. intros _. destruct b as [|x b0]; [destruct X as [_ X]; specialize (X eq_refl); discriminate|].
      destruct (proj1 (Pb x) (or_introl eq_refl)) as [[Q _]|(Nx & a & Ha & R)]; [discriminate|]. eauto.
    - intros Q. exfalso. eapply Q. reflexivity.
  Qed.
  (** in particular intervening on every node never works, nor does blanket='upstream' on roots or 'downstream' on leaves *)
  Theorem C83_refuted o iv data n k epochs inplace : topo_correct tsort -> wf g ->
    fitted o = true -> iv <> [] -> incl (map fst iv) (nodes g) -> incl (nodes g) (columns o) ->
    incl (map fst (interventions o)) (columns o) ->
    (forall cols m, data = Some (cols, m) -> incl cols (columns o) /\ m > 0) -> n > 0 -> epochs > 0 ->
    incl (nodes g) (map fst iv) \/
    (k = Upstream /\ forall a x, In a (map fst iv) -> ~ ed g x a) \/ (k = Downstream /\ forall a x, In a (map fst iv) -> ~ ed g a x) ->
    snd (do_ o iv data n k epochs inplace) = Err ZeroDivisionError.
  Proof.
    intros TS W Ff Hi In1 In2 In3 Hd Hn He Q.
    destruct (@C83_do_ok o iv data n k epochs inplace TS W Ff Hi In1 In2 In3 Hd Hn He) as [A B]. apply B. intros m Em.
    destruct (proj1 A (ex_intro _ m Em)) as (a & x & H1 & H2 & H3).
    destruct Q as [Q|[[-> Q]|[-> Q]]]; [|eapply Q; eauto|eapply Q; eauto]. apply H2, Q.
    destruct k; cbn [relative] in H3; [destruct H3 as [H|[H|(c & H & H')]]| |]; try (apply (wf_ends W) in H; tauto).
    - apply (wf_ends W) in H'. tauto.
    - apply (wf_ends W) in H3. tauto.
    - apply (wf_ends W) in H3. tauto.
  Qed.

  (** ** C80: reading calls *)
  Variable F : str -> inputs V -> V.
  (** predict on a network without interventions changes nothing *)
  Theorem C80_predict_partial o data outcome o' r : interventions o = [] ->
    predict_draw tsort g enc F o data outcome = Ok (o', r) -> o' = o.
  Proof.
    intros D. unfold predict_draw, conditioned, truthy. unfold interventions in D. rewrite D. destruct (negb _); [discriminate|].
    cbn [bind fst snd]. destruct (model _ _ _ _ _ _); cbn [bind]; congruence.
  Qed.
  Lemma encode_all_keys o (d : dict P) e : encode_all enc o d = Ok e -> map fst e = map fst d.
  Proof.
    unfold encode_all. intros H. apply mapE_inv in H. induction H as [|(a, b) (c, w) l m Q H IH]; auto. cbn [map fst] in *.
    rewrite IH. f_equal. destruct (mem a (columns o)); congruence.
  Qed.
  (** in every case the interventions, and the answers of later predict calls, stay as they were *)
  Theorem C80_predict_again o data outcome o' r : NoDup (map fst (interventions o)) ->
    predict_draw tsort g enc F o data outcome = Ok (o', r) ->
    interventions o' = interventions o /\ fitted o' = fitted o /\ columns o' = columns o /\
    forall data2 outcome2 r2, (exists o2, predict_draw tsort g enc F o data2 outcome2 = Ok (o2, r2)) ->
      exists o2' r2', predict_draw tsort g enc F o' data2 outcome2 = Ok (o2', r2') /\ r2' = r2.
  Proof.
    intros N. unfold predict_draw. destruct (fitted o) eqn:Ff; cbn [negb]; [|discriminate].
    unfold conditioned. unfold interventions in *. destruct (truthy (intervs o)) as [|d0 ds] eqn:D.
    - cbn [bind fst snd]. destruct (model _ _ _ _ _ _) as [ps|]; cbn [bind]; [|discriminate]. intros H.
      assert (o' = o) by congruence. subst o'. repeat split; auto. rewrite Ff, D. cbn [negb bind fst snd]. intros data2 out2 r2 (o2 & H2).
      destruct (model _ _ _ _ _ _) as [ps2|]; cbn [bind] in *; [|discriminate]. do 2 eexists. split; [reflexivity|]. congruence.
    - rewrite <- D. destruct (encode_all enc o (truthy (intervs o))) as [e|] eqn:Ee; cbn [bind fst snd]; [|discriminate].
      destruct (model _ _ _ _ _ None) as [ps|]; cbn [bind]; [|discriminate]. intros H.
      set (o1 := Net _ (columns o) (intervs o) _ (pstate o)) in H. assert (o' = o1) by congruence. subst o'. cbn [o1 intervs fitted columns].
      repeat split; auto. rewrite D. rewrite <- D. cbn [negb bind fst snd].
      replace (encode_all enc o1 (truthy (intervs o))) with (encode_all enc o (truthy (intervs o))) by reflexivity. rewrite Ee. cbn [bind fst snd o1 params].
      intros data2 out2 r2 (o2 & H2).
      assert (M : forall dt, model tsort g F (dupdate (dupdate (params o) e) e) dt None = model tsort g F (dupdate (params o) e) dt None).
      { intros dt. unfold model. destruct (topo_sorted_nodes tsort g) as [order|]; cbn [bind]; auto.
        generalize (@nil (str * V)). induction order as [|x order IH]; intros ps0; cbn [sample_loop]; auto.
        assert (Q : sample_node g F (dupdate (dupdate (params o) e) e) dt ps0 x = sample_node g F (dupdate (params o) e) dt ps0 x).
        { unfold sample_node. destruct (get_parents g x); cbn [bind]; auto.
          match goal with |- bind ?m _ = bind ?m _ => destruct m end; cbn [bind]; auto. f_equal. f_equal. unfold site.
          rewrite !dget_dupdate. destruct (dget (rev e) x); auto. }
        rewrite Q. destruct (sample_node g F (dupdate (params o) e) dt ps0 x); cbn [bind]; [apply IH|reflexivity]. }
      rewrite M. rewrite Ff. cbn [negb]. destruct (model _ _ _ _ _ None) as [ps2|]; cbn [bind] in *; [|discriminate]. do 2 eexists. split; [reflexivity|]. congruence.
  Qed.

  (** what predict returns: the outcomes of the network conditioned on its parameters and, first of all, its interventions, given
      the other columns of the data *)
  Theorem C80_predict o data outcome : topo_correct tsort -> wf g -> good g -> nodes g <> [] ->
    fitted o = true -> NoDup (map fst (interventions o)) -> incl (map fst (interventions o)) (columns o) -> incl outcome (nodes g) ->
    (forall n, In n (nodes g) -> ~ In (inputs_name n) (map fst data)) ->
    exists o' r val cond, predict_draw tsort g enc F o data outcome = Ok (o', r) /\
      (forall x, In x (map fst r) <-> In x outcome) /\ (forall x v, In (x, v) r -> val x = Some v) /\
      (forall x, dget cond x = match dget (interventions o) x with Some v => Some (enc x v) | None => dget (params o) x end) /\
      consistent g F cond (filter (fun e => negb (mem (fst e) outcome)) data) (fun x => In x (nodes g)) val.
  Proof.
    intros TS W G NE Ff N Hc I NI. unfold predict_draw. rewrite Ff. cbn [negb].
    assert (Q : exists o' cond, conditioned enc o = Ok (o', cond) /\
      forall x, dget cond x = match dget (interventions o) x with Some v => Some (enc x v) | None => dget (params o) x end).
    { unfold conditioned. unfold interventions in *. fold (truthy (intervs o)) in *. destruct (truthy (intervs o)) as [|d0 ds] eqn:D.
      - exists o, (params o). auto.
      - rewrite <- D in *. assert (EA : encode_all enc o (truthy (intervs o)) = Ok (map (fun e => (fst e, enc (fst e) (snd e))) (truthy (intervs o)))).
        + unfold encode_all. apply mapE_ok. intros (a, b) Hab. cbn [fst snd]. rewrite (proj2 (mem_In _ _)); auto. apply Hc.
          apply in_map_iff. exists (a, b). auto.
        + rewrite EA. cbn [bind]. do 2 eexists. split; [reflexivity|]. intros x. rewrite dget_dupdate.
          rewrite <- map_rev. assert (Z : forall d : dict P, dget (map (fun e => (fst e, enc (fst e) (snd e))) d) x = match dget d x with Some v => Some (enc x v) | None => None end).
          { intros d. unfold dget. induction d as [|(a, b) d IH]; cbn [map find fst snd]; auto. destruct (eqb_spec a x) as [->|]; auto. }
          rewrite Z, dget_rev by auto. destruct (dget (truthy (intervs o)) x); auto. }
    destruct Q as (o' & cond & -> & Hcond). cbn [bind fst snd]. set (test := filter _ data).
    destruct (@C79_sampling V tsort g F cond test TS W G NE None) as (r & val & E & Nr & K & Hv & C).
    { discriminate. }
    { intros n Hn Hx. apply (NI n Hn). apply in_map_iff in Hx as (e & <- & He). apply filter_In in He as [He _]. apply in_map_iff. eauto. }
    rewrite E. cbn [bind]. do 4 eexists. split; [reflexivity|]. split; [|split; [|split; [exact Hcond|exact C]]].
    - intros x. assert (Fk : forall q : dict V, map fst (filter (fun e => mem (fst e) outcome) q) = filter (fun k => mem k outcome) (map fst q)).
      { induction q as [|(a, b) q IHq]; cbn [filter map fst]; auto. destruct (mem a outcome); cbn [map fst]; now rewrite IHq. }
      rewrite Fk, filter_In, mem_In, K. split; [tauto|]. intros H. split; auto.
    - intros x v Hx. apply filter_In in Hx as [Hx _]. auto.
  Qed.

  (** ** C81: estimate *)
  (** one arm of estimate, with [kv] the encoded treat (or control) values *)
  Theorem C81_estimate o data outcome kv : topo_correct tsort -> wf g -> good g -> nodes g <> [] ->
    incl outcome (nodes g) -> (forall n, In n (nodes g) -> ~ In (inputs_name n) (map fst data)) ->
    exists ns r val, (forall x, In x ns <-> In x outcome \/ exists y, In y outcome /\ ed g x y) /\
      estimate_draw tsort g F o data outcome kv = Ok r /\
      (forall x, In x (map fst r) <-> In x outcome) /\ (forall x v, In (x, v) r -> val x = Some v) /\
      consistent g F (dupdate (params o) kv) data (generated g data (Some ns)) val.
  Proof.
    intros TS W G NE I NI.
    destruct (@C56_get_blanket tsort TS g Upstream true true outcome false W I) as (ns & En & Nn & Pn & _); [intros _; split; auto|].
    assert (Pn' : forall x, In x ns <-> In x outcome \/ exists y, In y outcome /\ ed g x y).
    { intros x. rewrite Pn. cbn [relative]. destruct (In_dec x outcome); tauto. }
    destruct (@C79_sampling V tsort g F (dupdate (params o) kv) data TS W G NE (Some ns)) as (r & val & E & N & K & Hv & C); auto.
    { intros l Hl x Hx. assert (l = ns) by congruence. subst l. apply Pn' in Hx as [Hx|(y & _ & Hx)]; auto. now apply (wf_ends W) in Hx. }
    exists ns, (filter (fun e => mem (fst e) outcome) r), val. split; auto. unfold estimate_draw. rewrite En. cbn [bind]. rewrite E. cbn [bind].
    split; auto. split.
    - intros x. assert (Fk : forall q : dict V, map fst (filter (fun e => mem (fst e) outcome) q) = filter (fun k => mem k outcome) (map fst q)).
      { induction q as [|(a, b) q IHq]; cbn [filter map fst]; auto. destruct (mem a outcome); cbn [map fst]; now rewrite IHq. }
      rewrite Fk, filter_In, mem_In, K, Pn'. tauto.
    - split; auto. intros x v Hx. apply filter_In in Hx as [Hx _]. auto.
  Qed.
  (** data that has the outcome column: the estimated outcome is the column, whatever the treatment *)
  Theorem C81_refuted_observed o data outcome kv y v w r : topo_correct tsort -> wf g -> good g -> nodes g <> [] ->
    incl outcome (nodes g) -> (forall n, In n (nodes g) -> ~ In (inputs_name n) (map fst data)) ->
    ~ In y (map fst (params o)) -> ~ In y (map fst kv) -> dget data y = Some v ->
    estimate_draw tsort g F o data outcome kv = Ok r -> In (y, w) r -> w = v.
  Proof.
    intros TS W G NE I NI N1 N2 Hy Er Hr.
    destruct (C81_estimate o data kv TS W G NE I NI) as (ns & r' & val & Pn & E & K & Hv & C).
    assert (r' = r) by congruence. subst r'.
    assert (Yo : In y outcome) by (apply K; apply in_map_iff; exists (y, w); auto).
    destruct (C y) as (vs & _ & _ & B & _); [left; apply Pn; now left|].
    assert (Ec : dget (dupdate (params o) kv) y = None) by (apply dget_None; rewrite dupdate_keys; tauto).
    specialize (B v Ec Hy). rewrite (Hv y w Hr) in B. congruence.
  Qed.
  (** data that has all parents of the outcome, none of them a treatment: the treatment has no effect on it either *)
  Theorem C81_refuted_mediator o data outcome kv kv' y w w' r r' : topo_correct tsort -> wf g -> good g -> nodes g <> [] ->
    incl outcome (nodes g) -> (forall n, In n (nodes g) -> ~ In (inputs_name n) (map fst data)) ->
    (forall x, In x (map fst kv) \/ In x (map fst kv') -> x <> y /\ ~ ed g x y) -> (forall p, ed g p y -> In p (map fst data)) ->
    estimate_draw tsort g F o data outcome kv = Ok r -> In (y, w) r ->
    estimate_draw tsort g F o data outcome kv' = Ok r' -> In (y, w') r' -> w = w'.
  Proof.
    intros TS W G NE I NI K0 D Er Hr Er' Hr'.
    destruct (C81_estimate o data kv TS W G NE I NI) as (ns & r1 & val & Pn & E & K & Hv & C).
    destruct (C81_estimate o data kv' TS W G NE I NI) as (ns' & r2 & val' & Pn' & E' & K' & Hv' & C').
    assert (r1 = r) by congruence. assert (r2 = r') by congruence. subst r1 r2.
    assert (Yo : In y outcome) by (apply K; apply in_map_iff; exists (y, w); auto).
    specialize (Hv y w Hr). specialize (Hv' y w' Hr').
    assert (Q : forall x, x = y \/ ed g x y -> dget (dupdate (params o) kv) x = dget (params o) x /\ dget (dupdate (params o) kv') x = dget (params o) x).
    { intros x Hx. assert (Z : forall q : dict V, ~ In x (map fst q) -> dget (dupdate (params o) q) x = dget (params o) x).
      { intros q Hq. rewrite dget_dupdate. rewrite (proj2 (dget_None (rev q) x)); auto. rewrite map_rev, <- in_rev. auto. }
      split; apply Z; intros Hk; [destruct (K0 x (or_introl Hk))|destruct (K0 x (or_intror Hk))]; destruct Hx; auto. }
    assert (Gy : forall ms, (forall x, In x ms <-> In x outcome \/ exists y, In y outcome /\ ed g x y) ->
              forall x, x = y \/ ed g x y -> generated g data (Some ms) x).
    { intros ms Hms x [->|Hx]; left; apply Hms; eauto. }
    assert (Pv : forall p, ed g p y -> val p = val' p).
    { intros p Hp. destruct (C p) as (vs & _ & A1 & B1 & _); [apply (Gy ns Pn); now right|].
      destruct (C' p) as (vs' & _ & A2 & B2 & _); [apply (Gy ns' Pn'); now right|].
      destruct (Q p (or_intror Hp)) as [Q1 Q2]. rewrite Q1 in A1, B1. rewrite Q2 in A2, B2.
      destruct (dget (params o) p) as [v|]; [rewrite (A1 v), (A2 v); auto|].
      destruct (dget data p) as [v|] eqn:Ed; [rewrite (B1 v), (B2 v); auto|]. apply dget_None in Ed. elim Ed. auto. }
    destruct (C y) as (vs & F1 & A1 & B1 & D1); [apply (Gy ns Pn); now left|].
    destruct (C' y) as (vs' & F2 & A2 & B2 & D2); [apply (Gy ns' Pn'); now left|].
    destruct (Q y (or_introl eq_refl)) as [Q1 Q2]. rewrite Q1 in A1, B1, D1. rewrite Q2 in A2, B2, D2.
    destruct (dget (params o) y) as [v|]; [specialize (A1 v eq_refl); specialize (A2 v eq_refl); congruence|].
    destruct (dget data y) as [v|] eqn:Ed; [specialize (B1 v eq_refl eq_refl); specialize (B2 v eq_refl eq_refl); congruence|].
    specialize (D1 eq_refl eq_refl). specialize (D2 eq_refl eq_refl).
    assert (Ev : vs = vs').
    { assert (Gp : forall p, In p (sorted str_leb (predecessors g y)) -> ed g p y) by (intros p Hp; rewrite sorted_In in Hp; now apply predecessors_spec in Hp).
      assert (G1 : forall p, In p (sorted str_leb (predecessors g y)) -> generated g data (Some ns) p) by (intros; apply (Gy ns Pn); right; auto).
      assert (G2 : forall p, In p (sorted str_leb (predecessors g y)) -> generated g data (Some ns') p) by (intros; apply (Gy ns' Pn'); right; auto).
      clear - F1 F2 Gp G1 G2 Pv. revert vs' F2. induction F1 as [|p v ps vs H1 F1 IH]; intros vs' F2; inversion F2 as [|? w ? ws' H2 F2']; subst; auto.
      f_equal; [|apply IH; auto; intros q Hq; [apply Gp|apply G1|apply G2]; now right].
      specialize (Pv p (Gp p (or_introl eq_refl))). specialize (G1 p (or_introl eq_refl)). specialize (G2 p (or_introl eq_refl)).
      destruct H1 as [[_ E1]|[N1 _]]; [|tauto]. destruct H2 as [[_ E2]|[N2 _]]; [|tauto]. congruence. }
    subst vs'. congruence.
  Qed.
  (** data that has the treatment columns (as the data of a user has): only direct effects are estimated; treatments that are
      not parents of an outcome have no effect at all, even when nothing on the path is observed *)
  Theorem C81_refuted_indirect o data outcome kv kv' r r' : topo_correct tsort -> wf g -> good g -> nodes g <> [] ->
    incl outcome (nodes g) -> (forall n, In n (nodes g) -> ~ In (inputs_name n) (map fst data)) ->
    (forall x, In x (map fst kv) \/ In x (map fst kv') -> In x (map fst data) /\ ~ In x outcome /\ forall y, In y outcome -> ~ ed g x y) ->
    estimate_draw tsort g F o data outcome kv = Ok r -> estimate_draw tsort g F o data outcome kv' = Ok r' ->
    forall y w w', In (y, w) r -> In (y, w') r' -> w = w'.
  Proof.
    intros TS W G NE I NI K0 Er Er' y w w' Hr Hr'.
    destruct (C81_estimate o data kv TS W G NE I NI) as (ns & r1 & val & Pn & E & K & Hv & C).
    destruct (C81_estimate o data kv' TS W G NE I NI) as (ns' & r2 & val' & Pn' & E' & K' & Hv' & C').
    assert (r1 = r) by congruence. assert (r2 = r') by congruence. subst r1 r2.
    assert (Yo : In y outcome) by (apply K; apply in_map_iff; exists (y, w); auto).
    assert (EQ : forall a b, (forall x, In x a <-> In x b) -> forall x, needed g data a x -> needed g data b x).
    { intros a b H x. induction 1 as [n p H1 H2 H3 H4|q p H1 IH H2 H3]; [eapply needed_first; eauto; [now apply H|now rewrite <- H]|eapply needed_next; eauto]. }
    assert (Eg : forall x, generated g data (Some ns') x <-> generated g data (Some ns) x).
    { intros x. cbn [generated]. rewrite Pn, Pn'. split; (intros [H|H]; [auto|right]); revert H; apply EQ; intros z; rewrite Pn, Pn'; tauto. }
    assert (Gn : forall x, generated g data (Some ns) x -> In x (nodes g)).
    { intros x [Hx|Hx]; [apply Pn in Hx as [Hx|(z & _ & Hx)]; auto; now apply (wf_ends W) in Hx|].
      destruct Hx as [? ? ? H _ _|? ? _ H _]; now apply (wf_ends W) in H. }
    assert (Q : forall x, generated g data (Some ns) x -> dget (dupdate (params o) kv) x = dget (dupdate (params o) kv') x).
    { assert (Z : forall q : dict V, (forall x, In x (map fst q) -> In x (map fst kv) \/ In x (map fst kv')) ->
          forall x, generated g data (Some ns) x -> dget (dupdate (params o) q) x = dget (params o) x).
      { intros q Hq x Hx. rewrite dget_dupdate. rewrite (proj2 (dget_None (rev q) x)); auto. rewrite map_rev, <- in_rev. intros Hk.
        destruct (K0 x (Hq x Hk)) as (A & B & D). destruct Hx as [Hx|Hx].
        - apply Pn in Hx as [Hx|(z & Hz & Hx)]; [tauto|]. now apply (D z Hz).
        - destruct Hx; tauto. }
      intros x Hx. rewrite !Z; auto. }
    assert (C2 : consistent g F (dupdate (params o) kv) data (generated g data (Some ns)) val').
    { intros n Hn. destruct (C' n (proj2 (Eg n) Hn)) as (vs & F1 & A1 & B1 & D1). rewrite (Q n Hn). exists vs. split; auto.
      eapply Forall2_weaken; [|exact F1]. cbn beta. intros p v. rewrite Eg. tauto. }
    assert (X : val y = val' y).
    { eapply (@C79_unique V tsort g F); eauto. left. apply Pn. now left. }
    rewrite (Hv y w Hr), (Hv' y w' Hr') in X. congruence.
  Qed.
End NetProps.

(** ** C82: collectors *)
Section C82.
  Open Scope Q_scope.
  Fixpoint qsum (l : list Q) : Q := match l with [] => 0 | x :: r => x + qsum r end.
  Definition at_ (v : vec) (i : nat) : Q := nth i v 0.
  (** the sum of the tensors at the locations [ls], at position [i] *)
  Definition total (h : heap) (ls : list nat) (i : nat) : Q := qsum (map (fun l => at_ (h l) i) ls).

  Lemma vadd_length a b : List.length a = List.length b -> List.length (vadd a b) = List.length a.
  Proof. intros H. unfold vadd. rewrite map_length, combine_length. lia. Qed.
  Lemma vadd_at a : forall b i, List.length a = List.length b -> (i < List.length a)%nat -> at_ (vadd a b) i = at_ a i + at_ b i.
  Proof.
    unfold at_, vadd. induction a as [|x a IH]; intros [|y b] i L H; cbn in L, H; try lia; try easy.
    destruct i; cbn; auto. apply IH; lia.
  Qed.
  Lemma map_at (f : Q -> Q) v i : (i < List.length v)%nat -> at_ (map f v) i = f (at_ v i).
  Proof. intros H. unfold at_. rewrite nth_indep with (d' := f 0) by now rewrite map_length. apply map_nth. Qed.

  Lemma ncall_loop n l0 : forall ls (h : heap) k,
    ~ In l0 ls -> (forall l, In l (l0 :: ls) -> List.length (h l) = n) ->
    exists h', fold_left ncall ls (h, NColl (Some l0) k) = (h', NColl (Some l0) (k + List.length ls)) /\
      (forall l, l <> l0 -> h' l = h l) /\ List.length (h' l0) = n /\
      (forall i, (i < n)%nat -> at_ (h' l0) i == at_ (h l0) i + total h ls i).
  Proof.
    induction ls as [|l ls IH]; intros h k N L; cbn [fold_left].
    - exists h. rewrite Nat.add_0_r. split; auto. split; auto. split; [apply L; now left|]. intros i _. unfold total. cbn. ring.
    - unfold ncall at 2. cbn [value n_sample].
      set (h1 := upd h l0 (vadd (h l0) (h l))).
      assert (E0 : h1 l0 = vadd (h l0) (h l)) by (unfold h1, upd; now rewrite Nat.eqb_refl).
      assert (E1 : forall x, x <> l0 -> h1 x = h x) by (intros x Hx; unfold h1, upd; apply Nat.eqb_neq in Hx; now rewrite Hx).
      assert (L0 : List.length (h l0) = n) by (apply L; now left).
      assert (L1 : List.length (h l) = n) by (apply L; right; now left).
      destruct (IH h1 (S k)) as (h' & E & H1 & H2 & H3).
      + intros Q. apply N. now right.
      + intros x [<-|Hx]; [rewrite E0, vadd_length; congruence|]. rewrite E1; [apply L; right; now right|]. intros ->. apply N. now right.
      + exists h'. rewrite E. split; [f_equal; f_equal; cbn; lia|]. split; [intros x Hx; rewrite H1, E1; auto|]. split; auto.
        intros i Hi. rewrite H3 by auto. rewrite E0, vadd_at by (try lia; congruence).
        assert (T : total h1 ls i = total h ls i).
        { unfold total. f_equal. apply map_ext_in. intros x Hx. rewrite E1; auto. intros ->. apply N. now right. }
        rewrite T. unfold total. cbn [map qsum]. ring.
  Qed.
  (** different tensors: the mean, position by position; every tensor but the first is left alone *)
  Theorem C82_mean (h : heap) ls n : ls <> [] -> NoDup ls -> (forall l, In l ls -> List.length (h l) = n) ->
    exists h' c m, ncollect h ls = (h', c) /\ nto h' c = Ok m /\ List.length m = n /\
      (forall i, (i < n)%nat -> at_ m i == total h ls i / inject_Z (Z.of_nat (List.length ls))) /\
      (forall l, l <> hd O ls -> h' l = h l).
  Proof.
    intros Ne N L. destruct ls as [|l0 ls]; [congruence|]. inversion N as [|? ? N0 N1]; subst. unfold ncollect. cbn [fold_left].
    unfold ncall at 2. cbn [value n_sample new_ncoll].
    destruct (@ncall_loop n l0 ls h 1 N0 L) as (h' & E & H1 & H2 & H3).
    rewrite E. do 3 eexists. split; [reflexivity|]. cbn [nto value n_sample]. split; [reflexivity|]. split; [now rewrite map_length|]. split.
    - intros i Hi. rewrite map_at by lia. rewrite H3 by auto. unfold total. cbn [map qsum List.length]. reflexivity.
    - cbn [hd]. auto.
  Qed.
  Theorem C82_no_samples (h : heap) : ncollect h [] = (h, new_ncoll) /\ nto h new_ncoll = Err TypeError.
  Proof. split; reflexivity. Qed.
  (** the caller's first tensor is overwritten with the sum *)
  Theorem C82_refuted_input (h : heap) l0 ls n : NoDup (l0 :: ls) -> (forall l, In l (l0 :: ls) -> List.length (h l) = n) ->
    forall i, (i < n)%nat -> at_ (fst (ncollect h (l0 :: ls)) l0) i == total h (l0 :: ls) i.
  Proof.
    intros N L i Hi. inversion N as [|? ? N0 N1]; subst. unfold ncollect. cbn [fold_left]. unfold ncall at 2. cbn [value n_sample new_ncoll].
    destruct (@ncall_loop n l0 ls h 1 N0 L) as (h' & E & H1 & H2 & H3). rewrite E. cbn [fst]. rewrite H3 by auto. reflexivity.
  Qed.
  (** the same tensor k+1 times (the value of an intervened outcome): not its value but 2^k / (k+1) times it *)
  Theorem C82_refuted_alias (h : heap) l k i : (i < List.length (h l))%nat ->
    exists h' c m, ncollect h (repeat l (S k)) = (h', c) /\ nto h' c = Ok m /\
      at_ m i == at_ (h l) i * (inject_Z (2 ^ Z.of_nat k) / inject_Z (Z.of_nat (S k))).
  Proof.
    intros Hi. unfold ncollect. cbn [repeat fold_left]. unfold ncall at 2. cbn [value n_sample new_ncoll].
    assert (X : forall k (h : heap) j, (i < List.length (h l))%nat ->
      exists h', fold_left ncall (repeat l k) (h, NColl (Some l) j) = (h', NColl (Some l) (j + k)) /\
        (i < List.length (h' l))%nat /\ at_ (h' l) i == at_ (h l) i * inject_Z (2 ^ Z.of_nat k)).
    { clear h k Hi. induction k as [|k IH]; intros h j Hi; cbn [repeat fold_left].
      - exists h. rewrite Nat.add_0_r. split; auto. split; auto. cbn. ring.
      - unfold ncall at 2. cbn [value n_sample]. set (h1 := upd h l (vadd (h l) (h l))).
        assert (E0 : h1 l = vadd (h l) (h l)) by (unfold h1, upd; now rewrite Nat.eqb_refl).
        destruct (IH h1 (S j)) as (h' & E & H1 & H2); [rewrite E0, vadd_length; auto|].
        exists h'. rewrite E. split; [f_equal; f_equal; lia|]. split; auto. rewrite H2, E0, vadd_at by auto.
        rewrite Nat2Z.inj_succ, Z.pow_succ_r by lia. rewrite inject_Z_mult. change (inject_Z 2) with 2. ring. }
    destruct (X k h 1%nat Hi) as (h' & E & H1 & H2). rewrite E. do 3 eexists. split; [reflexivity|]. cbn [nto value n_sample].
    split; [reflexivity|]. rewrite map_at by auto. rewrite H2. change (1 + k)%nat with (S k).
    field. intros Q. assert (Z.of_nat (S k) = 0)%Z; [|lia]. unfold Qeq in Q. cbn in Q. lia.
  Qed.

  (** CategorySampleCollector.  [vs]: the samples; [nth u v] is the class index of unit [u] in sample [v] *)
  Definition count_in (vs : list (list nat)) (u c : nat) : nat :=
    List.length (filter (fun v => Nat.eqb (nth u v O) c) vs).

  Lemma nth_map' {A B} (f : A -> B) l i d e : (i < List.length l)%nat -> nth i (map f l) e = f (nth i l d).
  Proof. intros H. rewrite nth_indep with (d' := f d) by now rewrite map_length. apply map_nth. Qed.
  Lemma onehot_nth k i j : (j < k)%nat -> nth j (onehot k i) O = if Nat.eqb j i then 1%nat else O.
  Proof.
    intros H. unfold onehot. rewrite (@nth_map' _ _ _ _ j O) by (rewrite seq_length; auto). now rewrite seq_nth by auto.
  Qed.
  (** [m] is the table of counts of [vs] *)
  Definition table (k n : nat) (vs m : list (list nat)) : Prop :=
    List.length m = n /\ forall u, (u < n)%nat -> List.length (nth u m []) = k /\
      forall c, (c < k)%nat -> nth c (nth u m []) O = count_in vs u c.
  Lemma ccollect_loop k n : forall vs done m j,
    (forall v, In v vs -> List.length v = n /\ forall c, In c v -> (c < k)%nat) ->
    table k n done m -> exists m', ccollect k (Some m, j) vs = Ok (Some m', (j + List.length vs)%nat) /\ table k n (done ++ vs) m'.
  Proof.
    induction vs as [|v vs IH]; intros done m j H T; cbn [ccollect].
    - exists m. rewrite Nat.add_0_r, app_nil_r. auto.
    - unfold ccall. destruct (H v (or_introl eq_refl)) as [Lv Cv].
      replace (forallb (fun i => Nat.ltb i k) v) with true by (symmetry; apply forallb_forall; intros c Hc; apply Nat.ltb_lt; auto).
      cbn [bind fst snd]. destruct T as [T1 T2].
      destruct (IH (done ++ [v]) (madd m (map (onehot k) v)) (S j)) as (m' & E & T').
      + intros w Hw. apply H. now right.
      + assert (Lm : List.length (combine m (map (onehot k) v)) = n) by (rewrite combine_length, map_length; lia).
        split; [unfold madd; now rewrite map_length|]. intros u Hu. destruct (T2 u Hu) as [T3 T4].
        unfold madd. rewrite (@nth_map' _ _ _ _ u ([], [])) by lia.
        rewrite combine_nth by (rewrite map_length; lia). cbn [fst snd]. rewrite (@nth_map' _ _ (onehot k) v u O) by lia.
        assert (Lc : List.length (combine (nth u m []) (onehot k (nth u v O))) = k) by (rewrite combine_length; unfold onehot; rewrite map_length, seq_length; lia).
        split; [rewrite map_length; exact Lc|]. intros c Hc.
        rewrite (@nth_map' _ _ _ _ c (O, O)) by lia. rewrite combine_nth by (unfold onehot; rewrite map_length, seq_length; lia). cbn [fst snd].
        rewrite T4, onehot_nth by auto. unfold count_in. rewrite filter_app, app_length. cbn [filter]. rewrite (Nat.eqb_sym (nth u v O) c).
        destruct (Nat.eqb c (nth u v O)); reflexivity.
      + exists m'. rewrite E. rewrite <- app_assoc in T'. split; auto. f_equal. f_equal. cbn. lia.
  Qed.
  Lemma ccollect_spec k n vs : vs <> [] -> (forall v, In v vs -> List.length v = n /\ forall c, In c v -> (c < k)%nat) ->
    exists m, ccollect k (None, O) vs = Ok (Some m, List.length vs) /\ table k n vs m.
  Proof.
    intros Ne H. destruct vs as [|v vs]; [congruence|]. cbn [ccollect]. unfold ccall. destruct (H v (or_introl eq_refl)) as [Lv Cv].
    replace (forallb (fun i => Nat.ltb i k) v) with true by (symmetry; apply forallb_forall; intros c Hc; apply Nat.ltb_lt; auto).
    cbn [bind fst snd].
    destruct (@ccollect_loop k n vs [v] (map (onehot k) v) 1) as (m' & E & T').
    - intros w Hw. apply H. now right.
    - split; [now rewrite map_length|]. intros u Hu. rewrite (@nth_map' _ _ (onehot k) v u O) by lia.
      split; [unfold onehot; now rewrite map_length, seq_length|]. intros c Hc. rewrite onehot_nth by auto. unfold count_in. cbn [filter].
      rewrite (Nat.eqb_sym (nth u v O) c). destruct (Nat.eqb c (nth u v O)); reflexivity.
    - exists m'. rewrite E. split; auto.
  Qed.
  (** with proba: the share of the samples in which unit [u] had class [c] *)
  Theorem C82_proba k n vs : vs <> [] -> (forall v, In v vs -> List.length v = n /\ forall c, In c v -> (c < k)%nat) ->
    exists s p, ccollect k (None, O) vs = Ok s /\ cproba s = Ok p /\ List.length p = n /\
      forall u c, (u < n)%nat -> (c < k)%nat ->
        at_ (nth u p []) c = inject_Z (Z.of_nat (count_in vs u c)) / inject_Z (Z.of_nat (List.length vs)).
  Proof.
    intros Ne H. destruct (ccollect_spec Ne H) as (m & E & T1 & T2). eexists. eexists. split; [exact E|]. cbn [cproba fst snd].
    split; [reflexivity|]. split; [now rewrite map_length|]. intros u c Hu Hc. destruct (T2 u Hu) as [T3 T4].
    rewrite (@nth_map' _ _ _ m u []) by lia. unfold at_. rewrite (@nth_map' _ _ _ _ c O) by lia. now rewrite T4.
  Qed.
  Lemma argmax_from_spec l : forall i best bv, (best < i)%nat ->
    let r := argmax_from i best bv l in
    (r = best /\ (forall x, In x l -> x <= bv)%nat) \/
    (exists j, r = i + j /\ (j < List.length l) /\ (bv < nth j l 0) /\ (forall t, t < List.length l -> nth t l 0 <= nth j l 0) /\ (forall t, t < j -> nth t l 0 < nth j l 0))%nat.
  Proof.
    induction l as [|x l IH]; intros i best bv Hb; cbn [argmax_from].
    - left. split; auto. intros ? [].
    - destruct (Nat.ltb_spec bv x) as [L|L].
      + right. destruct (IH (S i) i x ltac:(lia)) as [[E A]|(j & E & J1 & J2 & J3 & J4)].
        * exists O. rewrite E. repeat split; cbn; try lia. intros [|t] Ht; [lia|]. cbn. apply A. apply nth_In. lia.
        * exists (S j). rewrite E. repeat split; cbn; try lia.
          -- intros [|t] Ht; [lia|]. apply J3. lia.
          -- intros [|t] Ht; [lia|]. apply J4. lia.
      + destruct (IH (S i) best bv ltac:(lia)) as [[E A]|(j & E & J1 & J2 & J3 & J4)].
        * left. split; auto. intros y [<-|Hy]; auto.
        * right. exists (S j). rewrite E. repeat split; cbn; try lia.
          -- intros [|t] Ht; [lia|]. apply J3. lia.
          -- intros [|t] Ht; [lia|]. apply J4. lia.
  Qed.
  Lemma argmax_spec l : l <> [] ->
    (argmax l < List.length l /\ (forall t, t < List.length l -> nth t l 0 <= nth (argmax l) l 0) /\ (forall t, t < argmax l -> nth t l 0 < nth (argmax l) l 0))%nat.
  Proof.
    destruct l as [|x l]; [congruence|]. intros _. unfold argmax.
    destruct (@argmax_from_spec l 1 0 x ltac:(lia)) as [[E A]|(j & E & J1 & J2 & J3 & J4)]; rewrite E.
    - cbn. repeat split; try lia. intros [|t] Ht; [lia|]. apply A. apply nth_In. lia.
    - cbn [Nat.add List.length nth]. repeat split; try lia.
      + intros [|t] Ht; [lia|]. apply J3. lia.
      + intros [|t] Ht; [lia|]. apply J4. lia.
  Qed.
  (** without proba: the first of the most frequent classes *)
  Theorem C82_mode {C : Type} (classes : list C) n vs : classes <> [] -> vs <> [] ->
    (forall v, In v vs -> List.length v = n /\ forall c, In c v -> (c < List.length classes)%nat) ->
    exists s out, ccollect (List.length classes) (None, O) vs = Ok s /\ cmode classes s = Ok out /\ List.length out = n /\
      forall u, (u < n)%nat -> exists c, (c < List.length classes)%nat /\ nth_error out u = nth_error classes c /\
        (forall d, d < List.length classes -> count_in vs u d <= count_in vs u c)%nat /\
        (forall d, d < c -> count_in vs u d < count_in vs u c)%nat.
  Proof.
    intros Nc Ne H. destruct (ccollect_spec Ne H) as (m & E & T1 & T2). set (k := List.length classes) in *.
    assert (Hk : (0 < k)%nat) by (unfold k; destruct classes; [congruence|cbn; lia]).
    assert (X : forall row, In row m -> exists c, decode classes (argmax row) = Ok c /\ nth_error classes (argmax row) = Some c).
    { intros row Hr. apply (In_nth _ _ []) in Hr as (u & Hu & <-). destruct (T2 u ltac:(lia)) as [T3 _].
      destruct (@argmax_spec (nth u m [])) as [A _]; [intros Q; rewrite Q in T3; cbn in T3; lia|]. rewrite T3 in A.
      destruct (nth_error classes (argmax (nth u m []))) as [c|] eqn:Ec; [|apply nth_error_None in Ec; fold k in Ec; lia].
      exists c. unfold decode. now rewrite Ec. }
    destruct (mapE_exists _ _ _ X) as (out & Eo & Fo). exists (Some m, List.length vs), out. split; [exact E|]. split; [exact Eo|].
    assert (Lo : List.length m = List.length out) by (clear - Fo; induction Fo; cbn; auto). split; [lia|]. intros u Hu. destruct (T2 u Hu) as [T3 T4].
    destruct (@argmax_spec (nth u m [])) as (A & B & D); [intros Q; rewrite Q in T3; cbn in T3; lia|]. rewrite T3 in A, B.
    exists (argmax (nth u m [])). split; auto. split.
    - assert (Z : forall (l : list (list nat)) (q : list C) u, Forall2 (fun row c => nth_error classes (argmax row) = Some c) l q -> (u < List.length l)%nat ->
          nth_error q u = nth_error classes (argmax (nth u l []))).
      { clear. intros l q u F. revert u. induction F as [|a b l q E F IH]; intros [|u] Hu; cbn in *; try lia; auto. apply IH. lia. }
      apply Z; [exact Fo|lia].
    - split; intros d Hd; rewrite <- !T4 by lia; auto.
  Qed.
End C82.

(** ** C84: the global parameter store *)
Section C84.
  Context {St R : Type}.
  Variable empty : St.
  (** a call of fit / do / predict_raw on some network: is it fitted, which parameters does it own, and what does its body do
      with the store it finds (any effect, any exception) *)
  Record call := Call { c_check : bool; c_fitted : bool; c_state : option St; c_body : St -> St * res R }.
  Definition run_call (store : St) (c : call) : St :=
    fst (with_pyro_ps empty (c_check c) (c_fitted c) true (c_state c) (c_body c) store).
  Theorem C84_store_restored cs store : fold_left run_call cs store = store.
  Proof.
    induction cs as [|c cs IH]; cbn [fold_left]; auto. unfold run_call at 2, with_pyro_ps.
    destruct (c_check c && negb (c_fitted c)); cbn [fst]; auto. destruct (c_body c _); cbn [fst]; auto.
  Qed.
  (** and the body of a call sees only the parameters of its own network *)
  Theorem C84_isolated c store store' :
    snd (with_pyro_ps empty (c_check c) (c_fitted c) true (c_state c) (c_body c) store) =
    snd (with_pyro_ps empty (c_check c) (c_fitted c) true (c_state c) (c_body c) store').
  Proof.
    unfold with_pyro_ps. destruct (c_check c && negb (c_fitted c)); auto. now destruct (c_body c _).
  Qed.
End C84.

(** ** Examples: the hypotheses can be met *)
Section Examples.
  Definition nm (s : string) : str := list_ascii_of_string s.
  Definition tsort0 (g : graph) : list str := match topological_sort g with Ok l => l | Err _ => [] end.
  Lemma tsort0_correct : topo_correct tsort0.
  Proof.
    intros g W AC. unfold tsort0. destruct (topological_sort_complete W AC) as (l & E). rewrite E.
    now apply topological_sort_sound.
  Qed.
  (** t -> m -> y, b -> y *)
  Definition g0 : graph := of_edges [(nm "t", nm "m", K 0); (nm "m", nm "y", K 0); (nm "b", nm "y", K 0)].
  Lemma wf_b (g : graph) : forallb (fun e => mem (fst (fst e)) (nodes g) && mem (snd (fst e)) (nodes g)) (edges g) = true -> NoDup (nodes g) -> wf g.
  Proof.
    intros H N. split; auto. intros u v (k & Hk). apply (proj1 (forallb_forall _ _) H) in Hk. cbn [fst snd] in Hk.
    apply andb_true_iff in Hk as [H1 H2]. now rewrite !mem_In in *.
  Qed.
  Lemma g0_wf : wf g0.
  Proof. apply wf_b; [reflexivity|]. vm_compute. repeat constructor; cbn; intuition discriminate. Qed.
  Example g0_good : good g0 /\ nodes g0 <> [].
  Proof. apply (is_dag1_spec g0_wf). reflexivity. Qed.
  Example ex_accept : dag_init (GOther g0) = Ok g0 /\ dag_init (GNx true g0) = Ok g0 /\ dag_init (GCausal g0) = Err NetworkXError.
  Proof. repeat split; vm_compute; reflexivity. Qed.
  Example ex_blanket : get_blanket tsort0 g0 (NList [nm "m"]) Markov false true = Ok [nm "t"; nm "b"; nm "y"].
  Proof. vm_compute. reflexivity. Qed.
  Example ex_blanket_str : get_blanket tsort0 (of_edges [(nm "aa", nm "bb", K 0)]) (NStr (nm "bb")) Markov false false = Ok [nm "aa"; nm "bb"].
  Proof. vm_compute. reflexivity. Qed.
  (** ... and single-letter nodes are dropped instead *)
  Example ex_blanket_str2 : get_blanket tsort0 (of_edges [(nm "b", nm "ab", K 0)]) (NStr (nm "ab")) Markov false false = Ok [nm "ab"].
  Proof. vm_compute. reflexivity. Qed.
  Example ex_category : category_state str_leb [nm "no"; nm "yes"; nm "maybe"] = Ok [nm "maybe"; nm "no"; nm "yes"] /\
    encode str_leb [nm "maybe"; nm "no"; nm "yes"] (nm "no") = 1 /\ encode str_leb [nm "maybe"; nm "no"; nm "yes"] (nm "zzz") = 3.
  Proof. repeat split. Qed.
  (** sampling y from t only: m and b are generated too *)
  Definition F0 (n : str) (i : inputs nat) : nat := match i with Cols l => List.length n + list_sum l | Given v => v end.
  Example ex_sample : model tsort0 g0 F0 [] [(nm "t", 10)] (Some [nm "y"]) = Ok [(nm "y", 13)].
  Proof. vm_compute. reflexivity. Qed.
  Definition o0 : net nat nat nat := Net true (nodes g0) (Some [(nm "b", 7)]) [] (Some 0).
  Definition enc0 (n : str) (v : nat) : nat := v.
  Definition svi0 (s : option nat) (e : dict nat) (b : list str) (c : option (list str)) : nat * dict nat := (0, []).
  Example ex_do : exists r, do_ tsort0 g0 enc0 svi0 o0 [(nm "t", 1)] None 100 Markov 5 true = (r, Ok r) /\
    interventions r = [(nm "b", 7); (nm "t", 1)].
  Proof. eexists. split; vm_compute; reflexivity. Qed.
  Example ex_do_poison : snd (do_ tsort0 g0 enc0 svi0 o0 [(nm "typo", 1)] None 100 Markov 5 true) = Err KeyError.
  Proof. vm_compute. reflexivity. Qed.
  Example ex_do_zero : snd (do_ tsort0 g0 enc0 svi0 o0 [(nm "t", 1)] None 100 Upstream 5 true) = Err ZeroDivisionError.
  Proof. vm_compute. reflexivity. Qed.
  (** C80: estimate before and after a call of predict on a network with an intervention *)
  Theorem C80_refuted : exists (g : graph) (F : str -> inputs nat -> nat) (o o' : net nat nat nat) data r kv,
    wf g /\ good g /\ predict_draw tsort0 g enc0 F o data [nm "y"] = Ok (o', r) /\ params o' <> params o /\
    estimate_draw tsort0 g F o data [nm "y"] kv <> estimate_draw tsort0 g F o' data [nm "y"] kv.
  Proof.
    exists g0, F0, o0, (Net true (nodes g0) (Some [(nm "b", 7)]) [(nm "b", 7)] (Some 0)),
      [(nm "t", 1); (nm "m", 1); (nm "b", 2)], [(nm "y", 9)], [(nm "t", 1)].
    split; [apply g0_wf|]. split; [apply g0_good|]. split; [vm_compute; reflexivity|]. split; [discriminate|].
    vm_compute. discriminate.
  Qed.
  Example ex_estimate_observed : estimate_draw tsort0 g0 F0 (Net true (nodes g0) None [] (Some 0) : net nat nat nat)
    [(nm "t", 1); (nm "m", 1); (nm "b", 2); (nm "y", 5)] [nm "y"] [(nm "t", 9)] = Ok [(nm "y", 5)].
  Proof. vm_compute. reflexivity. Qed.
  Example ex_estimate : estimate_draw tsort0 g0 F0 (Net true (nodes g0) None [] (Some 0) : net nat nat nat)
    [(nm "t", 1); (nm "b", 2)] [nm "y"] [(nm "t", 9)] = Ok [(nm "y", 5)].
  Proof. vm_compute. reflexivity. Qed.
  Example ex_estimate_direct : estimate_draw tsort0 g0 F0 (Net true (nodes g0) None [] (Some 0) : net nat nat nat)
    [(nm "t", 1); (nm "b", 2)] [nm "y"] [(nm "m", 9)] = Ok [(nm "y", 12)].
  Proof. vm_compute. reflexivity. Qed.
  Example ex_mode : (do s <- ccollect 3 (None, 0) [[0; 2]; [1; 2]; [1; 0]] ; cmode [nm "a"; nm "b"; nm "c"] s) = Ok [nm "b"; nm "c"].
  Proof. reflexivity. Qed.
End Examples.

Print Assumptions C57_accepts.
Print Assumptions C57_networkx.
Print Assumptions C57_networkx_nodes.
Print Assumptions C57_refuted_causal.
Print Assumptions C56_plain.
Print Assumptions C56_arguments.
Print Assumptions C56_get_blanket.
Print Assumptions C56_refuted_string.
Print Assumptions C58_round_trip.
Print Assumptions C58_unknown.
Print Assumptions C79_sampling.
Print Assumptions C79_unique.
Print Assumptions C77_refit_exact.
Print Assumptions C77_refuted.
Print Assumptions C78_do.
Print Assumptions C78_failure_partial.
Print Assumptions C78_refuted.
Print Assumptions C78_refuted_poisoned.
Print Assumptions C83_do_ok.
Print Assumptions C83_refuted.
Print Assumptions C80_predict_partial.
Print Assumptions C80_predict_again.
Print Assumptions C80_predict.
Print Assumptions C80_refuted.
Print Assumptions C81_estimate.
Print Assumptions C81_refuted_observed.
Print Assumptions C81_refuted_mediator.
Print Assumptions C81_refuted_indirect.
Print Assumptions C82_mean.
Print Assumptions C82_refuted_input.
Print Assumptions C82_refuted_alias.
Print Assumptions C82_proba.
Print Assumptions C82_mode.
Print Assumptions C84_store_restored.
Print Assumptions C84_isolated.
