(** Properties C01-C12 of CausalGraph. *)
From Verif Require Import Base NxModel NxSpec ReachProofs NxProofs GraphModel GraphSpec GraphProofs ExplicitProofs.
Set Implicit Arguments.
Local Open Scope string_scope.
Local Open Scope list_scope.

Lemma cg_is_dag_spec g : NoDup (keys (causation g)) -> (cg_is_dag g = true <-> acyclic (is_parent g)).
Proof.
  intros ND. unfold cg_is_dag. rewrite (is_dag_spec (gwf_wf (observed_dag_of_gwf (causation g)))).
  unfold acyclic. split; intros H x (y & Hxy & Hyx); apply (H x); exists y.
  - split; [now apply observed_ed|]. now apply observed_reach.
  - split; [now apply observed_ed in Hxy|]. now apply observed_reach in Hyx.
Qed.

(** Boolean versions of the side conditions, to check examples by computation. *)
Fixpoint nodupb {A} {EA : EqDec A} (l : list A) : bool :=
  match l with [] => true | x :: r => negb (mem x r) && nodupb r end.
Lemma nodupb_spec {A} {EA : EqDec A} (l : list A) : nodupb l = true -> NoDup l.
Proof.
  induction l as [|x r IH]; simpl; [constructor|]. rewrite andb_true_iff, negb_true_iff, mem_nIn.
  intros [H1 H2]. constructor; auto.
Qed.
Definition ok_dictb (c : dict) : bool := nodupb (keys c) && forallb (fun e => nodupb (snd e)) c.
Lemma ok_dictb_spec c : ok_dictb c = true -> ok_dict c.
Proof.
  unfold ok_dictb. rewrite andb_true_iff, forallb_forall. intros [H1 H2]. split; [now apply nodupb_spec|].
  intros ch. destruct (In_dec ch (keys c)) as [Hi|Hn].
  - apply nodupb_spec. apply (H2 (ch, lookup c ch)). now apply In_lookup.
  - rewrite lookup_nokey by auto. constructor.
Qed.

(* ------------------------------------------------------------------ C01 *)
(** After every history of in-place calls (exceptions caught by the caller), causation, the key-0 edges of dag
    and observed_dag agree.  Missing for the full claim: a history that adds an edge which is already there
    (see C01_refuted). *)
Theorem C01_causation_dag_agree_partial c arcs os :
  ok_dict c -> fresh_adds (init c None arcs) os ->
  let g := run (init c None arcs) os in
  forall p ch, (In p (lookup (causation g) ch) <-> In (p, ch, K 0) (edges (dag g))) /\
               (ed (observed_dag g) p ch <-> In (p, ch, K 0) (edges (dag g))).
Proof.
  intros Hc F g p ch. pose proof (run_wf _ (init_wf arcs Hc) F) as W. fold g in W.
  split; [apply (wc_sync W)|]. rewrite observed_ed by apply W. apply (wc_sync W).
Qed.
(** ... and when no call raises, both are the graph obtained by applying the calls to the declared edges. *)
Theorem C01_history_partial c arcs os :
  ok_dict c -> fresh_adds (init c None arcs) os -> Forall full_arc_op os -> all_ok (init c None arcs) os ->
  let g := run (init c None arcs) os in
  forall p ch, In p (lookup (causation g) ch) <-> obs (arun os (adecl c arcs)) p ch.
Proof.
  intros Hc F A O g. destruct (run_refines (init_implements arcs Hc) F A O) as (_ & _ & H & _). exact H.
Qed.
Theorem C01_refuted :
  exists c arcs os p ch, ok_dict c /\ all_ok (init c None arcs) os /\
    let g := run (init c None arcs) os in
    In p (lookup (causation g) ch) /\ ~ In (p, ch, K 0) (edges (dag g)).
Proof.
  exists [("a", []); ("b", ["a"])], [], [AddEdge "a" "b" true; RemoveEdge ("a", "b") true], "a", "b".
  split; [now apply ok_dictb_spec|]. split; [vm_compute; auto|]. vm_compute. auto.
Qed.

Definition ex_dict : dict := [("z", []); ("x", ["z"]); ("y", ["x"; "z"])].
Definition ex_hist : list op :=
  [AddEdges [("z", "w"); ("w", "y")] true; AddEdges [("z", "y")] false; RemoveEdge ("z", "x") true;
   RemoveIncoming ["x"]; RemoveNodes ["w"]].
Example C01_example :
  ok_dict ex_dict /\ fresh_adds (init ex_dict None [("x", "y")]) ex_hist /\ Forall full_arc_op ex_hist /\
  all_ok (init ex_dict None [("x", "y")]) ex_hist.
Proof.
  split; [now apply ok_dictb_spec|]. split; [|split].
  - vm_compute. intuition (try discriminate); try (repeat constructor; vm_compute; intuition discriminate);
      repeat match goal with
      | H : (_, _) = (_, _) |- _ => injection H as <- <-
      end; intuition discriminate.
  - repeat constructor.
  - vm_compute. auto 10.
Qed.

(* ------------------------------------------------------------------ C02 *)
(** Missing for the full claim: add_edge(..., observed=False) (see C02_refuted) and cyclic observed graphs. *)
Theorem C02_latent_arcs_partial c arcs os :
  ok_dict c -> fresh_adds (init c None arcs) os -> Forall full_arc_op os -> all_ok (init c None arcs) os ->
  let g := run (init c None arcs) os in
  cg_is_dag g = true ->
  lists_pairs (latent_confounding_arcs g) (arc (arun os (adecl c arcs))).
Proof.
  intros Hc F A O g D. destruct (run_refines (init_implements arcs Hc) F A O) as (W & S & _ & H). fold g in W, S, H.
  destruct (latent_arcs_spec W S) as (L1 & L2 & L3); [apply cg_is_dag_spec; auto; apply W|].
  split; auto. split; auto. intros a b. rewrite <- H. apply L3.
Qed.
Example C02_example : cg_is_dag (run (init ex_dict None [("x", "y")]) ex_hist) = true /\
  latent_confounding_arcs (run (init ex_dict None [("x", "y")]) ex_hist) = [("z", "y")].
Proof. split; reflexivity. Qed.
Theorem C02_refuted :
  exists c os a b, ok_dict c /\ all_ok (init c None []) os /\ fresh_adds (init c None []) os /\
    let g := run (init c None []) os in
    cg_is_dag g = true /\ arc (arun os (adecl c [])) a b /\ latent_confounding_arcs g = [].
Proof.
  exists ex_dict, [AddEdge "x" "y" false], "x", "y".
  split; [now apply ok_dictb_spec|]. split; [vm_compute; auto|]. split; [vm_compute; auto|].
  split; [reflexivity|]. split; [|reflexivity].
  right. left. now left.
Qed.

(* ------------------------------------------------------------------ C03 *)
Theorem C03_remove_nodes g ns : remove_nodes_new g ns = remove_nodes g ns.
Proof. reflexivity. Qed.
Theorem C03_remove_edges g es b :
  remove_edges_from_new g es b =
  match snd (remove_edges_from g es b) with None => Ok (fst (remove_edges_from g es b)) | Some e => Err e end.
Proof. unfold remove_edges_from_new. now destruct (remove_edges_from g es b) as [g' [e|]]. Qed.
Theorem C03_add_arcs g es : add_edges_from_new g es false = add_edges_from g es false.
Proof. reflexivity. Qed.

Lemma keys_of_nil {A} {EA : EqDec A} (d : mdg A) u v : ~ ed d u v -> keys_of d u v = [].
Proof.
  intros H. unfold keys_of. destruct (filter _ _) as [|((a, b), k) r] eqn:E; auto. exfalso. apply H.
  assert (Hi : In (a, b, k) (filter (fun e => eqb (fst e) (u, v)) (edges d))) by (rewrite E; now left).
  apply filter_In in Hi as [Hi He]. apply eqb_eq in He. cbn in He. injection He as -> ->. exists k; auto.
Qed.
(** The observed in-place and new variants agree when none of the added edges is present in any form. *)
Theorem C03_add_edges_partial g es :
  NoDup es -> (forall u v, In (u, v) es -> ~ ed (dag g) u v) ->
  add_edges_from_new g es true = add_edges_from g es true.
Proof.
  unfold add_edges_from_new, add_edges_from, add_edges_nokey. revert g.
  induction es as [|(u, v) es IH]; intros g ND H; cbn [fold_left].
  - now destruct g.
  - inversion ND as [|? ? Hn ND']; subst. rewrite <- IH; auto.
    + cbn [add_edge_obs causation dag fst snd]. f_equal. f_equal.
      unfold add_edge_nokey, new_edge_key. rewrite keys_of_nil by (apply H; now left). reflexivity.
    + intros a b Hi (k & Hk). cbn [add_edge_obs dag fst snd] in Hk. apply add_edge_key_edges in Hk as [Hk|Hk].
      * injection Hk as -> -> _. auto.
      * eapply H; [right; eauto|exists k; eauto].
Qed.
Example C03_example : let g := init ex_dict None [("x", "y")] in
  NoDup [("z", "w"); ("w", "y")] /\ (forall u v, In (u, v) [("z", "w"); ("w", "y")] -> ~ ed (dag g) u v).
Proof.
  split; [now apply nodupb_spec|]. intros u v [H|[H|[]]]; injection H as <- <-;
  intros Hc; apply has_edge_spec in Hc; discriminate.
Qed.
Theorem C03_add_edges_refuted :
  exists g es, NoDup es /\ wf_cg g /\ add_edges_from_new g es true <> add_edges_from g es true.
Proof.
  exists (init [("x", []); ("y", [])] None [("x", "y")]), [("x", "y")].
  split; [now apply nodupb_spec|]. split; [apply init_wf; now apply ok_dictb_spec|]. vm_compute. discriminate.
Qed.
(** In place, add_nodes never registers the nodes in causation, with new=True it does. *)
Theorem C03_add_nodes_refuted g n :
  ~ In n (keys (causation g)) -> ~ In n (nodes (dag g)) ->
  ~ In n (keys (causation (add_nodes g [n]))) /\ In n (keys (causation (add_nodes_new g [n]))).
Proof.
  intros H1 H2. rewrite add_nodes_causation. split; auto.
  unfold add_nodes_new. cbn [fold_left causation]. apply mem_nIn in H2. rewrite H2.
  apply keys_update. now left.
Qed.
Theorem C03_add_nodes_dag g ns : dag (add_nodes_new g ns) = dag (add_nodes g ns).
Proof. reflexivity. Qed.

(* ------------------------------------------------------------------ C04 *)
Theorem C04_ancestors g x v : NoDup (keys (causation g)) ->
  (In v (ancestors g x) <-> exists u, In u x /\ reach (fun p c => In p (lookup (causation g) c)) v u) /\
  (In v (descendents g x) <-> exists u, In u x /\ reach (fun p c => In p (lookup (causation g) c)) u v).
Proof. intros ND. split; [now apply ancestors_spec|now apply descendents_spec]. Qed.
Example C04_example : NoDup (keys ex_dict) /\ ancestors (init ex_dict None []) ["y"] = ["y"; "x"; "z"].
Proof. split; [now apply nodupb_spec|reflexivity]. Qed.

(* ------------------------------------------------------------------ C05 *)
(** Every node of the multigraph is a key of causation (true for a dictionary that has an entry for each name). *)
Definition closed (g : cg) : Prop := incl (nodes (dag g)) (keys (causation g)).

(** Missing for the full claim: names that occur only as parents or were added in place (not keys of
    causation) survive in the subgraph (see C05_refuted). *)
Theorem C05_build_sub_graph_partial g s : wf_cg g -> closed g -> incl s (keys (causation g)) ->
  exists g', build_sub_graph g s = Ok g' /\
    (forall n, In n (keys (causation g')) <-> In n s) /\
    (forall n, In n (nodes (dag g')) <-> In n (nodes (dag g)) /\ In n s) /\
    (forall p c, In p (lookup (causation g') c) <-> In p (lookup (causation g) c) /\ In p s /\ In c s) /\
    (forall u v k, In (u, v, k) (edges (dag g')) <-> In (u, v, k) (edges (dag g)) /\ In u s /\ In v s) /\
    wf_cg g'.
Proof.
  intros W C Hs. unfold build_sub_graph. rewrite (proj2 (check_nodes_ok _ _) Hs). cbn [bind].
  eexists. split; [reflexivity|]. set (r := diff (keys (causation g)) s).
  assert (Hr : forall n, In n (keys (causation g)) -> (~ In n r <-> In n s)).
  { intros n Hn. unfold r. rewrite diff_In. destruct (In_dec n s); tauto. }
  change (remove_nodes_new g r) with (remove_nodes g r).
  split; [|split; [|split; [|split; [|now apply remove_nodes_cg_wf]]]].
  - intros n. cbn [remove_nodes causation]. rewrite fold_remove_node_keys. split.
    + intros [H1 H2]. now apply Hr.
    + intros H. split; auto. apply Hr; auto.
  - intros n. cbn [remove_nodes dag]. rewrite remove_nodes_nodes. split; intros [H1 H2]; split; auto; apply Hr; auto.
  - intros p c. rewrite (remove_nodes_parent r p c W). change (In p (lookup (causation g) c)) with (is_parent g p c).
    split; intros (H1 & H2 & H3); split; auto; destruct (parent_nodes W _ _ H1); split; apply Hr; auto.
  - intros u v k. cbn [remove_nodes dag]. rewrite remove_nodes_edges.
    split; intros (H1 & H2 & H3); split; auto;
      destruct (wf_ends (gwf_wf (wc_dag W)) (ed_of _ _ _ _ H1)); split; apply Hr; auto.
Qed.
Theorem C05_unknown g s : ~ incl s (keys (causation g)) -> build_sub_graph g s = Err AssertionError.
Proof.
  intros H. unfold build_sub_graph. destruct (check_nodes_case (keys (causation g)) s) as [[Hi _]|[_ ->]]; easy.
Qed.
Definition closedb (g : cg) : bool := subset (nodes (dag g)) (keys (causation g)).
Lemma closedb_spec g : closedb g = true -> closed g.
Proof. intros H. now apply subset_spec. Qed.
Example C05_example : let g := init ex_dict None [("x", "y")] in
  wf_cg g /\ closed g /\ incl ["x"; "y"] (keys (causation g)).
Proof.
  split; [apply init_wf; now apply ok_dictb_spec|]. split; [now apply closedb_spec|].
  now apply subset_spec.
Qed.
Theorem C05_refuted :
  exists g s g' n, wf_cg g /\ build_sub_graph g s = Ok g' /\ ~ In n s /\ In n (nodes (dag g')).
Proof.
  exists (init [("y", ["x"])] None []), ["y"].
  eexists. exists "x". split; [apply init_wf; now apply ok_dictb_spec|]. split; [reflexivity|].
  split; [simpl; intuition discriminate|]. vm_compute. auto.
Qed.

(* ------------------------------------------------------------------ C06 *)
Theorem C06_remove_incoming g x : wf_cg g -> sym_arcs g -> incl x (keys (causation g)) ->
  exists g', remove_incoming_edges_new g x = Ok g' /\ remove_incoming_edges g x = (g', None) /\
    (forall p c, In p (lookup (causation g') c) <-> In p (lookup (causation g) c) /\ ~ In c x) /\
    (forall a b, In (a, b, Kn) (edges (dag g')) <-> In (a, b, Kn) (edges (dag g)) /\ ~ In a x /\ ~ In b x) /\
    (forall p c, In (p, c, K 0) (edges (dag g')) <-> In (p, c, K 0) (edges (dag g)) /\ ~ In c x) /\
    nodes (dag g') = nodes (dag g) /\ wf_cg g' /\ sym_arcs g'.
Proof.
  intros W S Hx. destruct (remove_incoming_spec W Hx) as (H0 & H1 & H2 & H3 & H4).
  unfold remove_incoming_edges_new. destruct (remove_incoming_edges g x) as [g' e]. cbn [fst snd] in *. subst e.
  assert (H3' : forall a b, arcE g' a b <-> arcE g a b /\ ~ In a x /\ ~ In b x).
  { intros a b. rewrite H3. assert (Q : arcE g a b <-> arcE g b a) by (split; apply S). tauto. }
  exists g'. split; auto. split; auto. split; [exact H2|]. split; [exact H3'|]. split; [|split; [auto|split; auto]].
  - intros p c. rewrite <- (wc_sync W p c), <- (wc_sync H1 p c). apply H2.
  - intros a b Hab. apply H3' in Hab. apply H3'. destruct Hab as (Hab & ? & ?). apply S in Hab. tauto.
Qed.
Example C06_example : let g := init ex_dict None [("x", "y")] in
  wf_cg g /\ sym_arcs g /\ incl ["x"] (keys (causation g)).
Proof.
  assert (H : ok_dict ex_dict) by now apply ok_dictb_spec.
  destruct (init_implements [("x", "y")] H) as (W & S & _). split; auto. split; auto. now apply subset_spec.
Qed.

(* ------------------------------------------------------------------ C07 *)
Theorem C07_remove_outgoing g x : wf_cg g -> incl x (keys (causation g)) ->
  exists g', remove_outgoing_edges_new g x = Ok g' /\ remove_outgoing_edges g x = (g', None) /\
    (forall p c, In p (lookup (causation g') c) <-> In p (lookup (causation g) c) /\ ~ In p x) /\
    (forall p c, In (p, c, K 0) (edges (dag g')) <-> In (p, c, K 0) (edges (dag g)) /\ ~ In p x) /\
    (forall a b, In (a, b, Kn) (edges (dag g')) <-> In (a, b, Kn) (edges (dag g))) /\
    nodes (dag g') = nodes (dag g) /\ wf_cg g'.
Proof.
  intros W Hx. destruct (remove_outgoing_spec W Hx) as (H0 & H1 & H2 & H3 & H4).
  unfold remove_outgoing_edges_new. destruct (remove_outgoing_edges g x) as [g' e]. cbn [fst snd] in *. subst e.
  exists g'. split; auto. split; auto. split; [exact H2|]. split; [|split; [exact H3|split; auto]].
  intros p c. rewrite <- (wc_sync W p c), <- (wc_sync H1 p c). apply H2.
Qed.
Example C07_example : let g := init ex_dict None [("x", "y")] in wf_cg g /\ incl ["z"] (keys (causation g)).
Proof. split; [apply init_wf; now apply ok_dictb_spec|now apply subset_spec]. Qed.

(* ------------------------------------------------------------------ C08 *)
Theorem C08_c_components g : wf_cg g -> sym_arcs g -> cg_is_dag g = true ->
  partition_by (c_components g) (nodes (dag g)) (conn (fun a b => In (a, b, Kn) (edges (dag g)))).
Proof.
  intros W S D. apply cg_is_dag_spec in D; [|apply W].
  destruct (c_components_spec _ (gwf_wf (wc_dag W))) as (P1 & P2 & P3 & P4).
  split; auto. split; auto. split; auto. intros c u v Hc Hu. rewrite (P4 c u v Hc Hu).
  apply conn_ext. intros a b. symmetry. now apply latent_arcs_spec.
Qed.
Example C08_example : let g := init [("a", []); ("b", ["a"]); ("c", ["b"]); ("d", ["c"])] None [("a", "c"); ("c", "d")] in
  c_components g = [["a"; "c"; "d"]; ["b"]] /\ cg_is_dag g = true.
Proof. split; reflexivity. Qed.
(** The partition is of dag.nodes: a name without edges is in no component. *)
Theorem C08_isolated_missing :
  exists g n, wf_cg g /\ In n (keys (causation g)) /\ forall c, In c (c_components g) -> ~ In n c.
Proof.
  exists (init [("a", []); ("b", ["a"]); ("i", [])] None []), "i".
  split; [apply init_wf; now apply ok_dictb_spec|]. split; [vm_compute; auto|].
  vm_compute. intuition (subst; simpl in *; intuition discriminate).
Qed.

(* ------------------------------------------------------------------ C09 *)
(** Missing for the full claim: user nodes called U0, U1, ... (see C09_refuted). *)
Theorem C09_explicit_partial g : wf_cg g -> no_hidden_names g ->
  (forall p c, (forall i, p <> uname i) ->
     (ed (explicit_unob_var_dag g) p c <-> In p (lookup (causation g) c))) /\
  (forall i a b, nth_error (latent_confounding_arcs g) i = Some (a, b) ->
     (forall c, ed (explicit_unob_var_dag g) (uname i) c <-> c = a \/ c = b) /\
     (forall p, ~ ed (explicit_unob_var_dag g) p (uname i))) /\
  (forall i j, uname i = uname j -> i = j) /\
  (forall i, List.length (latent_confounding_arcs g) <= i -> ~ In (uname i) (nodes (explicit_unob_var_dag g))) /\
  (cg_is_dag g = true -> is_dag (explicit_unob_var_dag g) = true).
Proof.
  intros W NH. split; [|split; [|split; [|split]]].
  - intros p c Hp. now apply explicit_user_ed.
  - intros i a b Hi. split; [intros; now apply hidden_children|intros; now apply hidden_no_parent].
  - apply uname_inj.
  - intros i Hi Hn. apply (explicit_nodes W) in Hn as [(m & [H|H])|(j & a & b & Hj & Hn)].
    + apply (parent_nodes W) in H as [H _]. eapply NH; eauto.
    + apply (parent_nodes W) in H as [_ H]. eapply NH; eauto.
    + destruct Hn as [Hn|Hn].
      * apply uname_inj in Hn as ->. assert (j < List.length (latent_confounding_arcs g)).
        { apply nth_error_Some. congruence. } lia.
      * apply nth_error_In, (arc_nodes W) in Hj. apply (NH i). destruct Hn as [->| ->]; tauto.
  - intros D. apply is_dag_spec; [apply explicit_gwf|]. apply explicit_acyclic; auto.
    apply cg_is_dag_spec; auto. apply W.
Qed.
Lemma no_hidden_names_by g :
  forallb (fun n => negb (String.prefix "U" n)) (nodes (dag g)) = true -> no_hidden_names g.
Proof.
  intros H i Hi. rewrite forallb_forall in H. specialize (H _ Hi).
  assert (P : forall s, String.prefix "U" (String (Ascii.ascii_of_nat 85) s) = true).
  { intros s. simpl. destruct s; reflexivity. }
  unfold uname in H. rewrite P in H. discriminate.
Qed.
Example C09_example : let g := init ex_dict None [("x", "y")] in
  wf_cg g /\ no_hidden_names g /\ nth_error (latent_confounding_arcs g) 0 = Some ("x", "y") /\ cg_is_dag g = true.
Proof.
  split; [apply init_wf; now apply ok_dictb_spec|]. split; [now apply no_hidden_names_by|]. split; reflexivity.
Qed.
Theorem C09_refuted :
  exists g a b c, wf_cg g /\ sym_arcs g /\ cg_is_dag g = true /\ latent_confounding_arcs g = [(a, b)] /\
    (forall u, ed (explicit_unob_var_dag g) u a -> ed (explicit_unob_var_dag g) u b ->
       c <> a /\ c <> b /\ ed (explicit_unob_var_dag g) u c) .
Proof.
  exists (init [("U0", []); ("a", []); ("b", []); ("c", ["U0"])] None [("a", "b")]), "a", "b", "c".
  assert (H : ok_dict [("U0", []); ("a", []); ("b", []); ("c", ["U0"])]) by now apply ok_dictb_spec.
  destruct (init_implements [("a", "b")] H) as (W & S & _).
  split; auto. split; auto. split; [reflexivity|]. split; [reflexivity|].
  intros u Ha Hb. apply predecessors_spec in Ha.
  vm_compute in Ha. destruct Ha as [<-|[]]. split; [discriminate|]. split; [discriminate|].
  apply has_edge_spec. reflexivity.
Qed.

(* ------------------------------------------------------------------ C10, C11 *)
Theorem C10_topo_order g : NoDup (keys (causation g)) -> cg_is_dag g = true ->
  exists l, topo_order g = Ok l /\ NoDup l /\
    (forall v, In v l <-> exists m, In v (lookup (causation g) m) \/ In m (lookup (causation g) v)) /\
    (forall l1 c l2, l = l1 ++ c :: l2 -> forall p, In p (lookup (causation g) c) -> In p l1).
Proof.
  intros ND D. unfold cg_is_dag, is_dag in D. unfold topo_order.
  destruct (topological_sort (observed_dag g)) as [l|] eqn:E; [|discriminate].
  destruct (topological_sort_sound (gwf_wf (observed_dag_of_gwf (causation g))) E) as (H1 & H2 & H3).
  exists l. split; auto. split; auto. split.
  - intros v. rewrite H2. now apply observed_dag_of_nodes.
  - intros l1 c l2 Hl p Hp. eapply H3; eauto. now apply observed_ed.
Qed.
Theorem C10_cyclic g : cg_is_dag g = false -> exists e, topo_order g = Err e.
Proof.
  unfold cg_is_dag, is_dag, topo_order. destruct (topological_sort (observed_dag g)); [discriminate|eauto].
Qed.
Example C10_example : topo_order (init ex_dict None [("x", "y")]) = Ok ["z"; "x"; "y"].
Proof. reflexivity. Qed.

Theorem C11_is_dag g : NoDup (keys (causation g)) ->
  (cg_is_dag g = true <-> forall x, ~ reach1 (fun p c => In p (lookup (causation g) c)) x x).
Proof. intros ND. now apply cg_is_dag_spec. Qed.
Example C11_example : cg_is_dag (init [("a", ["b"]); ("b", ["c"]); ("c", ["a"])] None []) = false /\
  cg_is_dag (init ex_dict None []) = true.
Proof. split; reflexivity. Qed.

(* ------------------------------------------------------------------ C12 *)
(** Missing for the full claim: user nodes called U<i>, and names without edges (NodeNotFound, C12_isolated). *)
Theorem C12_is_d_separated_partial g x y z :
  wf_cg g -> no_hidden_names g -> cg_is_dag g = true ->
  incl (x ++ y ++ z) (nodes (explicit_unob_var_dag g)) ->
  (forall a, In a x -> ~ In a z) -> (forall a, In a y -> ~ In a z) ->
  exists b : bool, is_d_separated g x y z = Ok b /\
    (b = true <-> forall l u v, In u x -> In v y -> trail (ed (explicit_unob_var_dag g)) l u v ->
                   ~ active (ed (explicit_unob_var_dag g)) (fun a => In a z) l).
Proof.
  intros W NH D Hi D1 D2. apply explicit_dsep; auto.
  - apply cg_is_dag_spec; auto. apply W.
  - intros a Ha. apply Hi. apply in_app_iff; auto.
  - intros a Ha. apply Hi. rewrite !in_app_iff; auto.
  - intros a Ha. apply Hi. rewrite !in_app_iff; auto.
Qed.
Example C12_example :
  let g := init [("a", []); ("b", []); ("m", ["a"; "b"]); ("d", ["m"])] None [("b", "d")] in
  incl (["a"] ++ ["b"] ++ ["d"]) (nodes (explicit_unob_var_dag g)) /\ cg_is_dag g = true /\
  is_d_separated g ["a"] ["b"] [] = Ok true /\ is_d_separated g ["a"] ["b"] ["d"] = Ok false.
Proof. split; [now apply subset_spec|]. repeat split. Qed.
Theorem C12_isolated_refuted :
  exists g x y, wf_cg g /\ cg_is_dag g = true /\ In x (keys (causation g)) /\ In y (keys (causation g)) /\
    is_d_separated g [x] [y] [] = Err NodeNotFound.
Proof.
  exists (init [("a", []); ("b", ["a"]); ("i", [])] None []), "i", "b".
  split; [apply init_wf; now apply ok_dictb_spec|]. repeat split; simpl; auto.
Qed.

Print Assumptions C01_history_partial.
Print Assumptions C12_is_d_separated_partial.
