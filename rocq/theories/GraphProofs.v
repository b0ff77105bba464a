(** Lemmas about the CausalGraph model. *)
From Verif Require Import Base NxModel NxSpec ReachProofs NxProofs GraphModel GraphSpec.
From Coq Require Import DecimalString DecimalNat.
Set Implicit Arguments.

(** ** Dictionaries *)
Lemma lookup_update_same c k f : lookup (update c k f) k = f (lookup c k).
Proof.
  induction c as [|[k' v] r IH]; cbn [update lookup].
  - now rewrite eqb_refl.
  - destruct (eqb k k') eqn:E; cbn [lookup]; now rewrite E.
Qed.
Lemma lookup_update_other c k k' f : k <> k' -> lookup (update c k f) k' = lookup c k'.
Proof.
  intros N. induction c as [|[a v] r IH]; cbn [update lookup].
  - destruct (eqb_spec k' k); [congruence|auto].
  - destruct (eqb_spec k a) as [->|M]; cbn [lookup].
    + destruct (eqb_spec k' a); [congruence|auto].
    + destruct (eqb_spec k' a); auto.
Qed.
Lemma lookup_update c k k' f :
  lookup (update c k f) k' = if eqb k k' then f (lookup c k) else lookup c k'.
Proof.
  destruct (eqb_spec k k') as [<-|N]; [apply lookup_update_same|now apply lookup_update_other].
Qed.
Lemma keys_update c k f x : In x (keys (update c k f)) <-> x = k \/ In x (keys c).
Proof.
  unfold keys. induction c as [|[a v] r IH]; cbn [update map fst].
  - simpl. intuition congruence.
  - destruct (eqb_spec k a) as [->|M]; cbn [map fst In].
    + intuition congruence.
    + rewrite IH. intuition congruence.
Qed.
Lemma keys_update_NoDup c k f : NoDup (keys c) -> NoDup (keys (update c k f)).
Proof.
  induction c as [|[a v] r IH]; cbn [update]; intros H.
  - constructor; [easy|constructor].
  - change (NoDup (a :: keys r)) in H. inversion H as [|? ? H1 H2]; subst.
    destruct (eqb_spec k a) as [->|M]; [exact H|].
    change (NoDup (a :: keys (update r k f))). constructor; auto.
    rewrite keys_update. intros [->|?]; auto.
Qed.
Lemma lookup_nokey c k : ~ In k (keys c) -> lookup c k = [].
Proof.
  induction c as [|[a v] r IH]; cbn [lookup keys map fst In]; auto. intros H.
  destruct (eqb_spec k a) as [->|M]; [exfalso; auto|]. apply IH. intros ?; apply H; auto.
Qed.
Lemma lookup_In_key c k p : In p (lookup c k) -> In k (keys c).
Proof.
  intros H. destruct (In_dec k (keys c)) as [|N]; auto. rewrite lookup_nokey in H by auto. destruct H.
Qed.
Lemma lookup_In c k v : NoDup (keys c) -> In (k, v) c -> lookup c k = v.
Proof.
  induction c as [|[a w] r IH]; cbn [lookup]; intros ND H; [destruct H|]. destruct H as [H|H].
  - injection H as -> ->. now rewrite eqb_refl.
  - change (NoDup (a :: keys r)) in ND. inversion ND as [|? ? H1 H2]; subst.
    destruct (eqb_spec k a) as [->|M]; auto.
    exfalso. apply H1. unfold keys. apply in_map_iff. exists (a, v); auto.
Qed.
Lemma In_lookup c k : In k (keys c) -> In (k, lookup c k) c.
Proof.
  induction c as [|[a w] r IH]; cbn [lookup keys map fst In]; [easy|]. intros H.
  destruct (eqb_spec k a) as [->|M]; [now left|]. right. apply IH. destruct H; congruence || auto.
Qed.

Lemma lookup_remove_node c n k :
  lookup (remove_node_causation c n) k = if eqb n k then [] else remove1 n (lookup c k).
Proof.
  unfold remove_node_causation, del. induction c as [|[a v] r IH]; cbn [filter map lookup fst snd].
  - destruct (eqb n k); auto.
  - destruct (eqb_spec n a) as [->|M]; cbn [negb map lookup fst snd].
    + rewrite IH. destruct (eqb_spec a k) as [->|N']; auto.
      destruct (eqb_spec k a); [congruence|auto].
    + destruct (eqb_spec k a) as [->|N']; auto.
      destruct (eqb_spec n a); [congruence|auto].
Qed.
Lemma keys_remove_node c n k : In k (keys (remove_node_causation c n)) <-> In k (keys c) /\ k <> n.
Proof.
  unfold remove_node_causation, del, keys. rewrite map_map. cbn [fst]. rewrite !in_map_iff. split.
  - intros (e & <- & He). apply filter_In in He as [H1 H2].
    apply negb_true_iff, eqb_neq in H2. split; [eauto|congruence].
  - intros ((e & <- & He) & Hn). exists e. split; auto. apply filter_In; split; auto.
    apply negb_true_iff, eqb_neq. congruence.
Qed.
Lemma keys_remove_node_NoDup c n : NoDup (keys c) -> NoDup (keys (remove_node_causation c n)).
Proof.
  unfold remove_node_causation, del, keys. rewrite map_map. cbn [fst]. apply NoDup_map_filter.
Qed.

(** ** Multigraph edits *)
Lemma add_edge_key_edges {A} {EA : EqDec A} (g : mdg A) u v k e :
  In e (edges (add_edge_key g u v k)) <-> e = (u, v, k) \/ In e (edges g).
Proof. unfold add_edge_key; cbn [edges]. apply set_add_In. Qed.
Lemma add_edge_key_nodes {A} {EA : EqDec A} (g : mdg A) u v k n :
  In n (nodes (add_edge_key g u v k)) <-> n = u \/ n = v \/ In n (nodes g).
Proof. unfold add_edge_key; cbn [nodes]. rewrite !set_add_In. tauto. Qed.
Lemma add_edges_key_edges {A} {EA : EqDec A} es : forall (g : mdg A) e,
  In e (edges (add_edges_key g es)) <-> In e es \/ In e (edges g).
Proof.
  induction es as [|((u, v), k) es IH]; intros g e; cbn [add_edges_key fold_left].
  - simpl; tauto.
  - change (fold_left _ es ?x) with (add_edges_key x es). rewrite IH, add_edge_key_edges.
    cbn [fst snd In]. intuition congruence.
Qed.
Lemma add_edges_key_nodes {A} {EA : EqDec A} es : forall (g : mdg A) n,
  In n (nodes (add_edges_key g es)) <->
  (exists u v k, In (u, v, k) es /\ (n = u \/ n = v)) \/ In n (nodes g).
Proof.
  induction es as [|((u, v), k) es IH]; intros g n; cbn [add_edges_key fold_left].
  - split; [auto|]. intros [(u & v & k & [] & _)|?]; auto.
  - change (fold_left _ es ?x) with (add_edges_key x es). rewrite IH, add_edge_key_nodes. cbn [fst snd].
    split.
    + intros [(a & b & c & Hi & Hn)|[->|[->|?]]]; auto.
      * left. exists a, b, c. split; [now right|auto].
      * left. exists u, v, k. split; [now left|auto].
      * left. exists u, v, k. split; [now left|auto].
    + intros [(a & b & c & [Hi|Hi] & Hn)|?]; auto.
      * injection Hi as -> -> ->. tauto.
      * left. eauto 6.
Qed.

Record gwf {A} (g : mdg A) : Prop := { gwf_wf : wf g; gwf_edges : NoDup (edges g) }.

Lemma ed_of {A} (g : mdg A) u v k : In (u, v, k) (edges g) -> ed g u v.
Proof. intros H; exists k; auto. Qed.

Lemma gwf_empty {A} : gwf (@empty_mdg A).
Proof. repeat constructor; destruct H; destruct H. Qed.
Lemma gwf_add_edge_key {A} {EA : EqDec A} (g : mdg A) u v k : gwf g -> gwf (add_edge_key g u v k).
Proof.
  intros [[H1 H2] H3]. split; [split|].
  - cbn [add_edge_key nodes]. auto using set_add_NoDup.
  - intros a b (c & Hc). apply add_edge_key_edges in Hc. rewrite !add_edge_key_nodes.
    destruct Hc as [Hc|Hc]; [injection Hc as -> -> ->; auto|].
    apply ed_of, H2 in Hc. tauto.
  - cbn [add_edge_key edges]. now apply set_add_NoDup.
Qed.
Lemma gwf_add_edges_key {A} {EA : EqDec A} es : forall (g : mdg A), gwf g -> gwf (add_edges_key g es).
Proof.
  induction es as [|((u, v), k) es IH]; intros g H; cbn [add_edges_key fold_left]; auto.
  apply IH. now apply gwf_add_edge_key.
Qed.
Lemma gwf_add_nodes {A} {EA : EqDec A} ns : forall (g : mdg A), gwf g -> gwf (add_nodes_from g ns).
Proof.
  induction ns as [|n ns IH]; intros g H; cbn [add_nodes_from fold_left]; auto.
  apply IH. destruct H as [[H1 H2] H3]. split; [split|].
  - cbn. now apply set_add_NoDup.
  - intros a b Hab. cbn [add_node nodes]. rewrite !set_add_In. apply H2 in Hab. tauto.
  - exact H3.
Qed.
Lemma add_nodes_from_edges {A} {EA : EqDec A} ns : forall (g : mdg A), edges (add_nodes_from g ns) = edges g.
Proof. induction ns as [|n ns IH]; intros g; cbn [add_nodes_from fold_left]; auto.
  change (fold_left _ ns ?x) with (add_nodes_from x ns). now rewrite IH. Qed.
Lemma add_nodes_from_nodes {A} {EA : EqDec A} ns : forall (g : mdg A) n,
  In n (nodes (add_nodes_from g ns)) <-> In n ns \/ In n (nodes g).
Proof.
  induction ns as [|a ns IH]; intros g n; cbn [add_nodes_from fold_left]; [simpl; tauto|].
  change (fold_left _ ns ?x) with (add_nodes_from x ns). rewrite IH. cbn [add_node nodes].
  rewrite set_add_In. simpl. intuition congruence.
Qed.
Lemma gwf_remove_nodes {A} {EA : EqDec A} (g : mdg A) ns : gwf g -> gwf (remove_nodes_from g ns).
Proof.
  intros [H1 H2]. split; [now apply remove_nodes_wf|]. cbn. now apply NoDup_filter.
Qed.
Lemma gwf_filter {A} (g : mdg A) f : gwf g -> gwf (MDG (nodes g) (filter f (edges g))).
Proof.
  intros [[H1 H2] H3]. split; [split|]; cbn; auto.
  - intros u v (k & Hk). cbn in Hk. apply filter_In in Hk as [Hk _]. eapply H2, ed_of; eauto.
  - now apply NoDup_filter.
Qed.
Lemma gwf_remove_edges_key {A} {EA : EqDec A} (g : mdg A) es : gwf g -> gwf (remove_edges_key g es).
Proof. apply gwf_filter. Qed.
Lemma remove_edge_key_ok {A} {EA : EqDec A} (g d : mdg A) u v k :
  remove_edge_key g u v k = Ok d <->
  In (u, v, k) (edges g) /\ d = MDG (nodes g) (filter (fun e => negb (eqb e (u, v, k))) (edges g)).
Proof.
  unfold remove_edge_key. destruct (mem_spec (u, v, k) (edges g)); split; intros H; try easy.
  - injection H as <-. auto.
  - destruct H as [_ ->]. auto.
Qed.
Lemma remove_edges_key_edges {A} {EA : EqDec A} (g : mdg A) es e :
  In e (edges (remove_edges_key g es)) <-> In e (edges g) /\ ~ In e es.
Proof. cbn. rewrite filter_In, negb_true_iff, mem_nIn. tauto. Qed.

(** ** observed_dag *)
Lemma obs_edges_In c p ch k :
  NoDup (keys c) -> (In (p, ch, k) (obs_edges c) <-> k = K 0 /\ In p (lookup c ch)).
Proof.
  intros ND. unfold obs_edges. rewrite in_flat_map. split.
  - intros ((a, v) & Hi & Hm). cbn [fst snd] in Hm. apply in_map_iff in Hm as (q & Hq & Hv).
    injection Hq as -> -> ->. split; auto. now rewrite (lookup_In _ _ _ ND Hi).
  - intros [-> H]. exists (ch, lookup c ch). split.
    + apply In_lookup. eapply lookup_In_key; eauto.
    + cbn [fst snd]. apply in_map_iff. eauto.
Qed.
Lemma observed_dag_of_edges c p ch k : NoDup (keys c) ->
  (In (p, ch, k) (edges (observed_dag_of c)) <-> k = K 0 /\ In p (lookup c ch)).
Proof.
  intros ND. unfold observed_dag_of. rewrite add_edges_key_edges, obs_edges_In by auto. simpl. tauto.
Qed.
Lemma observed_dag_of_ed c p ch : NoDup (keys c) ->
  (ed (observed_dag_of c) p ch <-> In p (lookup c ch)).
Proof.
  intros ND. unfold ed. split.
  - intros (k & Hk). apply observed_dag_of_edges in Hk; tauto.
  - intros H. exists (K 0). apply observed_dag_of_edges; auto.
Qed.
Lemma observed_dag_of_gwf c : gwf (observed_dag_of c).
Proof. apply gwf_add_edges_key, gwf_empty. Qed.
Lemma observed_dag_of_nodes c n : NoDup (keys c) ->
  (In n (nodes (observed_dag_of c)) <-> exists m, In n (lookup c m) \/ In m (lookup c n)).
Proof.
  intros ND. unfold observed_dag_of. rewrite add_edges_key_nodes. cbn. split.
  - intros [(u & v & k & Hi & Hn)|[]]. apply obs_edges_In in Hi as [-> Hi]; auto.
    destruct Hn as [->| ->]; eauto.
  - intros (m & [H|H]); left.
    + exists n, m, (K 0). split; auto. now apply obs_edges_In.
    + exists m, n, (K 0). split; auto. now apply obs_edges_In.
Qed.
Lemma observed_dag_of_simple c : NoDup (keys c) -> simple (observed_dag_of c).
Proof.
  intros ND. unfold simple. pose proof (gwf_edges (observed_dag_of_gwf c)) as H.
  assert (K0 : forall e, In e (edges (observed_dag_of c)) -> snd e = K 0).
  { intros ((u, v), k) He. apply observed_dag_of_edges in He; simpl; tauto. }
  induction (edges (observed_dag_of c)) as [|e es IH]; simpl; [constructor|].
  inversion H as [|? ? H1 H2]; subst. constructor.
  - intros Hc. apply in_map_iff in Hc as (e' & He' & Hi). apply H1.
    destruct e as [x k], e' as [x' k']. simpl in He'. subst x'.
    assert (k = K 0) by (apply (K0 (x, k)); now left).
    assert (k' = K 0) by (apply (K0 (x, k')); now right). subst. auto.
  - apply IH; auto. intros; apply K0; now right.
Qed.

(** ** The object invariant *)
Definition arcE (g : cg) (a b : node) : Prop := In (a, b, Kn) (edges (dag g)).

Record wf_cg (g : cg) : Prop := {
  wc_keys : NoDup (keys (causation g));
  wc_pars : forall c, NoDup (lookup (causation g) c);
  wc_sync : forall p c, is_parent g p c <-> dag_obs g p c;
  wc_dag : gwf (dag g);
  wc_key : forall u v k, In (u, v, k) (edges (dag g)) -> k = K 0 \/ k = Kn }.

Definition sym_arcs (g : cg) : Prop := forall a b, arcE g a b -> arcE g b a.

Lemma wc_ok_dict g : wf_cg g -> ok_dict (causation g).
Proof. intros H. split; apply H. Qed.

Lemma fold_add_arc_edges arcs : forall (d : mdg node) e,
  In e (edges (fold_left add_arc arcs d)) <->
  In e (edges d) \/ (snd e = Kn /\ pair_in arcs (fst (fst e)) (snd (fst e))).
Proof.
  induction arcs as [|(a, b) arcs IH]; intros d e; cbn [fold_left].
  - unfold pair_in; simpl; tauto.
  - rewrite IH. unfold add_arc. rewrite add_edges_key_edges. unfold pair_in. destruct e as ((u, v), k).
    cbn [fst snd In]. split.
    + intros [[[H|[H|[]]]|H]|H]; try (injection H as -> -> ->); tauto.
    + intros [H|[-> [[H|H]|[H|H]]]]; try (injection H as -> ->); tauto.
Qed.
Lemma fold_add_arc_gwf arcs : forall d : mdg node, gwf d -> gwf (fold_left add_arc arcs d).
Proof.
  induction arcs as [|e arcs IH]; intros d H; cbn [fold_left]; auto. apply IH. now apply gwf_add_edges_key.
Qed.
Lemma fold_add_arc_nodes arcs : forall (d : mdg node) n,
  In n (nodes (fold_left add_arc arcs d)) <->
  In n (nodes d) \/ exists a b, In (a, b) arcs /\ (n = a \/ n = b).
Proof.
  induction arcs as [|(a, b) arcs IH]; intros d n; cbn [fold_left].
  - split; auto. intros [?|(a & b & [] & _)]; auto.
  - rewrite IH. unfold add_arc. cbn [fst snd]. rewrite add_edges_key_nodes. split.
    + intros [[(u & v & k & [H|[H|[]]] & Hn)|H]|(u & v & H & Hn)]; auto.
      * injection H as <- <- <-. right. exists a, b. split; [now left|tauto].
      * injection H as <- <- <-. right. exists a, b. split; [now left|tauto].
      * right. exists u, v. split; [now right|auto].
    + intros [H|(u & v & [H|H] & Hn)]; auto.
      * injection H as <- <-. left; left. exists a, b, Kn. split; [now left|auto].
      * right. eauto.
Qed.

Lemma init_wf c arcs : ok_dict c -> wf_cg (init c None arcs).
Proof.
  intros [H1 H2]. unfold init. split; cbn [causation dag]; auto.
  - intros p ch. unfold is_parent, dag_obs. cbn [causation dag].
    rewrite fold_add_arc_edges, observed_dag_of_edges by auto. cbn [fst snd].
    split; [tauto|]. intros [?|[H _]]; [tauto|discriminate].
  - apply fold_add_arc_gwf, observed_dag_of_gwf.
  - intros u v k. rewrite fold_add_arc_edges, observed_dag_of_edges by auto. cbn [fst snd]. tauto.
Qed.
Lemma init_arcE c arcs a b : ok_dict c -> (arcE (init c None arcs) a b <-> pair_in arcs a b).
Proof.
  intros [H1 H2]. unfold arcE, init. cbn [dag]. rewrite fold_add_arc_edges, observed_dag_of_edges by auto.
  cbn [fst snd]. split; [intros [[H _]|H]; [discriminate|tauto]|tauto].
Qed.
Lemma pair_in_sym es a b : pair_in es a b -> pair_in es b a.
Proof. unfold pair_in; tauto. Qed.

(** *** add_nodes *)
Lemma add_nodes_causation g ns : causation (add_nodes g ns) = causation g.
Proof.
  unfold add_nodes. cbn [causation].
  assert (H : forall n, In n ns -> mem n (nodes (add_nodes_from (dag g) ns)) = true).
  { intros n Hn. apply mem_In, add_nodes_from_nodes. auto. }
  revert H. generalize (nodes (add_nodes_from (dag g) ns)). intros l H.
  generalize (causation g). induction ns as [|n ns IH]; intros c; cbn [fold_left]; auto.
  rewrite (H n) by now left. apply IH. intros; apply H; now right.
Qed.
Lemma add_nodes_wf g ns : wf_cg g -> wf_cg (add_nodes g ns).
Proof.
  intros [H1 H2 H3 H4 H5]. split; try rewrite add_nodes_causation; auto.
  - intros p c. unfold is_parent, dag_obs. rewrite add_nodes_causation. cbn [add_nodes dag].
    rewrite add_nodes_from_edges. apply H3.
  - cbn [add_nodes dag]. now apply gwf_add_nodes.
  - cbn [add_nodes dag]. now rewrite add_nodes_from_edges.
Qed.
Lemma add_nodes_obs g ns p c : is_parent (add_nodes g ns) p c <-> is_parent g p c.
Proof. unfold is_parent. now rewrite add_nodes_causation. Qed.
Lemma add_nodes_arc g ns a b : arcE (add_nodes g ns) a b <-> arcE g a b.
Proof. unfold arcE. cbn [add_nodes dag]. now rewrite add_nodes_from_edges. Qed.

(** *** add_edge(s) *)
Lemma add_edge_obs_parent g e p c :
  is_parent (add_edge_obs g e) p c <-> is_parent g p c \/ (p = fst e /\ c = snd e).
Proof.
  unfold is_parent, add_edge_obs. cbn [causation]. rewrite lookup_update.
  destruct (eqb_spec (snd e) c) as [<-|N].
  - rewrite in_app_iff. simpl. intuition congruence.
  - intuition congruence.
Qed.
Lemma add_edge_obs_arc g e a b : arcE (add_edge_obs g e) a b <-> arcE g a b.
Proof.
  unfold arcE, add_edge_obs. cbn [dag]. rewrite add_edge_key_edges. intuition congruence.
Qed.
Lemma add_edge_obs_wf g e : wf_cg g -> ~ is_parent g (fst e) (snd e) -> wf_cg (add_edge_obs g e).
Proof.
  intros [H1 H2 H3 H4 H5] Hf. split.
  - cbn. now apply keys_update_NoDup.
  - intros c. cbn [add_edge_obs causation]. rewrite lookup_update.
    destruct (eqb_spec (snd e) c) as [<-|N]; auto.
    apply NoDup_app_intro; auto.
    + constructor; [easy|constructor].
    + intros x Hx [<-|[]]. apply Hf. exact Hx.
  - intros p c. rewrite add_edge_obs_parent, H3. unfold dag_obs. cbn [add_edge_obs dag].
    rewrite add_edge_key_edges. intuition congruence.
  - cbn. now apply gwf_add_edge_key.
  - intros u v k. cbn [add_edge_obs dag]. rewrite add_edge_key_edges.
    intros [H|H]; [injection H as -> -> ->; auto|eauto].
Qed.
Lemma add_edges_obs_facts es : forall g, wf_cg g -> NoDup es ->
  (forall p c, In (p, c) es -> ~ is_parent g p c) ->
  wf_cg (fold_left add_edge_obs es g).
Proof.
  induction es as [|e es IH]; intros g W ND Hf; cbn [fold_left]; auto.
  inversion ND as [|? ? Hn ND']; subst. destruct e as [s t]. apply IH; auto.
  - apply add_edge_obs_wf; auto. cbn. apply Hf. now left.
  - intros p c Hi. rewrite add_edge_obs_parent. cbn [fst snd]. intros [H|[-> ->]].
    + eapply Hf; [right; eauto|auto].
    + auto.
Qed.
Lemma fold_add_edge_obs_parent es : forall g p c,
  is_parent (fold_left add_edge_obs es g) p c <-> is_parent g p c \/ In (p, c) es.
Proof.
  induction es as [|(s, t) es IH]; intros g p c; cbn [fold_left]; [simpl; tauto|].
  rewrite IH, add_edge_obs_parent. cbn. intuition congruence.
Qed.
Lemma fold_add_edge_obs_arc es : forall g a b, arcE (fold_left add_edge_obs es g) a b <-> arcE g a b.
Proof.
  induction es as [|e es IH]; intros g a b; cbn [fold_left]; [tauto|].
  now rewrite IH, add_edge_obs_arc.
Qed.
Lemma add_arcs_wf g es : wf_cg g -> wf_cg (CG (causation g) (fold_left add_arc es (dag g))).
Proof.
  intros [H1 H2 H3 H4 H5]. split; cbn [causation dag]; auto.
  - intros p c. unfold is_parent, dag_obs. cbn [causation dag]. rewrite fold_add_arc_edges.
    cbn [fst snd]. rewrite <- (H3 p c). unfold is_parent, dag_obs. intuition congruence.
  - now apply fold_add_arc_gwf.
  - intros u v k. rewrite fold_add_arc_edges. cbn [fst snd]. intros [H|[H _]]; eauto.
Qed.
Lemma add_half_arc_wf g s t : wf_cg g -> wf_cg (CG (causation g) (add_edge_key (dag g) s t Kn)).
Proof.
  intros [H1 H2 H3 H4 H5]. split; cbn [causation dag]; auto.
  - intros p c. unfold is_parent, dag_obs. cbn [causation dag]. rewrite add_edge_key_edges.
    rewrite <- (H3 p c). unfold is_parent, dag_obs. intuition congruence.
  - now apply gwf_add_edge_key.
  - intros u v k. rewrite add_edge_key_edges. intros [H|H]; eauto. right; congruence.
Qed.

(** *** remove_nodes *)
Lemma fold_remove_node_lookup ns : forall c k, (forall k, NoDup (lookup c k)) ->
  forall p, In p (lookup (fold_left remove_node_causation ns c) k) <->
            In p (lookup c k) /\ ~ In p ns /\ ~ In k ns.
Proof.
  induction ns as [|n ns IH]; intros c k ND p; cbn [fold_left]; [simpl; tauto|].
  rewrite IH.
  - rewrite lookup_remove_node. cbn [In]. destruct (eqb_spec n k) as [->|N].
    + simpl. tauto.
    + rewrite remove1_NoDup_In by auto. intuition congruence.
  - intros k'. rewrite lookup_remove_node. destruct (eqb n k'); [constructor|now apply remove1_NoDup].
Qed.
Lemma fold_remove_node_NoDup ns : forall c, (forall k, NoDup (lookup c k)) ->
  forall k, NoDup (lookup (fold_left remove_node_causation ns c) k).
Proof.
  induction ns as [|n ns IH]; intros c ND k; cbn [fold_left]; auto. apply IH.
  intros k'. rewrite lookup_remove_node. destruct (eqb n k'); [constructor|now apply remove1_NoDup].
Qed.
Lemma fold_remove_node_keys ns : forall c k,
  In k (keys (fold_left remove_node_causation ns c)) <-> In k (keys c) /\ ~ In k ns.
Proof.
  induction ns as [|n ns IH]; intros c k; cbn [fold_left]; [simpl; tauto|].
  rewrite IH, keys_remove_node. simpl. intuition congruence.
Qed.
Lemma fold_remove_node_keys_NoDup ns : forall c, NoDup (keys c) ->
  NoDup (keys (fold_left remove_node_causation ns c)).
Proof. induction ns as [|n ns IH]; intros c H; cbn [fold_left]; auto using keys_remove_node_NoDup. Qed.

Lemma remove_nodes_edges {A} {EA : EqDec A} (d : mdg A) ns u v k :
  In (u, v, k) (edges (remove_nodes_from d ns)) <-> In (u, v, k) (edges d) /\ ~ In u ns /\ ~ In v ns.
Proof.
  cbn. rewrite filter_In, andb_true_iff, !negb_true_iff, !mem_nIn. tauto.
Qed.
Lemma remove_nodes_parent g ns p c : wf_cg g ->
  (is_parent (remove_nodes g ns) p c <-> is_parent g p c /\ ~ In p ns /\ ~ In c ns).
Proof. intros W. unfold is_parent. cbn [remove_nodes causation]. apply fold_remove_node_lookup, W. Qed.
Lemma remove_nodes_arc g ns a b :
  arcE (remove_nodes g ns) a b <-> arcE g a b /\ ~ In a ns /\ ~ In b ns.
Proof. unfold arcE. cbn [remove_nodes dag]. apply remove_nodes_edges. Qed.
Lemma remove_nodes_cg_wf g ns : wf_cg g -> wf_cg (remove_nodes g ns).
Proof.
  intros W. pose proof W as [H1 H2 H3 H4 H5]. split.
  - cbn. now apply fold_remove_node_keys_NoDup.
  - cbn. now apply fold_remove_node_NoDup.
  - intros p c. rewrite remove_nodes_parent, H3 by auto. unfold dag_obs. cbn [remove_nodes dag].
    now rewrite remove_nodes_edges.
  - cbn [remove_nodes dag]. now apply gwf_remove_nodes.
  - intros u v k. cbn [remove_nodes dag]. rewrite remove_nodes_edges. intros [H _]. eauto.
Qed.

(** *** remove_edge(s) *)
Lemma remove_edge_obs_spec g e : wf_cg g ->
  wf_cg (fst (remove_edge_obs g e)) /\
  (forall p c, is_parent (fst (remove_edge_obs g e)) p c <-> is_parent g p c /\ (p, c) <> e) /\
  (forall a b, arcE (fst (remove_edge_obs g e)) a b <-> arcE g a b) /\
  (snd (remove_edge_obs g e) = None <-> is_parent g (fst e) (snd e)) /\
  nodes (dag (fst (remove_edge_obs g e))) = nodes (dag g).
Proof.
  intros W. pose proof W as [H1 H2 H3 H4 H5]. unfold remove_edge_obs. destruct e as [s t]. cbn [fst snd].
  destruct (remove_edge_key (dag g) s t (K 0)) as [d|x] eqn:E; cbn [fst snd].
  - apply remove_edge_key_ok in E as [Hin ->].
    assert (Hp : forall p c,
      is_parent (CG (update (causation g) t (remove1 s))
        (MDG (nodes (dag g)) (filter (fun e => negb (eqb e (s, t, K 0))) (edges (dag g))))) p c
      <-> is_parent g p c /\ (p, c) <> (s, t)).
    { intros p c. unfold is_parent. cbn [causation]. rewrite lookup_update.
      destruct (eqb_spec t c) as [<-|N].
      - rewrite remove1_NoDup_In by auto. intuition congruence.
      - intuition congruence. }
    split; [|split; [exact Hp|split; [|split; [split; [intros _; now apply H3|auto]|reflexivity]]]].
    + constructor; cbn [causation dag nodes].
      * now apply keys_update_NoDup.
      * intros c. rewrite lookup_update. destruct (eqb t c); auto. now apply remove1_NoDup.
      * intros p c. rewrite Hp, H3. unfold dag_obs. cbn [dag edges]. rewrite filter_In, negb_true_iff, eqb_neq.
        intuition congruence.
      * now apply gwf_filter.
      * intros u v k H. apply filter_In in H as [H _]. eauto.
    + intros a b. unfold arcE. cbn [dag edges]. rewrite filter_In. split; [tauto|]. intros H; split; auto. apply negb_true_iff, eqb_neq. congruence.
  - assert (Hn : ~ is_parent g s t).
    { intros Hc. apply H3 in Hc. unfold remove_edge_key in E. unfold dag_obs in Hc.
      apply mem_In in Hc. rewrite Hc in E. discriminate. }
    split; auto. split; [|split; [tauto|split; [|auto]]].
    + intros p c. split; [|tauto]. intros H. split; auto. intros Hc. injection Hc as -> ->. auto.
    + split; [discriminate|]. intros H. contradiction.
Qed.

Lemma remove_edges_obs_spec es : forall g, wf_cg g ->
  wf_cg (fst (remove_edges_obs g es)) /\
  (forall a b, arcE (fst (remove_edges_obs g es)) a b <-> arcE g a b) /\
  (snd (remove_edges_obs g es) = None ->
   forall p c, is_parent (fst (remove_edges_obs g es)) p c <-> is_parent g p c /\ ~ In (p, c) es) /\
  (snd (remove_edges_obs g es) = None <-> NoDup es /\ forall p c, In (p, c) es -> is_parent g p c) /\
  nodes (dag (fst (remove_edges_obs g es))) = nodes (dag g).
Proof.
  induction es as [|e es IH]; intros g W; cbn [remove_edges_obs].
  - cbn [fst snd In]. split; auto. split; [tauto|]. split; [tauto|]. split; [|auto].
    split; auto. intros _. split; [constructor|intros ? ? []].
  - destruct (remove_edge_obs_spec e W) as (A1 & A2 & A3 & A4 & A5).
    destruct (remove_edge_obs g e) as [g' [x|]] eqn:E; cbn [fst snd] in *.
    + split; auto. split; [auto|]. split; [discriminate|]. split; [|auto]. split; [discriminate|].
      intros [_ H]. assert (Some x = None) by (apply A4; destruct e; apply H; now left). discriminate.
    + destruct (IH g' A1) as (B1 & B2 & B3 & B4 & B5). split; auto. split; [|split; [|split]].
      * intros a b. rewrite B2. auto.
      * intros H p c. rewrite (B3 H), A2. cbn [In]. intuition congruence.
      * rewrite B4. split.
        -- intros [ND H]. split.
           ++ constructor; auto. intros Hc. destruct e as [s t]. apply H in Hc. apply A2 in Hc. tauto.
           ++ intros p c [->|Hi]; [now apply A4|]. apply H in Hi. apply A2 in Hi. tauto.
        -- intros [ND H]. inversion ND as [|? ? Hn ND']; subst. split; auto.
           intros p c Hi. apply A2. split; [apply H; now right|]. intros <-. auto.
      * congruence.
Qed.

Lemma fold_remove_arc_edges es : forall (d : mdg node) u v k,
  In (u, v, k) (edges (fold_left remove_arc es d)) <->
  In (u, v, k) (edges d) /\ ~ (k = Kn /\ pair_in es u v).
Proof.
  induction es as [|(a, b) es IH]; intros d u v k; cbn [fold_left].
  - unfold pair_in; simpl; tauto.
  - rewrite IH. unfold remove_arc. rewrite remove_edges_key_edges. unfold pair_in. cbn [fst snd In].
    split.
    + intros [[H1 H2] H3]. split; auto.
      intros [-> [[H|H]|[H|H]]]; try (injection H as -> ->); tauto.
    + intros [H1 H2]. split; [split; auto|].
      * intros [H|[H|[]]]; injection H as -> -> <-; tauto.
      * tauto.
Qed.
Lemma fold_remove_arc_gwf es : forall d : mdg node, gwf d -> gwf (fold_left remove_arc es d).
Proof.
  induction es as [|e es IH]; intros d H; cbn [fold_left]; auto. apply IH. now apply gwf_remove_edges_key.
Qed.
Lemma fold_remove_arc_nodes es : forall d : mdg node, nodes (fold_left remove_arc es d) = nodes d.
Proof. induction es as [|e es IH]; intros d; cbn [fold_left]; auto. now rewrite IH. Qed.
Lemma remove_arcs_wf g es : wf_cg g -> wf_cg (CG (causation g) (fold_left remove_arc es (dag g))).
Proof.
  intros [H1 H2 H3 H4 H5]. split; cbn [causation dag]; auto.
  - intros p c. unfold is_parent, dag_obs. cbn [causation dag]. rewrite fold_remove_arc_edges.
    rewrite <- (H3 p c). unfold is_parent. intuition congruence.
  - now apply fold_remove_arc_gwf.
  - intros u v k. rewrite fold_remove_arc_edges. intros [H _]; eauto.
Qed.
Lemma remove_arcs_arc g es a b :
  arcE (CG (causation g) (fold_left remove_arc es (dag g))) a b <-> arcE g a b /\ ~ pair_in es a b.
Proof. unfold arcE. cbn [dag]. rewrite fold_remove_arc_edges. tauto. Qed.

(** *** remove_incoming_edges / remove_outgoing_edges *)
Lemma check_nodes_ok av s : check_nodes av s = Ok tt <-> incl s av.
Proof.
  unfold check_nodes. rewrite <- subset_spec. destruct (subset s av); split; easy.
Qed.
Lemma check_nodes_case av s :
  (incl s av /\ check_nodes av s = Ok tt) \/ (~ incl s av /\ check_nodes av s = Err AssertionError).
Proof.
  unfold check_nodes. destruct (subset s av) eqn:E.
  - left. apply subset_spec in E. auto.
  - right. split; auto. intros H. apply subset_spec in H. congruence.
Qed.

Lemma NoDup_map_inj_on {B C} (f : B -> C) l :
  (forall x y, In x l -> In y l -> f x = f y -> x = y) -> NoDup l -> NoDup (map f l).
Proof.
  induction l as [|x l IH]; intros Hf ND; simpl; [constructor|].
  inversion ND as [|? ? H1 H2]; subst. constructor.
  - intros Hc. apply in_map_iff in Hc as (y & Hy & Hi). apply H1.
    rewrite (Hf x y); auto; [now left|now right].
  - apply IH; auto. intros a b Ha Hb. apply Hf; now right.
Qed.

Lemma remove_incoming_spec g x : wf_cg g -> incl x (keys (causation g)) ->
  let g' := fst (remove_incoming_edges g x) in
  snd (remove_incoming_edges g x) = None /\ wf_cg g' /\
  (forall p c, is_parent g' p c <-> is_parent g p c /\ ~ In c x) /\
  (forall a b, arcE g' a b <-> arcE g a b /\ ~ (In b x \/ (In a x /\ arcE g b a))) /\
  nodes (dag g') = nodes (dag g).
Proof.
  intros W Hx g'. unfold g', remove_incoming_edges. rewrite (proj2 (check_nodes_ok _ _) Hx).
  unfold remove_edges_from.
  set (es := in_edges (dag g) x).
  set (o := map fst (filter (fun e => negb (is_n (snd e))) es)).
  set (u := map fst (filter (fun e => is_n (snd e)) es)).
  assert (Ho : forall p c, In (p, c) o <-> is_parent g p c /\ In c x).
  { intros p c. unfold o. rewrite in_map_iff. split.
    - intros (((a, b), k) & He & Hf). simpl in He. injection He as -> ->.
      apply filter_In in Hf as [Hf Hk]. apply filter_In in Hf as [Hf Hm]. cbn [fst snd] in *.
      apply mem_In in Hm. split; auto. apply (wc_sync W).
      destruct (wc_key W _ _ _ Hf) as [->| ->]; [exact Hf|discriminate].
    - intros [Hp Hc]. exists (p, c, K 0). split; auto. apply filter_In. split; auto.
      apply filter_In. split; [now apply (wc_sync W)|]. cbn. now apply mem_In. }
  assert (Hu : forall a b, In (a, b) u <-> arcE g a b /\ In b x).
  { intros a b. unfold u. rewrite in_map_iff. split.
    - intros (((c, d), k) & He & Hf). simpl in He. injection He as -> ->.
      apply filter_In in Hf as [Hf Hk]. apply filter_In in Hf as [Hf Hm]. cbn [fst snd] in *.
      apply mem_In in Hm. split; auto. destruct k; [discriminate|]. exact Hf.
    - intros [Hp Hc]. exists (a, b, Kn). split; auto. apply filter_In. split; auto.
      apply filter_In. split; [exact Hp|]. cbn. now apply mem_In. }
  assert (NDo : NoDup o).
  { unfold o. apply NoDup_map_inj_on.
    - intros ((a, b), k) ((a', b'), k') H1 H2 He. simpl in He. injection He as -> ->.
      apply filter_In in H1 as [H1 K1]. apply filter_In in H2 as [H2 K2].
      apply filter_In in H1 as [H1 _]. apply filter_In in H2 as [H2 _]. cbn [fst snd] in *.
      destruct (wc_key W _ _ _ H1) as [->| ->], (wc_key W _ _ _ H2) as [->| ->]; auto; discriminate.
    - apply NoDup_filter, NoDup_filter. apply (gwf_edges (wc_dag W)). }
  destruct (remove_edges_obs_spec o W) as (A1 & A2 & A3 & A4 & A5).
  assert (HN : snd (remove_edges_obs g o) = None).
  { apply A4. split; auto. intros p c H. now apply Ho in H. }
  specialize (A3 HN). destruct (remove_edges_obs g o) as [g1 e1]. cbn [fst snd] in *. subst e1.
  cbn [fst snd]. split; auto. split; [now apply remove_arcs_wf|]. split; [|split].
  - intros p c. unfold is_parent at 1. cbn [causation]. change (In p (lookup (causation g1) c)) with (is_parent g1 p c).
    rewrite A3, Ho. tauto.
  - intros a b. rewrite remove_arcs_arc, A2. unfold pair_in. rewrite !Hu. tauto.
  - cbn [dag]. rewrite fold_remove_arc_nodes. auto.
Qed.

Lemma remove_outgoing_spec g x : wf_cg g -> incl x (keys (causation g)) ->
  let g' := fst (remove_outgoing_edges g x) in
  snd (remove_outgoing_edges g x) = None /\ wf_cg g' /\
  (forall p c, is_parent g' p c <-> is_parent g p c /\ ~ In p x) /\
  (forall a b, arcE g' a b <-> arcE g a b) /\
  nodes (dag g') = nodes (dag g).
Proof.
  intros W Hx g'. unfold g', remove_outgoing_edges. rewrite (proj2 (check_nodes_ok _ _) Hx).
  unfold remove_edges_from. set (o := map fst _).
  assert (Ho : forall p c, In (p, c) o <-> is_parent g p c /\ In p x).
  { intros p c. unfold o. rewrite in_map_iff. split.
    - intros (((a, b), k) & He & Hf). simpl in He. injection He as -> ->.
      apply filter_In in Hf as [Hf Hk]. apply filter_In in Hf as [Hf Hm]. cbn [fst snd] in *.
      apply mem_In in Hm. apply eqb_eq in Hk. subst k. split; auto. now apply (wc_sync W).
    - intros [Hp Hc]. exists (p, c, K 0). split; auto. apply filter_In. split; [|apply eqb_refl].
      apply filter_In. split; [now apply (wc_sync W)|]. cbn. now apply mem_In. }
  assert (NDo : NoDup o).
  { unfold o. apply NoDup_map_inj_on.
    - intros ((a, b), k) ((a', b'), k') H1 H2 He. simpl in He. injection He as -> ->.
      apply filter_In in H1 as [H1 K1]. apply filter_In in H2 as [H2 K2]. cbn [fst snd] in *.
      apply eqb_eq in K1, K2. congruence.
    - apply NoDup_filter, NoDup_filter. apply (gwf_edges (wc_dag W)). }
  destruct (remove_edges_obs_spec o W) as (A1 & A2 & A3 & A4 & A5).
  assert (HN : snd (remove_edges_obs g o) = None).
  { apply A4. split; auto. intros p c H. now apply Ho in H. }
  split; auto. split; auto. split; [|auto]. intros p c. rewrite (A3 HN), Ho. tauto.
Qed.

(** ** Preservation along histories *)
Theorem exec_wf g o : wf_cg g -> fresh g o -> wf_cg (fst (exec g o)).
Proof.
  intros W F. destruct o as [ns|s t []|es []|ns|e []|es []|x|x]; cbn [exec fst add_edge add_edges_from remove_edge remove_edges_from].
  - now apply add_nodes_wf.
  - apply add_edge_obs_wf; auto.
  - now apply add_half_arc_wf.
  - destruct F. now apply add_edges_obs_facts.
  - now apply add_arcs_wf.
  - now apply remove_nodes_cg_wf.
  - apply (remove_edge_obs_spec e W).
  - apply (remove_arcs_wf [e] W).
  - apply (remove_edges_obs_spec es W).
  - now apply remove_arcs_wf.
  - destruct (check_nodes_case (keys (causation g)) x) as [[Hi _]|[_ H]].
    + now apply remove_incoming_spec.
    + unfold remove_incoming_edges. now rewrite H.
  - destruct (check_nodes_case (keys (causation g)) x) as [[Hi _]|[_ H]].
    + now apply remove_outgoing_spec.
    + unfold remove_outgoing_edges. now rewrite H.
Qed.

Theorem run_wf os : forall g, wf_cg g -> fresh_adds g os -> wf_cg (run g os).
Proof.
  induction os as [|o os IH]; intros g W F; cbn [run]; auto.
  destruct F as [F1 F2]. apply IH; auto. now apply exec_wf.
Qed.

(** [g] implements the abstract graph [a]. *)
Definition implements (g : cg) (a : agraph) : Prop :=
  wf_cg g /\ sym_arcs g /\ (forall p c, is_parent g p c <-> obs a p c) /\
  (forall u v, arcE g u v <-> arc a u v).

Theorem exec_refines g o a : implements g a -> fresh g o -> full_arc_op o -> snd (exec g o) = None ->
  implements (fst (exec g o)) (astep o a).
Proof.
  intros (W & S & HP & HA) F A Hok. split; [now apply exec_wf|].
  assert (G : (forall p c, is_parent (fst (exec g o)) p c <-> obs (astep o a) p c) /\
              (forall u v, arcE (fst (exec g o)) u v <-> arc (astep o a) u v)).
  { destruct o as [ns|s t []|es []|ns|e []|es []|x|x];
      cbn [exec fst add_edge add_edges_from remove_edge remove_edges_from astep obs arc].
    - split; intros; [rewrite add_nodes_obs|rewrite add_nodes_arc]; auto.
    - split; intros; [rewrite add_edge_obs_parent|rewrite add_edge_obs_arc]; auto. cbn. now rewrite HP.
    - destruct A.
    - split; intros; [rewrite fold_add_edge_obs_parent|rewrite fold_add_edge_obs_arc]; auto. now rewrite HP.
    - split; intros; [apply HP|]. unfold arcE. cbn [dag]. rewrite fold_add_arc_edges. cbn [fst snd].
      rewrite <- HA. unfold arcE. tauto.
    - split; intros; [rewrite remove_nodes_parent|rewrite remove_nodes_arc]; auto.
      + now rewrite HP.
      + now rewrite HA.
    - destruct (remove_edge_obs_spec e W) as (_ & A2 & A3 & _). split; intros; [rewrite A2, HP|rewrite A3, HA]; tauto.
    - split; [intros; apply HP|]. intros. change (remove_arc (dag g) e) with (fold_left remove_arc [e] (dag g)).
      rewrite remove_arcs_arc, HA. tauto.
    - destruct (remove_edges_obs_spec es W) as (_ & A2 & A3 & _).
      split; intros; [rewrite A3, HP|rewrite A2, HA]; tauto.
    - split; [intros; apply HP|]. intros. rewrite remove_arcs_arc, HA. tauto.
    - cbn [exec] in Hok. destruct (check_nodes_case (keys (causation g)) x) as [[Hi _]|[_ H]].
      + destruct (remove_incoming_spec W Hi) as (_ & _ & A2 & A3 & _).
        split; intros; [rewrite A2, HP; tauto|]. rewrite A3, <- HA.
        assert (Q : arcE g v u <-> arcE g u v) by (split; apply S). tauto.
      + unfold remove_incoming_edges in Hok. rewrite H in Hok. discriminate.
    - cbn [exec] in Hok. destruct (check_nodes_case (keys (causation g)) x) as [[Hi _]|[_ H]].
      + destruct (remove_outgoing_spec W Hi) as (_ & _ & A2 & A3 & _).
        split; intros; [rewrite A2, HP; tauto|]. now rewrite A3, HA.
      + unfold remove_outgoing_edges in Hok. rewrite H in Hok. discriminate. }
  destruct G as [G1 G2]. split; [|auto].
  intros u v Hu. apply G2 in Hu. apply G2.
  assert (Sa : forall u v, arc a u v -> arc a v u) by (intros; apply HA, S, HA; auto).
  destruct o as [ns|s t []|es []|ns|e []|es []|x|x]; cbn [astep arc] in *;
    try (destruct A); unfold pair_in in *; try (now auto);
    intuition auto.
Qed.

Theorem run_refines os : forall g a, implements g a -> fresh_adds g os -> Forall full_arc_op os ->
  all_ok g os -> implements (run g os) (arun os a).
Proof.
  induction os as [|o os IH]; intros g a HI F A Ok'; cbn [run arun fold_left]; auto.
  destruct F as [F1 F2], Ok' as [O1 O2]. inversion A; subst. apply IH; auto. now apply exec_refines.
Qed.

Lemma init_implements c arcs : ok_dict c -> implements (init c None arcs) (adecl c arcs).
Proof.
  intros H. split; [now apply init_wf|]. split; [|split].
  - intros a b Hab. apply init_arcE in Hab; auto. apply init_arcE; auto. now apply pair_in_sym.
  - intros p ch. reflexivity.
  - intros u v. now apply init_arcE.
Qed.

(** ** latent_confounding_arcs *)
Lemma list_prod_NoDup {A B} (l : list A) (m : list B) : NoDup l -> NoDup m -> NoDup (list_prod l m).
Proof.
  intros Hl Hm. induction l as [|a l IH]; simpl; [constructor|].
  inversion Hl as [|? ? H1 H2]; subst.
  assert (D : forall x, In x (map (fun y => (a, y)) m) -> ~ In x (list_prod l m)).
  { intros x Hx Hc. apply in_map_iff in Hx as (y & <- & _). apply in_prod_iff in Hc. tauto. }
  revert D. generalize (list_prod l m) (IH H2). intros r Hr D.
  assert (NDm : NoDup (map (fun y => (a, y)) m)).
  { apply NoDup_map_inj_on; auto. congruence. }
  revert D. induction (map (fun y => (a, y)) m) as [|x xs IHx]; simpl; intros D; auto.
  inversion NDm as [|? ? N1 N2]; subst. constructor.
  - rewrite in_app_iff. intros [?|?]; auto. eapply D; eauto.
  - apply IHx; auto.
Qed.

Lemma arcs_fold d l : forall acc,
  NoDup (acc ++ l) -> NoDup acc -> (forall a b, In (a, b) acc -> ed d a b /\ ed d b a) ->
  (forall a b, a <> b -> In (a, b) acc -> ~ In (b, a) acc) ->
  let r := fold_left (arcs_step d) l acc in
  NoDup r /\ (forall a b, a <> b -> In (a, b) r -> ~ In (b, a) r) /\
  (forall e, In e acc -> In e r) /\
  (forall a b, In (a, b) r -> ed d a b /\ ed d b a) /\
  (forall a b, In (a, b) l -> ed d a b -> ed d b a -> pair_in r a b).
Proof.
  induction l as [|(a, b) l IH]; intros acc ND NDa Hed Has; cbn [fold_left].
  - split; auto. split; auto. split; auto. split; auto. intros a b [].
  - set (acc' := arcs_step d acc (a, b)).
    assert (HA : (acc' = acc \/ (acc' = acc ++ [(a, b)] /\ ed d a b /\ ed d b a /\ ~ In (b, a) acc)) /\
                 (ed d a b -> ed d b a -> pair_in acc' a b)).
    { unfold acc', arcs_step. destruct (has_edge d a b) eqn:E1; [|split; [now left|]].
      2:{ intros H. apply has_edge_spec in H. congruence. }
      destruct (has_edge d b a) eqn:E2; [|split; [now left|]].
      2:{ intros _ H. apply has_edge_spec in H. congruence. }
      destruct (mem_spec (b, a) acc) as [Hm|Hm]; cbn [andb negb].
      - split; [now left|]. intros _ _. right; auto.
      - split.
        + right. split; auto. split; [now apply has_edge_spec|]. split; [now apply has_edge_spec|auto].
        + intros _ _. left. apply in_app_iff; right; now left. }
    clearbody acc'. destruct HA as [HA HP].
    assert (Hinc : forall e, In e acc -> In e acc').
    { destruct HA as [->|(-> & _)]; intros; auto. apply in_app_iff; auto. }
    destruct (IH acc') as (R1 & R2 & R3 & R4 & R5).
    + destruct HA as [->|(-> & _)].
      * now apply NoDup_remove_1 in ND.
      * now rewrite <- app_assoc.
    + destruct HA as [->|(-> & _)]; auto.
      apply NoDup_app_intro; auto; [constructor; [easy|constructor]|].
      intros e He [<-|[]]. apply NoDup_remove_2 in ND. apply ND. apply in_app_iff; auto.
    + destruct HA as [->|(-> & H1 & H2 & _)]; auto. intros u v Hi.
      apply in_app_iff in Hi as [Hi|[Hi|[]]]; auto. injection Hi as -> ->. auto.
    + destruct HA as [->|(-> & H1 & H2 & H3)]; auto. intros u v Nuv Hi Hj.
      apply in_app_iff in Hi as [Hi|[Hi|[]]]; apply in_app_iff in Hj as [Hj|[Hj|[]]].
      * eapply Has; eauto.
      * injection Hj as -> ->. auto.
      * injection Hi as -> ->. auto.
      * congruence.
    + split; auto. split; auto. split; auto. split; auto.
      intros u v [Hi|Hi] Hu Hv; [|auto]. injection Hi as -> ->.
      destruct (HP Hu Hv) as [H|H]; [left|right]; auto.
Qed.

Lemma latent_arcs_raw g : wf (dag g) ->
  lists_pairs (latent_confounding_arcs g) (fun a b => ed (dag g) a b /\ ed (dag g) b a).
Proof.
  intros W. unfold latent_confounding_arcs.
  destruct (@arcs_fold (dag g) (list_prod (nodes (dag g)) (nodes (dag g))) []) as (R1 & R2 & _ & R4 & R5).
  - simpl. apply list_prod_NoDup; apply W.
  - constructor.
  - intros a b [].
  - intros a b _ [].
  - split; auto. split; auto. intros a b. split.
    + intros [H1 H2]. apply R5; auto. apply in_prod_iff. now apply (wf_ends W).
    + intros [H|H]; apply R4 in H; tauto.
Qed.

(** With symmetric arcs and no observed 2-cycle, the listed pairs are the arcs. *)
Lemma latent_arcs_spec g : wf_cg g -> sym_arcs g -> acyclic (is_parent g) ->
  lists_pairs (latent_confounding_arcs g) (arcE g).
Proof.
  intros W S AC. destruct (latent_arcs_raw _ (gwf_wf (wc_dag W))) as (R1 & R2 & R3).
  split; auto. split; auto. intros a b. rewrite <- R3. split.
  - intros H. split; exists Kn; auto. now apply S.
  - intros [(k1 & H1) (k2 & H2)].
    destruct (wc_key W _ _ _ H1) as [->| ->]; auto.
    destruct (wc_key W _ _ _ H2) as [->| ->]; [|apply S; exact H2].
    exfalso. apply (AC a). exists b. split; [now apply (wc_sync W)|].
    apply reach_one. now apply (wc_sync W).
Qed.

(** ** ancestors / descendents *)
Lemma observed_ed g p c : NoDup (keys (causation g)) -> (ed (observed_dag g) p c <-> is_parent g p c).
Proof. apply observed_dag_of_ed. Qed.
Lemma observed_reach g a b : NoDup (keys (causation g)) ->
  (reach (ed (observed_dag g)) a b <-> reach (is_parent g) a b).
Proof. intros ND. apply reach_ext. intros; now apply observed_ed. Qed.

Lemma ancestors_spec g x v : NoDup (keys (causation g)) ->
  (In v (ancestors g x) <-> exists u, In u x /\ reach (is_parent g) v u).
Proof.
  intros ND. unfold ancestors, ancestors_of_iter. rewrite dedup_In, in_flat_map.
  pose proof (gwf_wf (observed_dag_of_gwf (causation g))) as W. split.
  - intros (u & Hu & [->|Hv]); [exists v; split; auto; constructor|].
    exists u. split; auto. destruct (In_dec u (nodes (observed_dag g))) as [Hn|Hn].
    + destruct (nx_ancestors_spec _ W Hn) as (l & Hl & Hs). change (observed_dag_of (causation g)) with (observed_dag g) in *. rewrite Hl in Hv.
      apply Hs in Hv as [_ Hv]. now apply observed_reach.
    + unfold nx_ancestors in Hv. apply mem_nIn in Hn. rewrite Hn in Hv. destruct Hv.
  - intros (u & Hu & Hr). exists u. split; auto. destruct (eq_dec v u) as [->|N]; [now left|right].
    apply observed_reach in Hr; auto.
    assert (Hn : In u (nodes (observed_dag g))).
    { destruct (reach_inv Hr) as [?|H1]; [congruence|]. apply reach1_last in H1 as (z & _ & Hz).
      now apply (wf_ends W) in Hz. }
    destruct (nx_ancestors_spec _ W Hn) as (l & Hl & Hs). change (observed_dag_of (causation g)) with (observed_dag g) in *. rewrite Hl. apply Hs. auto.
Qed.
Lemma descendents_spec g x v : NoDup (keys (causation g)) ->
  (In v (descendents g x) <-> exists u, In u x /\ reach (is_parent g) u v).
Proof.
  intros ND. unfold descendents, descendents_of_iter. rewrite dedup_In, in_flat_map.
  pose proof (gwf_wf (observed_dag_of_gwf (causation g))) as W. split.
  - intros (u & Hu & [->|Hv]); [exists v; split; auto; constructor|].
    exists u. split; auto. destruct (In_dec u (nodes (observed_dag g))) as [Hn|Hn].
    + destruct (nx_descendants_spec _ W Hn) as (l & Hl & Hs). change (observed_dag_of (causation g)) with (observed_dag g) in *. rewrite Hl in Hv.
      apply Hs in Hv as [_ Hv]. now apply observed_reach.
    + unfold nx_descendants in Hv. apply mem_nIn in Hn. rewrite Hn in Hv. destruct Hv.
  - intros (u & Hu & Hr). exists u. split; auto. destruct (eq_dec v u) as [->|N]; [now left|right].
    apply observed_reach in Hr; auto.
    assert (Hn : In u (nodes (observed_dag g))).
    { destruct (reach_inv Hr) as [?|(z & Hz & _)]; [congruence|]. now apply (wf_ends W) in Hz. }
    destruct (nx_descendants_spec _ W Hn) as (l & Hl & Hs). change (observed_dag_of (causation g)) with (observed_dag g) in *. rewrite Hl. apply Hs. auto.
Qed.

(** ** c_components *)
Lemma arc_neighbours_spec arcs a b : In b (arc_neighbours arcs a) <-> pair_in arcs a b.
Proof.
  unfold arc_neighbours, pair_in. rewrite in_app_iff, !in_map_iff. split.
  - intros [((u, v) & <- & H)|((u, v) & <- & H)]; apply filter_In in H as [H E]; apply eqb_eq in E;
      simpl in *; subst; auto.
  - intros [H|H]; [left; exists (a, b)|right; exists (b, a)]; split; auto; apply filter_In; split; auto;
      apply eqb_refl.
Qed.

Section Comp.
  Variable d : mdg node.
  Variable nb : node -> list node.
  Hypothesis nb_in : forall a b, In b (nb a) -> In b (nodes d) .
  Hypothesis nb_sym : forall a b, In b (nb a) -> In a (nb b).
  Notation R := (fun a b => In b (nb a)).

  Lemma reach_sym_nb a b : reach R a b -> reach R b a.
  Proof. induction 1; [constructor|]. eapply reach_snoc; eauto. Qed.

  Lemma closure_one v u : In v (nodes d) -> (In u (closure d nb [v]) <-> reach R v u).
  Proof.
    intros Hv. rewrite closure_spec.
    - split; [intros (w & [->|[]] & H); auto|]. intros H; exists v; split; [now left|auto].
    - intros x [->|[]]; auto.
    - intros a b _ H. eauto.
  Qed.

  Lemma components_spec todo : forall seen,
    incl todo (nodes d) ->
    (forall a b, In a seen -> reach R a b -> In b seen) ->
    let cs := components d nb seen todo in
    (forall c, In c cs -> exists v, In v todo /\ ~ In v seen /\ forall u, In u c <-> reach R v u) /\
    (forall v, In v todo -> ~ In v seen -> exists c, In c cs /\ In v c) /\
    (forall l1 c1 l2 c2 l3, cs = l1 ++ c1 :: l2 ++ c2 :: l3 -> forall u, In u c1 -> ~ In u c2) /\
    (forall c u, In c cs -> In u c -> ~ In u seen).
  Proof.
    induction todo as [|v todo IH]; intros seen Ht Hs; cbn [components].
    - split; [intros ? []|]. split; [intros ? []|]. split; [intros []; discriminate|intros ? ? []].
    - destruct (mem_spec v seen) as [Hv|Hv].
      + destruct (IH seen) as (A1 & A2 & A3 & A4); auto.
        { intros x Hx; apply Ht; now right. }
        split; [|split; [|split; auto]].
        * intros c Hc. destruct (A1 c Hc) as (w & Hw & H2). exists w. split; auto. now right.
        * intros w [->|Hw] Hn; [contradiction|auto].
      + set (c0 := closure d nb [v]).
        assert (Hc0 : forall u, In u c0 <-> reach R v u) by (intros; apply closure_one; apply Ht; now left).
        destruct (IH (seen ++ c0)) as (A1 & A2 & A3 & A4).
        { intros x Hx; apply Ht; now right. }
        { intros a b Ha Hr. apply in_app_iff in Ha as [Ha|Ha]; apply in_app_iff; [left; eauto|right].
          apply Hc0. apply Hc0 in Ha. eapply reach_trans; eauto. }
        split; [|split; [|split]].
        * intros c [<-|Hc].
          -- exists v. split; [now left|]. split; auto.
          -- destruct (A1 c Hc) as (w & Hw & Hn & H2). exists w. split; [now right|]. split; auto.
             intros ?; apply Hn, in_app_iff; auto.
        * intros w [->|Hw] Hn.
          -- exists c0. split; [now left|]. apply Hc0. constructor.
          -- destruct (In_dec w c0) as [Hi|Hi]; [exists c0; split; [now left|auto]|].
             destruct (A2 w Hw) as (c & Hc & Hwc).
             { rewrite in_app_iff. tauto. }
             exists c. split; [now right|auto].
        * intros l1 c1 l2 c2 l3 Heq u H1 H2. destruct l1 as [|x l1].
          -- injection Heq as <- Heq.
             apply (A4 c2 u); auto.
             ++ rewrite Heq. apply in_app_iff; right; now left.
             ++ apply in_app_iff; auto.
          -- injection Heq as -> Heq. eapply A3; eauto.
        * intros c u [<-|Hc] Hu Hc'.
          -- apply Hc0 in Hu. apply Hv. eapply Hs; eauto. now apply reach_sym_nb.
          -- apply (A4 c u Hc Hu). apply in_app_iff; auto.
  Qed.
End Comp.

(** Blocks of a partition. *)
Definition partition_by (cs : list (list node)) (N : list node) (R : node -> node -> Prop) : Prop :=
  (forall c, In c cs -> exists v, In v c) /\
  (forall v, In v N <-> exists c, In c cs /\ In v c) /\
  (forall l1 c1 l2 c2 l3, cs = l1 ++ c1 :: l2 ++ c2 :: l3 -> forall u, In u c1 -> ~ In u c2) /\
  (forall c u v, In c cs -> In u c -> (In v c <-> R u v)).

Lemma c_components_spec g : wf (dag g) ->
  partition_by (c_components g) (nodes (dag g)) (conn (fun a b => pair_in (latent_confounding_arcs g) a b)).
Proof.
  intros W. destruct (latent_arcs_raw _ W) as (_ & _ & R3). unfold c_components.
  set (arcs := latent_confounding_arcs g) in *.
  assert (NBin : forall a b, In b (arc_neighbours arcs a) -> In b (nodes (dag g))).
  { intros a b H. apply arc_neighbours_spec in H. apply R3 in H as [H _]. now apply (wf_ends W) in H. }
  assert (NBsym : forall a b, In b (arc_neighbours arcs a) -> In a (arc_neighbours arcs b)).
  { intros a b H. apply arc_neighbours_spec. apply arc_neighbours_spec in H. now apply pair_in_sym. }
  destruct (@components_spec _ _ NBin NBsym (nodes (dag g)) []) as (A1 & A2 & A3 & A4).
  { apply incl_refl. } { intros a b []. }
  assert (Hconn : forall a b, reach (fun a b => In b (arc_neighbours arcs a)) a b <-> conn (fun a b => pair_in arcs a b) a b).
  { intros a b. rewrite <- reach_conn. apply reach_ext. intros x y. rewrite arc_neighbours_spec.
    split; [auto|]. intros [H|H]; auto. now apply pair_in_sym. }
  split; [|split; [|split; [exact A3|]]].
  - intros c Hc. destruct (A1 c Hc) as (v & _ & _ & H). exists v. apply H. constructor.
  - intros v. split.
    + intros Hv. destruct (A2 v Hv) as (c & Hc & Hi); auto; eauto.
    + intros (c & Hc & Hi). destruct (A1 c Hc) as (u & Hu & _ & H). apply H in Hi.
      clear - Hi Hu NBin. induction Hi; auto. apply IHHi. eauto.
  - intros c u v Hc Hu. destruct (A1 c Hc) as (w & _ & _ & H). rewrite H. apply H in Hu.
    rewrite <- Hconn. split; intros Hr.
    + eapply reach_trans; [|exact Hr]. eapply reach_sym_nb; eauto.
    + eapply reach_trans; eauto.
Qed.

(** ** explicit_unob_var_dag *)
Lemma uname_inj i j : uname i = uname j -> i = j.
Proof.
  unfold uname. intros H. injection H as H.
  apply (f_equal NilEmpty.uint_of_string) in H. rewrite !NilEmpty.usu in H. injection H as H.
  apply (f_equal Nat.of_uint) in H. now rewrite !Unsigned.of_to in H.
Qed.

Lemma add_hidden_edges arcs : forall g i e,
  In e (edges (add_hidden g i arcs)) <->
  In e (edges g) \/ exists j a b, nth_error arcs j = Some (a, b) /\
                                  (e = (uname (i + j), a, Kn) \/ e = (uname (i + j), b, Kn)).
Proof.
  induction arcs as [|(a, b) arcs IH]; intros g i e; cbn [add_hidden].
  - split; auto. intros [?|(j & a & b & H & _)]; auto. destruct j; discriminate.
  - rewrite IH, add_edges_key_edges. cbn [In]. split.
    + intros [[[H|[H|[]]]|H]|(j & u & v & Hj & He)]; auto.
      * right. exists 0, a, b. rewrite Nat.add_0_r. split; auto.
      * right. exists 0, a, b. rewrite Nat.add_0_r. split; auto.
      * right. exists (S j), u, v. rewrite Nat.add_succ_r. auto.
    + intros [H|(j & u & v & Hj & He)]; auto. destruct j as [|j].
      * injection Hj as <- <-. rewrite Nat.add_0_r in He. left; left. intuition.
      * right. exists j, u, v. rewrite Nat.add_succ_r in He. auto.
Qed.
Lemma add_hidden_nodes arcs : forall g i n,
  In n (nodes (add_hidden g i arcs)) <->
  In n (nodes g) \/ exists j a b, nth_error arcs j = Some (a, b) /\ (n = uname (i + j) \/ n = a \/ n = b).
Proof.
  induction arcs as [|(a, b) arcs IH]; intros g i n; cbn [add_hidden].
  - split; auto. intros [?|(j & a & b & H & _)]; auto. destruct j; discriminate.
  - rewrite IH, add_edges_key_nodes. split.
    + intros [[(u & v & k & [H|[H|[]]] & Hn)|H]|(j & u & v & Hj & He)]; auto.
      * injection H as <- <- <-. right. exists 0, a, b. rewrite Nat.add_0_r. split; auto. tauto.
      * injection H as <- <- <-. right. exists 0, a, b. rewrite Nat.add_0_r. split; auto. tauto.
      * right. exists (S j), u, v. rewrite Nat.add_succ_r. auto.
    + intros [H|(j & u & v & Hj & He)]; auto. destruct j as [|j].
      * injection Hj as <- <-. rewrite Nat.add_0_r in He. left; left.
        destruct He as [->|[->| ->]].
        -- exists (uname i), a, Kn. split; [now left|auto].
        -- exists (uname i), a, Kn. split; [now left|auto].
        -- exists (uname i), b, Kn. split; [right; now left|auto].
      * right. exists j, u, v. rewrite Nat.add_succ_r in He. auto.
Qed.
Lemma add_hidden_gwf arcs : forall g i, gwf g -> gwf (add_hidden g i arcs).
Proof.
  induction arcs as [|(a, b) arcs IH]; intros g i H; cbn [add_hidden]; auto.
  apply IH. now apply gwf_add_edges_key.
Qed.
