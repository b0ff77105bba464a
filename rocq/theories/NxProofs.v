(** Correctness of the networkx model against the graph-theoretic specification. *)
From Verif Require Import Base NxModel NxSpec ReachProofs.
Set Implicit Arguments.

Section NxP.
  Context {A : Type} {EA : EqDec A}.
  Implicit Types (g : mdg A) (u v a b : A).

  (** The edge relation of a multigraph (keys forgotten). *)
  Definition ed g u v : Prop := exists k, In (u, v, k) (edges g).

  Record wf g : Prop := {
    wf_nodes : NoDup (nodes g);
    wf_ends : forall u v, ed g u v -> In u (nodes g) /\ In v (nodes g) }.
  (** no parallel edges *)
  Definition simple g : Prop := NoDup (map fst (edges g)).

  Lemma predecessors_spec g u v : In u (predecessors g v) <-> ed g u v.
  Proof.
    unfold predecessors, ed. rewrite dedup_In, in_map_iff. split.
    - intros (((a, b), k) & Ha & Hf). simpl in Ha; subst.
      apply filter_In in Hf as [Hf He]. simpl in He. apply eqb_eq in He; subst. eauto.
    - intros (k & Hk). exists (u, v, k). split; auto. apply filter_In; split; auto. apply eqb_refl.
  Qed.
  Lemma successors_spec g u v : In v (successors g u) <-> ed g u v.
  Proof.
    unfold successors, ed. rewrite dedup_In, in_map_iff. split.
    - intros (((a, b), k) & Ha & Hf). simpl in Ha; subst.
      apply filter_In in Hf as [Hf He]. simpl in He. apply eqb_eq in He; subst. eauto.
    - intros (k & Hk). exists (u, v, k). split; auto. apply filter_In; split; auto. apply eqb_refl.
  Qed.
  Lemma predecessors_NoDup g v : NoDup (predecessors g v).
  Proof. apply dedup_NoDup. Qed.

  Lemma has_edge_spec g u v : has_edge g u v = true <-> ed g u v.
  Proof.
    unfold has_edge, ed. rewrite existsb_exists. split.
    - intros ((p, k) & Hi & He). apply eqb_eq in He. simpl in He; subst. eauto.
    - intros (k & Hk). exists (u, v, k). split; auto. apply eqb_refl.
  Qed.
  Lemma ed_dec g u v : {ed g u v} + {~ ed g u v}.
  Proof.
    destruct (has_edge g u v) eqn:H.
    - left. now apply has_edge_spec.
    - right. intros Hc. apply has_edge_spec in Hc. congruence.
  Qed.

  Lemma out_degree_0 g u : out_degree g u = 0 <-> forall v, ~ ed g u v.
  Proof.
    unfold out_degree. split.
    - intros H v (k & Hk). apply length_zero_iff_nil in H.
      assert (Hin : In (u, v, k) (filter (fun e => eqb (fst (fst e)) u) (edges g))).
      { apply filter_In; split; auto. apply eqb_refl. }
      rewrite H in Hin. destruct Hin.
    - intros H. apply length_zero_iff_nil. destruct (filter _ _) as [|[[a b] k] r] eqn:Hf; auto.
      exfalso. assert (Hin : In (a, b, k) (filter (fun e => eqb (fst (fst e)) u) (edges g)))
        by (rewrite Hf; now left).
      apply filter_In in Hin as [Hi He]. simpl in He. apply eqb_eq in He; subst.
      eapply H. exists k; eauto.
  Qed.

  (** ** Breadth first closure *)
  Section Bfs.
    Variable next : A -> list A.
    Variable N : list A.
    Hypothesis Hcl : forall a b, In a N -> In b (next a) -> In b N.
    Notation R := (fun a b => In b (next a)).

    Lemma bfs_spec fuel : forall visited frontier,
      NoDup visited -> incl visited N -> incl frontier visited ->
      (forall a, In a visited -> ~ In a frontier -> incl (next a) visited) ->
      List.length N < fuel + List.length visited ->
      forall v, In v (bfs next fuel visited frontier) <-> exists u, In u visited /\ reach R u v.
    Proof.
      induction fuel as [|f IH]; intros visited frontier ND HN Hf Hc Hlen v.
      - exfalso. pose proof (NoDup_incl_length ND HN). lia.
      - cbn [bfs]. set (new := dedup _).
        assert (Hnew : forall w, In w new <-> ~ In w visited /\ exists a, In a frontier /\ In w (next a)).
        { intros w. unfold new. rewrite dedup_In, filter_In, in_flat_map, negb_true_iff, mem_nIn. tauto. }
        assert (NDn : NoDup new) by apply dedup_NoDup.
        clearbody new.
        destruct new as [|w new].
        + split.
          * intros Hv; exists v; split; auto. constructor.
          * intros (u & Hu & Hr). induction Hr as [|a b c Hab Hbc IHr]; auto.
            apply IHr. destruct (In_dec b visited) as [|Hn]; auto. exfalso.
            destruct (In_dec a frontier) as [Ha|Ha].
            -- destruct (proj2 (Hnew b)). split; auto. eauto.
            -- apply Hn. eapply Hc; eauto.
        + rewrite IH.
          * split; intros (u & Hu & Hr).
            -- apply in_app_iff in Hu as [Hu|Hu]; [eauto|].
               apply Hnew in Hu as (_ & a & Ha & Hu). exists a. split; auto. econstructor; eauto.
            -- exists u. split; auto. apply in_app_iff; auto.
          * apply NoDup_app_intro; auto. intros x Hx Hn. apply Hnew in Hn. tauto.
          * intros x Hx. apply in_app_iff in Hx as [Hx|Hx]; auto.
            apply Hnew in Hx as (_ & a & Ha & Hx). eapply Hcl; [|eauto]. auto.
          * intros x Hx. apply in_app_iff; auto.
          * intros a Ha Hna. apply in_app_iff in Ha as [Ha|Ha]; [|contradiction].
            intros b Hb. apply in_app_iff. destruct (In_dec b visited); auto. right.
            apply Hnew. split; auto. destruct (In_dec a frontier) as [|Hn]; eauto.
            exfalso. apply n. eapply Hc; eauto.
          * rewrite app_length. simpl. lia.
    Qed.
  End Bfs.

  Lemma closure_spec g next s :
    incl s (nodes g) -> (forall a b, In a (nodes g) -> In b (next a) -> In b (nodes g)) ->
    forall v, In v (closure g next s) <-> exists u, In u s /\ reach (fun a b => In b (next a)) u v.
  Proof.
    intros Hs Hcl v. unfold closure. rewrite (@bfs_spec next (nodes g)).
    - split; intros (u & Hu & Hr); exists u; split; auto; first [now apply (proj2 (dedup_In _ _)) | now apply (proj1 (dedup_In _ _))].
    - auto.
    - apply dedup_NoDup.
    - intros x Hx. rewrite dedup_In in Hx. auto.
    - apply incl_refl.
    - tauto.
    - lia.
  Qed.

  Lemma reach_ext (R S : A -> A -> Prop) :
    (forall a b, R a b <-> S a b) -> forall x y, reach R x y <-> reach S x y.
  Proof. intros H x y. split; apply reach_mono; intros; now apply H. Qed.

  Lemma closure_succ g s : wf g -> incl s (nodes g) ->
    forall v, In v (closure g (successors g) s) <-> exists u, In u s /\ reach (ed g) u v.
  Proof.
    intros W Hs v. rewrite closure_spec; auto.
    - split; intros (u & Hu & Hr); exists u; split; auto; revert Hr;
        apply reach_mono; intros; now apply successors_spec.
    - intros a b _ H. apply successors_spec in H. now apply (wf_ends W) in H.
  Qed.
  Lemma closure_pred g s : wf g -> incl s (nodes g) ->
    forall v, In v (closure g (predecessors g) s) <-> exists u, In u s /\ reach (ed g) v u.
  Proof.
    intros W Hs v. rewrite closure_spec; auto.
    - split; intros (u & Hu & Hr); exists u; split; auto.
      + apply reach_flip. revert Hr; apply reach_mono; intros; now apply predecessors_spec.
      + apply reach_flip in Hr. revert Hr; apply reach_mono; intros; now apply predecessors_spec.
    - intros a b _ H. apply predecessors_spec in H. now apply (wf_ends W) in H.
  Qed.

  Lemma nx_descendants_spec g s : wf g -> In s (nodes g) ->
    exists l, nx_descendants g s = Ok l /\ forall v, In v l <-> v <> s /\ reach (ed g) s v.
  Proof.
    intros W Hs. unfold nx_descendants. rewrite (proj2 (mem_In _ _) Hs). eexists; split; [reflexivity|].
    intros v. rewrite diff_In, closure_succ; auto.
    - split.
      + intros [(u & [->|[]] & Hr) Hn]. split; auto. intros ->. apply Hn; now left.
      + intros [Hn Hr]. split; [exists s; split; [now left|auto]|]. intros [->|[]]. congruence.
    - intros x [->|[]]; auto.
  Qed.
  Lemma nx_ancestors_spec g s : wf g -> In s (nodes g) ->
    exists l, nx_ancestors g s = Ok l /\ forall v, In v l <-> v <> s /\ reach (ed g) v s.
  Proof.
    intros W Hs. unfold nx_ancestors. rewrite (proj2 (mem_In _ _) Hs). eexists; split; [reflexivity|].
    intros v. rewrite diff_In, closure_pred; auto.
    - split.
      + intros [(u & [->|[]] & Hr) Hn]. split; auto. intros ->. apply Hn; now left.
      + intros [Hn Hr]. split; [exists s; split; [now left|auto]|]. intros [->|[]]. congruence.
    - intros x [->|[]]; auto.
  Qed.

  (** ** Topological sort *)
  Lemma topo_snoc (E : A -> A -> Prop) l x :
    topo_ordered E l -> (forall p, E p x -> In p l) -> topo_ordered E (l ++ [x]).
  Proof.
    intros T Hx l1 y l2 Heq p Hp.
    destruct l2 as [|c l2] using rev_ind.
    - apply app_inj_tail in Heq as [-> ->]. auto.
    - rewrite app_comm_cons, app_assoc in Heq. apply app_inj_tail in Heq as [-> ->].
      eapply T; eauto.
  Qed.
  Lemma topo_app (E : A -> A -> Prop) l z :
    topo_ordered E l -> (forall x p, In x z -> E p x -> In p l) -> topo_ordered E (l ++ z).
  Proof.
    revert l. induction z as [|x z IH]; intros l T H; [now rewrite app_nil_r|].
    replace (l ++ x :: z) with ((l ++ [x]) ++ z) by (rewrite <- app_assoc; reflexivity).
    apply IH.
    - apply topo_snoc; auto. intros p Hp. eapply H; [now left|eauto].
    - intros y p Hy Hp. apply in_app_iff; left. eapply H; [right; eauto|eauto].
  Qed.

  Lemma topo_reach1_in (E : A -> A -> Prop) l : topo_ordered E l ->
    forall n l1 x l2, List.length l1 <= n -> l = l1 ++ x :: l2 -> forall p, reach1 E p x -> In p l1.
  Proof.
    intros T n. induction n as [|n IH]; intros l1 x l2 Hn Hl p Hp;
      apply reach1_last in Hp as (z & Hpz & Hzx); assert (Hz : In z l1) by (eapply T; eauto).
    - destruct l1; [easy|simpl in Hn; lia].
    - apply in_split in Hz as (la & lb & ->).
      destruct (reach_inv Hpz) as [->|H1]; [apply in_app_iff; right; now left|].
      apply in_app_iff; left. apply (IH la z (lb ++ x :: l2)); auto.
      + rewrite app_length in Hn. simpl in Hn. lia.
      + rewrite Hl, <- app_assoc. reflexivity.
  Qed.

  Lemma topo_acyclic (E : A -> A -> Prop) l :
    NoDup l -> topo_ordered E l -> (forall a b, E a b -> In b l) -> acyclic E.
  Proof.
    intros ND T Hin x Hx.
    assert (Hxl : In x l). { apply reach1_last in Hx as (z & _ & Hz). eauto. }
    apply in_split in Hxl as (l1 & l2 & Hl).
    assert (Hi : In x l1) by (eapply topo_reach1_in; eauto).
    rewrite Hl in ND. apply NoDup_remove_2 in ND. apply ND. apply in_app_iff; auto.
  Qed.

  Lemma no_pred_in_spec g rest v :
    no_pred_in g rest v = true <-> forall p, ed g p v -> ~ In p rest.
  Proof.
    unfold no_pred_in. rewrite forallb_forall. split.
    - intros H p Hp. apply predecessors_spec in Hp. apply H in Hp.
      now apply negb_true_iff, mem_nIn in Hp.
    - intros H p Hp. apply negb_true_iff, mem_nIn. apply H. now apply predecessors_spec.
  Qed.

  Definition kahn_inv g (rest acc : list A) : Prop :=
    NoDup rest /\ NoDup acc /\ (forall v, In v (nodes g) <-> In v acc \/ In v rest) /\
    (forall v, In v acc -> ~ In v rest) /\ topo_ordered (ed g) acc.

  Lemma kahn_step_inv g rest acc : wf g -> kahn_inv g rest acc ->
    kahn_inv g (diff rest (filter (no_pred_in g rest) rest)) (acc ++ filter (no_pred_in g rest) rest).
  Proof.
    intros W (H1 & H2 & H3 & H4 & H5). set (zero := filter _ _).
    assert (Hz : forall v, In v zero <-> In v rest /\ forall p, ed g p v -> ~ In p rest).
    { intros v. unfold zero. rewrite filter_In, no_pred_in_spec. tauto. }
    repeat split.
    - now apply diff_NoDup.
    - apply NoDup_app_intro; auto.
      + now apply NoDup_filter.
      + intros x Hx Hzx. apply Hz in Hzx. apply (H4 x); tauto.
    - intros Hv. apply H3 in Hv. rewrite in_app_iff, diff_In. destruct (In_dec v zero); tauto.
    - rewrite in_app_iff, diff_In. intros Hv. apply H3. destruct Hv as [[?|Hv]|?]; auto.
      + apply Hz in Hv. tauto.
      + tauto.
    - intros v Hv. rewrite diff_In. apply in_app_iff in Hv as [Hv|Hv]; [|tauto].
      intros [Hr _]. eapply H4; eauto.
    - apply topo_app; auto. intros x p Hx Hp. apply Hz in Hx as [Hx1 Hx2].
      assert (In p (nodes g)) by (now apply (wf_ends W) in Hp).
      apply H3 in H as [?|?]; auto. exfalso. eapply Hx2; eauto.
  Qed.

  Lemma kahn_ok_inv g : wf g -> forall fuel rest acc l,
    kahn_inv g rest acc -> kahn g fuel rest acc = Ok l -> kahn_inv g [] l.
  Proof.
    intros W fuel. induction fuel as [|f IH]; intros rest acc l HI Hk.
    - destruct rest; simpl in Hk; [|discriminate]. injection Hk as <-. auto.
    - destruct rest as [|r rest]; cbn [kahn] in Hk; [injection Hk as <-; auto|].
      destruct (filter (no_pred_in g (r :: rest)) (r :: rest)) as [|z0 zs] eqn:Hz; [discriminate|].
      rewrite <- Hz in Hk. eapply IH; [|exact Hk]. now apply kahn_step_inv.
  Qed.

  Lemma kahn_total g : wf g -> acyclic (ed g) -> forall fuel rest acc,
    kahn_inv g rest acc -> List.length rest <= fuel -> exists l, kahn g fuel rest acc = Ok l.
  Proof.
    intros W AC fuel. induction fuel as [|f IH]; intros rest acc HI Hl.
    - destruct rest; [|simpl in Hl; lia]. simpl. eauto.
    - destruct rest as [|r rest]; cbn [kahn]; [eauto|].
      destruct (filter (no_pred_in g (r :: rest)) (r :: rest)) as [|z0 zs] eqn:Hz.
      + exfalso. destruct (@finite_pred_cycle A EA (ed g) (r :: rest)) as (a & Ha).
        * discriminate.
        * intros v Hv.
          assert (Hf : no_pred_in g (r :: rest) v = false).
          { destruct (no_pred_in g (r :: rest) v) eqn:E; auto. exfalso.
            assert (In v (filter (no_pred_in g (r :: rest)) (r :: rest))) by (apply filter_In; auto).
            rewrite Hz in H. destruct H. }
          unfold no_pred_in in Hf.
          assert (He : existsb (fun p => mem p (r :: rest)) (predecessors g v) = true).
          { clear - Hf. induction (predecessors g v) as [|p ps IHp]; simpl in *; [discriminate|].
            destruct (eqb p r || mem p rest); auto. }
          apply existsb_exists in He as (p & Hp & Hm). exists p. split; [now apply mem_In|].
          now apply predecessors_spec.
        * eapply AC; eauto.
      + rewrite <- Hz. apply IH.
        * now apply kahn_step_inv.
        * assert (Hin : In z0 (r :: rest)).
          { assert (In z0 (filter (no_pred_in g (r :: rest)) (r :: rest))) by (rewrite Hz; now left).
            apply filter_In in H. tauto. }
          assert (List.length (diff (r :: rest) (filter (no_pred_in g (r :: rest)) (r :: rest))) <
                  List.length (r :: rest)).
          { unfold diff. eapply filter_length_lt; eauto. apply negb_false_iff. apply mem_In.
            rewrite Hz; now left. }
          lia.
  Qed.

  Lemma kahn_init g : wf g -> kahn_inv g (nodes g) [].
  Proof.
    intros W. split; [apply W|]. split; [constructor|]. split; [simpl; tauto|].
    split; [intros ? []|]. intros l1 x l2 H. destruct l1; discriminate.
  Qed.

  Theorem topological_sort_sound g l : wf g -> topological_sort g = Ok l ->
    NoDup l /\ (forall v, In v l <-> In v (nodes g)) /\ topo_ordered (ed g) l.
  Proof.
    intros W H. destruct (kahn_ok_inv W _ (kahn_init W) H) as (_ & H2 & H3 & _ & H5).
    repeat split; auto; intros Hv; [apply H3; auto|apply H3 in Hv; simpl in Hv; tauto].
  Qed.
  Theorem topological_sort_complete g : wf g -> acyclic (ed g) -> exists l, topological_sort g = Ok l.
  Proof. intros W AC. apply kahn_total; auto using kahn_init. Qed.

  Lemma is_dag_spec g : wf g -> (is_dag g = true <-> acyclic (ed g)).
  Proof.
    intros W. unfold is_dag. split.
    - destruct (topological_sort g) as [l|] eqn:H; [|discriminate]. intros _.
      destruct (topological_sort_sound W H) as (H1 & H2 & H3).
      eapply topo_acyclic; eauto. intros a b Hab. apply H2. now apply (wf_ends W) in Hab.
    - intros AC. destruct (topological_sort_complete W AC) as (l & ->). reflexivity.
  Qed.


  (** ** d_separated *)
  Lemma out_degree_1 g p l : simple g -> out_degree g p = 1 -> ed g p l -> forall w, ed g p w -> w = l.
  Proof.
    unfold out_degree. intros _ H (k & Hk) w (k' & Hk').
    set (f := fun e : A * A * key => eqb (fst (fst e)) p) in H.
    assert (I1 : In (p, l, k) (filter f (edges g))) by (apply filter_In; split; auto; apply eqb_refl).
    assert (I2 : In (p, w, k') (filter f (edges g))) by (apply filter_In; split; auto; apply eqb_refl).
    destruct (filter f (edges g)) as [|e [|e' r]]; try discriminate.
    destruct I1 as [->|[]]. destruct I2 as [I2|[]]. congruence.
  Qed.
  Lemma out_degree_one_of g p l : NoDup (edges g) -> simple g -> ed g p l ->
    (forall w, ed g p w -> w = l) -> out_degree g p = 1.
  Proof.
    unfold out_degree, simple. intros ND0 ND (k & Hk) Hw.
    set (f := fun e : A * A * key => eqb (fst (fst e)) p).
    assert (NDf : NoDup (map fst (filter f (edges g)))).
    { clear - ND. induction (edges g) as [|e es IH]; simpl; [constructor|].
      inversion ND as [|? ? H1 H2]; subst. destruct (f e); simpl; auto. constructor; auto.
      intros Hc. apply H1. apply in_map_iff in Hc as (e' & He & Hi). apply filter_In in Hi as [Hi _].
      apply in_map_iff. eauto. }
    assert (Hall : forall q, In q (map fst (filter f (edges g))) -> q = (p, l)).
    { intros q Hq. apply in_map_iff in Hq as (((a, b), kk) & <- & Hf).
      apply filter_In in Hf as [Hf1 Hf2]. unfold f in Hf2. simpl in Hf2. apply eqb_eq in Hf2. subst.
      simpl. f_equal. apply Hw. exists kk; auto. }
    assert (Hin : In (p, l) (map fst (filter f (edges g)))).
    { apply in_map_iff. exists (p, l, k). split; auto. apply filter_In; split; auto. apply eqb_refl. }
    rewrite <- (map_length fst). destruct (map fst (filter f (edges g))) as [|q1 [|q2 r]]; [destruct Hin|reflexivity|].
    exfalso. inversion NDf as [|? ? Hn _]; subst. apply Hn.
    rewrite (Hall q1), (Hall q2); simpl; auto.
  Qed.

  Lemma remove_nodes_ed g ns a b :
    ed (remove_nodes_from g ns) a b <-> ed g a b /\ ~ In a ns /\ ~ In b ns.
  Proof.
    unfold ed, remove_nodes_from; simpl. split.
    - intros (k & Hk). apply filter_In in Hk as [H1 H2]. simpl in H2.
      apply andb_true_iff in H2 as [H2 H3].
      apply negb_true_iff, mem_nIn in H2. apply negb_true_iff, mem_nIn in H3. eauto.
    - intros ((k & Hk) & H1 & H2). exists k. apply filter_In; split; auto. simpl.
      apply andb_true_iff; split; apply negb_true_iff, mem_nIn; auto.
  Qed.
  Lemma remove_nodes_nodes g ns v : In v (nodes (remove_nodes_from g ns)) <-> In v (nodes g) /\ ~ In v ns.
  Proof. unfold remove_nodes_from; simpl. rewrite filter_In, negb_true_iff, mem_nIn. tauto. Qed.
  Lemma remove_nodes_wf g ns : wf g -> wf (remove_nodes_from g ns).
  Proof.
    intros [H1 H2]. constructor.
    - simpl. now apply NoDup_filter.
    - intros u v H. apply remove_nodes_ed in H as (H & Hu & Hv). apply H2 in H.
      rewrite !remove_nodes_nodes. tauto.
  Qed.
  Lemma NoDup_map_filter {B C} (f : B -> C) (p : B -> bool) l : NoDup (map f l) -> NoDup (map f (filter p l)).
  Proof.
    induction l as [|e es IH]; simpl; [constructor|]. intros ND.
    inversion ND as [|? ? H1 H2]; subst. destruct (p e); simpl; auto. constructor; auto.
    intros Hc. apply H1. apply in_map_iff in Hc as (e' & He & Hi). apply filter_In in Hi as [Hi _].
    apply in_map_iff. eauto.
  Qed.
  Lemma NoDup_map_NoDup {B C} (f : B -> C) l : NoDup (map f l) -> NoDup l.
  Proof.
    induction l as [|e es IH]; simpl; [constructor|]. intros ND.
    inversion ND as [|? ? H1 H2]; subst. constructor; auto. intros H. apply H1. now apply in_map.
  Qed.
  Lemma remove_nodes_simple g ns : simple g -> simple (remove_nodes_from g ns).
  Proof. apply NoDup_map_filter. Qed.

  (** [g'] is the subgraph of [g] induced by its node set. *)
  Definition induced g g' : Prop :=
    (forall v, In v (nodes g') -> In v (nodes g)) /\
    (forall a b, ed g' a b <-> ed g a b /\ In a (nodes g') /\ In b (nodes g')).

  Definition nonsinks g : list A := filter (fun n => negb (Nat.eqb (out_degree g n) 0)) (nodes g).

  Record prune_inv g (s : list A) (g' : mdg A) (leaves : list A) : Prop := {
    pi_wf : wf g'; pi_simple : simple g'; pi_ind : induced g g';
    pi_anc : forall v u, In u s -> reach (ed g) v u -> In v (nodes g');
    pi_leaves : forall v, In v leaves -> In v (nodes g') /\ out_degree g' v = 0;
    pi_nodup : NoDup leaves;
    pi_cov : forall v, In v (nodes g') -> out_degree g' v = 0 -> In v leaves \/ In v s }.

  Lemma prune_inv_step g s g' l rest : prune_inv g s g' (l :: rest) -> ~ In l s -> incl s (nodes g) ->
    let ps := filter (fun p => Nat.eqb (out_degree g' p) 1) (predecessors g' l) in
    let g'' := remove_nodes_from g' [l] in
    prune_inv g s g'' (rest ++ ps) /\
    List.length (rest ++ ps) + List.length (nonsinks g'') < List.length (l :: rest) + List.length (nonsinks g').
  Proof.
    intros [W S [I1 I2] An Le ND Cov] Hl Hs ps g''.
    destruct (Le l) as [Hlg Hl0]; [now left|].
    assert (Hsink : forall v, ~ ed g' l v) by now apply out_degree_0.
    assert (Hps : forall p, In p ps <-> ed g' p l /\ out_degree g' p = 1).
    { intros p. unfold ps. rewrite filter_In, predecessors_spec, Nat.eqb_eq. tauto. }
    assert (Hps_node : forall p, In p ps -> In p (nodes g') /\ p <> l).
    { intros p Hp. apply Hps in Hp as [Hp _]. split; [now apply (wf_ends W) in Hp|].
      intros ->. eapply Hsink; eauto. }
    assert (W'' : wf g'') by now apply remove_nodes_wf.
    assert (S'' : simple g'') by now apply remove_nodes_simple.
    assert (Hed : forall a b, ed g'' a b <-> ed g' a b /\ a <> l /\ b <> l).
    { intros a b. unfold g''. rewrite remove_nodes_ed. simpl. intuition congruence. }
    assert (Hnd : forall v, In v (nodes g'') <-> In v (nodes g') /\ v <> l).
    { intros v. unfold g''. rewrite remove_nodes_nodes. simpl. intuition congruence. }
    assert (Hps0 : forall p, In p ps -> out_degree g'' p = 0).
    { intros p Hp. apply out_degree_0. intros v Hv. apply Hed in Hv as (Hv & _ & Hvl).
      apply Hps in Hp as [Hpl Hp1]. apply Hvl. exact (out_degree_1 S Hp1 Hpl Hv). }
    assert (ND'' : NoDup (rest ++ ps)).
    { apply NoDup_app_intro.
      - now inversion ND.
      - unfold ps. apply NoDup_filter, predecessors_NoDup.
      - intros x Hx Hp. apply Hps in Hp as [Hp _]. destruct (Le x) as [_ H0]; [now right|].
        rewrite out_degree_0 in H0. eapply H0; eauto. }
    split.
    - constructor; auto.
      + split.
        * intros v Hv. apply Hnd in Hv. now apply I1.
        * intros a b. rewrite Hed, I2, !Hnd. tauto.
      + intros v u Hu Hr. apply Hnd. split; [eapply An; eauto|]. intros ->.
        assert (Hlu : l <> u) by (intros ->; auto).
        destruct (reach_inv Hr) as [?|(w & Hw & Hwu)]; [contradiction|].
        apply (Hsink w). apply I2. split; auto. split; auto. eapply An; eauto.
      + intros v Hv. apply in_app_iff in Hv as [Hv|Hv].
        * destruct (Le v) as [H1 H2]; [now right|]. split.
          -- apply Hnd. split; auto. intros ->. inversion ND; auto.
          -- apply out_degree_0. intros w Hw. apply Hed in Hw as [Hw _]. rewrite out_degree_0 in H2.
             eapply H2; eauto.
        * split; [apply Hnd; apply Hps_node; auto|auto].
      + intros v Hv H0. apply Hnd in Hv as [Hv Hvl]. rewrite in_app_iff.
        destruct (Nat.eq_dec (out_degree g' v) 0) as [Hz|Hz].
        * destruct (Cov v Hv Hz) as [[->|?]|?]; auto. congruence.
        * left; right. apply Hps.
          assert (Hex : exists w, ed g' v w).
          { unfold out_degree in Hz.
            destruct (filter (fun e => eqb (fst (fst e)) v) (edges g')) as [|[[a b] k] r] eqn:Hf;
              [simpl in Hz; congruence|].
            assert (Hin : In (a, b, k) (filter (fun e => eqb (fst (fst e)) v) (edges g')))
              by (rewrite Hf; now left).
            apply filter_In in Hin as [Hin He]. simpl in He. apply eqb_eq in He; subst.
            exists b, k; auto. }
          assert (Hall : forall w, ed g' v w -> w = l).
          { intros w Hw. destruct (eq_dec w l) as [|Hn]; auto. exfalso.
            rewrite out_degree_0 in H0. apply (H0 w). apply Hed. auto. }
          destruct Hex as (w & Hw). assert (w = l) by auto. subst w. split; auto.
          eapply out_degree_one_of; eauto. eapply NoDup_map_NoDup; eauto.
    - (* measure *)
      assert (Hns : forall v, In v (nonsinks g'') -> In v (nonsinks g') /\ ~ In v ps).
      { intros v Hv. unfold nonsinks in Hv. apply filter_In in Hv as [Hv1 Hv2].
        apply negb_true_iff, Nat.eqb_neq in Hv2. split.
        - apply filter_In. apply Hnd in Hv1. split; [tauto|]. apply negb_true_iff, Nat.eqb_neq.
          intros H0. apply Hv2. apply out_degree_0. intros w Hw. apply Hed in Hw as [Hw _].
          rewrite out_degree_0 in H0. eapply H0; eauto.
        - intros Hp. apply Hv2. auto. }
      assert (NDu : NoDup (ps ++ nonsinks g'')).
      { apply NoDup_app_intro.
        - unfold ps. apply NoDup_filter, predecessors_NoDup.
        - apply NoDup_filter. apply W''.
        - intros x Hx Hy. apply Hns in Hy. tauto. }
      assert (Hinc : incl (ps ++ nonsinks g'') (nonsinks g')).
      { intros x Hx. apply in_app_iff in Hx as [Hx|Hx].
        - apply filter_In. split; [apply Hps_node; auto|]. apply Hps in Hx as [_ ->]. reflexivity.
        - apply Hns in Hx. tauto. }
      pose proof (NoDup_incl_length NDu Hinc) as HL. rewrite app_length in *. simpl. lia.
  Qed.

  Lemma prune_inv_skip g s g' l rest : prune_inv g s g' (l :: rest) -> In l s -> prune_inv g s g' rest.
  Proof.
    intros [W S I An Le ND Cov] Hl. constructor; auto.
    - intros v Hv. apply Le. now right.
    - now inversion ND.
    - intros v Hv H0. destruct (Cov v Hv H0) as [[->|?]|?]; auto.
  Qed.

  Lemma prune_final g s fuel : incl s (nodes g) -> forall g' leaves,
    prune_inv g s g' leaves -> List.length leaves + List.length (nonsinks g') < fuel ->
    prune_inv g s (prune_leaves fuel g' leaves s) [].
  Proof.
    intros Hs. induction fuel as [|f IH]; intros g' leaves HI Hf; [lia|].
    destruct leaves as [|l rest]; cbn [prune_leaves]; auto.
    destruct (mem_spec l s) as [Hl|Hl].
    - apply IH; [eapply prune_inv_skip; eauto|simpl in Hf; lia].
    - destruct (prune_inv_step HI Hl Hs) as [H1 H2]. apply IH; auto. lia.
  Qed.

  Lemma leaves_nonsinks_length g :
    List.length (leaves_of g) + List.length (nonsinks g) = List.length (nodes g).
  Proof.
    unfold leaves_of, nonsinks. induction (nodes g) as [|n ns IH]; simpl; auto.
    destruct (Nat.eqb (out_degree g n) 0); simpl; lia.
  Qed.

  Lemma prune_init g s : wf g -> simple g -> incl s (nodes g) -> prune_inv g s g (leaves_of g).
  Proof.
    intros W S Hs. constructor; auto.
    - split; auto. intros a b. split; [|tauto]. intros H. split; auto. now apply (wf_ends W).
    - intros v u Hu Hr. destruct (reach_inv Hr) as [->|(w & Hw & _)]; auto. now apply (wf_ends W) in Hw.
    - intros v Hv. unfold leaves_of in Hv. apply filter_In in Hv as [H1 H2].
      apply Nat.eqb_eq in H2. auto.
    - apply NoDup_filter, W.
    - intros v Hv H0. left. apply filter_In. split; auto. now apply Nat.eqb_eq.
  Qed.

  (** The pruned graph is the subgraph induced by the ancestors of x, y and z. *)
  Lemma prune_spec g s : wf g -> simple g -> acyclic (ed g) -> incl s (nodes g) ->
    let g1 := prune_leaves (S (List.length (nodes g))) g (leaves_of g) s in
    wf g1 /\ simple g1 /\
    (forall v, In v (nodes g1) <-> exists u, In u s /\ reach (ed g) v u) /\
    (forall a b, ed g1 a b <-> ed g a b /\ In a (nodes g1) /\ In b (nodes g1)).
  Proof.
    intros W S AC Hs g1.
    assert (HI : prune_inv g s g1 []).
    { apply prune_final; auto using prune_init. pose proof (leaves_nonsinks_length g). lia. }
    destruct HI as [W1 S1 [I1 I2] An _ _ Cov]. split; auto. split; auto. split; [|exact I2].
    intros v. split; [intros Hv|intros (u & Hu & Hr); eapply An; eauto].
    assert (AC1 : forall l, l <> [] -> (forall x, In x l -> exists p, In p l /\ ed g x p) -> False).
    { intros l Hne Hl. destruct (finite_succ_cycle (ed g) Hne Hl) as (a & Ha). eapply AC; eauto. }
    set (anc := closure g (predecessors g) s).
    assert (Hanc : forall x, In x anc <-> exists u, In u s /\ reach (ed g) x u)
      by (intros; now apply closure_pred).
    apply Hanc. destruct (In_dec v anc) as [|Hn]; auto. exfalso.
    apply (AC1 (diff (nodes g1) anc)).
    - intros He. assert (In v (diff (nodes g1) anc)) by (apply diff_In; auto). rewrite He in H. destruct H.
    - intros x Hx. apply diff_In in Hx as [Hx1 Hx2].
      destruct (Nat.eq_dec (out_degree g1 x) 0) as [H0|H0].
      + exfalso. apply Hx2. apply Hanc. exists x. split; [|constructor].
        destruct (Cov x Hx1 H0) as [[]|]; auto.
      + assert (Hex : exists w, ed g1 x w).
        { destruct (Exists_dec (fun w => ed g1 x w) (nodes g1)) as [D|D].
          - intros w. apply ed_dec.
          - apply Exists_exists in D as (w & _ & Hw). eauto.
          - exfalso. apply H0. apply out_degree_0. intros w Hw. apply D. apply Exists_exists.
            exists w. split; auto. now apply (wf_ends W1) in Hw. }
        destruct Hex as (w & Hw). exists w. apply I2 in Hw as (Hw1 & Hw2 & Hw3). split; auto.
        apply diff_In; split; auto. intros Hc. apply Hx2. apply Hanc in Hc as (u & Hu & Hr).
        apply Hanc. exists u; split; auto. econstructor; eauto.
  Qed.

  Lemma cut_out_ed g z a b : ed (cut_out g z) a b <-> ed g a b /\ ~ In a z.
  Proof.
    unfold ed, cut_out; simpl. split.
    - intros (k & Hk). apply filter_In in Hk as [H1 H2]. simpl in H2.
      apply negb_true_iff, mem_nIn in H2. eauto.
    - intros ((k & Hk) & H). exists k. apply filter_In; split; auto. simpl.
      now apply negb_true_iff, mem_nIn.
  Qed.

  Lemma reach_conn (R : A -> A -> Prop) x y :
    reach (fun a b => R a b \/ R b a) x y <-> conn R x y.
  Proof. split; induction 1; try constructor; econstructor; eauto. Qed.
  Lemma conn_ext (R S : A -> A -> Prop) x y :
    (forall a b, R a b <-> S a b) -> (conn R x y <-> conn S x y).
  Proof.
    intros H. rewrite <- !reach_conn. apply reach_ext. intros a b. rewrite !H. tauto.
  Qed.

  (** C12 core: the algorithm decides Pearl's d-separation. *)
  Theorem d_separated_correct g x y z :
    wf g -> simple g -> acyclic (ed g) ->
    incl x (nodes g) -> incl y (nodes g) -> incl z (nodes g) ->
    (forall a, In a x -> ~ In a z) -> (forall a, In a y -> ~ In a z) ->
    exists b : bool, d_separated g x y z = Ok b /\
      (b = true <-> dsep (ed g) (fun a => In a x) (fun a => In a y) (fun a => In a z)).
  Proof.
    intros W S AC Hx Hy Hz Dx Dy. unfold d_separated.
    rewrite (proj2 (is_dag_spec W) AC). cbn [negb].
    assert (Hs : incl (x ++ y ++ z) (nodes g)) by (repeat apply incl_app; auto).
    rewrite (proj2 (subset_spec _ _) Hs). cbn [negb].
    destruct (prune_spec W S AC Hs) as (W1 & S1 & N1 & E1).
    set (g1 := prune_leaves _ _ _ _) in *. set (g2 := cut_out g1 z).
    eexists; split; [reflexivity|].
    rewrite cut_dsep; auto.
    2: { intros a. destruct (In_dec a z); auto. }
    assert (Hcut : forall a b, ed g2 a b <-> cutE (ed g) (fun a => In a x) (fun a => In a y) (fun a => In a z) a b).
    { intros a b. unfold g2, cutE. rewrite cut_out_ed, E1, !N1. unfold anc, XYZ.
      assert (Q : forall c, (exists u, In u (x ++ y ++ z) /\ reach (ed g) c u) <->
                  (exists d, (In d x \/ In d y \/ In d z) /\ reach (ed g) c d)).
      { intros c. split; intros (u & Hu & Hr); exists u; rewrite !in_app_iff in *; auto. }
      rewrite !Q. split; [tauto|]. intros (H1 & (d & Hd & Hr) & H3). repeat split; eauto.
      exists d; split; auto. econstructor; eauto. }
    assert (Hcl : forall v, In v (closure g2 (neighbours g2) x) <-> exists u, In u x /\ conn (ed g2) u v).
    { intros v. rewrite closure_spec.
      - split; intros (u & Hu & Hr); exists u; split; auto.
        + apply reach_conn. revert Hr. apply reach_mono. intros a b Hab.
          unfold neighbours in Hab. rewrite in_app_iff, successors_spec, predecessors_spec in Hab. auto.
        + apply reach_conn in Hr. revert Hr. apply reach_mono. intros a b Hab.
          unfold neighbours. rewrite in_app_iff, successors_spec, predecessors_spec. auto.
      - intros u Hu. simpl. apply N1. exists u. split; [rewrite !in_app_iff; auto|constructor].
      - intros a b Ha Hb. unfold neighbours in Hb.
        rewrite in_app_iff, successors_spec, predecessors_spec in Hb. unfold g2 in Hb.
        rewrite !cut_out_ed, !E1 in Hb. simpl. tauto. }
    rewrite negb_true_iff. split.
    - intros Hf a b Ha Hb Hc.
      assert (He : existsb (fun v => mem v (closure g2 (neighbours g2) x)) y = true).
      { apply existsb_exists. exists b; split; auto. apply mem_In. apply Hcl. exists a; split; auto.
        revert Hc. apply conn_ext. auto. }
      congruence.
    - intros H. destruct (existsb _ y) eqn:He; auto. exfalso.
      apply existsb_exists in He as (b & Hb & Hm). apply mem_In, Hcl in Hm as (a & Ha & Hc).
      apply (H a b Ha Hb). revert Hc. apply conn_ext. intros; symmetry; auto.
  Qed.

  Lemma d_separated_cyclic g x y z : wf g -> ~ acyclic (ed g) -> d_separated g x y z = Err NetworkXError.
  Proof.
    intros W H. unfold d_separated. destruct (is_dag g) eqn:E; auto.
    exfalso. apply H. now apply is_dag_spec.
  Qed.
  Lemma d_separated_unknown g x y z : wf g -> acyclic (ed g) -> ~ incl (x ++ y ++ z) (nodes g) ->
    d_separated g x y z = Err NodeNotFound.
  Proof.
    intros W H Hn. unfold d_separated. rewrite (proj2 (is_dag_spec W) H). cbn [negb].
    destruct (subset (x ++ y ++ z) (nodes g)) eqn:E; auto.
    exfalso. apply Hn. now apply subset_spec.
  Qed.

  (** ** Simple paths *)
  Definition stepw (next : A -> list A) : A -> A -> Prop := fun a b => In b (next a).

  Lemma simple_paths_spec next fuel : forall visited s t p,
    In s visited -> s <> t -> ~ In t visited ->
    (In p (simple_paths next fuel visited s t) <->
     exists q, p = s :: q ++ [t] /\ dwalk (stepw next) p /\ NoDup (q ++ [t]) /\
               (forall a, In a q -> ~ In a visited) /\ List.length q < fuel).
  Proof.
    induction fuel as [|f IH]; intros visited s t p Hs Hst Ht.
    - simpl. split; [easy|]. intros (q & _ & _ & _ & _ & Hl). lia.
    - cbn [simple_paths]. rewrite in_flat_map. split.
      + intros (v & Hv & Hp). destruct (mem_spec v visited) as [Hm|Hm]; [destruct Hp|].
        destruct (eqb_spec v t) as [->|Hvt].
        * destruct Hp as [<-|[]]. exists []. simpl.
          split; [reflexivity|]. split; [split; auto|]. split; [constructor; auto; constructor|].
          split; [intros ? []|lia].
        * apply in_map_iff in Hp as (p' & <- & Hp').
          apply IH in Hp' as (q & -> & Hd & ND & Hq & Hl); [| now left | auto | intros [->|?]; auto].
          exists (v :: q). cbn [app]. split; [reflexivity|]. split; [split; auto|].
          split; [|split].
          -- constructor; auto. rewrite in_app_iff. intros [Hc|[->|[]]]; auto.
             apply (Hq v Hc). now left.
          -- intros a [->|Ha]; auto. intros Hc. apply (Hq a Ha). now right.
          -- simpl. lia.
      + intros (q & -> & Hd & ND & Hq & Hl). destruct q as [|v q].
        * exists t. destruct Hd as [Hd _]. split; [exact Hd|].
          destruct (mem_spec t visited) as [Hm|Hm]; [contradiction|]. rewrite eqb_refl. now left.
        * exists v. cbn [app] in *. destruct Hd as [Hsv Hd]. split; [exact Hsv|].
          destruct (mem_spec v visited) as [Hm|Hm]; [exfalso; apply (Hq v); [now left|auto]|].
          inversion ND as [|? ? Hv ND']; subst. rewrite in_app_iff in Hv.
          destruct (eqb_spec v t) as [->|Hvt]; [exfalso; apply Hv; right; now left|].
          apply in_map. apply IH; auto.
          -- now left.
          -- intros [->|?]; auto.
          -- exists q. split; [reflexivity|]. split; auto. split; auto. split; [|simpl in Hl; lia].
             intros a Ha [->|Hc]; [tauto|]. apply (Hq a); [now right|auto].
  Qed.

  Lemma all_simple_paths_spec g next s t :
    In s (nodes g) -> In t (nodes g) -> s <> t ->
    (forall a b, In a (nodes g) -> In b (next a) -> In b (nodes g)) ->
    exists ps, all_simple_paths g next s t = Ok ps /\
      forall p, In p ps <-> NoDup p /\ dwalk (stepw next) p /\ exists q, p = s :: q ++ [t].
  Proof.
    intros Hs Ht Hst Hcl. unfold all_simple_paths.
    rewrite (proj2 (mem_In _ _) Hs), (proj2 (mem_In _ _) Ht). cbn [andb].
    destruct (eqb_spec s t) as [->|_]; [congruence|].
    eexists; split; [reflexivity|]. intros p.
    rewrite simple_paths_spec; [|now left|auto|intros [->|[]]; congruence]. split.
    - intros (q & -> & Hd & ND & Hq & Hl). split; [|split; eauto].
      constructor; auto. rewrite in_app_iff. intros [Hc|[->|[]]]; [|congruence].
      apply (Hq s Hc). now left.
    - intros (ND & Hd & q & ->). exists q. inversion ND as [|? ? Hn ND']; subst.
      rewrite in_app_iff in Hn.
      split; auto. split; auto. split; auto. split.
      + intros a Ha [->|[]]. tauto.
      + assert (Hin : incl (s :: q ++ [t]) (nodes g)).
        { assert (G : forall l a, In a (nodes g) -> dwalk (stepw next) (a :: l) -> incl (a :: l) (nodes g)).
          { induction l as [|b l IHl]; intros a Ha Hda; [intros c [->|[]]; auto|].
            destruct Hda as [Hab Hda]. intros c [->|Hc]; auto. revert c Hc. apply IHl; eauto. }
          apply G; auto. }
        apply NoDup_incl_length in Hin; auto. simpl in Hin. rewrite app_length in Hin. simpl in Hin. lia.
  Qed.
End NxP.
