(** Soundness and termination of CausalModel.id: every recursive call works on the sub-graph induced by a set C of
    observed variables and computes  sum over C \ x \ y of Q[C \ x]. *)
From Verif Require Import Base NxModel NxSpec ReachProofs NxProofs GraphModel GraphSpec GraphProofs ExplicitProofs
  CausalModel Bn BnProofs ScmSpec ScmProofs BackdoorSpec BackdoorProofs QProofs.
Set Implicit Arguments.
Local Open Scope list_scope.

(** ** Lists *)
Ltac nodup := auto; repeat (first [apply diff_NoDup|apply inter_NoDup]; auto).
Lemma diff_ext {A} {EA : EqDec A} (l m m' : list A) : (forall v, In v l -> (In v m <-> In v m')) -> diff l m = diff l m'.
Proof.
  intros H. unfold diff. apply filter_ext_in. intros v Hv. f_equal. apply eq_true_iff_eq. rewrite !mem_In. auto.
Qed.
Lemma diff_nil_r {A} {EA : EqDec A} (l : list A) : diff l [] = l.
Proof. unfold diff. now apply filter_all_true. Qed.
Lemma diff_diff {A} {EA : EqDec A} (l x y : list A) : diff (diff l x) y = diff l (x ++ y).
Proof.
  unfold diff. induction l as [|v l IH]; cbn [filter]; auto. rewrite mem_app, negb_orb.
  destruct (negb (mem v x)); cbn [andb filter]; auto. destruct (negb (mem v y)); now rewrite IH.
Qed.
Lemma is_nil_spec {A} (l : list A) : is_nil l = true <-> l = [].
Proof. destruct l; easy. Qed.
Lemma is_nil_false {A} (l : list A) : is_nil l = false <-> l <> [].
Proof. destruct l; easy. Qed.
Lemma mapM_ok {A B} (f : A -> res B) l ps : mapM f l = Ok ps -> Forall2 (fun a b => f a = Ok b) l ps.
Proof.
  revert ps. induction l as [|a l IH]; cbn [mapM]; intros ps H; [injection H as <-; constructor|].
  destruct (f a) as [b|] eqn:E; [|discriminate]. cbn [bind] in H. destruct (mapM f l) as [bs|]; [|discriminate].
  injection H as <-. constructor; auto.
Qed.
Lemma bfs_NoDup {A} {EA : EqDec A} (next : A -> list A) fuel : forall visited frontier,
  NoDup visited -> NoDup (bfs next fuel visited frontier).
Proof.
  induction fuel as [|f IH]; intros vis fr H; cbn [bfs]; auto.
  set (new := dedup _). assert (NDn : NoDup new) by apply dedup_NoDup.
  assert (Hd : forall x, In x vis -> ~ In x new).
  { intros x Hx Hn. apply dedup_In, filter_In in Hn as [_ Hn]. apply negb_true_iff, mem_nIn in Hn. auto. }
  clearbody new. destruct new as [|w new]; auto. apply IH. apply NoDup_app_intro; auto.
Qed.
Lemma components_NoDup (d : mdg node) nb todo : forall seen c, In c (components d nb seen todo) -> NoDup c.
Proof.
  induction todo as [|v todo IH]; intros seen c; cbn [components]; [intros []|].
  destruct (mem v seen); [apply IH|]. intros [<-|H]; [|now apply IH in H].
  unfold closure. apply bfs_NoDup, dedup_NoDup.
Qed.
Lemma c_components_NoDup g c : In c (c_components g) -> NoDup c.
Proof. apply components_NoDup. Qed.
Lemma concat_NoDup {A} {EA : EqDec A} (cs : list (list A)) : (forall c, In c cs -> NoDup c) ->
  (forall l1 c1 l2 c2 l3, cs = l1 ++ c1 :: l2 ++ c2 :: l3 -> forall u, In u c1 -> ~ In u c2) -> NoDup (List.concat cs).
Proof.
  induction cs as [|c cs IH]; intros H1 H2; cbn [List.concat]; [constructor|]. apply NoDup_app_intro.
  - apply H1; now left.
  - apply IH; [intros; apply H1; now right|]. intros l1 c1 l2 c2 l3 Heq. apply (H2 (c :: l1) c1 l2 c2 l3). now rewrite Heq.
  - intros v Hv Hc. apply in_concat in Hc as (c2 & Hc2 & Hv2). apply in_split in Hc2 as (l2 & l3 & Heq).
    apply (H2 [] c l2 c2 l3) with v; auto. now rewrite Heq.
Qed.

Lemma forallb_exists_neg (l m : list node) : subset l m = false -> exists v, In v l /\ ~ In v m.
Proof.
  unfold subset. induction l as [|v l IH]; cbn [forallb]; [discriminate|].
  destruct (mem_spec v m) as [Hv|Hv]; cbn [andb].
  - intros H. destruct (IH H) as (u & Hu & Hn). exists u. split; auto. now right.
  - intros _. exists v. split; auto. now left.
Qed.

(** A topological sorter: succeeds on acyclic graphs and lists the nodes that have an observed edge. *)
Definition topo_spec (topo : cg -> res (list node)) : Prop :=
  forall g, NoDup (keys (causation g)) -> cg_is_dag g = true ->
    exists l, topo g = Ok l /\ NoDup l /\ (forall v, In v l <-> exists u, is_parent g u v \/ is_parent g v u) /\
      topo_ordered (is_parent g) l.

Section Sub.
  Variable g : cg.
  Hypothesis U : user_graph g.
  (** every name has an edge or an arc *)
  Hypothesis D : forall v, In v (keys (causation g)) -> In v (nodes (dag g)).

  Lemma AC : acyclic (is_parent g).
  Proof. now apply ug_acyclic. Qed.

  (** [g'] is the sub-graph of [g] induced by its own names. *)
  Record sub (g' : cg) : Prop := {
    s_wf : wf_cg g';
    s_sym : sym_arcs g';
    s_nodes : forall v, In v (nodes (dag g')) <-> In v (keys (causation g'));
    s_inc : incl (keys (causation g')) (keys (causation g));
    s_par : forall p c, is_parent g' p c <-> is_parent g p c /\ In p (keys (causation g')) /\ In c (keys (causation g'));
    s_arc : forall a b, arcE g' a b <-> arcE g a b /\ In a (keys (causation g')) /\ In b (keys (causation g')) }.

  Lemma sub_self : sub g.
  Proof.
    split; try apply U.
    - intros v. split; auto. apply U.
    - apply incl_refl.
    - intros p c. split; [|tauto]. intros H. split; auto. destruct (parent_nodes (ug_wf U) _ _ H).
      split; now apply (ug_closed U).
    - intros a b. split; [|tauto]. intros H. split; auto.
      assert (Hab : ed (dag g) a b) by (exists Kn; exact H).
      apply (wf_ends (gwf_wf (wc_dag (ug_wf U)))) in Hab. split; now apply (ug_closed U).
  Qed.
  Lemma sub_keys_remove g' ns v : In v (keys (causation (remove_nodes_new g' ns))) <-> In v (keys (causation g')) /\ ~ In v ns.
  Proof. apply fold_remove_node_keys. Qed.
  Lemma sub_remove g' ns : sub g' -> sub (remove_nodes_new g' ns).
  Proof.
    intros S. pose proof (s_wf S) as W. change (remove_nodes_new g' ns) with (remove_nodes g' ns).
    assert (K : forall v, In v (keys (causation (remove_nodes g' ns))) <-> In v (keys (causation g')) /\ ~ In v ns).
    { intros v. apply (sub_keys_remove g' ns). }
    split.
    - now apply remove_nodes_cg_wf.
    - intros a b. rewrite !remove_nodes_arc. intros (H1 & H2 & H3). split; auto. now apply (s_sym S).
    - intros v. rewrite K, <- (s_nodes S). cbn [remove_nodes dag remove_nodes_from nodes].
      rewrite filter_In, negb_true_iff, mem_nIn. tauto.
    - intros v Hv. apply K in Hv as [Hv _]. now apply (s_inc S).
    - intros p c. rewrite remove_nodes_parent by auto. rewrite !K, (s_par S). tauto.
    - intros a b. rewrite remove_nodes_arc, !K, (s_arc S). tauto.
  Qed.
  Lemma sub_acyclic g' : sub g' -> acyclic (is_parent g').
  Proof.
    intros S x (y & H1 & H2). apply (AC (x := x)). exists y. split; [now apply (s_par S) in H1|].
    eapply reach_mono; [|exact H2]. intros a b Hab. now apply (s_par S) in Hab.
  Qed.
  Lemma sub_dag g' : sub g' -> cg_is_dag g' = true.
  Proof.
    intros S. apply is_dag_spec; [apply (gwf_wf (observed_dag_of_gwf (causation g')))|].
    intros x (y & H1 & H2). apply (sub_acyclic S (x := x)). exists y. split.
    - apply observed_ed; auto. apply (s_wf S).
    - apply observed_reach; auto. apply (s_wf S).
  Qed.
  Lemma sub_topo g' topo : sub g' -> topo_spec topo ->
    exists l, topo g' = Ok l /\ NoDup l /\ (forall v, In v l <-> exists u, is_parent g' u v \/ is_parent g' v u) /\
      topo_ordered (is_parent g') l.
  Proof. intros S T. apply T; [apply (s_wf S)|now apply sub_dag]. Qed.

  Lemma sub_anc g' y v : sub g' -> incl y (keys (causation g')) -> In v (ancestors g' y) -> In v (keys (causation g')).
  Proof.
    intros S Hy Hv. apply ancestors_spec in Hv as (u & Hu & Hr); [|apply (s_wf S)].
    destruct (reach_inv Hr) as [->|(w & Hw & _)]; auto. now apply (s_par S) in Hw.
  Qed.
  Lemma sub_build g' l : sub g' -> incl l (keys (causation g')) ->
    exists g2, build_sub_graph g' l = Ok g2 /\ sub g2 /\ (forall v, In v (keys (causation g2)) <-> In v l).
  Proof.
    intros S Hl. unfold build_sub_graph. rewrite (proj2 (check_nodes_ok _ _) Hl). cbn [bind].
    eexists. split; [reflexivity|]. split; [now apply sub_remove|].
    intros v. rewrite sub_keys_remove, diff_In. split.
    - intros [H1 H2]. destruct (In_dec v l); tauto.
    - intros H. split; auto. tauto.
  Qed.
  Lemma sub_incoming g' x : sub g' -> incl x (keys (causation g')) ->
    exists gx, remove_incoming_edges_new g' x = Ok gx /\ NoDup (keys (causation gx)) /\
      forall p c, is_parent gx p c <-> is_parent g' p c /\ ~ In c x.
  Proof.
    intros S Hx. destruct (remove_incoming_spec (s_wf S) Hx) as (H0 & H1 & H2 & _).
    unfold remove_incoming_edges_new. destruct (remove_incoming_edges g' x) as [gx e]. cbn [fst snd] in *. subst e.
    exists gx. split; auto. split; auto. apply H1.
  Qed.

  (** components of a sub-graph *)
  Lemma sub_pair g' a b : sub g' -> (pair_in (latent_confounding_arcs g') a b <-> arcE g' a b).
  Proof. intros S. symmetry. apply (latent_arcs_spec (s_wf S) (s_sym S) (sub_acyclic S)). Qed.
  Lemma sub_comp g' c : sub g' -> In c (c_components g') ->
    (exists v, In v c) /\ NoDup c /\ incl c (keys (causation g')) /\
    (forall u v, In u c -> arcE g u v -> In v (keys (causation g')) -> In v c).
  Proof.
    intros S Hc. destruct (@c_components_spec g' (gwf_wf (wc_dag (s_wf S)))) as (P1 & P2 & P3 & P4).
    split; [auto|]. split; [now apply c_components_NoDup in Hc|].
    assert (Hin : incl c (keys (causation g'))) by (intros v Hv; apply (s_nodes S), P2; eauto).
    split; auto. intros u v Hu Ha Hv. apply (P4 c u v); auto.
    econstructor; [|constructor]. left. apply sub_pair; auto. apply (s_arc S). split; auto.
  Qed.
  Lemma sub_comps g' : sub g' ->
    (forall v, In v (List.concat (c_components g')) <-> In v (keys (causation g'))) /\ NoDup (List.concat (c_components g')) /\
    (forall l1 c1 l2 c2 l3, c_components g' = l1 ++ c1 :: l2 ++ c2 :: l3 -> forall u, In u c1 -> ~ In u c2).
  Proof.
    intros S. destruct (@c_components_spec g' (gwf_wf (wc_dag (s_wf S)))) as (P1 & P2 & P3 & P4).
    split; [|split; auto].
    - intros v. rewrite <- (s_nodes S), P2, in_concat. easy.
    - apply concat_NoDup; auto. intros c Hc. now apply c_components_NoDup in Hc.
  Qed.
End Sub.

(** ** Soundness *)
Section Sound.
  Variable g : cg.
  Hypothesis U : user_graph g.
  Hypothesis D : forall v, In v (keys (causation g)) -> In v (nodes (dag g)).
  Variable h : nat -> node.
  Hypothesis HF : hidden_fresh g h.
  Variable dom : node -> list nat.
  Variable cpt : node -> @asg node -> R.
  Hypothesis M : compatible g h dom cpt.
  Variable topo : cg -> res (list node).
  Hypothesis T : topo_spec topo.

  Let O := observed g.
  Let H := hidden g h.
  Let E := cause g h.
  Let W := ug_wf U.
  Let Hcl := ug_closed U.
  Let AC := AC U.
  Local Open Scope R_scope.
  Notation Q := (Q dom cpt H).
  Notation target := (target dom cpt H).
  Notation eval := (eval g h dom cpt).
  Notation sums := (sums dom).

  Let NDN : NoDup (O ++ H) := vars_NoDup W HF.
  Lemma i_root p v : E p v -> In v O.
  Proof. intros He. apply (cause_vars W Hcl) in He. tauto. Qed.
  Lemma i_src p v : E p v -> In p (O ++ H).
  Proof. intros He. apply (cause_vars W Hcl) in He. tauto. Qed.
  Lemma i_par p v : In p O -> E p v -> is_parent g p v.
  Proof. intros Hp [He|(i & a & b & _ & -> & _)]; auto. exfalso. now apply (proj2 HF i). Qed.
  Lemma i_common C1 C2 : (forall v, In v C1 -> ~ In v C2) -> common E H C1 C2 ->
    exists u v, In u C1 /\ In v C2 /\ arcE g u v.
  Proof.
    intros Hd (k & u & v & Hk & Hu & Hv & H1 & H2). exists u, v. split; auto. split; auto.
    apply hidden_In in Hk as (i & Hi & ->).
    assert (G : forall w, E (h i) w -> exists a b, nth_error (arcs g) i = Some (a, b) /\ (w = a \/ w = b)).
    { intros w [Hw|(j & a & b & Hj & Hij & Hw)].
      - exfalso. apply (parent_keys W Hcl) in Hw as [Hw _]. now apply (proj2 HF i).
      - apply (proj1 HF) in Hij. subst j. eauto. }
    destruct (G _ H1) as (a & b & Hab & H3). destruct (G _ H2) as (a' & b' & Hab' & H4).
    rewrite Hab in Hab'. injection Hab' as <- <-.
    assert (u <> v) by (intros ->; eapply Hd; eauto).
    apply (latent_arcs_spec W (ug_sym U) AC). apply nth_error_In in Hab. unfold pair_in.
    change (latent_confounding_arcs g) with (arcs g). destruct H3, H4; subst; auto; congruence.
  Qed.

  Lemma sub_O g' : sub g g' -> incl (keys (causation g')) O.
  Proof. intros S. apply (s_inc S). Qed.

  Lemma rank_ex : exists rank : node -> nat, forall p v, E p v -> (rank p < rank v)%nat.
  Proof. apply (rank_exists W Hcl AC HF). Qed.

  (** QProofs, instantiated. *)
  Lemma q_set C C' a : NoDup C -> NoDup C' -> (forall v, In v C <-> In v C') -> Q C a = Q C' a.
  Proof. apply Q_set. Qed.
  Lemma q_sub C C' a : NoDup C -> incl C O -> NoDup C' -> incl C' C ->
    (forall p v, In v C' -> In p C -> is_parent g p v -> In p C') -> sums (diff C C') (Q C) a = Q C' a.
  Proof.
    intros. destruct rank_ex as (rank & Hr).
    eapply (@Q_sub _ _ dom cpt E O H NDN (c_local M) (c_norm M) rank Hr i_root); eauto.
    intros p v Hv Hp He. eapply H4; eauto. apply i_par; auto.
  Qed.
  Lemma q_target_sub C X Y C' a : NoDup C -> incl C O -> NoDup C' -> incl C' (diff C X) ->
    (forall v, In v Y -> In v (diff C X) -> In v C') ->
    (forall p v, In v C' -> In p (diff C X) -> is_parent g p v -> In p C') ->
    target C X Y a = sums (diff C' Y) (Q C') a.
  Proof.
    intros. destruct rank_ex as (rank & Hr).
    eapply (@target_sub _ _ dom cpt E O H NDN (c_local M) (c_norm M) rank Hr i_root); eauto; [easy|].
    intros p v Hv Hp He. eapply H5; eauto. apply i_par; auto. apply diff_In in Hp. apply H1. tauto.
  Qed.
  Lemma q_parts cs a : NoDup (List.concat cs) -> incl (List.concat cs) O ->
    (forall l1 c1 l2 c2 l3, cs = l1 ++ c1 :: l2 ++ c2 :: l3 -> forall u v, In u c1 -> In v c2 -> ~ arcE g u v) ->
    Q (List.concat cs) a = fold_right (fun c r => Q c a * r) 1 cs.
  Proof.
    intros ND HO Hn. destruct rank_ex as (rank & Hr).
    apply (@Q_parts _ _ dom cpt E O H NDN (c_local M) (c_norm M) rank Hr i_root i_src (cause_dec g h)); auto.
    intros l1 c1 l2 c2 l3 Heq Hc. apply i_common in Hc as (u & v & Hu & Hv & Huv).
    - eapply Hn; eauto.
    - intros v H1 H2. rewrite Heq in ND. rewrite concat_app in ND. apply NoDup_app_inv in ND as (_ & ND & _).
      cbn [List.concat] in ND. apply NoDup_app_inv in ND as (_ & _ & ND). apply (ND v H1).
      rewrite concat_app. apply in_app_iff. right. cbn [List.concat]. apply in_app_iff. auto.
  Qed.
  Lemma q_P_obs S a : incl S O -> NoDup S -> P_obs g h dom cpt S a = P dom cpt O H S a.
  Proof. reflexivity. Qed.
  Lemma q_chain pre S a : NoDup pre -> incl pre O -> 
    (forall l1 v l2, pre = l1 ++ v :: l2 -> forall p, In p O -> is_parent g p v -> In p l1) ->
    (forall u v, In u pre -> In v pre -> In u S -> arcE g u v -> In v S) ->
    links dom cpt O H pre (inter pre S) a = Q (inter pre S) a.
  Proof.
    intros NP PO Hch HS. destruct rank_ex as (rank & Hr).
    apply (@Q_chain _ _ dom cpt E O H NDN (c_dom M) (c_local M) (c_norm M) (c_pos M) rank Hr i_root i_src (cause_dec g h)); auto.
    - intros l1 v l2 Heq p Hp He. eapply Hch; eauto. apply i_par; auto.
    - intros k u v Hk Hu Hv H1 H2.
      destruct (eq_dec u v) as [->|Nuv]; [tauto|].
      assert (A : arcE g u v).
      { destruct (@i_common [u] [v]) as (u' & v' & [<-|[]] & [<-|[]] & Ha); auto.
        - intros w [<-|[]] [->|[]]. auto.
        - exists k, u, v. repeat split; auto; now left. }
      split; intros Hi; [apply (HS u v)|apply (HS v u)]; auto. now apply (ug_sym U).
  Qed.

  Lemma target_diff C X Y C' X' a : NoDup C -> NoDup C' -> incl C O -> (forall v, In v (diff C X) <-> In v (diff C' X')) ->
    target C X Y a = target C' X' Y a.
  Proof.
    intros N1 N2 HO HS. unfold QProofs.target.
    assert (HP : Permutation (diff C X) (diff C' X')).
    { apply NoDup_Permutation; nodup. }
    rewrite (sums_perm dom a (vs := diff (diff C X) Y) (ws := diff (diff C' X') Y)).
    - apply sums_eq. intros b. now apply (@Q_perm _ _ dom cpt H).
    - apply (@Q_ext _ _ dom cpt E O H (c_local M)). intros v Hv. apply diff_In in Hv. apply HO. tauto.
    - apply NoDup_Permutation; nodup. intros v. rewrite !(diff_In v (diff _ _)), HS. tauto.
  Qed.

  (** [P_do] is the target of the whole graph. *)
  Lemma P_do_target X Y a : incl X O -> incl Y O -> P_do g h dom cpt X Y a = target O X Y a.
  Proof.
    intros HX HY. unfold P_do, QProofs.target, QProofs.Q. rewrite <- sums_app.
    assert (NDO : NoDup O) by (apply NoDup_app_inv in NDN; tauto).
    assert (NDH : NoDup H) by (apply NoDup_app_inv in NDN; tauto).
    assert (OH : forall v, In v O -> ~ In v H) by (apply NoDup_app_inv in NDN; tauto).
    assert (HP : Permutation (diff (vars g h) X) (H ++ diff O X)).
    { apply NoDup_Permutation.
      - apply diff_NoDup, NDN.
      - apply NoDup_app_intro; nodup. intros v Hv Hv'. apply diff_In in Hv'. apply (OH v); tauto.
      - intros v. unfold vars. rewrite in_app_iff, !diff_In, in_app_iff. fold O H. split; [tauto|].
        intros [Hv|Hv]; [|tauto]. split; auto. intros Hx. apply (OH v); auto. }
    rewrite (sums_eq dom _ (prodl cpt (diff (vars g h) X)) (prodl cpt (H ++ diff O X))) by (intros; now apply prodl_perm).
    apply sums_perm.
    - apply (@prodl_ext _ cpt E (vars g h) (c_local M)). intros v Hv.
      apply (Permutation_in v (Permutation_sym HP)) in Hv. apply diff_In in Hv. tauto.
    - apply NoDup_Permutation.
      + apply diff_NoDup, diff_NoDup, NDN.
      + apply NoDup_app_intro; nodup. intros v Hv. rewrite !diff_In in Hv. apply OH. tauto.
      + intros v. unfold vars. rewrite in_app_iff, !diff_In, in_app_iff. fold O H. split; [tauto|].
        intros [Hv|Hv]; [tauto|]. repeat split; auto; intros Hx; apply (OH v); auto.
  Qed.
  Lemma P_obs_anc C Y a : NoDup C -> incl C O -> incl Y C -> (forall p v, In v C -> is_parent g p v -> In p C) ->
    P_obs g h dom cpt Y a = sums (diff C Y) (Q C) a.
  Proof.
    intros NC CO YC Hc. assert (NDO : NoDup O) by (apply NoDup_app_inv in NDN; tauto).
    replace (P_obs g h dom cpt Y a) with (P_do g h dom cpt [] Y a).
    - rewrite P_do_target by (intros v Hv; try destruct Hv; auto). apply q_target_sub; auto; rewrite ?diff_nil_r; eauto using incl_refl.
    - unfold P_do, P_obs. now rewrite diff_nil_r.
  Qed.

  (** What [prob] stands for: the observational distribution of an ancestral set, or Q[C]. *)
  Definition pinv (p : prob) (C : list node) : Prop :=
    (exists vs, p = Pr vs [] [] [] /\ forall q v, In v C -> is_parent g q v -> In q C) \/
    (exists m ps, p = Pr [] [] m ps /\ ps <> [] /\ (forall v, In v m -> ~ In v C) /\ forall a, eval p a = Q C a).

  Lemma eval_marg l m ps a : eval (Pr [] [] (l ++ m) ps) a = sums l (eval (Pr [] [] m ps)) a.
  Proof. cbn [ScmSpec.eval]. apply sums_app. Qed.
  Lemma union_disj (l m : list node) : (forall v, In v m -> ~ In v l) -> union l m = l ++ m.
  Proof. intros Hd. unfold union. f_equal. unfold diff. apply filter_all_true. intros v Hv. apply negb_true_iff, mem_nIn. auto. Qed.

  Lemma factors_eval pre ps s a : mapM (factor pre) s = Ok ps ->
    fold_right (fun q r => eval q a * r) 1 ps = links dom cpt O H pre s a /\ incl s pre.
  Proof.
    intros Hm. apply mapM_ok in Hm. induction Hm as [|e p s ps He _ [IH1 IH2]]; [split; [reflexivity|intros v []]|].
    unfold factor in He. cbn [fold_right links]. unfold links in *. cbn [fold_right]. rewrite IH1. unfold link at 2.
    destruct (index_of e pre) as [i|] eqn:Ei; [|discriminate]. injection He as <-. split.
    - f_equal. cbn [ScmSpec.eval Bn.sums fold_right]. unfold P_cond. cbn [app]. rewrite Rmult_1_r. reflexivity.
    - intros v [<-|Hv]; auto. apply index_of_Some in Ei as [Ei _]. eapply nth_error_In; eauto.
  Qed.

  (** The product of the factors of a component is its Q. *)
  Lemma factors_Q g' pre ps s a : sub g g' -> (forall q v, In v (keys (causation g')) -> is_parent g q v -> In q (keys (causation g'))) ->
    topo g' = Ok pre -> NoDup s -> incl s (keys (causation g')) ->
    (forall u v, In u s -> arcE g u v -> In v (keys (causation g')) -> In v s) ->
    mapM (factor pre) s = Ok ps -> fold_right (fun q r => eval q a * r) 1 ps = Q s a.
  Proof.
    intros S An Ht NDs Hs Hc Hm. destruct (factors_eval _ _ a Hm) as [-> Hi].
    destruct (@sub_topo g U g' topo S T) as (l & Hl & L1 & L2 & L3). rewrite Ht in Hl. injection Hl as <-.
    assert (LK : incl pre (keys (causation g'))).
    { intros v Hv. apply L2 in Hv as (u & [Hu|Hu]); apply (s_par S) in Hu; tauto. }
    assert (HP : Permutation s (inter pre s)).
    { apply NoDup_Permutation; nodup. intros v. rewrite inter_In. split; [auto|tauto]. }
    rewrite (@links_perm _ _ dom cpt O H pre s _ a HP).
    rewrite q_chain; auto.
    - symmetry. now apply (@Q_perm _ _ dom cpt H).
    - intros v Hv. now apply (s_inc S), LK.
    - intros l1 v l2 Heq p Hp Hpar. eapply L3; eauto. apply (s_par S). split; auto.
      assert (In v (keys (causation g'))) by (apply LK; rewrite Heq, in_app_iff; right; now left). split; eauto.
    - intros u v Hu Hv Hus Ha. eapply Hc; eauto.
  Qed.

  Lemma idg_sound fuel : forall y x p g' r, sub g g' ->
    NoDup y -> NoDup x -> incl y (keys (causation g')) -> incl x (keys (causation g')) -> (forall v, In v y -> ~ In v x) ->
    pinv p (keys (causation g')) ->
    idg topo true fuel y x p g' = Ok r -> forall a, eval r a = target (keys (causation g')) x y a.
  Proof.
    induction fuel as [|f IH]; intros y x p g' r S Ny Nx Hy Hx Hd HI; [discriminate|].
    cbn [idg]. set (C := keys (causation g')) in *.
    assert (NC : NoDup C) by apply (s_wf S). assert (CO : incl C O) by now apply sub_O.
    destruct (topo g') as [pre|] eqn:Ht; [|discriminate]. cbn [bind].
    destruct (is_nil x) eqn:Ex.
    { (* 1 *)
      apply is_nil_spec in Ex. subst x. intros Hr a. injection Hr as <-. unfold QProofs.target. rewrite !diff_nil_r.
      destruct HI as [(vs & -> & An)|(m & ps & -> & Hps & Hm & He)]; cbn [product is_nil variables conditional marginal].
      - cbn [ScmSpec.eval Bn.sums fold_right]. rewrite Rmult_1_r, (P_cond_nil W Hcl AC HF M). now apply P_obs_anc.
      - assert (En : is_nil ps = false) by now apply is_nil_false. rewrite En. cbn [variables conditional marginal product].
        rewrite union_disj by (intros v Hv Hc; apply diff_In in Hc; eapply Hm; eauto; tauto).
        rewrite eval_marg. apply sums_eq. exact He. }
    set (an := ancestors g' y).
    assert (Han : forall v, In v an <-> exists u, In u y /\ reach (is_parent g') v u) by (intros; apply ancestors_spec, (s_wf S)).
    assert (anC : incl an C) by (intros v Hv; exact (sub_anc v S Hy Hv)).
    assert (Nan : NoDup an) by apply dedup_NoDup.
    destruct (negb (is_nil (diff C an))) eqn:E2.
    { (* 2 *)
      destruct (sub_build S anC) as (g2 & Hg2 & S2 & K2). rewrite Hg2. cbn [bind].
      set (C2 := keys (causation g2)) in *. intros Hr a.
      assert (NC2 : NoDup C2) by apply (s_wf S2).
      rewrite (IH _ _ _ _ _ S2 Ny (inter_NoDup an Nx)) with (5 := Hr).
      - fold C2. unfold QProofs.target at 1. symmetry. apply q_target_sub; nodup.
        + intros v. rewrite !diff_In, K2, inter_In. intros [H1 H2]. split; auto.
        + intros v Hv. rewrite !diff_In, K2, inter_In. intros [H1 H2]. split; [|tauto]. apply Han. exists v. split; auto. constructor.
        + intros q v. rewrite !diff_In, !K2, !inter_In. intros [H1 H2] [H3 H4] H5. split; [|tauto].
          apply Han in H1 as (u & Hu & Hr'). apply Han. exists u. split; auto. econstructor; eauto.
          apply (s_par S). split; auto. split; auto. apply anC, Han; eauto.
      - intros v Hv. apply K2, Han. exists v. split; auto. constructor.
      - intros v Hv. apply inter_In in Hv. apply K2. tauto.
      - intros v Hv Hv'. apply inter_In in Hv'. eapply Hd; eauto. tauto.
      - fold C2. destruct HI as [(vs & -> & An)|(m & ps & -> & Hps & Hm & He)]; cbn [product is_nil variables conditional marginal].
        + left. eexists. split; [reflexivity|]. intros q v. rewrite !K2, !Han. intros (u & Hu & Hr') Hq.
          exists u. split; auto. econstructor; eauto. apply (s_par S).
          assert (In v C) by (apply anC, Han; eauto). split; auto. split; auto. eapply An; eauto.
        + right. assert (En : is_nil ps = false) by now apply is_nil_false. rewrite En. cbn [variables conditional marginal product].
          eexists _, ps. split; [reflexivity|]. split; auto. split.
          * intros v Hv. rewrite K2. apply union_In in Hv as [Hv|Hv]; [apply diff_In in Hv; tauto|].
            intros Hc. eapply Hm; eauto.
          * intros b. rewrite union_disj by (intros v Hv Hc; apply diff_In in Hc; eapply Hm; eauto; tauto).
            rewrite eval_marg. rewrite (sums_eq dom _ _ (Q C)) by exact He.
            rewrite (@diff_ext _ _ C an C2) by (intros v _; symmetry; apply K2).
            apply q_sub; auto; [intros v Hv; apply anC, K2, Hv|]. intros q v. rewrite !K2, !Han. intros (u & Hu & Hr') Hq Hp.
            exists u. split; auto. econstructor; eauto. apply (s_par S). split; auto. split; auto. apply anC, Han; eauto. }
    apply negb_false_iff, is_nil_spec in E2.
    destruct (sub_incoming S Hx) as (gx & Hgx & Ngx & Pgx). rewrite Hgx. cbn [bind].
    set (w := diff (diff C x) (ancestors gx y)).
    assert (Hw : forall v, In v w <-> (In v C /\ ~ In v x) /\ ~ exists u, In u y /\ reach (is_parent gx) v u).
    { intros v. unfold w. rewrite !diff_In, ancestors_spec by auto. tauto. }
    assert (Nw : NoDup w) by (apply diff_NoDup, diff_NoDup, NC).
    destruct (negb (is_nil w)) eqn:E3.
    { (* 3 *)
      intros Hr a. rewrite (IH _ _ _ _ _ S Ny) with (6 := Hr); auto.
      - fold C. unfold QProofs.target at 1. symmetry. apply q_target_sub; nodup.
        + intros v. rewrite !diff_In, union_In. tauto.
        + intros v Hv. rewrite !diff_In, union_In, Hw. intros [H1 H2]. split; auto. intros [H3|[_ H3]]; auto.
          apply H3. exists v. split; auto. constructor.
        + intros q v. rewrite !diff_In, !union_In, !Hw. intros [H1 H2] [H3 H4] H5. split; auto. intros [H6|[_ H6]]; auto.
          apply H2. right. split; [split; [auto|tauto]|]. intros (u & Hu & Hr'). apply H6. exists u. split; auto.
          econstructor; eauto. apply Pgx. split; [apply (s_par S); auto|tauto].
      - apply union_NoDup; auto.
      - intros v Hv. apply union_In in Hv as [Hv|Hv]; auto. apply Hw in Hv. tauto.
      - intros v Hv Hc. apply union_In in Hc as [Hc|Hc]; [eapply Hd; eauto|]. apply Hw in Hc as [_ Hc]. apply Hc.
        exists v. split; auto. constructor. }
    (* 4 *)
    assert (Sx : sub g (remove_nodes_new g' x)) by now apply sub_remove.
    assert (Kx : forall v, In v (keys (causation (remove_nodes_new g' x))) <-> In v (diff C x)).
    { intros v. rewrite (sub_keys_remove g' x), diff_In. reflexivity. }
    destruct (sub_comps Sx) as (Q1 & Q2 & Q3). pose proof (@sub_comp g U) as Q4.
    destruct (c_components (remove_nodes_new g' x)) as [|s [|s2 cs]] eqn:Ec; [discriminate| |].
    2: { remember (s :: s2 :: cs) as c eqn:Hc0.
      destruct (mapM (fun s0 => idg topo true f s0 (diff C s0) p g') c) as [ps|] eqn:Hm; [|discriminate]. cbn [bind].
      intros Hr a. injection Hr as <-. cbn [ScmSpec.eval]. unfold P_cond.
      assert (Hcs : forall s0, In s0 c -> NoDup s0 /\ incl s0 (diff C x)).
      { intros s0 Hs0. rewrite <- Ec in Hs0. destruct (Q4 _ s0 Sx Hs0) as (_ & N0 & I0 & _). split; auto.
        intros v Hv. apply Kx. auto. }
      apply mapM_ok in Hm.
      assert (HQ : forall b, fold_right (fun q r => eval q b * r) 1 ps = fold_right (fun s0 r => Q s0 b * r) 1 c).
      { intros b. clear - Hm Hcs IH S NC CO HI. induction Hm as [|s0 q c ps Hq _ IHm]; [reflexivity|]. cbn [fold_right].
        rewrite IHm by (intros; apply Hcs; now right). f_equal.
        destruct (Hcs s0) as [N0 I0]; [now left|].
        assert (I1 : incl s0 C) by (intros v Hv; apply I0, diff_In in Hv; tauto).
        rewrite (IH _ _ _ _ _ S N0) with (6 := Hq); nodup.
        - unfold QProofs.target.
          assert (E1 : forall v, In v (diff (keys (causation g')) (diff C s0)) <-> In v s0).
          { intros v. fold C. rewrite !diff_In. split; [|intros Hv; split; [apply I1; auto|tauto]]. intros [H1 H2]. destruct (In_dec v s0); tauto. }
          assert (E2 : diff (diff (keys (causation g')) (diff C s0)) s0 = []).
          { destruct (diff (diff _ _) s0) as [|v l] eqn:El; auto. exfalso.
            assert (Hv : In v (v :: l)) by now left. rewrite <- El in Hv. apply diff_In in Hv as [Hv Hn]. apply E1 in Hv. auto. }
          rewrite E2. cbn [Bn.sums]. apply q_set; auto. apply diff_NoDup, NC.
        - intros v Hv. apply diff_In in Hv. tauto.
        - intros v Hv Hc. apply diff_In in Hc. tauto. }
      unfold QProofs.target. rewrite (@diff_ext _ _ C (union y x) (x ++ y)) by (intros v _; rewrite union_In, in_app_iff; tauto).
      replace (diff (diff C x) y) with (diff C (x ++ y)).
      2: { symmetry. apply diff_diff. }
      apply sums_eq. intros b. rewrite HQ, Rmult_1_l, <- q_parts; auto.
      - apply q_set; auto; [apply diff_NoDup, NC|]. intros v. rewrite Q1. apply Kx.
      - intros v Hv. apply Q1, Kx, diff_In in Hv. apply CO. tauto.
      - intros l1 c1 l2 c2 l3 Heq u v Hu Hv Ha.
        assert (Hc1 : In c1 (c_components (remove_nodes_new g' x))) by (rewrite Ec, Heq; apply in_app_iff; right; now left).
        assert (Hc2 : In c2 (c_components (remove_nodes_new g' x))).
        { rewrite Ec, Heq. apply in_app_iff. right. right. apply in_app_iff. right. now left. }
        destruct (Q4 _ c1 Sx Hc1) as (_ & _ & _ & X1). destruct (Q4 _ c2 Sx Hc2) as (_ & _ & X2 & _).
        apply (Q3 l1 c1 l2 c2 l3 Heq v); auto. eapply X1; eauto. }
    (* one component *)
    cbn [List.concat] in Q1, Q2. rewrite app_nil_r in Q1, Q2.
    assert (Hs : forall v, In v s <-> In v (diff C x)) by (intros v; rewrite Q1; apply Kx).
    assert (Ns : NoDup s) by auto.
    destruct (c_components g') as [|c0 cs] eqn:Eg; [discriminate|].
    destruct (seteq c0 (nodes (dag g'))) eqn:E5; [discriminate|].
    destruct (is_nil (product p)) eqn:Ep; cbn [andb negb]; [|discriminate].
    destruct HI as [(vs & -> & An)|(m & ps & -> & Hps & _ & _)].
    2: { apply is_nil_spec in Ep. cbn [product] in Ep. congruence. }
    destruct (existsb (seteq s) (c0 :: cs)) eqn:E6.
    { (* 6 *)
      apply existsb_exists in E6 as (c & Hc & Hsc). rewrite seteq_spec in Hsc.
      destruct (mapM (factor pre) s) as [ps|] eqn:Hm; [|discriminate]. cbn [bind]. intros Hr a. injection Hr as <-.
      cbn [ScmSpec.eval]. unfold P_cond. rewrite <- Eg in Hc. destruct (Q4 _ c S Hc) as (_ & _ & I0 & X0).
      rewrite (sums_eq dom (diff s y) _ (Q s)).
      - symmetry. apply q_target_sub; auto.
        + intros v Hv. now apply Hs.
        + intros v _ Hv. now apply Hs.
        + intros q v _ Hq _. now apply Hs.
      - intros b. rewrite Rmult_1_l. apply (@factors_Q g' pre); auto.
        + intros v Hv. apply Hs, diff_In in Hv. tauto.
        + intros u v Hu Ha Hv. apply Hsc. apply (X0 u v); auto. now apply Hsc. }
    (* 7 *)
    destruct (find (fun sub => seteq (inter s sub) s) (c0 :: cs)) as [c|] eqn:E7; [|discriminate].
    apply find_some in E7 as [Hc Hsc]. rewrite seteq_spec in Hsc. rewrite <- Eg in Hc.
    destruct (Q4 _ c S Hc) as ((v0 & Hv0) & Nc & I0 & X0).
    destruct (mapM (factor pre) c) as [ps|] eqn:Hm; [|discriminate]. cbn [bind].
    destruct (sub_build S I0) as (g2 & Hg2 & S2 & K2). rewrite Hg2. cbn [bind]. intros Hr a.
    assert (sc : incl s c) by (intros v Hv; apply Hsc, inter_In in Hv; tauto).
    rewrite (IH _ _ _ _ _ S2 Ny (inter_NoDup c Nx)) with (5 := Hr).
    - apply target_diff; auto; [apply (s_wf S2)|now apply sub_O|].
      intros v. rewrite !diff_In, K2, inter_In. split.
      + intros [H1 H2]. fold C. split; auto.
      + intros [H1 H2]. assert (In v s) by (apply Hs, diff_In; auto). split; auto. tauto.
    - intros v Hv. apply K2, sc, Hs, diff_In. split; auto.
    - intros v Hv. apply inter_In in Hv. apply K2. tauto.
    - intros v Hv Hv'. apply inter_In in Hv'. eapply Hd; eauto. tauto.
    - right. exists [], ps. split; auto. split; [|split; [intros v []|]].
      + intros ->. apply mapM_ok in Hm. inversion Hm; subst. destruct Hv0.
      + intros b. cbn [ScmSpec.eval Bn.sums P_cond]. rewrite Rmult_1_l.
        rewrite (factors_Q b S An Ht Nc I0 X0 Hm). apply q_set; auto; [apply (s_wf S2)|]. intros v. symmetry. apply K2.
  Qed.
End Sound.

(** ** Without the composite case the code and its strict variant agree *)
Lemma mapM_mono {A B} (f f' : A -> res B) l ps : (forall a b, f a = Ok b -> f' a = Ok b) -> mapM f l = Ok ps -> mapM f' l = Ok ps.
Proof.
  intros H. revert ps. induction l as [|a l IH]; cbn [mapM]; intros ps; auto.
  destruct (f a) as [b|] eqn:E; [|discriminate]. cbn [bind]. rewrite (H a b E). cbn [bind].
  destruct (mapM f l) as [bs|]; [|discriminate]. cbn [bind]. intros [= <-]. now rewrite (IH bs).
Qed.
Lemma idg_strict topo fuel : forall y x p g r, idg topo true fuel y x p g = Ok r -> idg topo false fuel y x p g = Ok r.
Proof.
  induction fuel as [|f IH]; intros y x p g r; [discriminate|]. cbn [idg].
  destruct (topo g) as [pre|]; [|discriminate]. cbn [bind].
  destruct (is_nil x); auto. destruct (negb (is_nil (diff (keys (causation g)) (ancestors g y)))).
  { destruct (build_sub_graph g (ancestors g y)); [|discriminate]. cbn [bind]. apply IH. }
  destruct (remove_incoming_edges_new g x) as [gx|]; [|discriminate]. cbn [bind].
  destruct (negb (is_nil (diff (diff (keys (causation g)) x) (ancestors gx y)))); [apply IH|].
  destruct (c_components (remove_nodes_new g x)) as [|s [|s2 cs]]; [discriminate| |].
  - destruct (c_components g) as [|c0 cs]; [discriminate|]. destruct (seteq c0 (nodes (dag g))); [discriminate|].
    destruct (is_nil (product p)); cbn [andb negb]; [|discriminate].
    destruct (existsb (seteq s) (c0 :: cs)); auto.
    destruct (find _ (c0 :: cs)) as [sb|]; [|discriminate]. destruct (mapM (factor pre) sb); [|discriminate]. cbn [bind].
    destruct (build_sub_graph g sb); [|discriminate]. cbn [bind]. apply IH.
  - set (c := s :: s2 :: cs). destruct (mapM _ c) as [ps|] eqn:Em; [|discriminate]. cbn [bind]. intros Hr.
    rewrite (@mapM_mono _ _ (fun s0 => idg topo true f s0 (diff (keys (causation g)) s0) p g) (fun s0 => idg topo false f s0 (diff (keys (causation g)) s0) p g) c ps); auto.
Qed.

(** ** Termination *)
Lemma conn_mono {A} (E F : A -> A -> Prop) x y : (forall a b, E a b -> F a b \/ F b a) -> conn E x y -> conn F x y.
Proof.
  intros H. induction 1 as [x|x y z Hxy _ IH]; [constructor|]. apply conn_step with y; auto.
  destruct Hxy as [Hxy|Hxy]; apply H in Hxy; tauto.
Qed.
Section Total.
  Variable g : cg.
  Hypothesis U : user_graph g.
  Hypothesis D : forall v, In v (keys (causation g)) -> In v (nodes (dag g)).
  Variable topo : cg -> res (list node).
  Hypothesis T : topo_spec topo.
  Variable strict : bool.

  Definition has_arc : Prop := exists a b, arcE g a b.
  Lemma arc_dec : has_arc \/ forall a b, ~ arcE g a b.
  Proof.
    pose proof (fun a b => sub_pair U a b (sub_self U D)) as HP.
    destruct (latent_confounding_arcs g) as [|(a, b) l] eqn:El.
    - right. intros a b H. apply HP in H. destruct H as [[]|[]].
    - left. exists a, b. apply HP. left. now left.
  Qed.

  (** Acceptable results: a Prob, or (only with latent arcs) IdentificationError or ValueError. *)
  Definition good (r : res prob) : Prop :=
    match r with
    | Ok _ => True
    | Err IdentificationError | Err ValueError => has_arc
    | Err NotImplementedError => strict = true /\ has_arc
    | Err _ => False
    end.

  Definition quiet (y x : list node) (g' : cg) : Prop :=
    forall gx, remove_incoming_edges_new g' x = Ok gx -> diff (diff (keys (causation g')) x) (ancestors gx y) = [].
  Definition single (x : list node) (g' : cg) : Prop := exists s, c_components (remove_nodes_new g' x) = [s].

  Lemma nil_of {A} (l : list A) : (forall v, ~ In v l) -> l = [].
  Proof. destruct l as [|v l]; auto. intros H. elim (H v). now left. Qed.

  Lemma quiet_union g' y x gx : sub g g' -> incl x (keys (causation g')) -> remove_incoming_edges_new g' x = Ok gx ->
    quiet y (union x (diff (diff (keys (causation g')) x) (ancestors gx y))) g'.
  Proof.
    intros S Hx Hgx gx2 H2. destruct (sub_incoming S Hx) as (gx' & E1 & N1 & P1). rewrite Hgx in E1. injection E1 as <-.
    set (w := diff (diff (keys (causation g')) x) (ancestors gx y)) in *.
    assert (Hx2 : incl (union x w) (keys (causation g'))).
    { intros v Hv. apply union_In in Hv as [Hv|Hv]; auto. apply diff_In in Hv as [Hv _]. apply diff_In in Hv. tauto. }
    destruct (sub_incoming S Hx2) as (gx3 & E3 & N3 & P3). rewrite H2 in E3. injection E3 as <-.
    apply nil_of. intros v. rewrite !diff_In, union_In. intros [[Hv Hn] Ha]. apply Ha.
    assert (Hv2 : In v (ancestors gx y)).
    { destruct (In_dec v (ancestors gx y)) as [|Hn2]; auto. exfalso. apply Hn. right. unfold w. rewrite !diff_In. tauto. }
    apply ancestors_spec in Hv2 as (u & Hu & Hr); auto. apply ancestors_spec; auto. exists u. split; auto.
    clear - Hr Hu P1 P3 N1. induction Hr as [|a b c Hab Hbc IH]; [constructor|]. econstructor; [|auto].
    apply P1 in Hab as [Hab Hb]. apply P3. split; auto. rewrite union_In. intros [H|H]; auto.
    unfold w in H. apply diff_In in H as [_ H]. apply H. apply ancestors_spec; auto. eauto.
  Qed.
  Lemma quiet_comp g' s : sub g g' -> quiet s (diff (keys (causation g')) s) g'.
  Proof.
    intros S gx Hgx. destruct (@sub_incoming g g' (diff (keys (causation g')) s) S) as (gx' & E1 & N1 & P1).
    { intros v Hv. apply diff_In in Hv. tauto. }
    rewrite Hgx in E1. injection E1 as <-. apply nil_of. intros v. rewrite !diff_In. intros [[H1 H2] H3].
    apply H3. apply ancestors_spec; auto. exists v. split; [|constructor]. destruct (In_dec v s); auto. tauto.
  Qed.

  Lemma comp_conn g' c u v : sub g g' -> In c (c_components g') -> In u c ->
    (In v c <-> conn (arcE g') u v).
  Proof.
    intros S Hc Hu. destruct (@c_components_spec g' (gwf_wf (wc_dag (s_wf S)))) as (_ & _ & _ & P4).
    rewrite (P4 c u v Hc Hu). split; apply conn_mono; intros a b Hab; left; now apply (sub_pair U a b S).
  Qed.
  Lemma comp_of g' v : sub g g' -> In v (keys (causation g')) -> exists c, In c (c_components g') /\ In v c.
  Proof.
    intros S Hv. destruct (@c_components_spec g' (gwf_wf (wc_dag (s_wf S)))) as (_ & P2 & _). apply P2. now apply (s_nodes S).
  Qed.
  (** all names connected by arcs: one component *)
  Lemma one_comp g' u : sub g g' -> In u (keys (causation g')) ->
    (forall v, In v (keys (causation g')) -> conn (arcE g') u v) -> exists s, c_components g' = [s].
  Proof.
    intros S Hu Hall. destruct (@comp_of g' u S Hu) as (c & Hc & Huc).
    destruct (sub_comps S) as (_ & _ & Q3). pose proof (@sub_comp g U g') as Q4.
    destruct (c_components g') as [|c1 [|c2 cs]] eqn:Ec; [destruct Hc|eauto|]. exfalso.
    assert (Hfull : forall v, In v (keys (causation g')) -> In v c).
    { intros v Hv. apply (@comp_conn g' c u v S); auto. now rewrite Ec. }
    destruct (Q4 c1 S) as ((v1 & Hv1) & _ & I1 & _); [now left|]. destruct (Q4 c2 S) as ((v2 & Hv2) & _ & I2 & _); [right; now left|].
    assert (X1 : In v1 c) by auto. assert (X2 : In v2 c) by auto.
    destruct Hc as [<-|Hc]; [apply (Q3 [] c1 [] c2 cs) with v2; auto|].
    destruct Hc as [<-|Hc]; [apply (Q3 [] c1 [] c2 cs) with v1; auto|].
    apply in_split in Hc as (l2 & l3 & ->). apply (Q3 [] c1 (c2 :: l2) c l3) with v1; auto.
  Qed.
  Lemma single_comp g' x s : sub g g' -> In s (c_components (remove_nodes_new g' x)) -> single (diff (keys (causation g')) s) g'.
  Proof.
    intros S Hs. assert (Sx : sub g (remove_nodes_new g' x)) by now apply sub_remove.
    destruct (@sub_comp g U _ s Sx Hs) as ((u & Hu) & Ns & Is & Cs).
    set (gs := remove_nodes_new g' (diff (keys (causation g')) s)).
    assert (Ss : sub g gs) by now apply sub_remove.
    assert (Ks : forall v, In v (keys (causation gs)) <-> In v s).
    { intros v. unfold gs. rewrite (sub_keys_remove g'). rewrite diff_In. split.
      - intros [H1 H2]. destruct (In_dec v s); tauto.
      - intros H. split; [|tauto]. apply Is, (sub_keys_remove g' x) in H. tauto. }
    apply (@one_comp gs u); auto; [now apply Ks|].
    intros v Hv. apply Ks in Hv. apply (@comp_conn _ s u v Sx Hs Hu) in Hv.
    assert (Hcl : forall a b, In a s -> arcE (remove_nodes_new g' x) a b \/ arcE (remove_nodes_new g' x) b a -> In b s).
    { intros a b Ha Hab. apply (@comp_conn _ s a b Sx Hs Ha). econstructor; [exact Hab|constructor]. }
    clear - Hv Hu Hcl Ss Sx Ks. induction Hv as [a|a b c Hab Hbc IH]; [constructor|].
    pose proof (Hcl a b Hu Hab) as Hb. econstructor; [|now apply IH].
    destruct Hab as [Hab|Hab]; apply (s_arc Sx) in Hab as [Hab _]; [left|right]; apply (s_arc Ss); split; auto; split; now apply Ks.
  Qed.

  Lemma keys_lt g1 g2 l : sub g g1 -> sub g g2 -> (forall v, In v (keys (causation g2)) <-> In v l) -> incl l (keys (causation g1)) ->
    (exists v, In v (keys (causation g1)) /\ ~ In v l) ->
    (List.length (keys (causation g2)) < List.length (keys (causation g1)))%nat.
  Proof.
    intros S1 S2 HK Hi (v & Hv & Hn).
    assert (L : (List.length (v :: keys (causation g2)) <= List.length (keys (causation g1)))%nat).
    { apply NoDup_incl_length.
      - constructor; [|apply (s_wf S2)]. rewrite HK. auto.
      - intros u [<-|Hu]; auto. apply Hi, HK, Hu. }
    cbn [List.length] in L. lia.
  Qed.
  Lemma mapM_factor pre s : (exists ps, mapM (factor pre) s = Ok ps) \/
    (mapM (factor pre) s = Err ValueError /\ exists e, In e s /\ ~ In e pre).
  Proof.
    induction s as [|e s IH]; cbn [mapM]; [left; eauto|]. unfold factor at 1 3.
    destruct (index_of e pre) as [i|] eqn:Ei; cbn [bind].
    - destruct IH as [(ps & ->)|(-> & e' & He & Hn)]; cbn [bind]; [left; eauto|right]. split; auto. exists e'. split; auto. now right.
    - right. split; auto. exists e. split; [now left|]. now apply index_of_None.
  Qed.
  Lemma mapM_good (f : list node -> res prob) c k : (forall s, In s c -> good (f s)) ->
    good (do ps <- mapM f c ; Ok (Pr [] [] k ps)).
  Proof.
    revert k. induction c as [|s c IH]; intros k H; cbn [mapM]; [easy|].
    assert (Hs : good (f s)) by (apply H; now left).
    assert (Hc : good (do ps <- mapM f c ; Ok (Pr [] [] k ps))) by (apply IH; intros; apply H; now right).
    destruct (f s) as [b|e]; cbn [bind]; [|exact Hs]. destruct (mapM f c) as [bs|e]; cbn [bind] in *; auto.
  Qed.
  (** without arcs components are singletons *)
  Lemma noarc_comp g' c u v : (forall a b, ~ arcE g a b) -> sub g g' -> In c (c_components g') -> In u c -> In v c -> u = v.
  Proof.
    intros NA S Hc Hu Hv. apply (@comp_conn g' c u v S Hc Hu) in Hv. destruct Hv as [|x y z [H|H] _]; auto;
      apply (s_arc S) in H as [H _]; elim (NA _ _ H).
  Qed.

  Lemma idg_total fuel : forall y x p g', sub g g' -> y <> [] ->
    incl y (keys (causation g')) -> incl x (keys (causation g')) -> (forall v, In v y -> ~ In v x) ->
    (is_nil (product p) = true \/ has_arc) ->
    let n := List.length (keys (causation g')) in
    (3 * n + 3 <= fuel \/ (3 * n + 2 <= fuel /\ quiet y x g') \/ (3 * n + 1 <= fuel /\ quiet y x g' /\ single x g'))%nat ->
    good (idg topo strict fuel y x p g').
  Proof.
    induction fuel as [|f IH]; intros y x p g' S Yn Hy Hx Hd Hp n Hf; [exfalso; lia|].
    cbn [idg]. set (C := keys (causation g')) in *.
    destruct (@sub_topo g U g' topo S T) as (pre & Ht & L1 & L2 & L3). rewrite Ht. cbn [bind].
    destruct (is_nil x) eqn:Ex; [exact I|]. apply is_nil_false in Ex.
    set (an := ancestors g' y).
    assert (Han : forall v, In v an <-> exists u, In u y /\ reach (is_parent g') v u) by (intros; apply ancestors_spec, (s_wf S)).
    assert (anC : incl an C) by (intros v Hv; exact (sub_anc v S Hy Hv)).
    assert (Yan : incl y an) by (intros v Hv; apply Han; exists v; split; auto; constructor).
    destruct (negb (is_nil (diff C an))) eqn:E2.
    { destruct (sub_build S anC) as (g2 & Hg2 & S2 & K2). rewrite Hg2. cbn [bind].
      apply negb_true_iff, is_nil_false in E2. destruct (diff C an) as [|v0 l0] eqn:E20; [congruence|].
      assert (Hv0 : In v0 (diff C an)) by (rewrite E20; now left). apply diff_In in Hv0.
      pose proof (@keys_lt g' g2 an S S2 K2 anC (ex_intro _ v0 Hv0)) as Hlt. fold C in Hlt.
      apply IH; auto.
      - intros v Hv. apply K2, Yan, Hv.
      - intros v Hv. apply inter_In in Hv. apply K2. tauto.
      - intros v Hv Hc. apply inter_In in Hc. apply (Hd v); tauto.
      - destruct Hp as [Hp|]; auto. rewrite Hp. now left.
      - left. destruct Hf as [Hf|[[Hf _]|[Hf _]]]; unfold n in Hf; fold C in Hf; lia. }
    apply negb_false_iff, is_nil_spec in E2.
    assert (Call : forall v, In v C -> In v an).
    { intros v Hv. destruct (In_dec v an) as [|Hn]; auto. assert (In v (diff C an)) by (apply diff_In; auto). rewrite E2 in H. destruct H. }
    destruct (sub_incoming S Hx) as (gx & Hgx & Ngx & Pgx). rewrite Hgx. cbn [bind].
    set (w := diff (diff C x) (ancestors gx y)).
    destruct (negb (is_nil w)) eqn:E3.
    { apply negb_true_iff, is_nil_false in E3.
      destruct Hf as [Hf|[[Hf Hq]|[Hf [Hq _]]]]; [|elim E3; now apply Hq|elim E3; now apply Hq].
      apply IH; auto.
      - intros v Hv. apply union_In in Hv as [Hv|Hv]; auto. unfold w in Hv. apply diff_In in Hv as [Hv _]. apply diff_In in Hv. tauto.
      - intros v Hv Hc. apply union_In in Hc as [Hc|Hc]; [now apply (Hd v)|]. unfold w in Hc. apply diff_In in Hc as [_ Hc].
        apply Hc. apply ancestors_spec; auto. exists v. split; auto. constructor.
      - right. left. split; [fold C; unfold n in Hf; fold C in Hf; lia|]. now apply quiet_union. }
    assert (Sx : sub g (remove_nodes_new g' x)) by now apply sub_remove.
    assert (Kx : forall v, In v (keys (causation (remove_nodes_new g' x))) <-> In v (diff C x)).
    { intros v. rewrite (sub_keys_remove g' x), diff_In. reflexivity. }
    pose proof (@sub_comp g U) as Q4. destruct (sub_comps Sx) as (Q1 & _ & _).
    destruct y as [|y0 ys]; [congruence|].
    assert (Y0 : In y0 (diff C x)) by (apply diff_In; split; [apply Hy; now left|apply Hd; now left]).
    destruct (c_components (remove_nodes_new g' x)) as [|s [|s2 cs]] eqn:Ec.
    { exfalso. apply Kx, Q1 in Y0. destruct Y0. }
    2: { assert (Hf2 : (3 * n + 2 <= Datatypes.S f)%nat) by (destruct Hf as [Hf|[[Hf _]|[Hf [_ (s0 & Hs0)]]]]; [lia|lia|rewrite Ec in Hs0; discriminate]).
      change (s :: s2 :: cs) with (s :: s2 :: cs) in *. remember (s :: s2 :: cs) as c eqn:Hc0.
      apply (@mapM_good (fun s0 => idg topo strict f s0 (diff C s0) p g') c).
      intros s0 Hs0. rewrite <- Ec in Hs0. destruct (Q4 _ s0 Sx Hs0) as ((u & Hu) & N0 & I0 & _).
      apply IH; auto.
      - intros ->. destruct Hu.
      - intros v Hv. apply I0, Kx, diff_In in Hv. tauto.
      - intros v Hv. apply diff_In in Hv. tauto.
      - intros v Hv Hc. apply diff_In in Hc. tauto.
      - right. right. split; [unfold n in Hf2; fold C; fold C in Hf2; lia|]. split; [now apply quiet_comp|]. eapply single_comp; eauto. }
    cbn [List.concat] in Q1. rewrite app_nil_r in Q1.
    assert (Hs : forall v, In v s <-> In v (diff C x)) by (intros v; rewrite Q1; apply Kx).
    assert (Hsc : In s (c_components (remove_nodes_new g' x))) by (rewrite Ec; now left).
    destruct x as [|x0 xs]; [congruence|].
    assert (X0 : In x0 C) by (apply Hx; now left).
    assert (Y0x : In y0 C /\ ~ In y0 (x0 :: xs)) by now apply diff_In in Y0.
    assert (Hfp : forall c, In c (c_components g') -> seteq s c = true -> good (do ps <- mapM (factor pre) s ; Ok (Pr [] [] (diff s (y0 :: ys)) ps))).
    { intros c Hc Hsq. destruct (mapM_factor pre s) as [(ps & ->)|(-> & e & He & Hn)]; cbn [bind]; [exact I|].
      destruct arc_dec as [|NA]; auto. exfalso. apply Hn.
      assert (e = y0) by (apply (@noarc_comp _ s e y0 NA Sx Hsc); auto; now apply Hs). subst e.
      assert (Ys : forall u, In u (y0 :: ys) -> u = y0).
      { intros u Hu. apply (@noarc_comp _ s u y0 NA Sx Hsc); auto; apply Hs; auto. apply diff_In. split; auto. }
      apply Call, Han in X0 as (u & Hu & Hr). apply Ys in Hu. subst u.
      destruct (reach_inv Hr) as [->|H1]; [elim (proj2 Y0x); now left|].
      apply reach1_last in H1 as (z & _ & Hz). apply L2. exists z. auto. }
    destruct (c_components g') as [|c0 cs] eqn:Eg.
    { destruct (@comp_of g' x0 S X0) as (c & Hc & _). rewrite Eg in Hc. destruct Hc. }
    destruct (seteq c0 (nodes (dag g'))) eqn:E5.
    { destruct arc_dec as [|NA]; auto. exfalso. rewrite seteq_spec in E5.
      assert (A1 : In x0 c0) by (apply E5, (s_nodes S), X0). assert (A2 : In y0 c0) by (apply E5, (s_nodes S), (proj1 Y0x)).
      assert (x0 = y0) by (apply (@noarc_comp g' c0 x0 y0 NA S); auto; rewrite Eg; now left). subst. apply (proj2 Y0x). now left. }
    destruct (strict && negb (is_nil (product p))) eqn:Es.
    { apply andb_true_iff in Es as [Es1 Es2]. cbn [good]. split; auto. destruct Hp as [Hp|]; auto. now rewrite Hp in Es2. }
    destruct (existsb (seteq s) (c0 :: cs)) eqn:E6.
    { apply existsb_exists in E6 as (c & Hc & Hcs). exact (Hfp c Hc Hcs). }
    (* 7 *)
    destruct (@comp_of g' y0 S (proj1 Y0x)) as (cy & Hcy & Hycy).
    assert (sub_cy : incl s cy).
    { intros v Hv. apply (@comp_conn g' cy y0 v S Hcy Hycy). apply (@comp_conn _ s y0 v Sx Hsc) in Hv; [|now apply Hs].
      clear - Hv S Sx Kx. induction Hv as [|a b c Hab _ IH]; [constructor|]. econstructor; [|exact IH].
      destruct Hab as [Hab|Hab]; [left|right]; apply (s_arc Sx) in Hab as (Hab & H1 & H2); apply (s_arc S);
        apply Kx, diff_In in H1; apply Kx, diff_In in H2; split; auto; split; tauto. }
    destruct (find (fun sb => seteq (inter s sb) s) (c0 :: cs)) as [c|] eqn:E7.
    2: { exfalso. apply (find_none _ _ E7 cy) in Hcy || (rewrite Eg in Hcy; apply (find_none _ _ E7 cy) in Hcy).
         assert (seteq (inter s cy) s = true); [|congruence]. apply seteq_spec. intros v. rewrite inter_In. split; [tauto|auto]. }
    apply find_some in E7 as [Hc Hsq]. rewrite seteq_spec in Hsq.
    assert (Hcg : In c (c_components g')) by now rewrite Eg.
    destruct (Q4 _ c S Hcg) as ((u & Hu) & Nc & I0 & _).
    assert (Hca : has_arc).
    { destruct arc_dec as [|NA]; auto. exfalso.
      assert (existsb (seteq s) (c0 :: cs) = true); [|congruence]. apply existsb_exists. exists c. split; auto.
      apply seteq_spec. intros v. split; intros Hv; [apply Hsq, inter_In in Hv; tauto|].
      assert (Hy0 : In y0 s) by now apply Hs. assert (Hy0c : In y0 c) by (apply Hsq, inter_In in Hy0; tauto).
      assert (v = y0) by (apply (@noarc_comp g' c v y0 NA S); auto). subst. now apply Hs. }
    destruct (mapM_factor pre c) as [(ps & ->)|(-> & _)]; cbn [bind]; [|exact Hca].
    destruct (sub_build S I0) as (g2 & Hg2 & S2 & K2). rewrite Hg2. cbn [bind].
    assert (sc : incl s c) by (intros v Hv; apply Hsq, inter_In in Hv; tauto).
    assert (Hlt : (List.length (keys (causation g2)) < List.length C)%nat).
    { apply (@keys_lt g' g2 c); auto. destruct (subset C c) eqn:Hsub.
      - exfalso. apply subset_spec in Hsub. destruct (sub_comps S) as (_ & _ & Q3). rewrite Eg in Q3.
        destruct Hc as [<-|Hc].
        + assert (seteq c0 (nodes (dag g')) = true); [|congruence]. apply seteq_spec. intros v. rewrite (s_nodes S). split; auto.
        + destruct (Q4 _ c0 S) as ((v0 & Hv0) & _ & I1 & _); [rewrite Eg; now left|].
          apply in_split in Hc as (l2 & l3 & ->). apply (Q3 [] c0 l2 c l3 eq_refl v0); auto.
      - destruct (forallb_exists_neg C c Hsub) as (v & Hv & Hn). eauto. }
    apply IH; auto.
    - intros v Hv. apply K2, sc, Hs, diff_In. split; auto.
    - intros v Hv. apply inter_In in Hv. apply K2. tauto.
    - intros v Hv Hv'. apply inter_In in Hv'. apply (Hd v); tauto.
    - left. destruct Hf as [Hf|[[Hf _]|[Hf _]]]; unfold n in Hf; fold C in Hf; lia.
  Qed.
End Total.

(** ** Without latent arcs step 5 never fires (no assumption that every name is drawn) *)
Lemma mapM_err {A B} (f : A -> res B) l e : mapM f l = Err e -> exists a, In a l /\ f a = Err e.
Proof.
  induction l as [|a l IH]; cbn [mapM]; [discriminate|]. destruct (f a) as [b|e'] eqn:Ef; cbn [bind].
  - destruct (mapM f l) as [bs|e']; cbn [bind]; [discriminate|]. intros [= ->]. destruct IH as (x & Hx & He); auto. exists x. split; auto. now right.
  - intros [= ->]. exists a. split; auto. now left.
Qed.
Lemma factor_err pre e x : factor pre e = Err x -> x = ValueError.
Proof. unfold factor. destruct (index_of e pre); congruence. Qed.
Definition bare (g : cg) : Prop := wf_cg g /\ acyclic (is_parent g) /\ forall a b, ~ arcE g a b.
Lemma bare_remove g ns : bare g -> bare (remove_nodes_new g ns).
Proof.
  intros (W & AC & NA). change (remove_nodes_new g ns) with (remove_nodes g ns). split; [now apply remove_nodes_cg_wf|]. split.
  - intros x (y & H1 & H2). apply (AC x). exists y. apply (remove_nodes_parent ns x y W) in H1 as [H1 _]. split; auto.
    eapply reach_mono; [|exact H2]. intros a b Hab. apply (remove_nodes_parent ns a b W) in Hab. tauto.
  - intros a b Hab. apply remove_nodes_arc in Hab as [Hab _]. now apply (NA a b).
Qed.
Lemma bare_comp g c u v : bare g -> In c (c_components g) -> In u c -> In v c -> u = v.
Proof.
  intros (W & AC & NA) Hc Hu Hv. destruct (@c_components_spec g (gwf_wf (wc_dag W))) as (_ & _ & _ & P4).
  apply (P4 c u v Hc Hu) in Hv. assert (HS : sym_arcs g) by (intros a b H; elim (NA _ _ H)).
  pose proof (latent_arcs_spec W HS AC) as (_ & _ & HP). destruct Hv as [|x y z [H|H] _]; auto; apply HP in H; elim (NA _ _ H).
Qed.
Lemma bare_dag g : bare g -> cg_is_dag g = true.
Proof.
  intros (W & AC & _). apply is_dag_spec; [apply (gwf_wf (observed_dag_of_gwf (causation g)))|].
  intros x (y & H1 & H2). apply (AC x). exists y. split.
  - apply observed_ed; auto. apply W.
  - apply observed_reach; auto. apply W.
Qed.
Lemma idg_noarc topo strict : topo_spec topo -> forall fuel y x p g, bare g ->
  (forall v, In v y -> ~ In v x) -> idg topo strict fuel y x p g <> Err IdentificationError.
Proof.
  intros T fuel. induction fuel as [|f IH]; intros y x p g B Hd; [discriminate|]. cbn [idg].
  pose proof B as (W & AC & NA). set (V := keys (causation g)).
  destruct (T g (wc_keys W) (bare_dag B)) as (pre & Ht & _). rewrite Ht. cbn [bind].
  destruct (is_nil x) eqn:Ex; [discriminate|]. apply is_nil_false in Ex.
  destruct (negb (is_nil (diff V (ancestors g y)))) eqn:E2.
  { unfold build_sub_graph. unfold check_nodes. destruct (subset _ _); cbn [bind]; [|discriminate]. apply IH; [now apply bare_remove|].
    intros v Hv Hx. apply inter_In in Hx. apply (Hd v); tauto. }
  apply negb_false_iff, is_nil_spec in E2.
  destruct (remove_incoming_edges_new g x) as [gx|e] eqn:Egx; cbn [bind].
  2: { unfold remove_incoming_edges_new in Egx. destruct (check_nodes (keys (causation g)) x) as [[]|e'] eqn:Ec.
       - apply check_nodes_ok in Ec. destruct (remove_incoming_spec W Ec) as (H0 & _). destruct (remove_incoming_edges g x) as [g2 e2].
         cbn [snd] in H0. subst e2. discriminate.
       - unfold remove_incoming_edges in Egx. rewrite Ec in Egx. injection Egx as <-. unfold check_nodes in Ec.
         destruct (subset x _); congruence. }
  assert (Hx : incl x V).
  { unfold remove_incoming_edges_new, remove_incoming_edges in Egx. destruct (check_nodes (keys (causation g)) x) as [[]|] eqn:Ec; [|discriminate].
    now apply check_nodes_ok. }
  destruct (remove_incoming_spec W Hx) as (H0 & Pgx & Ngx & _).
  unfold remove_incoming_edges_new in Egx. destruct (remove_incoming_edges g x) as [g2 e2]. cbn [fst snd] in *. subst e2. injection Egx as ->.
  destruct (negb (is_nil (diff (diff V x) (ancestors gx y)))).
  { apply IH; auto. intros v Hv Hu. apply union_In in Hu as [Hu|Hu]; [now apply (Hd v)|]. apply diff_In in Hu as [_ Hu]. apply Hu.
    apply ancestors_spec; [apply Pgx|]. exists v. split; [auto|constructor]. }
  destruct (c_components (remove_nodes_new g x)) as [|s [|s2 cs]] eqn:Ec; [discriminate| |].
  - destruct (c_components g) as [|c0 cs] eqn:Eg; [discriminate|]. destruct (seteq c0 (nodes (dag g))) eqn:E5.
    + exfalso. rewrite seteq_spec in E5. destruct x as [|x0 xs]; [congruence|].
      assert (HxV : In x0 V) by (apply Hx; now left).
      assert (Ha : In x0 (ancestors g y)).
      { destruct (In_dec x0 (ancestors g y)) as [|Hn]; auto. assert (Hc : In x0 (diff V (ancestors g y))) by now apply diff_In. rewrite E2 in Hc. destruct Hc. }
      apply ancestors_spec in Ha as (u & Hu & Hr); [|apply W]. destruct (reach_inv Hr) as [->|(z & Hz & _)]; [apply (Hd u Hu); now left|].
      destruct (parent_nodes W _ _ Hz) as [N1 N2].
      assert (x0 = z) by (apply (@bare_comp g c0); auto; [rewrite Eg; now left|now apply E5|now apply E5]). subst z.
      apply (AC x0). exists x0. split; auto. constructor.
    + destruct (strict && _); [discriminate|]. destruct (existsb _ _).
      * destruct (mapM (factor pre) s) as [ps|e] eqn:Em; cbn [bind]; [discriminate|]. apply mapM_err in Em as (a & _ & Ha). apply factor_err in Ha. congruence.
      * destruct (find _ _) as [sb|]; [|discriminate]. destruct (mapM (factor pre) sb) as [ps|e] eqn:Em; cbn [bind].
        2: { apply mapM_err in Em as (a & _ & Ha). apply factor_err in Ha. congruence. }
        unfold build_sub_graph, check_nodes. destruct (subset sb _); cbn [bind]; [|discriminate]. apply IH; [now apply bare_remove|].
        intros v Hv Hc. apply inter_In in Hc. apply (Hd v); tauto.
  - destruct (mapM _ (s :: s2 :: cs)) as [ps|e] eqn:Em; cbn [bind]; [discriminate|]. intros [= ->].
    apply mapM_err in Em as (a & _ & Ha). revert Ha. apply IH; auto. intros v Hv Hc. apply diff_In in Hc. tauto.
Qed.
