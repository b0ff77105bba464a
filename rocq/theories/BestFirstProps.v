(** Theorems about trees with max_leaf_nodes (BestFirstTreeBuilder): C97 - C99. *)
From Coq Require Import ZArith Reals Lra.
From Verif Require Import Base TreeCritModel TreeCritProps SplitterModel SplitterSpec TreeSpec SplitterProofs BuilderProofs TreeShape
  CritOk TreeProps SortModel SortProps TreeExamples BestFirstModel BestFirstProofs BestFirstShape.
Set Implicit Arguments.
Local Notation length := List.length.
Open Scope nat_scope.

(** pop_heap takes a record of largest improvement *)
Definition takes_largest (pick : list frec -> nat) : Prop :=
  forall l, l <> [] -> exists r, nth_error l (pick l) = Some r /\ forall r', In r' l -> (fr_gain r' <= fr_gain r)%R.

Lemma kept_unweighted d n : kept_samples (without_weights d) n = seq 0 n.
Proof. unfold kept_samples, without_weights. cbn [d_w]. now rewrite filter_all. Qed.

Notation finished g sp X n nf M b S D budget :=
  (inv sp X (g_max_features g) (g_min_samples_leaf g) (g_min_weight_leaf g) (g_min_samples_split g)
     (g_max_depth g) (g_min_decrease g) (g_random g) nf (seq 0 n) M [] budget b S D).

Lemma bf_grow_ok C V (mk : data -> crit C V) sp e g pick M X d n nf :
  let u := without_weights d in
  computes u (weighted_n u n) (mk u) sp -> sane e -> takes_largest pick -> 1 <= g_min_samples_leaf g -> 1 <= n -> 1 <= M ->
  exists b S D budget, bf_grow mk e g pick M X d n nf = Ok b /\ finished g sp X n nf M b S D budget.
Proof.
  intros u Hc (S1 & S2 & S3) Hp Hm Hn HM. destruct (computes_ok Hc) as [rel K].
  assert (P1 : forall key l, Permutation (e_sort e key l) l) by (intros; apply S1).
  assert (P2 : forall key l i j, i <= j -> j < length l -> (key (nth i (e_sort e key l) 0%nat) <= key (nth j (e_sort e key l) 0%nat))%R)
    by (intros; apply S1; auto).
  unfold bf_grow. cbv zeta. rewrite kept_unweighted.
  apply (@bf_build_ok _ _ (mk u) sp (weighted_n u n) rel K X (e_sort e) P1 P2 (e_rnd e) (e_rmax e) S2 S3
           (g_max_features g) (g_min_samples_leaf g) (g_min_weight_leaf g) (g_min_samples_split g) (g_max_depth g)
           (g_min_decrease g) (g_random g) nf Hm pick Hp (seq 0 n) M); [|auto].
  destruct n; [lia|discriminate].
Qed.

Lemma bf_grow_inv C V (mk : data -> crit C V) sp e g pick M X d n nf b :
  let u := without_weights d in
  computes u (weighted_n u n) (mk u) sp -> sane e -> takes_largest pick -> 1 <= g_min_samples_leaf g -> 1 <= n -> 1 <= M ->
  bf_grow mk e g pick M X d n nf = Ok b -> exists S D budget, finished g sp X n nf M b S D budget.
Proof.
  intros u H1 H2 H3 H4 H5 H6 E. destruct (@bf_grow_ok _ _ mk sp e g pick M X d n nf H1 H2 H3 H4 H5 H6) as (b' & S & D & bu & E' & I).
  assert (b' = b) as -> by congruence. eauto.
Qed.

(* ------------------------------------------------------------------------------------------------ *)
(** ** C97: max_leaf_nodes bounds the leaves, and the tree partitions the samples *)

Theorem C97_max_leaf_nodes C V (mk : data -> crit C V) sp e g pick M X d n nf :
  let u := without_weights d in
  computes u (weighted_n u n) (mk u) sp -> sane e -> takes_largest pick -> 1 <= g_min_samples_leaf g -> 1 <= n -> 1 <= M ->
  exists b, bf_grow mk e g pick M X d n nf = Ok b /\
    1 <= n_leaves (b_nodes b) <= M /\ length (b_nodes b) + 1 = 2 * n_leaves (b_nodes b) /\
    length (b_values b) = length (b_nodes b).
Proof.
  intros u H1 H2 H3 H4 H5 H6. destruct (@bf_grow_ok _ _ mk sp e g pick M X d n nf H1 H2 H3 H4 H5 H6) as (b & S & D & bu & E & I).
  exists b. split; [auto|]. destruct (bf_leaves I) as [L1 L2]. destruct (v_count I) as [C1 C2].
  split; [lia|]. split; [auto|]. apply (v_len I).
Qed.
Print Assumptions C97_max_leaf_nodes.

Theorem C97_predict C V (mk : data -> crit C V) sp e g pick M X d n nf b dflt :
  let u := without_weights d in
  computes u (weighted_n u n) (mk u) sp -> sane e -> takes_largest pick -> 1 <= g_min_samples_leaf g -> 1 <= n -> 1 <= M ->
  bf_grow mk e g pick M X d n nf = Ok b ->
  forall x, exists j nd, tree_apply (b_nodes b) x = Ok j /\ nth_error (b_nodes b) j = Some nd /\ nd_left nd = Leaf /\
    let s := samples_at (b_nodes b) X j (seq 0 n) in
    tree_predict dflt b x = Ok (cs_value sp s) /\ nd_n nd = length s /\ nd_w nd = cs_wn sp s /\ s <> [] /\
    (length (b_nodes b) = 1 \/ g_min_samples_leaf g <= length s).
Proof.
  intros u H1 H2 H3 H4 H5 H6 E x. destruct (@bf_grow_inv _ _ mk sp e g pick M X d n nf b H1 H2 H3 H4 H5 H6 E) as (S & D & bu & I).
  destruct (bf_tree_path I x) as (p & j & _ & A1 & A2 & A3 & _).
  destruct (nth_error (b_nodes b) j) as [nd|] eqn:Ej; [|apply nth_error_None in Ej; lia].
  exists j, nd. split; [auto|]. split; [auto|]. pose proof (nth_error_nth _ _ node0 Ej) as En. rewrite En in A3. split; [auto|].
  cbv zeta. rewrite (@bf_leaf_at _ _ _ _ _ _ _ _ _ _ _ _ _ _ _ _ _ I j A2) by (now rewrite En).
  destruct (v_base I j Ej) as (B1 & B2 & B3 & B4 & B5).
  split. { unfold tree_predict. rewrite A1. cbn [bind]. f_equal. now apply nth_error_nth. }
  split; [auto|]. split; [auto|]. split; [auto|].
  destruct (Nat.eq_dec j 0) as [->|Nj].
  - left. assert (length (b_nodes b) <= 1); [|lia].
    destruct (Nat.le_gt_cases (length (b_nodes b)) 1) as [|G]; [auto|]. exfalso.
    destruct (v_parent I) with (j := 1) as (q & ndq & a & Q1 & Q2 & Q3); [lia|].
    assert (q = 0) as -> by (destruct Q2 as (_ & _ & Q2 & _); lia). assert (ndq = nd) by congruence. subst ndq.
    destruct Q2 as (Q2 & _). congruence.
  - right. destruct (v_parent I) with (j := j) as (q & ndq & a & Q1 & Q2 & Q3); [lia|].
    destruct Q2 as (_ & _ & _ & _ & (_ & _ & _ & (_ & _ & T1 & T2 & _) & _) & Q4 & Q5 & _).
    destruct Q3 as [-> | ->]; [now rewrite Q4|now rewrite Q5].
Qed.
Print Assumptions C97_predict.

Theorem C97_nodes C V (mk : data -> crit C V) sp e g pick M X d n nf b :
  let u := without_weights d in
  computes u (weighted_n u n) (mk u) sp -> sane e -> takes_largest pick -> 1 <= g_min_samples_leaf g -> 1 <= n -> 1 <= M ->
  bf_grow mk e g pick M X d n nf = Ok b ->
  forall j nd, nth_error (b_nodes b) j = Some nd ->
  let s := passing (b_nodes b) X j (seq 0 n) in
  s <> [] /\ nd_n nd = length s /\ nd_w nd = cs_wn sp s /\ nth_error (b_values b) j = Some (cs_value sp s) /\
  ((forall l r, cs_children sp l r = (cs_node sp l, cs_node sp r)) -> nd_imp nd = cs_node sp s) /\
  exists depth, at_depth (b_nodes b) j depth /\ depth <= g_max_depth g.
Proof.
  intros u H1 H2 H3 H4 H5 H6 E j nd Hj s. destruct (@bf_grow_inv _ _ mk sp e g pick M X d n nf b H1 H2 H3 H4 H5 H6 E) as (S & D & bu & I).
  assert (Lj : j < length (b_nodes b)) by (apply nth_error_Some; congruence).
  assert (Es : s = S j) by (apply (bf_passing I); auto). rewrite Es.
  destruct (v_base I j Hj) as (B1 & B2 & B3 & B4 & B5).
  split; [auto|]. split; [auto|]. split; [auto|]. split; [auto|]. split.
  - intros Hch. destruct (Nat.eq_dec j 0) as [->|Nj].
    + destruct (v_root I) as (R1 & _ & R3 & _). rewrite R1. rewrite (nth_error_nth _ _ node0 Hj) in R3. auto.
    + destruct (v_parent I) with (j := j) as (q & ndq & a & Q1 & Q2 & Q3); [lia|].
      destruct Q2 as (_ & _ & _ & _ & _ & _ & _ & _ & _ & Q). rewrite Hch in Q. injection Q as Qa Qb.
      pose proof (nth_error_nth _ _ node0 Hj) as En. destruct Q3 as [-> | ->]; [rewrite <- Qa|change (1 + a) with (Datatypes.S a) in *; rewrite <- Qb]; now rewrite En.
  - exists (D j). split; [apply (bf_at_depth I)|auto].
Qed.
Print Assumptions C97_nodes.

Theorem C97_depth C V (mk : data -> crit C V) sp e g pick M X d n nf b :
  let u := without_weights d in
  computes u (weighted_n u n) (mk u) sp -> sane e -> takes_largest pick -> 1 <= g_min_samples_leaf g -> 1 <= n -> 1 <= M ->
  bf_grow mk e g pick M X d n nf = Ok b ->
  b_max b <= g_max_depth g /\
  (forall x, exists p, tree_path (b_nodes b) x = Ok p /\ length p <= 1 + b_max b) /\
  (exists i p, i < n /\ tree_path (b_nodes b) (X i) = Ok p /\ length p = 1 + b_max b).
Proof.
  intros u H1 H2 H3 H4 H5 H6 E. destruct (@bf_grow_inv _ _ mk sp e g pick M X d n nf b H1 H2 H3 H4 H5 H6 E) as (S & D & bu & I).
  destruct (v_depth I) as [V1 V2].
  assert (DB : forall j, j < length (b_nodes b) -> D j <= b_max b) by (intros j Hj; apply V1; auto).
  assert (W : exists j, j < length (b_nodes b) /\ D j = b_max b).
  { destruct V2 as [V2|(j & J1 & _ & J3)]; [|eauto]. exists 0. destruct (v_root I) as (_ & R & _ & L). split; [lia|]. now rewrite R, V2. }
  destruct W as (j & Lj & Dj).
  split; [|split].
  - rewrite <- Dj. destruct (nth_error (b_nodes b) j) as [nd|] eqn:Ej; [|apply nth_error_None in Ej; lia]. now destruct (v_base I j Ej).
  - intros x. destruct (bf_tree_path I x) as (p & k & A1 & _ & A2 & _ & _ & A3). exists (p ++ [k]). split; [auto|].
    rewrite app_length. cbn [length]. specialize (DB k A2). lia.
  - destruct (nth_error (b_nodes b) j) as [nd|] eqn:Ej; [|apply nth_error_None in Ej; lia].
    destruct (v_base I j Ej) as (_ & _ & _ & NE & _). destruct (S j) as [|i l] eqn:ES; [congruence|].
    assert (Hi : In i (S j)) by (rewrite ES; now left).
    destruct (bf_tree_path I (X i)) as (p & k & A1 & _ & A2 & _ & _ & A3). exists i, (p ++ [k]). split.
    { destruct (@bf_sub _ _ _ _ _ _ _ _ _ _ _ _ _ _ _ _ _ I j Lj) as [f Ef]. rewrite Ef in Hi. apply filter_In in Hi.
      destruct Hi as [Hi _]. apply in_seq in Hi. lia. }
    split; [auto|]. rewrite app_length. cbn [length]. pose proof (DB k A2).
    pose proof (bf_through I i Lj Hi A1) as Hin. destruct (bf_at_depth I j (X i) A1 Hin) as (p1 & p2 & P1 & P2).
    apply (f_equal (@length nat)) in P1. rewrite !app_length in P1. cbn [length] in P1. lia.
Qed.
Print Assumptions C97_depth.

(* ------------------------------------------------------------------------------------------------ *)
(** ** C98: best-first order *)

(** the improvement of the split stored in an internal node, of the training samples that pass it *)
Definition split_gain {V} (sp : cspec V) (b : @bst V) X n (q : nat) (nd : node) : R :=
  gain sp X (nd_imp nd) (nd_feature nd) (nd_thr nd) (passing (b_nodes b) X q (seq 0 n)).

(** A node stays a leaf for one of the reasons of the depth-first builder, or because max_leaf_nodes is used up;
    then no split made while it was waiting (its children have larger ids) improves less than its own best split. *)
Theorem C98_best_first C V (mk : data -> crit C V) sp e g pick M X d n nf b :
  let u := without_weights d in
  ranking u (weighted_n u n) (mk u) sp -> sane e -> takes_largest pick -> 1 <= g_min_samples_leaf g -> 1 <= n -> 1 <= M ->
  g_random g = false -> nf <= g_max_features g ->
  bf_grow mk e g pick M X d n nf = Ok b ->
  forall j nd, nth_error (b_nodes b) j = Some nd ->
  let s := passing (b_nodes b) X j (seq 0 n) in
  match nd_left nd with
  | Leaf =>
      exists depth, at_depth (b_nodes b) j depth /\
      (g_max_depth g <= depth \/ length s < g_min_samples_split g \/ length s < 2 * g_min_samples_leaf g \/
       (cs_wn sp s < 2 * g_min_weight_leaf g)%R \/ (nd_imp nd <= EPSILON)%R \/
       (forall f t, f < nf -> allowed sp X (g_min_samples_leaf g) (g_min_weight_leaf g) f t s ->
          separated X f t s -> (gain sp X (nd_imp nd) f t s + EPSILON < g_min_decrease g)%R) \/
       (n_leaves (b_nodes b) = M /\
        forall q ndq a, nth_error (b_nodes b) q = Some ndq -> nd_left ndq = To a -> j < a ->
          forall f t, f < nf -> allowed sp X (g_min_samples_leaf g) (g_min_weight_leaf g) f t s -> separated X f t s ->
            (gain sp X (nd_imp nd) f t s <= split_gain sp b X n q ndq)%R))
  | _ =>
      allowed sp X (g_min_samples_leaf g) (g_min_weight_leaf g) (nd_feature nd) (nd_thr nd) s /\
      separated X (nd_feature nd) (nd_thr nd) s /\
      best_gain sp X nf g (nd_imp nd) (nd_feature nd) (nd_thr nd) s /\
      (g_min_decrease g <= gain sp X (nd_imp nd) (nd_feature nd) (nd_thr nd) s + EPSILON)%R
  end.
Proof.
  intros u Hr He Hp Hm Hn HM Hb Hf E j nd Hj s.
  assert (Hc : computes u (weighted_n u n) (mk u) sp) by now constructor.
  destruct (@bf_grow_inv _ _ mk sp e g pick M X d n nf b Hc He Hp Hm Hn HM E) as (S & D & bu & I).
  assert (Lj : j < length (b_nodes b)) by (apply nth_error_Some; congruence).
  assert (Es : s = S j) by (apply (bf_passing I); auto).
  destruct (v_base I j Hj) as (B1 & B2 & B3 & B4 & B5). rewrite <- Es in *.
  assert (W1 : forall i, wt u i = 1%R) by reflexivity.
  assert (Ws : forall i, In i s -> (0 < wt u i)%R) by (intros; rewrite W1; lra).
  assert (N0 : (0 < weighted_n u n)%R).
  { rewrite weighted_kept. apply w_sum_pos; [rewrite W1 || intros; rewrite ?W1; try lra|].
    unfold u. rewrite kept_unweighted. destruct n; [lia|discriminate]. }
  destruct (@gain_as_proxy u (weighted_n u n) C V (mk u) sp X Hr N0 s (nd_imp nd) Ws B4) as (a & k & Kp & G).
  assert (BG : forall ex f t, searched X nf (g_max_features g) s ex ->
            allowed sp X (g_min_samples_leaf g) (g_min_weight_leaf g) f t s ->
            optimal sp X (g_min_samples_leaf g) (g_min_weight_leaf g) ex f t s ->
            best_gain sp X nf g (nd_imp nd) f t s).
  { intros ex f t Se Al Op f' t' Hf' Al' Sp'. pose proof Al as (A1 & A2 & _). pose proof Al' as (C1 & C2 & _).
    rewrite !G by auto. apply Rplus_le_compat_l, Rmult_le_compat_l; [lra|]. apply Op; auto.
    eapply searched_all; eauto. }
  destruct (bf_status I j Hj) as [(L & R & St)|(c & A1 & A2 & A3 & A4 & A5 & _)].
  - rewrite L. exists (D j). split; [apply (bf_at_depth I)|].
    destruct St as [St|(Bz & f & t & So & Gr)].
    + specialize (St Hb). rewrite <- Es in St.
      destruct St as [H|[H|[H|[H|[H|[(ex & Se & H)|(ex & f & t & Se & Hin & Al & Sp & Op & H)]]]]]]; auto.
      * do 4 right. now left.
      * do 5 right. left. intros f t Hf' Al Sp. exfalso. eapply H; eauto. eapply searched_all; eauto.
      * do 5 right. left. intros f' t' Hf' Al' Sp'. pose proof (BG ex f t Se Al Op f' t' Hf' Al' Sp'). lra.
    + do 6 right. destruct (bf_leaves I) as [L1 _]. destruct (v_count I) as [C1 _]. split; [lia|].
      intros q ndq c Hq Hl Hlt f' t' Hf' Al' Sp'.
      rewrite <- Es in So, Gr. destruct So as (_ & _ & _ & Al & _ & ex & Se & _ & Op). destruct (Op Hb) as [_ Op'].
      pose proof (BG ex f t Se Al Op' f' t' Hf' Al' Sp') as Q1. specialize (Gr q ndq c Hq Hl Hlt).
      unfold gain_of in Gr. unfold split_gain.
      rewrite (bf_passing I (j := q)) by (apply nth_error_Some; congruence). lra.
  - rewrite A1. rewrite <- Es in A5. destruct A5 as (_ & _ & _ & Al & Md & ex & Se & _ & Op). destruct (Op Hb) as [Sp Op'].
    split; [auto|]. split; [auto|]. split; [eapply BG; eauto|auto].
Qed.
Print Assumptions C98_best_first.

(* ------------------------------------------------------------------------------------------------ *)
(** ** C99: sample weights and max_leaf_nodes *)

(** With max_leaf_nodes the sample weights have no effect at all... *)
Theorem C99_weights_refuted C V (mk : data -> crit C V) e g pick M X d w n nf :
  bf_grow mk e g pick M X (mkData (d_out d) (d_y d) w) n nf = bf_grow mk e g pick M X d n nf.
Proof. reflexivity. Qed.
Print Assumptions C99_weights_refuted.

(** ... so that two units with effects 0 and 1 and weights 1 and 3 give the prediction 1/2 with max_leaf_nodes and
    3/4 without, in a tree of one leaf. *)
Definition wy2 : data := mkData 1 (fun k => INR k) (Some (fun i => (1 + 2 * INR i)%R)).
Definition wg : settings := mkSettings 1 1 0 2 0 0 false.
Theorem C99_weights_example_refuted pick x : takes_largest pick ->
  exists b b' v v', bf_grow mse_crit env0 wg pick 1 (fun i _ => INR i) wy2 2 1 = Ok b /\
    grow (mse_crit wy2) env0 wg (fun i _ => INR i) wy2 2 1 = Ok b' /\
    tree_predict (fun _ => 0%R) b x = Ok v /\ tree_predict (fun _ => 0%R) b' x = Ok v' /\ v 0 = (1 / 2)%R /\ v' 0 = (3 / 4)%R.
Proof.
  intros Hp. set (u := without_weights wy2). set (X := fun i (_ : nat) => INR i).
  assert (Hc : computes u (weighted_n u 2) (mse_crit u) (mse_spec u (weighted_n u 2))) by (constructor; constructor).
  assert (Hc' : computes wy2 (weighted_n wy2 2) (mse_crit wy2) (mse_spec wy2 (weighted_n wy2 2))) by (constructor; constructor).
  assert (K : kept_samples wy2 2 = [0; 1]).
  { unfold kept_samples, wy2. cbn [d_w seq filter]. destruct (Req_EM_T _ _) as [e1|]; [cbn in e1; lra|].
    destruct (Req_EM_T _ _) as [e1|]; [cbn in e1; lra|reflexivity]. }
  assert (K0 : kept_samples wy2 2 <> []) by (rewrite K; discriminate).
  destruct (@C97_max_leaf_nodes _ _ mse_crit _ env0 wg pick 1 X wy2 2 1 Hc C96_sane Hp) as (b & E & L & LN & LV); cbn; try lia.
  destruct (@C91_builds _ _ (mse_crit wy2) _ env0 wg X wy2 2 1 Hc' C96_sane (le_n 1) K0) as (b' & E' & _).
  assert (L1 : length (b_nodes b) = 1) by lia.
  destruct (@C91_depth _ _ _ _ env0 wg X wy2 2 1 b' Hc' C96_sane (le_n 1) K0 E') as (Dm & P & _).
  destruct (@C91_predict _ _ _ _ env0 wg X wy2 2 1 b' (fun _ => 0%R) Hc' C96_sane (le_n 1) K0 E' x) as (j' & nd' & T1 & T2 & T3 & T4 & _).
  destruct (@C97_predict _ _ mse_crit _ env0 wg pick 1 X wy2 2 1 b (fun _ => 0%R) Hc C96_sane Hp (le_n 1) ltac:(lia) (le_n 1) E x)
    as (j & nd & Q1 & Q2 & Q3 & Q4 & _).
  assert (R : forall y, tree_apply (b_nodes b') y = Ok 0).
  { intros y. destruct (P y) as (p & Ep & Lp). cbn [wg g_max_depth] in Dm.
    assert (length p <= 1) as Lp1 by lia. clear - Ep Lp1.
    unfold tree_path in Ep. unfold tree_apply. destruct (length (b_nodes b')) as [|m]; [discriminate|].
    cbn [path_row apply_row] in *. destruct (nd_left (nth 0 (b_nodes b') node0)); [reflexivity| |];
      (destruct (if Rle_dec _ _ then _ else _) as [| |k]; try discriminate;
       destruct (path_row m (b_nodes b') y k) as [q|] eqn:Eq; [|discriminate]; cbn [bind] in Ep; injection Ep as <-;
       destruct q; [destruct m; cbn [path_row] in Eq; [discriminate|];
                    destruct (nd_left (nth k (b_nodes b') node0)); [discriminate| |];
                      (destruct (if Rle_dec _ _ then _ else _) as [| |k']; try discriminate;
                       destruct (path_row m (b_nodes b') y k'); discriminate)|cbn in Lp1; lia]). }
  assert (R' : forall y, tree_apply (b_nodes b) y = Ok 0).
  { intros y. destruct (b_nodes b) as [|n0 [|n1 l]] eqn:Eb; cbn in L1; try discriminate.
    assert (j = 0). { destruct j as [|j]; [auto|]. cbn in Q2. destruct j; discriminate. } subst j. cbn in Q2. injection Q2 as ->.
    unfold tree_apply. cbn [length apply_row nth]. now rewrite Q3. }
  rewrite R in T1. injection T1 as <-. rewrite R' in Q1. injection Q1 as <-.
  assert (S1 : samples_at (b_nodes b) X 0 (seq 0 2) = [0; 1]) by (unfold samples_at; rewrite filter_all; [auto|intros i _; now rewrite R']).
  assert (S2 : samples_at (b_nodes b') X 0 (kept_samples wy2 2) = [0; 1]) by (unfold samples_at; rewrite filter_all; [auto|intros i _; now rewrite R]).
  rewrite S1 in Q4. rewrite S2 in T4.
  exists b, b', (wmean u [0; 1]), (wmean wy2 [0; 1]). split; [exact E|]. split; [exact E'|]. split; [exact Q4|]. split; [exact T4|].
  split; unfold wmean, wy_sum, w_sum, wt, y_at; cbn; lra.
Qed.
Print Assumptions C99_weights_example_refuted.

(** There is such a pop_heap: the first record of largest improvement. *)
Fixpoint first_largest (l : list frec) : nat :=
  match l with
  | [] => 0
  | r :: tl => match nth_error tl (first_largest tl) with
               | None => 0
               | Some r' => if Rle_dec (fr_gain r') (fr_gain r) then 0 else 1 + first_largest tl
               end
  end.
Theorem C98_takes_largest : takes_largest first_largest.
Proof.
  intros l. induction l as [|r tl IH]; [congruence|]. intros _. destruct tl as [|r1 tl].
  - exists r. split; [reflexivity|]. intros r' [<-|[]]. lra.
  - destruct IH as (m & E & Hm); [discriminate|].
    change (first_largest (r :: r1 :: tl)) with
      (match nth_error (r1 :: tl) (first_largest (r1 :: tl)) with
       | None => 0 | Some r' => if Rle_dec (fr_gain r') (fr_gain r) then 0 else 1 + first_largest (r1 :: tl) end).
    rewrite E. destruct (Rle_dec (fr_gain m) (fr_gain r)).
    + exists r. split; [reflexivity|]. intros r' [<-|Hr]; [lra|]. specialize (Hm r' Hr). lra.
    + exists m. split; [exact E|]. intros r' [<-|Hr]; [lra|auto].
Qed.

(** four units, two treatments (TreeExamples.pol): with max_leaf_nodes = 1 the root stays a leaf, with 2 it is split *)
Example C97_example : exists b b',
  bf_grow preg_crit env0 pol_g first_largest 1 pol_X pol 4 1 = Ok b /\ n_leaves (b_nodes b) = 1 /\
  bf_grow preg_crit env0 pol_g first_largest 5 pol_X pol 4 1 = Ok b' /\ 1 <= n_leaves (b_nodes b') <= 5.
Proof.
  assert (Hc : computes pol (weighted_n pol 4) (preg_crit pol) (preg_spec false pol (weighted_n pol 4))) by (constructor; constructor).
  destruct (@C97_max_leaf_nodes _ _ preg_crit _ env0 pol_g first_largest 1 pol_X pol 4 1 Hc C96_sane C98_takes_largest) as (b & E & L & _); cbn; try lia.
  destruct (@C97_max_leaf_nodes _ _ preg_crit _ env0 pol_g first_largest 5 pol_X pol 4 1 Hc C96_sane C98_takes_largest) as (b' & E' & L' & _); cbn; try lia.
  exists b, b'. split; [auto|]. split; [lia|auto].
Qed.
