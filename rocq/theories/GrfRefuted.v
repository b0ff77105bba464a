(** Concrete forests: C160, C161. *)
From Coq Require Import ZArith Reals Lra.
From Verif Require Import Base EstUtilsModel MetaModel TreeCritModel TreeCritProps SplitterModel SplitterSpec TreeSpec TreeExamples TreeShape
  BestFirstModel BestFirstProofs BestFirstShape BestFirstProps GrfCritModel GrfCritSpec GrfModel GrfSpec MetaProofs GrfProofs GrfExamples GrfProps.
Unset Implicit Arguments.
Local Notation length := List.length.
Local Open Scope R_scope.

Lemma solves1 n t w b theta : solves n 1 t w b [theta] <-> moment n t w 0 0 * theta = b 0%nat.
Proof.
  assert (T : times 1 (moment n t w) (fun k => nth k [theta] 0) 0 = moment n t w 0 0 * theta).
  { unfold times. cbn [seq map]. rewrite Rsum_cons. cbn [Rsum fold_right nth]. lra. }
  unfold solves. split.
  - intros [_ H]. rewrite <- T. apply H. lia.
  - intros H. split; [reflexivity|]. intros j Hj. assert (j = 0%nat) as -> by lia. now rewrite T.
Qed.

(** three rows with treatments 0, 1, 2; sub-samples of two rows; trees of one node *)
Definition tr3 (i j : nat) : R := INR i.
Definition d3 (y : nat -> R) : fdata := mkFd 3 1 1 y tr3 (Some tr3).
Definition set3 : settings := mkSettings 1 1 0 2 3 0 false.
Definition p3 : fparams := mkFp 1 (Some (NInt 2)) None None false 0 (Some 1%nat) (fun _ _ => set3).
Lemma proper3 : proper p3.
Proof. split; [cbn; lia|]. split; [intros; cbn; lia|]. intros m [= <-]. lia. Qed.
Lemma sizes3 : sizes p3 3 2 None.
Proof. split; [reflexivity|exact I]. Qed.
Lemma enough3 : enough 3 2 None.
Proof. unfold enough. split; lia. Qed.

Lemma single_estimate y x : exists o theta, grf_fit E1 (d3 y) None (grf_init p3) = (o, Ok tt) /\ grf_estimate E1 o (Some (1%nat, [x])) = Ok [[theta]] /\
  (2 / 3 + 1 / 100000) * theta = 2 / 9 * (y 2%nat - y 0%nat).
Proof.
  destruct (C160_estimate_partial E1 p3 (d3 y) tr3 None 2 None C160_usable proper3 sizes3 enough3 eq_refl) as (o & nodes & Ef & T & Es & _).
  destruct (Es [x]) as (out & Eo & Fo); [discriminate|].
  assert (W : forall i, weight_of E1 3 2 None tr3 nodes 1 x i = 1 / 3).
  { intros i. pose proof (C161_single_node_refuted E1 p3 (d3 y) tr3 None 2 None nodes C160_usable proper3 eq_refl T eq_refl x i) as W.
    cbn in W. change (Pos.to_nat 1) with 1%nat in W. rewrite W. lra. }
  inversion Fo as [|? th ? l' [Hs _] F2]; subst. inversion F2; subst. cbn [d3 fd_n fd_p fd_x fd_y p3 fp_n] in Hs.
  change (Z.to_nat 1) with 1%nat in Hs.
  destruct th as [|theta [|]]; [destruct Hs as [Hs _]; discriminate| |destruct Hs as [Hs _]; discriminate].
  exists o, theta. split; [exact Ef|]. split; [exact Eo|]. apply solves1 in Hs.
  unfold moment, rhs, centred, total in Hs. cbn [seq map Nat.eqb] in Hs. rewrite !Rsum_cons in Hs. rewrite !W in Hs.
  cbn [Rsum fold_right tr3 INR] in Hs. lra.
Qed.

(** The outcome of row 2, which is in no sub-sample, changes the estimate. *)
Theorem C161_outside_refuted x :
  exists o o' theta theta',
    grf_fit E1 (d3 (fun i => 0)) None (grf_init p3) = (o, Ok tt) /\
    grf_fit E1 (d3 (fun i => if (i =? 2)%nat then 1 else 0)) None (grf_init p3) = (o', Ok tt) /\
    (forall k, sample_of E1 3 2 k = [0; 1]%nat) /\
    grf_estimate E1 o (Some (1%nat, [x])) = Ok [[theta]] /\ grf_estimate E1 o' (Some (1%nat, [x])) = Ok [[theta']] /\ theta = 0 /\ 3 / 10 < theta'.
Proof.
  destruct (single_estimate (fun _ => 0) x) as (o & th & A1 & A2 & A3).
  destruct (single_estimate (fun i => if (i =? 2)%nat then 1 else 0) x) as (o' & th' & B1 & B2 & B3). cbn [Nat.eqb] in B3.
  exists o, o', th, th'. repeat split; auto; lra.
Qed.
Print Assumptions C161_outside_refuted.

(** The outcome equals the treatment; a single leaf with all three rows; the estimate is below 0.67, the documented
    equations give more than 0.9999. *)
Theorem C160_example_refuted x : exists o theta documented_theta,
  grf_fit E1 (d3 INR) None (grf_init p3) = (o, Ok tt) /\ grf_estimate E1 o (Some (1%nat, [x])) = Ok [[theta]] /\
  solves 3 1 tr3 (fun _ => 1 / 3) (documented 3 tr3 INR (fun _ => 1 / 3)) [documented_theta] /\
  theta < 67 / 100 /\ 9999 / 10000 < documented_theta.
Proof.
  destruct (single_estimate INR x) as (o & th & A1 & A2 & A3). cbn [INR] in A3.
  exists o, th, (2 / 3 / (2 / 3 + 1 / 100000)). split; [auto|]. split; [auto|]. split; [|split; lra].
  apply solves1. unfold moment, documented, centred, total. cbn [seq map Nat.eqb]. rewrite !Rsum_cons. cbn [Rsum fold_right tr3 INR]. lra.
Qed.
Print Assumptions C160_example_refuted.

(* ------------------------------------------------------------------------------------------------ *)
(** ** An empty leaf *)

Lemma filter_two {A} (f : A -> bool) l : (2 <= length (filter f l))%nat ->
  exists i j a b, i <> j /\ nth_error l i = Some a /\ nth_error l j = Some b /\ f a = true /\ f b = true.
Proof.
  assert (O : forall l, (1 <= length (filter f l))%nat -> exists i a, nth_error l i = Some a /\ f a = true).
  { clear. induction l as [|x l IH]; cbn [filter length]; [lia|]. destruct (f x) eqn:Ex; intros H; [exists 0%nat, x; auto|].
    destruct (IH H) as (i & a & H1 & H2). exists (S i), a. auto. }
  induction l as [|x l IH]; cbn [filter length]; [lia|]. destruct (f x) eqn:Ex; intros H.
  - cbn [length] in H. destruct (O l ltac:(lia)) as (i & a & H1 & H2). exists 0%nat, (S i), x, a. cbn. auto.
  - destruct (IH H) as (i & j & a & b & H1). exists (S i), (S j), a, b. cbn. intuition congruence.
Qed.

(** The tree of the rows s, their data in the order of s, what its criterion computes. *)
Definition rows_of {A} (f : nat -> A) (s : list nat) (i : nat) : A := f (nth i s (hd 0%nat s)).
Definition tree_data (d : fdata) (s : list nat) : data := mkData 1 (rows_of (fd_y d) s) None.
Definition tree_spec (E : fenv) (d : fdata) (s : list nat) : cspec (nat -> R) :=
  grf_spec (v_la E) (fd_p d) (rows_of (fd_x d) s) (tree_data d s).
Definition tree_settings (p : fparams) (d : fdata) (sw : option (nat -> R)) (s : list nat) : settings :=
  with_min_weight (fp_set p (length s) (fd_nf d)) (min_weight p sw s).

Section Tree.
Variables (E : fenv) (p : fparams) (d : fdata) (v : nat -> nat -> R) (sw : option (nat -> R)) (seed : nat) (s : list nat) (b : @bst (nat -> R)).
Hypotheses (U : usable E) (P : proper p) (Eb : grf_tree E p d v sw seed s = Ok b).
Let X := rows_of v s.
Let g := tree_settings p d sw s.
Let M := some_or (fp_mln p) 1000%nat.
Let n := length s.
Let sp := tree_spec E d s.
Let mk := grf_crit (v_la E) (fd_p d) (rows_of (fd_x d) s).
Let dw := mkData 1 (rows_of (fd_y d) s) (option_map (fun w => rows_of w s) sw).

Lemma tree_ranking : ranking (tree_data d s) (weighted_n (tree_data d s) n) (mk (tree_data d s)) sp.
Proof. apply rk_grf; [reflexivity|apply U]. Qed.
Lemma tree_computes : computes (tree_data d s) (weighted_n (tree_data d s) n) (mk (tree_data d s)) sp.
Proof. constructor. apply tree_ranking. Qed.
Lemma tree_rows : (1 <= n)%nat.
Proof. unfold n. destruct s; [discriminate|cbn; lia]. Qed.
Lemma tree_leaf : (1 <= g_min_samples_leaf g)%nat.
Proof. destruct P as (_ & P2 & _). apply P2. Qed.
Lemma tree_grow : bf_grow mk (v_tree E seed) g (v_pick E) M X dw n (fd_nf d) = Ok b.
Proof. rewrite <- Eb. unfold grf_tree, g, tree_settings, X, mk, dw, M, n, rows_of. destruct s; [discriminate|]. reflexivity. Qed.
Lemma tree_inv : exists S D bu, inv sp X (g_max_features g) (g_min_samples_leaf g) (g_min_weight_leaf g) (g_min_samples_split g)
     (g_max_depth g) (g_min_decrease g) (g_random g) (fd_nf d) (seq 0 n) M [] bu b S D.
Proof.
  exact (@bf_grow_inv _ _ mk sp (v_tree E seed) g (v_pick E) M X dw n (fd_nf d) b tree_computes (us_tree _ U seed) (us_pick _ U)
           tree_leaf tree_rows (mln_pos p P) tree_grow).
Qed.

(** every node has a sample that reaches it; min_samples_leaf of them if it is not the root *)
Lemma tree_counts j nd : nth_error (b_nodes b) j = Some nd ->
  (1 <= nd_n nd)%nat /\ (j = 0%nat -> nd_n nd = n) /\ (j <> 0%nat -> (g_min_samples_leaf g <= nd_n nd)%nat) /\
  (nd_left nd = Leaf -> exists i, (i < n)%nat /\ tree_apply (b_nodes b) (X i) = Ok j).
Proof.
  intros Ej. destruct tree_inv as (S & D & bu & I). destruct (v_base I j Ej) as (B1 & B2 & B3 & B4 & B5).
  destruct (v_root I) as (R1 & _).
  assert (Lj : (j < length (b_nodes b))%nat) by (apply nth_error_Some; congruence).
  split; [|split; [|split]].
  - rewrite B1. destruct (S j); [congruence|cbn; lia].
  - intros ->. rewrite B1, R1. apply seq_length.
  - intros Nj. destruct (v_parent I) with (j := j) as (q & ndq & a & Q1 & Q2 & Q3); [lia|].
    destruct Q2 as (_ & _ & _ & _ & (_ & _ & _ & (_ & _ & T1 & T2 & _) & _) & Q4 & Q5 & _). rewrite B1.
    destruct Q3 as [-> | ->]; [now rewrite Q4|now rewrite Q5].
  - intros L. assert (Ln : nd_left (nth j (b_nodes b) node0) = Leaf) by (now rewrite (nth_error_nth _ _ node0 Ej)).
    pose proof (@bf_leaf_at _ _ _ _ _ _ _ _ _ _ _ _ _ _ _ _ _ I j Lj Ln) as Ls. rewrite <- Ls in B4.
    destruct (samples_at (b_nodes b) X j (seq 0 n)) as [|i r] eqn:Es; [congruence|].
    assert (Hi : In i (samples_at (b_nodes b) X j (seq 0 n))) by (rewrite Es; now left).
    unfold samples_at in Hi. apply filter_In in Hi. destruct Hi as [Hi Hj]. apply in_seq in Hi. exists i. split; [lia|].
    destruct (tree_apply (b_nodes b) (X i)) as [k|]; [|discriminate]. apply Nat.eqb_eq in Hj. congruence.
Qed.

(** the root is split if some allowed split improves enough *)
Lemma root_split f t : (2 <= M)%nat -> (1 <= g_max_depth g)%nat -> (g_min_samples_split g <= n)%nat -> (2 * g_min_samples_leaf g <= n)%nat ->
  g_min_weight_leaf g = 0 -> g_random g = false -> (fd_nf d <= g_max_features g)%nat -> (f < fd_nf d)%nat ->
  allowed sp X (g_min_samples_leaf g) (g_min_weight_leaf g) f t (seq 0 n) -> separated X f t (seq 0 n) ->
  g_min_decrease g <= gain sp X 1 f t (seq 0 n) + EPSILON -> length (b_nodes b) <> 1%nat.
Proof.
  intros HM Hd Hs Hl Hw Hr Hf Ff Al Sp Gn L1. destruct tree_inv as (S & D & bu & I).
  destruct (v_root I) as (R1 & _ & R3 & R4).
  destruct (nth_error (b_nodes b) 0) as [nd|] eqn:En; [|apply nth_error_None in En; lia].
  rewrite (nth_error_nth _ _ node0 En) in R3. change (cs_node sp (seq 0 n)) with 1 in R3.
  pose proof (@C98_best_first _ _ mk sp (v_tree E seed) g (v_pick E) M X dw n (fd_nf d) b tree_ranking (us_tree _ U seed) (us_pick _ U)
              tree_leaf tree_rows (mln_pos p P) Hr Hf tree_grow 0%nat nd En) as B.
  assert (Rp : passing (b_nodes b) X 0 (seq 0 n) = seq 0 n) by (rewrite (bf_passing I) by lia; exact R1).
  rewrite Rp in B. cbv zeta in B.
  assert (NL : nd_left nd = Leaf).
  { destruct (bf_tree_path I (fun _ => 0)) as (q & j & _ & A1 & A2 & A3 & _).
    assert (j = 0%nat) as -> by lia. now rewrite (nth_error_nth _ _ node0 En) in A3. }
  rewrite NL in B. destruct B as (depth & Dp & B).
  assert (D0 : depth = 0%nat).
  { assert (Pt : tree_path (b_nodes b) (fun _ => 0) = Ok [0%nat]).
    { unfold tree_path. rewrite L1. cbn [path_row]. now rewrite (nth_error_nth _ _ node0 En), NL. }
    destruct (Dp _ _ Pt (or_introl eq_refl)) as (p1 & p2 & P2 & P3). destruct p1 as [|? [|]]; [now cbn in P3|discriminate|discriminate]. }
  subst depth. rewrite seq_length in B. rewrite R3 in B. destruct B as [B|[B|[B|[B|[B|[B|B]]]]]]; try lia.
  - change (cs_wn sp (seq 0 n)) with (w_sum (tree_data d s) (seq 0 n)) in B. rewrite Hw in B.
    assert (0 <= w_sum (tree_data d s) (seq 0 n)); [|lra]. apply Rsum_nonneg. intros; unfold wt; cbn; lra.
  - unfold EPSILON in B. lra.
  - specialize (B f t Ff Al Sp). lra.
  - destruct B as [B _]. destruct (bf_leaves I) as [_ L2]. lia.
Qed.

(** the root is not split if no allowed split improves enough *)
Lemma root_kept : (1 <= g_max_depth g)%nat -> g_random g = false -> (fd_nf d <= g_max_features g)%nat ->
  (forall f t, allowed sp X (g_min_samples_leaf g) (g_min_weight_leaf g) f t (seq 0 n) -> separated X f t (seq 0 n) ->
     gain sp X 1 f t (seq 0 n) + EPSILON < g_min_decrease g) -> length (b_nodes b) = 1%nat.
Proof.
  intros Hd Hr Hf H. destruct tree_inv as (S & D & bu & I). destruct (v_root I) as (R1 & _ & R3 & R4).
  destruct (nth_error (b_nodes b) 0) as [nd|] eqn:En; [|apply nth_error_None in En; lia].
  rewrite (nth_error_nth _ _ node0 En) in R3. change (cs_node sp (seq 0 n)) with 1 in R3.
  pose proof (@C98_best_first _ _ mk sp (v_tree E seed) g (v_pick E) M X dw n (fd_nf d) b tree_ranking (us_tree _ U seed) (us_pick _ U)
              tree_leaf tree_rows (mln_pos p P) Hr Hf tree_grow 0%nat nd En) as B.
  assert (Rp : passing (b_nodes b) X 0 (seq 0 n) = seq 0 n) by (rewrite (bf_passing I) by lia; exact R1).
  rewrite Rp, R3 in B. cbv zeta in B.
  destruct (nd_left nd) eqn:NL.
  - destruct (@bf_leaf_root _ _ mk sp (v_tree E seed) g (v_pick E) M X dw n (fd_nf d) b tree_computes (us_tree _ U seed) (us_pick _ U)
              tree_leaf tree_rows (mln_pos p P) tree_grow (fun _ => 0)) as (j & J1 & J2 & _). apply J2.
    unfold tree_apply in J1. destruct (b_nodes b) as [|n0 ns]; [cbn in R4; lia|]. cbn in En. injection En as ->.
    cbn [length apply_row nth] in J1. rewrite NL in J1. now injection J1 as <-.
  - destruct B as (B1 & B2 & _ & B4). specialize (H _ _ B1 B2). lra.
  - destruct B as (B1 & B2 & _ & B4). specialize (H _ _ B1 B2). lra.
Qed.
End Tree.

(** three rows with covariates 0, 0, 1; row 0 labels, rows 1 and 2 grow *)
Definition cov (i j : nat) : R := nth i [0; 0; 1] 0.
Definition dh (q : nat) (y : nat -> R) (t : nat -> nat -> R) : fdata := mkFd 3 q 1 y t (Some cov).
Definition ph : fparams := mkFp 1 (Some (NInt 3)) (Some (NReal (1 / 3))) None false 0 None (fun _ _ => set3).
Lemma properh : proper ph.
Proof. split; [cbn; lia|]. split; [intros; cbn; lia|]. discriminate. Qed.
Lemma sizesh : sizes ph 3 3 (Some 1%nat).
Proof.
  split; [reflexivity|]. cbn [ph fp_honest]. unfold nearest. replace (1 / 3 * INR 3) with 1 by (cbn; lra).
  replace (IZR (Z.of_nat 1) - 1) with 0 by (cbn; lra). rewrite Rabs_R0. split; [lra|]. intros; exfalso; lra.
Qed.
Lemma enoughh : enough 3 3 (Some 1%nat).
Proof. unfold enough. split; lia. Qed.

Definition X2 : nat -> nat -> R := rows_of cov [1; 2]%nat.
Lemma cut_two : left_of X2 0 (1 / 2) (seq 0 2) = [0%nat] /\ right_of X2 0 (1 / 2) (seq 0 2) = [1%nat].
Proof.
  assert (X00 : X2 0%nat 0%nat = 0) by reflexivity. assert (X10 : X2 1%nat 0%nat = 1) by reflexivity.
  split; [unfold left_of|unfold right_of]; cbn [seq filter]; rewrite X00, X10;
    (destruct (Rle_dec 0 (1 / 2)); [|lra]; destruct (Rle_dec 1 (1 / 2)); [lra|reflexivity]).
Qed.

Lemma splits_two q y t seed b : grf_tree E1 ph (dh q y t) cov None seed [1; 2]%nat = Ok b ->
  length (b_nodes b) <> 1%nat /\ tree_apply (b_nodes b) (cov 1) <> tree_apply (b_nodes b) (cov 2).
Proof.
  intros Eb. destruct cut_two as [Lf Rg].
  assert (G0 : g_min_weight_leaf (tree_settings ph (dh q y t) None [1; 2]%nat) = 0)
    by (cbn [tree_settings with_min_weight g_min_weight_leaf]; unfold min_weight; cbn [ph fp_mwf]; apply Rmult_0_l).
  assert (W2 : forall i, w_sum (tree_data (dh q y t) [1; 2]%nat) [i] = 1) by (intros; unfold w_sum, wt; cbn; lra).
  assert (N1 : length (b_nodes b) <> 1%nat).
  { apply (root_split E1 ph (dh q y t) cov None seed [1; 2]%nat b C160_usable properh Eb 0%nat (1 / 2)); try (cbn; lia); auto.
    - unfold allowed. cbn [length] in *. fold X2. rewrite Lf, Rg. cbn [length]. rewrite G0.
      repeat split; try discriminate; try (cbn; lia);
        [change (cs_wl (tree_spec E1 (dh q y t) [1; 2]%nat) [0%nat] [1%nat]) with (w_sum (tree_data (dh q y t) [1; 2]%nat) [0%nat])
        |change (cs_wr (tree_spec E1 (dh q y t) [1; 2]%nat) [0%nat] [1%nat]) with (w_sum (tree_data (dh q y t) [1; 2]%nat) [1%nat])];
        rewrite W2; lra.
    - unfold separated. cbn [length]. fold X2. rewrite Lf, Rg. intros i j [<-|[]] [<-|[]]. unfold FT, X2, rows_of, cov. cbn. lra.
    - unfold gain. cbn [length]. fold X2. rewrite Lf, Rg. change (g_min_decrease (tree_settings ph (dh q y t) None [1; 2]%nat)) with 0.
      unfold tree_spec. cbn [grf_spec cs_improve cs_children fst snd app].
      set (a := psum _ _ _ _ _ [0%nat]). set (c := psum _ _ _ _ _ [1%nat]). rewrite !W2.
      unfold EPSILON. assert (0 <= a ^ 2) by apply pow2_ge_0. assert (0 <= c ^ 2) by apply pow2_ge_0. lra. }
  split; [exact N1|]. intros Same.
  destruct (tree_inv E1 ph (dh q y t) cov None seed [1; 2]%nat b C160_usable properh Eb) as (S & D & bu & I).
  destruct (bf_leaves I) as [L1 L2].
  destruct (filter_two (fun n => match nd_left n, nd_right n with Leaf, Leaf => true | _, _ => false end) (b_nodes b)) as (i & j & na & nb & Ne & Ha & Hb & Fa & Fb).
  { change (2 <= n_leaves (b_nodes b))%nat. lia. }
  destruct (tree_counts E1 ph (dh q y t) cov None seed [1; 2]%nat b C160_usable properh Eb i na Ha) as (_ & _ & _ & Li).
  destruct (tree_counts E1 ph (dh q y t) cov None seed [1; 2]%nat b C160_usable properh Eb j nb Hb) as (_ & _ & _ & Lj).
  destruct Li as (a & A1 & A2). { destruct (nd_left na); congruence. }
  destruct Lj as (c & C1 & C2). { destruct (nd_left nb); congruence. }
  cbn [length] in A1, C1. change (rows_of cov [1; 2]%nat a) with (X2 a) in A2. change (rows_of cov [1; 2]%nat c) with (X2 c) in C2.
  assert (X2 0%nat = cov 1) by reflexivity. assert (X2 1%nat = cov 2) by reflexivity.
  destruct a as [|[|]], c as [|[|]]; try lia; congruence.
Qed.

(** Whatever the outcomes and treatments, the estimate is 0 where the labelling row does not fall: the weights are all 0. *)
Theorem C161_empty_leaf_refuted y t : exists o,
  grf_fit E1 (dh 1 y t) None (grf_init ph) = (o, Ok tt) /\ grf_estimate E1 o (Some (1%nat, [cov 2])) = Ok [[0]].
Proof.
  destruct (C160_estimate_partial E1 ph (dh 1 y t) cov None 3 (Some 1%nat) C160_usable properh sizesh enoughh eq_refl) as (o & nodes & Ef & T & Es & _).
  destruct (Es [cov 2]) as (out & Eo & Fo); [discriminate|]. exists o. split; [exact Ef|].
  destruct (T 0%nat ltac:(cbn; lia)) as (b & Eb & En). change (growing (Some 1%nat) (sample_of E1 (fd_n (dh 1 y t)) 3 0)) with [1; 2]%nat in Eb.
  destruct (splits_two _ _ _ _ _ Eb) as [N1 N2].
  assert (W : forall i, weight_of E1 3 3 (Some 1%nat) cov nodes 1 (cov 2) i = 0).
  { intros i. unfold weight_of, mean. cbn [seq map]. rewrite Rsum_cons. cbn [Rsum fold_right].
    change (labelling (Some 1%nat) (sample_of E1 3 3 0)) with [0%nat]. unfold tree_weight. rewrite En.
    destruct (Nat.eqb_spec (length (b_nodes b)) 1); [contradiction|]. unfold share.
    replace (neighbours (b_nodes b) cov [0%nat] (cov 2)) with (@nil nat); [cbn; lra|].
    unfold neighbours. cbn [filter]. unfold leaf_is. change (cov 0) with (cov 1).
    destruct (tree_apply (b_nodes b) (cov 2)) as [j|] eqn:E2; [|reflexivity].
    destruct (tree_apply (b_nodes b) (cov 1)) as [k|] eqn:E3; [|reflexivity].
    destruct (Nat.eqb_spec k j); [congruence|reflexivity]. }
  inversion Fo as [|? th ? l' [Hs _] F2]; subst. inversion F2; subst. cbn [dh fd_n fd_p fd_x fd_y ph fp_n] in Hs.
  change (Z.to_nat 1) with 1%nat in Hs.
  destruct th as [|theta [|]]; [destruct Hs as [Hs _]; discriminate| |destruct Hs as [Hs _]; discriminate].
  apply solves1 in Hs. unfold moment, rhs, centred, total in Hs. cbn [seq map Nat.eqb] in Hs. rewrite !Rsum_cons in Hs. rewrite !W in Hs.
  cbn [Rsum fold_right] in Hs. assert (theta = 0) as -> by lra. exact Eo.
Qed.
Print Assumptions C161_empty_leaf_refuted.
