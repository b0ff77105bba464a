(** Concrete cases that meet the hypotheses of the theorems about trees (C89-C95), with the sort of the code. *)
From Coq Require Import ZArith Reals Lra.
From Verif Require Import Base TreeCritModel TreeCritProps SplitterModel SortModel SortProps SplitterSpec TreeSpec
     SplitterProofs TreeProps CausalTreeModel CausalTreeProps.
Set Implicit Arguments.
Local Notation length := List.length.
Open Scope nat_scope.

(** the sort of the code, a random sequence, RAND_R_MAX = 0x7FFFFFFF *)
Definition env0 : surround := mkSurround code_sort (fun t => t mod 7) 2147483647%R.

(** Every theorem about trees that assumes [sane e] applies to the sort of the code. *)
Theorem C96_sane : sane env0.
Proof.
  split; [|split]; cbn [env0 e_sort e_rnd e_rmax].
  - intros key l. apply C96_code_sort.
  - lra.
  - intros t. apply Rle_trans with (INR 7); [|cbn; lra]. apply le_INR. pose proof (Nat.mod_upper_bound t 7). lia.
Qed.
Print Assumptions C96_sane.

(** the root is on every path *)
Lemma passing_root nodes X s : (forall x, exists p, tree_path nodes x = Ok p) -> passing nodes X 0 s = s.
Proof.
  intros H. unfold passing. apply filter_all. intros i _. destruct (H (X i)) as (p & E). rewrite E.
  unfold tree_path in E. destruct nodes as [|nd nodes]; [discriminate|]. cbn [length path_row] in E.
  destruct (nd_left (nth 0 (nd :: nodes) node0)); [now injection E as <-| |];
    (destruct (if Rle_dec _ _ then _ else _); try discriminate;
     destruct (path_row _ _ _ _) as [q|]; [|discriminate]; cbn in E; now injection E as <-).
Qed.

(** four units, two treatments: the first is good for units 0 and 1, the second for units 2 and 3 *)
Definition pol_y (k : nat) : R := nth k [1; 0; 1; 0; 0; 1; 0; 1]%R 0%R.
Definition pol : data := mkData 2 pol_y None.
Definition pol_X (i f : nat) : R := INR i.
Definition pol_g : settings := mkSettings 1 1 0 2 3 (1 / 10) false.

Ltac rdec := repeat match goal with
  | |- context [Rle_dec ?a ?b] => destruct (Rle_dec a b); [try (exfalso; cbn in *; lra)|try (exfalso; cbn in *; lra)]
  | |- context [Rgt_dec ?a ?b] => destruct (Rgt_dec a b); [try (exfalso; cbn in *; lra)|try (exfalso; cbn in *; lra)]
  end.

Lemma pol_left : left_of pol_X 0 (3 / 2) [0; 1; 2; 3] = [0; 1].
Proof. unfold left_of, pol_X. cbn [filter INR]. rdec; auto. Qed.
Lemma pol_right : right_of pol_X 0 (3 / 2) [0; 1; 2; 3] = [2; 3].
Proof. unfold right_of, pol_X. cbn [filter INR]. rdec; auto. Qed.

(** The policy tree on these units is built, and it does split: the split between units 1 and 2 gains 1/2. *)
Example C89_example_policy : exists b root, grow (preg_crit pol) env0 pol_g pol_X pol 4 1 = Ok b /\
  nth_error (b_nodes b) 0 = Some root /\ nd_left root <> Leaf.
Proof.
  assert (Hc : computes pol (weighted_n pol 4) (preg_crit pol) (preg_spec false pol (weighted_n pol 4)))
    by (constructor; constructor).
  assert (K : kept_samples pol 4 = [0; 1; 2; 3]) by reflexivity.
  destruct (@C91_builds _ _ _ _ env0 pol_g pol_X pol 4 1 Hc C96_sane) as (b & E & _ & L);
    [cbn; lia|rewrite K; discriminate|].
  destruct (b_nodes b) as [|root tl] eqn:Eb; [cbn in L; lia|]. exists b, root. split; auto. rewrite Eb. split; auto.
  intros HL.
  assert (Hr : ranking pol (weighted_n pol 4) (preg_crit pol) (preg_spec false pol (weighted_n pol 4))) by constructor.
  pose proof (@C89_best_splits _ _ _ _ env0 pol_g pol_X pol 4 1 b Hr C96_sane) as T.
  lapply T; clear T; [intros T|cbn; lia]. lapply T; clear T; [intros T|rewrite K; discriminate].
  lapply T; clear T; [intros T|intros; cbn; lra].
  specialize (T eq_refl (le_n 1) E 0 root). rewrite Eb in T. specialize (T eq_refl). cbv zeta in T. rewrite HL in T.
  destruct (@C91_depth _ _ _ _ env0 pol_g pol_X pol 4 1 b Hc C96_sane) as (_ & P & _);
    [cbn; lia|rewrite K; discriminate|auto|].
  destruct (@C91_nodes _ _ _ _ env0 pol_g pol_X pol 4 1 b Hc C96_sane) with (j := 0) (nd := root) as (_ & _ & _ & _ & I & _);
    [cbn; lia|rewrite K; discriminate|auto|now rewrite Eb|].
  specialize (I (fun _ _ => eq_refl)).
  rewrite Eb in P, I. rewrite passing_root in T, I by (intros x; destruct (P x) as (p & Hp & _); now exists p).
  rewrite K in T, I.
  assert (Im : nd_imp root = (alpha - 2 / 4)%R).
  { rewrite I. cbn [preg_spec cs_node d_out pol]. unfold kmax, wy_sum, w_sum, y_at, wt. cbn [d_out d_y d_w pol seq fold_left map].
    unfold pol_y. cbn. rdec; lra. }
  destruct T as (depth & D & T). 
  assert (depth = 0).
  { destruct (P (pol_X 0)) as (p & Hp & _). 
    pose proof Hp as Hp'. unfold tree_path in Hp'. cbn [length path_row nth] in Hp'. rewrite HL in Hp'. injection Hp' as <-.
    destruct (D _ _ Hp) as (p1 & p2 & Ep & Lp); [now left|]. destruct p1; [auto|]. cbn in Ep. injection Ep as _ Ep. destruct p1; discriminate. }
  subst depth. cbn [g_max_depth g_min_samples_split g_min_samples_leaf g_min_weight_leaf pol_g length] in T.
  assert (W : cs_wn (preg_spec false pol (weighted_n pol 4)) [0; 1; 2; 3] = 4%R)
    by (cbn [preg_spec cs_wn]; unfold w_sum, wt; cbn; lra).
  destruct T as [T|[T|[T|[T|[T|T]]]]]; try lia.
  - rewrite W in T. lra.
  - rewrite Im in T. unfold alpha, EPSILON in T.
    assert (/ 2 ^ 52 <= 1)%R by (rewrite <- Rinv_1; apply Rinv_le_contravar; [lra|]; apply pow_R1_Rle; lra). lra.
  - specialize (T 0 (3 / 2)%R ltac:(lia)). unfold allowed, separated in T. cbv zeta in T. rewrite pol_left, pol_right in T.
    lapply T; clear T; [intros T|]; [lapply T; clear T; [intros T|]|].
    + unfold gain in T. cbv zeta in T. rewrite pol_left, pol_right in T.
      cbn [preg_spec cs_improve cs_children fst snd] in T. unfold std_spec_improve in T.
      change ([0; 1] ++ [2; 3]) with [0; 1; 2; 3] in T.
      assert (W4 : w_sum pol [0; 1; 2; 3] = 4%R) by (unfold w_sum, wt; cbn; lra).
      assert (Wl : w_sum pol [0; 1] = 2%R) by (unfold w_sum, wt; cbn; lra).
      assert (Wr : w_sum pol [2; 3] = 2%R) by (unfold w_sum, wt; cbn; lra).
      assert (N4 : weighted_n pol 4 = 4%R) by (unfold weighted_n, wt; cbn; lra).
      assert (Ml : kmax 2 (wy_sum pol [0; 1]) = 2%R) by (unfold kmax, wy_sum, wt, y_at, pol_y; cbn; rdec; lra).
      assert (Mr : kmax 2 (wy_sum pol [2; 3]) = 2%R) by (unfold kmax, wy_sum, wt, y_at, pol_y; cbn; rdec; lra).
      cbn [d_out pol] in T. rewrite W4, Wl, Wr, N4, Ml, Mr, Im in T. cbn [g_min_decrease pol_g] in T.
      assert (0 < EPSILON)%R by (unfold EPSILON; apply Rinv_0_lt_compat, pow_lt; lra).
      lra.
    + intros i j Hi Hj. unfold pol_X, FT. cbn in Hi, Hj.
      destruct Hi as [<-|[<-|[]]], Hj as [<-|[<-|[]]]; cbn; lra.
    + repeat split; try discriminate; cbn; try lia; unfold w_sum, wt; cbn; lra.
Qed.

(** ** A causal tree: rows 0-3, treated rows 1 and 3 *)
Definition ct_x (i : nat) : list Z := if Nat.odd i then [1%Z] else [0%Z].
Definition ct_w (i f : nat) : R := INR i.
Definition ct_g : settings := ct_settings 1 1 2 3 0 false.

Lemma ct_treated : exists i, i < 4 /\ ct_x i = [1%Z].
Proof. exists 1. split; [lia|reflexivity]. Qed.

(** any outcomes: the fit succeeds, so C92, C93 and C95 speak about it *)
Example C92_example y : exists b, ct_fit env0 ct_g ct_w y ct_x [1%Z] [0%Z] 4 1 None = Ok b.
Proof.
  unfold ct_fit. set (d := ct_data y ct_x [1%Z] (ct_rows ct_x [1%Z] [0%Z] 4)).
  assert (Hc : computes d (weighted_n d 4) (honest_crit d) (causal_spec honest_impurity eps d))
    by (constructor; econstructor; reflexivity).
  destruct (@C91_builds _ _ _ _ env0 ct_g (ct_X ct_w (ct_rows ct_x [1%Z] [0%Z] 4)) d 4 1 Hc C96_sane) as (b & E & _).
  - cbn. lia.
  - intros K. assert (I : In 1 (kept_samples d 4)); [|rewrite K in I; destruct I].
    apply filter_In. split; [cbn; auto|]. cbn. destruct (Req_EM_T 1 0); [lra|reflexivity].
  - exists b. exact E.
Qed.

(** hence with constant outcome 3 the "effect" of every row is more than 3/2 *)
Example C92_example_no_effect : exists b, ct_fit env0 ct_g ct_w (fun _ => 3%R) ct_x [1%Z] [0%Z] 4 1 None = Ok b /\
  forall r, exists v, tree_predict 0%R b r = Ok v /\ (3 / 2 < v)%R.
Proof.
  destruct (C92_example (fun _ => 3%R)) as (b & E). exists b. split; auto. intros r.
  destruct (@C92_no_effect_refuted env0 ct_g ct_w (fun _ => 3%R) ct_x [1%Z] [0%Z] 4 1 b 3%R C96_sane) with (r := r)
    as (k & v & _ & H1 & _ & H2); auto; [exact ct_treated|lra|]. now exists v.
Qed.

(** the honest variant: rows 0-7, trained on 0-3, leaves filled from 4-7 *)
Example C92_example_honest y : exists b,
  ct_fit env0 ct_g ct_w y ct_x [1%Z] [0%Z] 8 1 (Some ([0; 1; 2; 3], [4; 5; 6; 7])) = Ok b /\
  exists k, In k [0; 1; 2; 3] /\ ct_x (nth k (ct_rows ct_x [1%Z] [0%Z] 8) 0) = [1%Z].
Proof.
  assert (R8 : ct_rows ct_x [1%Z] [0%Z] 8 = seq 0 8) by reflexivity.
  unfold ct_fit. rewrite R8. cbn [map nth seq].
  set (d := ct_data y ct_x [1%Z] [0; 1; 2; 3]).
  assert (Hc : computes d (weighted_n d 4) (honest_crit d) (causal_spec honest_impurity eps d))
    by (constructor; econstructor; reflexivity).
  destruct (@C91_builds _ _ _ _ env0 ct_g (ct_X ct_w [0; 1; 2; 3]) d 4 1 Hc C96_sane) as (b & E & _).
  - cbn. lia.
  - intros K. assert (I : In 1 (kept_samples d 4)); [|rewrite K in I; destruct I].
    apply filter_In. split; [cbn; auto|]. cbn. destruct (Req_EM_T 1 0); [lra|reflexivity].
  - change (length [0; 1; 2; 3]) with 4. rewrite E. cbn [bind]. eexists. split; [reflexivity|].
    exists 1. split; [cbn; auto|reflexivity].
Qed.

(** the hypotheses of C95_causal_refuted: outcomes 0, min_impurity_decrease 1/2 *)
Example C95_example : exists b root,
  ct_fit env0 (ct_settings 1 1 2 3 (1 / 2) false) ct_w (fun _ => 0%R) ct_x [1%Z] [0%Z] 4 1 None = Ok b /\
  nth_error (b_nodes b) 0 = Some root /\ nd_left root <> Leaf.
Proof.
  set (g := ct_settings 1 1 2 3 (1 / 2) false).
  assert (exists b, ct_fit env0 g ct_w (fun _ => 0%R) ct_x [1%Z] [0%Z] 4 1 None = Ok b) as (b & E).
  { unfold ct_fit. set (d := ct_data _ ct_x [1%Z] (ct_rows ct_x [1%Z] [0%Z] 4)).
    assert (Hc : computes d (weighted_n d 4) (honest_crit d) (causal_spec honest_impurity eps d))
      by (constructor; econstructor; reflexivity).
    destruct (@C91_builds _ _ _ _ env0 g (ct_X ct_w (ct_rows ct_x [1%Z] [0%Z] 4)) d 4 1 Hc C96_sane) as (b & E & _).
    - cbn. lia.
    - intros K. assert (I : In 1 (kept_samples d 4)); [|rewrite K in I; destruct I].
      apply filter_In. split; [cbn; auto|]. cbn. destruct (Req_EM_T 1 0); [lra|reflexivity].
    - exists b. exact E. }
  exists b.
  destruct (@C95_causal_refuted env0 g ct_w (fun _ => 0%R) ct_x [1%Z] [0%Z] 4 1 b C96_sane) as (root & R1 & R2 & _); auto;
    try (cbn; lia); try (cbn; lra).
  - exists 0, 2%R. 
    change (filter (fun k => zeqb [1%Z] (ct_x (nth k (ct_rows ct_x [1%Z] [0%Z] 4) 0)))
                   (seq 0 (length (ct_rows ct_x [1%Z] [0%Z] 4)))) with [1; 3].
    change (ct_rows ct_x [1%Z] [0%Z] 4) with [0; 1; 2; 3].
    assert (A : left_of (ct_X ct_w [0; 1; 2; 3]) 0 2 [1; 3] = [1]).
    { unfold left_of, ct_X, ct_w. cbn [filter nth INR]. rdec; auto. }
    assert (B : right_of (ct_X ct_w [0; 1; 2; 3]) 0 2 [1; 3] = [3]).
    { unfold right_of, ct_X, ct_w. cbn [filter nth INR]. rdec; auto. }
    unfold separated. rewrite A, B. split; [lia|]. split; [cbn; lia|]. split; [cbn; lia|].
    intros i j [<-|[]] [<-|[]]. unfold ct_X, ct_w, FT. cbn. lra.
  - now exists root.
Qed.
