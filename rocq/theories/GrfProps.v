(** Theorems about the generalized random forest (GRForest): C160 - C163. *)
From Coq Require Import ZArith Reals Lra.
From Verif Require Import Base EstUtilsModel MetaModel TreeCritModel TreeCritProps SplitterModel SplitterSpec TreeSpec
  BestFirstModel BestFirstProps GrfCritModel GrfCritSpec GrfModel GrfSpec MetaProofs GrfProofs GrfExamples.
Unset Implicit Arguments.
Local Notation length := List.length.
Local Open Scope R_scope.

(* ------------------------------------------------------------------------------------------------ *)
(** ** C160: what fit and estimate compute *)

Lemma Forall2_weaken {A B} (P Q : A -> B -> Prop) l l' : (forall a b, P a b -> Q a b) -> Forall2 P l l' -> Forall2 Q l l'.
Proof. intros H. induction 1; constructor; auto. Qed.

(** fit succeeds and makes n_estimators trees, each grown on the growing part of its sub-sample; estimate then gives, for
    every row, the only solution of the regularised weighted normal equations with the weights of the forest - but with the
    right-hand side [rhs], not the documented one. *)
Theorem C160_estimate_partial E p d v sw m h :
  usable E -> proper p -> sizes p (fd_n d) m h -> enough (fd_n d) m h -> fd_v d = Some v ->
  let n := fd_n d in let N := Z.to_nat (fp_n p) in
  exists o nodes, grf_fit E d sw (grf_init p) = (o, Ok tt) /\
    (forall k, (k < N)%nat -> exists b, grf_tree E p d v sw (seed_of E k) (growing h (sample_of E n m k)) = Ok b /\ nodes k = b_nodes b) /\
    (forall xs, xs <> [] -> exists out, grf_estimate E o (Some (fd_nf d, xs)) = Ok out /\
       Forall2 (fun x theta => let w := weight_of E n m h v nodes N x in
          solves n (fd_p d) (fd_x d) w (rhs n (fd_x d) (fd_y d) w) theta /\
          forall theta', solves n (fd_p d) (fd_x d) w (rhs n (fd_x d) (fd_y d) w) theta' -> theta' = theta) xs out) /\
    ((1 <= n)%nat -> grf_estimate E o None = grf_estimate E o (Some (fd_nf d, map v (seq 0 n)))).
Proof.
  intros U P Hz Hn Hv n N. assert (HN : (1 <= N)%nat) by (destruct P as [P1 _]; unfold N; lia).
  destruct (fit_fresh E p d v sw m h U P Hn Hv (grf_init p) eq_refl eq_refl Hz (fun _ => eq_refl)) as (ts & Ef & F).
  exists (mkF p 2022 (Some ts) (Some d) true), (fun k => t_nodes (nth k ts (mkT [] 0 []))). split; [exact Ef|]. split; [|split].
  - fold n N in F. intros k Hk. assert (G : forall a N ts, Forall2 (fun k t => made E p d v sw h (seed_of E k) (sample_of E n m k) t) (seq a N) ts ->
      forall k, (k < N)%nat -> made E p d v sw h (seed_of E (a + k)) (sample_of E n m (a + k)) (nth k ts (mkT [] 0 []))).
    { clear. intros a N. revert a. induction N; intros a ts F k Hk; [lia|]. cbn [seq] in F. inversion F; subst.
      destruct k; cbn [nth]; [now rewrite Nat.add_0_r|]. specialize (IHN (S a) l' H3 k ltac:(lia)). now rewrite <- plus_n_Sm. }
    destruct (G 0%nat N ts F k Hk) as (b & f & Eb & En & _). exists b. auto.
  - intros xs Hx. destruct (forest_rows E p d v sw m h U Hn ts xs HN F) as (out & Eo & Fo). exists out. split.
    { rewrite estimate_rows by auto. exact Eo. }
    eapply Forall2_weaken; [|exact Fo]. intros x th Hs. cbv zeta in *. split; [exact Hs|]. intros th' Hs'.
    eapply solves_unique; [|exact Hs'|exact Hs]. intros i _. now apply forest_weight_nonneg.
  - intros H1. unfold grf_estimate. cbn [o_fitted negb o_data o_trees]. rewrite Hv. cbn [bind]. reflexivity.
Qed.
Print Assumptions C160_estimate_partial.

(** How far it is from the documented equations: if the weights sum to 1, the covariance with the outcome is short of
    the sum of w_i^2 y_i (t_i - mean). *)
Lemma centred_sum n t w j : total n w = 1 -> total n (fun i => w i * centred n t w i j) = 0.
Proof.
  intros H. unfold centred. set (c := total n (fun q => w q * t q j)).
  transitivity (total n (fun i => w i * t i j) - c * total n w); [|rewrite H; unfold c; lra].
  unfold total. rewrite <- Rsum_scale.
  assert (D : forall f g l, Rsum (map f l) - Rsum (map g l) = Rsum (map (fun a : nat => f a - g a) l)).
  { intros f g l. induction l; cbn [map]; rewrite ?Rsum_cons; [cbn; lra|]. rewrite <- IHl. ring. }
  rewrite D. apply Rsum_map_ext. intros; ring.
Qed.
Lemma total_minus n f g : total n f - total n g = total n (fun i => f i - g i).
Proof. unfold total. induction (seq 0 n) as [|a l IH]; cbn [map]; rewrite ?Rsum_cons; [cbn; lra|]. rewrite <- IH. ring. Qed.
Lemma total_scale n k f : total n (fun i => k * f i) = k * total n f.
Proof. apply Rsum_scale. Qed.
Lemma total_plus n f g : total n (fun i => f i + g i) = total n f + total n g.
Proof. apply Rsum_map_plus. Qed.

Theorem C160_gap_refuted n t y w j : total n w = 1 ->
  rhs n t y w j = documented n t y w j - total n (fun i => w i * w i * y i * centred n t w i j).
Proof.
  intros H. unfold documented. set (c := total n (fun q => w q * y q)).
  transitivity (total n (fun i => w i * centred n t w i j * (y i - c)) + c * total n (fun i => w i * centred n t w i j)
                - total n (fun i => w i * w i * y i * centred n t w i j)).
  - rewrite <- total_scale, <- total_plus, total_minus. unfold rhs. apply total_ext. intros; ring.
  - rewrite centred_sum by auto. lra.
Qed.
Print Assumptions C160_gap_refuted.

(** If k rows share the weight equally and the outcome is a + tau * treatment without noise, the estimate is tau times
    (1 - 1/k) V / (V + 1e-5), where V is the variance of the treatment; the documented equations give tau V / (V + 1e-5). *)
Theorem C160_attenuated_refuted n t y w k tau a theta :
  (forall i, (i < n)%nat -> w i = 1 / INR k \/ w i = 0) -> total n w = 1 ->
  (forall i, (i < n)%nat -> w i <> 0 -> y i = a + tau * t i 0%nat) ->
  let V := total n (fun i => w i * (centred n t w i 0 * centred n t w i 0)) in
  0 <= V /\
  (solves n 1 t w (rhs n t y w) [theta] <-> theta = (1 - 1 / INR k) * (tau * V / (V + 1 / 100000))) /\
  (solves n 1 t w (documented n t y w) [theta] <-> theta = tau * V / (V + 1 / 100000)).
Proof.
  intros W S Y V.
  assert (V0 : 0 <= V).
  { apply Rsum_nonneg. intros i Hi. apply in_seq in Hi. apply Rmult_le_pos; [|apply Rle_0_sqr].
    assert (Hn : (i < n)%nat) by lia. destruct (W i Hn) as [-> | ->]; [apply inv_INR_nonneg|lra]. }
  assert (Sq : forall b, solves n 1 t w b [theta] <-> (V + 1 / 100000) * theta = b 0%nat).
  { assert (M : moment n t w 0 0 = V + 1 / 100000).
    { unfold moment. cbn [Nat.eqb]. unfold V. f_equal. apply total_ext. intros; ring. }
    assert (T : times 1 (moment n t w) (fun k => nth k [theta] 0) 0 = (V + 1 / 100000) * theta).
    { unfold times. cbn [seq map]. rewrite Rsum_cons, M. cbn [Rsum fold_right nth]. lra. }
    intros b. unfold solves. split.
    - intros [_ H]. rewrite <- T. apply H. lia.
    - intros H. split; [reflexivity|]. intros j Hj. assert (j = 0%nat) as -> by lia. now rewrite T. }
  assert (CT : total n (fun i => w i * centred n t w i 0 * t i 0%nat) = V).
  { set (c := total n (fun q => w q * t q 0%nat)).
    transitivity (V + c * total n (fun i => w i * centred n t w i 0)); [|rewrite centred_sum by auto; lra].
    unfold V. rewrite <- total_scale, <- total_plus. apply total_ext. intros i _. unfold centred. fold c. ring. }
  assert (CY : total n (fun i => w i * centred n t w i 0 * y i) = tau * V).
  { transitivity (a * total n (fun i => w i * centred n t w i 0) + tau * total n (fun i => w i * centred n t w i 0 * t i 0%nat)).
    - rewrite <- !total_scale, <- total_plus. apply total_ext. intros i Hi. destruct (Req_EM_T (w i) 0) as [Z|Z]; [rewrite Z; ring|].
      rewrite Y by auto. ring.
    - rewrite centred_sum, CT by auto. lra. }
  assert (D : documented n t y w 0 = tau * V).
  { rewrite <- CY. unfold documented. set (c := total n (fun q => w q * y q)).
    transitivity (total n (fun i => w i * centred n t w i 0 * y i) - c * total n (fun i => w i * centred n t w i 0)).
    - rewrite <- total_scale, total_minus. apply total_ext. intros; ring.
    - rewrite centred_sum by auto. lra. }
  assert (Rh : rhs n t y w 0 = (1 - 1 / INR k) * (tau * V)).
  { rewrite C160_gap_refuted, D by auto. rewrite <- CY at 2.
    replace (total n (fun i => w i * w i * y i * centred n t w i 0)) with (1 / INR k * total n (fun i => w i * centred n t w i 0 * y i)).
    - rewrite CY. lra.
    - rewrite <- total_scale. apply total_ext. intros i Hi. destruct (W i Hi) as [-> | ->]; ring. }
  split; [exact V0|]. rewrite !Sq, D, Rh. clear - V0. set (q := 1 / INR k). clearbody q V. split; split; intros H.
  - apply Rmult_eq_reg_l with (V + 1 / 100000); [|lra]. rewrite H. field. lra.
  - rewrite H. field. lra.
  - apply Rmult_eq_reg_l with (V + 1 / 100000); [|lra]. rewrite H. field. lra.
  - rewrite H. field. lra.
Qed.
Print Assumptions C160_attenuated_refuted.

(* ------------------------------------------------------------------------------------------------ *)
(** ** C161: the weights *)

(** the trees of the forest *)
Definition trees_of (E : fenv) (p : fparams) (d : fdata) (v : nat -> nat -> R) (sw : option (nat -> R)) (m : nat) (h : option nat) (nodes : nat -> list node) : Prop :=
  forall k, (k < Z.to_nat (fp_n p))%nat ->
  exists b, grf_tree E p d v sw (seed_of E k) (growing h (sample_of E (fd_n d) m k)) = Ok b /\ nodes k = b_nodes b.

Lemma total_ind n c l : NoDup l -> (forall i, In i l -> (i < n)%nat) ->
  total n (fun i => if existsb (Nat.eqb i) l then c else 0) = c * INR (length l).
Proof.
  intros ND Hl. transitivity (c * INR (length (filter (fun i => existsb (Nat.eqb i) l) (seq 0 n)))).
  - unfold total. induction (seq 0 n) as [|a q IH]; cbn [map filter]; [cbn; lra|]. rewrite Rsum_cons, IH.
    destruct (existsb (Nat.eqb a) l); [|lra]. cbn [length]. rewrite S_INR. lra.
  - f_equal. f_equal. apply Permutation_length. apply NoDup_Permutation; [apply NoDup_filter, seq_NoDup|auto|].
    intros i. rewrite filter_In, existsb_in, in_seq. split; [tauto|]. intros H. split; [|auto]. specialize (Hl i H). lia.
Qed.

Lemma Rsum_const {A} c (l : list A) : Rsum (map (fun _ => c) l) = c * INR (length l).
Proof. induction l as [|a l IH]; [cbn; lra|]. cbn [map length]. rewrite Rsum_cons, IH, S_INR. lra. Qed.

Definition counted (nodes : list node) (v : nat -> nat -> R) (rows : list nat) (x : nat -> R) : R :=
  if (length nodes =? 1)%nat then 1 else match neighbours nodes v rows x with [] => 0 | _ => 1 end.
Lemma tree_total n nodes v rows x : (1 <= n)%nat -> NoDup rows -> (forall i, In i rows -> (i < n)%nat) ->
  total n (tree_weight n nodes v rows x) = counted nodes v rows x.
Proof.
  intros Hn ND Hr. unfold counted, tree_weight. destruct (length nodes =? 1)%nat.
  - unfold total. rewrite Rsum_const, seq_length. field. apply not_0_INR. lia.
  - unfold share. rewrite total_ind.
    + destruct (neighbours nodes v rows x); [cbn; lra|]. field. apply not_0_INR. cbn. lia.
    + now apply NoDup_filter.
    + intros i Hi. apply filter_In in Hi. now apply Hr.
Qed.

Theorem C161_weights_partial E p d v sw m h nodes :
  usable E -> proper p -> enough (fd_n d) m h -> fd_v d = Some v -> trees_of E p d v sw m h nodes ->
  let n := fd_n d in let N := Z.to_nat (fp_n p) in
  forall x, let w := weight_of E n m h v nodes N x in
  (forall i, 0 <= w i) /\
  (** the weights of all rows: the share of the trees in whose leaf there is a labelling row *)
  total n w = mean (fun k => if (length (nodes k) =? 1)%nat then 1
                             else match neighbours (nodes k) v (labelling h (sample_of E n m k)) x with [] => 0 | _ => 1 end) (seq 0 N) /\
  (** without honest_subsample_num this is 1 *)
  (h = None -> total n w = 1) /\
  (** rows that label no tree count only through trees that are a single node *)
  (forall i, (forall k, (k < N)%nat -> length (nodes k) <> 1%nat /\ ~ In i (labelling h (sample_of E n m k))) -> w i = 0).
Proof.
  intros U P Hn Hv T n N x w. assert (HN : (1 <= N)%nat) by (destruct P as [P1 _]; unfold N; lia).
  assert (H1 : (1 <= n)%nat) by (destruct Hn as [A B]; fold n in A; destruct h; lia).
  assert (S : total n w = mean (fun k => counted (nodes k) v (labelling h (sample_of E n m k)) x) (seq 0 N)).
  { unfold w, weight_of, mean. transitivity (total n (fun i => Rsum (map (fun k => tree_weight n (nodes k) v (labelling h (sample_of E n m k)) x i) (seq 0 N))) / INR (length (seq 0 N))).
    - unfold Rdiv, total. rewrite <- Rsum_scale_r. reflexivity.
    - f_equal. unfold total. rewrite Rsum_swap. apply Rsum_map_ext. intros k _.
      destruct (labels_ok E d m h U Hn k) as [L1 L2]. rewrite <- (tree_total n) by auto. reflexivity. }
  split; [|split; [exact S|split]].
  - intros i. unfold w, weight_of, mean. apply Rmult_le_pos; [|apply Rlt_le, Rinv_0_lt_compat, lt_0_INR; rewrite seq_length; lia].
    apply Rsum_nonneg. intros; apply tree_weight_nonneg.
  - intros Hh. rewrite S. unfold mean. transitivity (Rsum (map (fun _ => 1) (seq 0 N)) / INR (length (seq 0 N))).
    + f_equal. apply Rsum_map_ext. intros k Hk. apply in_seq in Hk. unfold counted.
      destruct (length (nodes k) =? 1)%nat; [reflexivity|]. destruct (T k ltac:(unfold N in *; lia)) as (b & Eb & ->).
      destruct (sample_ok E d m h U Hn k) as (_ & _ & _ & S4). destruct (grf_tree_ok E p d v sw (seed_of E k) U P _ S4) as (b' & Eb' & G).
      fold n in Eb, Eb'. rewrite Eb in Eb'. injection Eb' as <-. destruct (G x) as (j & J1 & _ & i & I1 & I2). subst h. cbn [growing labelling] in *.
      destruct (neighbours _ _ _ _) eqn:En; [|reflexivity]. exfalso.
      assert (In i (neighbours (b_nodes b) v (sample_of E n m k) x)); [|rewrite En in H; destruct H].
      unfold neighbours. rewrite J1. apply filter_In. split; [exact I1|]. unfold leaf_is. rewrite I2. apply Nat.eqb_refl.
    + rewrite Rsum_const, seq_length. field. apply not_0_INR. lia.
  - intros i Hi. unfold w, weight_of, mean. rewrite Rsum_map_0; [lra|]. intros k Hk. apply in_seq in Hk. destruct (Hi k ltac:(lia)) as [A B].
    unfold tree_weight. destruct (Nat.eqb_spec (length (nodes k)) 1); [contradiction|]. unfold share.
    destruct (existsb _ _) eqn:Ex; [|reflexivity]. apply existsb_in in Ex. apply filter_In in Ex. tauto.
Qed.
Print Assumptions C161_weights_partial.

(** A tree that is a single node - max_leaf_nodes = 1 makes every tree one - gives every row of the data the weight 1/n, also
    the rows outside its sub-sample: the record of the leaves starts as zeros, and 0 is the root. *)
Lemma single_node E p d v sw seed s b : usable E -> proper p -> fp_mln p = Some 1%nat -> grf_tree E p d v sw seed s = Ok b -> length (b_nodes b) = 1%nat.
Proof.
  intros U P M. destruct s as [|r0 s]; [discriminate|]. unfold grf_tree. rewrite M. cbn [some_or]. set (l := r0 :: s). intros Eb.
  match type of Eb with bf_grow ?mk ?e ?g ?pick ?M ?X ?dd ?n ?nf = _ =>
    destruct (@C97_max_leaf_nodes _ _ mk (grf_spec (v_la E) (fd_p d) (fun i => fd_x d (nth i l r0)) (without_weights dd)) e g pick M X dd n nf)
      as (b' & Eb' & A & B & _) end.
  - constructor. apply rk_grf; [reflexivity|apply U].
  - apply U.
  - apply U.
  - destruct P as (_ & P2 & _). apply P2.
  - cbn; lia.
  - lia.
  - rewrite Eb in Eb'. injection Eb' as <-. lia.
Qed.
Theorem C161_single_node_refuted E p d v sw m h nodes :
  usable E -> proper p -> fd_v d = Some v -> trees_of E p d v sw m h nodes -> fp_mln p = Some 1%nat ->
  forall x i, weight_of E (fd_n d) m h v nodes (Z.to_nat (fp_n p)) x i = 1 / INR (fd_n d).
Proof.
  intros U P Hv T M x i. assert (HN : (1 <= Z.to_nat (fp_n p))%nat) by (destruct P as [P1 _]; lia).
  unfold weight_of, mean. transitivity (Rsum (map (fun _ => 1 / INR (fd_n d)) (seq 0 (Z.to_nat (fp_n p)))) / INR (length (seq 0 (Z.to_nat (fp_n p))))).
  - f_equal. apply Rsum_map_ext. intros k Hk. apply in_seq in Hk. destruct (T k ltac:(lia)) as (b & Eb & ->).
    unfold tree_weight. now rewrite (single_node _ _ _ _ _ _ _ _ U P M Eb).
  - rewrite Rsum_const, seq_length. set (c := 1 / INR (fd_n d)). field. apply not_0_INR. lia.
Qed.
Print Assumptions C161_single_node_refuted.
