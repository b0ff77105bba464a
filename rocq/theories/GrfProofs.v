(** Lemmas about GrfModel.v for GrfProps.v. *)
From Coq Require Import ZArith Reals Lra.
From Verif Require Import Base EstUtilsModel MetaModel TreeCritModel TreeCritProps SplitterModel SplitterSpec TreeSpec SplitterProofs TreeShape
  TreeProps BestFirstModel BestFirstProofs BestFirstShape BestFirstProps GrfCritModel GrfCritSpec GrfModel GrfSpec MetaProofs.
Unset Implicit Arguments.
Local Notation length := List.length.
Local Open Scope nat_scope.

(* ------------------------------------------------------------------------------------------------ *)
(** ** round *)

Lemma py_round_nearest r : nearest r (py_round r).
Proof.
  unfold nearest, py_round. pose proof (base_fp r) as [F1 F2]. assert (E : r = (IZR (Int_part r) + frac_part r)%R) by (unfold frac_part; lra).
  set (z := Int_part r) in *. set (f := frac_part r) in *.
  destruct (Rlt_dec f (1 / 2)); [|destruct (Rlt_dec (1 / 2) f); [|destruct (Z.even z) eqn:Ez]]; rewrite ?plus_IZR.
  - rewrite Rabs_left1 by lra. split; [lra|]. intros. exfalso; lra.
  - rewrite Rabs_right by lra. split; [lra|]. intros. exfalso; lra.
  - rewrite Rabs_left1 by lra. split; [lra|auto].
  - rewrite Rabs_right by lra. split; [lra|]. intros _. rewrite Z.add_1_r, Z.even_succ, <- Z.negb_even, Ez. reflexivity.
Qed.
Lemma abs_half a : (Rabs a <= 1 / 2)%R -> (-1 / 2 <= a <= 1 / 2)%R.
Proof. unfold Rabs. destruct (Rcase_abs a); lra. Qed.
Lemma nearest_unique r z z' : nearest r z -> nearest r z' -> z = z'.
Proof.
  intros [A1 A2] [B1 B2]. apply abs_half in A1, B1.
  assert (D : (IZR (z - z') <= 1)%R) by (rewrite minus_IZR; lra). assert (D' : (-1 <= IZR (z - z'))%R) by (rewrite minus_IZR; lra).
  change 1%R with (IZR 1) in D. change (-1)%R with (IZR (-1)) in D'. apply le_IZR in D, D'.
  destruct (Z.eq_dec z z') as [|N]; [auto|]. exfalso.
  assert (C : (z = z' + 1 \/ z' = z + 1)%Z) by lia. destruct C as [C|C]; subst.
  - rewrite plus_IZR in A1, A2. assert (Z.even (z' + 1) = true) by (apply A2; unfold Rabs; destruct Rcase_abs; lra).
    assert (Z.even z' = true) by (apply B2; unfold Rabs; destruct Rcase_abs; lra).
    rewrite Z.add_1_r, Z.even_succ, <- Z.negb_even in H. destruct (Z.even z'); discriminate.
  - rewrite plus_IZR in B1, B2. assert (Z.even (z + 1) = true) by (apply B2; unfold Rabs; destruct Rcase_abs; lra).
    assert (Z.even z = true) by (apply A2; unfold Rabs; destruct Rcase_abs; lra).
    rewrite Z.add_1_r, Z.even_succ, <- Z.negb_even in H. destruct (Z.even z); discriminate.
Qed.
Lemma round_to r z : nearest r z -> py_round r = z.
Proof. intros H. eapply nearest_unique; [apply py_round_nearest|auto]. Qed.

(* ------------------------------------------------------------------------------------------------ *)
(** ** One tree *)

(** what is used of the nodes of a tree grown on the rows s: apply ends in a leaf that holds a row of s, and it is the root
    only if there is no other node *)
Definition grown (nodes : list node) (v : nat -> nat -> R) (s : list nat) : Prop :=
  forall x, exists j, tree_apply nodes x = Ok j /\ (length nodes = 1 <-> j = 0) /\ exists i, In i s /\ tree_apply nodes (v i) = Ok j.

Lemma bf_leaf_root C V (mk : data -> crit C V) sp e g pick M X d n nf b :
  let u := without_weights d in
  computes u (weighted_n u n) (mk u) sp -> sane e -> takes_largest pick -> 1 <= g_min_samples_leaf g -> 1 <= n -> 1 <= M ->
  bf_grow mk e g pick M X d n nf = Ok b ->
  forall x, exists j, tree_apply (b_nodes b) x = Ok j /\ (length (b_nodes b) = 1 <-> j = 0) /\
    exists i, i < n /\ tree_apply (b_nodes b) (X i) = Ok j.
Proof.
  intros u H1 H2 H3 H4 H5 H6 E x. destruct (@bf_grow_inv _ _ mk sp e g pick M X d n nf b H1 H2 H3 H4 H5 H6 E) as (S & D & bu & I).
  destruct (bf_tree_path I x) as (p & j & _ & A1 & A2 & A3 & _). exists j. split; [auto|].
  destruct (nth_error (b_nodes b) j) as [nd|] eqn:Ej; [|apply nth_error_None in Ej; lia].
  pose proof (nth_error_nth _ _ node0 Ej) as En. split; [split; [lia|]|].
  - intros ->. destruct (Nat.le_gt_cases (length (b_nodes b)) 1) as [|G]; [lia|]. exfalso.
    destruct (v_parent I) with (j := 1) as (q & ndq & a & Q1 & Q2 & Q3); [lia|].
    assert (q = 0) as -> by (destruct Q2 as (_ & _ & Q2 & _); lia). assert (ndq = nd) by congruence. subst ndq.
    destruct Q2 as (Q2 & _). rewrite En in A3. congruence.
  - destruct (v_base I j Ej) as (B1 & B2 & B3 & B4 & B5).
    pose proof (@bf_leaf_at _ _ _ _ _ _ _ _ _ _ _ _ _ _ _ _ _ I j A2 A3) as L. rewrite <- L in B4.
    destruct (samples_at (b_nodes b) X j (seq 0 n)) as [|i l] eqn:Es; [congruence|].
    assert (Hi : In i (samples_at (b_nodes b) X j (seq 0 n))) by (rewrite Es; now left).
    unfold samples_at in Hi. apply filter_In in Hi. destruct Hi as [Hi Hj]. apply in_seq in Hi. exists i. split; [lia|].
    destruct (tree_apply (b_nodes b) (X i)) as [k|]; [|discriminate]. apply Nat.eqb_eq in Hj. congruence.
Qed.

Section One.
Variables (E : fenv) (p : fparams) (d : fdata) (v : nat -> nat -> R) (sw : option (nat -> R)) (seed : nat).
Hypotheses (U : usable E) (P : proper p).

Lemma mln_pos : 1 <= some_or (fp_mln p) 1000.
Proof. destruct P as (_ & _ & P3). destruct (fp_mln p) as [m|] eqn:Em; cbn; [auto|lia]. Qed.

Lemma grf_tree_ok s : s <> [] -> exists b, grf_tree E p d v sw seed s = Ok b /\ grown (b_nodes b) v s.
Proof.
  intros Hs. destruct s as [|r0 s]; [congruence|]. unfold grf_tree. set (l := r0 :: s). cbv zeta.
  set (X := fun i => v (nth i l r0)).
  set (dd := mkData 1 (fun i => fd_y d (nth i l r0)) (option_map (fun w i => w (nth i l r0)) sw)).
  set (mk := grf_crit (v_la E) (fd_p d) (fun i => fd_x d (nth i l r0))).
  set (g := with_min_weight _ _).
  assert (Hc : computes (without_weights dd) (weighted_n (without_weights dd) (length l)) (mk (without_weights dd))
                 (grf_spec (v_la E) (fd_p d) (fun i => fd_x d (nth i l r0)) (without_weights dd))).
  { constructor. apply rk_grf; [reflexivity|apply U]. }
  assert (Hg : 1 <= g_min_samples_leaf g) by (destruct P as (_ & P2 & _); apply P2). assert (Hl : 1 <= length l) by (cbn; lia).
  destruct (@bf_grow_ok _ _ mk _ (v_tree E seed) g (v_pick E) (some_or (fp_mln p) 1000) X dd (length l) (fd_nf d) Hc
              (us_tree E U seed) (us_pick E U) Hg Hl mln_pos) as (b & S & D & bu & Eb & _).
  exists b. split; [exact Eb|]. intros x.
  destruct (@bf_leaf_root _ _ mk _ (v_tree E seed) g (v_pick E) (some_or (fp_mln p) 1000) X dd (length l) (fd_nf d) b Hc
              (us_tree E U seed) (us_pick E U) Hg Hl mln_pos Eb x) as (j & J1 & J2 & i & I1 & I2).
  exists j. split; [auto|]. split; [auto|]. exists (nth i l r0). split; [now apply nth_In|exact I2].
Qed.

Lemma mapX_total' {X Y} (f : X -> res Y) l : (forall x, In x l -> exists y, f x = Ok y) -> exists ys, mapX f l = Ok ys.
Proof.
  induction l as [|x l IH]; intros H; cbn; [eauto|]. destruct (H x) as (y & ->); [now left|]. cbn.
  destruct IH as (ys & ->); [intros; apply H; now right|]. cbn. eauto.
Qed.

Lemma lset_nth {A} (l : list A) i j a dft : i < length l -> nth j (lset l i a) dft = if j =? i then a else nth j l dft.
Proof.
  intros H. pose proof (ne_lset l i j a) as N. apply Nat.ltb_lt in H. rewrite H, andb_true_r in N.
  destruct (j =? i).
  - now apply nth_error_nth.
  - destruct (nth_error l j) eqn:El; [rewrite (nth_error_nth _ _ _ El); now apply nth_error_nth|].
    rewrite !nth_overflow; [auto| |]; now apply nth_error_None.
Qed.
Lemma lset_length {A} (l : list A) i a : length (lset l i a) = length l.
Proof. revert i. induction l; intros [|i]; cbn; auto. Qed.

Lemma leaf_record_at (f : nat -> nat) n idx : (forall i, In i idx -> i < n) ->
  length (leaf_record n idx (map f idx)) = n /\
  forall i, i < n -> nth i (leaf_record n idx (map f idx)) 0 = if existsb (Nat.eqb i) idx then f i else 0.
Proof.
  unfold leaf_record. intros H.
  assert (G : forall l r, (forall i, In i l -> i < length r) ->
    length (fold_left (fun r q => lset r (fst q) (snd q)) (combine l (map f l)) r) = length r /\
    forall i, nth i (fold_left (fun r q => lset r (fst q) (snd q)) (combine l (map f l)) r) 0 =
              if existsb (Nat.eqb i) l then f i else nth i r 0).
  { induction l as [|a l IH]; intros r Hr; [cbn; auto|]. cbn [map combine fold_left fst snd].
    destruct (IH (lset r a (f a))) as [L N]. { intros i Hi. rewrite lset_length. apply Hr. now right. }
    rewrite lset_length in L. split; [auto|]. intros i. rewrite N. cbn [existsb].
    rewrite lset_nth by (apply Hr; now left). destruct (existsb (Nat.eqb i) l); [now rewrite orb_true_r|]. rewrite orb_false_r.
    destruct (i =? a) eqn:Ei; [apply Nat.eqb_eq in Ei; now subst|auto]. }
  destruct (G idx (repeat 0 n)) as [L N]. { intros i Hi. rewrite repeat_length. auto. }
  rewrite repeat_length in L. split; [auto|]. intros i Hi. rewrite N. destruct (existsb _ _); [auto|].
  clear. revert i. induction n; intros [|i]; cbn; auto.
Qed.

Definition hZ (h : option nat) : option Z := option_map Z.of_nat h.

Lemma grow_tree_ok h s : fd_v d = Some v -> (forall i, In i s -> i < fd_n d) -> growing h s <> [] ->
  exists b, grf_tree E p d v sw seed (growing h s) = Ok b /\ grown (b_nodes b) v (growing h s) /\
  exists f, (forall x, tree_apply (b_nodes b) x = Ok (f x)) /\
   grow_tree E p d sw (hZ h) seed s = Ok (mkT (b_nodes b) (fd_nf d) (leaf_record (fd_n d) (labelling h s) (map (fun i => f (v i)) (labelling h s)))).
Proof.
  intros Hv Hs Hg. destruct (grf_tree_ok (growing h s) Hg) as (b & Eb & Gb). exists b. split; [auto|]. split; [auto|].
  set (f := fun x => match tree_apply (b_nodes b) x with Ok j => j | Err _ => 0 end).
  assert (F : forall x, tree_apply (b_nodes b) x = Ok (f x)).
  { intros x. unfold f. destruct (Gb x) as (j & -> & _). reflexivity. }
  exists f. split; [exact F|]. unfold grow_tree. rewrite Hv.
  replace (match hZ h with None => s | Some h0 => skipn (Z.to_nat h0) s end) with (growing h s)
    by (destruct h; cbn; now rewrite ?Nat2Z.id).
  replace (match hZ h with None => s | Some h0 => firstn (Z.to_nat h0) s end) with (labelling h s)
    by (destruct h; cbn; now rewrite ?Nat2Z.id).
  rewrite Eb. cbn [bind].
  replace (mapX (fun i => tree_apply (b_nodes b) (v i)) (labelling h s)) with (Ok (map (fun i => f (v i)) (labelling h s))); [reflexivity|].
  clear - F. induction (labelling h s) as [|a l IH]; [reflexivity|]. cbn [mapX map]. now rewrite F, <- IH.
Qed.
End One.

(* ------------------------------------------------------------------------------------------------ *)
(** ** Weights *)

Lemma existsb_in i l : existsb (Nat.eqb i) l = true <-> In i l.
Proof. rewrite existsb_exists. split; [intros (x & H & E); apply Nat.eqb_eq in E; now subst|intros H; exists i; split; [auto|apply Nat.eqb_refl]]. Qed.
Lemma existsb_same i l l' : (In i l <-> In i l') -> existsb (Nat.eqb i) l = existsb (Nat.eqb i) l'.
Proof. intros H. apply eq_true_iff_eq. now rewrite !existsb_in. Qed.

Lemma tree_alpha_ok n nf nodes v (s rows : list nat) f x :
  grown nodes v s -> (forall x, tree_apply nodes x = Ok (f x)) -> NoDup rows -> (forall i, In i rows -> i < n) ->
  exists a, tree_alpha (mkT nodes nf (leaf_record n rows (map (fun i => f (v i)) rows))) n nf x = Ok a /\
    forall i, i < n -> a i = tree_weight n nodes v rows x i.
Proof.
  intros G F ND Hr. destruct (leaf_record_at (fun i => f (v i)) n rows Hr) as [L N].
  unfold tree_alpha. cbn [t_nf t_nodes t_rec]. rewrite Nat.eqb_refl. cbn [negb]. rewrite F. cbn [bind]. rewrite L.
  set (index := filter _ (seq 0 n)). replace (existsb (fun i => n <=? i) index) with false.
  2:{ symmetry. apply not_true_is_false. rewrite existsb_exists. intros (i & Hi & E). apply filter_In in Hi. destruct Hi as [Hi _].
      apply in_seq in Hi. apply Nat.leb_le in E. lia. }
  eexists. split; [reflexivity|]. intros i Hi. unfold tree_weight.
  destruct (G x) as (j & Ej & Rj & _). rewrite F in Ej. injection Ej as Ej.
  destruct (length nodes =? 1) eqn:El.
  - apply Nat.eqb_eq in El. pose proof (proj1 Rj El) as J0.
    assert (I0 : index = seq 0 n).
    { unfold index. apply filter_all. intros q Hq. apply in_seq in Hq. rewrite N by lia. rewrite Ej, J0.
      destruct (existsb (Nat.eqb q) rows); [|reflexivity]. destruct (G (v q)) as (j' & Ej' & Rj' & _). rewrite F in Ej'. injection Ej' as ->.
      apply Nat.eqb_eq. now apply Rj'. }
    rewrite I0, seq_length. replace (existsb (Nat.eqb i) (seq 0 n)) with true; [reflexivity|].
    symmetry. apply existsb_in. apply in_seq. lia.
  - apply Nat.eqb_neq in El. assert (J0 : j <> 0) by tauto. unfold share.
    assert (M : forall q, In q index <-> In q (neighbours nodes v rows x)).
    { intros q. unfold index, neighbours. rewrite !filter_In, F, Ej. unfold leaf_is. rewrite F. split.
      - intros [Hq Hn]. apply in_seq in Hq. rewrite N in Hn by lia. destruct (existsb (Nat.eqb q) rows) eqn:Eq.
        + split; [now apply existsb_in|exact Hn].
        + apply Nat.eqb_eq in Hn. congruence.
      - intros [Hq Hn]. pose proof (Hr q Hq). split; [apply in_seq; lia|]. rewrite N by lia.
        replace (existsb (Nat.eqb q) rows) with true; [exact Hn|]. symmetry. now apply existsb_in. }
    assert (Pm : Permutation index (neighbours nodes v rows x)).
    { apply NoDup_Permutation; [apply NoDup_filter, seq_NoDup|apply NoDup_filter; auto|exact M]. }
    rewrite (Permutation_length Pm). rewrite (existsb_same i index (neighbours nodes v rows x) (M i)). reflexivity.
Qed.

(* ------------------------------------------------------------------------------------------------ *)
(** ** fit *)

Lemma sizes_sub p n m h : sizes p n m h -> m <= n -> sub_samples_num n (fp_sub p) = Ok (Z.of_nat m).
Proof.
  intros [H _] L. unfold sub_samples_num. destruct (fp_sub p) as [[k|r]|].
  - subst k. destruct (Z.ltb_spec (Z.of_nat n) (Z.of_nat m)); [lia|reflexivity].
  - now rewrite (round_to _ _ H).
  - now rewrite (round_to _ _ H).
Qed.
Lemma sizes_honest p n m h : sizes p n m h -> honest_num (fp_honest p) (Z.of_nat m) = Ok (hZ h).
Proof.
  intros [_ H]. unfold honest_num. destruct (fp_honest p) as [[k|r]|], h as [h|]; try contradiction; [|reflexivity].
  rewrite <- INR_IZR_INZ. now rewrite (round_to _ _ H).
Qed.

Definition fresh_trees (o : forest) : list gtree := if fp_warm (o_par o) then some_or (o_trees o) [] else [].

(** the trees of numbers a, a + 1, ..., N - 1 *)
Definition new_trees (E : fenv) (p : fparams) (d : fdata) (sw : option (nat -> R)) (m : nat) (h : option nat) (a N : nat) (ts : list gtree) : Prop :=
  Forall2 (fun k t => grow_tree E p d sw (hZ h) (seed_of E k) (sample_of E (fd_n d) m k) = Ok t) (seq a (N - a)) ts.

Lemma forall2_mapX {X Y} (f : X -> res Y) l ys : Forall2 (fun x y => f x = Ok y) l ys -> mapX f l = Ok ys.
Proof. induction 1; cbn; [auto|]. now rewrite H, IHForall2. Qed.
Lemma combine_map {A B C} (f : A -> B) (g : A -> C) l : combine (map f l) (map g l) = map (fun a => (f a, g a)) l.
Proof. induction l; cbn; congruence. Qed.
Lemma mapX_map {X Y Z} (f : Y -> res Z) (g : X -> Y) l : mapX f (map g l) = mapX (fun x => f (g x)) l.
Proof. induction l; cbn; [auto|]. now rewrite IHl. Qed.

Lemma samples_ok E n m seeds : m <= n -> mapX (fun seed => sub_samples E seed n (Z.of_nat m)) seeds = Ok (map (fun seed => v_choice E seed n m) seeds).
Proof.
  intros L. induction seeds as [|s l IH]; [reflexivity|]. cbn [mapX map]. unfold sub_samples at 1.
  destruct (Z.ltb_spec (Z.of_nat m) 0); [lia|]. destruct (Z.ltb_spec (Z.of_nat n) (Z.of_nat m)); [lia|]. cbn [orb bind].
  rewrite IH, Nat2Z.id. reflexivity.
Qed.

Section Fit.
Variables (E : fenv) (d : fdata) (sw : option (nat -> R)) (o : forest) (m : nat) (h : option nat).
Let p := o_par o.
Let n := fd_n d.
Hypotheses (R : o_random o = 2022%Z) (Hz : sizes p n m h) (Hn : enough n m h) (HN : (1 <= fp_n p)%Z)
           (Hl : length (fresh_trees o) <= Z.to_nat (fp_n p)).

Lemma fit_run : grf_fit E d sw o =
  match mapX (fun k => grow_tree E p d sw (hZ h) (seed_of E k) (sample_of E n m k))
             (seq (length (fresh_trees o)) (Z.to_nat (fp_n p) - length (fresh_trees o))) with
  | Ok ts => (mkF p 2022 (Some (fresh_trees o ++ ts)) (Some d) true, Ok tt)
  | Err e => (mkF p 2022 (Some (fresh_trees o)) (Some d) (o_fitted o), Err e)
  end.
Proof.
  destruct Hn as [L _]. unfold grf_fit, mbind, mset, mget, mlift. cbn [o_par o_random o_trees o_data o_fitted].
  fold p n. rewrite (sizes_sub _ _ _ _ Hz L), (sizes_honest _ _ _ _ Hz).
  destruct (Z.leb_spec (fp_n p) 0); [lia|].
  change (if fp_warm p then some_or (o_trees o) [] else []) with (fresh_trees o).
  destruct (Z.ltb_spec (fp_n p) (Z.of_nat (length (fresh_trees o)))); [lia|]. rewrite R.
  rewrite samples_ok by auto. rewrite map_map, combine_map, mapX_map. cbn [fst snd]. fold (seed_of E).
  change (fun x : nat => grow_tree E p d sw (hZ h) (v_draw E 2022 x) (v_choice E (v_draw E 2022 x) n m))
    with (fun x : nat => grow_tree E p d sw (hZ h) (seed_of E x) (sample_of E n m x)).
  destruct (mapX _ _); reflexivity.
Qed.
End Fit.

(* ------------------------------------------------------------------------------------------------ *)
(** ** Sums, positive definite moments *)
Open Scope R_scope.

Lemma Rsum_map_ext {A} (f g : A -> R) l : (forall a, In a l -> f a = g a) -> Rsum (map f l) = Rsum (map g l).
Proof. intros H. f_equal. now apply map_ext_in. Qed.
Lemma Rsum_map_plus {A} (f g : A -> R) l : Rsum (map (fun a => f a + g a) l) = Rsum (map f l) + Rsum (map g l).
Proof. induction l; cbn; [lra|]. fold (Rsum (map (fun a => f a + g a) l)). rewrite IHl. fold (Rsum (map f l)) (Rsum (map g l)). lra. Qed.
Lemma Rsum_map_0 {A} (f : A -> R) l : (forall a, In a l -> f a = 0) -> Rsum (map f l) = 0.
Proof.
  induction l; intros H; [reflexivity|]. cbn [map]. rewrite Rsum_cons, H by (now left). rewrite IHl; [lra|]. intros; apply H; now right.
Qed.
Lemma Rsum_swap {A B} (f : A -> B -> R) l m :
  Rsum (map (fun a => Rsum (map (f a) m)) l) = Rsum (map (fun b => Rsum (map (fun a => f a b) l)) m).
Proof.
  induction l as [|a l IH]; cbn [map].
  - symmetry. now apply Rsum_map_0.
  - rewrite Rsum_cons, IH, <- Rsum_map_plus. apply Rsum_map_ext. intros b _. now rewrite Rsum_cons.
Qed.
Lemma Rsum_scale_r {A} (f : A -> R) k l : Rsum (map (fun i => f i * k) l) = Rsum (map f l) * k.
Proof. rewrite Rmult_comm, <- Rsum_scale. apply Rsum_map_ext. intros; ring. Qed.
Lemma Rsum_nonneg {A} (f : A -> R) l : (forall a, In a l -> 0 <= f a) -> 0 <= Rsum (map f l).
Proof.
  induction l; intros H; [cbn; lra|]. cbn [map]. rewrite Rsum_cons. assert (0 <= f a) by (apply H; now left).
  assert (0 <= Rsum (map f l)) by (apply IHl; intros; apply H; now right). lra.
Qed.
Lemma Rsum_zero {A} (f : A -> R) l : (forall a, In a l -> 0 <= f a) -> Rsum (map f l) = 0 -> forall a, In a l -> f a = 0.
Proof.
  induction l; intros H E b Hb; [destruct Hb|]. cbn [map] in E. rewrite Rsum_cons in E. assert (0 <= f a) by (apply H; now left).
  assert (0 <= Rsum (map f l)) by (apply Rsum_nonneg; intros; apply H; now right).
  destruct Hb as [->|Hb]; [lra|]. apply IHl; auto; [intros; apply H; now right|lra].
Qed.
Lemma sum_delta p (x : nat -> R) j : (j < p)%nat -> Rsum (map (fun k => (if (j =? k)%nat then 1 else 0) * x k) (seq 0 p)) = x j.
Proof.
  intros H. replace p with (j + S (p - j - 1))%nat by lia. rewrite seq_app, map_app, Rsum_app. cbn [seq map]. rewrite Rsum_cons.
  rewrite Nat.add_0_l, Nat.eqb_refl. rewrite Rsum_map_0, Rsum_map_0; [lra| |].
  - intros k Hk. apply in_seq in Hk. destruct (Nat.eqb_spec j k); [lia|lra].
  - intros k Hk. apply in_seq in Hk. destruct (Nat.eqb_spec j k); [lia|lra].
Qed.

Lemma times_moment n p t w x j : (j < p)%nat ->
  times p (moment n t w) x j = total n (fun i => w i * centred n t w i j * Rsum (map (fun k => centred n t w i k * x k) (seq 0 p))) + 1 / 100000 * x j.
Proof.
  intros H. unfold times, moment. set (c := centred n t w).
  transitivity (Rsum (map (fun k => total n (fun i => w i * c i j * (c i k * x k)) + 1 / 100000 * ((if (j =? k)%nat then 1 else 0) * x k)) (seq 0 p))).
  { apply Rsum_map_ext. intros k _. rewrite Rmult_plus_distr_r. f_equal.
    - unfold total. rewrite <- Rsum_scale_r. apply Rsum_map_ext. intros; ring.
    - destruct (j =? k)%nat; lra. }
  rewrite Rsum_map_plus, Rsum_scale, sum_delta by auto. f_equal. unfold total. rewrite Rsum_swap.
  apply Rsum_map_ext. intros i _. now rewrite Rsum_scale.
Qed.

Lemma moment_regular n p t w : (forall i, (i < n)%nat -> 0 <= w i) -> regular p (moment n t w).
Proof.
  intros W x Hx j Hj. set (c := centred n t w). set (L := fun i => Rsum (map (fun k => c i k * x k) (seq 0 p))).
  assert (Q : Rsum (map (fun j => times p (moment n t w) x j * x j) (seq 0 p)) = 0).
  { apply Rsum_map_0. intros k Hk. apply in_seq in Hk. rewrite Hx by lia. lra. }
  assert (Q' : Rsum (map (fun j => times p (moment n t w) x j * x j) (seq 0 p)) =
               total n (fun i => w i * (L i * L i)) + 1 / 100000 * Rsum (map (fun j => x j * x j) (seq 0 p))).
  { transitivity (Rsum (map (fun j => total n (fun i => w i * c i j * L i * x j) + 1 / 100000 * (x j * x j)) (seq 0 p))).
    { apply Rsum_map_ext. intros k Hk. apply in_seq in Hk. rewrite times_moment by lia. rewrite Rmult_plus_distr_r. f_equal; [|ring].
      unfold total. rewrite <- Rsum_scale_r. apply Rsum_map_ext. intros; reflexivity. }
    rewrite Rsum_map_plus, Rsum_scale. f_equal. unfold total. rewrite Rsum_swap. apply Rsum_map_ext. intros i _.
    transitivity (Rsum (map (fun a => w i * L i * (c i a * x a)) (seq 0 p))); [apply Rsum_map_ext; intros; ring|].
    rewrite Rsum_scale. fold (L i). ring. }
  rewrite Q' in Q.
  assert (0 <= total n (fun i => w i * (L i * L i))).
  { apply Rsum_nonneg. intros i Hi. apply in_seq in Hi. apply Rmult_le_pos; [apply W; lia|]. apply Rle_0_sqr. }
  assert (P : 0 <= Rsum (map (fun j => x j * x j) (seq 0 p))) by (apply Rsum_nonneg; intros; apply Rle_0_sqr).
  assert (Z : Rsum (map (fun j => x j * x j) (seq 0 p)) = 0) by lra.
  assert (x j * x j = 0). { apply (Rsum_zero (fun j => x j * x j) (seq 0 p)); [intros; apply Rle_0_sqr|auto|apply in_seq; lia]. }
  apply Rmult_integral in H0. lra.
Qed.

Lemma solves_unique n p t w b th th' : (forall i, (i < n)%nat -> 0 <= w i) -> solves n p t w b th -> solves n p t w b th' -> th = th'.
Proof.
  intros W [L S] [L' S'].
  assert (Z : forall j, (j < p)%nat -> nth j th 0 - nth j th' 0 = 0).
  { intros j Hj. apply (moment_regular n p t w W (fun j => nth j th 0 - nth j th' 0)); [|auto]. intros k Hk.
    transitivity (times p (moment n t w) (fun k => nth k th 0) k - times p (moment n t w) (fun k => nth k th' 0) k);
      [|rewrite S, S' by auto; lra]. unfold times. clear.
    assert (forall f g l, Rsum (map f l) - Rsum (map g l) = Rsum (map (fun a : nat => f a - g a) l)) as D.
    { intros f g l. induction l; cbn [map]; rewrite ?Rsum_cons; [cbn; lra|]. rewrite <- IHl. cbn beta. ring. }
    rewrite D. symmetry. apply Rsum_map_ext. intros; ring. }
  apply nth_ext with (d := 0) (d' := 0); [congruence|]. intros j Hj. assert (Hp : (j < p)%nat) by (rewrite <- L; exact Hj). specialize (Z j Hp). lra.
Qed.

(* ------------------------------------------------------------------------------------------------ *)
(** ** estimate *)

Lemma total_ext n f g : (forall i, (i < n)%nat -> f i = g i) -> total n f = total n g.
Proof. intros H. apply Rsum_map_ext. intros i Hi. apply in_seq in Hi. apply H. lia. Qed.
Lemma rsum_total f n : rsum_n f n = total n f.
Proof. reflexivity. Qed.

Lemma centred_ext n t w w' i j : (forall i, (i < n)%nat -> w i = w' i) -> centred n t w i j = centred n t w' i j.
Proof. intros H. unfold centred. f_equal. apply total_ext. intros q Hq. now rewrite H. Qed.
Lemma moment_ext n t w w' j k : (forall i, (i < n)%nat -> w i = w' i) -> moment n t w j k = moment n t w' j k.
Proof.
  intros H. unfold moment. f_equal. apply total_ext. intros i Hi. rewrite H by auto. now rewrite !(centred_ext n t w w') by auto.
Qed.
Lemma rhs_ext n t y w w' j : (forall i, (i < n)%nat -> w i = w' i) -> rhs n t y w j = rhs n t y w' j.
Proof. intros H. unfold rhs. apply total_ext. intros i Hi. rewrite H by auto. now rewrite (centred_ext n t w w') by auto. Qed.
Lemma times_ext p m m' x x' j : (j < p)%nat -> (forall j k, (j < p)%nat -> (k < p)%nat -> m j k = m' j k) -> (forall k, (k < p)%nat -> x k = x' k) ->
  times p m x j = times p m' x' j.
Proof. intros Hj H K. apply Rsum_map_ext. intros k Hk. apply in_seq in Hk. rewrite H, K by lia. reflexivity. Qed.

Lemma nth_map_seq f p k : (k < p)%nat -> nth k (map f (seq 0 p)) 0 = f k.
Proof.
  intros H. rewrite nth_indep with (d' := f 0%nat) by (now rewrite map_length, seq_length). rewrite map_nth, seq_nth by auto. now rewrite Nat.add_0_l.
Qed.

Lemma row_estimate_ok E d ts nf x al w : usable E -> forest_alpha ts (fd_n d) nf x = Ok al ->
  (forall i, (i < fd_n d)%nat -> al i = w i) -> (forall i, (i < fd_n d)%nat -> 0 <= w i) ->
  exists th, row_estimate E d ts nf x = Ok th /\ solves (fd_n d) (fd_p d) (fd_x d) w (rhs (fd_n d) (fd_x d) (fd_y d) w) th.
Proof.
  intros U A Ew W. unfold row_estimate. rewrite A. cbn [bind]. unfold inverse_grad.
  set (n := fd_n d) in *. set (p := fd_p d). set (t := fd_x d). set (y := fd_y d).
  set (m := fun j k => grad_ d al j k + (if (j =? k)%nat then 1 / 100000 else 0)).
  assert (M : forall j k, m j k = moment n t w j k).
  { intros j k. rewrite <- (moment_ext n t al w) by auto. unfold m, moment, grad_. f_equal. rewrite rsum_total. apply total_ext.
    intros i _. unfold x_dif, centred. rewrite !rsum_total. fold n t. ring. }
  assert (Rg : regular p m).
  { intros z Hz j Hj. apply (moment_regular n p t w W z); [|auto]. intros k Hk. rewrite <- (Hz k Hk). apply times_ext; auto. }
  destruct (us_inv E U p m Rg) as (g & Eg & Ig). rewrite Eg. cbn [bind]. eexists. split; [reflexivity|]. split.
  { now rewrite map_length, seq_length. }
  intros j Hj. destruct (Ig (theta_ d al) j Hj) as [_ I2].
  transitivity (times p m (times p g (theta_ d al)) j).
  { apply times_ext; auto. intros k Hk. rewrite nth_map_seq by auto. reflexivity. }
  rewrite I2. rewrite <- (rhs_ext n t y al w) by auto. unfold theta_, rhs. rewrite rsum_total. apply total_ext. intros i _.
  unfold x_dif, centred. rewrite rsum_total. fold n t y. ring.
Qed.

Lemma mapX_app {X Y} (f : X -> res Y) l l' : mapX f (l ++ l') = do a <- mapX f l; do b <- mapX f l'; Ok (a ++ b).
Proof.
  induction l as [|x l IH]; cbn [mapX app bind]. { now destruct (mapX f l'). }
  destruct (f x) as [y|]; cbn [bind]; [|reflexivity]. rewrite IH. destruct (mapX f l) as [a|]; cbn [bind]; [|reflexivity].
  destruct (mapX f l') as [b|]; reflexivity.
Qed.
Lemma batches_ok {X Y} (f : X -> res Y) size : (0 < size)%nat -> forall fuel l, (length l <= fuel)%nat ->
  (do a <- mapX (fun b => mapX f b) (batches fuel size l); Ok (List.concat a)) = mapX f l /\
  (l <> [] -> batches fuel size l <> []).
Proof.
  intros Hs. induction fuel as [|k IH]; intros l Hl.
  - destruct l; [cbn; split; [reflexivity|congruence]|cbn in Hl; lia].
  - destruct l as [|x l]; [cbn; split; [reflexivity|congruence]|]. cbn [batches]. split; [|discriminate].
    rewrite <- (firstn_skipn size (x :: l)) at 3. rewrite mapX_app. cbn [mapX].
    destruct (mapX f (firstn size (x :: l))) as [a|]; cbn [bind]; [|reflexivity].
    destruct (IH (skipn size (x :: l))) as [I _]. { rewrite skipn_length. cbn [length] in *. destruct size; lia. }
    rewrite <- I. destruct (mapX _ (batches k size _)) as [b|]; reflexivity.
Qed.

Definition with_rows (E : fenv) (o : forest) (nf : nat) (xs : list (nat -> R)) : res (list (list R)) :=
  match o_data o, o_trees o with Some d, Some ts => mapX (row_estimate E d ts nf) xs | _, _ => Err AttributeError end.
Lemma estimate_rows E o nf xs : o_fitted o = true -> xs <> [] -> grf_estimate E o (Some (nf, xs)) = with_rows E o nf xs.
Proof.
  intros F N. unfold grf_estimate, with_rows. rewrite F. cbn [negb]. destruct (o_data o) as [d|]; [|reflexivity].
  destruct (o_trees o) as [ts|]; [|reflexivity]. cbn [bind fst snd].
  destruct (@batches_ok _ _ (row_estimate E d ts nf) 100 ltac:(lia) (length xs) xs (le_n _)) as [B1 B2]. specialize (B2 N).
  rewrite <- B1. destruct (mapX _ (batches _ _ _)) as [a|] eqn:Ea; cbn [bind]; [|reflexivity].
  destruct a; [|reflexivity]. apply mapX_inv in Ea. inversion Ea. congruence.
Qed.

(* ------------------------------------------------------------------------------------------------ *)
(** ** The fitted forest *)

(** the tree t was grown on growing h s and labelled with labelling h s *)
Definition made (E : fenv) (p : fparams) (d : fdata) (v : nat -> nat -> R) (sw : option (nat -> R)) (h : option nat) (seed : nat) (s : list nat) (t : gtree) : Prop :=
  exists b f, grf_tree E p d v sw seed (growing h s) = Ok b /\ t_nodes t = b_nodes b /\ grown (b_nodes b) v (growing h s) /\
    (forall x, tree_apply (b_nodes b) x = Ok (f x)) /\
    t = mkT (b_nodes b) (fd_nf d) (leaf_record (fd_n d) (labelling h s) (map (fun i => f (v i)) (labelling h s))).

Lemma share_nonneg nodes w rows x i : 0 <= share nodes w rows x i.
Proof.
  unfold share. destruct (existsb _ _) eqn:Ex; [|lra]. apply existsb_in in Ex. unfold Rdiv. rewrite Rmult_1_l. apply Rlt_le, Rinv_0_lt_compat.
  apply lt_0_INR. destruct (neighbours nodes w rows x); [destruct Ex|cbn; lia].
Qed.
Lemma inv_INR_nonneg k : 0 <= 1 / INR k.
Proof.
  destruct k; [|unfold Rdiv; rewrite Rmult_1_l; apply Rlt_le, Rinv_0_lt_compat, lt_0_INR; lia].
  unfold Rdiv. cbn [INR]. rewrite RIneq.Rinv_0. lra.
Qed.
Lemma tree_weight_nonneg k nodes w rows x i : 0 <= tree_weight k nodes w rows x i.
Proof. unfold tree_weight. destruct (_ =? _)%nat; [apply inv_INR_nonneg|apply share_nonneg]. Qed.

Lemma firstn_In' {A} (a : A) k l : In a (firstn k l) -> In a l.
Proof. intros H. rewrite <- (firstn_skipn k l). apply in_or_app. now left. Qed.
Lemma firstn_NoDup' {A} k (l : list A) : NoDup l -> NoDup (firstn k l).
Proof. revert l. induction k; intros [|a l] H; cbn; try constructor; inversion H; subst; auto. intros I. apply firstn_In' in I. auto. Qed.

Section Forest.
Variables (E : fenv) (p : fparams) (d : fdata) (v : nat -> nat -> R) (sw : option (nat -> R)) (m : nat) (h : option nat).
Let n := fd_n d.
Hypotheses (U : usable E) (P : proper p) (Hn : enough n m h) (Hv : fd_v d = Some v).

Lemma sample_ok k : length (sample_of E n m k) = m /\ NoDup (sample_of E n m k) /\ (forall i, In i (sample_of E n m k) -> (i < n)%nat) /\
  growing h (sample_of E n m k) <> [].
Proof.
  destruct Hn as [L G]. destruct (us_choice E U (seed_of E k) n m L) as (A & B & C). fold (sample_of E n m k) in *.
  repeat split; auto. intros Z. apply (f_equal (@length nat)) in Z. destruct h as [k'|]; cbn [growing length] in Z; [rewrite skipn_length in Z|];
    rewrite A in Z; lia.
Qed.
Lemma labels_ok k : NoDup (labelling h (sample_of E n m k)) /\ (forall i, In i (labelling h (sample_of E n m k)) -> (i < n)%nat).
Proof.
  destruct (sample_ok k) as (_ & A & B & _). destruct h as [q|]; cbn [labelling]; [|auto]. split; [now apply firstn_NoDup'|].
  intros i Hi. apply B. eapply firstn_In'; eauto.
Qed.

Lemma trees_made a N : exists ts, mapX (fun k => grow_tree E p d sw (hZ h) (seed_of E k) (sample_of E n m k)) (seq a N) = Ok ts /\
  Forall2 (fun k t => made E p d v sw h (seed_of E k) (sample_of E n m k) t) (seq a N) ts.
Proof.
  revert a. induction N as [|N IH]; intros a; cbn [seq mapX]; [eauto|].
  destruct (sample_ok a) as (_ & _ & S3 & S4).
  destruct (grow_tree_ok E p d v sw (seed_of E a) U P h (sample_of E n m a) Hv S3 S4) as (b & Eb & Gb & f & Ef & Et).
  rewrite Et. cbn [bind]. destruct (IH (S a)) as (ts & -> & F). cbn [bind]. eexists. split; [reflexivity|]. constructor; [|auto].
  exists b, f. cbn [t_nodes]. auto.
Qed.

Lemma fit_fresh o : o_par o = p -> o_random o = 2022%Z -> sizes p n m h -> (fp_warm p = true -> o_trees o = None) ->
  exists ts, grf_fit E d sw o = (mkF p 2022 (Some ts) (Some d) true, Ok tt) /\
    Forall2 (fun k t => made E p d v sw h (seed_of E k) (sample_of E n m k) t) (seq 0 (Z.to_nat (fp_n p))) ts.
Proof.
  intros Ho Hr Hz Hw. assert (F0 : fresh_trees o = []).
  { unfold fresh_trees. rewrite Ho. destruct (fp_warm p); [now rewrite Hw|auto]. }
  destruct (trees_made 0 (Z.to_nat (fp_n p))) as (ts & Et & Fm). exists ts. split; [|auto].
  rewrite (fit_run E d sw o m h Hr); rewrite ?Ho; auto; [|destruct P; auto|rewrite F0; cbn; lia].
  rewrite F0. cbn [length app]. rewrite Nat.sub_0_r. fold n. now rewrite Et.
Qed.

Definition forest_weight (ts : list gtree) (N : nat) (x : nat -> R) (i : nat) : R :=
  weight_of E n m h v (fun k => t_nodes (nth k ts (mkT [] 0 []))) N x i.

Lemma made_alpha k t x : made E p d v sw h (seed_of E k) (sample_of E n m k) t ->
  exists a, tree_alpha t n (fd_nf d) x = Ok a /\ forall i, (i < n)%nat -> a i = tree_weight n (t_nodes t) v (labelling h (sample_of E n m k)) x i.
Proof.
  intros (b & f & Eb & _ & Gb & Ef & ->). destruct (labels_ok k) as [L1 L2]. cbn [t_nodes].
  eapply tree_alpha_ok; eauto.
Qed.

Lemma forest_alpha_ok ts N x : (1 <= N)%nat ->
  Forall2 (fun k t => made E p d v sw h (seed_of E k) (sample_of E n m k) t) (seq 0 N) ts ->
  exists al, forest_alpha ts n (fd_nf d) x = Ok al /\ forall i, (i < n)%nat -> al i = forest_weight ts N x i.
Proof.
  intros HN F.
  assert (G : forall a N ts, Forall2 (fun k t => made E p d v sw h (seed_of E k) (sample_of E n m k) t) (seq a N) ts ->
    exists al, mapX (fun t => tree_alpha t n (fd_nf d) x) ts = Ok al /\ length al = N /\
      forall i, (i < n)%nat -> map (fun f => f i) al =
        map (fun k => tree_weight n (t_nodes (nth (k - a) ts (mkT [] 0 []))) v (labelling h (sample_of E n m k)) x i) (seq a N)).
  { clear F ts HN N. intros a N. revert a. induction N as [|N IH]; intros a ts F; cbn [seq] in F; inversion F; subst.
    - exists []. cbn. auto.
    - destruct (made_alpha a y x H1) as (f & Ef & Hf). destruct (IH (S a) l' H3) as (al & Eal & Lal & Hal).
      exists (f :: al). cbn [mapX]. rewrite Ef. cbn [bind]. rewrite Eal. cbn [bind]. split; [reflexivity|]. split; [cbn; congruence|].
      intros i Hi. cbn [seq map]. rewrite Nat.sub_diag. cbn [nth]. rewrite Hf, Hal by auto. f_equal. apply map_ext_in.
      intros k Hk. apply in_seq in Hk. replace (k - a)%nat with (S (k - S a)) by lia. reflexivity. }
  destruct (G 0%nat N ts F) as (al & Eal & Lal & Hal). unfold forest_alpha.
  destruct ts as [|t ts]; [inversion F; destruct N; [lia|discriminate]|]. rewrite Eal. cbn [bind]. eexists. split; [reflexivity|].
  intros i Hi. cbn beta. unfold forest_weight, weight_of, mean. rewrite Hal by auto. rewrite Lal, seq_length. f_equal. unfold Rsum. f_equal.
  apply map_ext. intros k. now rewrite Nat.sub_0_r.
Qed.

Lemma forest_weight_nonneg ts N x i : (1 <= N)%nat -> 0 <= forest_weight ts N x i.
Proof.
  intros HN. unfold forest_weight, weight_of, mean. apply Rmult_le_pos; [|apply Rlt_le, Rinv_0_lt_compat, lt_0_INR; rewrite seq_length; lia].
  apply Rsum_nonneg. intros k _. apply tree_weight_nonneg.
Qed.

Lemma forest_rows ts xs : (1 <= Z.to_nat (fp_n p))%nat ->
  Forall2 (fun k t => made E p d v sw h (seed_of E k) (sample_of E n m k) t) (seq 0 (Z.to_nat (fp_n p))) ts ->
  exists out, mapX (row_estimate E d ts (fd_nf d)) xs = Ok out /\
    Forall2 (fun x th => let w := forest_weight ts (Z.to_nat (fp_n p)) x in
                         solves n (fd_p d) (fd_x d) w (rhs n (fd_x d) (fd_y d) w) th) xs out.
Proof.
  intros HN F. induction xs as [|x xs IH]; cbn [mapX]; [eauto|]. destruct (forest_alpha_ok ts _ x HN F) as (al & Eal & Hal).
  destruct (row_estimate_ok E d ts (fd_nf d) x al (forest_weight ts (Z.to_nat (fp_n p)) x) U Eal Hal) as (th & Eth & Sth).
  { intros. now apply forest_weight_nonneg. }
  rewrite Eth. cbn [bind]. destruct IH as (out & -> & Fo). cbn [bind]. eexists. split; [reflexivity|]. constructor; auto.
Qed.
End Forest.
