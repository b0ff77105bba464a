(** Model of ylearn/estimator_model/_generalized_forest: BaseForest, BaseCausalForest (_base_forest.py), GRForest (_grf.py),
    GrfTree._fit_with_array and apply (tree/_grf_tree.py), GrfTreeBestFirstBuilder.build_ex (tree/_tree.pyx), and of
    inverse_grad in ylearn/estimator_model/utils.py.
    Numbers are exact reals; one outcome column.  The parameters of a tree are the resolved integers, except
    min_weight_fraction_leaf.  Parallel runs the trees independently, so the order does not matter. *)
From Coq Require Import ZArith Reals.
From Verif Require Import Base EstUtilsModel MetaModel TreeCritModel SplitterModel TreeSpec BestFirstModel GrfCritModel.
Unset Implicit Arguments.
Local Notation length := List.length.
Local Open Scope nat_scope.

(* ------------------------------------------------------------------------------------------------ *)
(** ** Surroundings, parameters, data, objects *)

Definition matrix := nat -> nat -> R.
(** numpy and Eigen: linear algebra; the k-th number randint(2^31 - 1) of RandomState(seed) (a call with size=k takes k
    numbers); RandomState(seed).choice(arange(n), size=k, replace=False); what a tree with this seed uses; the heap *)
Record fenv := mkEnv { v_la : linalg; v_inv : nat -> matrix -> res matrix; v_draw : Z -> nat -> nat;
                       v_choice : nat -> nat -> nat -> list nat; v_tree : nat -> surround; v_pick : list frec -> nat }.

Inductive numarg := NInt (z : Z) | NReal (r : R).
(** the constructor's arguments: n_estimators, sub_sample_num, honest_subsample_num, random_state, warm_start,
    min_weight_fraction_leaf, max_leaf_nodes; [fp_set n nf]: the other parameters of a tree with n samples, nf features *)
Record fparams := mkFp { fp_n : Z; fp_sub : option numarg; fp_honest : option numarg; fp_random : option Z; fp_warm : bool;
                         fp_mwf : R; fp_mln : option nat; fp_set : nat -> nat -> settings }.
(** the arrays of fit: samples, treatments, features; v = None: covariate=None *)
Record fdata := mkFd { fd_n : nat; fd_p : nat; fd_nf : nat; fd_y : nat -> R; fd_x : nat -> nat -> R; fd_v : option (nat -> nat -> R) }.

(** a fitted tree: its nodes, n_features_in_, and the array leaf_record of _fit (the node of every training row) *)
Record gtree := mkT { t_nodes : list node; t_nf : nat; t_rec : list nat }.
(** a GRForest object: arguments, random_state, estimators_, the arrays _y, _x, _v, _is_fitted *)
Record forest := mkF { o_par : fparams; o_random : Z; o_trees : option (list gtree); o_data : option fdata; o_fitted : bool }.

(** _base_forest.py:25-47 BaseForest.__init__ stores random_state (here 0 if None); base_models.py:24-39
    BaseEstModel.__init__(random_state=2022), called after it without random_state (_base_forest.py:252-257) *)
Definition base_forest_init (p : fparams) : forest := mkF p (match fp_random p with Some r => r | None => 0%Z end) None None false.
Definition base_est_init (random : option Z) (o : forest) : forest :=
  mkF (o_par o) (match random with Some r => r | None => 2022%Z end) (o_trees o) (o_data o) false.
Definition grf_init (p : fparams) : forest := base_est_init (Some 2022%Z) (base_forest_init p).

(* ------------------------------------------------------------------------------------------------ *)
(** ** fit *)

(** round of Python: to the nearest integer, halves to the even one *)
Definition py_round (r : R) : Z :=
  let z := Int_part r in
  if Rlt_dec (frac_part r) (1 / 2) then z
  else if Rlt_dec (1 / 2) (frac_part r) then (z + 1)%Z
  else if Z.even z then z else (z + 1)%Z.

(** _base_forest.py:485-497 _get_sub_samples_num *)
Definition sub_samples_num (n : nat) (sub : option numarg) : res Z :=
  match sub with
  | None => Ok (py_round (INR n * (85 / 100)))
  | Some (NInt k) => if (Z.of_nat n <? k)%Z then Err ValueError else Ok k
  | Some (NReal r) => Ok (py_round (INR n * r))
  end.
(** _base_forest.py:499-511 _get_honest_samples_num: self.honest_subsample does not exist *)
Definition honest_num (h : option numarg) (sub : Z) : res (option Z) :=
  match h with
  | None => Ok None
  | Some (NInt _) => Err AttributeError
  | Some (NReal r) => Ok (Some (py_round (r * IZR sub)))
  end.
(** _base_forest.py:98-101 _generate_sub_samples *)
Definition sub_samples (E : fenv) (seed n : nat) (k : Z) : res (list nat) :=
  if ((k <? 0) || (Z.of_nat n <? k))%Z%bool then Err ValueError else Ok (v_choice E seed n (Z.to_nat k)).

(** _grf_tree.py:342-346: min_weight_leaf, the only place where the sample weights enter; [s] are the training rows *)
Definition min_weight (p : fparams) (sw : option (nat -> R)) (s : list nat) : R :=
  (fp_mwf p * match sw with None => INR (length s) | Some w => fold_left (fun a i => a + w i) s 0 end)%R.
Definition with_min_weight (g : settings) (m : R) : settings :=
  mkSettings (g_max_features g) (g_min_samples_leaf g) m (g_min_samples_split g) (g_max_depth g) (g_min_decrease g) false.
Definition some_or {A} (o : option A) (a : A) : A := match o with Some b => b | None => a end.

(** _grf_tree.py:261-382 _fit_with_array on the rows s of the data, tree/_tree.pyx:15-36 build_ex (the weights are not
    passed on; bf_grow drops them).  Simplification: no rows is an error;
    the rows of v[s] past the end, which are never read, are those of s[0] here. *)
Definition grf_tree (E : fenv) (p : fparams) (d : fdata) (v : nat -> nat -> R) (sw : option (nat -> R)) (seed : nat) (s : list nat)
  : res (@bst (nat -> R)) :=
  match s with
  | [] => Err ValueError
  | r0 :: _ => let at_ i := nth i s r0 in
         bf_grow (grf_crit (v_la E) (fd_p d) (fun i => fd_x d (at_ i))) (v_tree E seed)
                 (with_min_weight (fp_set p (length s) (fd_nf d)) (min_weight p sw s)) (v_pick E) (some_or (fp_mln p) 1000)
                 (fun i => v (at_ i)) (mkData 1 (fun i => fd_y d (at_ i)) (option_map (fun w i => w (at_ i)) sw)) (length s) (fd_nf d)
  end.

(** _base_forest.py:575-577 leaf_record = zeros; leaf_record[idx] = v_pred *)
Definition leaf_record (n : nat) (idx preds : list nat) : list nat :=
  fold_left (fun r q => lset r (fst q) (snd q)) (combine idx preds) (repeat 0 n).

(** _base_forest.py:532-587 _fit: the tree of one seed on the sub-sample s.  Without honest sample the tree is grown on s and
    labelled with s, otherwise grown on s[h:] and labelled with s[:h] (simplification: h is not negative) *)
Definition grow_tree (E : fenv) (p : fparams) (d : fdata) (sw : option (nat -> R)) (h : option Z) (seed : nat) (s : list nat) : res gtree :=
  match fd_v d with
  | None => Err TypeError
  | Some v =>
      let train := match h with None => s | Some h => skipn (Z.to_nat h) s end in
      let idx := match h with None => s | Some h => firstn (Z.to_nat h) s end in
      do b <- grf_tree E p d v sw seed train;
      do preds <- mapX (fun i => tree_apply (b_nodes b) (v i)) idx;
      Ok (mkT (b_nodes b) (fd_nf d) (leaf_record (fd_n d) idx preds))
  end.

(** _base_forest.py:381-482 _fit_with_array, called by fit (281-319) and GRForest.fit (_grf.py:150-189, which sets
    adjustment to None) *)
Definition grf_fit (E : fenv) (d : fdata) (sw : option (nat -> R)) : M forest unit :=
  mdo _ <- mset (fun o => mkF (o_par o) (o_random o) (o_trees o) (Some d) (o_fitted o));
  mdo o <- mget;
  let p := o_par o in
  mdo sub <- mlift (sub_samples_num (fd_n d) (fp_sub p));
  mdo h <- mlift (honest_num (fp_honest p) sub);
  mdo _ <- mlift (if (fp_n p <=? 0)%Z then Err ValueError else Ok tt);
  let old := if fp_warm p then some_or (o_trees o) [] else [] in
  mdo _ <- mset (fun o => mkF (o_par o) (o_random o) (Some old) (o_data o) (o_fitted o));
  if (fp_n p <? Z.of_nat (length old))%Z then mlift (Err ValueError)
  else
    let seeds := map (v_draw E (o_random o)) (seq (length old) (Z.to_nat (fp_n p) - length old)) in
    mdo ss <- mlift (mapX (fun seed => sub_samples E seed (fd_n d) sub) seeds);
    mdo new <- mlift (mapX (fun q => grow_tree E p d sw h (fst q) (snd q)) (combine seeds ss));
    mset (fun o => mkF (o_par o) (o_random o) (Some (old ++ new)) (o_data o) true).

(* ------------------------------------------------------------------------------------------------ *)
(** ** estimate *)

Definition rsum_n (f : nat -> R) (n : nat) : R := fold_right Rplus 0%R (map f (seq 0 n)).

(** _base_forest.py:121-134 _prediction for one row: collect_all[leaf] are the rows recorded with this node (579-582).
    Indices of a tree grown on more rows than the present data are out of bounds. *)
Definition tree_alpha (t : gtree) (n nf : nat) (v : nat -> R) : res (nat -> R) :=
  if negb (t_nf t =? nf) then Err ValueError
  else
    do leaf <- tree_apply (t_nodes t) v;
    let index := filter (fun i => nth i (t_rec t) 0 =? leaf) (seq 0 (length (t_rec t))) in
    if existsb (fun i => n <=? i) index then Err IndexError
    else Ok (fun i => if existsb (Nat.eqb i) index then (1 / INR (length index))%R else 0%R).
(** _base_forest.py:589-607 _compute_alpha for one row: the mean over the trees *)
Definition forest_alpha (ts : list gtree) (n nf : nat) (v : nat -> R) : res (nat -> R) :=
  match ts with
  | [] => Err ValueError
  | _ => do al <- mapX (fun t => tree_alpha t n nf v) ts;
         Ok (fun i => (fold_right Rplus 0 (map (fun a => a i) al) / INR (length al))%R)
  end.
(** _base_forest.py:609-650 _compute_aug for one row *)
Definition x_dif (d : fdata) (al : nat -> R) (i j : nat) : R := (fd_x d i j - rsum_n (fun q => al q * fd_x d q j) (fd_n d))%R.
Definition grad_ (d : fdata) (al : nat -> R) : matrix :=
  fun j k => rsum_n (fun i => al i * (x_dif d al i j * x_dif d al i k))%R (fd_n d).
(** utils.py:35-42 inverse_grad *)
Definition inverse_grad (E : fenv) (p : nat) (g : matrix) : res matrix :=
  v_inv E p (fun j k => g j k + (if j =? k then 1 / 100000 else 0))%R.
Definition theta_ (d : fdata) (al : nat -> R) (j : nat) : R :=
  rsum_n (fun i => al i * (fd_y d i - al i * fd_y d i) * x_dif d al i j)%R (fd_n d).
(** _base_forest.py:526-530 __do_prepare4est for one row: one number per treatment *)
Definition row_estimate (E : fenv) (d : fdata) (ts : list gtree) (nf : nat) (v : nat -> R) : res (list R) :=
  do al <- forest_alpha ts (fd_n d) nf v;
  do g <- inverse_grad E (fd_p d) (grad_ d al);
  Ok (map (fun j => rsum_n (fun k => g j k * theta_ d al k)%R (fd_p d)) (seq 0 (fd_p d))).

(** range(0, len(v), batch_size): the slices v[i : i + batch_size] *)
Fixpoint batches {A} (fuel : nat) (size : nat) (l : list A) : list (list A) :=
  match fuel, l with
  | _, [] => []
  | O, _ => []
  | S k, _ => firstn size l :: batches k size (skipn size l)
  end.

(** _base_forest.py:321-336 estimate, 513-524 _check_features, _prepare4est; [data]: the number of covariate columns and the
    rows, None: the training data *)
Definition grf_estimate (E : fenv) (o : forest) (data : option (nat * list (nat -> R))) : res (list (list R)) :=
  if negb (o_fitted o) then Err AssertionError
  else match o_data o, o_trees o with
       | Some d, Some ts =>
           do q <- match data, fd_v d with
                   | Some q, _ => Ok q
                   | None, Some v => Ok (fd_nf d, map v (seq 0 (fd_n d)))
                   | None, None => Err TypeError
                   end;
           do a <- mapX (fun b => mapX (row_estimate E d ts (fst q)) b) (batches (length (snd q)) 100 (snd q));
           match a with [] => Err ValueError | _ => Ok (List.concat a) end
       | _, _ => Err AttributeError
       end.

(** _base_forest.py:341-361 apply: the trees are called with a keyword they do not have *)
Definition grf_apply (o : forest) (rows : list (nat -> R)) : res (list (list nat)) :=
  match o_trees o with
  | None => Err AttributeError
  | Some [] => Ok []
  | Some _ => Err TypeError
  end.
(** _base_forest.py:338-339, base_models.py:77-78 effect_nji *)
Definition grf_effect_nji : res (list (list R)) := Err NotImplementedError.

(** _base_forest.py:363-378 feature_importances_: self.n_features_in_ does not exist.  The division by np.sum = 0 (nan) is
    the real division here. *)
Definition grf_importances (o : forest) : res (list R) :=
  match o_trees o with
  | None => Err AttributeError
  | Some ts =>
      match filter (fun t => 1 <? length (t_nodes t)) ts with
      | [] => Err AttributeError
      | big => let imp := map (fun t => importances (t_nodes t) (t_nf t)) big in
               let mean j := (fold_right Rplus 0 (map (fun l => nth j l 0) imp) / INR (length imp))%R in
               let nf := fold_right Nat.max 0 (map (fun t => t_nf t) big) in
               let total := rsum_n mean nf in
               Ok (map (fun j => mean j / total)%R (seq 0 nf))
      end
  end.
