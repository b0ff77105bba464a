(** Model of ylearn/estimator_model/causal_tree.py, class CausalTree: fit on arrays, the honest re-estimation of
    the leaves, estimate and effect_nji.  One outcome column (see C61_outputs_refuted for more); the parameters
    max_depth, min_samples_leaf, min_samples_split, max_features are the resolved integers.  The random partition
    of train_test_split is a parameter. *)
From Coq Require Import ZArith Reals Lra.
From Verif Require Import Base TreeCritModel SplitterModel TreeSpec.
Set Implicit Arguments.
Local Notation length := List.length.
Open Scope R_scope.

(** causal_tree.py:735-738 _tr, _crtl, label: the rows whose encoded treatment vector equals treat or control *)
Definition zeqb (a b : list Z) : bool := if list_eq_dec Z.eq_dec a b then true else false.
Definition ct_rows (x : nat -> list Z) (treat control : list Z) (n : nat) : list nat :=
  filter (fun i => zeqb treat (x i) || zeqb control (x i))%bool (seq 0 n).

(** causal_tree.py:739-741 y[label], wv[label], sample_weight = _tr[label].astype(int); [sel] are the rows *)
Definition ct_data (y : nat -> R) (x : nat -> list Z) (treat : list Z) (sel : list nat) : data :=
  mkData 1 (fun k => y (nth k sel 0%nat)) (Some (fun k => if zeqb treat (x (nth k sel 0%nat)) then 1 else 0)).
Definition ct_X (wv : nat -> nat -> R) (sel : list nat) : nat -> nat -> R := fun k => wv (nth k sel 0%nat).

(** causal_tree.py:826, 841, 863-865: min_samples_split = max(min_samples_split, 2 * min_samples_leaf),
    min_weight_fraction_leaf = 0.0, max_leaf_nodes = None (depth-first builder) *)
Definition ct_settings (max_features msl mss max_depth : nat) (mid : R) (random : bool) : settings :=
  mkSettings max_features msl 0 (Nat.max mss (2 * msl)) max_depth mid random.

(** causal_tree.py:435-449 _assign_honest_values: for each leaf that test samples reach, the difference of the
    means when both groups are present.  (np.unique also sorts the leaves; each is written once.) *)
Definition mean (l : list R) : R := fold_left Rplus l 0 / INR (length l).
Definition leaf_of (nodes : list node) (row : nat -> R) : nat :=
  match tree_apply nodes row with Ok k => k | Err _ => length nodes end.
Definition honest_values (nodes : list node) (values : list R) (wv : nat -> nat -> R) (y : nat -> R)
           (x : nat -> bool) (test : list nat) : list R :=
  fold_left (fun vals j =>
               let sub := filter (fun i => Nat.eqb (leaf_of nodes (wv i)) j) test in
               let tr := map y (filter x sub) in
               let ct := map y (filter (fun i => negb (x i)) sub) in
               match tr, ct with
               | [], _ => vals
               | _, [] => vals
               | _, _ => lset vals j (mean tr - mean ct)
               end)
            (nodup Nat.eq_dec (map (fun i => leaf_of nodes (wv i)) test)) values.

(** causal_tree.py:714-948 _fit_with_array from the encoded treatments on: [honest] is None, or the train and
    test rows (positions in the selected rows) *)
Definition ct_fit (e : surround) (g : settings) (wv : nat -> nat -> R) (y : nat -> R) (x : nat -> list Z)
           (treat control : list Z) (n nf : nat) (honest : option (list nat * list nat)) : res (@bst R) :=
  let sel := ct_rows x treat control n in
  match honest with
  | None => let d := ct_data y x treat sel in
            grow (honest_crit d) e g (ct_X wv sel) d (length sel) nf
  | Some (train, test) =>
      let pick ks := map (fun k => nth k sel 0%nat) ks in
      let d := ct_data y x treat (pick train) in
      do b <- grow (honest_crit d) e g (ct_X wv (pick train)) d (length train) nf ;
      Ok (mkBst (b_nodes b)
                (honest_values (b_nodes b) (b_values b) wv y (fun i => zeqb treat (x i)) (pick test))
                (b_spl b) (b_max b))
  end.

(** causal_tree.py:499-516 _get_honest_samples_num: the constructor stores honest_subsample_num only, the test
    for integers reads self.honest_subsample *)
Inductive hnum := HNone | HInt (k : Z) | HReal (q : R).
Definition honest_num (h : hnum) : res (option R) :=
  match h with
  | HNone => Ok None
  | HInt _ => Err AttributeError
  | HReal q => if Rge_dec q 1 then Err ValueError else if Rlt_dec q 0 then Err ValueError else Ok (Some q)
  end.

(** causal_tree.py:401-431 estimate: effects of the rows; for "ATE" and "CATE" the mean is computed and dropped
    (None is Python's None) *)
Definition ct_estimate (ate_or_cate : bool) (b : @bst R) (rows : list (nat -> R)) : res (option (list R)) :=
  do effect <- fold_left (fun acc r => do l <- acc ; do v <- tree_predict 0 b r ; Ok (l ++ [v])) rows (Ok []) ;
  Ok (if ate_or_cate then None else Some effect).

(** causal_tree.py:485-491 effect_nji: one row per sample, [0; effect] along the last axis *)
Definition ct_effect_nji (b : @bst R) (rows : list (nat -> R)) : res (list (list R)) :=
  do effect <- fold_left (fun acc r => do l <- acc ; do v <- tree_predict 0 b r ; Ok (l ++ [v])) rows (Ok []) ;
  Ok (map (fun v => [0; v]) effect).
