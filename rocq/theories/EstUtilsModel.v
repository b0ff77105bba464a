(** Model of ylearn/estimator_model/utils.py: work partition, one-hot decoding, cartesian products, group
    selection, leaf counts, row-wise Kronecker products.  Array entries are exact integers. *)
From Coq Require Import ZArith.
From Verif Require Import Base ApiModel.
Set Implicit Arguments.
Local Notation length := List.length.

(** a loop over a list whose body may raise *)
Fixpoint mapX {X Y} (f : X -> res Y) (l : list X) : res (list Y) :=
  match l with [] => Ok [] | x :: r => do y <- f x ; do ys <- mapX f r ; Ok (y :: ys) end.

(* ------------------------------------------------------------------------------------------------ *)
(** ** _partition_estimators *)

(** np.cumsum *)
Fixpoint np_cumsum (acc : nat) (l : list nat) : list nat :=
  match l with [] => [] | x :: r => (acc + x) :: np_cumsum (acc + x) r end.

(** [a[:k] += 1] *)
Definition incr_prefix (k : nat) (l : list nat) : list nat := map S (firstn k l) ++ skipn k l.

(** ylearn/estimator_model/utils.py:9-19 _partition_estimators.  [eff] is joblib.effective_n_jobs(n_jobs)
    (joblib itself is not modelled; it returns an integer >= 1).  With n_estimators = 0 the Python
    [n_estimators // n_jobs] divides by zero. *)
Definition partition_estimators (n_estimators eff : nat) : res (nat * list nat * list nat) :=
  let n_jobs := Nat.min eff n_estimators in
  if n_jobs =? 0 then Err ZeroDivisionError
  else
    let per := incr_prefix (n_estimators mod n_jobs) (repeat (n_estimators / n_jobs) n_jobs) in
    Ok (n_jobs, per, 0 :: np_cumsum 0 per).

(* ------------------------------------------------------------------------------------------------ *)
(** ** n-dimensional arrays: a shape and the value at every multi-index *)

Record nd (A : Type) := mkNd { nd_shape : list nat; nd_at : list nat -> A }.

(** all multi-indices of a shape in C (row-major) order *)
Fixpoint indices (sh : list nat) : list (list nat) :=
  match sh with
  | [] => [[]]
  | n :: r => flat_map (fun i => map (cons i) (indices r)) (seq 0 n)
  end.

(** the flat data of an array in C order (what reshape reads) *)
Definition nd_ravel {A} (a : nd A) : list A := map (nd_at a) (indices (nd_shape a)).

(** numpy [.T]: all axes reversed *)
Definition nd_T {A} (a : nd A) : nd A := mkNd (rev (nd_shape a)) (fun idx => nd_at a (rev idx)).

(** exchange of the first two axes (np.meshgrid, indexing='xy', and ndim > 1) *)
Definition swap01 {A} (l : list A) : list A :=
  match l with a :: b :: r => b :: a :: r | _ => l end.

(** np.meshgrid(a_0, ..., a_{N-1}) with the default indexing='xy': N arrays, all of shape
    swap01 [len a_0; ...]; the j-th has at index idx the entry of a_j selected by the axis of j, which is
    coordinate j of swap01 idx. *)
Definition meshgrid {A} (d : A) (arrays : list (list A)) : list (nd A) :=
  map (fun j => mkNd (swap01 (map (@List.length A) arrays))
                     (fun idx => nth (nth j (swap01 idx) 0) (nth j arrays []) d))
      (seq 0 (length arrays)).

(** np.array of a list of arrays of one shape: a new leading axis *)
Definition np_array {A} (d : A) (l : list (nd A)) : nd A :=
  mkNd (length l :: match l with [] => [] | a :: _ => nd_shape a end)
       (fun idx => match idx with [] => d | i :: r => nd_at (nth i l (mkNd [] (fun _ => d))) r end).

(** consecutive rows of length [n] *)
Fixpoint chunks {A} (fuel n : nat) (l : list A) : list (list A) :=
  match fuel with
  | O => []
  | S k => match l with [] => [] | _ => firstn n l :: chunks k n (skipn n l) end
  end.

(** [.reshape(-1, n)]: C-order data cut in rows of n; with n = 0 numpy raises ValueError. *)
Definition reshape_rows {A} (n : nat) (data : list A) : res (list (list A)) :=
  if n =? 0 then Err ValueError
  else if length data mod n =? 0 then Ok (chunks (length data) n data) else Err ValueError.

(** ylearn/estimator_model/utils.py:54-57 cartesian (entries of one dtype: no casting) *)
Definition cartesian {A} (d : A) (arrays : list (list A)) : res (list (list A)) :=
  reshape_rows (length arrays) (nd_ravel (nd_T (np_array d (meshgrid d arrays)))).

(* ------------------------------------------------------------------------------------------------ *)
(** ** One-hot decoding and groups *)

(** np.dot(row, arange) *)
Fixpoint dot_arange (j : nat) (row : list Z) : Z :=
  match row with [] => 0%Z | x :: r => (x * Z.of_nat j + dot_arange (S j) r)%Z end.

(** ylearn/estimator_model/utils.py:156-157 convert4onehot: one integer per row *)
Definition convert4onehot (x : list (list Z)) : list Z := map (dot_arange 0) x.

(** a[label] for a boolean label: rows where it is true; a label of another length is an IndexError *)
Fixpoint bool_select {A} (label : list bool) (a : list A) : list A :=
  match label, a with
  | b :: lr, x :: ar => if b then x :: bool_select lr ar else bool_select lr ar
  | _, _ => []
  end.
Definition bool_index {A} (label : list bool) (a : list A) : res (list A) :=
  if length label =? length a then Ok (bool_select label a) else Err IndexError.

(** a == target broadcast along the rows, reduced by np.all(axis=1): a target of one entry is compared with
    every column, a target with one entry per column columnwise; other lengths do not broadcast. *)
Definition row_matches (target row : list Z) : res bool :=
  match target with
  | [t] => Ok (forallb (Z.eqb t) row)
  | _ => if length target =? length row then Ok (list_eqb target row) else Err ValueError
  end.

(** ylearn/estimator_model/utils.py:160-173 get_groups(target, a, one_hot, *arrays), for one extra array
    (the loop treats the arrays one by one and independently).  With one_hot the target is one integer. *)
Definition get_groups {A} (target : list Z) (a : list (list Z)) (one_hot : bool) (array : list A)
  : res (list A) :=
  do label <- (if one_hot
               then match target with
                    | [t] => Ok (map (Z.eqb t) (convert4onehot a))
                    | _ => Err ValueError
                    end
               else mapX (row_matches target) a);
  bool_index label array.

(** ylearn/estimator_model/utils.py:45-51 check_classes: None stays None; otherwise the positions of the
    class.  The assertion fails for an unknown class. *)
Definition check_classes {A} {EA : EqDec A} (target : option A) (classes : option (list A))
  : res (option (list nat)) :=
  match target with
  | None => Ok None
  | Some t =>
      match classes with
      | None => Err AssertionError
      | Some cs =>
          if mem t cs
          then Ok (Some (map fst (filter (fun p => eqb t (snd p)) (combine (seq 0 (length cs)) cs))))
          else Err AssertionError
      end
  end.

(* ------------------------------------------------------------------------------------------------ *)
(** ** count_leaf_num *)

(** insertion in a strictly increasing list *)
Fixpoint uinsert (x : Z) (l : list Z) : list Z :=
  match l with
  | [] => [x]
  | y :: r => if (x <? y)%Z then x :: l else if (x =? y)%Z then l else y :: uinsert x r
  end.
(** np.unique(y): the sorted distinct values *)
Definition np_unique (l : list Z) : list Z := fold_right uinsert [] l.

(** np.unique(..., return_counts=True) *)
Definition np_counts (vals l : list Z) : list nat := map (fun v => length (filter (Z.eqb v) l)) vals.

(** ylearn/estimator_model/utils.py:22-33 count_leaf_num: [num[y_train == value]] reads the tiled counts in
    row-major order at the true entries of the n x k comparison matrix. *)
Definition count_leaf_num (y : list Z) : list nat :=
  let value := np_unique y in
  let num := np_counts value y in
  flat_map (fun yi => bool_select (map (Z.eqb yi) value) num) y.

(* ------------------------------------------------------------------------------------------------ *)
(** ** nd_kron *)

(** np.kron of two vectors *)
Definition kron (x y : list Z) : list Z := flat_map (fun a => map (Z.mul a) y) x.

(** ylearn/estimator_model/utils.py:130-135 nd_kron *)
Definition nd_kron (x y : list (list Z)) : res (list (list Z)) :=
  if length x =? length y then Ok (map (fun p => kron (fst p) (snd p)) (combine x y))
  else Err AssertionError.

(* ------------------------------------------------------------------------------------------------ *)
(** ** get_wv *)

(** np.concatenate(arrays, axis=1): no array is a ValueError, as are different numbers of rows *)
Definition hcat {A} (l : list (list (list A))) : res (list (list A)) :=
  match l with
  | [] => Err ValueError
  | a :: r =>
      if forallb (fun b => length b =? length a) r
      then Ok (fold_left (fun acc b => map (fun p => fst p ++ snd p) (combine acc b)) r a)
      else Err ValueError
  end.

(** ylearn/estimator_model/utils.py:72-73 get_wv: None arguments are skipped *)
Definition get_wv {A} (l : list (option (list (list A)))) : res (list (list A)) :=
  hcat (flat_map (fun o => match o with None => [] | Some a => [a] end) l).
