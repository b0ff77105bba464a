(** Cross fitting, shared by the doubly robust and the double machine learning estimators: sklearn's KFold without
    shuffling and the loops of _cross_fit.  Learners are parameters (MetaModel.learner); numbers are exact reals. *)
From Coq Require Import ZArith Reals.
From Verif Require Import Base ApiModel EstUtilsModel MetaModel.
Set Implicit Arguments.
Local Notation length := List.length.

(** sklearn.model_selection.KFold(n_splits=k)._iter_test_indices: the sizes of the test folds *)
Definition fold_sizes (n k : nat) : list nat :=
  map (fun i => n / k + (if i <? n mod k then 1 else 0)) (seq 0 k).
(** start and end of the test folds *)
Fixpoint fold_bounds (start : nat) (sizes : list nat) : list (nat * nat) :=
  match sizes with
  | [] => []
  | s :: r => (start, start + s) :: fold_bounds (start + s) r
  end.
(** KFold(n_splits=k).split: (train indices, test indices); ValueError for fewer than two splits or fewer rows
    than splits *)
Definition kfold (n k : nat) : res (list (list nat * list nat)) :=
  if (k <? 2) || (n <? k) then Err ValueError
  else Ok (map (fun b => (seq 0 (fst b) ++ seq (snd b) (n - snd b), seq (fst b) (snd b - fst b)))
               (fold_bounds 0 (fold_sizes n k))).

(** array[ids] *)
Definition take_rows {A} (d : A) (ids : list nat) (l : list A) : list A := map (fun i => nth i l d) ids.

(** a 1-d target (n,) and its selection *)
Definition nd_vec (l : list R) : nd R := mkNd [length l] (fun idx => nth (nth 0 idx 0) l 0%R).

(** out[ids] = values, where values has one row per id, in order *)
Definition put_rows {A} (out : nat -> A) (ids : list nat) (values : nat -> A) : nat -> A :=
  fun r => match index_of r ids with Some p => values p | None => out r end.
