(** Specification for the effect interpreters. *)
From Coq Require Import ZArith Reals Lra String.
From Verif Require Import Base TreeCritModel SplitterModel TreeSpec PolicyModel RlossModel InterpModel.
Set Implicit Arguments.
Local Notation length := List.length.
Local Open Scope nat_scope.

(** what a printed condition says about a row of covariates *)
Definition true_of (l : line) (x : nat -> R) : Prop :=
  if ln_le l then (x (ln_feature l) <= ln_thr l)%R else (ln_thr l < x (ln_feature l))%R.
Definition meets (ls : list line) (x : nat -> R) : Prop := forall l, In l ls -> true_of l x.
Definition true_ofb (l : line) (x : nat -> R) : bool :=
  let c := if Rle_dec (x (ln_feature l)) (ln_thr l) then true else false in if ln_le l then c else negb c.
Definition meetsb (ls : list line) (x : nat -> R) : bool := forallb (fun l => true_ofb l x) ls.

(** the mean of f over a list of row numbers *)
Definition mean (f : nat -> R) (s : list nat) : R := (fold_right Rplus 0 (map f s) / INR (length s))%R.

(** the lines printed for row number i with covariates x are about that row, and true *)
Definition honest (i : nat) (x : nat -> R) (ls : list line) : Prop :=
  forall l, In l ls -> ln_row l = i /\ ln_value l = x (ln_feature l) /\ true_of l x.

(** a binary tree as sklearn builds it: every row ends in a leaf, every node is on the path of some training row, every inner node has
    two children (so there is one leaf more than inner nodes) *)
Record binary_tree (nodes : list node) (train : list (nat -> R)) : Prop := mkBT {
  bt_path : forall x, exists p, tree_path nodes x = Ok p;
  bt_used : forall j, j < length nodes -> exists x p, In x train /\ tree_path nodes x = Ok p /\ In j p;
  bt_leaves : length nodes + 1 = 2 * n_leaves nodes }.

(** the rows of [v] (numbered from 0) that meet the conditions *)
Definition who (ls : list line) (v : list (nat -> R)) : list nat :=
  filter (fun i => meetsb ls (nth i v (fun _ => 0%R))) (seq 0 (length v)).

Section Policy.
Variables (Frame Names T : Type).
Variable cols : Frame -> Names -> list (nat -> R).
Variable eff_cols : Frame -> Names -> effects.
Variable f32 : R -> R.
Notation args := (piargs Frame Names T).

(** the effects a call of fit is about: effect_array, else the columns effect=, else the estimator's *)
Definition the_effects (a : args) : option effects :=
  match pa_array a, pa_effect a, pa_est a with
  | Some ce, _, _ => Some ce
  | None, Some names, _ => Some (eff_cols (pa_data a) names)
  | None, None, Some m => Some (es_nji m (pa_data a))
  | None, None, None => None
  end.
(** does the policy come from effects the caller gave, or from those of the estimator? *)
Definition own_effects (a : args) : bool := match pa_array a, pa_effect a with None, None => false | _, _ => true end.
(** the covariates named by the call: covariate=, else those of the estimator *)
Definition named_cov (a : args) : option Names :=
  match pa_cov a with Some c => Some c | None => match pa_est a with Some m => es_cov m | None => None end end.
(** the covariate rows of a data frame as the interpreter sees them: the named columns if the effects are given; the
    estimator's columns, transformed, if they are the estimator's *)
Definition rows_of_frame (a : args) (df : Frame) : list (nat -> R) :=
  cast f32
    (if own_effects a then match named_cov a with Some c => cols df c | None => [] end
     else match pa_est a with
          | Some m => match es_cov m with
                      | Some c => match es_trans m with Some (_, t) => map t (cols df c) | None => cols df c end
                      | None => []
                      end
          | None => []
          end).
(** data=None means the training data *)
Definition rows_of_query (a : args) (q : option Frame) : list (nat -> R) :=
  rows_of_frame a match q with Some df => df | None => pa_data a end.
End Policy.

(** *** CEInterpreter *)
(** the training rows (by number) whose decision path goes through node j *)
Definition going (nodes : list node) (v : list (nat -> R)) (j : nat) : list nat :=
  filter (fun i => match tree_path nodes (nth i v (fun _ => 0%R)) with Ok p => existsb (Nat.eqb j) p | Err _ => false end) (seq 0 (length v)).

(** what sklearn promises about a fitted DecisionTreeRegressor: the number of features, a binary tree over the (float32) training rows *)
Definition sk_promise (f32 : R -> R) (sk_fit : mat -> list (list R) -> res stree) : Prop :=
  forall m eff t, sk_fit m eff = Ok t -> st_nf t = mt_w m /\ binary_tree (st_nodes t) (cast f32 (mt_rows m)).
(** ... and, with criterion squared_error: the value of a node is the mean of the targets of its training rows *)
Definition sk_means (f32 : R -> R) (sk_fit : mat -> list (list R) -> res stree) : Prop :=
  forall m eff t, sk_fit m eff = Ok t -> forall j, j < length (st_nodes t) ->
    nth j (st_values t) [] = map (fun k => mean (fun i => nth k (nth i eff []) 0%R) (going (st_nodes t) (cast f32 (mt_rows m)) j))
                                 (seq 0 (match eff with r :: _ => length r | [] => 0 end)).
(** a table: one row of w numbers for each of n rows *)
Definition table (n w : nat) (eff : list (list R)) : Prop := length eff = n /\ forall r, In r eff -> length r = w.

(** the covariates of a frame as the CEInterpreter sees them *)
Definition ce_rows (f32 : R -> R) (e : cest) (fr : frame) : res mat :=
  match ce_cov e with
  | None => Err AssertionError
  | Some cov => do m <- mat_cols fr cov;
                do m <- match ce_trans e with Some t => transform t m | None => Ok m end;
                Ok (mkMat (mt_w m) (cast f32 (mt_rows m)))
  end.
