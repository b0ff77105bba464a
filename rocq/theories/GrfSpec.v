(** Vocabulary of the theorems about the generalized random forest (GrfProps.v). *)
From Coq Require Import ZArith Reals Lra.
From Verif Require Import Base MetaModel TreeCritModel TreeCritProps SplitterModel SplitterSpec TreeSpec BestFirstModel BestFirstProps
  GrfCritModel GrfCritSpec GrfModel.
Unset Implicit Arguments.
Local Notation length := List.length.
Local Open Scope nat_scope.

(* ------------------------------------------------------------------------------------------------ *)
(** ** What is assumed of numpy, Eigen and the heap *)

(** a square matrix that maps only zero to zero; a left inverse *)
Definition times (p : nat) (m : matrix) (x : nat -> R) (j : nat) : R := Rsum (map (fun k => m j k * x k)%R (seq 0 p)).
Definition regular (p : nat) (m : matrix) : Prop :=
  forall x, (forall j, j < p -> times p m x j = 0%R) -> forall j, j < p -> x j = 0%R.
Definition inverse_of (p : nat) (g m : matrix) : Prop :=
  forall x j, j < p -> times p g (times p m x) j = x j /\ times p m (times p g x) j = x j.

Record usable (E : fenv) : Prop := {
  us_solve : order_free (v_la E);
  us_inv : forall p m, regular p m -> exists g, v_inv E p m = Ok g /\ inverse_of p g m;
  us_choice : forall seed n k, k <= n ->
    length (v_choice E seed n k) = k /\ NoDup (v_choice E seed n k) /\ forall i, In i (v_choice E seed n k) -> i < n;
  us_tree : forall seed, sane (v_tree E seed);
  us_pick : takes_largest (v_pick E) }.

(** sensible parameters of the trees *)
Definition proper (p : fparams) : Prop :=
  (1 <= fp_n p)%Z /\ (forall n nf, 1 <= g_min_samples_leaf (fp_set p n nf)) /\ (forall m, fp_mln p = Some m -> 1 <= m).

(* ------------------------------------------------------------------------------------------------ *)
(** ** Sub-samples *)

(** z is the integer nearest to r, the even one of two *)
Definition nearest (r : R) (z : Z) : Prop :=
  (Rabs (IZR z - r) <= 1 / 2)%R /\ ((Rabs (IZR z - r) = 1 / 2)%R -> Z.even z = true).

(** m is the size of the sub-sample of each tree, h the number of its rows that only label the tree (None: all rows grow
    and label) *)
Definition sizes (p : fparams) (n m : nat) (h : option nat) : Prop :=
  match fp_sub p with
  | None => nearest (INR n * (85 / 100)) (Z.of_nat m)
  | Some (NInt k) => k = Z.of_nat m
  | Some (NReal r) => nearest (INR n * r) (Z.of_nat m)
  end /\
  match fp_honest p, h with
  | None, None => True
  | Some (NReal r), Some h => nearest (r * INR m) (Z.of_nat h)
  | _, _ => False
  end.
Definition growing (h : option nat) (s : list nat) : list nat := match h with None => s | Some h => skipn h s end.
Definition labelling (h : option nat) (s : list nat) : list nat := match h with None => s | Some h => firstn h s end.
(** there is a row to grow a tree with *)
Definition enough (n m : nat) (h : option nat) : Prop := m <= n /\ match h with None => 1 <= m | Some h => h < m end.

(** the seed and the sub-sample of the k-th tree *)
Definition seed_of (E : fenv) (k : nat) : nat := v_draw E 2022 k.
Definition sample_of (E : fenv) (n m k : nat) : list nat := v_choice E (seed_of E k) n m.

(* ------------------------------------------------------------------------------------------------ *)
(** ** Weights and estimates *)

Definition leaf_is (nodes : list node) (x : nat -> R) (j : nat) : bool := match tree_apply nodes x with Ok k => k =? j | Err _ => false end.
(** the labelling rows in the leaf of x *)
Definition neighbours (nodes : list node) (v : nat -> nat -> R) (rows : list nat) (x : nat -> R) : list nat :=
  filter (fun i => match tree_apply nodes x with Ok j => leaf_is nodes (v i) j | Err _ => false end) rows.
(** the share of row i among them *)
Definition share (nodes : list node) (v : nat -> nat -> R) (rows : list nat) (x : nat -> R) (i : nat) : R :=
  if existsb (Nat.eqb i) (neighbours nodes v rows x) then (1 / INR (length (neighbours nodes v rows x)))%R else 0%R.
(** the weight of row i in one tree: its share, or the same for all rows if the tree is a single node *)
Definition tree_weight (n : nat) (nodes : list node) (v : nat -> nat -> R) (rows : list nat) (x : nat -> R) (i : nat) : R :=
  if length nodes =? 1 then (1 / INR n)%R else share nodes v rows x i.
Definition mean {A} (f : A -> R) (l : list A) : R := (Rsum (map f l) / INR (length l))%R.
(** the weight of row i for x in the forest: the mean over its N trees *)
Definition weight_of (E : fenv) (n m : nat) (h : option nat) (v : nat -> nat -> R) (nodes : nat -> list node) (N : nat) (x : nat -> R) (i : nat) : R :=
  mean (fun k => tree_weight n (nodes k) v (labelling h (sample_of E n m k)) x i) (seq 0 N).

(** the solution of the weighted least squares problem with weights w: moments of the treatments (plus 1e-5), and the
    equations that theta solves when the right-hand side is b *)
Section Moments.
Variables (n p : nat) (t : nat -> nat -> R) (y : nat -> R) (w : nat -> R).
Definition total (f : nat -> R) : R := Rsum (map f (seq 0 n)).
Definition centred (i j : nat) : R := (t i j - total (fun q => w q * t q j))%R.
Definition moment (j k : nat) : R := (total (fun i => w i * centred i j * centred i k) + (if j =? k then 1 / 100000 else 0))%R.
Definition solves (b : nat -> R) (theta : list R) : Prop :=
  length theta = p /\ forall j, j < p -> times p moment (fun k => nth k theta 0%R) j = b j.
(** the right-hand side of the docstring: covariances with the outcome *)
Definition documented (j : nat) : R := total (fun i => w i * centred i j * (y i - total (fun q => w q * y q)))%R.
(** the right-hand side of the code, in which alpha * y stands for the weighted sum of y *)
Definition rhs (j : nat) : R := total (fun i => w i * (y i - w i * y i) * centred i j)%R.
End Moments.
