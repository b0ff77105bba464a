(** Model of ylearn/estimator_model/_generalized_forest/tree/_criterion.pyx (GrfTreeCriterion, lines 66-523) and of
    init_criterion in _util_lib.cpp (lines 59-217), the criterion of the trees of GRForest and CausalForest.
    Doubles are exact reals.  Eigen's least squares solver and pseudo-inverse are parameters. *)
From Coq Require Import ZArith Reals Lra.
From Verif Require Import Base TreeCritModel SplitterModel.
Set Implicit Arguments.
Local Notation length := List.length.
Open Scope R_scope.

(** Eigen: [la_solve p eqs] is the coefficient vector bdcSvd().solve returns for the equations (row of p numbers, right
    hand side); [la_pinv p a] is the pseudo-inverse of a p x p matrix *)
Record linalg := mkLa { la_solve : nat -> list (list R * R) -> nat -> R; la_pinv : nat -> (nat -> nat -> R) -> nat -> nat -> R }.

(** _criterion.pxd:18-34: the fields that are read after init_ex *)
Record gc := mkGc {
  cstart : nat; cend : nat; cpos : nat;
  cwn : R; cwl : R; cwr : R;               (* weighted_n_node_samples, weighted_n_left, weighted_n_right *)
  ctot : nat -> R;                         (* sum_total[k] *)
  crho : nat -> R;                         (* rho[i] *)
  csr : R; csl : R; csrr : R               (* sum_rho, sum_rho_left, sum_rho_right *)
}.

(** _criterion.pyx:336-350 reset *)
Definition gc_reset (c : gc) : gc :=
  mkGc (cstart c) (cend c) (cstart c) (cwn c) 0 (cwn c) (ctot c) (crho c) (csr c) 0 (csr c).
(** _criterion.pyx:352-366 reverse_reset *)
Definition gc_reverse_reset (c : gc) : gc :=
  mkGc (cstart c) (cend c) (cend c) (cwn c) (cwn c) 0 (ctot c) (crho c) (csr c) (csr c) 0.

(** _util_lib.cpp:108-133: weighted sums over the samples of the node; :135-143 means *)
Definition node_w (d : data) (nodes : list nat) : R := fold_left (fun a i => a + wt d i) nodes 0.
Definition node_tot (d : data) (nodes : list nat) (k : nat) : R := fold_left (fun a i => a + wt d i * y_at d i k) nodes 0.
Definition mean_tr (d : data) (tr : nat -> nat -> R) (nodes : list nat) (k : nat) : R :=
  fold_left (fun a i => a + wt d i * tr i k) nodes 0 / node_w d nodes.
Definition mean_y (d : data) (nodes : list nat) : R := node_tot d nodes 0 / node_w d nodes.
(** _util_lib.cpp:146-151: ls_coef, the least squares solution of tr_node * beta = y_node (no intercept).
    Simplification: one outcome (with more, the solution is read with the wrong stride). *)
Definition ls_coef (la : linalg) (d : data) (p : nat) (tr : nat -> nat -> R) (nodes : list nat) : nat -> R :=
  la_solve la p (map (fun i => (map (fun k => wt d i * tr i k) (seq 0 p), wt d i * y_at d i 0)) nodes).
(** _util_lib.cpp:161-162 tr_dif *)
Definition tr_dif (d : data) (tr : nat -> nat -> R) (nodes : list nat) (i k : nat) : R := wt d i * tr i k - mean_tr d tr nodes k.
(** _util_lib.cpp:164-173 grad_coef_ik *)
Definition resid (la : linalg) (d : data) (p : nat) (tr : nat -> nat -> R) (nodes : list nat) (i : nat) : R :=
  fold_left (fun a k => a - tr_dif d tr nodes i k * ls_coef la d p tr nodes k) (seq 0 p) (wt d i * y_at d i 0 - mean_y d nodes).
(** _util_lib.cpp:178-180 grad, 186-193 f_grad (symmetric, so the change of layout is invisible) *)
Definition f_grad (d : data) (tr : nat -> nat -> R) (nodes : list nat) (k j : nat) : R :=
  fold_left (fun a i => a + tr_dif d tr nodes i k * tr_dif d tr nodes i j / INR (length nodes)) nodes 0
  + (if (k =? j)%nat then / 10000000 else 0).
(** _util_lib.cpp:196 the pseudo-inverse; 199-213 rho[i].  The samples of a node are distinct, so every rho[i] is zeroed
    and then written once. *)
Definition rho_of (la : linalg) (d : data) (p : nat) (tr : nat -> nat -> R) (nodes : list nat) (i : nat) : R :=
  let h := la_pinv la p (f_grad d tr nodes) in
  fold_left (fun a k => fold_left (fun b j => b + h j k * (tr_dif d tr nodes i j * resid la d p tr nodes i)) (seq 0 p) a) (seq 0 p) 0.

(** _criterion.pyx:111-334 init_ex *)
Definition gc_init (la : linalg) (d : data) (p : nat) (tr : nat -> nat -> R) (N : R) (samples : list nat) (start end_ : nat) : gc :=
  let nodes := at_range samples start end_ in
  let rho := rho_of la d p tr nodes in
  gc_reset (mkGc start end_ start (node_w d nodes) 0 0 (node_tot d nodes) rho
                 (fold_left (fun a i => a + wt d i * rho i) nodes 0) 0 0).

(** _criterion.pyx:368-416 update *)
Definition gc_update (d : data) (c : gc) (samples : list nat) (new_pos : nat) : gc :=
  let '(sl, wl) :=
    if near (cpos c) new_pos (cend c)
    then fold_left (fun s i => (fst s + wt d i * crho c i, snd s + wt d i)) (at_range samples (cpos c) new_pos) (csl c, cwl c)
    else let c1 := gc_reverse_reset c in
         fold_left (fun s i => (fst s - wt d i * crho c i, snd s - wt d i)) (rev (at_range samples new_pos (cend c))) (csl c1, cwl c1) in
  mkGc (cstart c) (cend c) new_pos (cwn c) wl (cwn c - wl) (ctot c) (crho c) (csr c) sl (csr c - sl).

(** _criterion.pyx:473-490 proxy_impurity_improvement *)
Definition gc_proxy (c : gc) : R := csl c * csl c / cwl c + csrr c * csrr c / cwr c.
(** _criterion.pyx:434-463 children_impurity *)
Definition gc_children (d : data) (c : gc) (samples : list nat) : R * R :=
  let sl := fold_left (fun a i => a + wt d i * crho c i) (at_range samples (cstart c) (cpos c)) 0 in
  let sr := csr c - sl in
  (sl * sl / cwl c, sr * sr / cwr c).
(** _criterion.pyx:466-471 node_value *)
Definition gc_value (c : gc) (k : nat) : R := ctot c k / cwn c.

(** _criterion.pyx:418-432 node_impurity: the constant 1; 492-523 impurity_improvement: the sum of the children's *)
Definition grf_crit (la : linalg) (p : nat) (tr : nat -> nat -> R) (d : data) : crit gc (nat -> R) :=
  mkCrit (gc_init la d p tr) gc_reset (fun c s q => Ok (gc_update d c s q)) cwn cwl cwr gc_proxy
         (fun _ => 1) (gc_children d) (fun _ _ il ir => il + ir) gc_value.

(* ------------------------------------------------------------------------------------------------ *)
(** ** The work memory of init_criterion *)

(** _util_lib.cpp:83-102: the number of doubles allocated for a node with m samples, d_y outcomes, p treatments *)
Definition work_size (d_y p m : nat) : nat :=
  (m * d_y + m * p + d_y * p + p * p + m * p + m * d_y + m * p + m * d_y)%nat.
(** the start of y_node_cpy, the last array in it *)
Definition y_node_cpy (d_y p m : nat) : nat := (m * d_y + m * p + d_y * p + p * p + m * p + m * d_y + m * p)%nat.
(** _util_lib.cpp:12-21: eigen_solve copies a p x d_y matrix to its last argument; :146: this is y_node_cpy.  The offsets
    in the work memory that the call writes *)
Definition solve_writes (d_y p m : nat) : list nat := map (fun q => (y_node_cpy d_y p m + q)%nat) (seq 0 (p * d_y)).
(** :147-151: the offsets read afterwards *)
Definition solve_reads (d_y p m : nat) : list nat :=
  flat_map (fun k_tr => map (fun k => (y_node_cpy d_y p m + (k_tr + k * m))%nat) (seq 0 d_y)) (seq 0 p).
(** :104-133, 158-183, 186-193, 204-213: the offsets of the other arrays that the loops access *)
Definition other_accesses (d_y p m : nat) : list nat :=
  let y_node := 0%nat in
  let tr_node := (y_node + m * d_y)%nat in
  let ls := (tr_node + m * p)%nat in
  let fg := (ls + d_y * p)%nat in
  let gco := (fg + p * p)%nat in
  let y_dif := (gco + m * p)%nat in
  let trd := (y_dif + m * d_y)%nat in
  let grid a rows cols stride := flat_map (fun r => map (fun c => (a + (r + stride * c))%nat) (seq 0 cols)) (seq 0 rows) in
  grid y_node m d_y m ++ grid tr_node m p m ++ grid ls p d_y p ++ grid fg p p p ++ grid gco m p m ++ grid trd m p m.
