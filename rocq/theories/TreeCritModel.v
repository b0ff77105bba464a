(** Model of the split criteria of the tree engine: ylearn/sklearn_ex/cloned/tree/_criterion.pyx
    (RegressionCriterion), ylearn/estimator_model/_tree/tree_criterion.pyx (HonestCMSE, CMSE, MSE),
    tree_criterion_lib.cpp (on_update) and ylearn/policy/_tree/tree_criterion.pyx (PRegCriteria, PRegCriteria1).
    Doubles are exact reals, C ints unbounded.  Cython is compiled with language_level 3 (setup.py:202), so [/]
    is true division.  The criterion shares the array [samples] with the splitter, which rearranges it in place:
    here the current array is an argument of every operation that reads it. *)
From Coq Require Import ZArith Reals Lra.
From Verif Require Import Base.
Set Implicit Arguments.
Local Notation length := List.length.
Open Scope R_scope.

(** The training data a criterion sees: the number of outputs, y as a flat C-order array of n * n_outputs
    doubles, and the pointer sample_weight (None is NULL). *)
Record data := mkData { d_out : nat; d_y : nat -> R; d_w : option (nat -> R) }.

(** self.y[i, k] *)
Definition y_at (d : data) (i k : nat) : R := d_y d (i * d_out d + k)%nat.

(** [w = 1.0 ... if sample_weight != NULL: w = sample_weight[i]] *)
Definition wt (d : data) (i : nat) : R := match d_w d with None => 1 | Some w => w i end.

(** samples[p] for p in range(a, b) *)
Definition at_range (samples : list nat) (a b : nat) : list nat :=
  map (fun p => nth p samples 0%nat) (seq a (b - a)).

(** [(new_pos - pos) <= (end - new_pos)] on signed integers (SIZE_t is npy_intp) *)
Definition near (pos new_pos end_ : nat) : bool :=
  (Z.of_nat new_pos - Z.of_nat pos <=? Z.of_nat end_ - Z.of_nat new_pos)%Z.

(** tree_criterion.pyx:28-29 eps, alpha *)
Definition eps : R := 1 / 100000.
Definition alpha : R := 10000000000.

(* ------------------------------------------------------------------------------------------------ *)
(** ** HonestCMSE *)

(** yt_sum, y0_sum, yt_sq_sum, y0_sq_sum, nt, n0 *)
Record gstat := mkG { yt : R; y0 : R; yt2 : R; y02 : R; nt : Z; n0 : Z }.
Definition g0 : gstat := mkG 0 0 0 0 0 0.
Definition gadd (a b : gstat) : gstat :=
  mkG (yt a + yt b) (y0 a + y0 b) (yt2 a + yt2 b) (y02 a + y02 b) (nt a + nt b) (n0 a + n0 b).
Definition gsub (a b : gstat) : gstat :=
  mkG (yt a - yt b) (y0 a - y0 b) (yt2 a - yt2 b) (y02 a - y02 b) (nt a - nt b) (n0 a - n0 b).
(** the contribution of one sample with outcome y and weight w: the branch on [w > 0] *)
Definition gone (w y : R) : gstat :=
  if Rgt_dec w 0 then mkG y 0 (y * y) 0 1 0 else mkG 0 y 0 (y * y) 0 1.

(** _criterion.pxd and tree_criterion.pxd: the fields.  weighted_n_left/right are inherited. *)
Record hc := mkHc {
  hstart : nat; hend : nat; hpos : nat;
  hN : R;          (* weighted_n_samples *)
  hwn : R;         (* weighted_n_node_samples *)
  hwl : R; hwr : R; (* weighted_n_left, weighted_n_right: never written by HonestCMSE, 0 from __cinit__ *)
  htot : gstat; hleft : gstat; hright : gstat
}.

(** tree_criterion.pyx:179-205 reset *)
Definition hc_reset (c : hc) : hc :=
  mkHc (hstart c) (hend c) (hstart c) (hN c) (hwn c) (hwl c) (hwr c) (htot c) g0 (htot c).

(** tree_criterion.pyx:207-233 reverse_reset *)
Definition hc_reverse_reset (c : hc) : hc :=
  mkHc (hstart c) (hend c) (hend c) (hN c) (hwn c) (hwl c) (hwr c) (htot c) (htot c) g0.

(** tree_criterion.pyx:113-177 init *)
Definition hc_init (d : data) (N : R) (samples : list nat) (start end_ : nat) : hc :=
  let nodes := at_range samples start end_ in
  let tot := fold_left (fun g i => gadd g (gone (wt d i) (y_at d i 0))) nodes g0 in
  let wn := fold_left (fun a i => a + wt d i) nodes 0 in
  hc_reset (mkHc start end_ start N wn 0 0 tot g0 g0).

(** tree_criterion_lib.cpp:19-21, 34-36: y[i] in the flat array, sample_weight[i] without a null check *)
Definition read_sample (d : data) (i : nat) : res gstat :=
  match d_w d with None => Err NullPointer | Some w => Ok (gone (w i) (d_y d i)) end.

(** tree_criterion_lib.cpp:2-56 on_update *)
Definition on_update (d : data) (samples : list nat) (end_ pos new_pos : nat) : res gstat :=
  if near pos new_pos end_
  then fold_left (fun r i => do g <- r ; do s <- read_sample d i ; Ok (gadd g s))
                 (at_range samples pos new_pos) (Ok g0)
  else fold_left (fun r i => do g <- r ; do s <- read_sample d i ; Ok (gsub g s))
                 (rev (at_range samples new_pos end_)) (Ok g0).

(** tree_criterion.pyx:235-333 update *)
Definition hc_update (d : data) (c : hc) (samples : list nat) (new_pos : nat) : res hc :=
  let pos := hpos c in
  let c1 := if negb (near pos new_pos (hend c)) then hc_reverse_reset c else c in
  do delta <- on_update d samples (hend c) pos new_pos ;
  let l := gadd (hleft c1) delta in
  Ok (mkHc (hstart c) (hend c) new_pos (hN c) (hwn c) (hwl c) (hwr c) (htot c) l (gsub (htot c) l)).

(** nt + eps etc. *)
Definition nte (g : gstat) : R := IZR (nt g) + eps.
Definition n0e (g : gstat) : R := IZR (n0 g) + eps.

(** tree_criterion.pyx:335-346 node_impurity and 348-412 children_impurity: the same expression on the node,
    the left and the right statistics *)
Definition honest_impurity (g : gstat) : R :=
  alpha + 2 * (yt2 g / nte g - (yt g / nte g) ^ 2) / nte g
        + 2 * (y02 g / n0e g - (y0 g / n0e g) ^ 2) / n0e g
        - (yt g / nte g - y0 g / n0e g) ^ 2.

(** tree_criterion.pyx:438-445, 447-455: CMSE.node_impurity and children_impurity *)
Definition cmse_impurity (g : gstat) : R := alpha - (yt g / nte g - y0 g / n0e g) ^ 2.

(** tree_criterion.pyx:414-418, 457-461 node_value (dest[0]; the other outputs are not written) *)
Definition hc_value (c : hc) : R := yt (htot c) / nte (htot c) - y0 (htot c) / n0e (htot c).

(** nt + n0 as a double *)
Definition gn (g : gstat) : R := IZR (nt g + n0 g).

(** tree_criterion.pyx:420-427 and 463-469 proxy_impurity_improvement *)
Definition hc_proxy (imp : gstat -> R) (c : hc) : R :=
  - gn (hright c) * imp (hright c) - gn (hleft c) * imp (hleft c).

(** tree_criterion.pyx:429-434 HonestCMSE.impurity_improvement *)
Definition honest_improvement (c : hc) (parent il ir : R) : R :=
  let n := gn (htot c) + eps in
  parent - gn (hright c) / n * ir - gn (hleft c) / n * il.

(** tree_criterion.pyx:471-475 CMSE.impurity_improvement *)
Definition cmse_improvement (c : hc) (parent il ir : R) : R :=
  let n := gn (htot c) in
  parent - gn (hright c) / n * ir - gn (hleft c) / n * il.

(* ------------------------------------------------------------------------------------------------ *)
(** ** RegressionCriterion *)

Record rc := mkRc {
  rstart : nat; rend : nat; rpos : nat;
  rN : R; rwn : R; rwl : R; rwr : R;
  rsq : R;                                   (* sq_sum_total *)
  rtot : nat -> R; rleft : nat -> R; rright : nat -> R   (* sum_total[k], sum_left[k], sum_right[k] *)
}.

(** _criterion.pyx:689-698 reset *)
Definition rc_reset (c : rc) : rc :=
  mkRc (rstart c) (rend c) (rstart c) (rN c) (rwn c) 0 (rwn c) (rsq c) (rtot c) (fun _ => 0) (rtot c).
(** _criterion.pyx:700-709 reverse_reset *)
Definition rc_reverse_reset (c : rc) : rc :=
  mkRc (rstart c) (rend c) (rend c) (rN c) (rwn c) (rwn c) 0 (rsq c) (rtot c) (rtot c) (fun _ => 0).

(** _criterion.pyx:644-687 init *)
Definition rc_init (d : data) (N : R) (samples : list nat) (start end_ : nat) : rc :=
  let nodes := at_range samples start end_ in
  let tot := fold_left (fun s i k => s k + wt d i * y_at d i k) nodes (fun _ => 0) in
  let sq := fold_left (fun a i => fold_left (fun b k => b + wt d i * y_at d i k * y_at d i k)
                                            (seq 0 (d_out d)) a) nodes 0 in
  let wn := fold_left (fun a i => a + wt d i) nodes 0 in
  rc_reset (mkRc start end_ start N wn 0 0 sq tot (fun _ => 0) (fun _ => 0)).

(** _criterion.pyx:711-761 update *)
Definition rc_update (d : data) (c : rc) (samples : list nat) (new_pos : nat) : rc :=
  let '(sl, wl) :=
    if near (rpos c) new_pos (rend c)
    then fold_left (fun s i => (fun k => fst s k + wt d i * y_at d i k, snd s + wt d i))
                   (at_range samples (rpos c) new_pos) (rleft c, rwl c)
    else let c1 := rc_reverse_reset c in
         fold_left (fun s i => (fun k => fst s k - wt d i * y_at d i k, snd s - wt d i))
                   (rev (at_range samples new_pos (rend c))) (rleft c1, rwl c1) in
  mkRc (rstart c) (rend c) new_pos (rN c) (rwn c) wl (rwn c - wl) (rsq c)
       (rtot c) sl (fun k => rtot c k - sl k).

(** _criterion.pyx:770-775 node_value: dest[k] *)
Definition rc_value (c : rc) (k : nat) : R := rtot c k / rwn c.

(** _criterion.pyx:192-196 Criterion.impurity_improvement *)
Definition std_improvement (c : rc) (parent il ir : R) : R :=
  rwn c / rN c * (parent - rwr c / rwn c * ir - rwl c / rwn c * il).

(** sums over k in range(n_outputs) *)
Definition ksum (n : nat) (f : nat -> R) : R := fold_left (fun a k => a + f k) (seq 0 n) 0.

(** tree_criterion.pyx:483-496 MSE.node_impurity *)
Definition mse_impurity (d : data) (c : rc) : R :=
  fold_left (fun a k => a - (rtot c k / rwn c) ^ 2) (seq 0 (d_out d)) (rsq c / rwn c) / INR (d_out d).

(** tree_criterion.pyx:498-521 MSE.proxy_impurity_improvement *)
Definition mse_proxy (d : data) (c : rc) : R :=
  ksum (d_out d) (fun k => rleft c k * rleft c k) / rwl c +
  ksum (d_out d) (fun k => rright c k * rright c k) / rwr c.

(** tree_criterion.pyx:542-551 sq_sum_left *)
Definition mse_sq_left (d : data) (c : rc) (samples : list nat) : R :=
  fold_left (fun a i => fold_left (fun b k => b + wt d i * y_at d i k * y_at d i k) (seq 0 (d_out d)) a)
            (at_range samples (rstart c) (rpos c)) 0.

(** tree_criterion.pyx:523-560 MSE.children_impurity (no division by n_outputs) *)
Definition mse_children (d : data) (c : rc) (samples : list nat) : R * R :=
  let ql := mse_sq_left d c samples in
  let qr := rsq c - ql in
  (fold_left (fun a k => a - (rleft c k / rwl c) ^ 2) (seq 0 (d_out d)) (ql / rwl c),
   fold_left (fun a k => a - (rright c k / rwr c) ^ 2) (seq 0 (d_out d)) (qr / rwr c)).

(** policy/_tree/tree_criterion.pyx:36-40: the running maximum starting from -INFINITY; with n_outputs >= 1 the
    initial value never survives (here 0 stands for it). *)
Definition kmax (n : nat) (s : nat -> R) : R :=
  match fold_left (fun m k => match m with
                              | None => Some (s k)
                              | Some x => if Rgt_dec (s k) x then Some (s k) else m
                              end) (seq 0 n) None with
  | Some x => x
  | None => 0
  end.

(** policy/_tree/tree_criterion.pyx:27-41, 91-105 node_impurity *)
Definition preg_impurity (d : data) (c : rc) : R := alpha - kmax (d_out d) (rtot c) / rwn c.
(** policy/_tree/tree_criterion.pyx:69-87, 134-152 children_impurity *)
Definition preg_children (d : data) (c : rc) : R * R :=
  (alpha - kmax (d_out d) (rleft c) / rwl c, alpha - kmax (d_out d) (rright c) / rwr c).
(** policy/_tree/tree_criterion.pyx:107-132 PRegCriteria.proxy_impurity_improvement *)
Definition preg_proxy (d : data) (c : rc) : R :=
  kmax (d_out d) (rleft c) + kmax (d_out d) (rright c).
(** policy/_tree/tree_criterion.pyx:43-67 PRegCriteria1.proxy_impurity_improvement *)
Definition preg1_proxy (d : data) (c : rc) : R :=
  kmax (d_out d) (rleft c) / rwl c + kmax (d_out d) (rright c) / rwr c.
