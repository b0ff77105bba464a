(** What the criterion of the generalized random forest computes, as sums over the samples of a node. *)
From Coq Require Import ZArith Reals Lra.
From Verif Require Import Base TreeCritModel TreeCritProps SplitterModel SplitterSpec GrfCritModel.
Set Implicit Arguments.
Local Notation length := List.length.
Open Scope R_scope.

(** what is assumed of the least squares solver: the order of the equations does not matter *)
Definition order_free (la : linalg) : Prop := forall p l l', Permutation l l' -> la_solve la p l = la_solve la p l'.

Section Pseudo.
Variables (la : linalg) (d : data) (p : nat) (tr : nat -> nat -> R) (s : list nat).
(** weighted means of treatment j and of the outcome over the samples s; deviations from them *)
Definition tbar (j : nat) : R := Rsum (map (fun i => wt d i * tr i j) s) / w_sum d s.
Definition ybar : R := wy_sum d s 0 / w_sum d s.
Definition tdev (i j : nat) : R := wt d i * tr i j - tbar j.
(** the coefficients of the regression of the outcome on the treatments in s, without intercept *)
Definition beta : nat -> R :=
  la_solve la p (map (fun i => (map (fun k => wt d i * tr i k) (seq 0 p), wt d i * y_at d i 0)) s).
(** the residual of sample i, and the mean of the outer products of the deviations plus 1e-7 *)
Definition residual (i : nat) : R := wt d i * y_at d i 0 - ybar - Rsum (map (fun k => tdev i k * beta k) (seq 0 p)).
Definition second_moment (k j : nat) : R :=
  Rsum (map (fun i => tdev i k * tdev i j / INR (length s)) s) + (if (k =? j)%nat then / 10000000 else 0).
(** the pseudo-outcome of sample i *)
Definition pseudo (i : nat) : R :=
  Rsum (map (fun k => Rsum (map (fun j => la_pinv la p second_moment j k * (tdev i j * residual i)) (seq 0 p))) (seq 0 p)).
End Pseudo.

(** the sum of the pseudo-outcomes of the samples m when the node is s *)
Definition psum (la : linalg) (d : data) (p : nat) (tr : nat -> nat -> R) (s m : list nat) : R :=
  Rsum (map (fun i => wt d i * pseudo la d p tr s i) m).

(** GrfTreeCriterion: squared sums of the pseudo-outcomes over the weights of the two sides *)
Definition grf_spec (la : linalg) (p : nat) (tr : nat -> nat -> R) (d : data) : cspec (nat -> R) := {|
  cs_proxy := fun l r => psum la d p tr (l ++ r) l ^ 2 / w_sum d l + psum la d p tr (l ++ r) r ^ 2 / w_sum d r;
  cs_wl := fun l _ => w_sum d l;
  cs_wr := fun _ r => w_sum d r;
  cs_wn := w_sum d;
  cs_node := fun _ => 1;
  cs_children := fun l r => (psum la d p tr (l ++ r) l ^ 2 / w_sum d l, psum la d p tr (l ++ r) r ^ 2 / w_sum d r);
  cs_improve := fun _ _ _ il ir => il + ir;
  cs_value := wmean d
|}.
