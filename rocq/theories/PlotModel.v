(** Model of ylearn/uplift/_plot.py: the points and bars that are plotted.  Exact arithmetic; the bin edges that qcut computes from the quantiles are given. *)
From Coq Require Import Reals List Bool.
From Verif Require Import Base.
Unset Implicit Arguments.
Local Notation length := List.length.
Local Open Scope list_scope.
Local Open Scope nat_scope.

(** _plot.py:8 np.linspace(0, n - 1, k, endpoint=True, dtype='int'): truncated *)
Definition linspace (n k : nat) : list nat := map (fun i => i * (n - 1) / (k - 1)) (seq 0 k).
(** _plot.py:5-13 _sample: the rows at these positions, with the positions as index *)
Definition sample {V} (curve : list V) (k : nat) : res (list (nat * V)) :=
  if Nat.leb (length curve) k then Err AssertionError else
  Ok (flat_map (fun i => match nth_error curve i with Some v => [(i, v)] | None => [] end) (linspace (length curve) k)).

(** pd.qcut: the number of the interval (e_b, e_b+1] a value lies in, from the inner edges *)
Definition bin (inner : list R) (v : R) : nat := length (filter (fun e => if Rlt_dec e v then true else false) inner).
Fixpoint strictly (l : list R) : bool := match l with a :: (b :: _) as r => (if Rlt_dec a b then true else false) && strictly r | _ => true end.
(** .mean(), NaN (None) for an empty group *)
Definition mean (l : list R) : option R := match l with [] => None | _ => Some (fold_right Rplus 0 l / INR (length l))%R end.
(** _plot.py:16-31 _split for one column: qcut, mean per bin, highest bin first; edges: all bin edges from the minimum to the maximum, which qcut requires to be
    distinct *)
Definition split (edges values : list R) : res (list (option R)) :=
  if strictly edges then
    let inner := removelast (tl edges) in
    Ok (map (fun b => mean (filter (fun v => Nat.eqb (bin inner v) b) values)) (rev (seq 0 (length edges - 1))))
  else Err ValueError.
