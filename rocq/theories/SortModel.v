(** Model of the sort of the tree engine: ylearn/sklearn_ex/cloned/tree/_splitter.pyx:458-569.
    The two C arrays Xf and samples are always moved together: one list of pairs (Xf[i], samples[i]).  A call on a
    part of the arrays (pointer arithmetic) is a call on that part of the list.  Doubles are exact reals (no NaN). *)
From Coq Require Import ZArith Reals.
From Verif Require Import Base SplitterModel.
Set Implicit Arguments.
Local Notation length := List.length.
Open Scope nat_scope.

Notation cell := (R * nat)%type.
Definition cell0 : cell := (0%R, 0).
(** Xf[i] *)
Definition xv (a : list cell) (i : nat) : R := fst (nth i a cell0).

(** _splitter.pyx:467-471 swap *)
Definition swap2 (a : list cell) (i j : nat) : list cell :=
  lset (lset a i (nth j a cell0)) j (nth i a cell0).

(** _splitter.pyx:474-491 median3 *)
Definition median3 (a : list cell) : R :=
  let n := length a in
  let x := xv a 0 in let y := xv a (n / 2) in let z := xv a (n - 1) in
  if Rlt_dec x y then
    if Rlt_dec y z then y else if Rlt_dec x z then z else x
  else if Rlt_dec y z then
    if Rlt_dec x z then x else z
  else y.

(** _splitter.pyx:509-522 three-way partition; at most [fuel] = r - i iterations *)
Fixpoint part3 (fuel : nat) (pivot : R) (a : list cell) (i l r : nat) : list cell * nat * nat :=
  match fuel with
  | O => (a, l, r)
  | S k =>
      if i <? r then
        if Rlt_dec (xv a i) pivot then part3 k pivot (swap2 a i l) (S i) (S l) r
        else if Rgt_dec (xv a i) pivot then part3 k pivot (swap2 a i (r - 1)) i l (r - 1)
        else part3 k pivot a (S i) l r
      else (a, l, r)
  end.

(** _splitter.pyx:529-549 sift_down; root grows, so at most [fuel] = end steps *)
Fixpoint sift_down (fuel : nat) (a : list cell) (root end_ : nat) : list cell :=
  match fuel with
  | O => a
  | S k =>
      let child := root * 2 + 1 in
      let m1 := if child <? end_ then if Rlt_dec (xv a root) (xv a child) then child else root else root in
      let m2 := if child + 1 <? end_ then if Rlt_dec (xv a m1) (xv a (child + 1)) then child + 1 else m1 else m1 in
      if m2 =? root then a else sift_down k (swap2 a root m2) m2 end_
  end.

(** _splitter.pyx:555-562 heapify: start, start-1, ..., 0 *)
Fixpoint heapify (start : nat) (a : list cell) : list cell :=
  let a := sift_down (length a) a start (length a) in
  match start with O => a | S s => heapify s a end.

(** _splitter.pyx:564-569: end = n-1, ..., 1 *)
Fixpoint drain (end_ : nat) (a : list cell) : list cell :=
  match end_ with
  | O => a
  | S e => drain e (sift_down (length a) (swap2 a 0 (S e)) 0 (S e))
  end.

(** _splitter.pyx:552-569 heapsort (called with n > 1) *)
Definition heapsort (a : list cell) : list cell :=
  drain (length a - 1) (heapify ((length a - 2) / 2) a).

(** _splitter.pyx:494-526 introsort: every iteration of the loop and every recursive call lowers maxd *)
Fixpoint introsort (maxd : nat) (a : list cell) : list cell :=
  if length a <=? 1 then a else
  match maxd with
  | O => heapsort a
  | S d =>
      let '(b, l, r) := part3 (length a) (median3 a) a 0 0 (length a) in
      introsort d (firstn l b) ++ firstn (r - l) (skipn l b) ++ introsort d (skipn r b)
  end.

(** _splitter.pyx:458-464 sort on the values of the feature ( :362-365 Xf[i] = X[samples[i], feature]).  maxd is
    2 * (int) log(n), with log the base 2 logarithm in doubles; here any function of n, see [code_sort]. *)
Definition sort_with (maxd : nat -> nat) (key : nat -> R) (samples : list nat) : list nat :=
  match samples with
  | [] => []
  | _ => map snd (introsort (maxd (length samples)) (map (fun i => (key i, i)) samples))
  end.
Definition code_sort : (nat -> R) -> list nat -> list nat := sort_with (fun n => 2 * Nat.log2 n).
