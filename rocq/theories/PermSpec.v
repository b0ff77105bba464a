(** Specification for PermutedLearner. *)
From Coq Require Import ZArith Reals Lra String.
From Verif Require Import Base EstUtilsModel MetaModel MetaSpec PermModel.
Set Implicit Arguments.
Local Notation length := List.length.
Local Open Scope nat_scope.

(** a group: one value for each treatment.  The order of groups: by the first treatment in which they differ. *)
Inductive glt : list label -> list label -> Prop :=
| glt_here x y g h : llt x y -> length g = length h -> glt (x :: g) (y :: h)
| glt_next x g h : glt g h -> glt (x :: g) (x :: h).

(** the groups of a data frame: the value for every treatment occurs in its column *)
Definition is_group {Frame} (col : Frame -> string -> res (list label)) (data : Frame) (treatment : list string) (g : list label) : Prop :=
  Forall2 (fun t v => exists c, col data t = Ok c /\ In v c) treatment g.

(** how a group is written as an argument of a learner: a scalar for one treatment, else a tuple *)
Definition group_arg (g : list label) : targ := match g with [v] => TVal v | _ => TList g end.
(** which arguments of estimate mean a group: one treatment may be given as a scalar or in a list *)
Definition means (a : targ) (g : list label) : Prop :=
  match g with [v] => a = TVal v \/ exists l, a = TList (v :: l) | _ => a = TList g end.

(** effect_nji of a learner for a pair: two columns, the one of control is 0, the other the effect *)
Definition two_col (n y : nat) (e : nd R) (eff : nat -> nat -> R) : Prop :=
  nd_shape e = [n; y; 2] /\
  ((forall i j, i < n -> j < y -> nd_at e [i; j; 0] = 0%R /\ nd_at e [i; j; 1] = eff i j) \/
   (forall i j, i < n -> j < y -> nd_at e [i; j; 1] = 0%R /\ nd_at e [i; j; 0] = eff i j)).

(** all groups of the data, in their order *)
Definition groups_in_order {Frame} (col : Frame -> string -> res (list label)) (data : Frame) (treatment : list string) (gs : list (list label)) : Prop :=
  (forall i j, i < j < length gs -> glt (nth i gs []) (nth j gs [])) /\ (forall g, In g gs <-> is_group col data treatment g).

(** a learner whose estimate and effect_nji leave it unchanged *)
Definition quiet {Frame K} (B : blearner Frame K) : Prop :=
  (forall d q t s, fst (b_estimate B d q t s) = s) /\ (forall d s, fst (b_nji B d s) = s).
