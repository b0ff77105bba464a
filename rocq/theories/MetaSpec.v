(** Specification vocabulary for the meta learners: groups, their indicator vectors, which group an argument
    names, differences of predictions.  Nothing here mentions encoders. *)
From Coq Require Import ZArith Reals Sorting.Sorted.
From Verif Require Import Base ApiModel EstUtilsModel MetaModel.
Set Implicit Arguments.
Local Notation length := List.length.

(** the order of treatment values: numbers by value, strings by character code *)
Definition llt (a b : label) : Prop := label_ltb a b = true.

(** a group is a tuple of treatment values, one per treatment column.  [groups_of d vals keys]: [keys] lists, each
    once, exactly the tuples whose j-th entry is one of [vals j] *)
Definition groups_of (d : nat) (vals : nat -> label -> Prop) (keys : list (list label)) : Prop :=
  NoDup keys /\
  forall r, In r keys <-> length r = d /\ forall j, j < d -> vals j (nth j r (LInt 0)).

(** the values in column j of the treatment data *)
Definition occurs (x : list (list label)) (j : nat) (a : label) : Prop :=
  exists r, In r x /\ nth j r (LInt 0) = a.

(** groups of one column, in increasing order *)
Definition increasing (keys : list (list label)) : Prop :=
  exists cats, keys = map (fun c => [c]) cats /\ StronglySorted llt cats.

(** the 0/1 vector of a group *)
Definition indicator (keys : list (list label)) (r : list label) : row :=
  map (fun g => if eqb r g then 1%R else 0%R) keys.

(** covariates followed by the indicator of a group *)
Definition features (keys : list (list label)) (r : list label) (w : row) : row := w ++ indicator keys r.

(** [asks d keys dflt t r]: with d treatment columns, the argument [t] names the group [r]: no argument is the
    group number [dflt]; for one column a scalar is its value; a list gives the values of the columns (all of
    one kind); so does a 2-d array of one row *)
Inductive asks (d : nat) (keys : list (list label)) (dflt : nat) : targ -> list label -> Prop :=
  | asks_none r : nth_error keys dflt = Some r -> asks d keys dflt TNone r
  | asks_val a : d = 1 -> asks d keys dflt (TVal a) [a]
  | asks_list l : forallb is_str l = true \/ existsb is_str l = false -> asks d keys dflt (TList l) l
  | asks_arr2 l : asks d keys dflt (TArr2 [l]) l.

(** [e] is [a] combined with [b] entry by entry *)
Definition entrywise (f : R -> R -> R) (a b e : nd R) : Prop :=
  nd_shape e = nd_shape a /\ nd_shape e = nd_shape b /\ forall idx, nd_at e idx = f (nd_at a idx) (nd_at b idx).

(** the rows of [l] whose treatment row is [g] *)
Definition rows_of (g : list label) (x : list (list label)) (l : list row) : list row :=
  map snd (filter (fun p => eqb (fst p) g) (combine x l)).
