(** Specification for DataFrameMapper. *)
From Coq Require Import String.
From Verif Require Import Base EstUtilsModel MetaModel MapModel.
Set Implicit Arguments.
Local Notation length := List.length.
Local Open Scope nat_scope.

Section S.
Variables (V Y T : Type).
Notation mframe := (mframe V).
Variable t_fit : T -> bool * mframe -> option Y -> T * res unit.
Variable t_tr : T -> bool * mframe -> res (list (list V)).
Variable t_ft : T -> option (bool * mframe -> option Y -> T * res (list (list V))).

(** the i-th feature selects column c *)
Definition picks (fs : list (feature V)) (X : mframe) (i : nat) (c : string) : Prop := exists d t o, nth_error fs i = Some (d, t, o) /\ In c (named d X).
(** no feature names a column twice or one that X does not have *)
Definition clean_defs (fs : list (feature V)) (X : mframe) : Prop :=
  forall d t o, In (d, t, o) fs -> NoDup (named d X) /\ forall c, In c (named d X) -> In c (map fst X).

(** sklearn's contract: fit_transform is fit followed by transform, transform raises no TypeError, fit leaves the methods as they are *)
Definition contract : Prop :=
  (forall t f, t_ft t = Some f -> forall a y, f a y = let (t', r) := t_fit t a y in match r with Ok _ => (t', t_tr t' a) | Err e => (t', Err e) end) /\
  (forall t a, t_tr t a <> Err TypeError) /\ forall t a y, t_ft (fst (t_fit t a y)) = None <-> t_ft t = None.

(** the transformer objects of the features and of the default *)
Definition ids (p : mparams V) : list nat :=
  flat_map (fun f : feature V => match f with (_, Some i, _) => [i] | _ => [] end) (mp_features p) ++ match mp_default p with DTr i => [i] | _ => [] end.

(** the columns X[cols] *)
Definition cols_of (X : mframe) (cols : list string) (Xt : mframe) : Prop := map fst Xt = cols /\ forall nv, In nv Xt -> In nv X.

(** a transformer without memory: fit does not depend on what was fitted before *)
Definition memoryless {K} (kind : T -> K) : Prop :=
  (forall t t' a y, kind t = kind t' -> t_fit t a y = t_fit t' a y) /\ (forall t a y, kind (fst (t_fit t a y)) = kind t) /\
  (forall t f, t_ft t = Some f -> forall a y, kind (fst (f a y)) = kind t).
End S.
(** calls *)
Inductive mop (V Y : Type) := OFit (X : mframe V) (y : Y) | OTr (X : mframe V) | OFitTr (X : mframe V) (y : Y).
Arguments OTr {V Y}.
