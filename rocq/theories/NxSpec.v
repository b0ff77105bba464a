(** Independent graph-theoretic specifications over an arbitrary edge relation. *)
From Coq Require Import List.
Import ListNotations.

Section Spec.
  Context {A : Type}.
  Variable E : A -> A -> Prop.

  (** Directed walks (reflexive-transitive closure). *)
  Inductive reach : A -> A -> Prop :=
  | reach_refl x : reach x x
  | reach_step x y z : E x y -> reach y z -> reach x z.

  (** Non-empty directed walks. *)
  Definition reach1 (x z : A) : Prop := exists y, E x y /\ reach y z.

  Definition acyclic : Prop := forall x, ~ reach1 x x.

  (** [l] lists a topological order of the relation. *)
  Definition topo_ordered (l : list A) : Prop :=
    forall l1 x l2, l = l1 ++ x :: l2 -> forall p, E p x -> In p l1.

  (** Symmetric connection inside the relation. *)
  Inductive conn : A -> A -> Prop :=
  | conn_refl x : conn x x
  | conn_step x y z : (E x y \/ E y x) -> conn y z -> conn x z.

  (** Undirected walks given by their node list. *)
  Fixpoint uwalk (l : list A) : Prop :=
    match l with
    | x :: ((y :: _) as r) => (E x y \/ E y x) /\ uwalk r
    | _ => True
    end.

  (** Directed walks given by their node list. *)
  Fixpoint dwalk (l : list A) : Prop :=
    match l with
    | x :: ((y :: _) as r) => E x y /\ dwalk r
    | _ => True
    end.

  (** Pearl's d-separation.  A middle node [m] of a trail, between [a] and [b], is open given [Z] when
      it is a collider with a descendant (itself included) in [Z], or a non-collider outside [Z]. *)
  Definition collider (a m b : A) : Prop := E a m /\ E b m.
  Definition triple_open (Z : A -> Prop) (a m b : A) : Prop :=
    (collider a m b /\ exists d, Z d /\ reach m d) \/ (~ collider a m b /\ ~ Z m).

  Fixpoint active (Z : A -> Prop) (l : list A) : Prop :=
    match l with
    | a :: ((m :: b :: _) as r) => triple_open Z a m b /\ active Z r
    | _ => True
    end.

  (** [l] is a trail (simple path ignoring directions) from [x] to [y]. *)
  Definition trail (l : list A) (x y : A) : Prop :=
    NoDup l /\ uwalk l /\ exists l', l = x :: l' /\ last l x = y.

  (** [Z] d-separates [X] and [Y]: it blocks every trail between them. *)
  Definition dsep (X Y Z : A -> Prop) : Prop :=
    forall l x y, X x -> Y y -> trail l x y -> ~ active Z l.
End Spec.
