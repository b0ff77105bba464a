(** Specification of the R-loss: E[(y_res - x_res . tau)^2] over the rows of the validation set. *)
From Coq Require Import Reals String List.
From Verif Require Import Base RlossModel.
Import ListNotations.
Local Open Scope R_scope.

Definition Sum (n : nat) (f : nat -> R) : R := fold_right Rplus 0 (map f (seq 0 n)).

(** outcome j of the R-loss: n rows, k treatments, residuals of the outcomes and of the treatments, effect tau r j i of
    treatment i on outcome j for row r *)
Definition r_loss (n k : nat) (y_res x_res : nat -> nat -> R) (tau : nat -> nat -> nat -> R) (j : nat) : R :=
  Sum n (fun r => (y_res r j - Sum k (fun i => tau r j i * x_res r i)) ^ 2) / INR n.

(** the names in an argument *)
Definition names_of (a : namearg) : list string := match a with NNone => [] | NStr s => [s] | NList l => l end.
(** an argument that is the list l of names, or one name of one letter *)
Definition lists (a : namearg) (l : list string) : Prop := a = NList l \/ exists s, a = NStr s /\ String.length s = 1%nat /\ l = [s].

(** a frame that agrees with the data on the given names *)
Definition agrees (fr data : frame) (names : list string) : Prop := forall c, In c names -> get_col fr c = get_col data c.
