(** Specification for get_iv: instruments. *)
From Verif Require Import Base NxSpec GraphModel GraphSpec ScmSpec.
Set Implicit Arguments.

(** Direct causes after removing everything that points into [t]. *)
Definition cut_into (E : node -> node -> Prop) (t : node) (a b : node) : Prop := E a b /\ b <> t.

(** A node is a valid instrument for the effect of [t] on [o]: it is a parent of [t], it is not [o], and once the
    edges into [t] are removed every trail between it and [o] (hidden variables included) is blocked by nothing. *)
Definition instrument (g : cg) (t o p : node) : Prop :=
  is_parent g p t /\ p <> o /\
  dsep (cut_into (cause g uname) t) (fun v => v = p) (fun v => v = o) (fun _ => False).
