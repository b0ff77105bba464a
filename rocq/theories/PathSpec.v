(** Paths, colliders, the frontdoor criterion and instruments, in terms of the edge relation only. *)
From Verif Require Import Base NxModel NxSpec NxProofs GraphModel GraphSpec GraphProofs CausalModel Bn ScmSpec BackdoorSpec.
Set Implicit Arguments.

Section Spec.
  Context {A : Type}.
  Variable E : A -> A -> Prop.
  (** some interior node of the path has both path edges pointing into it *)
  Definition has_coll (p : list A) : Prop :=
    exists l1 a m b l2, p = l1 ++ a :: m :: b :: l2 /\ E a m /\ E b m.
  (** some edge of the path points forward (away from its start) *)
  Definition some_forward (p : list A) : Prop :=
    exists l1 a b l2, p = l1 ++ a :: b :: l2 /\ E a b.
  (** a trail from x to y, at least two edges, whose first edge points into x *)
  Definition backdoor_path (p : list A) (x y : A) : Prop :=
    trail E p x y /\ exists b c r, p = x :: b :: c :: r /\ E b x.
End Spec.

(** The frontdoor criterion for a single treatment and outcome: z intercepts all directed paths, no backdoor path
    from the treatment to z is open, and the treatment blocks all backdoor paths from z to the outcome. *)
Definition frontdoor_criterion (g : cg) (t o : node) (z : list node) : Prop :=
  (forall l, dwalk (is_parent g) (t :: l ++ [o]) -> exists v, In v (t :: l ++ [o]) /\ In v z) /\
  (forall l, backdoor_trail g [t] z l -> ~ active (cause g uname) (fun _ => False) l) /\
  (forall l, backdoor_trail g z [o] l -> ~ active (cause g uname) (fun v => v = t) l).

(** The frontdoor formula  sum_z P(z|t) sum_t' P(o|t',z) P(t'). *)
Definition frontdoor_formula g h dom cpt (t o : node) (z : list node) (a : node -> nat) : R :=
  (sums dom z (fun b => P_obs g h dom cpt (t :: z) b / P_obs g h dom cpt [t] b *
     sumv dom t (fun c => P_obs g h dom cpt (o :: t :: z) c / P_obs g h dom cpt (t :: z) c * P_obs g h dom cpt [t] c) b) a)%R.
