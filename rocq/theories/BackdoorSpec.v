(** What the backdoor and frontdoor functions are about, in textbook terms: trails in the graph with its latent
    variables drawn as nodes. *)
From Verif Require Import Base NxModel NxSpec NxProofs GraphModel GraphSpec GraphProofs CausalModel Bn ScmSpec.
Set Implicit Arguments.

(** A causal graph as documented: one dictionary entry per name, no parent repeated, acyclic, arcs between
    names of the graph, no user node called U0, U1, ...  [init_user_graph] (BackdoorProofs) shows that the
    constructor yields these. *)
Record user_graph (g : cg) : Prop := {
  ug_wf : wf_cg g;
  ug_sym : sym_arcs g;
  ug_closed : incl (nodes (dag g)) (keys (causation g));
  ug_dag : cg_is_dag g = true;
  ug_names : forall i, ~ In (uname i) (keys (causation g)) }.

Section Spec.
  Variable g : cg.
  (** edges of the graph in which the latent variable of arc i is the node U<i> *)
  Let E := cause g uname.

  (** no step of the walk leaves a treatment along an edge out of it *)
  Fixpoint into (t : list node) (l : list node) : Prop :=
    match l with
    | a :: ((b :: _) as r) => (E a b -> ~ In a t) /\ (E b a -> ~ In b t) /\ into t r
    | _ => True
    end.
  (** a backdoor path between the treatments and the outcomes *)
  Definition backdoor_trail (t o : list node) (l : list node) : Prop :=
    exists x y, In x t /\ In y o /\ trail E l x y /\ into t l.
  (** the backdoor criterion *)
  Definition backdoor_criterion (t o z : list node) : Prop :=
    (forall x v, In x t -> In v z -> ~ reach (is_parent g) x v) /\
    (forall l, backdoor_trail t o l -> ~ active E (fun v => In v z) l).
End Spec.

(** The adjustment formula  sum_z P(o|t,z) P(z). *)
Definition adjustment g h dom cpt (t o z : list node) (a : node -> nat) : R :=
  (sums dom z (fun b => P_obs g h dom cpt (o ++ t ++ z) b / P_obs g h dom cpt (t ++ z) b * P_obs g h dom cpt z b) a)%R.
