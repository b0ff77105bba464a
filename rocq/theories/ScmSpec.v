(** What probability expressions mean.  A discrete structural model compatible with a causal graph gives every
    observed variable a conditional distribution given its parents and the latent variables of its arcs; each arc
    has its own independent latent root variable.  Observational and interventional distributions are the usual
    (truncated) factorisations. *)
From Verif Require Import Base GraphModel CausalModel Bn.
Set Implicit Arguments.
Local Open Scope R_scope.

Section Scm.
  Variable g : cg.
  (** [h i] is the name of the latent variable of the [i]-th latent confounding arc. *)
  Variable h : nat -> node.
  Definition arcs : list (node * node) := latent_confounding_arcs g.
  Definition observed : list node := keys (causation g).
  Definition hidden : list node := map h (seq 0 (List.length arcs)).
  Definition vars : list node := observed ++ hidden.
  (** latent names are pairwise different and not used in the graph *)
  Definition hidden_fresh : Prop :=
    (forall i j, h i = h j -> i = j) /\ (forall i, ~ In (h i) observed).

  (** direct causes: parents in the causation dictionary, and the latent variables of the arcs at [v] *)
  Definition cause (p v : node) : Prop :=
    In p (lookup (causation g) v) \/
    exists i a b, nth_error arcs i = Some (a, b) /\ p = h i /\ (v = a \/ v = b).

  (** [dom v]: values of a variable, [cpt v a]: probability of the value [a v] given the values that [a] assigns to
      the direct causes.  Strictly positive.  (Values outside the domains are irrelevant: any family given on the
      domains extends by clamping.) *)
  Record compatible (dom : node -> list nat) (cpt : node -> @asg node -> R) : Prop := {
    c_dom : forall v, dom v <> [];
    c_local : forall v, In v vars -> dep (cpt v) (fun w => w = v \/ cause w v);
    c_norm : forall v a, In v vars -> sumv dom v (cpt v) a = 1;
    c_pos : forall v a, In v vars -> 0 < cpt v a }.

  Variable dom : node -> list nat.
  Variable cpt : node -> @asg node -> R.

  (** P(S = a(S)) *)
  Definition P_obs (S : list node) (a : @asg node) : R := sums dom (diff vars S) (prodl cpt vars) a.
  (** P(S = a(S) | do(X = a(X))) *)
  Definition P_do (X S : list node) (a : @asg node) : R :=
    sums dom (diff (diff vars X) S) (prodl cpt (diff vars X)) a.
  (** P(S = a(S) | C = a(C)); the empty S is the trivial factor *)
  Definition P_cond (S C : list node) (a : @asg node) : R :=
    match S with [] => 1 | _ => P_obs (S ++ C) a / P_obs C a end.

  (** The value of a Prob object: sum over [marginal] of P(variables|conditional) times the factors. *)
  Fixpoint eval (p : prob) (a : @asg node) : R :=
    match p with
    | Pr vs cs ms ps =>
      sums dom ms (fun b => P_cond vs cs b * fold_right (fun q r => eval q b * r) 1 ps) a
    end.
End Scm.
