(** Independent specification of a causal graph with latent arcs: two relations on names, and what each
    documented call is supposed to do to them.  Nothing here mentions dictionaries or multigraphs. *)
From Verif Require Import Base NxModel NxSpec GraphModel.
Set Implicit Arguments.

Record agraph := AG { obs : node -> node -> Prop;   (* observed edge parent -> child *)
                      arc : node -> node -> Prop }. (* latent confounding arc, symmetric *)

(** The pair {a,b} is listed in [es], in either order. *)
Definition pair_in (es : list (node * node)) (a b : node) : Prop := In (a, b) es \/ In (b, a) es.

Definition astep (o : op) (g : agraph) : agraph :=
  match o with
  | AddNodes _ => g
  | AddEdge s t true => AG (fun p c => obs g p c \/ (p = s /\ c = t)) (arc g)
  | AddEdge s t false => AG (obs g) (fun a b => arc g a b \/ pair_in [(s, t)] a b)
  | AddEdges es true => AG (fun p c => obs g p c \/ In (p, c) es) (arc g)
  | AddEdges es false => AG (obs g) (fun a b => arc g a b \/ pair_in es a b)
  | RemoveNodes ns => AG (fun p c => obs g p c /\ ~ In p ns /\ ~ In c ns)
                         (fun a b => arc g a b /\ ~ In a ns /\ ~ In b ns)
  | RemoveEdge e true => AG (fun p c => obs g p c /\ (p, c) <> e) (arc g)
  | RemoveEdge e false => AG (obs g) (fun a b => arc g a b /\ ~ pair_in [e] a b)
  | RemoveEdges es true => AG (fun p c => obs g p c /\ ~ In (p, c) es) (arc g)
  | RemoveEdges es false => AG (obs g) (fun a b => arc g a b /\ ~ pair_in es a b)
  | RemoveIncoming x => AG (fun p c => obs g p c /\ ~ In c x)
                           (fun a b => arc g a b /\ ~ In a x /\ ~ In b x)
  | RemoveOutgoing x => AG (fun p c => obs g p c /\ ~ In p x) (arc g)
  end.

Definition arun (os : list op) (g : agraph) : agraph := fold_left (fun g o => astep o g) os g.

(** The graph the constructor is asked to build. *)
Definition adecl (c : dict) (arcs : list (node * node)) : agraph :=
  AG (fun p ch => In p (lookup c ch)) (pair_in arcs).

(** [l] lists each unordered pair of the symmetric relation [r] exactly once. *)
Definition lists_pairs (l : list (node * node)) (r : node -> node -> Prop) : Prop :=
  NoDup l /\ (forall a b, a <> b -> In (a, b) l -> ~ In (b, a) l) /\
  (forall a b, r a b <-> pair_in l a b).

(** A dictionary as a user writes it: distinct keys, no parent listed twice for a child. *)
Definition ok_dict (c : dict) : Prop :=
  NoDup (keys c) /\ forall ch, NoDup (lookup c ch).

(** Reading the model's object. *)
Definition is_parent (g : cg) (p c : node) : Prop := In p (lookup (causation g) c).
Definition dag_obs (g : cg) (p c : node) : Prop := In (p, c, K 0) (NxModel.edges (dag g)).

(** Every call of the history succeeds / adds only edges that are not there yet / declares arcs with
    [add_edges_from]. *)
Fixpoint all_ok (g : cg) (os : list op) : Prop :=
  match os with [] => True | o :: r => snd (exec g o) = None /\ all_ok (fst (exec g o)) r end.
Definition fresh (g : cg) (o : op) : Prop :=
  match o with
  | AddEdge s t true => ~ is_parent g s t
  | AddEdges es true => NoDup es /\ forall p c, In (p, c) es -> ~ is_parent g p c
  | _ => True
  end.
Fixpoint fresh_adds (g : cg) (os : list op) : Prop :=
  match os with [] => True | o :: r => fresh g o /\ fresh_adds (fst (exec g o)) r end.
Definition full_arc_op (o : op) : Prop := match o with AddEdge _ _ false => False | _ => True end.
