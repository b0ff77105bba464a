(** Executable model of the parts of networkx (2.x) that ylearn/causal_model uses.
    networkx itself is not part of /repo; every definition says which library call it stands for. *)
From Verif Require Import Base.

(** Edge keys of the MultiDiGraphs built by CausalGraph: integers (0 for observed edges, 1,2,... when
    networkx invents a key) and the letter 'n' for latent arcs (graph.py:122-128). *)
Inductive key := K (n : nat) | Kn.
Definition key_eqb (a b : key) : bool :=
  match a, b with K n, K m => Nat.eqb n m | Kn, Kn => true | _, _ => false end.
Lemma key_eqb_eq a b : key_eqb a b = true <-> a = b.
Proof.
  destruct a, b; simpl; try easy. rewrite Nat.eqb_eq. split; [now intros ->|now intros [= ->]].
Qed.
#[global] Instance EqDec_key : EqDec key := {| eqb := key_eqb; eqb_eq := key_eqb_eq |}.

Section Nx.
  Context {A : Type} {EA : EqDec A}.

  (** nx.MultiDiGraph: nodes in insertion order, keyed edges in insertion order.
      Simplification: edge/node attributes are dropped. *)
  Record mdg := MDG { nodes : list A; edges : list (A * A * key) }.

  Definition empty_mdg : mdg := MDG [] [].

  (** G.add_node *)
  Definition add_node (g : mdg) (n : A) : mdg := MDG (set_add n (nodes g)) (edges g).
  (** G.add_nodes_from *)
  Definition add_nodes_from (g : mdg) (ns : list A) : mdg := fold_left add_node ns g.
  (** G.add_edge(u, v, key): creates missing end points; same key again is a no-op. *)
  Definition add_edge_key (g : mdg) (u v : A) (k : key) : mdg :=
    MDG (set_add v (set_add u (nodes g))) (set_add (u, v, k) (edges g)).
  Definition add_edges_key (g : mdg) (es : list (A * A * key)) : mdg :=
    fold_left (fun g e => add_edge_key g (fst (fst e)) (snd (fst e)) (snd e)) es g.

  Definition keys_of (g : mdg) (u v : A) : list key :=
    map snd (filter (fun e => eqb (fst e) (u, v)) (edges g)).
  (** MultiGraph.new_edge_key: len(keydict), incremented while already used. *)
  Fixpoint fresh_key (fuel n : nat) (ks : list key) : key :=
    match fuel with
    | 0 => K n
    | S f => if mem (K n) ks then fresh_key f (S n) ks else K n
    end.
  Definition new_edge_key (g : mdg) (u v : A) : key :=
    let ks := keys_of g u v in fresh_key (S (List.length ks)) (List.length ks) ks.
  (** G.add_edges_from with 2-tuples: networkx invents the key. *)
  Definition add_edge_nokey (g : mdg) (u v : A) : mdg := add_edge_key g u v (new_edge_key g u v).
  Definition add_edges_nokey (g : mdg) (es : list (A * A)) : mdg :=
    fold_left (fun g e => add_edge_nokey g (fst e) (snd e)) es g.

  (** G.remove_edge(u, v, key): NetworkXError when absent. *)
  Definition remove_edge_key (g : mdg) (u v : A) (k : key) : res mdg :=
    if mem (u, v, k) (edges g)
    then Ok (MDG (nodes g) (filter (fun e => negb (eqb e (u, v, k))) (edges g)))
    else Err NetworkXError.
  (** G.remove_edges_from(3-tuples): silently ignores absent edges. *)
  Definition remove_edges_key (g : mdg) (es : list (A * A * key)) : mdg :=
    MDG (nodes g) (filter (fun e => negb (mem e es)) (edges g)).
  (** G.remove_nodes_from: silently ignores absent nodes; removes incident edges. *)
  Definition remove_nodes_from (g : mdg) (ns : list A) : mdg :=
    MDG (filter (fun n => negb (mem n ns)) (nodes g))
        (filter (fun e => negb (mem (fst (fst e)) ns) && negb (mem (snd (fst e)) ns)) (edges g)).

  (** G.has_edge(u, v) (any key). *)
  Definition has_edge (g : mdg) (u v : A) : bool :=
    existsb (fun e => eqb (fst e) (u, v)) (edges g).

  (** G.predecessors / G.successors (each neighbour once). *)
  Definition predecessors (g : mdg) (v : A) : list A :=
    dedup (map (fun e => fst (fst e)) (filter (fun e => eqb (snd (fst e)) v) (edges g))).
  Definition successors (g : mdg) (u : A) : list A :=
    dedup (map (fun e => snd (fst e)) (filter (fun e => eqb (fst (fst e)) u) (edges g))).
  (** G.out_degree[n] counts parallel edges. *)
  Definition out_degree (g : mdg) (u : A) : nat :=
    List.length (filter (fun e => eqb (fst (fst e)) u) (edges g)).

  (** Breadth-first closure by levels (nx.bfs / single_source_shortest_path). *)
  Fixpoint bfs (next : A -> list A) (fuel : nat) (visited frontier : list A) : list A :=
    match fuel with
    | 0 => visited
    | S f =>
        let new := dedup (filter (fun v => negb (mem v visited)) (flat_map next frontier)) in
        match new with
        | [] => visited
        | _ => bfs next f (visited ++ new) new
        end
    end.

  (** All nodes reachable from the list [s], including [s]. *)
  Definition closure (g : mdg) (next : A -> list A) (s : list A) : list A :=
    let s' := dedup s in bfs next (S (List.length (nodes g))) s' s'.

  (** nx.descendants(G, s) / nx.ancestors(G, s): NetworkXError for unknown nodes; excludes s itself. *)
  Definition nx_descendants (g : mdg) (s : A) : res (list A) :=
    if mem s (nodes g) then Ok (diff (closure g (successors g) [s]) [s]) else Err NetworkXError.
  Definition nx_ancestors (g : mdg) (s : A) : res (list A) :=
    if mem s (nodes g) then Ok (diff (closure g (predecessors g) [s]) [s]) else Err NetworkXError.

  (** nx.topological_sort by generations (Kahn); NetworkXUnfeasible on a cycle.
      Simplification: inside a generation nodes are listed in insertion order, networkx's order inside a
      generation is the order in which in-degrees reach 0. *)
  Definition no_pred_in (g : mdg) (rest : list A) (v : A) : bool :=
    forallb (fun p => negb (mem p rest)) (predecessors g v).
  Fixpoint kahn (g : mdg) (fuel : nat) (rest acc : list A) : res (list A) :=
    match rest with
    | [] => Ok acc
    | _ =>
      match fuel with
      | 0 => Err NetworkXUnfeasible
      | S f =>
        let zero := filter (no_pred_in g rest) rest in
        match zero with
        | [] => Err NetworkXUnfeasible
        | _ => kahn g f (diff rest zero) (acc ++ zero)
        end
      end
    end.
  Definition topological_sort (g : mdg) : res (list A) :=
    kahn g (List.length (nodes g)) (nodes g) [].
  (** nx.is_directed_acyclic_graph *)
  Definition is_dag (g : mdg) : bool := is_ok (topological_sort g).

  (** nx.d_separated(G, x, y, z), networkx 2.x:
      check acyclicity, check nodes, prune leaves outside x|y|z with a work list, drop the out-edges of z,
      and compare weakly connected components.
      Simplification: the union-find over components is replaced by the closure of x under the
      symmetric neighbour relation (the components met by x). *)
  Fixpoint prune_leaves (fuel : nat) (g : mdg) (leaves s : list A) : mdg :=
    match fuel with
    | 0 => g
    | S f =>
      match leaves with
      | [] => g
      | l :: rest =>
        if mem l s then prune_leaves f g rest s
        else
          let ps := filter (fun p => Nat.eqb (out_degree g p) 1) (predecessors g l) in
          prune_leaves f (remove_nodes_from g [l]) (rest ++ ps) s
      end
    end.
  Definition leaves_of (g : mdg) : list A := filter (fun n => Nat.eqb (out_degree g n) 0) (nodes g).
  Definition cut_out (g : mdg) (z : list A) : mdg :=
    MDG (nodes g) (filter (fun e => negb (mem (fst (fst e)) z)) (edges g)).
  Definition neighbours (g : mdg) (v : A) : list A := successors g v ++ predecessors g v.
  Definition d_separated (g : mdg) (x y z : list A) : res bool :=
    if negb (is_dag g) then Err NetworkXError
    else
      let s := x ++ y ++ z in
      if negb (subset s (nodes g)) then Err NodeNotFound
      else
        let g1 := prune_leaves (S (List.length (nodes g))) g (leaves_of g) s in
        let g2 := cut_out g1 z in
        let comp := closure g2 (neighbours g2) x in
        Ok (negb (existsb (fun v => mem v comp) y)).

  (** nx.all_simple_paths(G, s, t): directed simple paths from s to t, s <> t.
      Simplification: enumeration order; parallel edges would repeat a path in networkx (ylearn only uses the
      node lists). *)
  Fixpoint simple_paths (next : A -> list A) (fuel : nat) (visited : list A) (s t : A) : list (list A) :=
    match fuel with
    | 0 => []
    | S f =>
      flat_map (fun v =>
        if mem v visited then []
        else if eqb v t then [[s; t]]
        else map (cons s) (simple_paths next f (v :: visited) v t)) (next s)
    end.
  Definition all_simple_paths (g : mdg) (next : A -> list A) (s t : A) : res (list (list A)) :=
    if mem s (nodes g) && mem t (nodes g)
    then if eqb s t then Ok [] else Ok (simple_paths next (List.length (nodes g)) [s] s t)
    else Err NodeNotFound.
End Nx.
Arguments mdg A : clear implicits.
