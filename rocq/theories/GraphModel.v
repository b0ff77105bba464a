(** Model of ylearn/causal_model/graph.py (class CausalGraph) and the graph helpers of causal_model/utils.py. *)
From Coq Require Import Ascii DecimalString DecimalNat.
From Verif Require Import Base NxModel.
Set Implicit Arguments.

Notation node := string (only parsing).

(** ** Python dict / defaultdict(list) as an association list in insertion order *)
Definition dict := list (node * list node).

Definition keys (c : dict) : list node := map fst c.

(** [c[k]] of a defaultdict(list), value only (graph.py:122). *)
Fixpoint lookup (c : dict) (k : node) : list node :=
  match c with
  | [] => []
  | (k', v) :: r => if eqb k k' then v else lookup r k
  end.

(** [c[k] = f(c[k])] of a defaultdict(list): a missing key is created at the end with [f []]. *)
Fixpoint update (c : dict) (k : node) (f : list node -> list node) : dict :=
  match c with
  | [] => [(k, f [])]
  | (k', v) :: r => if eqb k k' then (k', f v) :: r else (k', v) :: update r k f
  end.

(** [del c[k]] *)
Definition del (c : dict) (k : node) : dict := filter (fun e => negb (eqb k (fst e))) c.

(** ** The object *)
Record cg := CG { causation : dict; dag : mdg node }.

(** graph.py:275-291 observed_dag: a fresh MultiDiGraph containing only the edges (parent, child, 0);
    keys without parents and without children do not become nodes. *)
Definition obs_edges (c : dict) : list (node * node * key) :=
  flat_map (fun e => map (fun p => (p, fst e, K 0)) (snd e)) c.
Definition observed_dag_of (c : dict) : mdg node := add_edges_key empty_mdg (obs_edges c).
Definition observed_dag (g : cg) : mdg node := observed_dag_of (causation g).

(** graph.py:102-132 __init__ *)
Definition add_arc (g : mdg node) (e : node * node) : mdg node :=
  add_edges_key g [(fst e, snd e, Kn); (snd e, fst e, Kn)].
Definition init (c : dict) (d : option (mdg node)) (arcs : list (node * node)) : cg :=
  let d0 := match d with None => observed_dag_of c | Some d => d end in
  CG c (fold_left add_arc arcs d0).

(** graph.py:144-159 latent_confounding_arcs: row-major scan of the adjacency matrix for pairs with edges in
    both directions, skipping the pair already recorded in the other order. *)
Definition arcs_step (g : mdg node) (acc : list (node * node)) (e : node * node) : list (node * node) :=
  let (a, b) := e in
  if has_edge g a b && has_edge g b a && negb (mem (b, a) acc) then acc ++ [(a, b)] else acc.
Definition latent_confounding_arcs (g : cg) : list (node * node) :=
  fold_left (arcs_step (dag g)) (list_prod (nodes (dag g)) (nodes (dag g))) [].

(** graph.py:161-166 is_dag *)
Definition cg_is_dag (g : cg) : bool := is_dag (observed_dag g).

(** f'U{i}' *)
Definition uname (i : nat) : node := String "U"%char (NilEmpty.string_of_uint (Nat.to_uint i)).

(** graph.py:293-307 explicit_unob_var_dag *)
Fixpoint add_hidden (g : mdg node) (i : nat) (arcs : list (node * node)) : mdg node :=
  match arcs with
  | [] => g
  | (a, b) :: r => add_hidden (add_edges_key g [(uname i, a, Kn); (uname i, b, Kn)]) (S i) r
  end.
Definition explicit_unob_var_dag (g : cg) : mdg node :=
  add_hidden (observed_dag g) 0 (latent_confounding_arcs g).

(** graph.py:178-194 is_d_separated *)
Definition is_d_separated (g : cg) (x y z : list node) : res bool :=
  d_separated (explicit_unob_var_dag g) x y z.

(** graph.py:196-208 c_components: connected components of the undirected graph of the arcs on dag.nodes
    (nx.connected_components: one closure per not-yet-seen node). *)
Definition arc_neighbours (arcs : list (node * node)) (v : node) : list node :=
  map snd (filter (fun e => eqb (fst e) v) arcs) ++ map fst (filter (fun e => eqb (snd e) v) arcs).
Fixpoint components (g : mdg node) (nb : node -> list node) (seen : list node) (todo : list node) : list (list node) :=
  match todo with
  | [] => []
  | v :: r =>
    if mem v seen then components g nb seen r
    else let c := closure g nb [v] in c :: components g nb (seen ++ c) r
  end.
Definition c_components (g : cg) : list (list node) :=
  components (dag g) (arc_neighbours (latent_confounding_arcs g)) [] (nodes (dag g)).

(** utils.py:8-31 ancestors_of_iter, 34-57 descendents_of_iter: the try/except swallows unknown nodes. *)
Definition ancestors_of_iter (g : mdg node) (x : list node) : list node :=
  dedup (flat_map (fun n => n :: match nx_ancestors g n with Ok l => l | Err _ => [] end) x).
Definition descendents_of_iter (g : mdg node) (x : list node) : list node :=
  dedup (flat_map (fun n => n :: match nx_descendants g n with Ok l => l | Err _ => [] end) x).
(** graph.py:210-225, 227-251 *)
Definition ancestors (g : cg) (x : list node) : list node := ancestors_of_iter (observed_dag g) x.
Definition descendents (g : cg) (x : list node) : list node := descendents_of_iter (observed_dag g) x.

(** graph.py:253-273 parents; returns the new state because a defaultdict read creates the key. *)
Definition parents (g : cg) (x : node) : cg * list node :=
  (CG (update (causation g) x (fun l => l)) (dag g), lookup (causation g) x).

(** graph.py:309-318 topo_order *)
Definition topo_order (g : cg) : res (list node) := topological_sort (observed_dag g).

(** utils.py:90-102 check_nodes (one set S). *)
Definition check_nodes (avail : list node) (s : list node) : res unit :=
  if subset s avail then Ok tt else Err AssertionError.

(** ** Mutators.  In-place calls return the new state and the exception raised, if any (the state may be
    partially updated); new=True calls return a fresh object or raise. *)
Definition outcome := (cg * option exn)%type.

(** graph.py:320-350 add_nodes.  [ori_nodes = self.dag.nodes] is a live view: in place it already contains the
    new nodes when it is tested, so causation is never extended; with new=True it is the old node set. *)
Definition add_nodes (g : cg) (ns : list node) : cg :=
  let ori_nodes := nodes (add_nodes_from (dag g) ns) in
  CG (fold_left (fun c n => if mem n ori_nodes then c else update c n (fun _ => [])) ns (causation g))
     (add_nodes_from (dag g) ns).
Definition add_nodes_new (g : cg) (ns : list node) : cg :=
  CG (fold_left (fun c n => if mem n (nodes (dag g)) then c else update c n (fun _ => [])) ns (causation g))
     (add_nodes_from (dag g) ns).

(** graph.py:352-390 add_edges_from *)
Definition add_edge_obs (g : cg) (e : node * node) : cg :=
  CG (update (causation g) (snd e) (fun l => l ++ [fst e])) (add_edge_key (dag g) (fst e) (snd e) (K 0)).
Definition add_edges_from (g : cg) (es : list (node * node)) (observed : bool) : cg :=
  if observed then fold_left add_edge_obs es g
  else CG (causation g) (fold_left add_arc es (dag g)).
Definition add_edges_from_new (g : cg) (es : list (node * node)) (observed : bool) : cg :=
  if observed
  then CG (fold_left (fun c e => update c (snd e) (fun l => l ++ [fst e])) es (causation g))
          (add_edges_nokey (dag g) es)
  else CG (causation g) (fold_left add_arc es (dag g)).

(** graph.py:392-412 add_edge: an unobserved edge is added in one direction only. *)
Definition add_edge (g : cg) (s t : node) (observed : bool) : cg :=
  if observed then add_edge_obs g (s, t)
  else CG (causation g) (add_edge_key (dag g) s t Kn).

(** graph.py:414-457 remove_nodes; the new=True branch (441-457) edits copies, dag first. *)
Definition remove_node_causation (c : dict) (n : node) : dict :=
  map (fun e => (fst e, remove1 n (snd e))) (del c n).
Definition remove_nodes (g : cg) (ns : list node) : cg :=
  CG (fold_left remove_node_causation ns (causation g)) (remove_nodes_from (dag g) ns).
Definition remove_nodes_new (g : cg) (ns : list node) : cg :=
  let new_dag := remove_nodes_from (dag g) ns in
  let new_causation := fold_left remove_node_causation ns (causation g) in
  CG new_causation new_dag.

(** graph.py:459-481 remove_edge *)
Definition remove_edge_obs (g : cg) (e : node * node) : outcome :=
  match remove_edge_key (dag g) (fst e) (snd e) (K 0) with
  | Err x => (g, Some x)
  | Ok d => (CG (update (causation g) (snd e) (remove1 (fst e))) d, None)
  end.
Definition remove_arc (d : mdg node) (e : node * node) : mdg node :=
  remove_edges_key d [(fst e, snd e, Kn); (snd e, fst e, Kn)].
Definition remove_edge (g : cg) (e : node * node) (observed : bool) : outcome :=
  if observed then remove_edge_obs g e else (CG (causation g) (remove_arc (dag g) e), None).

(** graph.py:483-530 remove_edges_from *)
Fixpoint remove_edges_obs (g : cg) (es : list (node * node)) : outcome :=
  match es with
  | [] => (g, None)
  | e :: r => match remove_edge_obs g e with
              | (g', None) => remove_edges_obs g' r
              | (g', Some x) => (g', Some x)
              end
  end.
Definition remove_edges_from (g : cg) (es : list (node * node)) (observed : bool) : outcome :=
  if observed then remove_edges_obs g es
  else (CG (causation g) (fold_left remove_arc es (dag g)), None).
Definition remove_edges_from_new (g : cg) (es : list (node * node)) (observed : bool) : res cg :=
  match remove_edges_from g es observed with
  | (g', None) => Ok g'
  | (_, Some x) => Err x
  end.

(** graph.py:532-547 build_sub_graph *)
Definition build_sub_graph (g : cg) (s : list node) : res cg :=
  do _ <- check_nodes (keys (causation g)) s ;
  Ok (remove_nodes_new g (diff (keys (causation g)) s)).

(** graph.py:549-583 remove_incoming_edges.  Keys other than 'n' count as observed and are removed with key 0. *)
Definition in_edges (d : mdg node) (x : list node) : list (node * node * key) :=
  filter (fun e => mem (snd (fst e)) x) (edges d).
Definition is_n (k : key) : bool := match k with Kn => true | _ => false end.
Definition remove_incoming_edges (g : cg) (x : list node) : outcome :=
  match check_nodes (keys (causation g)) x with
  | Err e => (g, Some e)
  | Ok _ =>
    let es := in_edges (dag g) x in
    let o := map fst (filter (fun e => negb (is_n (snd e))) es) in
    let u := map fst (filter (fun e => is_n (snd e)) es) in
    match remove_edges_from g o true with
    | (g', Some e) => (g', Some e)
    | (g', None) => remove_edges_from g' u false
    end
  end.
Definition remove_incoming_edges_new (g : cg) (x : list node) : res cg :=
  match remove_incoming_edges g x with (g', None) => Ok g' | (_, Some e) => Err e end.

(** graph.py:585-605 remove_outgoing_edges: only key 0 *)
Definition out_edges (d : mdg node) (x : list node) : list (node * node * key) :=
  filter (fun e => mem (fst (fst e)) x) (edges d).
Definition remove_outgoing_edges (g : cg) (x : list node) : outcome :=
  match check_nodes (keys (causation g)) x with
  | Err e => (g, Some e)
  | Ok _ => remove_edges_from g (map fst (filter (fun e => eqb (snd e) (K 0)) (out_edges (dag g) x))) true
  end.
Definition remove_outgoing_edges_new (g : cg) (x : list node) : res cg :=
  match remove_outgoing_edges g x with (g', None) => Ok g' | (_, Some e) => Err e end.

(** ** Histories of in-place calls *)
Inductive op :=
| AddNodes (ns : list node)
| AddEdge (s t : node) (observed : bool)
| AddEdges (es : list (node * node)) (observed : bool)
| RemoveNodes (ns : list node)
| RemoveEdge (e : node * node) (observed : bool)
| RemoveEdges (es : list (node * node)) (observed : bool)
| RemoveIncoming (x : list node)
| RemoveOutgoing (x : list node).

Definition exec (g : cg) (o : op) : outcome :=
  match o with
  | AddNodes ns => (add_nodes g ns, None)
  | AddEdge s t b => (add_edge g s t b, None)
  | AddEdges es b => (add_edges_from g es b, None)
  | RemoveNodes ns => (remove_nodes g ns, None)
  | RemoveEdge e b => remove_edge g e b
  | RemoveEdges es b => remove_edges_from g es b
  | RemoveIncoming x => remove_incoming_edges g x
  | RemoveOutgoing x => remove_outgoing_edges g x
  end.

(** [run g os]: execute a history, exceptions caught by the caller; the outcomes are recorded. *)
Fixpoint run (g : cg) (os : list op) : cg :=
  match os with [] => g | o :: r => run (fst (exec g o)) r end.
