(** Model of ylearn/bayesian: _dag.py, _base.py (node states), _collectors.py, _network.py.
    Simplifications: node names are ASCII strings; a networkx DiGraph is the multigraph record of NxModel with one
    edge per pair; tensors are abstract values; pyro's distributions, guides and optimisers are parameters. *)
From Coq Require Import QArith.
From Verif Require Export Base NxModel UtilsModel.
Open Scope nat_scope.
Open Scope list_scope.
Set Implicit Arguments.

(** ** Python's sorted() *)
Fixpoint ins {A} (leb : A -> A -> bool) (x : A) (l : list A) : list A :=
  match l with [] => [x] | y :: r => if leb x y then x :: l else y :: ins leb x r end.
Fixpoint sorted {A} (leb : A -> A -> bool) (l : list A) : list A :=
  match l with [] => [] | x :: r => ins leb x (sorted leb r) end.
(** order of ASCII strings *)
Fixpoint str_leb (s t : str) : bool :=
  match s, t with
  | [], _ => true
  | _ :: _, [] => false
  | a :: r, b :: u =>
      if Nat.ltb (nat_of_ascii a) (nat_of_ascii b) then true
      else if Nat.ltb (nat_of_ascii b) (nat_of_ascii a) then false else str_leb r u
  end.

Fixpoint mapE {X Y} (f : X -> res Y) (l : list X) : res (list Y) :=
  match l with [] => Ok [] | x :: r => do y <- f x ; do ys <- mapE f r ; Ok (y :: ys) end.

(** ** Python dictionaries: association lists, first match counts *)
Definition dict (V : Type) := list (str * V).
Definition dget {V} (d : dict V) (k : str) : option V :=
  match find (fun e => eqb (fst e) k) d with Some e => Some (snd e) | None => None end.
Definition dset {V} (d : dict V) (k : str) (v : V) : dict V :=
  if mem k (map fst d) then map (fun e => if eqb (fst e) k then (k, v) else e) d else d ++ [(k, v)].
(** d.update(e) *)
Definition dupdate {V} (d e : dict V) : dict V := fold_left (fun d p => dset d (fst p) (snd p)) e d.

(** ** _dag.py *)
Notation graph := (mdg str).
(** networkx weakly_connected_components: one component per node not seen before *)
Fixpoint wcc_count (g : graph) (vs seen : list str) : nat :=
  match vs with
  | [] => 0
  | v :: r => if mem v seen then wcc_count g r seen
              else S (wcc_count g r (seen ++ closure g (neighbours g) [v]))
  end.
Definition n_wcc (g : graph) : nat := wcc_count g (nodes g) [].

(** the argument of DAG(...): a CausalGraph (its .dag), a networkx graph, or anything nx.DiGraph accepts (adjacency
    DataFrame, dict, edge list), given as the resulting graph *)
Inductive graph_arg := GCausal (dag : graph) | GNx (directed : bool) (g : graph) | GOther (g : graph).
(** nx.DiGraph(edge list with attribute dictionaries) *)
Definition of_edges (es : list (str * str * key)) : graph :=
  fold_left (fun g e => add_edge_key g (fst (fst e)) (snd (fst e)) (K 0)) es empty_mdg.
(** nx.DiGraph(G.edges) of a MultiDiGraph: the items are (u, v, key) and the key is not a dictionary of attributes, so
    networkx raises NetworkXError ("Input is not a valid edge list") unless there are no edges *)
Definition of_multi_edges (es : list (str * str * key)) : res graph :=
  match es with [] => Ok empty_mdg | _ => Err NetworkXError end.
(** _dag.py:24-31: the checks of DiGraph(graph, acyclic=True); an undirected graph is never "acyclic directed" *)
Definition check_dag (directed : bool) (g : graph) : res unit :=
  if negb (directed && is_dag g) then Err ValueError
  else if Nat.ltb 1 (n_wcc g) then Err ValueError else Ok tt.
(** _dag.py:11-33, 275-278 DAG(graph) *)
Definition dag_init (a : graph_arg) : res graph :=
  match a with
  | GCausal g => do _ <- check_dag true g ; of_multi_edges (edges g)
  | GNx directed g => do _ <- check_dag directed g ; Ok (of_edges (edges g))
  | GOther g => do _ <- check_dag true g ; Ok g
  end.

Section Dag.
  (** nx.topological_sort: some topological order *)
  Variable tsort : graph -> list str.

  (** _dag.py:35-39 is_dag *)
  Definition is_dag1 (g : graph) : bool := is_dag g && Nat.eqb (n_wcc g) 1.
  (** _dag.py:41-60 topo_sorted_nodes *)
  Definition topo_sorted_nodes (g : graph) : res (list str) := if is_dag1 g then Ok (tsort g) else Err ValueError.
  (** _dag.py:147-152 sort_nodes *)
  Definition sort_nodes (g : graph) (topo : bool) (l : list str) : res (list str) :=
    if topo then do t <- topo_sorted_nodes g ; Ok (filter (fun n => mem n l) t) else Ok (sorted str_leb l).
  (** _dag.py:68-72; predecessors/successors of an unknown node: NetworkXError *)
  Definition get_parents (g : graph) (n : str) : res (list str) :=
    if mem n (nodes g) then Ok (sorted str_leb (predecessors g n)) else Err NetworkXError.
  Definition get_children (g : graph) (n : str) : res (list str) :=
    if mem n (nodes g) then Ok (sorted str_leb (successors g n)) else Err NetworkXError.

  (** to_list followed by "for node in nodes" *)
  Definition node_list (nodes : names_arg) : res (list str) :=
    do l <- to_list nodes ; match l with Some l => Ok l | None => Err TypeError end.
  (** _dag.py:74-85 get_upstream_blanket *)
  Definition upstream (g : graph) (ns : names_arg) (self topo : bool) : res (list str) :=
    do l <- node_list ns ;
    do ps <- mapE (get_parents g) l ;
    sort_nodes g topo (dedup (List.concat ps ++ (if self then l else []))).
  (** _dag.py:87-98 get_downstream_blanket *)
  Definition downstream (g : graph) (ns : names_arg) (self topo : bool) : res (list str) :=
    do l <- node_list ns ;
    do cs <- mapE (get_children g) l ;
    sort_nodes g topo (dedup (List.concat cs ++ (if self then l else []))).
  (** _dag.py:100-125 get_markov_blanket *)
  Definition markov (g : graph) (ns : names_arg) (self topo : bool) : res (list str) :=
    do l <- node_list ns ;
    do pcs <- mapE (fun n => do p <- get_parents g n ; do c <- get_children g n ; Ok (p, c)) l ;
    let parents := List.concat (map fst pcs) in
    let children := List.concat (map snd pcs) in
    do cps <- mapE (get_parents g) (dedup children) ;
    let blanket := dedup (parents ++ children ++ List.concat cps) in
    sort_nodes g topo (if self then dedup (blanket ++ l) else diff blanket l).

  Inductive kind := Markov | Downstream | Upstream.
  (** "for n in nodes" over the raw argument: a string yields its characters *)
  Definition raw_items (ns : names_arg) : list str :=
    match ns with NList l | NTuple l => l | NStr s => map (fun c => [c]) s | NNone | NOther => [] end.
  (** _dag.py:127-139 get_blanket *)
  Definition get_blanket (g : graph) (ns : names_arg) (k : kind) (self topo : bool) : res (list str) :=
    do b <- (match k with Markov => markov | Downstream => downstream | Upstream => upstream end) g ns true topo ;
    Ok (if self then b
        else fold_left (fun b n => if mem n b then remove1 n b else b) (raw_items ns) b).
End Dag.

(** ** _base.py:51-76 CategoryNodeState *)
Section Category.
  Context {C : Type}.
  Variable leb : C -> C -> bool. (* order of the class values *)
  (** np.searchsorted(a, v), side 'left': bisection on positions lo..hi *)
  Fixpoint bisect (fuel : nat) (a : list C) (v : C) (lo hi : nat) : nat :=
    match fuel with
    | 0 => lo
    | S f =>
        if Nat.leb hi lo then lo
        else let mid := lo + Nat.div2 (hi - lo) in
             match nth_error a mid with
             | Some x => if negb (leb v x) then bisect f a v (S mid) hi else bisect f a v lo mid
             | None => lo
             end
    end.
  Definition searchsorted (a : list C) (v : C) : nat := bisect (S (List.length a)) a v 0 (List.length a).
  (** CategoryNodeState(classes) *)
  Definition category_state (classes : list C) : res (list C) :=
    if Nat.leb 2 (List.length classes) then Ok (sorted leb classes) else Err AssertionError.
  Definition encode (st : list C) (v : C) : nat := searchsorted st v.
  (** np.take *)
  Definition decode (st : list C) (i : nat) : res C :=
    match nth_error st i with Some c => Ok c | None => Err IndexError end.
End Category.

(** ** _network.py:98-152 BayesianModel.model *)
Section Sampling.
  Context {V : Type}.
  Variables (tsort : graph -> list str) (g : graph).
  (** what a node's module receives: the parents' values, or the column "<node>_inputs" when the data has one *)
  Inductive inputs := Cols (l : list V) | Given (v : V).
  Variable F : str -> inputs -> V. (* one draw of the node's distribution; the random source is fixed *)
  Variable cond : dict V.          (* values forced by poutine.condition / pyro.do handlers around the model *)
  Variable data : dict V.

  Definition inputs_name (n : str) : str := n ++ list_ascii_of_string "_inputs".
  (** lines 108-115 find_missing_inputs *)
  Fixpoint find_missing (fuel : nat) (ns : list str) : res (list str) :=
    match fuel with
    | 0 => Err OutOfFuel
    | S f =>
        do ms <- mapE (fun n =>
          do ps <- get_parents g n ;
          do qs <- mapE (fun p =>
            if negb (mem p ns) && negb (mem p (map fst data))
            then do m <- find_missing f [p] ; Ok (p :: m) else Ok []) ps ;
          Ok (List.concat qs)) ns ;
        Ok (dedup (List.concat ms))
    end.
  (** the value of pyro.sample(node, dist, obs=...): a conditioned value wins over the observation, which wins over a
      draw *)
  Definition site (n : str) (i : inputs) : V :=
    match dget cond n with
    | Some v => v
    | None => match dget data n with Some v => v | None => F n i end
    end.
  (** lines 126-148: the sampling loop *)
  Definition input_value (ps : dict V) (p : str) : res V :=
    match dget ps p with
    | Some v => Ok v
    | None => match dget data p with Some v => Ok v | None => Err KeyError end
    end.
  Definition sample_node (ps : dict V) (n : str) : res (dict V) :=
    do parents <- get_parents g n ;
    do i <- (match dget data (inputs_name n) with
             | Some v => Ok (Given v)
             | None => do l <- mapE (input_value ps) parents ; Ok (Cols l)
             end) ;
    Ok (dset ps n (site n i)).
  Fixpoint sample_loop (order : list str) (ps : dict V) : res (dict V) :=
    match order with [] => Ok ps | n :: r => do ps' <- sample_node ps n ; sample_loop r ps' end.
  Definition model (ns : option (list str)) : res (dict V) :=
    match ns with
    | None => do order <- topo_sorted_nodes tsort g ; sample_loop order []
    | Some ns =>
        do missing <- find_missing (S (List.length (nodes g))) ns ;
        do order <- sort_nodes tsort g true (ns ++ missing) ;
        do ps <- sample_loop order [] ;
        Ok (filter (fun e => mem (fst e) ns) ps)
    end.
End Sampling.
Arguments inputs V : clear implicits.

(** ** _network.py: the network object *)
Section Network.
  (** values as the user writes them, encoded values, parameter stores, optimiser results *)
  Context {P V St : Type}.
  Variables (tsort : graph -> list str) (g : graph).
  Record net := Net {
    fitted : bool;
    columns : list str;             (* the keys of state_ *)
    intervs : option (dict P);      (* interventions_ *)
    params : dict V;                (* params_ *)
    pstate : option St              (* pyro_param_state_ *)
  }.
  (** type(self)(graph) *)
  Definition new_net : net := Net false [] None [] None.
  Variable enc : str -> P -> V. (* state_[k].encode *)
  (** the optimisation: from the contents of the global parameter store and the inputs to a new store and params *)
  Variable svi_fit : option St -> list str -> St * dict V.
  Variable svi_do : option St -> dict V -> list str -> option (list str) -> St * dict V.

  (** 532-551 _get_stub, deepcopy of an object: values are immutable here, so a copy is the value itself *)
  Definition truthy (i : option (dict P)) : dict P := match i with Some d => d | None => [] end.

  (** _network.py:229-233, 586-644 fit (inplace=True): with_pyro_ps_ loads the previous parameters into the store *)
  Definition fit (o : net) (cols : list str) : res net :=
    if negb (subset (nodes g) cols) then Err AssertionError
    else
      let r := svi_fit (pstate o) cols in
      Ok (Net true cols (intervs o) (snd r) (Some (fst r))).

  (** _network.py:646-708 do; result: (self afterwards, returned object or exception).  [dcols]: the columns of the
      data argument; n_samples defaults to 100 *)
  Definition encode_all (o : net) (d : dict P) : res (dict V) :=
    mapE (fun e => if mem (fst e) (columns o) then Ok (fst e, enc (fst e) (snd e)) else Err KeyError) d.
  Definition set_intervs (o : net) (d : dict P) : net := Net (fitted o) (columns o) (Some d) (params o) (pstate o).
  Definition do_ (o : net) (iv : dict P) (data : option (list str * nat)) (n_samples : nat) (k : kind)
      (epochs : nat) (inplace : bool) : net * res net :=
    if negb (fitted o) then (o, Err AssertionError)
    else match iv with
    | [] => (o, Err AssertionError)
    | _ =>
      let merged := dupdate (truthy (intervs o)) iv in
      (* a non-empty interventions_ is the very dictionary that .update() changes *)
      let touched := match truthy (intervs o) with [] => o | _ => set_intervs o merged end in
      let self := if inplace then touched else o in
      let body :=
        do e <- encode_all o merged ;
        do dc <- (match data with
                  | None => Ok (None, n_samples)
                  | Some (cols, n) =>
                      let cols := dedup (cols ++ map fst iv) in
                      if subset cols (columns o) then Ok (Some cols, n) else Err KeyError
                  end) ;
        do b <- get_blanket tsort g (NList (map fst iv)) k false false ;
        if negb (Nat.eqb epochs 0) && Nat.eqb (List.length b * snd dc) 0 then Err ZeroDivisionError
        else
          let r := svi_do (pstate o) e b (fst dc) in
          Ok (Net (fitted o) (columns o) (Some merged) (snd r) (Some (fst r))) in
      match body with
      | Ok n => (if inplace then n else o, Ok n)
      | Err e => (self, Err e)
      end
    end.

  (** _network.py:268-274 and 311-316: sample/predict merge the encoded interventions into params_ itself *)
  Definition conditioned (o : net) : res (net * dict V) :=
    match truthy (intervs o) with
    | [] => Ok (o, params o)
    | d => do e <- encode_all o d ;
           let p := dupdate (params o) e in
           Ok (Net (fitted o) (columns o) (intervs o) p (pstate o), p)
    end.

  Variable F : str -> inputs V -> V.
  (** _network.py:282-331 predict, one draw; [data]: the encoded columns.  Result: self afterwards and the sampled
      values *)
  Definition predict_draw (o : net) (data : dict V) (outcome : list str) : res (net * dict V) :=
    if negb (fitted o) then Err AssertionError
    else
      let test := filter (fun e => negb (mem (fst e) outcome)) data in
      do c <- conditioned o ;
      do ps <- model tsort g F (snd c) test None ;
      Ok (fst c, filter (fun e => mem (fst e) outcome) ps).
  (** _network.py:449-517 estimate, one draw of one arm; [kv] is treat_kv or control_kv *)
  Definition estimate_draw (o : net) (data : dict V) (outcome : list str) (kv : dict V) : res (dict V) :=
    do ns <- get_blanket tsort g (NList outcome) Upstream true true ;
    do ps <- model tsort g F (dupdate (params o) kv) data (Some ns) ;
    Ok (filter (fun e => mem (fst e) outcome) ps).
End Network.
Arguments net P V St : clear implicits.

(** ** _network.py:42-66 with_pyro_ps: the global parameter store around a decorated call.  [fn] gets the contents of
    the store and returns its contents afterwards and the outcome *)
Definition with_pyro_ps {St R} (empty : St) (check fitted resume : bool) (param_state : option St)
    (fn : St -> St * res R) (store : St) : St * res R :=
  if check && negb fitted then (store, Err AssertionError)
  else if resume then
    let old := store in
    let cleared := empty in
    let loaded := match param_state with Some s => s | None => cleared end in
    let (_, r) := fn loaded in
    (old, r)
  else fn store.

(** ** _collectors.py.  Tensors are vectors in a heap, named by locations: "+=" works in place *)
Section Collectors.
  Definition vec := list Q.
  Definition heap := nat -> vec.
  Definition upd (h : heap) (l : nat) (v : vec) : heap := fun k => if Nat.eqb k l then v else h k.
  Definition vadd (a b : vec) : vec := map (fun p => (fst p + snd p)%Q) (combine a b).
  (** NumberSampleCollector: value (a location) and n_sample *)
  Record ncoll := NColl { value : option nat; n_sample : nat }.
  Definition new_ncoll : ncoll := NColl None 0.
  (** _collectors.py:14-19 __call__ with the tensor at location l *)
  Definition ncall (s : heap * ncoll) (l : nat) : heap * ncoll :=
    let (h, c) := s in
    match value c with
    | None => (h, NColl (Some l) (S (n_sample c)))
    | Some v => (upd h v (vadd (h v) (h l)), NColl (Some v) (S (n_sample c)))
    end.
  (** _collectors.py:21-22 to: a collector that was never called has no value (None / 0: TypeError) *)
  Definition nto (h : heap) (c : ncoll) : res vec :=
    match value c with
    | None => Err TypeError
    | Some v => Ok (map (fun x => (x / inject_Z (Z.of_nat (n_sample c)))%Q) (h v))
    end.
  Definition ncollect (h : heap) (ls : list nat) : heap * ncoll := fold_left ncall ls (h, new_ncoll).

  (** CategorySampleCollector: one-hot rows are fresh tensors, so values are enough.  One row per sample unit. *)
  Definition onehot (k i : nat) : list nat := map (fun j => if Nat.eqb j i then 1 else 0) (seq 0 k).
  Definition madd (a b : list (list nat)) : list (list nat) :=
    map (fun p => map (fun q => fst q + snd q) (combine (fst p) (snd p))) (combine a b).
  (** _collectors.py:35-41; index_select raises IndexError for an index out of range *)
  Definition ccall (k : nat) (s : option (list (list nat)) * nat) (v : list nat) : res (option (list (list nat)) * nat) :=
    if forallb (fun i => Nat.ltb i k) v then
      let oh := map (onehot k) v in
      Ok (match fst s with None => Some oh | Some a => Some (madd a oh) end, S (snd s))
    else Err IndexError.
  Fixpoint ccollect (k : nat) (s : option (list (list nat)) * nat) (vs : list (list nat)) :=
    match vs with [] => Ok s | v :: r => do s' <- ccall k s v ; ccollect k s' r end.
  (** _collectors.py:43-47, proba=True: column i of value / n_sample *)
  Definition cproba (s : option (list (list nat)) * nat) : res (list (list Q)) :=
    match fst s with
    | None => Err TypeError
    | Some m => Ok (map (map (fun x => (inject_Z (Z.of_nat x) / inject_Z (Z.of_nat (snd s)))%Q)) m)
    end.
  (** torch.argmax over a row: the index of a maximal entry (the first one, for CPU tensors) *)
  Fixpoint argmax_from (i best : nat) (bv : nat) (l : list nat) : nat :=
    match l with [] => best | x :: r => if Nat.ltb bv x then argmax_from (S i) i x r else argmax_from (S i) best bv r end.
  Definition argmax (l : list nat) : nat := match l with [] => 0 | x :: r => argmax_from 1 0 x r end.
  (** _collectors.py:48-50, proba=False *)
  Definition cmode {C} (classes : list C) (s : option (list (list nat)) * nat) : res (list C) :=
    match fst s with
    | None => Err TypeError
    | Some m => mapE (fun row => decode classes (argmax row)) m
    end.
End Collectors.
