(** Model of ylearn/causal_model/model.py (class CausalModel), prob.py (class Prob) and the remaining helpers of
    causal_model/utils.py.  Sets are lists; [ord s] is the order in which Python iterates over the set [s]
    (hash-seed dependent), a parameter that every theorem quantifies over. *)
From Coq Require Import Ascii.
From Verif Require Import Base NxModel GraphModel.
Set Implicit Arguments.
Local Open Scope string_scope.
Local Open Scope list_scope.

(** ** prob.py:37-62 Prob.  The field [divisor] is never set by any caller and is omitted, so the test
    [prob.divisor or prob.product] is [prob.product]. *)
Inductive prob := Pr (variables conditional marginal : list node) (product : list prob).
Definition variables p := match p with Pr v _ _ _ => v end.
Definition conditional p := match p with Pr _ c _ _ => c end.
Definition marginal p := match p with Pr _ _ m _ => m end.
Definition product p := match p with Pr _ _ _ q => q end.

Fixpoint join (sep : string) (l : list string) : string :=
  match l with [] => "" | [x] => x | x :: r => (x ++ sep ++ join sep r)%string end.

Definition is_nil {A} (l : list A) : bool := match l with [] => true | _ => false end.

(** prob.py:64-98 Prob.parse *)
Fixpoint parse (p : prob) : string :=
  match p with
  | Pr vs cs ms ps =>
    ((if is_nil ms then "" else "\sum_{" ++ join ", " ms ++ "}") ++
     (if is_nil vs then ""
      else if is_nil cs then "P(" ++ join ", " vs ++ ")"
      else "P(" ++ join ", " vs ++ "|" ++ join ", " cs ++ ")") ++
     fold_right (fun q s => "\left[" ++ parse q ++ "\right]" ++ s) "" ps)%string
  end.

(** graph.py:134-142 CausalGraph.prob *)
Definition graph_prob (g : cg) : prob := Pr (keys (causation g)) [] [] [].

(** ** Python arguments that may be a string, a set or a list of names *)
Inductive names := Str (s : node) | SetOf (l : list node) | ListOf (l : list node).

(** [set(x) if not isinstance(x, str) else {x}] *)
Definition as_set (a : names) : list node :=
  match a with Str s => [s] | SetOf l | ListOf l => dedup l end.
(** [set("abc")] is the set of one-letter strings. *)
Fixpoint chars (s : string) : list string :=
  match s with EmptyString => [] | String c r => String c EmptyString :: chars r end.
(** [set(x)] without looking at the type *)
Definition raw_set (a : names) : list node :=
  match a with Str s => dedup (chars s) | SetOf l | ListOf l => dedup l end.
(** utils.py:97-99: what check_nodes iterates over for one argument ([filter(None, S)] drops empty ones). *)
Definition check_items (a : names) : list node :=
  match a with Str "" => [] | Str s => [s] | SetOf l | ListOf l => l end.
(** utils.py:89-100 check_nodes *)
Definition check_all (avail : list node) (args : list names) : res unit :=
  check_nodes avail (flat_map check_items args).

Fixpoint mapM {A B} (f : A -> res B) (l : list A) : res (list B) :=
  match l with
  | [] => Ok []
  | x :: r => do y <- f x ; do ys <- mapM f r ; Ok (y :: ys)
  end.
(** [[i for i in l if f(i)]] with a test that may raise *)
Fixpoint filterM {A} (f : A -> res bool) (l : list A) : res (list A) :=
  match l with
  | [] => Ok []
  | x :: r => do b <- f x ; do ys <- filterM f r ; Ok (if b : bool then x :: ys else ys)
  end.
(** [for i in l: if f(i): append; break] *)
Fixpoint firstM {A} (f : A -> res bool) (l : list A) : res (list A) :=
  match l with
  | [] => Ok []
  | x :: r => do b <- f x ; if b : bool then Ok [x] else firstM f r
  end.

(** itertools.combinations(s, i) *)
Fixpoint combinations {A} (s : list A) (i : nat) : list (list A) :=
  match i with
  | 0 => [[]]
  | S i' => match s with
            | [] => []
            | x :: r => map (cons x) (combinations r i') ++ combinations r i
            end
  end.
(** utils.py:121-140 powerset *)
Definition powerset {A} (s : list A) : list (list A) :=
  flat_map (combinations s) (seq 0 (S (List.length s))).

(** model.py:562 / 616 the graph after removing the edges out of the treatments, latent variables explicit *)
Definition modified_dag (g : cg) (t : list node) : res (mdg node) :=
  do g' <- remove_outgoing_edges_new g t ; Ok (explicit_unob_var_dag g').

(** model.py:531-567 is_valid_backdoor_set *)
Definition is_valid_backdoor_set (g : cg) (set_ : list node) (treatment outcome : names) : res bool :=
  let t := as_set treatment in
  let o := as_set outcome in
  do _ <- check_nodes (keys (causation g)) (t ++ o ++ set_) ;
  do d <- modified_dag g t ;
  d_separated d t o set_.

Inductive backdoor := BNames (l : list node) | BSets (l : list (list node)).

Section Ord.
  Variable ord : list node -> list node.

  (** model.py:622-625 determine *)
  Definition determine (g : cg) (d : mdg node) (t o : list node) : res bool :=
    if forallb (fun x => is_nil (lookup (causation g) x)) t then d_separated d t o [] else Ok true.

  (** model.py:569-692 get_backdoor_set; [Ok None] is the printed "No set can satisfy ..." with return None.
      Simplification: print_info only prints. *)
  Definition backdoor_prob (t o adset : list node) : prob :=
    Pr [] [] adset [Pr o (union t adset) [] []; Pr adset [] [] []].
  Definition get_backdoor_set (g : cg) (treatment outcome : names) (adjust : string)
    : res (option (backdoor * prob)) :=
    let t := as_set treatment in
    let o := as_set outcome in
    do _ <- check_nodes (keys (causation g)) (o ++ t) ;
    do d <- modified_dag g t ;
    do ok <- determine g d t o ;
    if negb ok then Ok None
    else if eqb adjust "simple" then
      let l := flat_map (lookup (causation g)) (ord t) in
      Ok (Some (BNames l, backdoor_prob t o (dedup l)))
    else
      do des <- mapM (nx_descendants (observed_dag g)) (ord t) ;
      let initial_set := diff (diff (diff (keys (causation g)) t) o) (List.concat des) in
      let ps := powerset (ord initial_set) in
      do sets <- (if eqb adjust "minimal" then firstM (d_separated d t o) ps else filterM (d_separated d t o) ps) ;
      do fail <- (if is_nil sets then do b <- d_separated d t o [] ; Ok (negb b) else Ok false) ;
      if fail : bool then Err IdentificationError
      else
        let sets := match sets with [] => [[]] | _ => sets end in
        let adset := hd [] sets in
        if eqb adjust "all" || eqb adjust "minimal"
        then Ok (Some (BSets sets, backdoor_prob t o adset))
        else Err IdentificationError.

  (** G.to_undirected() of a MultiDiGraph: adjacency only *)
  Definition undirected_next (d : mdg node) (v : node) : list node := dedup (neighbours d v).

  (** nx.all_simple_paths(G, source, target) for string arguments: a target that is not a node is turned into
      set(target), the set of its letters (networkx 2.x). *)
  Definition asp (d : mdg node) (next : node -> list node) (s t : node) : res (list (list node)) :=
    if negb (mem s (nodes d)) then Err NodeNotFound
    else
      let targets := if mem t (nodes d) then [t] else filter (fun c => mem c (nodes d)) (dedup (chars t)) in
      if mem s targets then Ok []
      else do ps <- mapM (all_simple_paths d next s) targets ; Ok (List.concat ps).

  Definition nthn (l : list node) (i : nat) : node := nth i l "".

  (** model.py:694-719 get_backdoor_path *)
  Definition get_backdoor_path (g : cg) (t o : node) : res (list (list node)) :=
    let d := explicit_unob_var_dag g in
    do _ <- check_all (keys (causation g)) [Str t; Str o] ;
    do ps <- asp d (undirected_next d) t o ;
    Ok (filter (fun p => Nat.ltb 2 (List.length p) && mem (nthn p 1) (predecessors d t)) ps).

  (** nx.is_path on the undirected graph *)
  Fixpoint is_path (d : mdg node) (p : list node) : bool :=
    match p with
    | a :: ((b :: _) as r) => (has_edge d a b || has_edge d b a) && is_path d r
    | _ => true
    end.

  (** model.py:721-774 has_collider.  [back d p] is the test "node in dag.predecessors(path[i-1])" of one step
      of the path, [fwd] the successor test. *)
  Definition back (d : mdg node) (a b : node) : bool := mem b (predecessors d a).
  Definition fwd (d : mdg node) (a b : node) : bool := mem b (successors d a).
  (** 766-768 / 770-772: is there a backward step? *)
  Fixpoint any_back (d : mdg node) (p : list node) : bool :=
    match p with
    | a :: ((b :: _) as r) => back d a b || any_back d r
    | _ => false
    end.
  (** 757-765: position of the first forward step: [Some r] is the path from its head on *)
  Fixpoint first_fwd (d : mdg node) (p : list node) : option (list node) :=
    match p with
    | a :: ((b :: _) as r) => if fwd d a b then Some r else first_fwd d r
    | _ => None
    end.
  Definition has_collider (g : cg) (p : list node) (backdoor_path : bool) : res bool :=
    let d := explicit_unob_var_dag g in
    do _ <- check_nodes (nodes d) p ;
    match p with
    | x :: ((y :: _) as r) =>
      let bd := backdoor_path && mem y (predecessors d x) in
      if Nat.leb (List.length p) 2 then Ok false
      else if negb (is_path d p) then Err AssertionError
      else if bd then
        if Nat.eqb (List.length p) 3 then Ok false
        else match first_fwd d p with
             | Some [_] => Ok false
             | Some q => Ok (any_back d q)
             | None => Ok (any_back d p)
             end
      else Ok (any_back d p)
    | _ => Err IndexError
    end.

  (** model.py:776-803 is_connected_backdoor_path *)
  Definition is_connected_backdoor_path (g : cg) (p : list node) : res bool :=
    let d := explicit_unob_var_dag g in
    do _ <- check_nodes (nodes d) p ;
    match p with
    | x :: y :: _ =>
      if negb (mem y (predecessors d x)) then Err AssertionError
      else
        do c <- has_collider g p true ;
        if c : bool then Ok false
        else do ps <- get_backdoor_path g x (last p x) ; Ok (mem p ps)
    | _ => Err IndexError
    end.

  (** early return of False from a loop whose body may raise *)
  Fixpoint allM {A} (f : A -> res bool) (l : list A) : res bool :=
    match l with
    | [] => Ok true
    | x :: r => do b <- f x ; if b : bool then allM f r else Ok false
    end.
  Definition notM (r : res bool) : res bool := do b <- r ; Ok (negb b).

  (** model.py:805-846 is_frontdoor_set; treatment and outcome are strings, [set(treatment)] is the set of its
      letters. *)
  Definition is_frontdoor_set (g : cg) (set_ : list node) (t o : node) : res bool :=
    do _ <- check_nodes (keys (causation g)) (set_ ++ chars t ++ chars o) ;
    do ps <- asp (observed_dag g) (successors (observed_dag g)) t o ;
    if negb (forallb (fun p => existsb (fun n => mem n set_) p) ps) then Ok false
    else
      do r2 <- allM (fun s => do bs <- get_backdoor_path g t s ;
                              allM (fun p => notM (is_connected_backdoor_path g p)) bs) (ord set_) ;
      if r2 : bool then is_valid_backdoor_set g [t] (SetOf set_) (SetOf [o]) else Ok false.

  (** model.py:885-920 the styles of get_frontdoor_set, after the arguments have been turned into names *)
  Definition frontdoor_prob (t o : node) (adset : list node) : prob :=
    Pr [] [] adset
       [Pr adset [t] [] []; Pr [] [] [t] [Pr [o] (union [t] adset) [] []; Pr [t] [] [] []]].
  Inductive frontdoor := FSet (l : list node) | FSets (l : list (list node)).
  Definition frontdoor_search (g : cg) (t o : node) (adjust : string) : res (frontdoor * prob) :=
    do ps <- asp (observed_dag g) (successors (observed_dag g)) t o ;
    let initial_set := diff (diff (dedup (List.concat ps)) [t]) [o] in
    let pset := powerset (ord initial_set) in
    if eqb adjust "simple" || eqb adjust "minimal" then
      do found <- firstM (fun s => is_frontdoor_set g s t o) pset ;
      let adset := hd [] found in
      if is_nil adset then Err IdentificationError else Ok (FSet adset, frontdoor_prob t o adset)
    else if eqb adjust "all" then
      do found <- filterM (fun s => is_frontdoor_set g s t o) pset ;
      if is_nil found then Err IdentificationError else Ok (FSets found, frontdoor_prob t o (hd [] found))
    else Err IdentificationError.
  (** model.py:848-935 get_frontdoor_set.  Also returns what is left of the caller's two containers: two sets are
      popped.  Simplification: a list argument ends in NodeNotFound (networkx looks the list up), mixed str/set
      arguments in TypeError. *)
  Definition get_frontdoor_set (g : cg) (treatment outcome : names) (adjust : string)
    : (names * names) * res (frontdoor * prob) :=
    match check_nodes (keys (causation g)) (raw_set treatment ++ raw_set outcome) with
    | Err e => ((treatment, outcome), Err e)
    | Ok _ =>
      match treatment, outcome with
      | SetOf ts, SetOf os =>
        match ts, os with
        | [t], [o] => ((SetOf [], SetOf []), frontdoor_search g t o adjust)
        | _, _ => ((treatment, outcome), Err AssertionError)
        end
      | Str t, Str o => ((treatment, outcome), frontdoor_search g t o adjust)
      | ListOf _, _ => ((treatment, outcome), Err NodeNotFound)
      | _, _ => ((treatment, outcome), Err TypeError)
      end
    end.

  (** utils.py:59-87 remove_ingo_edges(graph, True, treatment): the edges are given as pairs, so networkx removes
      one parallel edge per pair (the last one inserted). *)
  Fixpoint drop_first {A} (f : A -> bool) (l : list A) : list A :=
    match l with [] => [] | x :: r => if f x then r else x :: drop_first f r end.
  Definition remove_pair (d : mdg node) (e : node * node) : mdg node :=
    MDG (nodes d) (rev (drop_first (fun x => eqb (fst x) e) (rev (edges d)))).
  Definition remove_ingo_edges (d : mdg node) (t : node) : res (mdg node) :=
    do _ <- check_nodes (nodes d) [t] ;
    Ok (fold_left (fun d p => remove_pair d (p, t)) (predecessors d t) d).

  (** model.py:937-983 get_iv, treatment and outcome single names (a set is unhashable in parents()).
      [Ok []] stands for None. *)
  Definition get_iv (g : cg) (t o : node) : res (list node) :=
    do _ <- check_all (keys (causation g)) [Str t; Str o] ;
    let waited := dedup (lookup (causation g) t) in
    do d <- remove_ingo_edges (explicit_unob_var_dag g) t ;
    do an <- nx_ancestors d o ;
    let waited := diff waited an in
    Ok (diff waited (descendents_of_iter d an)).

  (** model.py:985-1017 is_valid_iv; raises a bare Exception (here ValueError) when there is no instrument. *)
  Definition is_valid_iv (g : cg) (t o : node) (set_ : names) : res bool :=
    do iv <- get_iv g t o ;
    if is_nil iv then Err ValueError
    else Ok (forallb (fun e => mem e iv) (as_set set_)).
End Ord.

(** ** model.py:125-241 id *)
Section Id.
  (** nx.topological_sort may list the nodes in any topological order. *)
  Variable topo : cg -> res (list node).

  (** Prob(variables={e}, conditional=set(v_topo[:v_topo.index(e)])), ValueError when e is not listed *)
  Definition factor (v_topo : list node) (e : node) : res prob :=
    match index_of e v_topo with
    | Some i => Ok (Pr [e] (firstn i v_topo) [] [])
    | None => Err ValueError
    end.

  (** [strict] is not in the code: with [strict = true] the run stops with NotImplementedError when steps 6 or 7
      are reached with a composite [prob] (one produced by an earlier step 7), which the code ignores there.
      The code is [strict = false].  Every recursive call of the Python function is one unit of fuel. *)
  Fixpoint idg (strict : bool) (fuel : nat) (y x : list node) (p : prob) (g : cg) : res prob :=
    match fuel with
    | 0 => Err OutOfFuel
    | S f =>
      let v := keys (causation g) in
      do v_topo <- topo g ;
      (* 1 *)
      if is_nil x then
        Ok (if is_nil (product p) then Pr y (conditional p) (marginal p) (product p)
            else Pr (variables p) (conditional p) (union (diff v y) (marginal p)) (product p))
      else
      (* 2 *)
      let an := ancestors g y in
      if negb (is_nil (diff v an)) then
        do g' <- build_sub_graph g an ;
        let p' := if is_nil (product p) then Pr an (conditional p) (marginal p) (product p)
                  else Pr (variables p) (conditional p) (union (diff v an) (marginal p)) (product p) in
        idg strict f y (inter x an) p' g'
      else
      (* 3 *)
      do gx <- remove_incoming_edges_new g x ;
      let w := diff (diff v x) (ancestors gx y) in
      if negb (is_nil w) then idg strict f y (union x w) p g
      else
      (* 4 *)
      let c := c_components (remove_nodes_new g x) in
      match c with
      | [] => Err IndexError
      | [s] =>
        match c_components g with
        | [] => Err IndexError
        | c0 :: cs =>
          (* 5 *)
          if seteq c0 (nodes (dag g)) then Err IdentificationError
          (* 6 *)
          else if strict && negb (is_nil (product p)) then Err NotImplementedError
          else if existsb (seteq s) (c0 :: cs) then
            do ps <- mapM (factor v_topo) s ;
            Ok (Pr [] [] (diff s y) ps)
          (* 7; no component contains s: the loop ends and the function returns None *)
          else match find (fun sub => seteq (inter s sub) s) (c0 :: cs) with
               | None => Err AttributeError
               | Some sub =>
                 do ps <- mapM (factor v_topo) sub ;
                 do g' <- build_sub_graph g sub ;
                 idg strict f y (inter x sub) (Pr [] [] [] ps) g'
               end
        end
      | _ =>
        do ps <- mapM (fun s => idg strict f s (diff v s) p g) c ;
        Ok (Pr [] [] (diff v (union y x)) ps)
      end
    end.

  Definition id_fuel (g : cg) : nat := 4 * S (List.length (keys (causation g))).
  (** model.py:165 [y, x = set(y), set(x)]: a string is split into its letters. *)
  Definition id (g : cg) (y x : names) : res prob :=
    idg false (id_fuel g) (raw_set y) (raw_set x) (graph_prob g) g.
  Definition id_strict (g : cg) (y x : names) : res prob :=
    idg true (id_fuel g) (raw_set y) (raw_set x) (graph_prob g) g.
End Id.

(** ** identify / estimate / identify_estimate *)
Section Methods.
  Variable ord : list node -> list node.
  Variable topo : cg -> res (list node).

  (** model.py:104-119: the attributes that the methods read and write. *)
  Record cm := CM { cm_graph : cg; cm_treatment : option names; cm_outcome : option names;
                    cm_adjustment_set : option (list (list node)) }.

  (** model.py:675-677: 'all' and 'minimal' remember their result in _adjustment_set. *)
  Definition get_backdoor_set_st (m : cm) (t o : names) (adjust : string) : cm * res (option (backdoor * prob)) :=
    let r := get_backdoor_set ord (cm_graph m) t o adjust in
    match r with
    | Ok (Some (BSets l, _)) => (CM (cm_graph m) (cm_treatment m) (cm_outcome m) (Some l), r)
    | _ => (m, r)
    end.

  Definition truthy (a : names) : bool :=
    match a with Str s => negb (eqb s "") | SetOf l | ListOf l => negb (is_nil l) end.

  Inductive method := Auto | General | Backdoor (style : string) | Frontdoor (style : string) | Other.
  Inductive answer := AId (p : prob) | ABackdoor (r : option (backdoor * prob)) | AFrontdoor (r : frontdoor * prob).

  (** model.py:243-328 identify.  Returns the new object, the caller's containers afterwards and the answers.
      self.treatment/self.outcome are references to the caller's containers, so a container that is emptied by
      get_frontdoor_set is also emptied there.  cached_result is not modelled. *)
  Definition identify (m : cm) (t o : names) (how : method) : cm * (names * names) * res (list answer) :=
    if negb (truthy t && truthy o) then (m, (t, o), Err AssertionError)
    else match check_all (keys (causation (cm_graph m))) [t; o] with
    | Err e => (m, (t, o), Err e)
    | Ok _ =>
      let m1 := CM (cm_graph m) (Some t) (Some o) (cm_adjustment_set m) in
      match how with
      | Auto =>
        match id topo (cm_graph m) o t with
        | Err e => (m1, (t, o), Err e)
        | Ok p =>
          match get_backdoor_set_st m1 t o "simple" with
          | (m2, Err e) => (m2, (t, o), Err e)
          | (m2, Ok b) =>
            match get_frontdoor_set ord (cm_graph m) t o "simple" with
            | (c, r) =>
              (CM (cm_graph m) (Some (fst c)) (Some (snd c)) (cm_adjustment_set m2), c,
               do f <- r ; Ok [AId p; ABackdoor b; AFrontdoor f])
            end
          end
        end
      | General => (m1, (t, o), do p <- id topo (cm_graph m) o t ; Ok [AId p])
      | Backdoor style =>
        let (m2, r) := get_backdoor_set_st m1 t o style in
        (m2, (t, o), do b <- r ; Ok [ABackdoor b])
      | Frontdoor style =>
        match get_frontdoor_set ord (cm_graph m) t o style with
        | (c, r) => (CM (cm_graph m) (Some (fst c)) (Some (snd c)) (cm_adjustment_set m), c,
                     do f <- r ; Ok [AFrontdoor f])
        end
      | Other => (m1, (t, o), Err IdentificationError)
      end
    end.

  (** What the estimator object is asked to do. *)
  Inductive covariates := CNone | CNames (l : list node) | CBackdoor (b : backdoor) | CProb (p : prob).
  Inductive event :=
  | Fit (obj : nat) (outcome treatment : option names) (covariate adjustment : covariates)
  | Estimate (obj : nat).

  Definition opt_names (o : option (list node)) : list node := match o with None => [] | Some l => l end.
  Definition opt_cov (o : option (list node)) : covariates := match o with None => CNone | Some l => CNames l end.
  Definition orelse {A} (a b : option A) : option A := match a with None => b | _ => a end.
  Definition opt_items (a : option names) : list node := match a with None => [] | Some a => check_items a end.

  (** model.py:330-431 estimate; [cols] are the data columns, [fitted] is estimator_model._is_fitted.
      Object 0 is the estimator passed in.  Simplification: adjustment and covariate are collections of names. *)
  Definition first_set (b : backdoor) : covariates :=
    match b with BNames l => CBackdoor (BNames l) | BSets l => CBackdoor (BSets l) end.
  Definition estimate (m : cm) (cols : list node) (t o : option names) (adj cov : option (list node))
             (fitted : bool) : cm * res (list event) :=
    match check_nodes cols (opt_items t ++ opt_items o ++ opt_names adj ++ opt_names cov) with
    | Err e => (m, Err e)
    | Ok _ =>
      match check_nodes (keys (causation (cm_graph m))) (opt_names adj ++ opt_names cov) with
      | Err e => (m, Err e)
      | Ok _ =>
        let o' := orelse o (cm_outcome m) in
        let t' := orelse t (cm_treatment m) in
        let fit a c := (if fitted then [] else [Fit 0 o' t' c a]) ++ [Estimate 0] in
        match adj, cov with
        | None, None =>
          match cm_adjustment_set m with
          | Some l => match l with [] => (m, Err IndexError) | s :: _ => (m, Ok (fit (CNames s) CNone)) end
          | None =>
            match cm_treatment m, cm_outcome m with
            | Some t0, Some o0 =>
              match get_backdoor_set_st m t0 o0 "simple" with
              | (m', Ok (Some (b, _))) => (m', Ok (fit (first_set b) CNone))
              | (m', Ok None) => (m', Err TypeError)
              | (m', Err e) => (m', Err e)
              end
            | _, _ => (m, Err TypeError)
            end
          end
        | _, _ =>
          let temp := match adj, cov with
                      | Some a, Some c => union (dedup a) (dedup c)
                      | Some a, None => dedup a
                      | None, Some c => dedup c
                      | None, None => []
                      end in
          match cm_treatment m, cm_outcome m with
          | Some t0, Some o0 =>
            (m, do b <- is_valid_backdoor_set (cm_graph m) temp t0 o0 ;
                if b : bool then Ok (fit (opt_cov adj) (opt_cov cov)) else Err AssertionError)
          | _, _ => (m, Err TypeError)
          end
        end
      end
    end.

  (** model.py:433-512 identify_estimate: [for sub_adj_set in adj_set] runs over the two components of the tuple
      that get_backdoor_set returns; object 0 is the estimator passed in, objects 1, 2, ... its deep copies. *)
  Definition identify_estimate (m : cm) (cols : list node) (t o : names) (style : string)
    : cm * res (list event) :=
    match check_nodes cols (check_items t ++ check_items o) with
    | Err e => (m, Err e)
    | Ok _ =>
      match check_all (keys (causation (cm_graph m))) [t; o] with
      | Err e => (m, Err e)
      | Ok _ =>
        match get_backdoor_set_st m t o style with
        | (m', Err e) => (m', Err e)
        | (m', Ok None) => (m', Err TypeError)
        | (m', Ok (Some (b, p))) =>
          (m', Ok [Fit 1 (Some o) (Some t) (CBackdoor b) CNone; Estimate 0;
                   Fit 2 (Some o) (Some t) (CProb p) CNone; Estimate 0])
        end
      end
    end.
End Methods.
