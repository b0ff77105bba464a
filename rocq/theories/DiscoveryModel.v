(** Model of ylearn/causal_discovery/_base.py (BaseDiscovery) and of the post-processing of the learned weight
    matrices in _discovery.py.  Simplifications: weights are integers (any finite table of floats is a common
    multiple of one; the code only compares and adds weights); a matrix is its dimension and a function from indices
    to weights; the optimisers that learn the matrix are not modelled. *)
From Coq Require Export ZArith.
From Verif Require Import Base NxModel.
Set Implicit Arguments.

Definition matrix := nat -> nat -> Z.
Definition edge := (nat * nat)%type.

(** Python sorted(key=...), stable; [le a b] = key a may stay before key b *)
Fixpoint insert_by {A} (le : A -> A -> bool) (x : A) (l : list A) : list A :=
  match l with [] => [x] | y :: r => if le x y then x :: l else y :: insert_by le x r end.
Definition sort_by {A} (le : A -> A -> bool) (l : list A) : list A := fold_right (insert_by le) [] l.

Section Trim.
  Variable n : nat.
  Variable m : matrix.

  (** nx.from_numpy_array(matrix, create_using=nx.DiGraph): nodes 0..n-1, one edge per non-zero entry, row by row *)
  Definition nonzero_edges : list edge :=
    filter (fun e => negb (Z.eqb (m (fst e) (snd e)) 0)) (list_prod (seq 0 n) (seq 0 n)).
  Definition digraph (es : list edge) : mdg nat := MDG (seq 0 n) (map (fun e => (e, K 0)) es).
  Definition weight (e : edge) : Z := m (fst e) (snd e).

  (** nx.has_path(g, s, t) *)
  Definition has_path (es : list edge) (s t : nat) : bool :=
    mem t (closure (digraph es) (successors (digraph es)) [s]).
  (** zip(p[:-1], p[1:]) *)
  Definition path_edges (p : list nat) : list edge := combine p (tl p).
  Definition path_weight (p : list nat) : Z := fold_right (fun e s => (weight e + s)%Z) 0%Z (path_edges p).
  (** nx.all_shortest_paths(g, s, t, weight='weight') (Dijkstra), for positive weights: the simple paths of least
      weight; the path of one node when s = t. *)
  Definition shortest_paths (es : list edge) (s t : nat) : list (list nat) :=
    if Nat.eqb s t then [[s]]
    else
      let ps := simple_paths (successors (digraph es)) n [s] s t in
      filter (fun p => forallb (fun q => Z.leb (path_weight p) (path_weight q)) ps) ps.

  (** the enumeration order of the shortest paths is left open *)
  Variable ord : list (list nat) -> list (list nat).

  (** _base.py:28-31: the lightest edge of the path (the first such), removed if still there *)
  Definition trim_path (es : list edge) (p : list nat) : res (list edge) :=
    match sort_by (fun a b => Z.leb (weight a) (weight b)) (path_edges p) with
    | [] => Err IndexError
    | e :: _ => Ok (if mem e es then filter (fun x => negb (eqb x e)) es else es)
    end.
  Fixpoint foldM {A B} (f : B -> A -> res B) (l : list A) (b : B) : res B :=
    match l with [] => Ok b | a :: r => do b' <- f b a ; foldM f r b' end.

  (** _base.py:21-33 trim_with_weight; [None] = returned False *)
  Definition trim_with_weight (es : list edge) : res (option (list edge)) :=
    match find (fun e => has_path es (snd e) (fst e)) (sort_by (fun a b => Z.leb (weight b) (weight a)) es) with
    | None => Ok None
    | Some (x, y) => do es' <- foldM trim_path (ord (shortest_paths es y x)) es ; Ok (Some es')
    end.
  (** _base.py:35-36 while trim_with_weight(): pass *)
  Fixpoint trim_loop (fuel : nat) (es : list edge) : res (list edge) :=
    match fuel with
    | 0 => Err OutOfFuel
    | S f => do r <- trim_with_weight es ; match r with None => Ok es | Some es' => trim_loop f es' end
    end.
  (** nx.to_numpy_array(g) *)
  Definition to_matrix (es : list edge) : matrix := fun i j => if mem (i, j) es then m i j else 0%Z.
  (** _base.py:14-39 trim_cycle *)
  Definition trim_cycle : res matrix :=
    do es <- trim_loop (S (List.length nonzero_edges)) nonzero_edges ;
    if is_dag (digraph es) then Ok (to_matrix es) else Err AssertionError.
End Trim.

(** ** _base.py:41-66 matrix2dict *)
(** nx.dfs_edges(g, v, depth_limit = S d): the visited nodes in order of discovery, starting with [vis].  Each level
    of the recursion is one entry of networkx's explicit stack. *)
Fixpoint dfs (next : nat -> list nat) (d : nat) (v : nat) (vis : list nat) : list nat :=
  fold_left (fun vis c =>
    if mem c vis then vis
    else match d with 0 => vis ++ [c] | S d' => dfs next d' c (vis ++ [c]) end) (next v) vis.
Definition dict_set {A B} {EA : EqDec A} (d : list (A * B)) (k : A) (v : B) : list (A * B) :=
  if mem k (map fst d) then map (fun e => if eqb (fst e) k then (k, v) else e) d else d ++ [(k, v)].
Section Dict.
  Context {A : Type} {EA : EqDec A}.
  Variable n : nat.
  Variable m : matrix.
  (** g.reverse(): the successors of j are the i with an entry (i, j), in row order *)
  Definition causes (j : nat) : list nat := filter (fun i => negb (Z.eqb (m i j) 0)) (seq 0 n).
  (** depth=None means len(g); depth <= 1 behaves like 1 *)
  Definition dfs_targets (depth : option nat) (i : nat) : list nat :=
    dfs causes (Nat.pred (match depth with None => n | Some d => d end)) i [i].
  Definition matrix2dict (names : list A) (depth : option nat) : res (list (A * list A)) :=
    if negb (Nat.eqb (List.length names) n) then Err AssertionError
    else Ok (fold_left (fun d e =>
           let t := diff (dfs_targets depth (fst e)) [fst e] in
           dict_set d (snd e) (map snd (filter (fun x => mem (fst x) t) (combine (seq 0 n) names))))
         (combine (seq 0 n) names) []).
End Dict.

(** ** _base.py:68-101 matrix2array; [df] = the matrix is a DataFrame (has iloc).  The ndarray branch (91-92) reads
    the same entry twice. *)
Definition matrix2array (n : nat) (m : matrix) (df : bool) : list (nat * nat * Z) :=
  flat_map (fun row =>
    map (fun col =>
      let v := m row col in
      let vt := if df then m col row else m row col in
      if Z.leb (Z.abs vt) (Z.abs v) then (row, col, v) else (col, row, vt)) (seq (S row) (n - S row)))
    (seq 0 n).

(** ** _discovery.py:239-250 (and 394-405) _to_dag: in place, then trim_cycle *)
Definition set_cell (m : matrix) (i j : nat) (v : Z) : matrix :=
  fun a b => if Nat.eqb a i && Nat.eqb b j then v else m a b.
Definition keep_stronger (m : matrix) (i c : nat) : matrix :=
  if Z.ltb (Z.abs (m i c)) (Z.abs (m c i)) then set_cell m i c 0 else set_cell m c i 0.
Definition to_dag_loop (n : nat) (m : matrix) : matrix :=
  fold_left (fun m i => set_cell (fold_left (fun m c => keep_stronger m i c) (seq (S i) (n - S i)) m) i i 0)
    (seq 0 n) m.
Definition to_dag ord (n : nat) (m : matrix) : res matrix := trim_cycle n (to_dag_loop n m) ord.

(** _discovery.py:227-229 matrix[np.abs(matrix) < threshold] = 0; _to_dag *)
Definition threshold_cut (th : Z) (m : matrix) : matrix := fun i j => if Z.ltb (Z.abs (m i j)) th then 0%Z else m i j.
Definition discovered ord (n : nat) (th : option Z) (w : matrix) : res matrix :=
  to_dag ord n (match th with Some t => threshold_cut t w | None => w end).
