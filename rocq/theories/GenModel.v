(** Model of ylearn/exp_dataset/gen.py: random graphs, weights, samples of structural equation models, count_accuracy.
    A matrix is a function of row and column; only indices below the dimension matter.  Adjacency matrices have integer entries, weights
    and samples are exact reals.  Random numbers, igraph's and networkx' random graphs and orders, and np.linalg.inv are parameters. *)
From Coq Require Import ZArith Reals String List Bool.
From Verif Require Import Base.
Unset Implicit Arguments.
Local Notation length := List.length.
Local Open Scope string_scope.
Local Open Scope list_scope.
Local Open Scope nat_scope.

Definition zmat := nat -> nat -> Z.
Definition rmat := nat -> nat -> R.
Definition sumZ (d : nat) (f : nat -> Z) : Z := fold_right Z.add 0%Z (map f (seq 0 d)).
Definition sumR (l : list nat) (f : nat -> R) : R := fold_right Rplus 0%R (map f l).
Definition mulZ (d : nat) (A B : zmat) : zmat := fun i j => sumZ d (fun k => A i k * B k j)%Z.
Definition trZ (A : zmat) : zmat := fun i j => A j i.
(** np.tril(M, k): the entries with column <= row + k *)
Definition tril (k : Z) (M : zmat) : zmat := fun i j => if (Z.of_nat j <=? Z.of_nat i + k)%Z then M i j else 0%Z.
(** np.random.permutation(np.eye(d)): row i is row p i of the identity *)
Definition perm_eye (p : nat -> nat) : zmat := fun i j => if Nat.eqb (p i) j then 1%Z else 0%Z.
(** gen.py:33-36 _random_permutation (again 216-219): P.T @ M @ P *)
Definition random_permutation (d : nat) (p : nat -> nat) (M : zmat) : zmat := mulZ d (mulZ d (trZ (perm_eye p)) M) (perm_eye p).

Section Gen.
  Variable d : nat.
  (** igraph's is_dag on the graph of the nonzero entries *)
  Variable is_dag : (nat -> nat -> bool) -> bool.
  Definition nzZ (M : zmat) : nat -> nat -> bool := fun i j => negb (Z.eqb (M i j) 0).
  Definition nzR (W : rmat) : nat -> nat -> bool := fun i j => if Req_EM_T (W i j) 0 then false else true.

  (** gen.py:21-62 simulate_dag.  und: the adjacency matrix of the Erdos-Renyi draw; dir: of the Barabasi or bipartite draw;
      p1, p2: the permutations *)
  Definition simulate_dag (graph_type : string) (und dir : zmat) (p1 p2 : nat -> nat) : res zmat :=
    do B <- (if String.eqb graph_type "ER" then Ok (tril (-1) (random_permutation d p1 und))
             else if String.eqb graph_type "SF" || String.eqb graph_type "BP" then Ok dir
             else Err ValueError);
    let B_perm := random_permutation d p2 B in
    if is_dag (nzZ B_perm) then Ok B_perm else Err AssertionError.
  (** gen.py:229-241 simulate_er_dag: und the adjacency matrix of networkx' draw; np.tril(A_und, k=is_acyclic) *)
  Definition simulate_er_dag (und : zmat) (is_acyclic : Z) : zmat := tril is_acyclic und.
  (** gen.py:215-227 simulate_random_graph *)
  Definition simulate_random_graph (graph_type : string) (und dir : zmat) (is_acyclic : Z) (p : nat -> nat) : res zmat :=
    if String.eqb graph_type "ER" then Ok (random_permutation d p (simulate_er_dag und is_acyclic))
    else if String.eqb graph_type "SF" then Ok (random_permutation d p dir) else Err ValueError.

  (** gen.py:65-80 simulate_parameter: S the drawn ranges, u the numbers of [0, 1) behind np.random.uniform (low + (high - low) * u) *)
  Fixpoint parameter_loop (B : zmat) (S : nat -> nat -> nat) (u : nat -> rmat) (i0 : nat) (ranges : list (R * R)) (i j : nat) : R :=
    match ranges with
    | [] => 0%R
    | (lo, hi) :: ranges =>
      (IZR (B i j) * (if Nat.eqb (S i j) i0 then 1 else 0) * (lo + (hi - lo) * u i0 i j) + parameter_loop B S u (i0 + 1) ranges i j)%R
    end.
  Definition simulate_parameter (B : zmat) (ranges : list (R * R)) (S : nat -> nat -> nat) (u : nat -> rmat) : rmat :=
    fun i j => parameter_loop B S u 0 ranges i j.
  Definition default_ranges : list (R * R) := [(-2, -1/2)%R; (1/2, 2)%R].
  (** gen.py:249-260 simulate_weight_A, the slice for lag k (k_order = k + 1) *)
  Definition lag_ranges (scale low high eta : R) (k : nat) : list (R * R) :=
    let f := (1 / eta ^ k)%R in [(scale * - low * f, scale * - high * f)%R; (scale * high * f, scale * low * f)%R].
  Definition simulate_weight_A (A_bin : nat -> zmat) (scale low high eta : R) (S : nat -> nat -> nat -> nat) (u : nat -> nat -> rmat) (k : nat) : rmat :=
    simulate_parameter (A_bin k) (lag_ranges scale low high eta k) (S k) (u k).

  (** the noise argument *)
  Inductive noise := NoNoise | Scalar (s : R) | Vector (l : list R).
  (** gen.py:121-128 *)
  Definition scale_vec (s : noise) : res (nat -> R) :=
    match s with
    | NoNoise => Ok (fun _ => 1%R)
    | Scalar s => Ok (fun _ => s * 1)%R
    | Vector l => if Nat.eqb (length l) d then Ok (fun j => nth j l 0%R) else Err ValueError
    end.
  (** gen.py:197: noise_scale if noise_scale else np.ones(d): bool() of an array of several elements is a ValueError, a float is
      not subscriptable (gen.py:204) unless no vertex asks for it *)
  Definition scale_vec_nonlinear (s : noise) : res (nat -> res R) :=
    match s with
    | NoNoise => Ok (fun j => Ok 1%R)
    | Scalar s => Ok (fun j => if Req_EM_T s 0 then Ok 1%R else Err TypeError)
    | Vector [] => Ok (fun j => Ok 1%R)
    | Vector [a] => Ok (fun j => if Req_EM_T a 0 then Ok 1%R else if Nat.eqb j 0 then Ok a else Err IndexError)
    | Vector _ => Err ValueError
    end.
  Definition additive (sem : string) : bool :=
    String.eqb sem "gauss" || String.eqb sem "exp" || String.eqb sem "gumbel" || String.eqb sem "uniform".
  Definition discrete (sem : string) : bool := String.eqb sem "logistic" || String.eqb sem "poisson".
  (** gen.py:98-118 _simulate_single_equation for one row: lin = X @ w; z the noise for this scale; g the draw of a logistic or
      Poisson variable given lin.  time: gen.py:264-284 *)
  Definition single_equation (sem : string) (lin : R) (time z : R) (g : R -> R) : res R :=
    if additive sem then Ok (lin + time * z)%R else if discrete sem then Ok (g lin) else Err ValueError.
  Definition parents (E : nat -> nat -> bool) (j : nat) : list nat := filter (fun p => E p j) (seq 0 d).
  Definition set_col (X : rmat) (j : nat) (c : nat -> R) : rmat := fun i k => if Nat.eqb k j then c i else X i k.
  (** the loop over the ordered vertices: column j computed from the columns so far; the equations of all rows succeed or fail together *)
  Fixpoint fill (F : nat -> rmat -> res (nat -> R)) (order : list nat) (X : rmat) : res rmat :=
    match order with [] => Ok X | j :: order => do c <- F j X; fill F order (set_col X j c) end.
  Definition row_wise (sem : string) (f : nat -> R) (time : R) (z : nat -> R) (g : nat -> R -> R) : res (nat -> R) :=
    if additive sem || discrete sem then
      Ok (fun i => match single_equation sem (f i) time (z i) (g i) with Ok v => v | Err _ => 0%R end)
    else Err ValueError.
  Variable order : (nat -> nat -> bool) -> list nat. (* igraph's topological_sorting *)
  (** gen.py:83-146 simulate_linear_sem, n rows.  z scale j i: the noise of vertex j in row i; g j i: see single_equation *)
  Definition linear_column (W : rmat) (sem : string) (sc : nat -> R) (z : R -> nat -> nat -> R) (g : nat -> nat -> R -> R) (j : nat) (X : rmat)
    : res (nat -> R) :=
    row_wise sem (fun i => sumR (parents (nzR W) j) (fun p => X i p * W p j)%R) 1 (z (sc j) j) (g j).
  Definition simulate_linear_sem (W : rmat) (sem : string) (s : noise) (z : R -> nat -> nat -> R) (g : nat -> nat -> R -> R) : res rmat :=
    do sc <- scale_vec s;
    if negb (is_dag (nzR W)) then Err ValueError else
    let vs := order (nzR W) in
    if negb (Nat.eqb (length vs) d) then Err AssertionError else
    fill (linear_column W sem sc z g) vs (fun _ _ => 0%R).
  (** gen.py:131-137, n = inf: np.sqrt(d) * np.diag(scale_vec) @ inv(I - W) *)
  Definition population (W : rmat) (sem : string) (s : noise) (inv : rmat -> rmat) : res rmat :=
    do sc <- scale_vec s;
    if negb (is_dag (nzR W)) then Err ValueError else
    if String.eqb sem "gauss" then
      Ok (fun i j => sumR (seq 0 d) (fun k => sqrt (INR d) * (if Nat.eqb i k then sc i else 0) * inv (fun a b => (if Nat.eqb a b then 1 else 0) - W a b) k j))%R
    else Err ValueError.
  (** gen.py:380-385 gen (igraph's Erdos-Renyi draw with d edges) *)
  Definition gen (und : zmat) (p1 p2 : nat -> nat) (S : nat -> nat -> nat) (u : nat -> rmat) (s : noise) (z : R -> nat -> nat -> R) : res rmat :=
    do B <- simulate_dag "ER" und (fun _ _ => 0%Z) p1 p2;
    simulate_linear_sem (simulate_parameter B default_ranges S u) "gauss" s z (fun _ _ x => x).
  (** gen.py:149-205 simulate_nonlinear_sem: h sem j: the drawn function of the parents' columns *)
  Definition nonlinear_column (B : zmat) (sem : string) (sc : nat -> res R) (z : R -> nat -> nat -> R) (h : nat -> list (nat -> R) -> nat -> R) (j : nat)
    (X : rmat) : res (nat -> R) :=
    do s <- sc j;
    match parents (nzZ B) j with
    | [] => Ok (z s j)
    | ps => if String.eqb sem "mlp" || String.eqb sem "mim" || String.eqb sem "gp" || String.eqb sem "gp-add"
            then Ok (fun i => h j (map (fun p i => X i p) ps) i + z s j i)%R else Err ValueError
    end.
  Definition simulate_nonlinear_sem (B : zmat) (sem : string) (s : noise) (z : R -> nat -> nat -> R) (h : nat -> list (nat -> R) -> nat -> R) : res rmat :=
    do sc <- scale_vec_nonlinear s;
    let vs := order (nzZ B) in
    if negb (Nat.eqb (length vs) d) then Err AssertionError else
    fill (nonlinear_column B sem sc z h) vs (fun _ _ => 0%R).

  (** gen.py:263-316 simulate_linear_sem_with_A: lag k the matrices of the past, A k their weights; the noise of the contemporaneous
      equation is multiplied by time = 0 (only where it is added), each lag brings its own noise zl k *)
  Fixpoint add_lags (A : nat -> rmat) (lag : nat -> rmat) (sem : string) (sc : nat -> R) (zl : nat -> R -> nat -> nat -> R) (gl : nat -> nat -> nat -> R -> R)
    (j : nat) (ks : list nat) (c : nat -> R) : res (nat -> R) :=
    match ks with
    | [] => Ok c
    | k :: ks => do e <- row_wise sem (fun i => sumR (parents (nzR (A k)) j) (fun p => lag k i p * A k p j)%R) 1 (zl k (sc j) j) (gl k j);
                 add_lags A lag sem sc zl gl j ks (fun i => c i + e i)%R
    end.
  Definition lagged_column (A : nat -> rmat) (B : rmat) (lag : nat -> rmat) (ord : nat) (sem : string) (sc : nat -> R)
    (z : R -> nat -> nat -> R) (g : nat -> nat -> R -> R) (zl : nat -> R -> nat -> nat -> R) (gl : nat -> nat -> nat -> R -> R) (j : nat) (X : rmat) : res (nat -> R) :=
    do c <- row_wise sem (fun i => sumR (parents (nzR B) j) (fun p => X i p * B p j)%R) 0 (z (sc j) j) (g j);
    add_lags A lag sem sc zl gl j (seq 0 ord) c.
  Definition simulate_linear_sem_with_A (A : nat -> rmat) (B : rmat) (lag : nat -> rmat) (ord : nat) (sem : string) (s : noise)
    (z : R -> nat -> nat -> R) (g : nat -> nat -> R -> R) (zl : nat -> R -> nat -> nat -> R) (gl : nat -> nat -> nat -> R -> R) : res rmat :=
    do sc <- scale_vec s;
    if negb (is_dag (nzR B)) then Err ValueError else
    let vs := order (nzR B) in
    if negb (Nat.eqb (length vs) d) then Err AssertionError else
    fill (lagged_column A B lag ord sem sc z g zl gl) vs (fun _ _ => 0%R).

  (** gen.py:388-409 dygen, from the drawn matrices on: ord blocks of simulate_linear_sem, then step blocks from the last ord ones.
      The draws of block t are z t, g t, zl t, gl t *)
  Fixpoint dygen_loop (A : nat -> rmat) (B : rmat) (ord : nat) (s : noise) (z : nat -> R -> nat -> nat -> R) (zl : nat -> nat -> R -> nat -> nat -> R)
    (t step : nat) (blocks : list rmat) : res (list rmat) :=
    match step with
    | 0 => Ok blocks
    | S step =>
      do X <- simulate_linear_sem_with_A A B (fun k => nth k (skipn (length blocks - ord) blocks) (fun _ _ => 0%R)) ord "gauss" s
                (z t) (fun _ _ x => x) (zl t) (fun _ _ _ x => x);
      dygen_loop A B ord s z zl (t + 1) step (blocks ++ [X])
    end.
  Fixpoint base_blocks (B : rmat) (s : noise) (z : nat -> R -> nat -> nat -> R) (t n : nat) : res (list rmat) :=
    match n with
    | 0 => Ok []
    | S n => do X <- simulate_linear_sem B "gauss" s (z t) (fun _ _ x => x); do r <- base_blocks B s z (t + 1) n; Ok (X :: r)
    end.
  Definition dygen (A : nat -> rmat) (B : rmat) (ord step : nat) (s : noise) (z : nat -> R -> nat -> nat -> R) (zl : nat -> nat -> R -> nat -> nat -> R)
    : res (list rmat) :=
    if Nat.leb ord step then
      do b <- base_blocks B s z 0 ord; do r <- dygen_loop A B ord s z zl ord step b;
      (* without base blocks: np.append to an array of one dimension, or Xbase.shape[2] of it *)
      if Nat.eqb ord 0 then Err (if Nat.eqb step 0 then IndexError else ValueError) else Ok r
    else Err AssertionError.

  (** gen.py:318-377 count_accuracy: an entry is known by its row and column (its linear index); intersect1d and setdiff1d on lists
      without repetitions, only the lengths are used *)
  Definition cells : list (nat * nat) := list_prod (seq 0 d) (seq 0 d).
  Definition cells_of (P : nat -> nat -> bool) : list (nat * nat) := filter (fun c => P (fst c) (snd c)) cells.
  Definition inb (l : list (nat * nat)) (c : nat * nat) : bool := existsb (fun e => Nat.eqb (fst e) (fst c) && Nat.eqb (snd e) (snd c)) l.
  Definition intersect (a b : list (nat * nat)) := filter (inb b) a.
  Definition setdiff (a b : list (nat * nat)) := filter (fun c => negb (inb b c)) a.
  Record accuracy := mkAcc { fdr : R; tpr : R; fpr : R; shd : nat; nnz : nat }.
  Definition count_accuracy (B_true B_est : zmat) : accuracy :=
    let pred_und := cells_of (fun i j => Z.eqb (B_est i j) (-1)) in
    let pred := cells_of (fun i j => Z.eqb (B_est i j) 1) in
    let cond := cells_of (nzZ B_true) in
    let cond_reversed := cells_of (nzZ (trZ B_true)) in
    let cond_skeleton := cond ++ cond_reversed in
    let true_pos := intersect pred cond ++ intersect pred_und cond_skeleton in
    let false_pos := setdiff pred cond_skeleton ++ setdiff pred_und cond_skeleton in
    let extra := setdiff pred cond in
    let reverse := intersect extra cond_reversed in
    let pred_size := length pred + length pred_und in
    let cond_neg_size := (1 / 2 * INR d * (INR d - 1) - INR (length cond))%R in
    let pred_lower := cells_of (nzZ (tril 0 (fun i j => B_est i j + B_est j i)%Z)) in
    let cond_lower := cells_of (nzZ (tril 0 (fun i j => B_true i j + B_true j i)%Z)) in
    mkAcc (INR (length reverse + length false_pos) / INR (Nat.max pred_size 1))
          (INR (length true_pos) / INR (Nat.max (length cond) 1))
          (INR (length reverse + length false_pos) / Rmax cond_neg_size 1)
          (length (setdiff pred_lower cond_lower) + length (setdiff cond_lower pred_lower) + length reverse)
          pred_size.
End Gen.
