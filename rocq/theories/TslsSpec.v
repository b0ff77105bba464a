(** Specification vocabulary for NP2SLS: tables, rows of the two regressions, what the arguments mean. *)
From Coq Require Import ZArith Reals Sorting.Sorted.
From Verif Require Import Base ApiModel EstUtilsModel MetaModel MetaSpec DmlModel TslsModel.
Set Implicit Arguments.
Local Notation length := List.length.

(** a table of n rows and k columns *)
Definition rect {A} (n k : nat) (l : list (list A)) : Prop := length l = n /\ Forall (fun r => length r = k) l.
Definition orect {A} (n k : nat) (o : option (list (list A))) : Prop := match o with Some l => rect n k l | None => True end.
Definition at_row (o : option (list row)) (r : nat) : option row := option_map (fun l => nth r l []) o.

(** all products of an entry of x with an entry of v *)
Definition outer (x v : row) : row := flat_map (fun a => map (Rmult a) v) x.
(** a row of either regression: basis functions of the treatment (or instrument) times those of the covariates, then the
    adjustment variables, then the constant *)
Definition drow (x : row) (v w : option row) : row :=
  (match v with Some v => outer x v | None => x end) ++ (match w with Some w => w | None => [] end) ++ [1%R].

(** the n rows of a regression *)
Definition drows (n : nat) (x : nat -> row) (v w : option (list row)) : list row :=
  map (fun r => drow (x r) (at_row v r) (at_row w r)) (seq 0 n).

(** the basis functions an argument stands for *)
Inductive xz_means : basis -> (row -> row) -> Prop :=
  | xz_tuple d : xz_means (BTuple Poly d) (poly d)
  | xz_list d : xz_means (BList Poly d) (poly d)
  | xz_fun f : xz_means (BFun f) f.
(** of the covariates: a tuple needs covariates, a list is not accepted *)
Inductive v_means (v : option (list row)) : basis -> (row -> row) -> Prop :=
  | v_tuple d : v <> None -> v_means v (BTuple Poly d) (poly d)
  | v_fun f : v_means v (BFun f) f.

(** c are the numbers of the values r: their positions in the lists of values of the columns *)
Definition coded (cats : list (list label)) (r : list label) (c : row) : Prop :=
  length c = length cats /\
  forall j, j < length cats -> exists i, nth_error (nth j cats []) i = Some (nth j r (LInt 0)) /\ nth j c 0%R = INR i.
(** the lists of values of the columns: those which occur, in increasing order *)
Definition values_of (x : list (list label)) (cats : list (list label)) : Prop :=
  Forall (StronglySorted llt) cats /\ forall j, j < length cats -> forall a, In a (nth j cats []) <-> occurs x j a.
(** columns which do not mix numbers and strings *)
Definition one_kind (k : nat) (x : list (list label)) : Prop :=
  forall j, j < k -> exists b, forall r, In r x -> is_str (nth j r (LInt 0)) = b.

(** the treatment as numbers: [x_means x k rows cats] *)
Inductive x_means : xarg -> nat -> list row -> option (list (list label)) -> Prop :=
  | x_cont k x : x_means (XCont x) k x None
  | x_disc k x cats rows : one_kind k x -> length cats = k -> values_of x cats -> Forall (fun r => length r = k) x ->
      Forall2 (coded cats) x rows -> x_means (XDisc x) k rows (Some cats).

(** the rows an argument treat or control stands for: one row of x_d entries for all n samples, or n rows *)
Inductive rows_arg {A} (n x_d : nat) : list A -> list (list A) -> Prop :=
  | rows_one r : length r = x_d -> rows_arg n x_d r (repeat r n)
  | rows_all t : rect n x_d t -> rows_arg n x_d (List.concat t) t.
(** ... as numbers *)
Inductive t_means (n x_d : nat) (dflt : Z) : option (list (list label)) -> narg -> list row -> Prop :=
  | t_default : t_means n x_d dflt None NNone (repeat (repeat (IZR dflt) x_d) n)
  | t_num l t : rows_arg n x_d l t -> t_means n x_d dflt None (NNum l) t
  | t_val cats l vs t : rows_arg n x_d l vs -> Forall2 (coded cats) vs t -> t_means n x_d dflt (Some cats) (NVal l) t
  | t_vdefault cats t : Forall2 (coded cats) (repeat (repeat (LInt dflt) x_d) n) t -> t_means n x_d dflt (Some cats) NNone t.

(** the data an estimate is for: the training data or a data frame with all columns of the training data *)
Inductive est_data (a : nargs) (n : nat) (k_v k_w : nat) : option ndata -> nat -> option (list row) -> option (list row) -> Prop :=
  | est_train : est_data a n k_v k_w None n (n_v a) (n_w a)
  | est_new d v w : 0 < nd_n d -> nd_x d <> None ->
      match n_v a with Some _ => nd_v d = v /\ v <> None /\ orect (nd_n d) k_v v | None => v = None end ->
      match n_w a with Some _ => nd_w d = w /\ w <> None /\ orect (nd_n d) k_w w | None => w = None end ->
      est_data a n k_v k_w (Some d) (nd_n d) v w.

(** a call of fit on a data frame of n > 0 rows, with a numerical instrument z: phi, zeta, psi are the basis functions of
    treatment, instrument, covariates; x is the treatment as numbers *)
Record good_call (a : nargs) (n x_d z_d k_v k_w : nat) (x z : list row) (cats : option (list (list label)))
                 (phi zeta psi : row -> row) : Prop := mkGood {
  g_n : 0 < n; g_xd : 0 < x_d; g_zd : 0 < z_d; g_kv : 0 < k_v;
  g_y : length (n_y a) = n;
  g_x : x_means (n_x a) x_d x cats; g_xr : rect n x_d x;
  g_z : n_z a = Some (ZCont z); g_zr : rect n z_d z;
  g_v : orect n k_v (n_v a); g_w : orect n k_w (n_w a);
  g_phi : xz_means (n_xb a) phi; g_zeta : xz_means (n_zb a) zeta; g_psi : v_means (n_v a) (n_vb a) psi }.

(** a model which predicts an array of the shape of its targets *)
Definition two_d (L : learner) : Prop := forall X Y m, l_fit L X (nd_rows Y) = Ok m ->
  l_dim L m = Some (width Y) /\ forall z, length (l_pred L m z) = width Y.
