(** Model of ylearn/estimator_model/approximation_bound.py (ApproxBound) for discrete treatments and one outcome.  The two
    machine-learning models are parameters; numbers are exact reals.  Simplifications: the models are fitted in place but
    taken not to be shared with other objects; predictions of the outcome model have shape (n,). *)
From Coq Require Import ZArith Reals.
From Verif Require Import Base ApiModel EstUtilsModel MetaModel CrossFitModel.
Unset Implicit Arguments.
Local Notation length := List.length.
Local Notation concat := List.concat.

(** an ApproxBound object: encoders, _is_fitted, x_prob, _v, whether the covariate argument of the last fit was given, _y,
    x_label, _x_d, the fitted x_model and y_model *)
Record ab (Lx Ly : learner) := mkAB {
  b_enc : encs; b_isf : bool; b_prob : option (list row); b_v : option (list row); b_named : bool; b_y : list row;
  b_x : list Z; b_xd : nat; b_mx : option (Mdl Lx); b_my : option (Mdl Ly) }.
Arguments b_enc {Lx Ly} _. Arguments b_isf {Lx Ly} _. Arguments b_prob {Lx Ly} _. Arguments b_v {Lx Ly} _. Arguments b_named {Lx Ly} _.
Arguments b_y {Lx Ly} _. Arguments b_x {Lx Ly} _. Arguments b_xd {Lx Ly} _. Arguments b_mx {Lx Ly} _. Arguments b_my {Lx Ly} _.

(** approximation_bound.py:49-89 __init__ with x_prob None or a vector (kept as one row) *)
Definition ab_new (Lx Ly : learner) (x_prob : option row) : ab Lx Ly :=
  mkAB Lx Ly no_encs false (option_map (fun p => [p]) x_prob) None false [] [] 0 None None.

Definition ab_enc {Lx Ly : learner} {A} (m : M encs A) : M (ab Lx Ly) A :=
  fun s => let (e, r) := m (b_enc s) in
           (mkAB Lx Ly e (b_isf s) (b_prob s) (b_v s) (b_named s) (b_y s) (b_x s) (b_xd s) (b_mx s) (b_my s), r).
Definition ab_begin {Lx Ly : learner} (named : bool) y (s : ab Lx Ly) : ab Lx Ly :=
  mkAB Lx Ly (b_enc s) (b_isf s) (b_prob s) (b_v s) named y (b_x s) (b_xd s) (b_mx s) (b_my s).
Definition ab_labels {Lx Ly : learner} x xd (s : ab Lx Ly) : ab Lx Ly :=
  mkAB Lx Ly (b_enc s) (b_isf s) (b_prob s) (b_v s) (b_named s) (b_y s) x xd (b_mx s) (b_my s).
Definition ab_prob {Lx Ly : learner} p (s : ab Lx Ly) : ab Lx Ly :=
  mkAB Lx Ly (b_enc s) (b_isf s) (Some p) (b_v s) (b_named s) (b_y s) (b_x s) (b_xd s) (b_mx s) (b_my s).
Definition ab_mx {Lx Ly : learner} m (s : ab Lx Ly) : ab Lx Ly :=
  mkAB Lx Ly (b_enc s) (b_isf s) (b_prob s) (b_v s) (b_named s) (b_y s) (b_x s) (b_xd s) (Some m) (b_my s).
Definition ab_v {Lx Ly : learner} v (s : ab Lx Ly) : ab Lx Ly :=
  mkAB Lx Ly (b_enc s) (b_isf s) (b_prob s) v (b_named s) (b_y s) (b_x s) (b_xd s) (b_mx s) (b_my s).
Definition ab_done {Lx Ly : learner} m (s : ab Lx Ly) : ab Lx Ly :=
  mkAB Lx Ly (b_enc s) true (b_prob s) (b_v s) (b_named s) (b_y s) (b_x s) (b_xd s) (b_mx s) (Some m).

(** one data set: treatment columns, covariate columns (None: no covariate argument), outcome columns *)
Record abdata := mkAbData { q_x : list (list label); q_v : option (list row); q_y : list row }.

(** np.unique(x_label, return_counts=True)[1] / n: the shares of the labels that occur, in the order of the labels (labels
    are the numbers 0, ..., x_d - 1) *)
Definition count_label (labels : list Z) (k : nat) : nat := length (filter (fun z => (z =? Z.of_nat k)%Z) labels).
Definition shares (labels : list Z) (x_d : nat) : row :=
  map (fun c => (INR c / INR (length labels))%R) (filter (fun c => negb (c =? 0)) (map (count_label labels) (seq 0 x_d))).

(** model.predict_proba(X) as rows *)
Definition proba_rows (L : learner) (m : Mdl L) (X : list row) : list row :=
  map (fun x => map (fun i => nth i (l_proba L m x) 0%R) (seq 0 (n_classes L m))) X.

(** approximation_bound.py:91-177 fit.  [disc_cov]: is_discrete_covariate; OneHotEncoder().fit_transform gives a sparse
    matrix, which np.concatenate rejects (ValueError); the columns of that matrix are not modelled. *)
Definition ab_fit (Lx Ly : learner) (categories : option (list (list label))) (disc_cov : bool) (a : abdata) : M (ab Lx Ly) unit :=
  mdo _ <- mset (ab_begin (match q_v a with Some _ => true | None => false end) (q_y a));
  mdo s <- mget;
  mdo z <- ab_enc (sl_comp (b_isf s) (q_x a) categories);
  let labels := convert4onehot z in
  mdo _ <- mset (ab_labels labels (width z));
  mdo s <- mget;
  mdo _ <- (match b_prob s with
            | None => match q_v a with
                      | Some v => mdo m <- mlift (l_fit Lx v (nd_vec (map IZR labels)));
                                  mdo _ <- mset (ab_mx m);
                                  mset (ab_prob (proba_rows Lx m v))
                      | None => mset (ab_prob [shares labels (width z)])
                      end
            | Some p => mset (ab_prob [concat p])
            end);
  mdo _ <- mset (ab_v (q_v a));
  mdo xv <- mlift (match q_v a, b_prob s with
                   | Some _, None => if disc_cov then Err ValueError else get_wv [Some (to_rows z); q_v a]
                   | _, _ => get_wv [Some (to_rows z); q_v a]
                   end);
  mdo m <- mlift (l_fit Ly xv (squeeze (nd_rows (q_y a))));
  mset (ab_done m).

(** y_treat.max(axis=0), y_treat.min(axis=0): ValueError without rows *)
Definition vmax (l : row) : res R := match l with [] => Err ValueError | a :: r => Ok (fold_left Rmax r a) end.
Definition vmin (l : row) : res R := match l with [] => Err ValueError | a :: r => Ok (fold_left Rmin r a) end.

(** entry r of a vector with one or n entries (broadcasting) *)
Definition vat (v : row) (r : nat) : R := nth (if length v =? 1 then 0 else r) v 0%R.
Definition vsize (a b : row) : res nat :=
  if length a =? length b then Ok (length a) else if length a =? 1 then Ok (length b) else if length b =? 1 then Ok (length a) else Err ValueError.

(** the six vectors of _prepare4est *)
Record abounds := mkBounds { r_lower : row; r_upper : row; r_u1 : row; r_l1 : row; r_u2 : row; r_l2 : row }.

(** approximation_bound.py:374-383 *)
Definition bound_upper (U L pt p0 yt y0 : R) : R := (pt * yt + (1 - pt) * U - (1 - p0) * L - p0 * y0)%R.
Definition bound_lower (U L pt p0 yt y0 : R) : R := (pt * yt + (1 - pt) * L - (1 - p0) * U - p0 * y0)%R.
Definition bound_u1 (U L pt p0 yt y0 : R) : R := (pt * yt - (1 - p0) * L + (1 - pt - p0) * U)%R.
Definition bound_l1 (U L pt p0 yt y0 : R) : R := (p0 * bound_lower U L pt p0 yt y0 - p0 * y0)%R.
Definition bound_u2 (U L pt p0 yt y0 : R) : R := (yt - pt * bound_lower U L pt p0 yt y0 - p0 * y0)%R.
Definition bound_l2 (U L pt p0 yt y0 : R) : R := (pt * yt + p0 * bound_lower U L pt p0 yt y0 - y0)%R.

(** x_prob[:, t] *)
Definition prob_col (t : Z) (p : list row) : res row :=
  mapX (fun r => if (t <? 0)%Z then Err IndexError else match nth_error r (Z.to_nat t) with Some a => Ok a | None => Err IndexError end) p.

(** get_groups(t, x.reshape(-1, 1), False, y)[0] for one outcome *)
Definition group_rows (mask : list bool) (y : list row) : res row := do g <- bool_index mask y; Ok (map (fun r => nth 0 r 0%R) g).

(** a treatment value of the data compared with a group number *)
Definition label_is (t : Z) (a : label) : bool := match a with LInt z => (z =? t)%Z | LStr _ => false end.

(** the data an estimate works on: n, v, y, x_prob, and which rows are in the treat and in the control group *)
Record abwork := mkWork { k_n : nat; k_v : option (list row); k_y : list row; k_p : list row; k_tr : list bool; k_ct : list bool }.

(** approximation_bound.py:354-383, the part of _prepare4est after the data are there.  Simplification: several outcomes are
    not modelled. *)
Definition ab_bounds (Ly : learner) (x_d : nat) (my : option (Mdl Ly)) (t c : Z) (y_upper y_lower : option R) (w : abwork) : res abounds :=
  if negb (width (k_y w) =? 1) then Err NotImplementedError
  else
  do yg <- group_rows (k_tr w) (k_y w);
  do yc <- group_rows (k_ct w) (k_y w);
  do tmax <- vmax yg; do tmin <- vmin yg;
  do cmax <- vmax yc; do cmin <- vmin yc;
  let U := match y_upper with Some u => u | None => Rmax tmax cmax end in
  let L := match y_lower with Some l => l | None => Rmin tmin cmin end in
  do ut <- unit_vec x_d t;
  do uc <- unit_vec x_d c;
  do xt <- get_wv [Some (repeat ut (k_n w)); k_v w];
  do x0 <- get_wv [Some (repeat uc (k_n w)); k_v w];
  do m <- (match my with Some m => Ok m | None => Err ValueError end);
  match l_dim Ly m with
  | Some _ => Err NotImplementedError
  | None =>
      let yt := map (fun x => nth 0 (l_pred Ly m x) 0%R) xt in
      let y0 := map (fun x => nth 0 (l_pred Ly m x) 0%R) x0 in
      do pt <- prob_col t (k_p w);
      do pc <- prob_col c (k_p w);
      do size <- vsize pt yt;
      let each f := map (fun r => f U L (vat pt r) (vat pc r) (vat yt r) (vat y0 r)) (seq 0 size) in
      Ok (mkBounds (each bound_lower) (each bound_upper) (each bound_u1) (each bound_l1) (each bound_u2) (each bound_l2))
  end.

(** approximation_bound.py:306-386 _prepare4est *)
Definition ab_prepare (Lx Ly : learner) (data : option abdata) (treat control : targ) (y_upper y_lower : option R) : M (ab Lx Ly) abounds :=
  mdo s <- mget;
  mdo p0 <- attr (b_prob s);
  let comp := fun v => sl_comp (b_isf s) v None in
  mdo t <- ab_enc (get_tr_ctrl treat comp true);
  mdo c <- ab_enc (get_tr_ctrl control comp false);
  mdo w <- (if negb (b_named s)
            then match data with
                 | None => mret (mkWork 1 None (b_y s) p0 (map (fun z => (z =? t)%Z) (b_x s)) (map (fun z => (z =? c)%Z) (b_x s)))
                 | Some d => mdo z <- ab_enc (comp (q_x d));
                             let labels := convert4onehot z in
                             mret (mkWork 1 None (q_y d) p0 (map (fun z => (z =? t)%Z) labels) (map (fun z => (z =? c)%Z) labels))
                 end
            else match data with
                 | None => mret (mkWork (length (b_y s)) (b_v s) (b_y s) p0 (map (fun z => (z =? t)%Z) (b_x s)) (map (fun z => (z =? c)%Z) (b_x s)))
                 | Some d => mdo v <- mlift (match q_v d with Some v => Ok v | None => Err KeyError end);
                             mdo m <- fitted (b_mx s);
                             mret (mkWork (length (q_y d)) (Some v) (q_y d) (proba_rows Lx m v)
                                   (map (label_is t) (concat (q_x d))) (map (label_is c) (concat (q_x d))))
                 end);
  mlift (ab_bounds Ly (b_xd s) (b_my s) t c y_upper y_lower w).

(** what estimate returns: a pair of vectors, or a pair of pairs *)
Inductive answer := Interval (lower upper : row) | Intervals (a b : row * row).

(** the assump argument *)
Inductive assumption := NoAssump | NonNegative | NonPositive | Optimal | OtherAssump.

(** approximation_bound.py:179-261 estimate *)
Definition ab_estimate (Lx Ly : learner) (data : option abdata) (treat control : targ) (y_upper y_lower : option R) (assump : assumption)
  : M (ab Lx Ly) answer :=
  mdo s <- mget;
  if negb (b_isf s) then mlift (Err AssertionError (* raise Exception *))
  else
    mdo b <- ab_prepare Lx Ly data treat control y_upper y_lower;
    let zero := map (fun _ => 0%R) (r_lower b) in
    match assump with
    | NoAssump => mret (Interval (r_lower b) (r_upper b))
    | NonNegative => mret (Interval zero (r_upper b))
    | NonPositive => mret (Interval (r_lower b) zero)
    | Optimal => mret (Intervals (r_u1 b, r_l1 b) (r_u2 b, r_l2 b))
    | OtherAssump => mlift (Err AssertionError (* raise Exception *))
    end.
