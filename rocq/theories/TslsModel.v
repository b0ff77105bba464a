(** Model of ylearn/estimator_model/iv.py, class NP2SLS, with the functions of utils.py it uses.  The models of the two
    stages are parameters (MetaModel.learner); numbers are exact reals.  fit is modelled on a new object. *)
From Coq Require Import ZArith Reals.
From Verif Require Import Base ApiModel EstUtilsModel MetaModel CrossFitModel DmlModel.
Unset Implicit Arguments.
Local Notation length := List.length.

(* ------------------------------------------------------------------------------------------------ *)
(** ** Basis functions *)

(** itertools.combinations_with_replacement(cols, e) *)
Fixpoint cwr (e : nat) : list nat -> list (list nat) :=
  match e with
  | O => fun _ => [[]]
  | S e' => fix go (cols : list nat) : list (list nat) :=
      match cols with [] => [] | c :: r => map (cons c) (cwr e' (c :: r)) ++ go r end
  end.
Definition monomial (r : row) (idx : list nat) : R := fold_right Rmult 1%R (map (fun c => nth c r 0%R) idx).
(** sklearn PolynomialFeatures(degree).transform of one row; no keyword arguments, so the constant 1 comes first *)
Definition poly (degree : nat) (r : row) : row :=
  flat_map (fun e => map (monomial r) (cwr e (seq 0 (length r)))) (seq 0 (S degree)).

(** the arguments treatment_basis, instrument_basis, covar_basis: None, a tuple or a list (name, degree), or a stateless
    transformer object (FunctionTransformer), which maps every row and maps None to None *)
Inductive basisname := Poly | Hermite | OtherName.
Inductive basis := BNone | BTuple (f : basisname) (degree : nat) | BList (f : basisname) (degree : nat) | BFun (f : row -> row).

(** iv.py:431-444 get_basis_func, _poly_basis_func, _hermite_basis_func *)
Definition get_basis_func (f : basisname) (degree : nat) : res basis :=
  match f with Poly => Ok (BTuple Poly degree) | Hermite => Err NotImplementedError | OtherName => Err ValueError end.
(** iv.py:174-184: the transformer of the treatment and of the instrument; here BTuple Poly d is the object
    PolynomialFeatures(d) and BList stands for the list itself *)
Definition xz_basis (b : basis) : res basis :=
  match b with BTuple f d | BList f d => get_basis_func f d | _ => Ok b end.
(** iv.py:186-190: the transformer of the covariates: a list is not recognised and is copied *)
Definition v_basis (b : basis) : res basis :=
  match b with BTuple f d => get_basis_func f d | _ => Ok b end.

(** a fitted transformer: PolynomialFeatures remembers the number of columns *)
Inductive fbasis := FPoly (degree width : nat) | FFun (f : row -> row).
Definition basis_fit (b : basis) (x : option (list row)) : res fbasis :=
  match b with
  | BTuple _ d => match x with
                  | Some x => do _ <- check_X (width x) x; Ok (FPoly d (width x))
                  | None => Err ValueError
                  end
  | BFun f => Ok (FFun f)
  | BNone | BList _ _ => Err AttributeError
  end.
Definition basis_transform (b : fbasis) (x : option (list row)) : res (option (list row)) :=
  match b, x with
  | FPoly d k, Some x => do _ <- check_X k x; Ok (Some (map (poly d) x))
  | FPoly _ _, None => Err ValueError
  | FFun f, _ => Ok (option_map (map f) x)
  end.

(* ------------------------------------------------------------------------------------------------ *)
(** ** Arguments and state *)

(** the instrument: numbers, or values if is_discrete_instrument=True *)
Inductive zarg := ZCont (z : list row) | ZDisc (z : list (list label)).
(** one call of fit; x is XDisc if and only if is_discrete_treatment=True; z = None: instrument=None *)
Record nargs := mkNargs { n_y : list row; n_x : xarg; n_z : option zarg; n_w : option (list row); n_v : option (list row);
                          n_xb : basis; n_zb : basis; n_vb : basis }.
(** treat or control: None, or the entries in order of a number, a list, a tuple or an ndarray (after numpy's conversion) *)
Inductive narg := NNone | NNum (l : list R) | NVal (l : list label).
(** a data frame passed to estimate: the columns of adjustment, treatment and covariate, None if one is missing; len(data) *)
Record ndata := mkNdata { nd_w : option (list row); nd_x : option xarg; nd_v : option (list row); nd_n : nat }.

(** the attributes of a fitted NP2SLS object: _x_basis_func, _v_basis_func, categories of treatment_transformer,
    _v_transformed, _w, _n, _x_d, _y_d, whether adjustment and covariate were named, y_model *)
Record nstate (L : learner) := mkNst { s_xb : fbasis; s_vb : fbasis; s_cats : option (list (list label));
  s_vt : option (list row); s_w : option (list row); s_n : nat; s_xd : nat; s_yd : nat; s_wn : bool; s_vn : bool; s_m : Mdl L }.
Arguments mkNst {L}. Arguments s_xb {L}. Arguments s_vb {L}. Arguments s_cats {L}. Arguments s_vt {L}. Arguments s_w {L}.
Arguments s_n {L}. Arguments s_xd {L}. Arguments s_yd {L}. Arguments s_wn {L}. Arguments s_vn {L}. Arguments s_m {L}.

(* ------------------------------------------------------------------------------------------------ *)
(** ** fit *)

Definition is_none {A} (o : option A) : bool := match o with None => true | Some _ => false end.
Definition codes_to_rows (c : list (list nat)) : list row := map (map INR) c.
Definition ones (n : nat) : list row := repeat [1%R] n.

(** utils.py:129-134 nd_kron of two 2-d arrays *)
Definition rkron (x v : list row) : res (list row) :=
  if length x =? length v then Ok (map (fun p => kron (fst p) (snd p)) (combine x v)) else Err AssertionError.
(** nd_kron(x, v) if v is not None else x; x None has no attribute shape *)
Definition kron_v (x v : option (list row)) : res (option (list row)) :=
  match v, x with
  | None, _ => Ok x
  | Some v, Some x => do r <- rkron x v; Ok (Some r)
  | Some _, None => Err AttributeError
  end.
(** nd_kron(x_hat, v) for the predictions of x_model: a one-dimensional x_hat is taken as the vector of every row by
    np.vectorize; without v a one-dimensional x_hat cannot be concatenated *)
Definition kron_hat (xhat : nd R) (v : option (list row)) : res (list row) :=
  match nd_shape xhat, v with
  | [n], Some v => if n =? length v then Ok (map (kron (map (fun r => nd_at xhat [r]) (seq 0 n))) v) else Err AssertionError
  | [n; d], _ =>
      let x := map (fun r => map (fun k => nd_at xhat [r; k]) (seq 0 d)) (seq 0 n) in
      match v with Some v => rkron x v | None => Ok x end
  | _, _ => Err ValueError
  end.

(** iv.py:164-167 the treatment: encoded if discrete *)
Definition fit_x (x : xarg) : res (list row * option (list (list label))) :=
  match x with
  | XCont x => Ok (x, None)
  | XDisc x => do cats <- enc_fit None x; do c <- ord_transform cats x; Ok (codes_to_rows c, Some cats)
  end.
(** iv.py:169-172 the instrument: one-hot encoded if discrete *)
Definition enc_z (z : zarg) : res (list row) :=
  match z with
  | ZCont z => Ok z
  | ZDisc z => do cats <- enc_fit None z; do c <- oh_transform cats z; Ok (map (map IZR) c)
  end.
(** iv.py:196 the transformed instrument.  A one-hot encoded instrument is a sparse matrix, which PolynomialFeatures keeps
    sparse: None here.  Simplification: an object as basis function is taken to keep it sparse too. *)
Definition fit_z (z : zarg) (zr : list row) (b : basis) : res (option (list row)) :=
  do f <- basis_fit b (Some zr);
  do t <- basis_transform f (Some zr);
  Ok (match z with ZCont _ => t | ZDisc _ => None end).

(** iv.py:92-226 fit: encoders, basis functions of x, z, v (their names), fit_transform of x, z, v, first stage, second
    stage *)
Definition np_fit (Lx Ly : learner) (a : nargs) : res (nstate Ly) :=
  match n_z a with
  | None => Err AssertionError
  | Some z =>
      if (match n_xb a, n_zb a, n_vb a with BNone, BNone, BNone => true | _, _, _ => false end) then Err ValueError
      else
        do xc <- fit_x (n_x a);
        let x := fst xc in
        do zr <- enc_z z;
        do xb <- xz_basis (n_xb a);
        do zb <- xz_basis (n_zb a);
        do vb <- v_basis (n_vb a);
        do fx <- basis_fit xb (Some x);
        do xt <- basis_transform fx (Some x);
        do zt <- fit_z z zr zb;
        do fv <- basis_fit vb (n_v a);
        do vt <- basis_transform fv (n_v a);
        match xt, zt with
        | Some xt, Some zt =>
            do zv <- kron_v (Some zt) vt;
            do zvw <- get_wv [zv; n_w a; Some (ones (length zt))];
            do mx <- l_fit Lx zvw (nd_rows xt);
            do xv <- kron_hat (predict Lx mx zvw) vt;
            do xvw <- get_wv [Some xv; n_w a; Some (ones (length xv))];
            do my <- l_fit Ly xvw (nd_rows (n_y a));
            Ok (mkNst fx fv (snd xc) vt (n_w a) (length (n_y a)) (width x) (width (n_y a))
                      (negb (is_none (n_w a))) (negb (is_none (n_v a))) my)
        | _, _ => Err ValueError                                  (* a sparse z_transformed: nd_kron or np.concatenate *)
        end
  end.

(* ------------------------------------------------------------------------------------------------ *)
(** ** estimate *)

(** utils.py:176-193 convert2array of one argument: the columns if named *)
Definition named {A} (b : bool) (col : option A) : res (option A) :=
  if b then match col with Some c => Ok (Some c) | None => Err KeyError end else Ok None.

(** iv.py:415-429 _check_data: (v transformed, w, x, n) *)
Definition np_check {L} (s : nstate L) (data : option ndata)
  : res (option (list row) * option (list row) * option xarg * nat) :=
  match data with
  | None => Ok (s_vt s, s_w s, None, s_n s)
  | Some d =>
      do w <- named (s_wn s) (nd_w d);
      do x <- named true (nd_x d);
      do v <- named (s_vn s) (nd_v d);
      do v <- (match v with Some v => basis_transform (s_vb s) (Some v) | None => Ok None end);
      Ok (v, w, x, nd_n d)
  end.

(** iv.py:334-350 and 352-368: the rows of treat or control: .reshape(-1, _x_d), one row is repeated for every sample *)
Definition expand {A} (x_d n : nat) (l : list A) : res (list (list A)) :=
  do rows <- reshape_rows x_d l;
  match rows with
  | [r] => Ok (repeat r n)
  | _ => if length rows =? n then Ok rows else Err AssertionError
  end.
(** iv.py:333-372: by default 1 (treat) or 0 (control) in every column; discrete: encoded.  An argument of the other kind
    is rejected by the transformer.  The values are expanded before the encoder is applied. *)
Definition np_arg {L} (s : nstate L) (n : nat) (dflt : Z) (t : narg) : res (list (list label) + list row) :=
  match s_cats s with
  | None => do r <- (match t with
                     | NNone => expand (s_xd s) n (repeat (IZR dflt) (s_xd s))
                     | NNum l => expand (s_xd s) n l
                     | NVal l => do _ <- expand (s_xd s) n l; Err ValueError
                     end); Ok (inr r)
  | Some _ => do r <- (match t with
                       | NNone => expand (s_xd s) n (repeat (LInt dflt) (s_xd s))
                       | NVal l => expand (s_xd s) n l
                       | NNum l => do _ <- expand (s_xd s) n l; Err ValueError
                       end); Ok (inl r)
  end.
Definition np_encode {L} (s : nstate L) (a : list (list label) + list row) : res (list row) :=
  match s_cats s, a with
  | Some cats, inl a => do c <- ord_transform cats a; Ok (codes_to_rows c)
  | None, inr a => Ok a
  | _, _ => Err ValueError
  end.

(** the values of the treatment columns as numbers, for the counterfactual: a string cannot be converted (simplification:
    not even the string of a number) *)
Definition raw_x (x : option xarg) : res (option (list row)) :=
  match x with
  | None => Ok None
  | Some (XCont x) => Ok (Some x)
  | Some (XDisc x) => if existsb (existsb is_str) x then Err ValueError
                      else Ok (Some (map (map (fun a => match a with LInt z => IZR z | LStr _ => 0%R end)) x))
  end.

(** iv.py:400-412: the predictions of y_model at the treatments x *)
Definition np_predict {L} (s : nstate L) (v w x : option (list row)) (n : nat) : res (nd R) :=
  do xv <- kron_v x v;
  do xvw <- get_wv [xv; w; Some (ones n)];
  Ok (predict L (s_m s) xvw).

Inductive nquantity := NQNone | NQATE | NQCATE | NQCF | NQOther.

(** iv.py:323-413 _prepare4est *)
Definition np_prepare {L} (s : nstate L) (data : option ndata) (treat control : narg) (cf : bool) : res (nd R * nd R) :=
  do chk <- np_check s data;
  let '(v, w, x, n) := chk in
  do xs <- (if cf then do x <- raw_x x; Ok (x, x)
            else do t <- np_arg s n 1 treat; do c <- np_arg s n 0 control;
                 do t <- np_encode s t; do c <- np_encode s c; Ok (Some t, Some c));
  do xt <- basis_transform (s_xb s) (fst xs);
  do x0 <- basis_transform (s_xb s) (snd xs);
  do yt <- np_predict s v w xt n;
  do y0 <- np_predict s v w x0 n;
  Ok (yt, y0).

(** iv.py:228-264 estimate.  (yt - y0).mean(dim=0): a numpy array has no keyword dim. *)
Definition np_estimate {L} (o : option (nstate L)) (data : option ndata) (treat control : narg) (q : nquantity) : res (nd R) :=
  match o with
  | None => Err AssertionError
  | Some s =>
      do p <- np_prepare s data treat control (match q with NQCF => true | _ => false end);
      match q with
      | NQNone => zip_nd Rminus (fst p) (snd p)
      | NQCF => Ok (fst p)
      | NQATE => do _ <- zip_nd Rminus (fst p) (snd p); Err TypeError
      | NQCATE => if s_vn s then do _ <- zip_nd Rminus (fst p) (snd p); Err TypeError else Err AssertionError
      | NQOther => Err AssertionError
      end
  end.

(** iv.py:266-321 effect_nji.  Continuous treatment: _prepare4est is called without treat and control.  One discrete
    column: .repeat(x_d, aixs=2).  The treatments are tuples of group numbers. *)
Definition np_nji {L} (s : nstate L) (data : option ndata) : res (nd R) :=
  match s_cats s with
  | None => Err TypeError
  | Some cats =>
      do chk <- np_check s data;
      let '(v, w, _, n) := chk in
      do ts <- (if s_xd s =? 1 then Ok (map (fun k => [k]) (seq 0 (length (nth 0 cats []))))
                else cartesian 0 (map (fun c => seq 0 (length c)) cats));
      do ys <- mapX (fun t => do xt <- basis_transform (s_xb s) (Some (repeat (map INR t) n));
                              do p <- np_predict s v w xt n;
                              as_n_yd n (s_yd s) p) ts;
      if s_xd s =? 1 then Err TypeError
      else match ys with
           | [] => Err IndexError
           | y0 :: _ => Ok (mkNd [n; s_yd s; length ts]
                              (fun idx => (nd_at (nth (nth 2 idx 0%nat) ys y0) [nth 0 idx 0%nat; nth 1 idx 0%nat]
                                           - nd_at y0 [nth 0 idx 0%nat; nth 1 idx 0%nat])%R))
           end
  end.
