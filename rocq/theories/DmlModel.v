(** Model of ylearn/estimator_model/double_ml.py (DoubleML) with proba_output=False and no transformers, and of
    get_tr_ctrl / nd_kron of utils.py as it uses them.  The two first-stage models are parameters (MetaModel.learner),
    the final model is a parameter that returns its coefficients; numbers are exact reals.  The final model yx_model is
    used without being cloned, so its coefficients live in a heap cell that other objects may share. *)
From Coq Require Import ZArith Reals.
From Verif Require Import Base ApiModel EstUtilsModel MetaModel CrossFitModel.
Unset Implicit Arguments.
Local Notation length := List.length.

(* ------------------------------------------------------------------------------------------------ *)
(** ** numpy broadcasting *)

(** numpy broadcasting of two shapes, given from the last dimension on *)
Fixpoint bshape (a b : list nat) : res (list nat) :=
  match a, b with
  | [], _ => Ok b
  | _, [] => Ok a
  | x :: a', y :: b' =>
      do r <- bshape a' b';
      if x =? y then Ok (x :: r) else if x =? 1 then Ok (y :: r) else if y =? 1 then Ok (x :: r) else Err ValueError
  end.
(** the index of an operand: its last dimensions, 0 where its size is 1; all lists from the last dimension on *)
Fixpoint bindex (shape idx : list nat) : list nat :=
  match shape, idx with
  | d :: s, i :: r => (if d =? 1 then 0 else i) :: bindex s r
  | _, _ => []
  end.
Definition bcast2 (f : R -> R -> R) (a b : nd R) : res (nd R) :=
  do s <- bshape (rev (nd_shape a)) (rev (nd_shape b));
  Ok (mkNd (rev s) (fun idx => f (nd_at a (rev (bindex (rev (nd_shape a)) (rev idx))))
                                 (nd_at b (rev (bindex (rev (nd_shape b)) (rev idx)))))).

(* ------------------------------------------------------------------------------------------------ *)
(** ** Arguments *)

(** treatment columns: numbers of a continuous treatment or values of a discrete one *)
Inductive xarg := XCont (x : list row) | XDisc (x : list (list label)).
(** treat or control: None; for discrete treatments a value, a list of values, a 1-d ndarray; for continuous treatments a
    number or an ndarray (its entries in order) *)
Inductive dtarg := ANone | AVal (l : label) | AList (l : list label) | AArr (l : list label) | ANum (t : R) | AArrR (l : list R).

(** one call of fit; treat and control may be passed as keyword arguments *)
Record dmlargs := mkDmlArgs { m_x : xarg; m_w : option (list row); m_v : option (list row); m_y : list row;
                              k_treat : dtarg; k_control : dtarg }.

(** the final model: coef_ after fit(x_prime, y_prime), one row per outcome *)
Definition linear := list row -> list row -> res (list row).

(** heap cells: coef_ of the final models *)
Definition heap := nat -> option (list row).
Definition upd (k : nat) (c : list row) (h : heap) : heap := fun i => if i =? k then Some c else h i.

(** a DoubleML object: reference of yx_model, _is_fitted, whether the first stage is done, encoders, covariates of the
    training data, whether covariates were named, sizes, attributes treat and control *)
Record dml := mkDML { d_yx : nat; d_isf : bool; d_stage1 : bool; d_encs : encs; d_tv : option (list row); d_named : bool;
                      d_nx : nat; d_ny : nat; d_tr : dtarg; d_ct : dtarg }.
(** double_ml.py:236-318 __init__ with the final model in cell k *)
Definition dml_new (k : nat) : dml := mkDML k false false no_encs None false 0 0 ANone ANone.

Definition St := (heap * dml)%type.
Definition obj_get : M St dml := fun s => (s, Ok (snd s)).
Definition obj_set (f : dml -> dml) : M St unit := fun s => ((fst s, f (snd s)), Ok tt).
Definition dml_enc {A} (m : M encs A) : M St A :=
  fun s => let o := snd s in let (e, r) := m (d_encs o) in
           ((fst s, mkDML (d_yx o) (d_isf o) (d_stage1 o) e (d_tv o) (d_named o) (d_nx o) (d_ny o) (d_tr o) (d_ct o)), r).

(** base_models.py:45-75 fit and double_ml.py:376-386: keyword arguments and covariates are stored *)
Definition dml_begin (a : dmlargs) (o : dml) : dml :=
  mkDML (d_yx o) (d_isf o) (d_stage1 o) (d_encs o) (m_v a) (match m_v a with Some _ => true | None => false end) (d_nx o) (width (m_y a))
        (match k_treat a with ANone => d_tr o | t => t end) (match k_control a with ANone => d_ct o | t => t end).
Definition dml_nx (n : nat) (o : dml) : dml :=
  mkDML (d_yx o) (d_isf o) (d_stage1 o) (d_encs o) (d_tv o) (d_named o) n (d_ny o) (d_tr o) (d_ct o).
Definition dml_stage1 (o : dml) : dml :=
  mkDML (d_yx o) (d_isf o) true (d_encs o) (d_tv o) (d_named o) (d_nx o) (d_ny o) (d_tr o) (d_ct o).
Definition dml_done (o : dml) : dml :=
  mkDML (d_yx o) true (d_stage1 o) (d_encs o) (d_tv o) (d_named o) (d_nx o) (d_ny o) (d_tr o) (d_ct o).
Definition dml_treat (t : dtarg) (o : dml) : dml :=
  mkDML (d_yx o) (d_isf o) (d_stage1 o) (d_encs o) (d_tv o) (d_named o) (d_nx o) (d_ny o) t (d_ct o).

(* ------------------------------------------------------------------------------------------------ *)
(** ** First stage *)

(** a target with d columns: np.ravel if d = 1 (double_ml.py:751-754) *)
Definition target_nd (d : nat) (t : list row) : nd R :=
  if d =? 1 then nd_vec (map (fun r => nth 0 r 0%R) t) else nd_rows t.

(** double_ml.py:693-738 _cross_fit of a model on a numerical target with d columns, then .reshape((n, d)) in fit.
    Without folds: fit and predict on all rows.  With folds: each test fold's predictions are stored in an array of the
    target's shape; predictions of another shape: ValueError, except one column, which is broadcast.
    Simplification: no other broadcasting into the target. *)
Definition dml_cross (L : learner) (wv t : list row) (d cf : nat) : res (nat -> nat -> R) :=
  if cf <=? 1 then
    do m <- l_fit L wv (target_nd d t);
    do p <- as_n_yd (length t) d (predict L m wv);
    Ok (fun r j => nd_at p [r; j])
  else
    do folds <- kfold (length t) cf;
    fold_left (fun acc f =>
      do out <- acc;
      do m <- l_fit L (take_rows [] (fst f) wv) (target_nd d (take_rows [] (fst f) t));
      do h <- (let p := predict L m (take_rows [] (snd f) wv) in
               match l_dim L m with
               | None => if d =? 1 then Ok (fun r (j : nat) => nd_at p [r]) else Err ValueError
               | Some k => if d =? 1 then Err ValueError
                           else if k =? d then Ok (fun r j => nd_at p [r; j])
                           else if k =? 1 then Ok (fun r (j : nat) => nd_at p [r; 0]) else Err ValueError
               end);
      Ok (put_rows out (snd f) h)) folds (Ok (fun _ _ => 0%R)).

(** the same for a discrete treatment: the target is the vector of group numbers, the predictions are predict_proba.
    One group only: np.ravel makes x one-dimensional and convert4onehot raises IndexError. *)
Definition dml_cross_disc (L : learner) (wv : list row) (x : list (list Z)) (x_d cf : nat) : res (nat -> nat -> R) :=
  if x_d =? 1 then Err IndexError
  else
  let label := map IZR (convert4onehot x) in
  if cf <=? 1 then
    do m <- l_fit L wv (nd_vec label);
    let p := predict_proba L m wv in
    if n_classes L m =? x_d then Ok (fun r i => nd_at p [r; i]) else Err ValueError
  else
    do folds <- kfold (length x) cf;
    fold_left (fun acc f =>
      do out <- acc;
      do m <- l_fit L (take_rows [] (fst f) wv) (nd_vec (take_rows 0%R (fst f) label));
      do h <- (let p := predict_proba L m (take_rows [] (snd f) wv) in
               if n_classes L m =? x_d then Ok (fun r i => nd_at p [r; i])
               else if n_classes L m =? 1 then Ok (fun r (i : nat) => nd_at p [r; 0]) else Err ValueError);
      Ok (put_rows out (snd f) h)) folds (Ok (fun _ _ => 0%R)).

(* ------------------------------------------------------------------------------------------------ *)
(** ** Second stage *)

(** utils.py:129-134 nd_kron of two rows: np.kron *)
Definition kron (x v : row) : row := flat_map (fun xi => map (fun vk => (xi * vk)%R) v) x.
(** double_ml.py:793-796 _cal_x_prime: row r of the design; np.hstack([ones, v]) *)
Definition with_one (v : row) : row := 1%R :: v.
Definition x_prime (x : list row) (xhat : nat -> nat -> R) (v : list row) : list row :=
  map (fun r => kron (map (fun i => (nth i (nth r x []) 0 - xhat r i)%R) (seq 0 (width x))) (with_one (nth r v [])))
      (seq 0 (length x)).
(** double_ml.py:423 y - y_hat *)
Definition y_prime (y : list row) (yhat : nat -> nat -> R) : list row :=
  map (fun r => map (fun j => (nth j (nth r y []) 0 - yhat r j)%R) (seq 0 (width y))) (seq 0 (length y)).

(** double_ml.py:334-433 fit *)
Definition dml_fit (Lx Ly : learner) (lin : linear) (categories : option (list (list label))) (cf : nat) (a : dmlargs) : M St unit :=
  match m_w a, m_v a with
  | None, None => mlift (Err AssertionError)
  | _, _ =>
      mdo _ <- obj_set (dml_begin a);
      mdo o <- obj_get;
      mdo xs <- (match m_x a with
                 | XCont x => mret (x, None)
                 | XDisc x => mdo z <- dml_enc (sl_comp (d_isf o) x categories); mret (to_rows z, Some z)
                 end);
      let '(x, z) := xs in
      mdo _ <- obj_set (dml_nx (width x));
      mdo wv <- mlift (get_wv [m_w a; m_v a]);
      mdo xhat <- mlift (match z with
                         | None => dml_cross Lx wv x (width x) cf
                         | Some z => dml_cross_disc Lx wv z (width x) cf
                         end);
      mdo yhat <- mlift (dml_cross Ly wv (m_y a) (width (m_y a)) cf);
      mdo _ <- obj_set dml_stage1;
      mdo v <- attr (m_v a);
      mdo c <- mlift (lin (x_prime x xhat v) (y_prime (m_y a) yhat));
      mdo o <- obj_get;
      mdo _ <- (fun s => ((upd (d_yx o) c (fst s), snd s), Ok tt));
      obj_set dml_done
  end.

(* ------------------------------------------------------------------------------------------------ *)
(** ** Estimates *)

(** vec.reshape(-1, k) *)
Fixpoint chunks (fuel k : nat) (l : row) : list row :=
  match fuel with
  | 0 => []
  | S f => match l with [] => [] | _ => firstn k l :: chunks f k (skipn k l) end
  end.
Definition reshape_k (k : nat) (l : row) : res (list row) :=
  if (k =? 0) || negb (length l mod k =? 0) then Err ValueError else Ok (chunks (length l) k l).
Definition dotr (a b : row) : R := fold_right Rplus 0%R (map (fun p => (fst p * snd p)%R) (combine a b)).

(** double_ml.py:663-673: the effects of one row: coef_matrix.dot(v), which must have x_d entries (one entry is broadcast) *)
Definition row_effects (x_d : nat) (coef v : row) : res row :=
  do m <- reshape_k (length v) coef;
  let e := map (fun c => dotr c v) m in
  if length e =? x_d then Ok e else if length e =? 1 then Ok (repeat (nth 0 e 0%R) x_d) else Err ValueError.

(** double_ml.py:605-681 _prepare4est: the array fij (n, y_d, x_d) *)
Definition dml_prepare (data : option (list row)) : M St (nd R) :=
  mdo s <- (fun s : St => (s, Ok s));
  let o := snd s in
  if negb (d_stage1 o && d_isf o) then mlift (Err AssertionError)
  else
    let v := match data with None => d_tv o | Some d => if d_named o then Some d else None end in
    mdo v <- attr v;
    let v1 := map with_one v in
    mdo coef <- attr (fst s (d_yx o));
    let x_d := d_nx o in let y_d := d_ny o in
    mdo e <- mlift (if 1 <? y_d
                    then mapX (fun vn => mapX (fun j => match nth_error coef j with
                                                        | Some c => row_effects x_d c vn
                                                        | None => Err IndexError
                                                        end) (seq 0 y_d)) v1
                    else mapX (fun vn => do r <- row_effects x_d (List.concat coef) vn; Ok [r]) v1);
    mret (mkNd [length v; y_d; x_d]
               (fun idx => nth (nth 2 idx 0) (nth (nth 1 idx 0) (nth (nth 0 idx 0) e []) []) 0%R)).

(** what treat and control have become: a group number or number, or an array *)
Inductive tval := VCode (z : Z) | VArr (l : list label) | VNum (t : R) | VArrR (l : list R).
Definition as_attr (t : tval) : dtarg :=
  match t with VCode z => AVal (LInt z) | VArr l => AArr l | VNum t => ANum t | VArrR l => AArrR l end.

(** double_ml.py:490-511: utils.py:76-90 get_tr_ctrl unless the argument is an ndarray.  Simplification: a number for a
    discrete treatment and a value for a continuous treatment do not occur (TypeError). *)
Definition dml_arg (disc : bool) (t : dtarg) (treat : bool) : M St tval :=
  mdo o <- obj_get;
  let comp := fun v => sl_comp (d_isf o) v None in
  match t with
  | ANone => mret (if disc then VCode (if treat then 1%Z else 0%Z) else VNum (if treat then 1%R else 0%R))
  | AVal l => if disc then mdo z <- dml_enc (get_tr_ctrl (TVal l) comp treat); mret (VCode z) else mlift (Err TypeError)
  | AList l => if disc then mdo z <- dml_enc (get_tr_ctrl (TList l) comp treat); mret (VCode z) else mlift (Err TypeError)
  | AArr l => if disc then mret (VArr l) else mlift (Err TypeError)
  | ANum t => if disc then mlift (Err TypeError) else mret (VNum t)
  | AArrR l => if disc then mlift (Err TypeError) else mret (VArrR l)
  end.

(** a[:, :, t] for a group number or an array of group numbers *)
Definition norm_index (x_d : nat) (z : Z) : res nat :=
  if ((0 <=? z) && (z <? Z.of_nat x_d))%Z then Ok (Z.to_nat z)
  else if ((- Z.of_nat x_d <=? z) && (z <? 0))%Z then Ok (Z.to_nat (z + Z.of_nat x_d)) else Err IndexError.
Definition pick_group (a : nd R) (t : tval) : res (nd R) :=
  match nd_shape a with
  | [n; y; x] =>
      match t with
      | VCode z => do i <- norm_index x z; Ok (mkNd [n; y] (fun idx => nd_at a [nth 0 idx 0; nth 1 idx 0; i]))
      | VArr l => do is <- mapX (fun l => match l with LInt z => norm_index x z | LStr _ => Err IndexError end) l;
                  Ok (mkNd [n; y; length is] (fun idx => nd_at a [nth 0 idx 0; nth 1 idx 0; nth (nth 2 idx 0) is 0]))
      | _ => Err IndexError
      end
  | _ => Err IndexError
  end.

(** a number or array as an array: treat.reshape(-1, x_d) *)
Definition cont_nd (x_d : nat) (t : tval) : res (nd R) :=
  match t with
  | VNum t => Ok (mkNd [] (fun _ => t))
  | VArrR l => do m <- reshape_k x_d l; Ok (mkNd [length m; x_d] (fun idx => nth (nth 1 idx 0) (nth (nth 0 idx 0) m []) 0%R))
  | _ => Err TypeError
  end.

(** double_ml.py:522-531: the continuous effect.  np.einsum("nji, ni->nji") broadcasts sizes 1. *)
Definition cont_effect (fij : nd R) (x_d : nat) (t c : tval) : res (nd R) :=
  do tn <- cont_nd x_d t;
  do cn <- cont_nd x_d c;
  do df <- bcast2 Rminus tn cn;
  match c with
  | VArrR _ =>
      match nd_shape fij, nd_shape df with
      | [n; y; x], [m; x'] =>
          if ((m =? n) || (m =? 1)) && (x' =? x)
          then Ok (mkNd [n; y; x] (fun idx => (nd_at fij [nth 0 idx 0%nat; nth 1 idx 0%nat; nth 2 idx 0%nat] *
                                               nd_at df [if m =? 1 then 0%nat else nth 0 idx 0%nat; nth 2 idx 0%nat])%R))
          else Err ValueError
      | _, _ => Err ValueError
      end
  | _ => bcast2 Rmult fij df
  end.

(** double_ml.py:435-551 estimate (target_outcome=None) *)
Definition dml_estimate (disc : bool) (data : option (list row)) (treat control : dtarg) (q : quantity) : M St (nd R) :=
  mdo fij <- dml_prepare data;
  mdo o <- obj_get;
  let treat := match treat with ANone => d_tr o | t => t end in
  let control := match control with ANone => d_ct o | t => t end in
  mdo t <- dml_arg disc treat true;
  mdo c <- dml_arg disc control false;
  mdo _ <- obj_set (dml_treat (as_attr t));
  mdo e <- mlift (if disc
                  then do a <- pick_group fij t; do b <- pick_group fij c; bcast2 Rminus a b
                  else cont_effect fij (d_nx o) t c);
  match q with QNone => mret e | QATE => mlift (mean0 e) end.

(** double_ml.py:584-603 effect_nji *)
Definition dml_effect_nji (disc : bool) (data : option (list row)) (control : dtarg) : M St (nd R) :=
  mdo fij <- dml_prepare data;
  if disc then
    mdo o <- obj_get;
    let control := match control with ANone => d_ct o | t => t end in
    let comp := fun v => sl_comp (d_isf o) v None in
    mdo c <- dml_enc (match control with
                      | ANone => get_tr_ctrl TNone comp false
                      | AVal l => get_tr_ctrl (TVal l) comp false
                      | AList l => get_tr_ctrl (TList l) comp false
                      | AArr l => get_tr_ctrl (TArr1 l) comp false
                      | _ => mlift (Err TypeError)
                      end);
    mlift (match nd_shape fij with
           | [n; y; x] => do i <- norm_index x c;
                          Ok (mkNd [n; y; x] (fun idx => (nd_at fij [nth 0 idx 0%nat; nth 1 idx 0%nat; nth 2 idx 0%nat] -
                                                           nd_at fij [nth 0 idx 0%nat; nth 1 idx 0%nat; i])%R))
           | _ => Err ValueError
           end)
  else mret fij.
