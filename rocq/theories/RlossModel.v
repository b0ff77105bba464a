(** Model of ylearn/estimator_model/effect_score.py: RLoss, the score of a fitted estimator on a validation set.
    proba_output=False; exact reals; columns of the validation set that serve as adjustment or covariate are numbers. *)
From Coq Require Import ZArith Reals String Ascii.
From Verif Require Import Base ApiModel EstUtilsModel MetaModel CrossFitModel DmlModel.
Unset Implicit Arguments.
Local Notation length := List.length.
Local Open Scope nat_scope.

(** a DataFrame of numbers: its columns by name *)
Definition frame := list (string * list R).
Fixpoint get_col (fr : frame) (c : string) : option (list R) :=
  match fr with [] => None | (d, v) :: r => if String.eqb c d then Some v else get_col r c end.
(** d[c] = v of a dict *)
Fixpoint set_col (fr : frame) (c : string) (v : list R) : frame :=
  match fr with [] => [(c, v)] | (d, u) :: r => if String.eqb c d then (d, v) :: r else (d, u) :: set_col r c v end.

(** the argument or attribute covariate / adjustment: None, one name, a list of names *)
Inductive namearg := NNone | NStr (s : string) | NList (l : list string).

(** utils.py:177-194 convert2array: the columns data[names] *)
Definition columns (fr : frame) (a : namearg) : res (option (list (list R))) :=
  let get c := match get_col fr c with Some v => Ok v | None => Err KeyError end in
  match a with
  | NNone => Ok None
  | NStr s => do v <- get s; Ok (Some [v])
  | NList l => do vs <- mapX get l; Ok (Some vs)
  end.
(** an array of n rows given by its columns, as rows *)
Definition rows_of (n : nat) (cols : list (list R)) : list row := map (fun r => map (fun c => nth r c 0%R) cols) (seq 0 n).

(** an RLoss object: is_discrete_treatment, _is_fitted, encoders, the attributes covariate, adjustment and
    combined_treatment, the columns of _v and _w, the number of rows, _y_d, _x_d, and the residuals
    x_hat_dict["res"][0], y_hat_dict["res"][0] *)
Record rloss := mkRL { rl_disc : bool; rl_isf : bool; rl_encs : encs; rl_cov : namearg; rl_adj : namearg; rl_comb : bool;
                       rl_v : list (list R); rl_w : option (list (list R)); rl_n : nat; rl_yd : nat; rl_nx : nat;
                       rl_res : option (nd R * nd R) }.
(** effect_score.py:135-192 __init__ *)
Definition rl_new (disc : bool) : rloss := mkRL disc false no_encs NNone NNone true [] None 0 0 0 None.

(** one call of fit: the adjustment and covariate columns are taken from a frame by name, treatment and outcome are given
    as arrays *)
Record rlargs := mkRA { ra_data : frame; ra_cov : namearg; ra_adj : namearg; ra_x : xarg; ra_y : list row; ra_comb : bool }.

Definition rl_upd (f : rloss -> rloss) : M rloss unit := fun o => (f o, Ok tt).
Definition rl_get : M rloss rloss := fun o => (o, Ok o).
Definition rl_enc {A} (m : M encs A) : M rloss A :=
  fun o => let (e, r) := m (rl_encs o) in
           (mkRL (rl_disc o) (rl_isf o) e (rl_cov o) (rl_adj o) (rl_comb o) (rl_v o) (rl_w o) (rl_n o) (rl_yd o) (rl_nx o) (rl_res o), r).
(** effect_score.py:244-254 *)
Definition rl_named (a : rlargs) (o : rloss) : rloss :=
  mkRL (rl_disc o) (rl_isf o) (rl_encs o) (ra_cov a) (ra_adj a) (ra_comb a) (rl_v o) (rl_w o) (rl_n o) (rl_yd o) (rl_nx o) (rl_res o).
(** effect_score.py:257-259 *)
Definition rl_data (a : rlargs) (v : list (list R)) (w : option (list (list R))) (o : rloss) : rloss :=
  mkRL (rl_disc o) (rl_isf o) (rl_encs o) (rl_cov o) (rl_adj o) (rl_comb o) v w (length (ra_y a)) (width (ra_y a)) (rl_nx o) (rl_res o).
Definition rl_setnx (k : nat) (o : rloss) : rloss :=
  mkRL (rl_disc o) (rl_isf o) (rl_encs o) (rl_cov o) (rl_adj o) (rl_comb o) (rl_v o) (rl_w o) (rl_n o) (rl_yd o) k (rl_res o).
(** effect_score.py:298-301 *)
Definition rl_done (x y : nd R) (o : rloss) : rloss :=
  mkRL (rl_disc o) true (rl_encs o) (rl_cov o) (rl_adj o) (rl_comb o) (rl_v o) (rl_w o) (rl_n o) (rl_yd o) (rl_nx o) (Some (x, y)).

(** x - x_hat *)
Definition rl_resid (n d : nat) (x : list row) (h : nat -> nat -> R) : nd R :=
  mkNd [n; d] (fun idx => (nth (nth 1 idx 0%nat) (nth (nth 0 idx 0%nat) x []) 0 - h (nth 0 idx 0%nat) (nth 1 idx 0%nat))%R).

(** effect_score.py:194-303 fit; [trw] and [trv] are fit_transform of adjustment_transformer and covariate_transformer.  The
    first stage is that of DoubleML (super()._fit_1st_stage).  Simplifications: a continuous treatment consists of
    numbers, a discrete one of values (TypeError otherwise); when a model predicts an array of the wrong size, the code has
    already replaced x_hat_dict. *)
Definition rl_fit (Lx Ly : learner) (categories : option (list (list label))) (cf : nat) (trw trv : option (list row -> list row))
  (a : rlargs) : M rloss unit :=
  match ra_cov a with
  | NNone => mlift (Err AssertionError)
  | _ =>
      mdo _ <- rl_upd (rl_named a);
      mdo w <- mlift (columns (ra_data a) (ra_adj a));
      mdo v <- mlift (columns (ra_data a) (ra_cov a));
      let v := match v with Some v => v | None => [] end in
      mdo _ <- rl_upd (rl_data a v w);
      let n := length (ra_y a) in
      let rw := option_map (rows_of n) w in
      let rw := match trw with Some f => option_map f rw | None => rw end in
      let rv := rows_of n v in
      let rv := match trv with Some f => f rv | None => rv end in
      mdo o <- rl_get;
      mdo xs <- (match ra_x a, rl_disc o with
                 | XCont x, false => mret (x, None)
                 | XDisc x, true => mdo z <- rl_enc (sl_comp (rl_isf o) x categories); mret (to_rows z, Some z)
                 | _, _ => mlift (Err TypeError)
                 end);
      let '(x, z) := xs in
      mdo _ <- rl_upd (rl_setnx (width x));
      mdo wv <- mlift (get_wv [rw; Some rv]);
      mdo xhat <- mlift (match z with
                         | None => dml_cross Lx wv x (width x) cf
                         | Some z => dml_cross_disc Lx wv z (width x) cf
                         end);
      mdo yhat <- mlift (dml_cross Ly wv (ra_y a) (width (ra_y a)) cf);
      rl_upd (rl_done (rl_resid n (width x) x xhat) (rl_resid n (width (ra_y a)) (ra_y a) yhat))
  end.

(* ------------------------------------------------------------------------------------------------ *)
(** ** score *)

(** the estimator that is scored: its attributes covariate and adjustment, whether estimate has parameters treat and
    control, estimate(data, treat, control) -- its result and the attribute treat afterwards (None: no such attribute).
    No estimator of the library has an attribute comp_transformer (they all call it comp_transormer or
    _comp_transformer), so the branches of effect_score.py:353-361 and 364-372 that need it are left out. *)
Record testest := mkTE { te_cov : namearg; te_adj : namearg; te_treat : bool; te_control : bool;
                         te_estimate : frame -> dtarg -> dtarg -> res (nd R * option tval) }.

(** enumerate(names): iterating over a string gives its letters, over None raises TypeError *)
Fixpoint letters (s : string) : list string :=
  match s with EmptyString => [] | String a r => String a EmptyString :: letters r end.
Definition iterate (a : namearg) : res (list string) :=
  match a with NNone => Err TypeError | NStr s => Ok (letters s) | NList l => Ok l end.
(** effect_score.py:336-341: the i-th name gets the i-th column of the validation array *)
Fixpoint place (names : list string) (cols : list (list R)) (fr : frame) : res frame :=
  match names with
  | [] => Ok fr
  | c :: names => match cols with [] => Err IndexError | v :: cols => place names cols (set_col fr c v) end
  end.
(** effect_score.py:334-343 *)
Definition test_frame (o : rloss) (te : testest) : res frame :=
  do fr <- (match rl_cov o with NNone => Ok [] | _ => do l <- iterate (te_cov te); place l (rl_v o) [] end);
  match rl_adj o with
  | NNone => Ok fr
  | _ => do l <- iterate (te_adj te); place l (match rl_w o with Some w => w | None => [] end) fr
  end.

(** sizes of one index in two operands of np.einsum *)
Definition dim2 (a b : nat) : res nat := if a =? b then Ok a else if a =? 1 then Ok b else if b =? 1 then Ok a else Err ValueError.
Definition clamp (a i : nat) : nat := if a =? 1 then 0 else i.
(** np.einsum("nij, nj->ni", e, x) *)
Definition einsum_nij (e x : nd R) : res (nd R) :=
  match nd_shape e, nd_shape x with
  | [n; i; j], [n'; j'] =>
      do nn <- dim2 n n';
      do jj <- dim2 j j';
      Ok (mkNd [nn; i] (fun idx => fold_right Rplus 0%R
            (map (fun q => (nd_at e [clamp n (nth 0 idx 0%nat); nth 1 idx 0%nat; clamp j q] *
                            nd_at x [clamp n' (nth 0 idx 0%nat); clamp j' q])%R) (seq 0 jj))))
  | _, _ => Err ValueError
  end.

(** x_prime[:, treat].reshape(-1, 1).  Simplification: an array of several groups: ValueError (in the code the reshape of the
    effect or einsum raises it, unless there is one row). *)
Definition pick_treat (x : nd R) (t : tval) : res (nd R) :=
  match nd_shape x with
  | [n; k] =>
      do i <- (match t with
               | VCode z => norm_index k z
               | VArr [LInt z] => norm_index k z
               | VArr _ => Err ValueError
               | _ => Err IndexError
               end);
      Ok (mkNd [n; 1] (fun idx => nd_at x [nth 0 idx 0; i]))
  | _ => Err IndexError
  end.
(** test_effect.reshape(n, y_d, 1); simplification: only of arrays of shape (n, y_d), (n, y_d, 1), (n,) with y_d = 1 *)
Definition as_n_yd_1 (n y_d : nat) (e : nd R) : res (nd R) :=
  match nd_shape e with
  | [m] => if (m =? n) && (y_d =? 1) then Ok (mkNd [n; y_d; 1] (fun idx => nd_at e [nth 0 idx 0])) else Err ValueError
  | [m; d] => if (m =? n) && (d =? y_d) then Ok (mkNd [n; y_d; 1] (fun idx => nd_at e [nth 0 idx 0; nth 1 idx 0])) else Err ValueError
  | [m; d; 1] => if (m =? n) && (d =? y_d) then Ok e else Err ValueError
  | _ => Err ValueError
  end.

(** effect_score.py:305-386 score *)
Definition rl_score (o : rloss) (te : testest) (treat control : dtarg) : res (nd R) :=
  do xy <- (match rl_res o with Some p => Ok p | None => Err IndexError end);
  let '(x', y') := xy in
  do fr <- test_frame o te;
  do et <- te_estimate te fr (if te_treat te then treat else ANone) (if te_control te then control else ANone);
  let '(effect, tattr) := et in
  do ex <- (if rl_disc o && rl_comb o
            then match tattr with
                 | None => Err AttributeError
                 | Some t => do xt <- pick_treat x' t;
                             do e <- as_n_yd_1 (rl_n o) (rl_yd o) effect;
                             Ok (e, xt)
                 end
            else Ok (effect, x'));
  do p <- einsum_nij (fst ex) (snd ex);
  do d <- bcast2 Rminus y' p;
  mean0 (mkNd (nd_shape d) (fun idx => (nd_at d idx * nd_at d idx)%R)).

(* ------------------------------------------------------------------------------------------------ *)
(** ** DoubleML as the scored estimator *)

(** the attribute treat after an estimate *)
Definition treat_attr (t : dtarg) : option tval :=
  match t with
  | AVal (LInt z) => Some (VCode z)
  | AArr l => Some (VArr l)
  | ANum t => Some (VNum t)
  | AArrR l => Some (VArrR l)
  | _ => None
  end.
Definition frame_len (fr : frame) : nat := match fr with [] => 0 | (_, v) :: _ => length v end.
(** a DoubleML (state s) fitted with these covariate and adjustment arguments; double_ml.py:639-645: estimate reads the
    covariate columns of data by name *)
Definition te_dml (s : St) (disc : bool) (cov adj : namearg) : testest :=
  mkTE cov adj true true (fun fr treat control =>
    do v <- columns fr cov;
    let (s', r) := dml_estimate disc (option_map (rows_of (frame_len fr)) v) treat control QNone s in
    do e <- r; Ok (e, treat_attr (d_tr (snd s')))).
