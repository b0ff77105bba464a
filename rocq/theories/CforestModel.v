(** Model of ylearn/estimator_model/causal_forest.py: CausalForest, i.e. DoubleML (DmlModel) with a GRForest (GrfModel) as final
    model.  One outcome; no adjustment_transformer, proba_output=False; exact reals. *)
From Coq Require Import ZArith Reals.
From Verif Require Import Base ApiModel EstUtilsModel MetaModel CrossFitModel DmlModel TreeCritModel SplitterModel TreeSpec BestFirstModel
  GrfCritModel GrfModel.
Unset Implicit Arguments.
Local Notation length := List.length.
Local Open Scope nat_scope.

(** a CausalForest object: its GRForest yx_model and the attributes it has as a DoubleML.  GRForest has no coef_, so the
    heap of DmlModel is empty. *)
Definition CSt := (forest * dml)%type.
Definition on_dml {A} (m : M St A) : M CSt A :=
  fun s => let '((_, o), r) := m (fun _ => None, snd s) in ((fst s, o), r).
Definition on_forest {A} (m : M forest A) : M CSt A := fun s => let (f, r) := m (fst s) in ((f, snd s), r).
(** causal_forest.py:17-177 __init__ *)
Definition cf_new (p : fparams) : CSt := (grf_init p, dml_new 0).

(** causal_forest.py:179-189 fit: control is always among the keyword arguments; base_models.py:63-65 stores them *)
Definition cf_begin (a : dmlargs) (o : dml) : dml :=
  mkDML (d_yx o) (d_isf o) (d_stage1 o) (d_encs o) (m_v a) (match m_v a with Some _ => true | None => false end) (d_nx o) (width (m_y a))
        (d_tr o) (k_control a).
Definition set_isf (b : bool) (o : dml) : dml :=
  mkDML (d_yx o) b (d_stage1 o) (d_encs o) (d_tv o) (d_named o) (d_nx o) (d_ny o) (d_tr o) (d_ct o).

(** np.delete(., cols, axis=1) of an array with x_d columns: the columns kept *)
Definition keep_cols (x_d : nat) (cols : list nat) : list nat := filter (fun i => negb (existsb (Nat.eqb i) cols)) (seq 0 x_d).

(** causal_forest.py:197-217 _cal_x_prime: the columns of x - x_hat that are kept (None: all) *)
Definition cf_columns (disc : bool) : M CSt (option (list nat)) :=
  mdo o <- on_dml obj_get;
  if disc then
    mdo cols <- (match d_ct o with
                 | ANone => mret [0%nat]
                 | AArr l => mlift (mapX (fun l => match l with LInt z => norm_index (d_nx o) z | LStr _ => Err IndexError end) l)
                 | AVal l => mdo _ <- on_dml (obj_set (set_isf true));
                             mdo z <- on_dml (dml_enc (get_tr_ctrl (TVal l) (fun v => sl_comp true v None) false));
                             mdo _ <- on_dml (obj_set (set_isf false));
                             mdo i <- mlift (norm_index (d_nx o) z); mret [i]
                 | AList l => mdo _ <- on_dml (obj_set (set_isf true));
                              mdo z <- on_dml (dml_enc (get_tr_ctrl (TList l) (fun v => sl_comp true v None) false));
                              mdo _ <- on_dml (obj_set (set_isf false));
                              mdo i <- mlift (norm_index (d_nx o) z); mret [i]
                 | _ => mlift (Err TypeError)
                 end);
    mret (Some (keep_cols (d_nx o) cols))
  else mret None.
Definition ncols (x_d : nat) (keep : option (list nat)) : nat := match keep with None => x_d | Some l => length l end.
Definition col (keep : option (list nat)) (j : nat) : nat := match keep with None => j | Some l => nth j l 0 end.

Definition fn_row (r : row) : nat -> R := fun j => nth j r 0%R.
(** the arrays of the second stage: causal_forest.py:191-195 _fit_2nd_stage *)
Definition cf_data (x : list row) (xhat : nat -> nat -> R) (keep : option (list nat)) (y : list row) (yhat : nat -> nat -> R) (v : option (list row)) : fdata :=
  mkFd (length x) (ncols (width x) keep) (match v with Some v => width v | None => 0 end)
       (fun i => nth 0 (nth i y []) 0 - yhat i 0%nat)%R
       (fun i j => nth (col keep j) (nth i x []) 0 - xhat i (col keep j))%R
       (option_map (fun v i => fn_row (nth i v [])) v).

(** double_ml.py:334-433 fit with the methods of CausalForest; [trf] is covariate_transformer.fit_transform *)
Definition cf_fit (Lx Ly : learner) (E : fenv) (categories : option (list (list label))) (cf : nat) (trf : option (list row -> list row))
  (a : dmlargs) : M CSt unit :=
  match m_w a, m_v a with
  | None, None => mlift (Err AssertionError)
  | _, _ =>
      mdo _ <- on_dml (obj_set (cf_begin a));
      mdo o <- on_dml obj_get;
      let v := match trf with Some f => option_map f (m_v a) | None => m_v a end in
      mdo xs <- (match m_x a with
                 | XCont x => mret (x, None)
                 | XDisc x => mdo z <- on_dml (dml_enc (sl_comp (d_isf o) x categories)); mret (to_rows z, Some z)
                 end);
      let '(x, z) := xs in
      mdo _ <- on_dml (obj_set (dml_nx (width x)));
      mdo wv <- mlift (get_wv [m_w a; v]);
      mdo xhat <- mlift (match z with
                         | None => dml_cross Lx wv x (width x) cf
                         | Some z => dml_cross_disc Lx wv z (width x) cf
                         end);
      mdo yhat <- mlift (dml_cross Ly wv (m_y a) (width (m_y a)) cf);
      mdo _ <- on_dml (obj_set dml_stage1);
      mdo keep <- cf_columns (match z with Some _ => true | None => false end);
      mdo _ <- on_forest (grf_fit E (cf_data x xhat keep (m_y a) yhat v) None);
      on_dml (obj_set dml_done)
  end.

(** causal_forest.py:219-220 estimate: other keyword arguments are ignored, covariate_transformer is not applied *)
Definition cf_estimate (E : fenv) (s : CSt) (data : option (list row)) (treat control : dtarg) (q : quantity) : res (list (list R)) :=
  grf_estimate E (fst s) (option_map (fun d => (width d, map fn_row d)) data).
(** double_ml.py:584-603 effect_nji, inherited *)
Definition cf_effect_nji (disc : bool) (data : option (list row)) (control : dtarg) : M CSt (nd R) :=
  on_dml (dml_effect_nji disc data control).
(** causal_forest.py:222-239 apply, 241-243 feature_importance *)
Definition cf_apply (s : CSt) (rows : list (nat -> R)) : res (list (list nat)) := grf_apply (fst s) rows.
Definition cf_importance (s : CSt) : res (list R) := grf_importances (fst s).
