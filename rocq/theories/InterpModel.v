(** Model of ylearn/effect_interpreter: policy_interpreter.py (PolicyInterpreter) and ce_interpreter.py (CEInterpreter).
    The texts of interpret are modelled by what they print: one [line] per decision node, then the recommendation.  The
    formatting of numbers and the drawing of plots are not modelled. *)
From Coq Require Import ZArith Reals Lra String.
From Verif Require Import Base EstUtilsModel TreeCritModel SplitterModel TreeSpec BestFirstModel PolicyModel RlossModel.
Set Implicit Arguments.
Local Notation length := List.length.
Local Open Scope nat_scope.

(** one printed line: "decision node {node}: (covariate [{row}, {feature}] = {value}) {<= or >} {threshold}" *)
Record line := mkLine { ln_node : nat; ln_row : nat; ln_feature : nat; ln_value : R; ln_le : bool; ln_thr : R }.

(** policy_interpreter.py:288-300, ce_interpreter.py:212-224: the loop over node_index for one sample *)
Definition row_lines (nodes : list node) (sample_id : nat) (x : nat -> R) (leaf : nat) (path : list nat) : list line :=
  flat_map (fun id =>
    if leaf =? id then []
    else let nd := nth id nodes node0 in
         [mkLine id sample_id (nd_feature nd) (x (nd_feature nd)) (if Rle_dec (x (nd_feature nd)) (nd_thr nd) then true else false) (nd_thr nd)])
    path.
(** the loop over the samples: [paths] is node_indicator cut by indptr *)
Definition all_lines (nodes : list node) (v : list (nat -> R)) (leaves : list nat) (paths : list (list nat)) : list (list line) :=
  map (fun i => row_lines nodes i (nth i v (fun _ => 0%R)) (nth i leaves 0) (nth i paths [])) (seq 0 (length v)).

(** astype(np.float32) *)
Definition cast (f32 : R -> R) (rows : list (nat -> R)) : list (nat -> R) := map (fun r f => f32 (r f)) rows.

(** ndarray.max(1) *)
Definition max_of (l : list R) : R := nth (argmax l) l 0%R.
Definition max1 (a : arr) : res (list R) :=
  match a with
  | Vec _ => Err ValueError
  | Mat rows => if existsb (fun r => match r with [] => true | _ => false end) rows then Err ValueError else Ok (map max_of rows)
  end.

(** *** PolicyInterpreter *)

(** an array of effects: number of treatments, entries, number of rows *)
Record effects := mkEff { ef_out : nat; ef_ce : nat -> nat -> R; ef_n : nat }.
(** the constructor arguments (policy_interpreter.py:56-70): criterion, the tree settings and the random stream *)
Record config := mkConfig { cf_crit : pcrit; cf_env : surround; cf_set : settings; cf_pick : list frec -> nat; cf_mln : option nat }.
(** one explanation: the printed conditions, the recommended treatment and its value *)
Record explanation := mkExp { ex_lines : list line; ex_treat : nat; ex_value : R }.
Inductive decision (T : Type) := Named (l : list T) | Numbers (l : list nat).
Arguments Numbers {T}.

Section PolicyInterp.
Variables (Frame Names T : Type).
Variable cols : Frame -> Names -> list (nat -> R).
(** the columns of the effects *)
Variable eff_cols : Frame -> Names -> effects.
Variable f32 : R -> R.
(** the number of columns of v *)
Variable ncov : Names -> nat.

(** an estimator model: _is_fitted, covariate, covariate_transformer with the number of columns it gives, effect_nji *)
Record estm := mkEst { es_fitted : bool; es_cov : option Names; es_trans : option (nat * ((nat -> R) -> nat -> R));
                       es_nji : Frame -> effects }.

(** a PolicyInterpreter: _is_fitted, covariate, _tree_model (None: absent or not fitted), treatment_names_ *)
Record pinterp := mkPI { pi_fitted : bool; pi_cov : option Names; pi_tree : option (policy Names); pi_names : option (list T) }.
(** policy_interpreter.py:154-176 __init__ *)
Definition pi_new : pinterp := mkPI false None None None.

(** one call of fit *)
Record piargs := mkPA { pa_data : Frame; pa_est : option estm; pa_cov : option Names; pa_names : option (list T);
                        pa_effect : option Names; pa_array : option effects }.

(** policy_model.py:274-302: which effects and which covariates PolicyTree.fit uses; the number of columns of v.
    Simplification: an estimator without covariate makes v None, an AttributeError. *)
Definition pi_source (a : piargs) (cov : Names) : res (source Names * effects * nat) :=
  match pa_array a with
  | Some ce => Ok (Given, ce, ncov cov)
  | None =>
      match pa_effect a with
      | Some names => Ok (Given, eff_cols (pa_data a) names, ncov cov)
      | None =>
          match pa_est a with
          | None => Err AssertionError
          | Some m => if negb (es_fitted m) then Err AssertionError
                      else match es_cov m with
                           | None => Err AttributeError
                           | Some c => Ok (FromModel c (option_map snd (es_trans m)), es_nji m (pa_data a),
                                           match es_trans m with Some (k, _) => k | None => ncov c end)
                           end
          end
      end
  end.

(** policy_interpreter.py:178-246 fit: a new PolicyTree every time *)
Definition pi_fit (cf : config) (o : pinterp) (a : piargs) : pinterp * res unit :=
  let cov := match pa_cov a with Some c => Ok (Some c) | None => match pa_est a with None => Err AttributeError | Some m => Ok (es_cov m) end end in
  match cov with
  | Err x => (o, Err x)
  | Ok None => (o, Err AssertionError)
  | Ok (Some c) =>
      if match pa_est a with Some m => negb (es_fitted m) | None => false end then (o, Err AssertionError)
      else
        let o1 := mkPI (pi_fitted o) (Some c) None (pi_names o) in
        match pi_source a c with
        | Err x => (o1, Err x)
        | Ok (src, ce, nf) =>
            match pt_fit cols f32 None (cf_crit cf) (cf_env cf) (cf_set cf) (cf_pick cf) (cf_mln cf) (pa_data a) c src
                         (ef_out ce) (ef_ce ce) (ef_n ce) None nf with
            | Err x => (o1, Err x)
            | Ok p => (mkPI true (Some c) (Some p) (pa_names a), Ok tt)
            end
        end
  end.

(** the two assertions: _is_fitted of the interpreter, then of the tree *)
Definition pi_ready (o : pinterp) : res (policy Names) :=
  if pi_fitted o then match pi_tree o with Some p => Ok p | None => Err AssertionError end else Err AssertionError.

(** policy_interpreter.py:248-254 decide; ndarray.take raises IndexError *)
Definition pi_decide (cf : config) (o : pinterp) (df : option Frame) : res (decision T) :=
  do p <- pi_ready o;
  do ks <- predict_ind cols f32 (cf_crit cf) p df;
  match pi_names o with
  | None => Ok (Numbers ks)
  | Some names => do l <- mapX (fun k => match nth_error names k with Some t => Ok t | None => Err IndexError end) ks; Ok (Named l)
  end.

(** policy_interpreter.py:256-258 predict *)
Definition pi_predict (cf : config) (o : pinterp) (df : option Frame) : res arr :=
  do p <- pi_ready o; predict_opt_effect cols f32 (cf_crit cf) p df.

(** policy_interpreter.py:260-304 interpret: the entry i is the value of the key sample_i.  decision_path(v=v) and
    apply(v=v) cast v again (policy_model.py:603-607). *)
Definition pi_interpret (cf : config) (o : pinterp) (df : option Frame) : res (list explanation) :=
  do p <- pi_ready o;
  let v := pt_features cols f32 p df in
  do pred <- predict_opt_effect cols f32 (cf_crit cf) p df;
  do value <- max1 pred;
  do ind <- argmax1 pred;
  let nodes := b_nodes (pt_tree p) in
  do paths <- decision_path nodes (b_max (pt_tree p)) (cast f32 v);
  do leaves <- mapX (tree_apply nodes) (cast f32 v);
  Ok (map (fun i => mkExp (nth i (all_lines nodes v leaves paths) []) (nth i ind 0) (nth i value 0%R)) (seq 0 (length v))).

(** _export.py:417-440 the text of a node in plot: the pairs treatment = mean effect of the node, with
    treatment_names, or the numbers, zipped with the values *)
Definition node_label (o : pinterp) (value : list R) : list (T * R) + list (nat * R) :=
  match pi_names o with
  | Some names => inl (combine names value)
  | None => inr (combine (seq 0 (length value)) value)
  end.
End PolicyInterp.
Arguments pi_new {Names T}.

(** *** CEInterpreter *)

(** a fitted DecisionTreeRegressor of sklearn: nodes, values (one number per output), n_features_in_ *)
Record stree := mkST { st_nodes : list node; st_values : list (list R); st_nf : nat }.
(** an array with its number of columns *)
Record mat := mkMat { mt_w : nat; mt_rows : list (nat -> R) }.
(** a transformer of sklearn: the width it was fitted on, the width it gives *)
Record transf := mkTr { tr_in : nat; tr_out : nat; tr_fun : (nat -> R) -> nat -> R }.
Definition transform (t : transf) (m : mat) : res mat :=
  if mt_w m =? tr_in t then Ok (mkMat (tr_out t) (map (tr_fun t) (mt_rows m))) else Err ValueError.

(** the number of rows of a frame, and a list of columns as rows *)
Definition n_rows (fr : frame) : nat := match fr with [] => 0 | (_, v) :: _ => length v end.
Definition mat_of (n : nat) (cs : list (list R)) : mat := mkMat (length cs) (map (fun r c => nth r (nth c cs []) 0%R) (seq 0 n)).
(** convert2array(data, covariate)[0] and the whole frame as an array *)
Definition mat_cols (fr : frame) (cov : list string) : res mat :=
  do cs <- columns fr (NList cov); Ok (mat_of (n_rows fr) match cs with Some l => l | None => [] end).
Definition mat_all (fr : frame) : mat := mat_of (n_rows fr) (map snd fr).

(** the estimator: _is_fitted, covariate, covariate_transformer, estimate(data=data, quantity=None): a row of numbers for every row *)
Record cest := mkCE { ce_fitted : bool; ce_cov : option (list string); ce_trans : option transf; ce_estimate : frame -> res (list (list R)) }.
(** node_dict_: the mean and the std of every node *)
Record ninfo := mkNI { ni_mean : list R; ni_std : list R }.
(** a CEInterpreter *)
Record cinterp := mkCI { ci_fitted : bool; ci_est : option cest; ci_cov : list string; ci_v : mat; ci_tree : option stree;
                         ci_dict : option (list ninfo) }.
Definition ci_new : cinterp := mkCI false None [] (mkMat 0 []) None None.

(** np.sum, np.mean(l, axis=0), np.std(l, axis=0) of the rows of width k *)
Definition np_sum (l : list R) : R := fold_right Rplus 0%R l.
Definition np_mean (l : list (list R)) (k : nat) : R := (np_sum (map (fun r => nth k r 0%R) l) / INR (length l))%R.
Definition np_std (l : list (list R)) (k : nat) : R :=
  sqrt (np_sum (map (fun r => (nth k r 0%R - np_mean l k) ^ 2)%R l) / INR (length l)).

Section CEInterp.
Variable f32 : R -> R.
(** DecisionTreeRegressor.fit(v, effect) *)
Variable sk_fit : mat -> list (list R) -> res stree.

(** sklearn's decision_path, apply, predict: the array is cast and its width checked *)
Definition sk_rows (t : stree) (m : mat) : res (list (nat -> R)) :=
  if mt_w m =? st_nf t then Ok (cast f32 (mt_rows m)) else Err ValueError.
Definition sk_paths (t : stree) (m : mat) : res (list (list nat)) := do v <- sk_rows t m; mapX (tree_path (st_nodes t)) v.
Definition sk_apply (t : stree) (m : mat) : res (list nat) := do v <- sk_rows t m; mapX (tree_apply (st_nodes t)) v.
Definition sk_predict (t : stree) (m : mat) : res (list (list R)) :=
  do ls <- sk_apply t m; Ok (map (fun j => nth j (st_values t) []) ls).

(** ce_interpreter.py:259-271 _transform_data *)
Definition ci_transform (e : option cest) (m : mat) : res mat :=
  match e with
  | Some e => match ce_trans e with Some t => transform t m | None => Ok m end
  | None => Ok m
  end.

(** ce_interpreter.py:167-178: the rows of causal_effect whose path contains the node *)
Definition through (j : nat) (paths : list (list nat)) (eff : list (list R)) : list (list R) :=
  map snd (filter (fun p => existsb (Nat.eqb j) (fst p)) (combine paths eff)).
Definition node_info (width : nat) (paths : list (list nat)) (eff : list (list R)) (j : nat) : ninfo :=
  let s := through j paths eff in mkNI (map (np_mean s) (seq 0 width)) (map (np_std s) (seq 0 width)).

(** ce_interpreter.py:134-183 fit.  _est_model, covariate, _v and the tree are replaced before the next step can fail. *)
Definition ci_fit (o : cinterp) (data : frame) (e : cest) : cinterp * res unit :=
  if negb (ce_fitted e) then (o, Err AssertionError)
  else
    match ce_cov e with
    | None => (mkCI (ci_fitted o) (Some e) [] (ci_v o) (ci_tree o) (ci_dict o), Err AssertionError)
    | Some cov =>
        let o1 := mkCI (ci_fitted o) (Some e) cov (ci_v o) (ci_tree o) (ci_dict o) in
        match (do m <- mat_cols data cov; ci_transform (Some e) m) with
        | Err x => (o1, Err x)
        | Ok v =>
            let o2 := mkCI (ci_fitted o) (Some e) cov v (ci_tree o) (ci_dict o) in
            match ce_estimate e data with
            | Err x => (o2, Err x)
            | Ok eff =>
                match sk_fit v eff with
                | Err x => (o2, Err x)
                | Ok t =>
                    let o3 := mkCI (ci_fitted o) (Some e) cov v (Some t) (ci_dict o) in
                    match sk_paths t v with
                    | Err x => (o3, Err x)
                    | Ok paths =>
                        let dict := map (node_info (match eff with r :: _ => length r | [] => 0 end) paths eff) (seq 0 (length (st_nodes t))) in
                        (mkCI true (Some e) cov v (Some t) (Some dict), Ok tt)
                    end
                end
            end
        end
    end.

(** the data argument of interpret: v, or data, or neither *)
Inductive query := QArray (m : mat) | QFrame (fr : frame) | QNone.

(** ce_interpreter.py:228-257 _check_features *)
Definition ci_features (o : cinterp) (t : stree) (q : query) : res mat :=
  do m <- match q with
          | QArray m => if mt_w m =? st_nf t then Ok m else Err AssertionError
          | QNone => Ok (ci_v o)
          | QFrame fr => do m0 <- mat_cols fr (ci_cov o);
                         do m <- ci_transform (ci_est o) m0;
                         if mt_w m =? st_nf t then Ok m else Err AssertionError
          end;
  Ok (mkMat (mt_w m) (cast f32 (mt_rows m))).

(** ce_interpreter.py:185-226 interpret *)
Definition ci_interpret (o : cinterp) (q : query) : res (list (list line)) :=
  if negb (ci_fitted o) then Err AssertionError
  else match ci_tree o with
       | None => Err AttributeError
       | Some t =>
           do v <- ci_features o t q;
           do paths <- sk_paths t v;
           do leaves <- sk_apply t v;
           Ok (all_lines (st_nodes t) (mt_rows v) leaves paths)
       end.

(** ce_interpreter.py:273-278 predict and decide: the whole frame goes to the transformer or to sklearn.  sklearn's
    NotFittedError is modelled as a ValueError (it is a subclass). *)
Definition ci_predict (o : cinterp) (fr : frame) : res (list (list R)) :=
  do m <- ci_transform (ci_est o) (mat_all fr);
  match ci_tree o with None => Err ValueError | Some t => sk_predict t m end.
Definition ci_decide := ci_predict.
End CEInterp.
