(** Model of ylearn/sklearn_ex/_transformer.py (SafeOrdinalEncoder, FeatureImportancesSelectionTransformer, the columns of general_preprocessor,
    general_estimator) and of the use DefaultIdentifier makes of it (ylearn/api/_identifier.py).
    Floats are exact rationals. *)
From Coq Require Import String QArith Qround.
From Verif Require Import Base EstUtilsModel UtilsModel MapModel.
Set Implicit Arguments.
Local Notation length := List.length.
Local Open Scope string_scope.
Local Open Scope list_scope.
Local Open Scope nat_scope.

(** *** SafeOrdinalEncoder (54-110).  A frame is a list of named columns with distinct names, an array has no names (here ignored).
    [categories_] is what OrdinalEncoder.fit of scikit-learn learned, one list for each column. *)
Section Enc.
Variable V : Type.
Variable eqV : V -> V -> bool.
(** m = dict(zip(categories, range(unseen))): a later key overwrites *)
Fixpoint dict_get (cats : list V) (i : nat) (x : V) : option nat :=
  match cats with [] => None | c :: r => match dict_get r (S i) x with Some k => Some k | None => if eqV x c then Some i else None end end.
(** 61-65 make_encoder *)
Definition encode (cats : list V) (x : V) : nat := match dict_get cats 0 x with Some k => k | None => length cats end.
(** np.vectorize without otypes refuses an empty array *)
Definition vectorize {A B} (otypes : bool) (f : A -> res B) (l : list A) : res (list B) :=
  match l with [] => if otypes then Ok [] else Err ValueError | _ => mapX f l end.
(** a number of an integer or of a float array *)
Variant num := NInt (z : Z) | NFloat (q : Q).
Definition to_dtype (fl : bool) (n : nat) : num := if fl then NFloat (inject_Z (Z.of_nat n)) else NInt (Z.of_nat n).
(** the i-th column with the i-th list of categories (69, 101) *)
Definition by_position {A B C} (f : A -> list B -> res (list C)) (cats : list A) (X : list (string * list B)) : res (list (string * list C)) :=
  mapX (fun ic => match nth_error cats (fst ic) with None => Err IndexError | Some cs => do r <- f cs (snd (snd ic)); Ok (fst (snd ic), r) end) (combine (seq 0 (length X)) X).
(** np.stack refuses an empty list (76, 108) *)
Definition assemble {A} (df : bool) (r : list A) : res (list A) := match r with [] => if df then Ok [] else Err ValueError | _ => Ok r end.
(** 57-80 transform; [df]: X is a DataFrame, [fl]: dtype is a float type (the default) *)
Definition enc_transform (df fl : bool) (cats : list (list V)) (X : list (string * list V)) : res (list (string * list num)) :=
  do r <- by_position (fun cs col => vectorize false (fun x => Ok (to_dtype fl (encode cs x))) col) cats X; assemble df r.
(** 86-97 make_decoder: numpy does not index with a float *)
Definition decode (dv : V) (cats : list V) (x : num) : res V :=
  match x with
  | NInt z => if (0 <=? z)%Z && (z <? Z.of_nat (length cats))%Z then match nth_error cats (Z.to_nat z) with Some v => Ok v | None => Err IndexError end else Ok dv
  | NFloat q => if Qle_bool 0 q && negb (Qle_bool (inject_Z (Z.of_nat (length cats))) q) then Err IndexError else Ok dv
  end.
(** 82-110 inverse_transform; with each list of categories the default value of its dtype (NaN, -1 or None) *)
Definition enc_inverse (df : bool) (cats : list (V * list V)) (X : list (string * list num)) : res (list (string * list V)) :=
  do r <- by_position (fun cs col => vectorize true (decode (fst cs) (snd cs)) col) cats X; assemble df r.
End Enc.

(** *** FeatureImportancesSelectionTransformer (113-255) *)
Variant strat := SThreshold | SQuantile | SNumber | SOther.
(** number: is it a float, and its value *)
Record number := mkN { n_float : bool; n_val : Q }.
Record sel_params := mkSP { sp_strategy : option strat; sp_threshold : option Q; sp_quantile : option Q; sp_number : option number }.
Definition qltb (a b : Q) : bool := negb (Qle_bool b a).
(** 198-224 _detect_strategy with the defaults of 118-123 *)
Definition detect (p : sel_params) : res (strat * Q * Q * number) :=
  let st := match sp_strategy p with
            | Some s => s
            | None => match sp_threshold p, sp_number p, sp_quantile p with
                      | Some _, _, _ => SThreshold
                      | None, Some _, _ => SNumber
                      | None, None, Some _ => SQuantile
                      | None, None, None => SThreshold
                      end
            end in
  let th := match sp_threshold p with Some t => t | None => (1 # 10)%Q end in
  let qu := match sp_quantile p with Some q => q | None => (2 # 10)%Q end in
  let nu := match sp_number p with Some n => n | None => mkN true (8 # 10)%Q end in
  match st with
  | SQuantile => if qltb 0 qu && qltb qu 1 then Ok (st, th, qu, nu) else Err AssertionError
  | SOther => Err ValueError
  | _ => Ok (st, th, qu, nu)
  end.

Fixpoint insertQ (a : Q) (l : list Q) : list Q := match l with [] => [a] | b :: r => if Qle_bool a b then a :: l else b :: insertQ a r end.
Definition sortQ (l : list Q) : list Q := fold_right insertQ [] l.
(** np.quantile, linear interpolation *)
Definition quantile (l : list Q) (q : Q) : Q :=
  let h := (inject_Z (Z.of_nat (length l) - 1) * q)%Q in
  let i := Z.to_nat (Qfloor h) in
  let a := nth i (sortQ l) 0%Q in
  let b := nth (S i) (sortQ l) a in
  (a + (h - inject_Z (Qfloor h)) * (b - a))%Q.

Section Select.
(** np.argsort; the order of equal values is up to numpy *)
Variable argsort : list Q -> list nat.
Definition indexed (l : list Q) (keep : nat -> bool) : list nat := filter keep (seq 0 (length l)).
(** 226-255 _select_feature_by_importance (the unselected indices are not used by fit) *)
Definition select (imps : list Q) (p : sel_params) : res (list nat) :=
  if (length imps =? 0) then Err AssertionError else
  do (r, nu) <- detect p;
  let '(st, th, qu) := r in
  match st with
  | SThreshold => Ok (indexed imps (fun i => Qle_bool th (nth i imps 0%Q)))
  | SQuantile => let q := quantile imps qu in Ok (indexed imps (fun i => Qle_bool q (nth i imps 0%Q)))
  | SNumber => let nv := if n_float nu && (qltb 0 (n_val nu) && qltb (n_val nu) 1) then inject_Z (Qceiling (inject_Z (Z.of_nat (length imps)) * n_val nu)) else n_val nu in
               let pos := (inject_Z (Z.of_nat (length imps)) - nv)%Q in
               let ranks := argsort (map (fun i => inject_Z (Z.of_nat i)) (argsort imps)) in
               Ok (indexed imps (fun i => Qle_bool pos (inject_Z (Z.of_nat (nth i ranks 0)))))
  | SOther => Err ValueError
  end.

(** kinds of columns: object or category, bool, number, number without any value, others (dates) *)
Variant ckind := KCat | KBool | KNum | KNumNan | KElse.
Definition is_cat k := match k with KCat => true | _ => false end.
Definition is_bool k := match k with KBool => true | _ => false end.
Definition is_num k := match k with KNum | KNumNan => true | _ => false end.
Definition has_value k := match k with KNumNan => false | _ => true end.
Variable md5 : string -> string.
Variable numstr : nat -> string.
(** 258-281 general_preprocessor().fit_transform: the columns of its result.  Three features in this order, the rest dropped; SimpleImputer(mean) leaves
    out columns without any value; none of these transformers has get_feature_names or classes_ (so the names are those of DataFrameMapper._get_names with no
    name on offer) *)
Definition prep_columns (X : list (string * ckind)) : res (list string) :=
  let sub f := map fst (filter (fun c => f (snd c)) X) in
  let names cs k := match cs with [] => [] | _ => @get_names unit (fun _ => [fun _ => None]) md5 numstr cs (Some tt) k None end in
  let cat := sub is_cat in let bool := sub is_bool in let num := sub is_num in
  let k := length (sub (fun k => is_num k && has_value k)) in
  match cat ++ bool ++ num with
  | [] => Err ValueError
  | _ => if (length (names num k) =? k) then Ok (names cat (length cat) ++ names bool (length bool) ++ names num k) else Err ValueError
  end.

Fixpoint index_of (c : string) (l : list string) : option nat :=
  match l with [] => None | x :: r => if String.eqb c x then Some 0 else option_map S (index_of c r) end.
(** 141-193 fit: [cleaned] are the columns after cleaning (X itself with data_clean=False), [score] the importances the fitted estimator gives to the columns
    of the preprocessed frame; result: selected_features_, feature_importances_ (feature_names_in_ are the names of X) *)
Definition fist_fit (p : sel_params) (columns_in : list string) (cleaned : list (string * ckind)) (score : list string -> list Q) : res (list string * list Q) :=
  do columns <- prep_columns cleaned;
  let imps := score columns in
  do sel <- select imps p;
  do selected <- mapX (fun i => match nth_error columns i with Some c => Ok c | None => Err IndexError end) sel;
  Ok (selected, if (length columns =? length columns_in) then imps else map (fun c => match index_of c columns with Some i => nth i imps 0%Q | None => 0%Q end) columns_in).
(** 142-143 the task: fit stores an inferred one in the parameter *)
Definition fist_task (param : option task) (inferred : res (task * list yval)) : res task := match param with Some t => Ok t | None => do (t, _) <- inferred; Ok t end.
(** 195-196 transform: X[self.selected_features_], by name *)
Definition fist_transform (selected : list string) (X : list (string * ckind)) : res (list (string * ckind)) :=
  mapX (fun c => match find (fun x => String.eqb c (fst x)) X with Some x => Ok x | None => Err KeyError end) selected.

(** api/_identifier.py:25-42 DefaultIdentifier.identify_treatment; X: the columns of data but the outcome *)
Definition identify_treatment (discrete : string -> bool) (X : list (string * ckind)) (score : list string -> list Q) (discrete_treatment : option bool) (limit : nat) (excludes : list string) : res (list string) :=
  let X := filter (fun c => negb (mem (fst c) excludes)) X in
  do (selected, _) <- fist_fit (mkSP (Some SNumber) None None (Some (mkN false (inject_Z (Z.of_nat (length X)))))) (map fst X) X score;
  match discrete_treatment with
  | None => align_task_to_first discrete selected limit
  | Some d => Ok (select_by_task discrete selected limit d)
  end.
End Select.

(** *** general_estimator (284-400) *)
Variant lib := LGBM | XGB | DT | RF | GB | LR | Lasso.
Variant est_arg := ENone | EName (s : string) | EObj (n : nat).
Variant task_arg := TNone | TBool (b : bool) | TTask (t : task).
(** the estimator returned: a new one, for regression or not, with its keyword arguments; or a copy of the argument *)
Variant est := New (l : lib) (regressor : bool) (kw : list string) | Copy (e : est_arg).
Section General.
(** what is installed *)
Variables (lightgbm xgboost darwin : bool).
Definition creators (s : string) : option lib :=
  if String.eqb s "gbm" || (String.eqb s "lgbm" || String.eqb s "lightgbm") then Some LGBM
  else if String.eqb s "xgb" || String.eqb s "xgboost" then Some XGB
  else if String.eqb s "dt" then Some DT else if String.eqb s "rf" then Some RF else if String.eqb s "gb" then Some GB
  else if String.eqb s "lr" then Some LR else if String.eqb s "lasso" then Some Lasso else None.
(** the arguments a creator sets itself *)
Definition own (l : lib) : list string :=
  match l with
  | LGBM => ["n_estimators"; "num_leaves"; "max_depth"; "subsample"; "subsample_freq"; "colsample_bytree"; "reg_alpha"; "reg_lambda"; "importance_type"; "random_state"; "verbose"]
  | XGB => ["n_estimators"; "max_depth"; "min_child_weight"; "learning_rate"; "gamma"; "reg_alpha"; "reg_lambda"; "random_state"]
  | DT | RF => ["min_samples_leaf"; "min_impurity_decrease"; "random_state"]
  | GB => ["n_estimators"; "max_depth"; "random_state"]
  | LR | Lasso => ["random_state"]
  end.
(** dict(own..., **kwargs): a repeated keyword is a TypeError *)
Definition with_kwargs (o kw : list string) : res (list string) := if existsb (fun k => mem k o) kw then Err TypeError else Ok (o ++ kw).
(** 300-366; [reg]: task_ == TASK_REGRESSION.  A library that is not installed: the name is unbound (NameError, here NullPointer) *)
Definition create (l : lib) (reg : bool) (kw : list string) : res est :=
  match l with
  | LGBM => if lightgbm then do o <- with_kwargs (own LGBM) kw; Ok (New LGBM reg o) else Err NullPointer
  | XGB => if xgboost then Ok (New XGB reg (if reg then own XGB else own XGB ++ ["use_label_encoder"])) else Err NullPointer
  | LR => if reg then Ok (New LR true kw) else do o <- with_kwargs (own LR) kw; Ok (New LR false o)
  | Lasso => if reg then do o <- with_kwargs (own Lasso) kw; Ok (New Lasso true o) else Err AssertionError
  | _ => do o <- with_kwargs (own l) kw; Ok (New l reg o)
  end.
(** 381-400; [y]: the result of infer_task_type(y), or None without y.  A task that was inferred is a pair (task, labels): it equals no constant *)
Definition general_estimator (y : option (res (task * list yval))) (e : est_arg) (t : task_arg) (kw : list string) : res est :=
  let e := match e with ENone => EName (if xgboost then "xgb" else if lightgbm && negb darwin then "gbm" else "rf") | _ => e end in
  do reg <- match t with
            | TNone => match y with None => Err AssertionError | Some r => do _ <- r; Ok false end
            | TBool b => Ok (negb b)
            | TTask t => Ok (match t with Regression => true | _ => false end)
            end;
  match e with
  | EName s => match creators s with Some l => create l reg kw | None => Ok (Copy e) end
  | _ => Ok (Copy e)
  end.
End General.
