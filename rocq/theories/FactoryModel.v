(** Model of ylearn/estimator_model/_factory.py (the factories behind Why(estimator=...)), of the constructors they call, and of
    Why._get_default_estimator and Why._create_estimator (api/_why.py:333-341, 439-472).
    DeepIVFactory is only registered here (its networks are not modelled). *)
From Coq Require Import String Ascii ZArith.
From Verif Require Import Base UtilsModel MapModel TransModel.
Set Implicit Arguments.
Local Notation length := List.length.
Local Open Scope string_scope.
Local Open Scope list_scope.
Local Open Scope nat_scope.

(** *** the registry (8-29) *)
Definition registry := list (string * string).
Definition lookup {A} (k : string) (d : list (string * A)) : option A := option_map snd (find (fun e => String.eqb k (fst e)) d).
(** tag[:-7] if it ends with 'Factory' *)
Definition strip_factory (s : string) : string :=
  if String.eqb (substring (String.length s - 7) 7 s) "Factory" then substring 0 (String.length s - 7) s else s.
Definition tag_of (name : option string) (cls : string) : string :=
  match name with Some n => n | None => string_of_list_ascii (to_snake_case (list_ascii_of_string (strip_factory cls))) end.
(** 11-29 register; issubclass(cls, BaseEstimatorFactory) holds for the classes of the module *)
Definition register (r : registry) (e : option string * string) : res registry :=
  let tag := tag_of (fst e) (snd e) in if mem tag (map fst r) then Err AssertionError else Ok (r ++ [(tag, snd e)]).
Fixpoint register_all (r : registry) (l : list (option string * string)) : res registry :=
  match l with [] => Ok r | e :: l => do r <- register r e; register_all r l end.
(** the decorators of the module, in the order in which they run (the inner one first) *)
Definition decorators : list (option string * string) :=
  [(None, "DMLFactory"); (None, "DRFactory"); (Some "ml", "MetaLearnerFactory"); (None, "MetaLearnerFactory");
   (None, "SLearnerFactory"); (None, "TLearnerFactory"); (None, "XLearnerFactory"); (Some "tree", "CausalTreeFactory"); (None, "CausalTreeFactory");
   (None, "GrfFactory"); (Some "bound", "ApproxBoundFactory"); (None, "ApproxBoundFactory"); (None, "IVFactory");
   (Some "div", "DeepIVFactory"); (None, "DeepIVFactory"); (None, "RLossFactory")].
Definition factories : res registry := register_all [] decorators.

(** *** factories *)
Variant fclass := FDML | FDR | FMeta | FS | FT | FX | FTree | FGrf | FBound | FIV | FRLoss.
(** a value of a keyword argument *)
Variant kval := KNone | KBool (b : bool) | KNat (n : nat) | KStr (s : string) | KSeed (z : option Z) | KEst (e : est) | KArg (e : est_arg).
Definition kwargs := list (string * kval).
(** the constructor's parameters and defaults; [true]: it also takes other keywords *)
Definition params (f : fclass) : list (string * kval) * bool :=
  match f with
  | FDML => ([("y_model", KArg (EName "rf")); ("x_model", KArg (EName "rf")); ("yx_model", KArg (EName "lr")); ("cf_fold", KNone)], false)
  | FDR => ([("y_model", KArg (EName "gb")); ("x_model", KArg (EName "rf")); ("yx_model", KArg (EName "gb")); ("cf_fold", KNone)], false)
  | FMeta => ([("learner", KStr "tlearner"); ("model", KArg (EName "gb"))], true)
  | FS | FT => ([("model", KArg (EName "gb"))], false)
  | FX => ([("model", KArg (EName "gb")); ("final_proba_model", KArg (EName "lr"))], false)
  | FTree | FGrf => ([], true)
  | FBound => ([("y_model", KArg (EName "gb")); ("x_model", KArg (EName "rf")); ("x_prob", KNone)], false)
  | FIV => ([("y_model", KArg (EName "lr")); ("x_model", KArg (EName "rf"))], false)
  | FRLoss => ([("y_model", KArg (EName "rf")); ("x_model", KArg (EName "rf")); ("cf_fold", KNone)], false)
  end.
(** a factory object: class, attributes, further options *)
Record factory := mkFac { fa_class : fclass; fa_attrs : kwargs; fa_more : kwargs }.
(** str.strip().lower()[0]: IndexError on blanks; only spaces are stripped here *)
Fixpoint first_letter (s : string) : res ascii :=
  match s with EmptyString => Err IndexError | String c s => if Ascii.eqb c " " then first_letter s else Ok (lower c) end.
Definition learner_tag (d : kwargs) : res ascii := match lookup "learner" d with Some (KStr s) => first_letter s | _ => Err AttributeError end.
Definition is_sx (c : ascii) : bool := Ascii.eqb c "s" || Ascii.eqb c "t" || Ascii.eqb c "x".
(** ESTIMATOR_FACTORIES[name] called with the options as keywords *)
Definition new_factory (f : fclass) (options : kwargs) : res factory :=
  let (ps, open) := params f in
  let known := filter (fun e => mem (fst e) (map fst ps)) options in
  let more := filter (fun e => negb (mem (fst e) (map fst ps))) options in
  if negb open && match more with [] => false | _ => true end then Err TypeError
  else let attrs := known ++ filter (fun e => negb (mem (fst e) (map fst known))) ps in
       match f with
       | FMeta => do c <- learner_tag attrs; if is_sx c then Ok (mkFac f attrs more) else Err AssertionError
       | _ => Ok (mkFac f attrs more)
       end.

(** *** the estimators a factory calls *)
Variant eclass := DoubleML | PDoublyRobust | PSLearner | PTLearner | PXLearner | PCausalTree | GRForest | ApproxBound | NP2SLS | RLoss.
Section Call.
Variables (lightgbm xgboost darwin : bool).
(** has predict_proba, for the user's own estimator objects *)
Variable obj_proba : nat -> bool.

(** x_task if isinstance(x_task, bool) else x_task != TASK_REGRESSION *)
Definition is_discrete_task (t : task_arg) : bool := match t with TBool b => b | TTask Regression => false | _ => true end.
(** 37-42 _model: no y is handed to general_estimator, random_state is one of its own parameters *)
Definition build (e : option kval) (t : task_arg) : res kval :=
  match t with
  | TNone => Err AssertionError
  | _ => match e with
         | Some (KArg ENone) | Some KNone | None => Err AssertionError
         | Some (KArg e) => do m <- general_estimator lightgbm xgboost darwin None e t []; Ok (KEst m)
         | Some (KStr s) => do m <- general_estimator lightgbm xgboost darwin None (EName s) t []; Ok (KEst m)
         | Some _ => Err TypeError (* deepcopy of a number or of a fitted estimator: not modelled *)
         end
  end.
(** 44-55 _cf_fold *)
Definition cf_fold (a : kwargs) (rows : nat) : kval :=
  match lookup "cf_fold" a with
  | Some KNone | None => KNat (if Nat.ltb rows 3000 then 1 else if Nat.ltb rows 10000 then 3 else 5)
  | Some k => k
  end.
(** dict.update *)
Definition update (d u : kwargs) : kwargs := filter (fun e => negb (mem (fst e) (map fst u))) d ++ u.
Definition proba (d : bool) : kval := if d then KBool true else KNone.
Definition flags (y x : task_arg) (seed : option Z) : kwargs :=
  [("is_discrete_outcome", KBool (is_discrete_task y)); ("is_discrete_treatment", KBool (is_discrete_task x)); ("proba_output", proba (is_discrete_task y)); ("random_state", KSeed seed)].
Definition assert_ (b : bool) : res unit := if b then Ok tt else Err AssertionError.
Definition regr := TTask Regression.

(** __call__: the class and the keyword arguments it is called with.  [rows] = data.shape[0]; [cov], [ins]: covariate / instrument is not None *)
Definition call (f : factory) (rows : nat) (y x : task_arg) (cov ins : bool) (seed : option Z) : res (eclass * kwargs) :=
  let a := fa_attrs f in
  let arg n := lookup n a in
  match fa_class f with
  | FDML => (* 68-87 *)
      do _ <- assert_ cov; do m <- build (arg "y_model") y; do n <- build (arg "x_model") x; do k <- build (arg "yx_model") regr;
      Ok (DoubleML, [("y_model", m); ("x_model", n); ("yx_model", k); ("cf_fold", cf_fold a rows)] ++ flags y x seed)
  | FDR => (* 98-112 *)
      do _ <- assert_ (match x with TTask Regression => false | _ => true end);
      do m <- build (arg "y_model") y; do n <- build (arg "x_model") x; do k <- build (arg "yx_model") regr;
      Ok (PDoublyRobust, [("y_model", m); ("x_model", n); ("yx_model", k); ("cf_fold", cf_fold a rows); ("random_state", KSeed seed)])
  | FMeta => (* 125-148 *)
      do _ <- assert_ (is_discrete_task x);
      do c <- learner_tag a;
      do cls <- (if Ascii.eqb c "s" then Ok PSLearner else if Ascii.eqb c "t" then Ok PTLearner else if Ascii.eqb c "x" then Ok PXLearner else Err KeyError);
      do m <- build (arg "model") y;
      Ok (cls, update (("model", m) :: flags y x seed) (fa_more f))
  | FS => do _ <- assert_ (is_discrete_task x); do m <- build (arg "model") y; Ok (PSLearner, ("model", m) :: flags y x seed) (* 156-172 *)
  | FT => do _ <- assert_ (is_discrete_task x); do m <- build (arg "model") y; Ok (PTLearner, ("model", m) :: flags y x seed) (* 180-196 *)
  | FX => (* 205-230 *)
      do _ <- assert_ (is_discrete_task x);
      do k <- (if is_discrete_task y then build (arg "final_proba_model") regr else Ok KNone);
      do m <- build (arg "model") y;
      Ok (PXLearner, [("model", m); ("final_proba_model", k)] ++ flags y x seed)
  | FTree => (* 239-254 *)
      do _ <- assert_ (is_discrete_task x);
      Ok (PCausalTree, match seed with Some _ => update (fa_more f) [("random_state", KSeed seed)] | None => fa_more f end)
  | FGrf => (* 262-275 *)
      let o := match seed with Some _ => update (fa_more f) [("random_state", KSeed seed)] | None => fa_more f end in
      Ok (GRForest, update o [("is_discrete_outcome", KBool (is_discrete_task y)); ("is_discrete_treatment", KBool (is_discrete_task x))])
  | FBound => (* 286-298 *)
      do _ <- assert_ cov; do m <- build (arg "y_model") y; do n <- build (arg "x_model") x;
      Ok (ApproxBound, [("y_model", m); ("x_model", n); ("x_prob", match arg "x_prob" with Some k => k | None => KNone end); ("is_discrete_treatment", KBool (is_discrete_task x)); ("random_state", KSeed seed)])
  | FIV => (* 307-319 *)
      do _ <- assert_ ins; do m <- build (arg "y_model") y; do n <- build (arg "x_model") x;
      Ok (NP2SLS, [("y_model", m); ("x_model", n); ("is_discrete_outcome", KBool (is_discrete_task y)); ("is_discrete_treatment", KBool (is_discrete_task x)); ("random_state", KSeed seed)])
  | FRLoss => (* 387-397 *)
      do m <- build (arg "y_model") y; do n <- build (arg "x_model") x;
      Ok (RLoss, [("y_model", m); ("x_model", n); ("cf_fold", cf_fold a rows); ("is_discrete_treatment", KBool (is_discrete_task x)); ("random_state", KSeed seed)])
  end.

(** *** the constructors: the keywords they take, and their assertions *)
Definition takes (c : eclass) : list string :=
  match c with
  | DoubleML => ["x_model"; "y_model"; "yx_model"; "cf_fold"; "adjustment_transformer"; "covariate_transformer"; "random_state"; "is_discrete_treatment"; "categories"; "is_discrete_outcome"; "proba_output"]
  | PDoublyRobust => ["x_model"; "y_model"; "yx_model"; "cf_fold"; "random_state"; "categories"]
  | PSLearner | PTLearner => ["model"; "is_discrete_treatment"; "is_discrete_outcome"; "categories"; "proba_output"; "random_state"]
  | PXLearner => ["model"; "final_proba_model"; "is_discrete_treatment"; "is_discrete_outcome"; "categories"; "proba_output"; "random_state"]
  | PCausalTree => ["splitter"; "max_depth"; "min_samples_split"; "min_samples_leaf"; "random_state"; "max_features"; "min_impurity_decrease"; "ccp_alpha"; "honest_subsample_num"; "categories"]
  | GRForest => ["n_estimators"; "sub_sample_num"; "max_depth"; "min_samples_split"; "min_samples_leaf"; "min_weight_fraction_leaf"; "max_features"; "max_leaf_nodes"; "min_impurity_decrease"; "n_jobs"; "random_state"; "ccp_alpha"; "is_discrete_treatment"; "is_discrete_outcome"; "verbose"; "warm_start"; "honest_subsample_num"]
  | ApproxBound => ["y_model"; "x_prob"; "x_model"; "random_state"; "is_discrete_treatment"; "categories"]
  | NP2SLS => ["x_model"; "y_model"; "random_state"; "is_discrete_treatment"; "is_discrete_outcome"; "categories"]
  | RLoss => ["x_model"; "y_model"; "cf_fold"; "adjustment_transformer"; "covariate_transformer"; "random_state"; "is_discrete_treatment"; "categories"]
  end.
Definition truthy (k : option kval) : bool := match k with Some (KBool b) => b | Some KNone | None => false | Some (KNat 0) => false | Some _ => true end.
(** hasattr(model, 'predict_proba') *)
Definition has_proba (k : option kval) : bool :=
  match k with Some (KEst (New _ r _)) => negb r | Some (KEst (Copy (EObj n))) => obj_proba n | _ => false end.
(** _permuted.py:267-268 etc.: if proba_output is None: proba_output = is_discrete_outcome *)
Definition proba_arg (d : kwargs) : bool := match lookup "proba_output" d with Some KNone | None => truthy (lookup "is_discrete_outcome" d) | k => truthy k end.
Definition construct (c : eclass) (d : kwargs) : res unit :=
  if negb (forallb (fun e => mem (fst e) (takes c)) d) then Err TypeError
  else match c with
       | DoubleML => (* double_ml.py:281-299 *)
           do _ <- assert_ (implb (truthy (lookup "proba_output" d)) (truthy (lookup "is_discrete_outcome" d) && has_proba (lookup "y_model" d)));
           assert_ (implb (truthy (lookup "is_discrete_treatment" d)) (has_proba (lookup "x_model" d)))
       | PSLearner | PTLearner | PXLearner => (* meta_learner.py:118-126, 634-643, 1131-1145; _permuted.py:85 *)
           do _ <- assert_ (match lookup "is_discrete_treatment" d with Some k => truthy (Some k) | None => true end);
           assert_ (implb (proba_arg d) (truthy (lookup "is_discrete_outcome" d) && has_proba (lookup "model" d)))
       | RLoss => (* double_ml.py:291-295 *) assert_ (implb (truthy (lookup "is_discrete_treatment" d)) (has_proba (lookup "x_model" d)))
       | _ => Ok tt
       end.
(** the attribute _is_fitted of a new object: NP2SLS hands its categories to the parameter _is_fitted of BaseEstModel (iv.py:88-90, base_models.py:24-38) *)
Definition fresh_is_fitted (c : eclass) (d : kwargs) : kval :=
  match c with NP2SLS => match lookup "categories" d with Some k => k | None => KStr "auto" end | _ => KBool false end.

(** *** api/_why.py *)
(** 333-341 _get_default_estimator; [ins]: the instruments are not None and not empty *)
Definition default_estimator (dx dy : bool) (ins : bool) : fclass := if ins then FIV else if dx || dy then FT else FDML.
(** the class behind a name of ESTIMATOR_FACTORIES *)
Definition fclass_of (cls : string) : option fclass :=
  lookup cls [("DMLFactory", FDML); ("DRFactory", FDR); ("MetaLearnerFactory", FMeta); ("SLearnerFactory", FS); ("TLearnerFactory", FT); ("XLearnerFactory", FX);
              ("CausalTreeFactory", FTree); ("GrfFactory", FGrf); ("ApproxBoundFactory", FBound); ("IVFactory", FIV); ("RLossFactory", FRLoss)].
(** 439-472 _create_estimator for an estimator given as a name.  instrument: None, or the list *)
Definition create_estimator (name : string) (options : kwargs) (rows : nat) (dy dx : bool) (cov : bool) (ins : option (list string)) (seed : option Z) : res (eclass * kwargs) :=
  do tbl <- factories;
  do f <- (if String.eqb name "auto" then Ok (default_estimator dx dy (match ins with Some (_ :: _) => true | _ => false end))
           else match lookup name tbl with
                | Some cls => match fclass_of cls with Some f => Ok f | None => Err NotImplementedError (* DeepIV *) end
                | None => Err AssertionError
                end);
  do fac <- new_factory f options;
  do e <- call fac rows (TBool dy) (TBool dx) cov (match ins with Some _ => true | None => false end) seed;
  do _ <- construct (fst e) (snd e);
  Ok e.
End Call.
