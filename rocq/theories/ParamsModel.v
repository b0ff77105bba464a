(** Model of get_params and set_params of ylearn/estimator_model/base_models.py (the same text is in
    _naive_forest/_grf_tree.py:270-336) and of which constructor arguments the estimator classes keep as attributes.
    Objects live on a heap, so two attributes may name the same object; a value is a reference to an object with get_params, or an
    atom (None, a number, a string, a class, an object without get_params).  Sub-objects that come from scikit-learn are taken to
    run the same two methods. *)
From Coq Require Import ZArith String Ascii.
From Verif Require Import Base.
Unset Implicit Arguments.
Local Notation length := List.length.
Local Open Scope string_scope.
Local Open Scope list_scope.
Local Open Scope nat_scope.

(** key.partition("__"): the part before the first "__", and the part after it if there is one *)
Fixpoint partition (s : string) : string * option string :=
  match s with
  | EmptyString => (EmptyString, None)
  | String c r =>
    match r with
    | String c2 r2 => if Ascii.eqb c "_" && Ascii.eqb c2 "_" then (EmptyString, Some r2)
                      else let (a, b) := partition r in (String c a, b)
    | EmptyString => (String c EmptyString, None)
    end
  end.

(** a dict with string keys, in insertion order *)
Section Dict.
Context {V : Type}.
Fixpoint dget (d : list (string * V)) (k : string) : option V :=
  match d with [] => None | (j, v) :: r => if String.eqb j k then Some v else dget r k end.
Fixpoint dset (d : list (string * V)) (k : string) (v : V) : list (string * V) :=
  match d with [] => [(k, v)] | (j, u) :: r => if String.eqb j k then (j, v) :: r else (j, u) :: dset r k v end.
Definition dupdate (d e : list (string * V)) : list (string * V) := fold_left (fun d kv => dset d (fst kv) (snd kv)) e d.
End Dict.

Inductive value := Atom (n : Z) | Ref (id : nat).
(** an object: the sorted names of the arguments of its constructor (_get_param_names, base_models.py:80-96) and its attributes *)
Record obj := mkO { ob_params : list string; ob_attrs : list (string * value) }.
Definition heap := nat -> obj.
Definition setattr (h : heap) (id : nat) (k : string) (v : value) : heap :=
  fun i => if Nat.eqb i id then mkO (ob_params (h id)) (dset (ob_attrs (h id)) k v) else h i.

(** base_models.py:98-107 get_params; fuel bounds the depth of nesting (Python: the stack) *)
Fixpoint get_params (fuel : nat) (h : heap) (deep : bool) (id : nat) : res (list (string * value)) :=
  match fuel with
  | 0 => Err OutOfFuel
  | S fuel =>
    (fix loop (ks : list string) (out : list (string * value)) : res (list (string * value)) :=
       match ks with
       | [] => Ok out
       | k :: ks =>
         match dget (ob_attrs (h id)) k with
         | None => Err AttributeError
         | Some v =>
           match deep, v with
           | true, Ref j => do items <- get_params fuel h true j;
                            loop ks (dset (dupdate out (map (fun kv => (k ++ "__" ++ fst kv, snd kv))%string items)) k v)
           | _, _ => loop ks (dset out k v)
           end
         end
       end) (ob_params (h id)) []
  end.

(** base_models.py:129-144: the loop over the given parameters; plain names are assigned at once, the others grouped by prefix *)
Fixpoint set_loop (id : nat) (ps : list (string * value)) (valid : list (string * value)) (nested : list (string * list (string * value))) (h : heap)
  : heap * res (list (string * value) * list (string * list (string * value))) :=
  match ps with
  | [] => (h, Ok (valid, nested))
  | (key, v) :: ps =>
    let (k, sub) := partition key in
    match dget valid k with
    | None => (h, Err ValueError)
    | Some _ =>
      match sub with
      | Some s => set_loop id ps valid (dset nested k (dset (match dget nested k with Some g => g | None => [] end) s v)) h
      | None => set_loop id ps (dset valid k v) nested (setattr h id k v)
      end
    end
  end.
(** base_models.py:146-147: the groups, on the values of valid_params; an atom has no set_params *)
Fixpoint nest_loop (setp : heap -> nat -> list (string * value) -> heap * res unit) (valid : list (string * value))
    (nested : list (string * list (string * value))) (h : heap) : heap * res unit :=
  match nested with
  | [] => (h, Ok tt)
  | (k, sub) :: nested =>
    match dget valid k with
    | Some (Ref j) => match setp h j sub with (h, Ok tt) => nest_loop setp valid nested h | (h, Err e) => (h, Err e) end
    | Some (Atom _) => (h, Err AttributeError)
    | None => (h, Err KeyError)
    end
  end.
(** base_models.py:109-149 set_params: the heap after the call, and its outcome *)
Fixpoint set_params (fuel : nat) (h : heap) (id : nat) (ps : list (string * value)) : heap * res unit :=
  match ps with
  | [] => (h, Ok tt)
  | _ =>
    match fuel with
    | 0 => (h, Err OutOfFuel)
    | S f =>
      match get_params (S f) h true id with
      | Err e => (h, Err e)
      | Ok valid =>
        match set_loop id ps valid [] h with
        | (h, Err e) => (h, Err e)
        | (h, Ok (valid, nested)) => nest_loop (set_params f) valid nested h
        end
      end
    end
  end.

(** the estimator classes *)
Inductive cls := CSLearner | CTLearner | CXLearner | CDoubleML | CDoublyRobust | CCausalForest | CGRForest | CCTCausalForest | CCausalTree
               | CGrfTree | CApproxBound | CNP2SLS | CDeepIV | CRLoss | CPermutedLearner | CPermutedS | CPermutedT | CPermutedX | CPermutedDR | CPermutedCT.
(** what becomes of a constructor argument: an attribute with its value; with a clone of its value; with its value unless None, then
    a default; an attribute of that name with a value of its own; no attribute *)
Inductive src := Arg | Cloned | Dflt | Own | Gone.
Definition base3 : list (string * src) := [("random_state", Dflt); ("is_discrete_treatment", Arg); ("is_discrete_outcome", Arg)].
(** the arguments of __init__ and their fate.  meta_learner.py:96-136, 610-656, 1107-1163: args and kwargs are names like others for
    inspect.signature; double_ml.py:238-326; doubly_robust.py:157-205; causal_forest.py:17-130 (calls DoubleML.__init__ only);
    _grf.py:8, causal_tree.py:992 and _base_forest.py:25-48, 138-278 (BaseEstModel.__init__, called last, sets random_state to 2022); causal_tree.py:298-390; _grf_tree.py:188; approximation_bound.py:49-88;
    iv.py:59-91; deepiv.py:605-667; effect_score.py:139-192; _permuted.py:84-99, 274-345 *)
Definition forest_common : list (string * src) :=
  [("n_estimators", Arg); ("sub_sample_num", Arg); ("max_depth", Arg); ("min_samples_split", Arg); ("min_samples_leaf", Arg);
   ("max_features", Arg); ("min_impurity_decrease", Arg); ("n_jobs", Arg); ("random_state", Own); ("ccp_alpha", Arg);
   ("is_discrete_treatment", Arg); ("is_discrete_outcome", Arg); ("verbose", Arg); ("warm_start", Arg); ("honest_subsample_num", Arg)].
Definition ctor (c : cls) : list (string * src) :=
  match c with
  | CSLearner => base3 ++ [("model", Cloned); ("categories", Arg); ("proba_output", Arg); ("args", Gone); ("kwargs", Gone)]
  | CTLearner => base3 ++ [("model", Cloned); ("categories", Arg); ("proba_output", Arg); ("kwargs", Gone)]
  | CXLearner => base3 ++ [("model", Cloned); ("categories", Arg); ("proba_output", Arg); ("final_proba_model", Gone); ("kwargs", Gone)]
  | CDoubleML => base3 ++ [("x_model", Cloned); ("y_model", Cloned); ("yx_model", Dflt); ("cf_fold", Arg); ("adjustment_transformer", Arg);
                           ("covariate_transformer", Arg); ("categories", Arg); ("proba_output", Arg)]
  | CDoublyRobust => [("random_state", Dflt); ("x_model", Cloned); ("y_model", Cloned); ("yx_model", Cloned); ("cf_fold", Arg); ("categories", Arg)]
  | CCausalForest => base3 ++ [("x_model", Cloned); ("y_model", Cloned); ("cf_fold", Arg); ("adjustment_transformer", Arg); ("covariate_transformer", Arg);
                               ("categories", Arg); ("proba_output", Arg);
                               ("n_estimators", Gone); ("sub_sample_num", Gone); ("max_depth", Gone); ("min_samples_split", Gone); ("min_samples_leaf", Gone);
                               ("min_weight_fraction_leaf", Gone); ("max_features", Gone); ("max_leaf_nodes", Gone); ("min_impurity_decrease", Gone);
                               ("n_jobs", Gone); ("ccp_alpha", Gone); ("verbose", Gone); ("warm_start", Gone); ("honest_subsample_num", Gone)]
  | CGRForest => forest_common ++ [("min_weight_fraction_leaf", Arg); ("max_leaf_nodes", Arg)]
  | CCTCausalForest => forest_common
  | CCausalTree => [("splitter", Arg); ("max_depth", Arg); ("min_samples_split", Arg); ("min_samples_leaf", Arg); ("random_state", Dflt);
                    ("max_features", Arg); ("min_impurity_decrease", Arg); ("ccp_alpha", Arg); ("honest_subsample_num", Arg); ("categories", Arg)]
  | CGrfTree => [("max_depth", Arg); ("min_samples_split", Arg); ("min_samples_leaf", Arg); ("random_state", Arg); ("max_leaf_nodes", Arg);
                 ("max_features", Arg); ("min_impurity_decrease", Arg); ("min_weight_fraction_leaf", Arg); ("ccp_alpha", Arg); ("honest", Arg)]
  | CApproxBound => [("y_model", Arg); ("x_prob", Arg); ("x_model", Arg); ("random_state", Dflt); ("is_discrete_treatment", Arg); ("categories", Arg)]
  | CNP2SLS => base3 ++ [("x_model", Dflt); ("y_model", Dflt); ("categories", Own)]
  | CDeepIV => base3 ++ [("x_net", Gone); ("y_net", Gone); ("x_hidden_d", Gone); ("y_hidden_d", Gone); ("num_gaussian", Gone);
                         ("is_discrete_instrument", Arg); ("categories", Arg)]
  | CRLoss => [("random_state", Dflt); ("is_discrete_treatment", Arg); ("x_model", Cloned); ("y_model", Cloned); ("cf_fold", Arg);
               ("adjustment_transformer", Arg); ("covariate_transformer", Arg); ("categories", Arg)]
  | CPermutedLearner => [("learner", Arg)]
  | CPermutedS | CPermutedT => base3 ++ [("model", Gone); ("categories", Arg); ("proba_output", Gone); ("kwargs", Gone)]
  | CPermutedX => base3 ++ [("model", Gone); ("final_proba_model", Gone); ("categories", Arg); ("proba_output", Gone); ("kwargs", Gone)]
  | CPermutedDR => [("x_model", Gone); ("y_model", Gone); ("yx_model", Gone); ("args", Gone); ("kwargs", Gone)]
  | CPermutedCT => [("kwargs", Gone)]
  end.
(** the attributes after construction: given is the value passed, cl the clone made of it, dv the default and none the test for
    None, own the value the class chooses *)
Definition attr_of (given cl dv own : string -> value) (is_none : value -> bool) (p : string * src) : list (string * value) :=
  let k := fst p in
  match snd p with
  | Arg => [(k, given k)]
  | Cloned => [(k, cl k)]
  | Dflt => [(k, if is_none (given k) then dv k else given k)]
  | Own => [(k, own k)]
  | Gone => []
  end.
Definition construct (c : cls) (given cl dv own : string -> value) (is_none : value -> bool) : obj :=
  mkO (map fst (ctor c)) (* _get_param_names sorts them: only the order differs *) (List.concat (map (attr_of given cl dv own is_none) (ctor c))).
