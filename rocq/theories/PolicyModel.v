(** Model of ylearn/policy/policy_model.py, class PolicyTree: fit, _prepare4est, predict_ind, predict_opt_effect.
    A data frame is seen through [cols]: the rows of the chosen columns (convert2array).  The parameters max_depth,
    min_samples_leaf, min_samples_split, max_features, min_weight_leaf are the resolved numbers.  [f32] is the cast
    to float32. *)
From Coq Require Import ZArith Reals Lra.
From Verif Require Import Base TreeCritModel SplitterModel TreeSpec BestFirstModel.
Set Implicit Arguments.
Local Notation length := List.length.
Open Scope R_scope.

(** policy_model.py:39-43 CRITERIA *)
Inductive pcrit := PolicyReg | PolicyTest | PolicyTest1.

(** results of numpy: a vector or a matrix *)
Inductive arr := Vec (l : list R) | Mat (rows : list (list R)).

(** np.argmax of a row: the first largest entry; ValueError for an empty one *)
Fixpoint argmax (l : list R) : nat :=
  match l with
  | [] => 0
  | x :: tl => match tl with
               | [] => 0
               | _ => if Rle_dec (nth (argmax tl) tl 0) x then 0 else S (argmax tl)
               end
  end.
(** ndarray.argmax(1): AxisError (a ValueError) for a vector *)
Definition argmax1 (a : arr) : res (list nat) :=
  match a with
  | Vec _ => Err ValueError
  | Mat rows => if existsb (fun r => match r with [] => true | _ => false end) rows then Err ValueError else Ok (map argmax rows)
  end.

Section Policy.
Variables (Frame Names : Type).
Variable cols : Frame -> Names -> list (nat -> R).
Variable f32 : R -> R.

(** the attributes of a fitted PolicyTree *)
Record policy := mkPolicy { pt_cov : Names; pt_trans : option ((nat -> R) -> nat -> R); pt_v : list (nat -> R);
                            pt_out : nat; pt_tree : @bst (nat -> R) }.

(** policy_model.py:276-302 where the effects come from: [Given] is effect= or effect_array=; [FromModel] is a fitted
    estimator model with its covariate names and its covariate_transformer *)
Inductive source := Given | FromModel (cov : Names) (trans : option ((nat -> R) -> nat -> R)).

(** policy_model.py:276-304: covariate, v, and the attribute cov_transformer, which only the branch of an estimator
    with a transformer writes *)
Definition pt_covariates (prev : option policy) (df : Frame) (cov : Names) (src : source)
  : Names * list (nat -> R) * option ((nat -> R) -> nat -> R) :=
  let old := match prev with None => None | Some p => pt_trans p end in
  match src with
  | Given => (cov, cols df cov, old)
  | FromModel c None => (c, cols df c, old)
  | FromModel c (Some t) => (c, map t (cols df c), Some t)
  end.

(** the effects: [ce i k] for row i and treatment k < out, stored row by row *)
Definition pt_data (out : nat) (ce : nat -> nat -> R) (w : option (nat -> R)) : data :=
  mkData out (fun k => ce (k / out)%nat (k mod out)%nat) w.
Definition pt_X (v : list (nat -> R)) (i f : nat) : R := f32 (nth i v (fun _ => 0) f).

(** policy_model.py:440-508 criterion, splitter, builder: max_leaf_nodes None is the depth-first builder *)
Definition pt_build (crit : pcrit) (e : surround) (g : settings) (pick : list frec -> nat) (max_leaf_nodes : option nat)
           (X : nat -> nat -> R) (d : data) (n nf : nat) : res (@bst (nat -> R)) :=
  match max_leaf_nodes with
  | None => match crit with
            | PolicyReg => grow (preg_crit d) e g X d n nf
            | PolicyTest => grow (mse_crit d) e g X d n nf
            | PolicyTest1 => grow (preg1_crit d) e g X d n nf
            end
  | Some m => match crit with
              | PolicyReg => bf_grow preg_crit e g pick m X d n nf
              | PolicyTest => bf_grow mse_crit e g pick m X d n nf
              | PolicyTest1 => bf_grow preg1_crit e g pick m X d n nf
              end
  end.

(** policy_model.py:238-515 fit; [n_ce] is len(ce) *)
Definition pt_fit (prev : option policy) (crit : pcrit) (e : surround) (g : settings) (pick : list frec -> nat)
           (max_leaf_nodes : option nat) (df : Frame) (cov : Names) (src : source)
           (out : nat) (ce : nat -> nat -> R) (n_ce : nat) (w : option (nat -> R)) (nf : nat) : res policy :=
  let '(c, v, t) := pt_covariates prev df cov src in
  if negb (n_ce =? length v)%nat then Err ValueError
  else do b <- pt_build crit e g pick max_leaf_nodes (pt_X v) (pt_data out ce w) (length v) nf ;
       Ok (mkPolicy c t v out b).

(** policy_model.py:600-622 _check_features(v=None, data=data) *)
Definition pt_features (p : policy) (df : option Frame) : list (nat -> R) :=
  map (fun r f => f32 (r f))
      match df with
      | None => pt_v p
      | Some df => match pt_trans p with None => cols df (pt_cov p) | Some t => map t (cols df (pt_cov p)) end
      end.

(** _tree.pyx:818-824 predict on all rows *)
Definition tree_predicts (b : @bst (nat -> R)) (rows : list (nat -> R)) : res (list (nat -> R)) :=
  fold_left (fun acc r => do l <- acc ; do v <- tree_predict (fun _ => 0) b r ; Ok (l ++ [v])) rows (Ok []).

(** policy_model.py:555-571 _prepare4est *)
Definition pt_prepare (crit : pcrit) (p : policy) (df : option Frame) : res arr :=
  do proba <- tree_predicts (pt_tree p) (pt_features p df) ;
  match crit with
  | PolicyReg => Ok (if (pt_out p =? 1)%nat then Vec (map (fun v => v 0%nat) proba)
                     else Mat (map (fun v => map v (seq 0 (pt_out p))) proba))
  | _ => Err ValueError
  end.

(** policy_model.py:517-533 predict_ind *)
Definition predict_ind (crit : pcrit) (p : policy) (df : option Frame) : res (list nat) :=
  do a <- pt_prepare crit p df ; argmax1 a.

(** policy_model.py:535-553 predict_opt_effect *)
Definition predict_opt_effect (crit : pcrit) (p : policy) (df : option Frame) : res arr := pt_prepare crit p df.
End Policy.
Arguments Given {Names}.
