(** Model of ylearn/estimator_model/meta_learner.py (SLearner, TLearner, XLearner), of get_tr_ctrl in
    ylearn/estimator_model/utils.py:76-90, and of the part of sklearn's OrdinalEncoder / OneHotEncoder they
    use (handle_unknown='error').
    Treatment values are integers or strings.  Data frames are seen through the arrays convert2array returns:
    the rows of the treatment columns, of the covariates (get_wv of the adjustment and covariate columns), of
    the outcomes.  Numbers are exact reals.  A machine-learning model is an arbitrary deterministic learner
    that predicts row by row (sklearn's contract); clone() gives a model without training. *)
From Coq Require Import ZArith Reals DecimalString.
From Verif Require Import Base ApiModel EstUtilsModel.
Set Implicit Arguments.
Local Notation length := List.length.

(* ------------------------------------------------------------------------------------------------ *)
(** ** Computations with state and exceptions: the state reached at the exception stays *)

Definition M (St A : Type) := St -> St * res A.
Definition mret {St A} (a : A) : M St A := fun s => (s, Ok a).
Definition mbind {St A B} (m : M St A) (f : A -> M St B) : M St B :=
  fun s => match m s with (s', Ok a) => f a s' | (s', Err e) => (s', Err e) end.
Definition mlift {St A} (r : res A) : M St A := fun s => (s, r).
Definition mget {St} : M St St := fun s => (s, Ok s).
Definition mset {St} (f : St -> St) : M St unit := fun s => (f s, Ok tt).
Notation "'mdo' x <- m ; k" := (mbind m (fun x => k)) (at level 200, x pattern, m at level 100, k at level 200).

(* ------------------------------------------------------------------------------------------------ *)
(** ** Treatment values and encoders *)

Inductive label := LInt (z : Z) | LStr (s : string).

Definition label_eqb (a b : label) : bool :=
  match a, b with LInt x, LInt y => Z.eqb x y | LStr x, LStr y => String.eqb x y | _, _ => false end.
Lemma label_eqb_eq a b : label_eqb a b = true <-> a = b.
Proof.
  destruct a as [x|x], b as [y|y]; cbn; try (split; congruence).
  - rewrite Z.eqb_eq. split; congruence.
  - rewrite String.eqb_eq. split; congruence.
Qed.
#[global] Instance EqDec_label : EqDec label := {| eqb := label_eqb; eqb_eq := label_eqb_eq |}.

(** the order of np.sort: numbers by value, strings by character code; a list that mixes the two cannot be
    sorted (TypeError, below) *)
Definition label_ltb (a b : label) : bool :=
  match a, b with
  | LInt x, LInt y => Z.ltb x y
  | LStr x, LStr y => match String.compare x y with Lt => true | _ => false end
  | LInt _, LStr _ => true
  | LStr _, LInt _ => false
  end.

Definition is_str (a : label) : bool := match a with LStr _ => true | LInt _ => false end.

Fixpoint linsert (x : label) (l : list label) : list label :=
  match l with
  | [] => [x]
  | y :: r => if label_ltb x y then x :: l else if label_eqb x y then l else y :: linsert x r
  end.

(** sklearn.utils._encode._unique: sorted distinct values; numbers and strings together are a TypeError *)
Definition unique_labels (col : list label) : res (list label) :=
  if forallb is_str col || forallb (fun a => negb (is_str a)) col
  then Ok (fold_right linsert [] col) else Err TypeError.

(** np.array([...]) of Python scalars: one string turns every entry into a string *)
Definition np_scalars (l : list label) : list label :=
  if existsb is_str l
  then map (fun a => match a with
                     | LInt z => LStr (NilZero.string_of_int (Z.to_int z))
                     | LStr s => LStr s
                     end) l
  else l.

(** position of the first occurrence *)
Fixpoint index_of {A} {EA : EqDec A} (x : A) (l : list A) : option nat :=
  match l with
  | [] => None
  | y :: r => if eqb x y then Some 0 else option_map S (index_of x r)
  end.

(** x.shape[1]; an array without rows is rejected by every encoder whatever its shape *)
Definition width {A} (x : list (list A)) : nat := match x with [] => 0 | r :: _ => length r end.
(** sklearn's check_array and feature-count check: at least one row, at least one column, k columns *)
Definition check_X {A} (k : nat) (x : list (list A)) : res unit :=
  if (length x =? 0) || (k =? 0) || negb (width x =? k) then Err ValueError else Ok tt.
Definition column (j : nat) (x : list (list label)) : list label := map (fun r => nth j r (LInt 0)) x.

(** np.sort(cats) == cats for numerical categories *)
Fixpoint sorted_lab (l : list label) : bool :=
  match l with a :: ((b :: _) as r) => negb (label_ltb b a) && sorted_lab r | _ => true end.

(** sklearn _BaseEncoder._fit: the categories of every column.  [None] is categories='auto'.  Simplification:
    no dtype conversion of given categories. *)
Definition enc_fit (categories : option (list (list label))) (x : list (list label)) : res (list (list label)) :=
  do _ <- check_X (width x) x;
  match categories with
  | None => mapX (fun j => unique_labels (column j x)) (seq 0 (width x))
  | Some cs =>
      if negb (length cs =? width x) then Err ValueError
      else mapX (fun j =>
             let cats := nth j cs [] in
             if forallb (fun a => negb (is_str a)) cats && negb (sorted_lab cats) then Err ValueError
             else if forallb (fun a => mem a cats) (column j x) then Ok cats else Err ValueError)
           (seq 0 (width x))
  end.

Definition enc_value (cats : list label) (a : label) : res nat :=
  match index_of a cats with Some i => Ok i | None => Err ValueError end.

(** OrdinalEncoder.transform: the position of every value among the categories of its column *)
Definition ord_transform (cats : list (list label)) (x : list (list label)) : res (list (list nat)) :=
  do _ <- check_X (length cats) x;
  mapX (fun r => mapX (fun p => enc_value (fst p) (snd p)) (combine cats r)) x.

(** OneHotEncoder.transform: for every column the indicator of its value among the categories, side by side *)
Definition oh_transform (cats : list (list label)) (x : list (list label)) : res (list (list Z)) :=
  do _ <- check_X (length cats) x;
  mapX (fun r =>
    do is <- mapX (fun p => do i <- enc_value (fst p) (snd p);
                            Ok (map (fun k => if k =? i then 1%Z else 0%Z) (seq 0 (length (fst p)))))
                  (combine cats r);
    Ok (List.concat is)) x.

(** the attributes ord_transformer, label_dict and oh_transformer: [None] is not set, [Some None] an encoder
    that was created and whose fit failed *)
Record encs := mkEncs { e_ord : option (option (list (list label)));
                        e_dict : option (list (list nat));
                        e_oh : option (option (list (list label))) }.
Definition no_encs : encs := mkEncs None None None.
Definition set_ord o (e : encs) := mkEncs o (e_dict e) (e_oh e).
Definition set_dict d (e : encs) := mkEncs (e_ord e) d (e_oh e).
Definition set_oh o (e : encs) := mkEncs (e_ord e) (e_dict e) o.

(** reading an attribute that is not set *)
Definition attr {St A} (o : option A) : M St A := mlift (match o with Some a => Ok a | None => Err AttributeError end).
(** transform of an encoder that is not fitted: NotFittedError, a ValueError *)
Definition fitted {St A} (o : option A) : M St A := mlift (match o with Some a => Ok a | None => Err ValueError end).

(** creation and fit of ord_transformer, label_dict: meta_learner.py:391-400 (S), 921-933 (T), 1435-1447 (X).
    Returns the categories for the one-hot encoder. *)
Definition make_ord (categories : option (list (list label))) (x : list (list label)) : M encs (list (list label)) :=
  mdo _ <- mset (set_ord (Some None));
  mdo cats <- mlift (enc_fit categories x);
  mdo _ <- mset (set_ord (Some (Some cats)));
  mdo labels <- mlift (cartesian 0 (map (fun c => seq 0 (length c)) cats));
  mdo _ <- mset (set_dict (Some labels));
  mret [map (fun i => LInt (Z.of_nat i)) (seq 0 (length labels))].

(** meta_learner.py:402-406 (S), 935-939 (T), 1449-1453 (X): one combined label per row.  label_dict maps every
    row of [labels] to its position. *)
Definition combine_labels (x : list (list label)) : M encs (list (list label)) :=
  mdo e <- mget;
  mdo o <- attr (e_ord e);
  mdo cats <- fitted o;
  mdo rows <- mlift (ord_transform cats x);
  mdo labels <- mlift (match rows with [] => Ok [] | _ => match e_dict e with Some d => Ok d | None => Err AttributeError end end);
  mlift (mapX (fun r => match index_of r labels with
                        | Some i => Ok [LInt (Z.of_nat i)]
                        | None => Err KeyError
                        end) rows).

(** creation and fit of oh_transformer *)
Definition make_oh (categories : option (list (list label))) (x : list (list label)) : M encs unit :=
  mdo _ <- mset (set_oh (Some None));
  mdo cats <- mlift (enc_fit categories x);
  mset (set_oh (Some (Some cats))).

Definition apply_oh (x : list (list label)) : M encs (list (list Z)) :=
  mdo e <- mget;
  mdo o <- attr (e_oh e);
  mdo cats <- fitted o;
  mlift (oh_transform cats x).

(** meta_learner.py:375-414 SLearner._comp_transformer: the encoders are made anew unless the learner is fitted *)
Definition sl_comp (is_fitted : bool) (x : list (list label)) (categories : option (list (list label)))
  : M encs (list (list Z)) :=
  mdo xc <- (if 1 <? width x
             then mdo cats <- (if negb is_fitted then mdo c <- make_ord categories x; mret (Some c)
                               else mret categories);
                  mdo x1 <- combine_labels x;
                  mret (x1, cats)
             else mret (x, categories));
  let '(x1, cats) := xc in
  mdo _ <- (if negb is_fitted then make_oh cats x1 else mret tt);
  apply_oh x1.

(** meta_learner.py:905-947 TLearner._comp_transformer and 1419-1461 XLearner._comp_transformer (same text): the
    encoders are made unless they exist, and the one-hot encoder ignores [categories] *)
Definition tl_comp (x : list (list label)) (categories : option (list (list label))) : M encs (list (list Z)) :=
  mdo x1 <- (if 1 <? width x
             then mdo e <- mget;
                  mdo _ <- (match e_ord e with
                            | None => mdo _ <- make_ord categories x; mret tt
                            | Some _ => mret tt
                            end);
                  combine_labels x
             else mret x);
  mdo e <- mget;
  mdo _ <- (match e_oh e with None => make_oh None x1 | Some _ => mret tt end);
  apply_oh x1.

(** the arguments treat and control: None, a scalar, a list or tuple, a 1-d array, a 2-d array *)
Inductive targ := TNone | TVal (l : label) | TList (l : list label) | TArr1 (l : list label) | TArr2 (rows : list (list label)).

(** utils.py:76-90 get_tr_ctrl with one_hot=False, discrete_treat=True: the code of a treat or control value.
    A 1-d array has no shape[1] (IndexError). *)
Definition get_tr_ctrl (a : targ) (trans : list (list label) -> M encs (list (list Z))) (treat : bool) : M encs Z :=
  let go x := mdo oh <- trans x;
              mlift (match convert4onehot [List.concat oh] with i :: _ => Ok i | [] => Err IndexError end) in
  match a with
  | TNone => mret (if treat then 1%Z else 0%Z)
  | TVal l => go [np_scalars [l]]
  | TList l => go [np_scalars l]
  | TArr1 _ => mlift (Err IndexError)
  | TArr2 rows => go rows
  end.

(* ------------------------------------------------------------------------------------------------ *)
(** ** Arrays of numbers *)

Notation row := (list R).

(** np.squeeze *)
Fixpoint unsqueeze (sh idx : list nat) : list nat :=
  match sh with
  | [] => []
  | d :: sh' => if d =? 1 then 0 :: unsqueeze sh' idx
                else match idx with i :: r => i :: unsqueeze sh' r | [] => 0 :: unsqueeze sh' [] end
  end.
Definition squeeze {A} (a : nd A) : nd A :=
  mkNd (filter (fun d => negb (d =? 1)) (nd_shape a)) (fun idx => nd_at a (unsqueeze (nd_shape a) idx)).

(** a 2-d array from its rows *)
Definition nd_rows (y : list row) : nd R :=
  mkNd [length y; width y] (fun idx => nth (nth 1 idx 0) (nth (nth 0 idx 0) y []) 0%R).

(** a - b, a + b for arrays of one shape; other shapes: ValueError (simplification: no broadcasting) *)
Definition zip_nd (f : R -> R -> R) (a b : nd R) : res (nd R) :=
  if list_eqb (nd_shape a) (nd_shape b) then Ok (mkNd (nd_shape a) (fun i => f (nd_at a i) (nd_at b i)))
  else Err ValueError.

(** a[:, cols, ...] for a list of columns *)
Definition take1 {A} (cols : list nat) (a : nd A) : res (nd A) :=
  match nd_shape a with
  | n :: d :: r =>
      if forallb (fun c => c <? d) cols
      then Ok (mkNd (n :: length cols :: r)
                    (fun idx => match idx with
                                | i :: k :: t => nd_at a (i :: nth k cols 0 :: t)
                                | _ => nd_at a idx
                                end))
      else Err IndexError
  | _ => Err IndexError
  end.

(** np.mean(a, axis=0) *)
Definition mean0 (a : nd R) : res (nd R) :=
  match nd_shape a with
  | n :: r => Ok (mkNd r (fun idx => (fold_right Rplus 0 (map (fun i => nd_at a (i :: idx)) (seq 0 n)) / INR n)%R))
  | [] => Err ValueError
  end.

(** .reshape(n, y_d) of a prediction: of shape (n,) with y_d = 1, or of shape (n, y_d).  Simplification: no other
    reshape is needed by the predictions of a model trained on y_d outcomes. *)
Definition as_n_yd (n y_d : nat) (a : nd R) : res (nd R) :=
  match nd_shape a with
  | [m] => if (m =? n) && (y_d =? 1) then Ok (mkNd [n; 1] (fun idx => nd_at a [nth 0 idx 0])) else Err ValueError
  | [m; d] => if (m =? n) && (y_d =? d) then Ok a else Err ValueError
  | _ => Err ValueError
  end.

(** effect_nji: meta_learner.py:293-308 (S), 803-818 (T), 1317-1332 (X) *)
Definition nji (a : nd R) : res (nd R) :=
  do d3 <- (match nd_shape a with
            | [n; y; x] => Ok (n, y, x, fun idx => nd_at a idx)
            | [n; y] => Ok (n, y, 1, fun idx => nd_at a (firstn 2 idx))
            | [n] => Ok (n, 1, 1, fun idx => nd_at a (firstn 1 idx))
            | [] => Err IndexError
            | _ => Err ValueError
            end);
  let '(n, y, x, f) := d3 in
  Ok (mkNd [n; y; S x]
           (fun idx => match idx with
                       | i :: j :: O :: _ => 0%R
                       | i :: j :: S k :: _ => f [i; j; k]
                       | _ => 0%R
                       end)).

(** a machine-learning model *)
Record learner := mkLearner {
  Mdl : Type;
  l_fit : list row -> nd R -> res Mdl;             (* fit(X, y) of a cloned model *)
  l_pred : Mdl -> row -> list R;                   (* predict of one row *)
  l_dim : Mdl -> option nat;                       (* None: predict returns shape (n,); Some d: (n, d) *)
  l_classes : Mdl -> option (list label);          (* attribute classes_ *)
  l_proba : Mdl -> row -> list R }.                (* predict_proba of one row, one entry per class *)

Definition n_classes (L : learner) (m : Mdl L) : nat := match l_classes L m with Some c => length c | None => 0 end.

(** model.predict(X) / model.predict_proba(X) *)
Definition predict (L : learner) (m : Mdl L) (X : list row) : nd R :=
  match l_dim L m with
  | None => mkNd [length X] (fun idx => nth 0 (l_pred L m (nth (nth 0 idx 0) X [])) 0%R)
  | Some d => mkNd [length X; d] (fun idx => nth (nth 1 idx 0) (l_pred L m (nth (nth 0 idx 0) X [])) 0%R)
  end.
Definition predict_proba (L : learner) (m : Mdl L) (X : list row) : nd R :=
  mkNd [length X; n_classes L m] (fun idx => nth (nth 1 idx 0) (l_proba L m (nth (nth 0 idx 0) X [])) 0%R).
Definition pred_func (L : learner) (proba : bool) (m : Mdl L) (X : list row) : nd R :=
  if proba then predict_proba L m X else predict L m X.

Unset Implicit Arguments.

(** constructor parameters *)
Record config := mkConfig { c_categories : option (list (list label)); c_proba : bool; c_disc_out : bool }.
(** one call of fit: the treatment columns, the covariates (None: neither adjustment nor covariate given), the
    outcomes, treat, control, combined_treatment *)
Record fitargs := mkFitArgs { f_x : list (list label); f_wv : option (list row); f_y : list row;
                              f_treat : targ; f_control : targ; f_comb : bool }.

(* ------------------------------------------------------------------------------------------------ *)
(** ** SLearner *)

Record slearner (L : learner) := mkSL {
  s_fitted : bool; s_enc : encs; s_xd : option nat; s_treat : option targ; s_control : option targ;
  s_wv : option (list row); s_yd : nat; s_comb : bool; s_model : option (Mdl L) }.
Arguments s_fitted {L} _. Arguments s_enc {L} _. Arguments s_xd {L} _. Arguments s_treat {L} _.
Arguments s_control {L} _. Arguments s_wv {L} _. Arguments s_yd {L} _. Arguments s_comb {L} _.
Arguments s_model {L} _.

(** meta_learner.py:96-140 SLearner.__init__ (its assertions on the arguments left out) *)
Definition sl_new (L : learner) : slearner L := mkSL L false no_encs None None None None 0 true None.

(** run a computation on the encoders inside the learner *)
Definition sl_enc {L : learner} {A} (m : M encs A) : M (slearner L) A :=
  fun s => let (e, r) := m (s_enc s) in
           (mkSL L (s_fitted s) e (s_xd s) (s_treat s) (s_control s) (s_wv s) (s_yd s) (s_comb s) (s_model s), r).

Definition sl_begin {L : learner} wv yd comb (s : slearner L) : slearner L :=
  mkSL L (s_fitted s) (s_enc s) (s_xd s) (s_treat s) (s_control s) (Some wv) yd comb (s_model s).
Definition sl_set_x {L : learner} xd tr ct (s : slearner L) : slearner L :=
  mkSL L (s_fitted s) (s_enc s) (Some xd) tr ct (s_wv s) (s_yd s) (s_comb s) (s_model s).
Definition sl_set_model {L : learner} m (s : slearner L) : slearner L :=
  mkSL L true (s_enc s) (s_xd s) (s_treat s) (s_control s) (s_wv s) (s_yd s) (s_comb s) (Some m).
Definition sl_set_treat {L : learner} t (s : slearner L) : slearner L :=
  mkSL L (s_fitted s) (s_enc s) (s_xd s) (Some t) (s_control s) (s_wv s) (s_yd s) (s_comb s) (s_model s).
Definition sl_set_control {L : learner} t (s : slearner L) : slearner L :=
  mkSL L (s_fitted s) (s_enc s) (s_xd s) (s_treat s) (Some t) (s_wv s) (s_yd s) (s_comb s) (s_model s).

(** numbers of a one-hot matrix *)
Definition to_rows (x : list (list Z)) : list row := map (map IZR) x.

(** meta_learner.py:142-233 SLearner.fit, 310-365 _fit_combined_treat, 416-449 _fit_separate_treat.  When the
    model's fit raises, the model is taken to be unchanged. *)
Definition sl_fit (L : learner) (c : config) (a : fitargs) : M (slearner L) unit :=
  match f_wv a with
  | None => mlift (Err AssertionError)
  | Some wv =>
      mdo _ <- mset (sl_begin wv (width (f_y a)) (f_comb a));
      mdo s <- mget;
      mdo x <- (if f_comb a then
                  mdo x <- sl_enc (sl_comp (s_fitted s) (f_x a) (c_categories c));
                  mdo _ <- mset (sl_set_x (width x) (Some (f_treat a)) (Some (f_control a)));
                  mret x
                else
                  mdo cats <- mlift (enc_fit (c_categories c) (f_x a));
                  mdo x <- mlift (oh_transform cats (f_x a));
                  mdo s' <- mget;
                  mdo _ <- mset (sl_set_x (width x) (s_treat s') (s_control s'));
                  mret x);
      mdo X <- mlift (hcat [wv; to_rows x]);
      mdo m <- mlift (l_fit L X (squeeze (nd_rows (f_y a))));
      mset (sl_set_model m)
  end.

(** np.zeros(x_d) with entry [i] set to 1 *)
Definition unit_vec (x_d : nat) (i : Z) : res row :=
  if ((0 <=? i) && (i <? Z.of_nat x_d))%Z
  then Ok (map (fun k => if (Z.of_nat k =? i)%Z then 1%R else 0%R) (seq 0 x_d)) else Err IndexError.

(** np.concatenate((wv, np.repeat(u, n))) *)
Definition with_row (wv : list row) (u : row) : list row := map (fun w => w ++ u) wv.

(** meta_learner.py:451-492 SLearner._prepare_combined_treat: self.treat and self.control are replaced by their codes *)
Definition sl_prepare_combined (L : learner) (c : config) (wv : list row) (target : option (list nat))
  : M (slearner L) (nd R) :=
  mdo s <- mget;
  mdo tr <- attr (s_treat s);
  mdo t <- sl_enc (get_tr_ctrl tr (fun x => sl_comp (s_fitted s) x None) true);
  mdo _ <- mset (sl_set_treat (TVal (LInt t)));
  mdo ct <- attr (s_control s);
  mdo k <- sl_enc (get_tr_ctrl ct (fun x => sl_comp (s_fitted s) x None) false);
  mdo _ <- mset (sl_set_control (TVal (LInt k)));
  mdo xd <- attr (s_xd s);
  mdo ut <- mlift (unit_vec xd t);
  mdo u0 <- mlift (unit_vec xd k);
  mdo m <- attr (s_model s);
  let yt := pred_func L (c_proba c) m (with_row wv ut) in
  let y0 := pred_func L (c_proba c) m (with_row wv u0) in
  match target with
  | None => mlift (zip_nd Rminus yt y0)
  | Some cols => mlift (do a <- take1 cols yt; do b <- take1 cols y0; zip_nd Rminus a b)
  end.

(** stack arrays of one shape (n, y_d) along a third axis: f_nji[:, :, i] = ... *)
Definition stack2 (n y_d : nat) (l : list (nd R)) : nd R :=
  mkNd [n; y_d; length l]
       (fun idx => match idx with
                   | i :: j :: k :: _ => nd_at (nth k l (mkNd [] (fun _ => 0%R))) [i; j]
                   | _ => 0%R
                   end).

(** meta_learner.py:494-528 SLearner._prepare_separate_treat *)
Definition sl_prepare_separate (L : learner) (c : config) (wv : list row) (target : option (list nat))
  : M (slearner L) (nd R) :=
  mdo s <- mget;
  mdo xd <- attr (s_xd s);
  mdo m <- attr (s_model s);
  let y_d := if c_proba c then n_classes L m else s_yd s in
  mlift (
    do u0 <- unit_vec xd 0;
    let f0 := pred_func L (c_proba c) m (with_row wv u0) in
    do cols <- mapX (fun i => do u <- unit_vec xd (Z.of_nat (S i));
                              do d <- zip_nd Rminus (pred_func L (c_proba c) m (with_row wv u)) f0;
                              as_n_yd (length wv) y_d d) (seq 0 (xd - 1));
    let f := stack2 (length wv) y_d cols in
    do f' <- (match target with
              | Some t => if c_proba c then take1 t f else Ok f
              | None => Ok f
              end);
    Ok (squeeze f')).

(** meta_learner.py:235-251 SLearner._prepare4est; [data] is the covariate array of the data argument *)
Definition sl_prepare (L : learner) (c : config) (data : option (list row)) (target : option (list nat))
  : M (slearner L) (nd R) :=
  mdo s <- mget;
  if negb (s_fitted s) then mlift (Err AssertionError (* raise Exception *))
  else
    mdo wv <- (match data with Some d => mret d | None => attr (s_wv s) end);
    if s_comb s then sl_prepare_combined L c wv target else sl_prepare_separate L c wv target.

Inductive quantity := QNone | QATE.   (* QATE: 'ATE' or 'CATE' *)

(** meta_learner.py:253-291 SLearner.estimate *)
Definition sl_estimate (L : learner) (c : config) (data : option (list row)) (q : quantity) (target : option label)
  : M (slearner L) (nd R) :=
  mdo t <- (match target with
            | None => mret None
            | Some cl => if c_proba c
                         then mdo s <- mget;
                              mdo m <- attr (s_model s);
                              mdo cs <- attr (l_classes L m);
                              mlift (check_classes (Some cl) (Some cs))
                         else mlift (Err AssertionError)
            end);
  mdo e <- sl_prepare L c data t;
  match q with QNone => mret e | QATE => mlift (mean0 e) end.

(** meta_learner.py:293-308 SLearner.effect_nji *)
Definition sl_effect_nji (L : learner) (c : config) (data : option (list row)) : M (slearner L) (nd R) :=
  mdo e <- sl_prepare L c data None;
  mlift (nji e).

(* ------------------------------------------------------------------------------------------------ *)
(** ** TLearner and XLearner *)

(** the selected rows of two arrays *)
Definition groups (target : list Z) (a : list (list Z)) (one_hot : bool) (wv y : list row) : res (list row * list row) :=
  do u <- get_groups target a one_hot wv; do v <- get_groups target a one_hot y; Ok (u, v).

(** what the two learners share: encoders, the fitted pair of the combined form (xt_model, x0_model; or kt_model,
    k0_model), the classes of the first-stage treatment model (X only), the models of the separate form *)
Record tlearner (L : learner) := mkTL {
  t_fitted : bool; t_enc : encs; t_wv : option (list row); t_yd : nat; t_comb : bool;
  t_xt : option (Mdl L); t_x0 : option (Mdl L);
  t_ft : option (Mdl L);                          (* XLearner.ft_model *)
  t_sep : option (list (Mdl L));                  (* TLearner._fitted_dict_separa['models'] *)
  t_sepx : option (list (Mdl L * Mdl L)) }.       (* XLearner._fitted_dict_separa['models'] *)
Arguments t_fitted {L} _. Arguments t_enc {L} _. Arguments t_wv {L} _. Arguments t_yd {L} _.
Arguments t_comb {L} _. Arguments t_xt {L} _. Arguments t_x0 {L} _. Arguments t_ft {L} _.
Arguments t_sep {L} _. Arguments t_sepx {L} _.

(** meta_learner.py:610-657 TLearner.__init__, 1107-1161 XLearner.__init__ (assertions left out) *)
Definition tl_new (L : learner) : tlearner L := mkTL L false no_encs None 0 true None None None None None.

Definition tl_enc {L : learner} {A} (m : M encs A) : M (tlearner L) A :=
  fun s => let (e, r) := m (t_enc s) in
           (mkTL L (t_fitted s) e (t_wv s) (t_yd s) (t_comb s) (t_xt s) (t_x0 s) (t_ft s) (t_sep s) (t_sepx s), r).
Definition tl_begin {L : learner} wv yd comb (s : tlearner L) : tlearner L :=
  mkTL L (t_fitted s) (t_enc s) (Some wv) yd comb (t_xt s) (t_x0 s) (t_ft s) (t_sep s) (t_sepx s).
Definition tl_set_xt {L : learner} m (s : tlearner L) : tlearner L :=
  mkTL L (t_fitted s) (t_enc s) (t_wv s) (t_yd s) (t_comb s) (Some m) (t_x0 s) (t_ft s) (t_sep s) (t_sepx s).
Definition tl_set_x0 {L : learner} m (s : tlearner L) : tlearner L :=
  mkTL L (t_fitted s) (t_enc s) (t_wv s) (t_yd s) (t_comb s) (t_xt s) (Some m) (t_ft s) (t_sep s) (t_sepx s).
Definition tl_set_ft {L : learner} m (s : tlearner L) : tlearner L :=
  mkTL L (t_fitted s) (t_enc s) (t_wv s) (t_yd s) (t_comb s) (t_xt s) (t_x0 s) (Some m) (t_sep s) (t_sepx s).
Definition tl_set_sep {L : learner} ms (s : tlearner L) : tlearner L :=
  mkTL L (t_fitted s) (t_enc s) (t_wv s) (t_yd s) (t_comb s) (t_xt s) (t_x0 s) (t_ft s) (Some ms) (t_sepx s).
Definition tl_set_sepx {L : learner} ms (s : tlearner L) : tlearner L :=
  mkTL L (t_fitted s) (t_enc s) (t_wv s) (t_yd s) (t_comb s) (t_xt s) (t_x0 s) (t_ft s) (t_sep s) (Some ms).
Definition tl_done {L : learner} (s : tlearner L) : tlearner L :=
  mkTL L true (t_enc s) (t_wv s) (t_yd s) (t_comb s) (t_xt s) (t_x0 s) (t_ft s) (t_sep s) (t_sepx s).

(** the codes of the rows, of treat and of control: meta_learner.py:872-890 (T), 1368-1385 (X) *)
Definition tl_codes (c : config) (a : fitargs) : M encs (list (list Z) * Z * Z) :=
  mdo x <- tl_comp (f_x a) (c_categories c);
  mdo t <- get_tr_ctrl (f_treat a) (fun v => tl_comp v None) true;
  mdo k <- get_tr_ctrl (f_control a) (fun v => tl_comp v None) false;
  mret (x, t, k).

(** a loop whose iterations may raise *)
Fixpoint mapM {St A B} (f : A -> M St B) (l : list A) : M St (list B) :=
  match l with
  | [] => mret []
  | x :: r => mdo y <- f x; mdo ys <- mapM f r; mret (y :: ys)
  end.

(** meta_learner.py:659-751 TLearner.fit, 837-903 _fit_combined_treat, 949-998 _fit_separate_treat *)
Definition tl_fit (L : learner) (c : config) (a : fitargs) : M (tlearner L) unit :=
  match f_wv a with
  | None => mlift (Err AssertionError)
  | Some wv =>
      mdo _ <- mset (tl_begin wv (width (f_y a)) (f_comb a));
      mdo _ <- (if f_comb a then
        mdo codes <- tl_enc (tl_codes c a);
        let '(x, t, k) := codes in
        mdo gt <- mlift (groups [t] x true wv (f_y a));
        mdo g0 <- mlift (groups [k] x true wv (f_y a));
        mdo mt <- mlift (l_fit L (fst gt) (squeeze (nd_rows (snd gt))));
        mdo _ <- mset (tl_set_xt mt);
        mdo m0 <- mlift (l_fit L (fst g0) (squeeze (nd_rows (snd g0))));
        mset (tl_set_x0 m0)
      else
        mdo cats <- mlift (enc_fit (c_categories c) (f_x a));
        mdo x <- mlift (ord_transform cats (f_x a));
        mdo _ <- mset (tl_set_sep []);
        mdo arrays <- mlift (cartesian 0 (map (fun g => seq 0 (length g)) cats));
        mdo ms <- mapM (fun treat =>
                    mdo g <- mlift (groups (map Z.of_nat treat) (map (map Z.of_nat) x) false wv (f_y a));
                    mdo m <- mlift (l_fit L (fst g) (squeeze (nd_rows (snd g))));
                    mdo s <- mget;
                    mdo old <- attr (t_sep s);
                    mdo _ <- mset (tl_set_sep (old ++ [m]));
                    mret m) arrays;
        mret tt);
      mset tl_done
  end.

(** meta_learner.py:790-801 TLearner.outcome_classes_ *)
Definition tl_outcome_classes (L : learner) (c : config) : M (tlearner L) (option (list label)) :=
  mdo s <- mget;
  if c_disc_out c then
    if negb (t_fitted s) then mlift (Err AssertionError)
    else match (match t_xt s with Some m => l_classes L m | None => None end) with
         | Some cs => mret (Some cs)
         | None => mdo ms <- attr (t_sep s);
                   match ms with
                   | m :: _ => mdo cs <- attr (l_classes L m); mret (Some cs)
                   | [] => mlift (Err IndexError)
                   end
         end
  else mret None.

(** meta_learner.py:1000-1005 TLearner._prepare_combined_treat *)
Definition tl_prepare_combined (L : learner) (c : config) (wv : list row) (target : option (list nat))
  : M (tlearner L) (nd R) :=
  mdo s <- mget;
  mdo mt <- attr (t_xt s);
  mdo m0 <- attr (t_x0 s);
  let yt := pred_func L (c_proba c) mt wv in
  let y0 := pred_func L (c_proba c) m0 wv in
  match target with
  | None => mlift (zip_nd Rminus yt y0)
  | Some cols => mlift (do u <- take1 cols yt; do v <- take1 cols y0; zip_nd Rminus u v)
  end.

(** meta_learner.py:1007-1027 TLearner._prepare_separate_treat: [defaultdict(list)] without models has no
    models[0] (IndexError) *)
Definition tl_prepare_separate (L : learner) (c : config) (wv : list row) (target : option (list nat))
  : M (tlearner L) (nd R) :=
  mdo s <- mget;
  mdo ms <- attr (t_sep s);
  mlift (match ms with
         | [] => Err (if c_proba c then IndexError else ValueError)
         | m0 :: rest =>
             let y_d := if c_proba c then n_classes L m0 else t_yd s in
             let f0 := pred_func L (c_proba c) m0 wv in
             do cols <- mapX (fun m => do d <- zip_nd Rminus (pred_func L (c_proba c) m wv) f0;
                                       as_n_yd (length wv) y_d d) rest;
             let f := stack2 (length wv) y_d cols in
             do f' <- (match target with
                       | Some t => if c_proba c then take1 t f else Ok f
                       | None => Ok f
                       end);
             Ok (squeeze f')
         end).

(** meta_learner.py:820-835 TLearner._prepare4est *)
Definition tl_prepare (L : learner) (c : config) (data : option (list row)) (target : option (list nat))
  : M (tlearner L) (nd R) :=
  mdo s <- mget;
  if negb (t_fitted s) then mlift (Err AssertionError (* raise Exception *))
  else
    mdo wv <- (match data with Some d => mret d | None => attr (t_wv s) end);
    if t_comb s then tl_prepare_combined L c wv target else tl_prepare_separate L c wv target.

(** meta_learner.py:753-788 TLearner.estimate: the classes are read whether or not a target is given *)
Definition tl_estimate (L : learner) (c : config) (data : option (list row)) (q : quantity) (target : option label)
  : M (tlearner L) (nd R) :=
  mdo _ <- (match target with
            | Some _ => if c_proba c then mret tt else mlift (Err AssertionError)
            | None => mret tt
            end);
  mdo cs <- tl_outcome_classes L c;
  mdo t <- mlift (check_classes target cs);
  mdo e <- tl_prepare L c data t;
  match q with QNone => mret e | QATE => mlift (mean0 e) end.

(** meta_learner.py:803-818 TLearner.effect_nji *)
Definition tl_effect_nji (L : learner) (c : config) (data : option (list row)) : M (tlearner L) (nd R) :=
  mdo e <- tl_prepare L c data None;
  mlift (nji e).

(** meta_learner.py:1163-1256 XLearner.fit with 1334-1417 _fit_combined_treat and 1463-1551 _fit_separate_treat,
    for proba_output=False (the probability form is not modelled).  A group of one row with one outcome squeezes
    to a scalar and the differences broadcast; the models reject such a target (simplification: ValueError). *)
Definition xl_fit (L : learner) (c : config) (a : fitargs) : M (tlearner L) unit :=
  match f_wv a with
  | None => mlift (Err AssertionError)
  | Some wv =>
      mdo _ <- mset (tl_begin wv (width (f_y a)) (f_comb a));
      mdo _ <- (if f_comb a then
        mdo codes <- tl_enc (tl_codes c a);
        let '(x, t, k) := codes in
        mdo gt <- mlift (groups [t] x true wv (f_y a));
        mdo g0 <- mlift (groups [k] x true wv (f_y a));
        let yt := squeeze (nd_rows (snd gt)) in
        let y0 := squeeze (nd_rows (snd g0)) in
        mdo ft <- mlift (l_fit L (fst gt) yt);
        mdo _ <- mset (tl_set_ft ft);
        mdo f0 <- mlift (l_fit L (fst g0) y0);
        mdo ht <- mlift (zip_nd Rminus yt (predict L f0 (fst gt)));
        mdo h0 <- mlift (zip_nd Rminus (predict L ft (fst g0)) y0);
        mdo kt <- mlift (l_fit L (fst gt) ht);
        mdo _ <- mset (tl_set_xt kt);
        mdo k0 <- mlift (l_fit L (fst g0) h0);
        mset (tl_set_x0 k0)
      else
        mdo cats <- mlift (enc_fit (c_categories c) (f_x a));
        mdo x <- mlift (ord_transform cats (f_x a));
        mdo _ <- mset (tl_set_sepx []);
        mdo arrays <- mlift (cartesian 0 (map (fun g => seq 0 (length g)) cats));
        match arrays with
        | [] => mlift (Err IndexError)
        | ctrl :: rest =>
            mdo g0 <- mlift (groups (map Z.of_nat ctrl) (map (map Z.of_nat) x) false wv (f_y a));
            let y0 := squeeze (nd_rows (snd g0)) in
            mdo f0 <- mlift (l_fit L (fst g0) y0);
            mdo _ <- mapM (fun treat =>
                       mdo g <- mlift (groups (map Z.of_nat treat) (map (map Z.of_nat) x) false wv (f_y a));
                       let y := squeeze (nd_rows (snd g)) in
                       mdo ft <- mlift (l_fit L (fst g) y);
                       mdo ht <- mlift (zip_nd Rminus y (predict L f0 (fst g)));
                       mdo h0 <- mlift (zip_nd Rminus (predict L ft (fst g0)) y0);
                       mdo kt <- mlift (l_fit L (fst g) ht);
                       mdo k0 <- mlift (l_fit L (fst g0) h0);
                       mdo s <- mget;
                       mdo old <- attr (t_sepx s);
                       mset (tl_set_sepx (old ++ [(kt, k0)]))) rest;
            mret tt
        end);
      mset tl_done
  end.

(** meta_learner.py:1258-1273 XLearner.outcome_classes_: without a fitted combined model, models[0] is a pair and
    has no classes_ *)
Definition xl_outcome_classes (L : learner) (c : config) : M (tlearner L) (option (list label)) :=
  mdo s <- mget;
  if c_disc_out c then
    if negb (t_fitted s) then mlift (Err AssertionError)
    else match (match t_ft s with Some m => l_classes L m | None => None end) with
         | Some cs => mret (Some cs)
         | None => mdo ms <- attr (t_sepx s);
                   match ms with
                   | _ :: _ => mlift (Err AttributeError)
                   | [] => mlift (Err IndexError)
                   end
         end
  else mret None.

(** rho * a + (1 - rho) * b *)
Definition mix (rho a b : R) : R := (rho * a + (1 - rho) * b)%R.

(** meta_learner.py:1275-1296 _prepare4est, 1553-1561 and 1563-1582 _prepare_combined_treat, _prepare_separate_treat *)
Definition xl_prepare (L : learner) (c : config) (data : option (list row)) (rho : R) : M (tlearner L) (nd R) :=
  mdo s <- mget;
  if negb (t_fitted s) then mlift (Err AssertionError (* raise Exception *))
  else
    mdo wv <- (match data with Some d => mret d | None => attr (t_wv s) end);
    if t_comb s then
      mdo kt <- attr (t_xt s);
      mdo k0 <- attr (t_x0 s);
      mlift (zip_nd (mix rho) (predict L kt wv) (predict L k0 wv))
    else
      mdo ms <- attr (t_sepx s);
      mlift (do cols <- mapX (fun p => do d <- zip_nd (mix rho) (predict L (fst p) wv) (predict L (snd p) wv);
                                       as_n_yd (length wv) (t_yd s) d) ms;
             Ok (squeeze (stack2 (length wv) (t_yd s) cols))).

(** meta_learner.py:1298-1315 XLearner.estimate (target_outcome=None, proba_output=False) *)
Definition xl_estimate (L : learner) (c : config) (data : option (list row)) (rho : R) (q : quantity)
  : M (tlearner L) (nd R) :=
  mdo _ <- xl_outcome_classes L c;
  mdo e <- xl_prepare L c data rho;
  match q with QNone => mret e | QATE => mlift (mean0 e) end.

(** meta_learner.py:1317-1332 XLearner.effect_nji (rho defaults to 0.5) *)
Definition xl_effect_nji (L : learner) (c : config) (data : option (list row)) : M (tlearner L) (nd R) :=
  mdo e <- xl_prepare L c data (1 / 2)%R;
  mlift (nji e).
