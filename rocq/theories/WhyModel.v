(** Model of the all-in-one object of ylearn/api/_why.py as a state machine: fit (186-320), identify (343-416), _preprocess (494-515),
    causal_effect (561-747, 1138-1182), individual_causal_effect (749-823), score with R-loss (919-963, 989-1013).
    Simplifications: a cell is an integer (the rank of the value among all values); rows have index labels; effects are rational; the standard deviation
    and return_detail are left out; estimators, the preprocessor, the identifier and is_discrete are parameters; the estimators answer as functions of
    their fitted state.  fit's further keyword arguments are left out; the roles of one column are set one after the other. *)
From Coq Require Import String Ascii ZArith QArith.
From Verif Require Import Base UtilsModel EstUtilsModel MetaModel TransModel FactoryModel ApiModel.
Set Implicit Arguments.
Local Notation length := List.length.
Local Open Scope string_scope.
Local Open Scope list_scope.
Local Open Scope nat_scope.

Section Why.
Context {I : Type} {EI : EqDec I}.
(** *** data frames: index labels and named columns *)
Record frame := mkFr { f_index : list I; f_cols : list (string * list Z) }.
Definition has (f : frame) (c : string) : bool := MapModel.mem c (map fst (f_cols f)).
Definition column (f : frame) (c : string) : res (list Z) := match FactoryModel.lookup c (f_cols f) with Some l => Ok l | None => Err KeyError end.
(** data[c] = l *)
Definition set_column (c : string) (l : list Z) (f : frame) : frame :=
  mkFr (f_index f) (if has f c then map (fun e => if String.eqb (fst e) c then (c, l) else e) (f_cols f) else f_cols f ++ [(c, l)]).
Definition set_columns (cs : list (string * list Z)) (f : frame) : frame := fold_left (fun f e => set_column (fst e) (snd e) f) cs f.
(** data[cs] *)
Definition columns (f : frame) (cs : list string) : res (list (string * list Z)) := mapX (fun c => do l <- column f c; Ok (c, l)) cs.
Definition pick {A} (ps : list nat) (l : list A) : list A := flat_map (fun p => match nth_error l p with Some a => [a] | None => [] end) ps.
(** the rows at the given positions *)
Definition take_rows (ps : list nat) (f : frame) : frame := mkFr (pick ps (f_index f)) (map (fun e => (fst e, pick ps (snd e))) (f_cols f)).

(** *** LabelEncoder: classes_ are the distinct values, ascending; transform gives positions *)
Fixpoint insert_u (z : Z) (l : list Z) : list Z :=
  match l with [] => [z] | x :: r => if Z.ltb z x then z :: l else if Z.eqb z x then l else x :: insert_u z r end.
Definition classes (l : list Z) : list Z := fold_right insert_u [] l.
Definition transform (cls : list Z) (l : list Z) : res (list Z) :=
  mapX (fun v => match Base.index_of v cls with Some i => Ok (Z.of_nat i) | None => Err ValueError end) l.

(** *** the parts of a Why object that fit works with *)
Variables P F ID : Type.
Variable is_discrete : list Z -> bool. (* utils.is_discrete *)
(** identify_treatment of the identifier, or the given treatments; identify_aci, or the given roles without the treatments; the identifier that was made *)
Variable id_treatment : frame -> string -> option bool -> res (list string).
Variable id_roles : frame -> string -> list string -> res (roles string).
Variable id_object : frame -> string -> option ID.
(** general_preprocessor: fit_transform, transform *)
Variable prep_fit : list (string * list Z) -> list Z -> res (P * list (string * list Z)).
Variable prep_transform : P -> list (string * list Z) -> res (list (string * list Z)).
(** estimator.fit after its keyword arguments were accepted *)
Variable learn : eclass * kwargs -> frame -> string -> list string -> roles string -> res F.
(** treat, control: None, a code, a tuple of codes, a number or an array *)
Variant tval := TNo | TCode (n : nat) | TCodes (l : list nat) | TNum (q : Q) | TArr (l : list Q).
(** estimator.estimate(data, treat, control, target_outcome).ravel() *)
Variable estimate : F -> option frame -> tval -> tval -> option Z -> res (list Q).
(** RLoss: fit and score *)
Variable rloss : eclass * kwargs -> frame -> string -> string -> roles string -> F -> tval -> tval -> res Q.
Variables (lightgbm xgboost darwin : bool) (obj_proba : nat -> bool).

(** constructor arguments that matter here; the estimator is a name (an estimator object is copied: its class and arguments) *)
Variant est_param := ByName (s : string) (options : kwargs) | ByObject (c : eclass) (k : kwargs).
Record conf := mkConf { c_est : est_param; c_cost : option (list (string * Z) -> Q -> Q); c_seed : option Z }.

Record fit_state := mkFit { s_names : list string; s_outcome : string; s_treatment : list string; s_roles : roles string;
                            s_ests : list (ekey string * ((eclass * kwargs) * F)); s_yenc : option (list Z); s_xenc : option (list (string * list Z)); s_prep : P }.
(** the object: discrete_outcome, discrete_treatment, identifier_, and the attributes saved at the end of fit *)
Record why_obj := mkWhy { w_dy : option bool; w_dx : option bool; w_id : option ID; w_fit : option fit_state }.
Definition new_why (dy dx : option bool) : why_obj := mkWhy dy dx None None.

(** the state while fit runs: the object and the frame it works on *)
Record run := mkRun { r_obj : why_obj; r_data : frame }.
Definition on_obj (f : why_obj -> why_obj) : M run unit := mset (fun s => mkRun (f (r_obj s)) (r_data s)).
Definition on_data (f : frame -> frame) : M run unit := mset (fun s => mkRun (r_obj s) (f (r_data s))).
Definition obj : M run why_obj := mdo s <- mget; mret (r_obj s).
Definition data : M run frame := mdo s <- mget; mret (r_data s).
Definition massert (b : bool) : M run unit := mlift (if b then Ok tt else Err AssertionError).

(** the columns of the roles, utils.join_list *)
Definition opt_list {A} (o : option (list A)) : list A := match o with Some l => l | None => [] end.
Definition role_columns (r : roles string) : list string := let '(a, v, z) := r in opt_list a ++ opt_list v ++ opt_list z.
(** the keyword instrument is handed over when it is not None (drop_none): a TypeError for the classes whose fit does not take it *)
Definition fit_takes_instrument (c : eclass) : bool := match c with PDoublyRobust | PCausalTree | RLoss => false | _ => true end.
Definition call_fit (e : eclass * kwargs) (f : frame) (y : string) (xs : list string) (r : roles string) : res F :=
  match snd r with
  | Some _ => if fit_takes_instrument (fst e) then learn e f y xs r else Err TypeError
  | None => learn e f y xs r
  end.
(** 439-472; [c] is the constructor's estimator *)
Definition create (cf : conf) (f : frame) (dy dx : bool) (r : roles string) : res (eclass * kwargs) :=
  match c_est cf with
  | ByObject c k => Ok (c, k)
  | ByName s o => create_estimator lightgbm xgboost darwin obj_proba s o (length (f_index f)) dy dx (match snd (fst r) with Some _ => true | None => false end) (snd r) (c_seed cf)
  end.
Definition key_names (k : ekey string) : list string := match k with One x => [x] | Two x y => [x; y] end.
(** 286-303 *)
Fixpoint fit_all (cf : conf) (f : frame) (y : string) (dy dx : bool) (r : roles string) (ks : list (ekey string)) : res (list (ekey string * ((eclass * kwargs) * F))) :=
  match ks with
  | [] => Ok []
  | k :: ks => do e <- create cf f dy dx r; do m <- call_fit e f y (key_names k) r; do l <- fit_all cf f y dy dx r ks; Ok ((k, (e, m)) :: l)
  end.
(** 262-268: the treatments are encoded one after the other *)
Fixpoint encode_treatments (xs : list string) : M run (list (string * list Z)) :=
  match xs with
  | [] => mret []
  | x :: xs => mdo d <- data; mdo l <- mlift (column d x); mdo c <- mlift (transform (classes l) l); mdo _ <- on_data (set_column x c);
               mdo es <- encode_treatments xs; mret ((x, classes l) :: es)
  end.
Definition truthy_opt (o : option bool) : bool := match o with Some true => true | _ => false end.
(** 343-416 identify *)
Definition identify (y : string) : M run (list string * roles string) :=
  mdo d <- data; mdo o <- obj;
  mdo ts <- mlift (id_treatment d y (w_dx o));
  mdo cols <- mlift (columns d ts);
  mdo _ <- (match w_dx o with
            | Some _ => mret tt
            | None => match cols with [] => mlift (Err IndexError) | c :: _ => on_obj (fun o => mkWhy (w_dy o) (Some (is_discrete (snd c))) (w_id o) (w_fit o)) end
            end);
  mdo r <- mlift (id_roles d y ts);
  mdo _ <- on_obj (fun o => mkWhy (w_dy o) (w_dx o) (id_object d y) (w_fit o));
  mret (ts, r).
(** 228-320 fit, working on the frame in the state *)
Definition fit_body (cf : conf) (y : string) : M run unit :=
  mdo d0 <- data;
  mdo _ <- massert (negb (String.eqb y "") && has d0 y);
  mdo yc <- mlift (column d0 y);
  mdo o <- obj;
  mdo _ <- (match w_dy o with Some _ => mret tt | None => on_obj (fun o => mkWhy (Some (is_discrete yc)) (w_dx o) (w_id o) (w_fit o)) end);
  mdo o <- obj;
  mdo yenc <- (if truthy_opt (w_dy o) then mdo c <- mlift (transform (classes yc) yc); mdo _ <- on_data (set_column y c); mret (Some (classes yc)) else mret None);
  mdo (ts, r) <- identify y;
  mdo o <- obj;
  mdo xenc <- (if truthy_opt (w_dx o) then mdo es <- encode_treatments ts; mret (Some es) else mret None);
  mdo _ <- massert (negb (Nat.eqb (length (role_columns r)) 0));
  mdo d <- data;
  mdo sub <- mlift (columns d (role_columns r));
  mdo yc' <- mlift (column d y);
  mdo (p, sub') <- mlift (prep_fit sub yc');
  mdo _ <- massert (forallb (fun c => MapModel.mem c (map fst sub')) (role_columns r) && forallb (fun c => MapModel.mem c (role_columns r)) (map fst sub'));
  mdo _ <- on_data (set_columns sub');
  mdo d <- data;
  mdo es <- mlift (fit_all cf d y (truthy_opt (w_dy o)) (truthy_opt (w_dx o)) r (estimator_keys (truthy_opt (w_dx o)) ts));
  on_obj (fun o => mkWhy (w_dy o) (w_dx o) (w_id o) (Some (mkFit (map fst (f_cols d0)) y ts r es yenc xenc p))).
(** fit(data, outcome, copy=...): the object and the caller's frame afterwards *)
Definition fit (cf : conf) (copy : bool) (y : string) (o : why_obj) (caller : frame) : why_obj * frame * res unit :=
  let (s, r) := fit_body cf y (mkRun o caller) in (r_obj s, if copy then caller else r_data s, r).

(** *** questions to a fitted object *)
(** 494-515 _preprocess *)
Definition encode_cols (es : list (string * list Z)) (f : frame) : res frame :=
  fold_left (fun rf e => do f <- rf; if has f (fst e) then do l <- column f (fst e); do c <- transform (snd e) l; Ok (set_column (fst e) c f) else Ok f) es (Ok f).
Definition preprocess (s : fit_state) (t : frame) (encode_treatment : bool) : res frame :=
  let vars := role_columns (s_roles s) in
  do sub <- columns t vars;
  do sub' <- prep_transform (s_prep s) sub;
  let t1 := set_columns sub' t in
  do t2 <- (match s_yenc s with Some cls => encode_cols [(s_outcome s, cls)] t1 | None => Ok t1 end);
  if encode_treatment then match s_xenc s with Some es => encode_cols es t2 | None => Ok t2 end else Ok t2.
Definition preprocess_opt (s : fit_state) (t : option frame) (et : bool) : res (option frame) :=
  match t with None => Ok None | Some t => do t <- preprocess s t et; Ok (Some t) end.
(** 322-327 _get_estimator *)
Definition get_est (s : fit_state) (xs : list string) : res ((eclass * kwargs) * F) :=
  do k <- get_estimator (map fst (s_ests s)) xs;
  match find (fun e => ekey_eqb k (fst e)) (s_ests s) with Some e => Ok (snd e) | None => Err KeyError end.
(** est.estimate(data=, treat=, control=[, target_outcome=]).ravel(): NP2SLS has no parameter target_outcome, ApproxBound returns a tuple,
    GRForest ignores all keywords but data *)
Definition call_estimate (e : (eclass * kwargs) * F) (d : option frame) (t c : tval) (target : option (option Z)) : res (list Q) :=
  match fst (fst e), target with
  | NP2SLS, Some _ => Err TypeError
  | GRForest, _ => estimate (snd e) d TNo TNo None
  | ApproxBound, _ => do _ <- estimate (snd e) d t c None; Err AttributeError
  | _, _ => estimate (snd e) d t c (match target with Some v => v | None => None end)
  end.
(** a row of a frame as a dict *)
Definition row_of (f : frame) (p : nat) : list (string * Z) := flat_map (fun e => match nth_error (snd e) p with Some v => [(fst e, v)] | None => [] end) (f_cols f).
(** api/utils.py:98-122 cost_effect *)
Definition cost_effect (g : list (string * Z) -> Q -> Q) (t : option frame) (eff : list Q) : res (list Q) :=
  match t with
  | None => Ok (map (g []) eff)
  | Some t => if Nat.eqb (length (f_index t)) (length eff) then Ok (map (fun p => g (row_of t (fst p)) (snd p)) (combine (seq 0 (length eff)) eff)) else Err AssertionError
  end.

(** the treatment argument: None, a string, a list *)
Variant names := NmNone | NmStr (s : string) | NmList (l : list string).
Definition split (s : string) : list string := map string_of_list_ascii (split_names (list_ascii_of_string s)).
Definition enc_of (s : fit_state) (x : string) : list Z := match s_xenc s with Some es => match FactoryModel.lookup x es with Some c => c | None => [] end | None => [] end.
Definition known (s : fit_state) (xs : list string) : res unit :=
  if forallb (fun x => match s_xenc s with Some es => MapModel.mem x (map fst es) | None => false end) xs then Ok tt else Err KeyError.
(** one contrast of the result: the treatments, the values of treat and control, the effects of the rows of the data *)
Record contrast := mkC { k_x : list string; k_t : list Z; k_c : list Z; k_eff : list Q }.
(** LabelEncoder.inverse_transform *)
Definition decode (cls : list Z) (n : nat) : res Z := match nth_error cls n with Some v => Ok v | None => Err ValueError end.
Definition decode_all (s : fit_state) (xs : list string) (ns : list nat) : res (list Z) := mapX (fun xn => decode (enc_of s (fst xn)) (snd xn)) (combine xs ns).
(** 1138-1182 _map_effect with the handlers of 669-689.  treat, control: one value per treatment; [target]: the outcome value, None for the last class *)
Definition map_effect (cf : conf) (o : why_obj) (s : fit_state) (t : option frame) (a : names) (treat control : option (list Z)) (target : option Z) (combined : bool) : res (list contrast) :=
  do d <- preprocess_opt s t true;
  let xs := match a with NmNone => s_treatment s | NmStr n => split n | NmList l => l end in
  do _ <- (if combined && negb (Nat.leb (length xs) 2) then Err AssertionError else Ok tt);
  do _ <- (match treat with Some l => if Nat.eqb (length l) (length xs) then Ok tt else Err AssertionError | None => Ok tt end);
  do _ <- (match control with Some l => if Nat.eqb (length l) (length xs) then Ok tt else Err AssertionError | None => Ok tt end);
  do _ <- known s xs;
  let treats := option_map (fun l => [l]) treat in
  do tg <- (if truthy_opt (w_dy o) then match s_yenc s with
                                        | None => Err AttributeError
                                        | Some cls => do v <- (match target with Some v => Ok v | None => match rev cls with v :: _ => Ok v | [] => Err IndexError end end);
                                                      match Base.index_of v cls with Some i => Ok (Some (Some (Z.of_nat i))) | None => Err ValueError end
                                        end
            else match target with None => Ok None | Some _ => Err AttributeError (* y_encoder_ is None *) end);
  do itr <- (if combined then permute_combined (enc_of s) xs treats control
             else do l <- permute_sequential (enc_of s) xs treats control; Ok (map (fun e => let '(x, t, c) := e in ([x], [t], [c])) l));
  mapX (fun e => let '(xs', tv, cv) := e in
                 do est <- get_est s xs';
                 let arg l := match xs', l with [_], [n] => TCode n | _, _ => TCodes l end in
                 do eff <- call_estimate est d (arg tv) (arg cv) tg;
                 do eff <- (match c_cost cf, t with Some g, Some _ => cost_effect g t eff | _, _ => Ok eff end);
                 do tl <- decode_all s xs' tv; do cl <- decode_all s xs' cv;
                 Ok (mkC xs' tl cl eff)) itr.
(** 672-689, 697-704: one line of the result for quantity='ATE' *)
Definition mean (l : list Q) : Q := fold_right Qplus 0%Q l / inject_Z (Z.of_nat (length l)).
Definition qmin (a b : Q) := if Qle_bool a b then a else b.
Definition qmax (a b : Q) := if Qle_bool a b then b else a.
Definition summary (l : list Q) : res (Q * Q * Q) := match l with [] => Err ValueError | x :: r => Ok (mean l, fold_left qmin r x, fold_left qmax r x) end.
Variant answer (K : Type) := ATE (rows : list (K * (Q * Q * Q))) | ITE (cols : list (K * list Q)).
Arguments ATE {K}. Arguments ITE {K}.
(** pd.concat of no frames: ValueError *)
Definition answer_of {K} (ate : bool) (l : list (K * list Q)) : res (answer K) :=
  match l with
  | [] => Err ValueError
  | _ => if ate then do rows <- mapX (fun e => do s <- summary (snd e); Ok (fst e, s)) l; Ok (ATE rows) else Ok (ITE l)
  end.
Definition effect_discrete (cf : conf) (o : why_obj) (s : fit_state) (t : option frame) (a : names) (treat control : option (list Z)) (target : option Z) (combined ate : bool) : res (answer (list string * list Z * list Z)) :=
  do l <- map_effect cf o s t a treat control target combined;
  answer_of ate (map (fun k => ((k_x k, k_t k, k_c k), k_eff k)) l).
(** 707-747 _causal_effect_continuous.  A string is walked through character by character; zeros_like and ones_like keep the form of the other value *)
Definition chars (s : string) : list string := map (fun c => String c "") (list_ascii_of_string s).
Definition const_like (q : Q) (t : tval) : tval := match t with TArr l => TArr (map (fun _ => q) l) | TNo => TNo | _ => TNum q end.
Definition fill (t c : tval) : tval * tval := match t, c with TNo, TNo => (TNo, TNo) | TNo, _ => (const_like 1 c, c) | _, TNo => (t, const_like 0 t) | _, _ => (t, c) end.
Definition nth_val (l : option (list tval)) (i : nat) : tval := match l with Some l => nth i l TNo | None => TNo end.
Definition effect_continuous (cf : conf) (s : fit_state) (t : option frame) (a : names) (treat control : option (list tval)) (ate : bool) : res (answer string) :=
  let xs := match a with NmNone => s_treatment s | NmStr n => chars n | NmList l => l end in
  do d <- preprocess_opt s t false;
  do _ <- (match treat with Some l => if Nat.eqb (length l) (length xs) then Ok tt else Err AssertionError | None => Ok tt end);
  do _ <- (match control with Some l => if Nat.eqb (length l) (length xs) then Ok tt else Err AssertionError | None => Ok tt end);
  do l <- mapX (fun xi => let (x, i) := (xi : string * nat) in
                          do est <- get_est s [x];
                          let (tv, cv) := fill (nth_val treat i) (nth_val control i) in
                          do eff <- call_estimate est d tv cv None;
                          do eff <- (match c_cost cf with Some g => cost_effect g t eff | None => Ok eff end);
                          Ok (x, eff)) (combine xs (seq 0 (length xs)));
  answer_of ate l.

(** *** individual_causal_effect (749-823) *)
(** .loc[ri:ri] (pandas): the rows with the label if they are next to each other, else KeyError *)
Definition positions (ri : I) (l : list I) : list nat := map fst (filter (fun e => eqb (snd e) ri) (combine (seq 0 (length l)) l)).
Definition loc (ri : I) (f : frame) : res (list nat) :=
  let ps := positions ri (f_index f) in
  match ps with [] => Err KeyError | p :: _ => if list_eqb ps (seq p (length ps)) then Ok ps else Err KeyError end.
Definition first_value (l : list Z) : res Z := match l with v :: _ => Ok v | [] => Err IndexError end.
(** 783-811; the loop over the treatments carries row_df, in which treatments seen so far may be encoded *)
Fixpoint individual_row (o : why_obj) (s : fit_state) (tg : option Z) (ri : I) (row : frame) (xcs : list (string * Z)) : res (list (I * string * Z * Z * Q)) :=
  match xcs with
  | [] => Ok []
  | (x, c) :: r =>
      do col <- column row x;
      do v <- first_value col;
      do (row', eff) <- (if Z.eqb v c then Ok (row, 0%Q)
                         else do codes <- transform (enc_of s x) col;
                              let row' := set_column x codes row in
                              match Base.index_of v (enc_of s x), Base.index_of c (enc_of s x) with
                              | Some tn, Some cn =>
                                  do est <- get_est s [x];
                                  do e <- call_estimate est (Some row') (TCode tn) (TCode cn) (if truthy_opt (w_dy o) then Some tg else None);
                                  match e with q :: _ => Ok (row', q) | [] => Err IndexError end
                              | _, _ => Err ValueError
                              end);
      do l <- individual_row o s tg ri row' r;
      Ok ((ri, x, v, c, eff) :: l)
  end.
Definition individual_discrete (o : why_obj) (s : fit_state) (t : frame) (control : option (list Z)) (target : option Z) : res (list (I * string * Z * Z * Q)) :=
  do _ <- (if forallb (has t) (s_treatment s) then Ok tt else Err AssertionError);
  do d <- preprocess s t false;
  do _ <- (match control with Some l => if Nat.eqb (length l) (length (s_treatment s)) then Ok tt else Err AssertionError | None => Ok tt end);
  do cs <- (match control with Some l => Ok l | None => mapX (fun x => first_value (enc_of s x)) (s_treatment s) end);
  (* 788-789 _inverse_transform_outcome *)
  do tg <- (match target, s_yenc s with
            | Some v, Some cls => if Z.leb 0 v then match nth_error cls (Z.to_nat v) with Some w => Ok (Some w) | None => Err ValueError end else Err ValueError
            | v, _ => Ok v
            end);
  do ls <- mapX (fun ri => do ps <- loc ri d; individual_row o s tg ri (take_rows ps d) (combine (s_treatment s) cs)) (f_index d);
  match List.concat ls with [] => Err ValueError | l => Ok l end.

(** *** score(scorer='rloss') (919-963, 989-1013) *)
Definition score_rloss (cf : conf) (o : why_obj) (s : fit_state) (t : frame) (treat control : option (list Z)) : res Q :=
  (* _create_scorers: one R-loss object per treatment *)
  do scorers <- mapX (fun x => do e <- create_estimator lightgbm xgboost darwin obj_proba "rloss" [] (length (f_index t)) (truthy_opt (w_dy o)) (truthy_opt (w_dx o)) (match snd (fst (s_roles s)) with Some _ => true | None => false end) (snd (s_roles s)) (c_seed cf); Ok (x, e)) (s_treatment s);
  do d <- preprocess s t true;
  do _ <- (match treat with Some l => if Nat.eqb (length l) (length (s_treatment s)) then Ok tt else Err AssertionError | None => Ok tt end);
  do _ <- (match control with Some l => if Nat.eqb (length l) (length (s_treatment s)) then Ok tt else Err AssertionError | None => Ok tt end);
  do l <- mapX (fun xi => let '((x, e), i) := (xi : (string * (eclass * kwargs)) * nat) in
      let val := fun (v : option (list Z)) => match v with
                                              | None => Ok TNo
                                              | Some l => let z := nth i l 0%Z in
                                                          if truthy_opt (w_dx o) then match Base.index_of z (enc_of s x) with Some n => Ok (TCode n) | None => Err ValueError end else Ok (TNum (inject_Z z))
                                              end in
      do tv <- val treat; do cv <- val control;
      (* scorer.fit takes adjustment and covariate, no instrument, and needs a covariate *)
      do _ <- (match snd (s_roles s) with Some _ => Err TypeError | None => Ok tt end);
      do _ <- (match snd (fst (s_roles s)) with None => Err AssertionError | Some _ => Ok tt end);
      do est <- get_est s [x];
      rloss e d (s_outcome s) x (s_roles s) (snd est) tv cv) (combine scorers (seq 0 (length scorers)));
  Ok (mean l).
(** 959-963: target_outcome is not handed on *)
Definition score (cf : conf) (o : why_obj) (s : fit_state) (t : frame) (treat control : option (list Z)) (target : option Z) : res Q := score_rloss cf o s t treat control.
End Why.
