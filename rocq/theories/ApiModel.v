(** Model of ylearn/api/_identifier.py, ylearn/api/_why.py and the rest of ylearn/api/utils.py.
    Simplifications: column names are any type with decidable equality; the learned causal matrix is given (the
    optimisers are not modelled); estimators, cost functions and encoders appear through the calls made on them. *)
From Coq Require Export QArith.
From Verif Require Export Base UtilsModel DiscoveryModel GraphModel.
From Verif Require CausalModel.
Open Scope nat_scope.
Open Scope list_scope.
Set Implicit Arguments.

(** ** _identifier.py: adjustment, covariate, instrument *)
Definition is_empty {A} (v : option (list A)) : bool := match v with None | Some [] => true | _ => false end.
Definition roles (A : Type) := (option (list A) * option (list A) * option (list A))%type.

Section Identifier.
  Context {A : Type} {EA : EqDec A}.
  Variables (cols : list A) (outcome : A) (treatment : list A). (* data.columns *)

  (** _identifier.py:44-49 DefaultIdentifier.identify_aci *)
  Definition default_aci : roles A :=
    (None, Some (filter (fun c => negb (eqb c outcome) && negb (mem c treatment)) cols), None).

  (** names.index(x) *)
  Definition index (names : list A) (x : A) : res nat :=
    match index_of x names with Some i => Ok i | None => Err ValueError end.
  Fixpoint mapR {X Y} (f : X -> res Y) (l : list X) : res (list Y) :=
    match l with [] => Ok [] | x :: r => do y <- f x ; do ys <- mapR f r ; Ok (y :: ys) end.

  Variables (n : nat) (m : matrix) (names : list A). (* the causal matrix, n = len(causal_matrix) *)

  (** _identifier.py:200-224 _identify_ci_dfs with depth=None.  matrix2dict's search (dfs_targets) is the same
      nx.dfs_edges on the reversed graph; here only positive entries are edges. *)
  Definition positive : matrix := fun i j => if Z.ltb 0 (m i j) then 1%Z else 0%Z.
  Definition dfs_edge_targets (i : nat) : list nat := diff (dfs_targets n positive None i) [i].
  Definition named (idx : list nat) (targets : list A) : list A :=
    map snd (filter (fun e => mem (fst e) idx && negb (mem (snd e) targets)) (combine (seq 0 n) names)).
  Definition identify_ci_dfs : res (list A * list A) :=
    do yi <- index names outcome ;
    let covariate := dfs_edge_targets yi in
    do tis <- mapR (index names) treatment ;
    let instrument := flat_map (fun ti => diff (dfs_edge_targets ti) covariate) tis in
    let targets := treatment ++ [outcome] in
    Ok (named covariate targets, named instrument targets).

  (** _identifier.py:171-197 _identify_ci_straight_forward.  [m0] is a dictionary; m0[k] of a missing key does not
      occur.  The order of list(diff) (a set) is a parameter. *)
  Variable ord : list A -> list A.
  Definition get (d : list (A * list A)) (k : A) : list A :=
    match find (fun e => eqb (fst e) k) d with Some e => snd e | None => [] end.
  Definition expand1 (m0 : list (A * list A)) (k ki : A) : list (A * list A) :=
    let d := diff (dedup (get m0 ki)) (get m0 k) in
    match d with [] => m0 | _ => dict_set m0 k (get m0 k ++ ord d) end.
  (** one pass of the loop 177-184 *)
  Definition expand_pass (causal m0 : list (A * list A)) : list (A * list A) :=
    fold_left (fun m0 e => fold_left (fun m0 ki => expand1 m0 (fst e) ki) (snd e) m0) causal m0.
  (** at most data.shape[1] + 1 passes; stopping early when nothing changed does not change the result, because a
      pass without change leaves m0 as it is *)
  Fixpoint expand (k : nat) (causal m0 : list (A * list A)) : list (A * list A) :=
    match k with 0 => m0 | S k => expand k causal (expand_pass causal m0) end.
  Definition identify_ci_straight : res (list A * list A) :=
    do causal <- matrix2dict n m names None ;
    let m0 := expand (List.length cols + 1) causal causal in
    let xy := treatment ++ [outcome] in
    let var_x := map fst (filter (fun e => existsb (fun t => mem t (snd e) && negb (mem (fst e) xy)) treatment) m0) in
    let var_y := map fst (filter (fun e => mem outcome (snd e) && negb (mem (fst e) xy)) m0) in
    let instrument := filter (fun c => mem c (diff var_x var_y) && negb (mem c xy)) var_x in
    let covariate := filter (fun c => negb (mem c instrument) && negb (mem c xy)) var_y in
    Ok (covariate, instrument).

  (** _identifier.py:136-168 _identify_ci_with_causal_model.  [get_iv x] = cm.get_iv(x, outcome); [backdoor] =
      ids['backdoor'][0] or the exception of cm.identify.  Exceptions of get_iv are caught (157-159). *)
  Variable get_iv : A -> res (option (list A)).
  Variable backdoor : res (list A).
  Definition not_xy (l : list A) : list A := filter (fun c => negb (eqb c outcome) && negb (mem c treatment)) l.
  Fixpoint iv_loop (instrument : option (list A)) (ts : list A) : res (option (list A)) :=
    match ts with
    | [] => Ok instrument
    | x :: r =>
        match instrument with
        | None | Some [] => Ok instrument
        | Some ins =>
            do iv <- get_iv x ;
            match iv with
            | None | Some [] => Ok None
            | Some iv => iv_loop (Some (ord (inter (dedup ins) (not_xy iv)))) r
            end
        end
    end.
  Definition identify_ci_model : res (option (list A) * option (list A)) :=
    let instrument :=
      match treatment with
      | [] => Some [] (* treatment[0] raises IndexError, caught *)
      | t :: ts =>
          match (do iv <- get_iv t ;
                 iv_loop (match iv with None => None | Some [] => Some [] | Some l => Some (not_xy l) end) ts) with
          | Ok i => i
          | Err _ => Some []
          end
      end in
    do b <- backdoor ;
    let covariate := not_xy (ord (dedup b)) in
    let covariate := match instrument with
                     | None | Some [] => covariate
                     | Some ins => filter (fun c => negb (mem c ins)) covariate
                     end in
    Ok (Some covariate, instrument).

  Inductive ci_method := Dfs | Straight | WithModel.
  (** _identifier.py:102-133 IdentifierWithDiscovery.identify_aci; [nan] = the matrix has a NaN entry *)
  Definition discovery_aci (nan : bool) (how : ci_method) : res (roles A) :=
    if nan then Ok default_aci
    else
      do ci <- (match how with
                | Dfs => do r <- identify_ci_dfs ; Ok (Some (fst r), Some (snd r))
                | Straight => do r <- identify_ci_straight ; Ok (Some (fst r), Some (snd r))
                | WithModel => identify_ci_model
                end) ;
      let '(covariate, instrument) := ci in
      let covariate :=
        if is_empty covariate then
          Some (filter (fun c => negb (eqb c outcome) && negb (mem c treatment) &&
                                 match instrument with None | Some [] => true | Some l => negb (mem c l) end) cols)
        else covariate in
      Ok (None, covariate, if is_empty instrument then None else instrument).
End Identifier.

(** The real cm of _identifier.py:140-143 and 160-161.  A column name or a tuple of them: ids['backdoor'] is the pair
    (backdoor_list, prob) of get_backdoor_set, whose first component is a list of names for 'simple' and a list of
    tuples for the other styles; a None result is not subscriptable. *)
Inductive pyname := Name (s : node) | Tup (l : list node).
#[global] Instance EqDec_pyname : EqDec pyname.
Proof.
  refine {| eqb := fun a b => match a, b with Name x, Name y => eqb x y | Tup x, Tup y => eqb x y | _, _ => false end |}.
  intros [x|x] [y|y]; split; intros H; try discriminate; (apply eqb_eq in H || injection H as ->; rewrite ?eqb_refl); now subst.
Defined.
Definition name_of (p : pyname) : node := match p with Name s => s | Tup _ => "" end.
Definition iv_names (g : cg) (outcome x : pyname) : res (option (list pyname)) :=
  do l <- CausalModel.get_iv g (name_of x) (name_of outcome) ; Ok (Some (map Name l)).
Definition ids_backdoor (ord : list node -> list node) (g : cg) (treatment : list pyname) (outcome : pyname)
    (style : string) : res (list pyname) :=
  do r <- CausalModel.get_backdoor_set ord g (CausalModel.ListOf (map name_of treatment))
            (CausalModel.Str (name_of outcome)) style ;
  match r with
  | None => Err TypeError
  | Some (CausalModel.BNames l, _) => Ok (map Name l)
  | Some (CausalModel.BSets s, _) => Ok (map Tup s)
  end.
(** the graph CausalGraph(matrix2dict(causal_matrix)) and identify_aci with method=('backdoor', style) *)
Definition model_aci (ord : list node -> list node) (ordp : list pyname -> list pyname) (n : nat) (m : matrix)
    (names cols : list node) (outcome : node) (treatment : list node) (style : string) : res (roles pyname) :=
  do d <- matrix2dict n m names None ;
  let g := init d None [] in
  discovery_aci (map Name cols) (Name outcome) (map Name treatment) n m (map Name names) ordp
    (iv_names g (Name outcome)) (ids_backdoor ord g (map Name treatment) (Name outcome) style) false WithModel.

(** ** _why.py: Why.identify (343-416) for a given treatment.  The result is what the caller's list objects contain
    after the call (utils.safe_remove without copy works in place on a list argument, and on the fresh list made from
    a string) together with the returned roles.  [aci] = the identifier's identify_aci. *)
Section WhyIdentify.
  (** utils.safe_remove(v, treatment): the assertion (api/utils.py:18) rejects tuples *)
  Definition strip_role (v : names_arg) (treatment : list str) : res (names_arg * option (list str)) :=
    match v with
    | NNone => Ok (NNone, None)
    | NTuple _ => Err AssertionError
    | NOther => Err ValueError
    | NList l => let '(caller, r) := safe_remove (Some l) treatment false in
                 Ok (match caller with Some c => NList c | None => NNone end, r)
    | NStr s => Ok (NStr s, snd (safe_remove (Some (split_names s)) treatment false))
    end.
  Variable aci : list str -> res (roles str).
  (** the first three components: the caller's three arguments afterwards *)
  Definition why_identify (treatment : list str) (adjustment covariate instrument : names_arg) :
      res ((names_arg * names_arg * names_arg) * (list str * roles str)) :=
    do a <- strip_role adjustment treatment ;
    do v <- strip_role covariate treatment ;
    do z <- strip_role instrument treatment ;
    do r <- (if is_empty (snd a) && is_empty (snd v) && is_empty (snd z) then aci treatment
             else Ok (snd a, snd v, snd z)) ;
    Ok ((fst a, fst v, fst z), (treatment, r)).
End WhyIdentify.

(** _why.py:329-331 _get_default_treatment_count_limit: min(ceil(columns * 0.1), 5) *)
Definition default_count_limit (ncols : nat) : nat := Nat.min ((ncols + 9) / 10) 5.

(** _why.py:286-303: the keys of estimators_ after fit: the treatments and, for discrete treatments, all ordered
    pairs of different ones *)
Section Estimators.
  Context {A : Type} {EA : EqDec A}.
  Inductive ekey := One (x : A) | Two (x y : A).
  Definition estimator_keys (discrete : bool) (treatment : list A) : list ekey :=
    map One treatment ++
    (if discrete && Nat.ltb 1 (List.length treatment) then
       map (fun p => Two (fst p) (snd p)) (filter (fun p => negb (eqb (fst p) (snd p))) (list_prod treatment treatment))
     else []).
  (** 321-326 _get_estimator: estimators_[treatment[0]] or estimators_[tuple(treatment)] *)
  Definition ekey_eqb (a b : ekey) : bool :=
    match a, b with One x, One y => eqb x y | Two x y, Two z w => eqb x z && eqb y w | _, _ => false end.
  Definition get_estimator (fitted : list ekey) (treatment : list A) : res ekey :=
    match treatment with
    | [x] => if existsb (ekey_eqb (One x)) fitted then Ok (One x) else Err KeyError
    | [x; y] => if existsb (ekey_eqb (Two x y)) fitted then Ok (Two x y) else Err KeyError
    | _ => Err KeyError
    end.
End Estimators.
Arguments ekey A : clear implicits.

(** ** _why.py: contrasts.  An encoder is its classes_ (distinct, ascending); transform gives the position. *)
Section Permute.
  Context {X V : Type} {EX : EqDec X} {EV : EqDec V}.
  Variable classes : X -> list V. (* self.x_encoders_[x].classes_ *)
  (** LabelEncoder.transform([v]).tolist()[0] *)
  Definition encode (x : X) (v : V) : res nat :=
    match index_of v (classes x) with Some i => Ok i | None => Err ValueError end.
  Definition first_class (x : X) : res V := match classes x with c :: _ => Ok c | [] => Err IndexError end.

  (** zip(treatment, values) *)
  Fixpoint encode_all (xs : list X) (vs : list V) : res (list nat) :=
    match xs, vs with
    | x :: xs, v :: vs => do i <- encode x v ; do r <- encode_all xs vs ; Ok (i :: r)
    | _, _ => Ok []
    end.
  (** itertools.product *)
  Fixpoint cart {T} (ls : list (list T)) : list (list T) :=
    match ls with [] => [[]] | l :: r => flat_map (fun x => map (cons x) (cart r)) l end.

  (** one step of _permute_treat_control_sequential (1240-1256): the contrasts of the i-th treatment;
      [treats] = the i-th components of the user's treats *)
  Definition sequential_one (x : X) (control : V) (treats : option (list V)) : res (list (X * nat * nat)) :=
    if negb (mem control (classes x)) then Err AssertionError
    else
      let ts := match treats with Some ts => ts | None => filter (fun v => negb (eqb v control)) (classes x) end in
      mapR (fun t => do t' <- encode x t ; do c' <- encode x control ; Ok (x, t', c')) ts.
  Fixpoint sequential_loop (xs : list X) (control : list V) (treats : option (list (list V))) : res (list (X * nat * nat)) :=
    match xs, control with
    | x :: xs, c :: cs =>
        let hd := match treats with
                  | None => Ok None
                  | Some ts => do h <- mapR (fun t => match t with v :: _ => Ok v | [] => Err IndexError end) ts ; Ok (Some h)
                  end in
        do h <- hd ;
        do a <- sequential_one x c h ;
        do b <- sequential_loop xs cs (option_map (map (@tl V)) treats) ;
        Ok (a ++ b)
    | _, _ => Ok []
    end.
  (** _why.py:1224-1256 with encode=True, treatment already a list; control None = first classes *)
  Definition permute_sequential (treatment : list X) (treats : option (list (list V))) (control : option (list V)) :
      res (list (X * nat * nat)) :=
    if Nat.eqb (List.length treatment) 0 then Err AssertionError
    else do c <- (match control with
                  | Some c => if Nat.eqb (List.length c) (List.length treatment) then Ok c else Err AssertionError
                  | None => mapR first_class treatment
                  end) ;
         sequential_loop treatment c treats.

  (** _why.py:1184-1222 with encode=True *)
  Definition permute_combined (treatment : list X) (treats : option (list (list V))) (control : option (list V)) :
      res (list (list X * list nat * list nat)) :=
    if Nat.eqb (List.length treatment) 0 then Err AssertionError
    else
      do c <- (match control with
               | Some c => if Nat.eqb (List.length c) (List.length treatment) then Ok c else Err AssertionError
               | None => mapR first_class treatment
               end) ;
      let ts := match treats with Some ts => ts | None => cart (map classes treatment) end in
      do c' <- encode_all treatment c ;
      do ts' <- mapR (fun t => if Nat.eqb (List.length t) (List.length treatment) then encode_all treatment t
                               else Err AssertionError) ts ;
      Ok (map (fun t => (treatment, t, c')) (filter (fun t => negb (eqb t c')) ts')).
End Permute.

(** ** api/utils.py: rows of a data frame; [cell r f] = r[f] *)
Section Rows.
  Context {Row F V : Type} {EV : EqDec V}.
  Variable cell : Row -> F -> V.
  (** the masks of api/utils.py:184-199; None = no column was compared *)
  Fixpoint mask (df : list Row) (fs : list F) (vs : list V) (acc : option (list bool)) : option (list bool) :=
    match fs, vs with
    | f :: fs, v :: vs =>
        let col := map (fun r => eqb (cell r f) v) df in
        mask df fs vs (Some (match acc with None => col | Some a => map (fun p => fst p && snd p) (combine a col) end))
    | _, _ => acc
    end.
  (** api/utils.py:184-202 select_by_treat_control: df[is_treat | is_control]; None | None raises *)
  Definition select_by_treat_control (df : list Row) (treatment : list F) (treat control : list V) : res (list Row) :=
    match mask df treatment treat None, mask df treatment control None with
    | Some a, Some b =>
        Ok (map fst (filter (fun e => snd e) (combine df (map (fun p => fst p || snd p) (combine a b)))))
    | _, _ => Err TypeError
    end.
  (** api/utils.py:215-223 encode_treat_control with the default values 1 and 0; None = NaN *)
  Definition matches (r : Row) (fs : list F) (vs : list V) : bool :=
    forallb (fun p => eqb (cell r (fst p)) (snd p)) (combine fs vs).
  Definition encode_treat_control (df : list Row) (treatment : list F) (treat control : list V) : list (option nat) :=
    map (fun r => if matches r treatment treat then Some 1 else if matches r treatment control then Some 0 else None) df.
End Rows.

(** ** _why.py: _whatif_discrete (876-904).  A row of test_data: index label, treatment value, outcome, the rest. *)
Section Whatif.
  Context {I V D : Type} {EI : EqDec I} {EV : EqDec V}.
  Record row := Row { idx : I; old : V; y : Q; rest : D }.
  Variable classes : list V. (* x_encoders_[treatment].classes_ *)
  Variable estimate : list row -> nat -> nat -> list Q. (* estimator.estimate(rows, treat, control).ravel() *)
  (** fn_cost applied by cost_effect (api/utils.py:98-122) to a row of test_data and its effect *)
  Variable fn_cost : option (row -> Q -> Q).

  (** new_value: an array, or a Series with its own index, which pd.DataFrame(..., index=) aligns; None = NaN *)
  Inductive new_value := Arr (l : list V) | Ser (s : list (I * V)).
  Definition new_column (data : list row) (nv : new_value) : res (list (option V)) :=
    match nv with
    | Arr l => if Nat.eqb (List.length l) (List.length data) then Ok (map Some l) else Err ValueError
    | Ser s => Ok (map (fun r => option_map snd (find (fun e => eqb (fst e) (idx r)) s)) data)
    end.
  (** df['tc'].unique(): NaN compares unequal to itself, so rows without a new value never form a group of
      equal tuples; they are encoded by transform, which raises *)
  Definition opt_eqb (a b : option V) : bool :=
    match a, b with Some x, Some y => eqb x y | _, _ => false end.
  Definition pairs (df : list (row * option V)) : list (V * V) :=
    dedup (flat_map (fun e => match snd e with Some t => [(t, old (fst e))] | None => [] end) df).
  Definition transform (v : V) : res nat := match index_of v classes with Some i => Ok i | None => Err ValueError end.
  (** cost_effect: assert len(test_data) == len(effect) *)
  Definition cost_effect (test_data : list row) (eff : list Q) : res (list Q) :=
    match fn_cost with
    | None => Ok eff
    | Some f => if Nat.eqb (List.length test_data) (List.length eff) then
                  Ok (map (fun p => f (fst p) (snd p)) (combine test_data eff)) else Err AssertionError
    end.
  Definition group_effect (data : list row) (df : list (row * option V)) (tc : V * V) : res (list (I * Q)) :=
    let rows := map fst (filter (fun e => match snd e with
                                          | Some t => eqb t (fst tc) && eqb (old (fst e)) (snd tc)
                                          | None => false end) df) in
    do eff <- (if eqb (fst tc) (snd tc) then Ok (map (fun _ => 0%Q) rows)
               else do t <- transform (fst tc) ; do c <- transform (snd tc) ; Ok (estimate rows t c)) ;
    do eff <- cost_effect data eff ;
    Ok (combine (map idx rows) eff).
  (** df['e'] = effect['e'] aligns the indices *)
  Definition whatif_discrete (data : list row) (nv : new_value) : res (list (I * Q)) :=
    do new <- new_column data nv ;
    let df := combine data new in
    if existsb (fun e => match snd e with None => true | Some _ => false end) df then Err ValueError
    else
      do gs <- mapR (group_effect data df) (pairs df) ;
      let effect := List.concat gs in
      if negb (Nat.eqb (List.length effect) (List.length df)) then Err AssertionError
      else Ok (map (fun r => (idx r, match find (fun e => eqb (fst e) (idx r)) effect with
                                     | Some e => (y r + snd e)%Q | None => y r end)) data).
End Whatif.

(** ** _why.py: outcome encoders *)
Inductive pyv := VInt (z : Z) | VStr (s : str).
#[global] Instance EqDec_Z : EqDec Z := {| eqb := Z.eqb; eqb_eq := Z.eqb_eq |}.
#[global] Instance EqDec_pyv : EqDec pyv.
Proof.
  refine {| eqb := fun a b => match a, b with VInt x, VInt y => Z.eqb x y | VStr x, VStr y => list_eqb x y | _, _ => false end |}.
  intros [x|x] [y|y]; split; intros H; try discriminate.
  - apply Z.eqb_eq in H. now subst.
  - injection H as ->. apply Z.eqb_refl.
  - apply list_eqb_eq in H. now subst.
  - injection H as ->. now apply list_eqb_eq.
Defined.
(** LabelEncoder.transform([v]) *)
Definition y_transform (cls : list pyv) (v : pyv) : res pyv :=
  match index_of v cls with Some i => Ok (VInt (Z.of_nat i)) | None => Err ValueError end.
(** LabelEncoder.inverse_transform([v]): v must be one of 0..len(classes)-1 *)
Definition y_inverse (cls : list pyv) (v : pyv) : res pyv :=
  match v with
  | VInt z => if Z.leb 0 z then match nth_error cls (Z.to_nat z) with Some c => Ok c | None => Err ValueError end
              else Err ValueError
  | VStr _ => Err ValueError
  end.
(** the target_outcome handed to estimator.estimate, which works on encoded outcomes:
    causal_effect (624-625, 1163-1165) *)
Definition target_causal_effect (cls : list pyv) (target : option pyv) : res (option pyv) :=
  match target with
  | Some v => do r <- y_transform cls v ; Ok (Some r)
  | None => match cls with [] => Err IndexError | c :: r => do r <- y_transform cls (List.last r c) ; Ok (Some r) end
  end.
(** uplift_model (1300), individual_causal_effect (788-789), _effect_array (1031) via _inverse_transform_outcome *)
Definition target_uplift (cls : list pyv) (target : option pyv) : res (option pyv) :=
  match target with Some v => do r <- y_inverse cls v ; Ok (Some r) | None => Ok None end.

(** ** _why.py: the fitted flag.  __init__ (165) sets it to the tuple (False,); fit (318) to True. *)
Inductive flag := FTuple (l : list bool) | FBool (b : bool).
Definition truthy_flag (f : flag) : bool := match f with FTuple [] => false | FTuple _ => true | FBool b => b end.
Section Why.
  Variables (Frame Name : Type).
  Record why := Why { is_fitted : flag; discrete_treatment : option bool; treatment_ : option (list Name);
                      transform_vars : option (Frame -> Frame) (* preprocessor_ *);
                      transform_outcome : option (Frame -> Frame) (* y_encoder_ *);
                      transform_treatments : option (Frame -> Frame) (* x_encoders_ *) }.
  (** 139-184 Why.__init__ *)
  Definition new_why (d : option bool) : why := Why (FTuple [false]) d None None None None.
  Definition app_opt (f : option (Frame -> Frame)) (x : Frame) : Frame := match f with Some f => f x | None => x end.
  (** 496-515 _preprocess *)
  Definition preprocess (w : why) (data : option Frame) (encode_outcome encode_treatment : bool) : res (option Frame) :=
    if negb (truthy_flag (is_fitted w)) then Err AssertionError
    else Ok (option_map (fun d =>
           let d := app_opt (transform_vars w) d in
           let d := if encode_outcome then app_opt (transform_outcome w) d else d in
           if encode_treatment then app_opt (transform_treatments w) d else d) data).
  (** 614-632, 707-725, 1141-1160, 1228-1231: causal_effect up to the first use of the treatments, for the default
      treatment argument; enumerate(None) and len(None) raise TypeError *)
  Definition causal_effect_start (w : why) (data : option Frame) : res (list Name) :=
    do _ <- preprocess w data true (match discrete_treatment w with Some true => true | _ => false end) ;
    match treatment_ w with Some t => Ok t | None => Err TypeError end.
End Why.

(** ** _why.py: causal_graph (527-559) *)
Section CausalGraph.
  Open Scope string_scope.
  (** the labels; [fmt] = utils.format of the name lists *)
  Definition label (kind : string) (fmt : string) : node := (kind ++ "(" ++ fmt ++ ")").
  Definition label_x (f : string) := label "Treatments" f.
  Definition label_y (f : string) := label "Outcome" f.
  (** [None] = the role is None or empty *)
  Definition role_entry (kind : string) (r : option string) (children : list node) : dict :=
    match r with Some f => [(label kind f, children)] | None => [] end.
  Definition causal_graph (x yo : string) (w v z : option string) : cg :=
    init (role_entry "Adjustments" w [label_x x; label_y yo] ++
          role_entry "Covariates" v [label_x x; label_y yo] ++
          role_entry "Instruments" z [label_x x])%list None [].
End CausalGraph.
