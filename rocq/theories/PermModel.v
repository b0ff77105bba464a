(** Model of ylearn/estimator_model/_permuted.py (PermutedLearner) and of BaseEstModel.fit (base_models.py:46-75).
    The wrapped learner is any object with a state (fit, estimate and effect_nji may change it); copy.deepcopy copies the
    state.  treatment and outcome given as one string are seen as lists of one name.  joblib's Parallel keeps the order of
    its tasks and raises the first exception; with several processes changes of state made by a task are lost. *)
From Coq Require Import ZArith Reals Lra String.
From Verif Require Import Base EstUtilsModel MetaModel.
Set Implicit Arguments.
Local Notation length := List.length.
Local Open Scope nat_scope.

(** == of treat and control values *)
Fixpoint labels_eqb (a b : list label) : bool :=
  match a, b with [], [] => true | x :: a', y :: b' => label_eqb x y && labels_eqb a' b' | _, _ => false end.
Definition targ_eqb (a b : targ) : bool :=
  match a, b with
  | TNone, TNone => true
  | TVal x, TVal y => label_eqb x y
  | TList x, TList y => labels_eqb x y
  | _, _ => false
  end.

(** itertools.product: the last factor runs fastest *)
Fixpoint product {A} (ls : list (list A)) : list (list A) :=
  match ls with [] => [[]] | l :: r => flat_map (fun x => map (cons x) (product r)) l end.

(** the wrapped learner; [K] are the keyword arguments of fit (adjustment, covariate, ...) *)
Record blearner (Frame K : Type) := mkBL {
  B_St : Type;
  b_fit : Frame -> K -> list string -> list string -> targ -> targ -> M B_St unit;   (* outcome, treatment, treat, control *)
  b_estimate : option Frame -> quantity -> option label -> M B_St (nd R);
  b_nji : option Frame -> M B_St (nd R);
  b_classes : B_St -> option (list label);           (* outcome_classes_ *)
  b_target : bool;                                   (* estimate has a parameter target_outcome *)
  b_treat : B_St -> res targ }.                      (* the attribute treat *)

Section Perm.
Variables (Frame K : Type).
(** len(data), data[column] *)
Variable fr_len : Frame -> nat.
Variable fr_col : Frame -> string -> res (list label).
Variable B : blearner Frame K.
Notation St := (B_St B).
(** is_discrete_outcome of the learner *)
Variable disc_out : bool.

(** a PermutedLearner: learner (never changed), _is_fitted, treatment, outcome, treats_ (in the order of treatment),
    learners_, _last_treat_control *)
Record perm := mkPerm { p_base : St; p_fitted : bool; p_treatment : option (list string); p_outcome : list string;
                        p_treats : list (list label); p_learners : list ((targ * targ) * St); p_last : option (targ * targ) }.
(** _permuted.py:82-101 __init__ *)
Definition perm_new (b : St) : perm := mkPerm b false None [] [] [] None.

(** all values of the treatments: _permuted.py:109-113, 232-237 *)
Definition combos (treats : list (list label)) : list targ :=
  match treats with [vals] => map TVal vals | _ => map TList (product treats) end.

(** _permuted.py:103-122 _permute_treats: (treat, control) with treat after control *)
Definition permute (treats : list (list label)) : list (targ * targ) :=
  let cs := combos treats in
  flat_map (fun t => map (fun c => (nth t cs TNone, nth c cs TNone)) (seq 0 t)) (seq 1 (length cs - 1)).

(** _permuted.py:39-42 _copy_and_fit *)
Definition copy_and_fit (b : St) (data : Frame) (kw : K) (outcome treatment : list string) (tc : targ * targ) : res ((targ * targ) * St) :=
  match b_fit B data kw outcome treatment (fst tc) (snd tc) b with
  | (s, Ok _) => Ok (tc, s)
  | (_, Err x) => Err x
  end.

(** one call of fit *)
Record pargs := mkPArgs { g_data : Frame; g_outcome : list string; g_treatment : list string; g_kw : K }.

(** _permuted.py:157-194 fit, with base_models.py:46-75; sequential and parallel fits do the same.
    Keyword arguments are stored as attributes of the wrapper, which never reads them. *)
Definition perm_fit (a : pargs) : M perm unit :=
  mdo _ <- mset (fun p => mkPerm (p_base p) (p_fitted p) (Some (g_treatment a)) (g_outcome a) (p_treats p) (p_learners p) (p_last p));
  mdo treats <- mlift (mapX (fun t => do c <- fr_col (g_data a) t; unique_labels c) (g_treatment a));
  mdo _ <- mset (fun p => mkPerm (p_base p) (p_fitted p) (p_treatment p) (p_outcome p) treats (p_learners p) (p_last p));
  mdo p <- mget;
  mdo _ <- mlift (match g_treatment a with [] => Err AssertionError | _ => Ok tt end);
  mdo ls <- mlift (mapX (copy_and_fit (p_base p) (g_data a) (g_kw a) (g_outcome a) (g_treatment a)) (permute treats));
  mset (fun p => mkPerm (p_base p) true (p_treatment p) (p_outcome p) (p_treats p) ls (p_last p)).

(** learners_[(treat, control)] *)
Definition key_eqb (a b : targ * targ) : bool := targ_eqb (fst a) (fst b) && targ_eqb (snd a) (snd b).
Fixpoint find_learner (ls : list ((targ * targ) * St)) (k : targ * targ) : option St :=
  match ls with [] => None | (k', s) :: r => if key_eqb k k' then Some s else find_learner r k end.
Fixpoint put_learner (ls : list ((targ * targ) * St)) (k : targ * targ) (s : St) : list ((targ * targ) * St) :=
  match ls with [] => [] | (k', s') :: r => if key_eqb k k' then (k', s) :: r else (k', s') :: put_learner r k s end.

(** the last / first values of all treatments *)
Definition default_of (first : bool) (treats : list (list label)) : res targ :=
  do g <- mapX (fun l => match l with [] => Err IndexError | v :: r => Ok (if first then v else last r v) end) treats;
  Ok match g with [v] => TVal v | _ => TList g end.
Definition hashable (a : targ) : bool := match a with TArr1 _ | TArr2 _ => false | _ => true end.

(** _permuted.py:124-155 _get_learner: the key and whether the sign is +1; None: no such pair.  An array as treat or control
    is not hashable (TypeError). *)
Definition get_learner (p : perm) (treat control : targ) : res (option ((targ * targ) * bool * St)) :=
  if negb (p_fitted p) then Err AssertionError
  else
    do t <- match treat with TNone => default_of false (p_treats p) | _ => Ok treat end;
    do c <- match control with TNone => default_of true (p_treats p) | _ => Ok control end;
    if negb (hashable t && hashable c) then Err TypeError
    else match find_learner (p_learners p) (t, c) with
         | Some s => Ok (Some ((t, c), true, s))
         | None => match find_learner (p_learners p) (c, t) with
                   | Some s => Ok (Some ((c, t), false, s))
                   | None => Ok None
                   end
         end.

Definition neg_nd (a : nd R) : nd R := mkNd (nd_shape a) (fun i => (nd_at a i * -1)%R).

(** run a method of the learner stored under a key *)
Definition on_learner {A} (k : targ * targ) (s : St) (m : M St A) : M perm A :=
  fun p => let (s', r) := m s in
           (mkPerm (p_base p) (p_fitted p) (p_treatment p) (p_outcome p) (p_treats p) (put_learner (p_learners p) k s') (p_last p), r).

(** _permuted.py:198-203: one treatment in a list *)
Definition unwrap (treatment : list string) (a : targ) : res targ :=
  match treatment, a with
  | [_], TList (x :: _) => Ok (TVal x)
  | [_], TList [] => Err IndexError
  | _, _ => Ok a
  end.

(** _permuted.py:196-219 estimate; control is unwrapped first; 24-36 _default_estimate_options *)
Definition perm_estimate (data : option Frame) (treat control : targ) (target : option label) (q : quantity) : M perm (nd R) :=
  mdo p <- mget;
  mdo tm <- mlift (match p_treatment p with Some l => Ok l | None => Err TypeError end);
  mdo c <- mlift (unwrap tm control);
  mdo t <- mlift (unwrap tm treat);
  mdo g <- mlift (get_learner p t c);
  match g with
  | None => mlift (Err ValueError)
  | Some (k, pos, s) =>
      let opt := if disc_out
                 then match target with
                      | Some cl => Some cl
                      | None => if b_target B then match b_classes B s with Some (c0 :: cs) => Some (last (c0 :: cs) c0) | _ => None end else None
                      end
                 else None in
      mdo e <- on_learner k s (b_estimate B data q opt);
      mdo _ <- mset (fun p => mkPerm (p_base p) (p_fitted p) (p_treatment p) (p_outcome p) (p_treats p) (p_learners p) (Some (t, c)));
      mret (if pos then e else neg_nd e)
  end.

(** effect[:, lo:lo+1, :] and effect[:, :, lo:lo+1] *)
Definition pick1 (lo : nat) (a : nd R) : nd R :=
  match nd_shape a with
  | [n; _; x] => mkNd [n; 1; x] (fun idx => match idx with i :: j :: r => nd_at a (i :: (lo + j) :: r) | _ => 0%R end)
  | _ => a
  end.
Definition pick2 (lo : nat) (a : nd R) : nd R :=
  match nd_shape a with
  | [n; y; _] => mkNd [n; y; 1] (fun idx => match idx with i :: j :: k :: r => nd_at a (i :: j :: (lo + k) :: r) | _ => 0%R end)
  | _ => a
  end.
(** np.all(effect[:, :, 1:] == 0) for two columns *)
Definition zero_col1 (a : nd R) : bool :=
  match nd_shape a with
  | [n; y; _] => forallb (fun i => forallb (fun j => if Req_EM_T (nd_at a [i; j; 1]) 0 then true else false) (seq 0 y)) (seq 0 n)
  | _ => true
  end.

(** _permuted.py:45-79 _effect_nji without the call of the learner: what is made of its effect *)
Definition shape_effect (y_count : nat) (classes : option (list label)) (target : option label) (pos : bool) (e : nd R) : res (nd R) :=
  match nd_shape e with
  | [n; y; x] =>
      if negb (x =? 2) then Err AssertionError
      else
        do e1 <- match (if disc_out then classes else None) with
                 | Some cs =>
                     if negb (y =? length cs) then Err AssertionError
                     else match target with
                          | Some cl => match index_of cl cs with Some i => Ok (pick1 i e) | None => Err IndexError end
                          | None => Ok (pick1 (length cs - 1) e)
                          end
                 | None => if negb (y =? y_count) then Err AssertionError else Ok e
                 end;
        let e2 := if zero_col1 e1 then pick2 0 e1 else pick2 1 e1 in
        Ok (if pos then e2 else neg_nd e2)
  | _ => Err AssertionError
  end.

(** one task of effect_nji.  [keep]: the task runs in this process, so the learner's new state stays *)
Definition task (keep : bool) (data : option Frame) (control : targ) (target : option label) (treat : targ) : M perm (nd R) :=
  mdo p <- mget;
  mdo g <- mlift (get_learner p treat control);
  let yc := length (p_outcome p) in
  if targ_eqb treat control
  then mlift (match data with
              | Some d => Ok (mkNd [fr_len d; yc; yc] (fun _ => 0%R))
              | None => Err TypeError
              end)
  else match g with
       | None => mlift (Err AssertionError)
       | Some (k, pos, s) =>
           mdo e <- (fun p => let (p', r) := on_learner k s (b_nji B data) p in (if keep then p' else p, r));
           mlift (shape_effect yc (b_classes B s) target pos e)
       end.

(** np.concatenate(arrays, axis=2) of 3-d arrays *)
Fixpoint cat2_at (l : list (nd R)) (i j k : nat) : R :=
  match l with
  | [] => 0%R
  | a :: r => let w := nth 2 (nd_shape a) 0 in if k <? w then nd_at a [i; j; k] else cat2_at r i j (k - w)
  end.
Definition concat2 (l : list (nd R)) : res (nd R) :=
  match l with
  | [] => Err ValueError
  | a :: _ =>
      let ny := firstn 2 (nd_shape a) in
      if forallb (fun b => list_eqb (firstn 2 (nd_shape b)) ny && (length (nd_shape b) =? 3)) l
      then Ok (mkNd (ny ++ [fold_right plus 0 (map (fun b => nth 2 (nd_shape b) 0) l)])
                    (fun idx => match idx with i :: j :: k :: _ => cat2_at l i j k | _ => 0%R end))
      else Err ValueError
  end.

Fixpoint mapM {A C S} (f : A -> M S C) (l : list A) : M S (list C) :=
  match l with [] => mret [] | x :: r => mdo y <- f x; mdo ys <- mapM f r; mret (y :: ys) end.

(** _permuted.py:221-255 effect_nji; [keep]: n_jobs is None, 0 or 1 *)
Definition perm_effect_nji (keep : bool) (data : option Frame) (control : targ) (target : option label) : M perm (nd R) :=
  mdo p <- mget;
  mdo tm <- mlift (match p_treatment p with Some l => Ok l | None => Err TypeError end);
  mdo c0 <- mlift (match control with TNone => default_of true (p_treats p) | _ => Ok control end);
  mdo c <- mlift (unwrap tm c0);
  mdo es <- mapM (task keep data c target) (combos (p_treats p));
  mlift (concat2 es).

(** _permuted.py:261-268 the property treat *)
Definition perm_treat : M perm targ :=
  mdo p <- mget;
  mlift (match p_last p with
         | None => Err ValueError
         | Some (t, c) => do g <- get_learner p t c;
                          match g with Some (_, _, s) => b_treat B s | None => Err ValueError end
         end).
End Perm.

(** *** SLearner as the wrapped learner *)
(** a data frame as the learners see it: columns of treatments, covariates (get_wv of adjustment and covariate), outcomes *)
Record pframe := mkPF { pf_cols : list (string * list label); pf_wv : option (list row); pf_y : list row }.
Fixpoint pf_find (l : list (string * list label)) (c : string) : res (list label) :=
  match l with [] => Err KeyError | (d, v) :: r => if String.eqb c d then Ok v else pf_find r c end.
Definition pf_col (f : pframe) : string -> res (list label) := pf_find (pf_cols f).
Definition pf_len (f : pframe) : nat := length (pf_y f).
(** the rows of the treatment columns *)
Definition pf_x (f : pframe) (treatment : list string) : res (list (list label)) :=
  do cs <- mapX (pf_col f) treatment; Ok (map (fun r => map (fun c => nth r c (LInt 0)) cs) (seq 0 (length (pf_y f)))).

(** the covariates of a data argument; a frame without the covariate columns is a KeyError *)
Definition pf_query (f : option pframe) : res (option (list row)) :=
  match f with
  | None => Ok None
  | Some f => match pf_wv f with Some w => Ok (Some w) | None => Err KeyError end
  end.

(** meta_learner.py:142-233, 235-308: SLearner with combined treatments *)
Definition s_learner (L : learner) (c : config) : blearner pframe unit :=
  @mkBL pframe unit (slearner L)
    (fun f _ _ treatment t k =>
       mdo x <- mlift (pf_x f treatment);
       sl_fit L c (mkFitArgs x (pf_wv f) (pf_y f) t k true))
    (fun f q target => mdo d <- mlift (pf_query f); sl_estimate L c d q target)
    (fun f => mdo d <- mlift (pf_query f); sl_effect_nji L c d)
    (fun s => match s_model s with Some m => l_classes L m | None => None end)
    true
    (fun s => match s_treat s with Some t => Ok t | None => Err AttributeError end).
