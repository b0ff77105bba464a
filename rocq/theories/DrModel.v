(** Model of ylearn/estimator_model/doubly_robust.py: _YModelWrapper and DoublyRobust.  The three machine-learning
    models are parameters; numbers are exact reals; arrays of shape (n, y_d, x_d) are functions of three indices. *)
From Coq Require Import ZArith Reals.
From Verif Require Import Base ApiModel EstUtilsModel MetaModel CrossFitModel.
Unset Implicit Arguments.
Local Notation length := List.length.

(** doubly_robust.py:381-424 comp_transormer: encoders are made unless they exist *)
Definition dr_comp (x : list (list label)) (categories : option (list (list label))) : M encs (list (list Z)) :=
  mdo xc <- (if 1 <? width x
             then mdo e <- mget;
                  mdo cats <- (match e_ord e with
                               | None => mdo c <- make_ord categories x; mret (Some c)
                               | Some _ => mret categories
                               end);
                  mdo x1 <- combine_labels x;
                  mret (x1, cats)
             else mret (x, categories));
  let '(x1, cats) := xc in
  mdo e <- mget;
  mdo _ <- (match e_oh e with None => make_oh cats x1 | Some _ => mret tt end);
  apply_oh x1.

(** doubly_robust.py:33-34: the treatment block for the prediction under treatment i.  The line [x[:, i] == 1] is a
    comparison whose result is dropped, so the block stays zero for every i *)
Definition x_block (x_d i : nat) : row := repeat 0%R x_d.

(** doubly_robust.py:28-38 _YModelWrapper.predict: entry (r, j, i) *)
Definition yw_predict (Ly : learner) (m : Mdl Ly) (x_d y_d : nat) (wvx : list row)
  : res (nat -> nat -> nat -> R) :=
  let wv := map (fun r => firstn (length r - x_d) r) wvx in
  do cols <- mapX (fun i => as_n_yd (length wv) y_d (predict Ly m (map (fun w => w ++ x_block x_d i) wv))) (seq 0 x_d);
  Ok (fun r j i => nd_at (nth i cols (mkNd [] (fun _ => 0%R))) [r; j]).

(** the target of the outcome model, y.squeeze()[ids] (at least two rows) *)
Definition y_rows (ids : list nat) (y : list row) : nd R :=
  let t := nd_rows (take_rows [] ids y) in
  if width y =? 1 then mkNd [length ids] (fun idx => nd_at t [nth 0 idx 0; 0])
  else mkNd [length ids; width y] (nd_at t).

(** doubly_robust.py:546-591 _cross_fit of the treatment model.  Without folds: fit and predict_proba on all rows, then
    .reshape(x.shape) in fit (line 287), which fails unless there is one class per treatment.  With folds: the
    probabilities of each test fold are stored in (n, x_d); an array with one column is broadcast (one class in the
    training fold), any other number of columns is a ValueError.  Entries never written are NaN (here 0; CrossFit
    theorems show every row is written). *)
Definition dr_cross_x (Lx : learner) (wv : list row) (label : list R) (x_d cf : nat) : res (nat -> nat -> R) :=
  if cf <=? 1 then
    do m <- l_fit Lx wv (nd_vec label);
    let p := predict_proba Lx m wv in
    if n_classes Lx m =? x_d then Ok (fun r i => nd_at p [r; i]) else Err ValueError
  else
    do folds <- kfold (length wv) cf;
    fold_left (fun acc f =>
      do out <- acc;
      do m <- l_fit Lx (take_rows [] (fst f) wv) (nd_vec (take_rows 0%R (fst f) label));
      let p := predict_proba Lx m (take_rows [] (snd f) wv) in
      if n_classes Lx m =? x_d then Ok (put_rows out (snd f) (fun r i => nd_at p [r; i]))
      else if n_classes Lx m =? 1 then Ok (put_rows out (snd f) (fun r i => nd_at p [r; 0]))
      else Err ValueError) folds (Ok (fun _ _ => 0%R)).

(** doubly_robust.py:546-591 _cross_fit of the wrapped outcome model on (wv, x) *)
Definition dr_cross_y (Ly : learner) (wvx y : list row) (x_d cf : nat) : res (nat -> nat -> nat -> R) :=
  if cf <=? 1 then
    do m <- l_fit Ly wvx (squeeze (nd_rows y));
    yw_predict Ly m x_d (width y) wvx
  else
    do folds <- kfold (length y) cf;
    fold_left (fun acc f =>
      do out <- acc;
      do m <- l_fit Ly (take_rows [] (fst f) wvx) (y_rows (fst f) y);
      do h <- yw_predict Ly m x_d (width y) (take_rows [] (snd f) wvx);
      Ok (put_rows out (snd f) h)) folds (Ok (fun _ _ _ => 0%R)).

(** doubly_robust.py:290-300: the pseudo outcomes; x is the one-hot matrix *)
Definition dr_prime (x : list (list Z)) (y : list row) (p : nat -> nat -> R) (h : nat -> nat -> nat -> R)
  : nat -> nat -> nat -> R :=
  fun r j i => (h r j i + (nth j (nth r y []) 0 - h r j i) * (if (nth i (nth r x []) 0 =? 1)%Z then 1 else 0)
                          / (p r i + 1 / 100000))%R.

(** _final_result *)
Inductive dr_final (Lf : learner) :=
  | FEffect (n : nat) (f : nat -> nat -> nat -> R)
  | FModels (ms : list (Mdl Lf)).
Arguments FEffect {Lf} n f. Arguments FModels {Lf} ms.

(** a DoublyRobust object: encoders, covariates of the training data, whether covariates were named at fit, sizes,
    whether the first stage has been fitted, the final result, the codes of treat and control *)
Record dr (Lf : learner) := mkDR {
  d_enc : encs; d_v : option (list row); d_cov : bool; d_xd : nat; d_yd : nat; d_first : bool;
  d_final : option (dr_final Lf); d_treat : option Z; d_control : option Z }.
Arguments d_enc {Lf} _. Arguments d_v {Lf} _. Arguments d_cov {Lf} _. Arguments d_xd {Lf} _. Arguments d_yd {Lf} _.
Arguments d_first {Lf} _. Arguments d_final {Lf} _. Arguments d_treat {Lf} _. Arguments d_control {Lf} _.

(** doubly_robust.py:157-204 __init__ *)
Definition dr_new (Lf : learner) : dr Lf := mkDR Lf no_encs None false 0 0 false None None None.

Definition dr_enc {Lf : learner} {A} (m : M encs A) : M (dr Lf) A :=
  fun s => let (e, r) := m (d_enc s) in
           (mkDR Lf e (d_v s) (d_cov s) (d_xd s) (d_yd s) (d_first s) (d_final s) (d_treat s) (d_control s), r).
Definition dr_begin {Lf : learner} v (s : dr Lf) : dr Lf :=
  mkDR Lf (d_enc s) v (match v with Some _ => true | None => false end) (d_xd s) (d_yd s) (d_first s) (d_final s) (d_treat s) (d_control s).
Definition dr_dims {Lf : learner} xd yd (s : dr Lf) : dr Lf :=
  mkDR Lf (d_enc s) (d_v s) (d_cov s) xd yd (d_first s) (d_final s) (d_treat s) (d_control s).
Definition dr_first_done {Lf : learner} (s : dr Lf) : dr Lf :=
  mkDR Lf (d_enc s) (d_v s) (d_cov s) (d_xd s) (d_yd s) true (d_final s) (d_treat s) (d_control s).
Definition dr_codes {Lf : learner} t c (s : dr Lf) : dr Lf :=
  mkDR Lf (d_enc s) (d_v s) (d_cov s) (d_xd s) (d_yd s) (d_first s) (d_final s) (Some t) (Some c).
Definition dr_result {Lf : learner} f (s : dr Lf) : dr Lf :=
  mkDR Lf (d_enc s) (d_v s) (d_cov s) (d_xd s) (d_yd s) (d_first s) (Some f) (d_treat s) (d_control s).

(** one call of fit: treatment columns, adjustment and covariate columns, outcomes, treat, control *)
Record drargs := mkDrArgs { a_x : list (list label); a_w : option (list row); a_v : option (list row); a_y : list row;
                            a_treat : targ; a_control : targ }.

(** doubly_robust.py:206-321 fit with 474-501 _fit_1st_stage and 503-544 _fit_2nd_stage *)
Definition dr_fit (Lx Ly Lf : learner) (categories : option (list (list label))) (cf : nat) (a : drargs) : M (dr Lf) unit :=
  match a_w a, a_v a with
  | None, None => mlift (Err AssertionError)
  | _, _ =>
      mdo _ <- mset (dr_begin (a_v a));
      mdo x <- dr_enc (dr_comp (a_x a) categories);
      let x_d := width x in
      mdo _ <- mset (dr_dims x_d (width (a_y a)));
      mdo wv <- mlift (get_wv [a_w a; a_v a]);
      mdo wvx <- mlift (hcat [wv; to_rows x]);
      mdo p <- mlift (dr_cross_x Lx wv (map IZR (convert4onehot x)) x_d cf);
      mdo h <- mlift (dr_cross_y Ly wvx (a_y a) x_d cf);
      mdo _ <- mset dr_first_done;
      let y' := dr_prime x (a_y a) p h in
      mdo c <- dr_enc (get_tr_ctrl (a_control a) (fun v => dr_comp v None) false);
      mdo t <- dr_enc (get_tr_ctrl (a_treat a) (fun v => dr_comp v None) true);
      mdo _ <- mset (dr_codes t c);
      let eff := fun r j i => (y' r j i - y' r j (Z.to_nat c))%R in
      mdo f <- (match a_v a with
                | None => mret (FEffect (length x) eff)
                | Some v =>
                    mdo ms <- mlift (mapX (fun i => l_fit Lf v (squeeze (mkNd [length x; width (a_y a)]
                                                     (fun idx => eff (nth 0 idx 0) (nth 1 idx 0) i)))) (seq 0 x_d));
                    mret (FModels ms)
                end);
      mset (dr_result f)
  end.

(** the effects (n, y_d, x_d): doubly_robust.py:441-461.  [data]: the covariate columns of the data argument, looked up
    by the covariate names of the last fit (none without covariates). *)
Definition dr_effects (Lf : learner) (data : option (list row)) : M (dr Lf) (nd R) :=
  mdo s <- mget;
  mdo f <- attr (d_final s);
  if negb (d_first s) then mlift (Err AssertionError (* raise Exception *))
  else
    let v := match data with None => d_v s | Some d => if d_cov s then Some d else None end in
    match v with
    | None => match f with
              | FEffect n e => mret (mkNd [n; d_yd s; d_xd s] (fun idx => e (nth 0 idx 0) (nth 1 idx 0) (nth 2 idx 0)))
              | FModels _ => mlift (Err TypeError)
              end
    | Some v =>
        match f with
        | FEffect _ _ => mlift (Err IndexError)
        | FModels ms =>
            mdo cols <- mlift (mapX (fun i => match nth_error ms i with
                                              | Some m => as_n_yd (length v) (d_yd s) (predict Lf m v)
                                              | None => Err IndexError
                                              end) (seq 0 (d_xd s)));
            mret (mkNd [length v; d_yd s; d_xd s]
                       (fun idx => nd_at (nth (nth 2 idx 0) cols (mkNd [] (fun _ => 0%R))) [nth 0 idx 0; nth 1 idx 0]))
        end
    end.

(** a[:, :, t] *)
Definition at_treat (t : Z) (a : nd R) : res (nd R) :=
  match nd_shape a with
  | [n; y; x] => if ((0 <=? t) && (t <? Z.of_nat x))%Z
                 then Ok (mkNd [n; y] (fun idx => nd_at a [nth 0 idx 0; nth 1 idx 0; Z.to_nat t])) else Err IndexError
  | _ => Err IndexError
  end.

(** doubly_robust.py:441-472 _prepare4est *)
Definition dr_prepare (Lf : learner) (data : option (list row)) (all_tr : bool) (treat : targ) : M (dr Lf) (nd R) :=
  mdo e <- dr_effects Lf data;
  if all_tr then mret e
  else match treat with
       | TNone => mdo s <- mget; mdo t <- attr (d_treat s); mlift (at_treat t e)
       | _ => mdo t <- dr_enc (get_tr_ctrl treat (fun v => dr_comp v None) true); mlift (at_treat t e)
       end.

(** doubly_robust.py:323-379 estimate *)
Definition dr_estimate (Lf : learner) (data : option (list row)) (q : quantity) (all_tr : bool) (treat : targ)
  : M (dr Lf) (nd R) :=
  mdo e <- dr_prepare Lf data all_tr treat;
  match q with QNone => mret e | QATE => mlift (mean0 e) end.

(** doubly_robust.py:430-439 effect_nji: the zero column comes first if treat > control, else last *)
Definition dr_effect_nji (Lf : learner) (data : option (list row)) : M (dr Lf) (nd R) :=
  mdo e <- dr_prepare Lf data false TNone;
  mdo s <- mget;
  mdo t <- attr (d_treat s);
  mdo c <- attr (d_control s);
  mlift (match nd_shape e with
         | n :: _ =>
             let zero := if (c <? t)%Z then 0 else 1 in
             Ok (mkNd [n; d_yd s; 2] (fun idx => if nth 2 idx 0 =? zero then 0%R else nd_at e [nth 0 idx 0; nth 1 idx 0]))
         | [] => Err ValueError
         end).
