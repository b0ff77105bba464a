(** Specification for DataCleaner. *)
From Coq Require Import ZArith QArith Qcanon String.
From Verif Require Import Base EstUtilsModel MetaModel CleanModel.
Set Implicit Arguments.
Local Notation length := List.length.
Local Open Scope nat_scope.

(** a data frame: columns with different names, all of one length *)
Definition wf (f : frame) : Prop := NoDup (map k_name (f_cols f)) /\ Forall (fun c => length (k_cells c) = f_rows f) (f_cols f).

(** two cells hold the same value (True is 1) *)
Definition same_value (a b : cell) : Prop :=
  a = b \/ match a, b with CBool p, CNum q | CNum q, CBool p => q = (if p then 1 else 0)%Qc | _, _ => False end.
(** a column holds n different values besides NaN *)
Definition ndistinct (l : list cell) (n : nat) : Prop :=
  exists reps, length reps = n /\ (forall i j, i < j < n -> ~ same_value (nth i reps CNaN) (nth j reps CNaN)) /\
    (forall v, In v l -> v <> CNaN -> exists r, In r reps /\ same_value v r) /\ (forall r, In r reps -> r <> CNaN /\ exists v, In v l /\ same_value v r).

(** the columns a first fit_transform drops from a frame whose rows all count: named in drop_columns; equal to an earlier column; more than 99 % different
    values in a column that is not of floats; no two different values.  Reserved columns are only dropped by name. *)
Definition drops (p : cparams) (drop : option (list string)) (before : list column) (rows : nat) (c : column) : Prop :=
  (exists l, drop = Some l /\ In (k_name c) l) \/
  (~ (exists l, c_reserve p = Some l /\ In (k_name c) l) /\
   ((c_dup p = true /\ exists d, In d before /\ (forall l, drop = Some l -> ~ In (k_name d) l) /\ Forall2 same_value (k_cells d) (k_cells c)) \/
    (c_id p = true /\ k_type c <> DFloat /\ exists n, ndistinct (k_cells c) n /\ 99 * rows < 100 * n) \/
    (c_const p = true /\ (ndistinct (k_cells c) 0 \/ ndistinct (k_cells c) 1)))).

(** the column of a name *)
Definition has_col (f : frame) (n : string) (c : column) : Prop := In c (f_cols f) /\ k_name c = n.

(** a cell after nan_chars; after the infinities are replaced *)
Definition nanned (p : cparams) (v : cell) : cell :=
  match c_nan_chars p, v with Some l, CStr s => if in_dec string_dec s l then CNaN else v | _, _ => v end.
Definition infd (p : cparams) (v : cell) : cell := match c_inf p, v with Some r, CInf _ => r | _, _ => v end.

(** the rows that count: all, or those whose label is not NaN *)
Definition labelled (p : cparams) (n : nat) (y : option (dtype * list cell)) (idx : list nat) : Prop :=
  (forall i j, i < j < length idx -> nth i idx 0 < nth j idx 0) /\
  forall i, In i idx <-> i < n /\ (c_label_nan p = true -> forall d v, y = Some (d, v) -> nanned p (nth i v CNaN) <> CNaN).
Definition at_rows (p : cparams) (idx : list nat) (c : column) : column :=
  mkCol (k_name c) (k_type c) (map (fun i => nanned p (nth i (k_cells c) CNaN)) idx).
Definition label_at (p : cparams) (idx : list nat) (y : option (dtype * list cell)) : option (dtype * list cell) :=
  option_map (fun dv => (fst dv, map (fun i => nanned p (nth i (snd dv) CNaN)) idx)) y.

(** what becomes of a column that is kept by fit_transform *)
Definition is_reserved (p : cparams) (n : string) : Prop := exists l, c_reserve p = Some l /\ In n l.
Definition col_out (parse : string -> option cell) (show : cell -> string) (p : cparams) (c c' : column) : Prop :=
  k_name c' = k_name c /\
  (is_reserved p (k_name c) \/ k_type c = DFloat \/ k_type c = DBool \/ k_type c = DCat \/ (k_type c = DInt /\ c_int p = None) ->
     k_type c' = k_type c /\ k_cells c' = map (infd p) (k_cells c)) /\
  (~ is_reserved p (k_name c) -> k_type c = DInt ->
     (c_int p = Some ToFloat -> k_type c' = DFloat /\ k_cells c' = k_cells c) /\
     (c_int p = Some ToStr -> k_type c' = DObj /\ k_cells c' = map (fun v => CStr (show v)) (k_cells c))) /\
  (~ is_reserved p (k_name c) -> k_type c = DObj ->
     (c_correct p = true -> forall fv, Forall2 (fun v w => to_float parse v = Ok w) (map (infd p) (k_cells c)) fv -> k_type c' = DFloat /\ k_cells c' = fv) /\
     (c_correct p = false \/ (exists s, In (CStr s) (k_cells c) /\ parse s = None) -> k_type c' = DObj /\ k_cells c' = map (fun v => CStr (show (infd p v))) (k_cells c))).
(** integer columns hold numbers; y has as many rows as X; no column has the name under which y is put into the frame *)
Definition ints_ok (f : frame) : Prop := forall c, In c (f_cols f) -> k_type c = DInt -> forall v, In v (k_cells c) -> exists q, v = CNum q.
Definition good_input (x : frame) (y : option (dtype * list cell)) : Prop :=
  wf x /\ ints_ok x /\ ~ In y_name (map k_name (f_cols x)) /\ forall d v, y = Some (d, v) -> length v = f_rows x.

(** float columns hold floats, and infinities are replaced by a float *)
Definition is_float (v : cell) : Prop := match v with CNaN | CInf _ | CNum _ => True | _ => False end.
Definition floats_ok (p : cparams) (f : frame) : Prop :=
  (forall c, In c (f_cols f) -> k_type c = DFloat -> forall v, In v (k_cells c) -> is_float v) /\ forall r, c_inf p = Some r -> is_float r.
(** what becomes of a column that transform keeps and that had type d after fit_transform; correct_object_dtype is set *)
Definition tr_out (parse : string -> option cell) (parse_int : string -> option Z) (show : cell -> string) (p : cparams) (d : dtype) (c c' : column) : Prop :=
  k_name c' = k_name c /\
  (d = DFloat -> forall fv, Forall2 (fun v w => to_float parse v = Ok w) (map (infd p) (k_cells c)) fv -> k_type c' = DFloat /\ k_cells c' = fv) /\
  (d = DFloat -> k_type c = DObj -> ~ is_reserved p (k_name c) -> (exists s, In (CStr s) (k_cells c) /\ parse s = None) ->
     k_type c' = DObj /\ k_cells c' = map (fun v => CStr (show (infd p v))) (k_cells c)) /\
  (d = DObj -> ~ is_reserved p (k_name c) -> k_type c' = DObj /\ k_cells c' = map (fun v => CStr (show (infd p v))) (k_cells c)) /\
  (d = DInt -> is_reserved p (k_name c) \/ c_int p = None -> forall iv, Forall2 (fun v w => if dtype_eqb (k_type c) DInt then w = v else to_int parse_int v = Ok w) (map (infd p) (k_cells c)) iv ->
     k_type c' = DInt /\ k_cells c' = iv) /\
  (d = k_type c -> is_reserved p (k_name c) \/ d = DFloat \/ d = DBool \/ d = DCat -> k_type c' = d /\ k_cells c' = map (infd p) (k_cells c)).

(** calls after the fit *)
Inductive op := OTransform (copy_data : bool) (x : frame) (y : option (dtype * list cell)) | OAppendDrop (cols : list string).
Definition appended (ops : list op) : list string := flat_map (fun o => match o with OAppendDrop l => l | _ => [] end) ops.
