(** Model of ylearn/sklearn_ex/_data_cleaner.py (DataCleaner and _CleanerHelper).
    A frame has named columns of one type each; rows are taken by position (no pandas index).  Left out: reduce_mem_usage
    (False by default), date and time columns, None (only NaN), the type inference of DataFrame.replace. *)
From Coq Require Import ZArith QArith Qcanon String.
From Verif Require Import Base EstUtilsModel MetaModel.
Set Implicit Arguments.
Local Notation length := List.length.
Local Open Scope nat_scope.

Inductive cell := CNaN | CInf (pos : bool) | CNum (q : Qc) | CStr (s : string) | CBool (b : bool).
(** str(dtype): object, int64, float64, bool, category *)
Inductive dtype := DObj | DInt | DFloat | DBool | DCat.
Record column := mkCol { k_name : string; k_type : dtype; k_cells : list cell }.
Record frame := mkF { f_rows : nat; f_cols : list column }.

Definition dtype_eqb (a b : dtype) : bool :=
  match a, b with DObj, DObj | DInt, DInt | DFloat, DFloat | DBool, DBool | DCat, DCat => true | _, _ => false end.
Definition cell_eqb (a b : cell) : bool :=
  match a, b with
  | CNaN, CNaN => true
  | CInf p, CInf q => Bool.eqb p q
  | CNum p, CNum q => Qc_eq_bool p q
  | CStr s, CStr t => String.eqb s t
  | CBool p, CBool q => Bool.eqb p q
  | _, _ => false
  end.
(** hash equality of values: True and 1 are the same *)
Definition key (c : cell) : cell := match c with CBool b => CNum (if b then 1 else 0)%Qc | _ => c end.
Fixpoint keys_eqb (a b : list cell) : bool :=
  match a, b with [], [] => true | x :: a', y :: b' => cell_eqb (key x) (key y) && keys_eqb a' b' | _, _ => false end.

Definition inb (s : string) (l : list string) : bool := existsb (String.eqb s) l.
Definition names (f : frame) : list string := map k_name (f_cols f).
Definition of_type (ds : list dtype) (f : frame) : list string :=
  map k_name (filter (fun c => existsb (dtype_eqb (k_type c)) ds) (f_cols f)).
Definition find_col (n : string) (f : frame) : option column := find (fun c => String.eqb n (k_name c)) (f_cols f).
(** X[[...]] *)
Definition select (ns : list string) (f : frame) : res frame :=
  do cs <- mapX (fun n => match find_col n f with Some c => Ok c | None => Err KeyError end) ns; Ok (mkF (f_rows f) cs).
Definition map_cols (g : column -> column) (f : frame) : frame := mkF (f_rows f) (map g (f_cols f)).
Definition on_cells (g : cell -> cell) (c : column) : column := mkCol (k_name c) (k_type c) (map g (k_cells c)).

Section Clean.
(** float(s), int(s) of a string; str of a value *)
Variable parse : string -> option cell.
Variable parse_int : string -> option Z.
Variable show : cell -> string.

Definition to_float (c : cell) : res cell :=
  match c with
  | CStr s => match parse s with Some v => Ok v | None => Err ValueError end
  | CBool b => Ok (CNum (if b then 1 else 0)%Qc)
  | _ => Ok c
  end.
Definition trunc (q : Qc) : Qc := Q2Qc (inject_Z (Z.quot (Qnum (this q)) (Zpos (Qden (this q))))).
Definition to_int (c : cell) : res cell :=
  match c with
  | CNaN | CInf _ => Err ValueError
  | CNum q => Ok (CNum (trunc q))
  | CStr s => match parse_int s with Some z => Ok (CNum (Q2Qc (inject_Z z))) | None => Err ValueError end
  | CBool b => Ok (CNum (if b then 1 else 0)%Qc)
  end.
Definition truth (c : cell) : cell :=
  match c with CNum q => CBool (negb (Qc_eq_bool q 0%Qc)) | CStr s => CBool (negb (String.eqb s "")) | CBool b => CBool b | _ => CBool true end.
(** Series.astype *)
Definition astype (d : dtype) (c : column) : res column :=
  match d with
  | DObj => Ok (mkCol (k_name c) DObj (k_cells c))
  | DFloat => do v <- mapX to_float (k_cells c); Ok (mkCol (k_name c) DFloat v)
  | DInt => do v <- mapX to_int (k_cells c); Ok (mkCol (k_name c) DInt v)
  | DBool => Ok (mkCol (k_name c) DBool (map truth (k_cells c)))
  | DCat => Ok (mkCol (k_name c) DCat (k_cells c))
  end.
(** astype('str') *)
Definition as_str (c : column) : column := mkCol (k_name c) DObj (map (fun v => CStr (show v)) (k_cells c)).

Inductive itype := ToFloat | ToStr.
(** the constructor's parameters, except drop_columns, which append_drop_columns changes *)
Record cparams := mkCP { c_nan_chars : option (list string); c_correct : bool; c_const : bool; c_label_nan : bool; c_id : bool;
                         c_inf : option cell; c_reserve : option (list string); c_dup : bool; c_int : option itype }.
(** attributes: drop_columns, df_meta_, columns_, dropped_constant_columns_, dropped_idness_columns_, dropped_duplicated_columns_ *)
Record cst := mkCS { s_drop : option (list string); s_meta : option (list (dtype * list string)); s_cols : option (list string);
                     s_const : option (list string); s_id : option (list string); s_dup : option (list string) }.
Definition cl_new (drop : option (list string)) : cst := mkCS drop None None None None None.

Definition reserved (p : cparams) (n : string) : bool := match c_reserve p with Some l => inb n l | None => false end.

(** the frame being cleaned; [w_same]: it still is the caller's object; [w_caller]: the caller's object *)
Record work := mkW { w_cur : frame; w_same : bool; w_caller : frame }.
Definition in_place (g : frame -> frame) (w : work) : work :=
  let x := g (w_cur w) in mkW x (w_same w) (if w_same w then x else w_caller w).
Definition fresh (x : frame) (w : work) : work := mkW x false (w_caller w).

(** _data_cleaner.py:178-183 _drop_columns; keeping [c not in cols] *)
Definition without (cols : list string) (f : frame) : frame := mkF (f_rows f) (filter (fun c => negb (inb (k_name c) cols)) (f_cols f)).
Definition drop_cols (cols : list string) (w : work) : work :=
  match cols with [] => w | _ => fresh (without cols (w_cur w)) w end.

(** df.T.duplicated(): equal to an earlier column (_data_cleaner.py:130-132) *)
Fixpoint dup_names (seen : list column) (cs : list column) : list string :=
  match cs with
  | [] => []
  | c :: r => (if existsb (fun d => keys_eqb (k_cells d) (k_cells c)) seen then [k_name c] else []) ++ dup_names (seen ++ [c]) r
  end.
(** df.nunique(dropna=True) (_data_cleaner.py:126-128) *)
Definition is_nan (c : cell) : bool := match c with CNaN => true | _ => false end.
Fixpoint count_new (seen : list cell) (l : list cell) : nat :=
  match l with
  | [] => 0
  | c :: r => if existsb (cell_eqb (key c)) seen then count_new seen r else S (count_new (key c :: seen) r)
  end.
Definition nunique (c : column) : nat := count_new [] (filter (fun v => negb (is_nan v)) (k_cells c)).

(** _data_cleaner.py:94-101, 103-109, 111-124 drop_duplicated_columns, drop_constant_columns, drop_idness_columns: the names they drop *)
Definition dup_cols (p : cparams) (f : frame) : list string := filter (fun n => negb (reserved p n)) (dup_names [] (f_cols f)).
Definition const_cols (p : cparams) (f : frame) : list string :=
  map k_name (filter (fun c => (nunique c <=? 1) && negb (reserved p (k_name c))) (f_cols f)).
(** n / rows > 0.99 *)
Definition id_cols (p : cparams) (f : frame) : res (list string) :=
  match filter (fun c => existsb (dtype_eqb (k_type c)) [DObj; DCat; DBool; DInt]) (f_cols f) with
  | [] => Ok []
  | cs => if f_rows f =? 0 then Err ZeroDivisionError
          else Ok (map k_name (filter (fun c => (99 * f_rows f <? 100 * nunique c) && negb (reserved p (k_name c))) cs))
  end.

Definition y_name : string := "__tabular-toolbox__Y__".
(** X[y_name] = y : replaces a column of this name or adds one at the end *)
Definition put_col (c : column) (f : frame) : frame :=
  mkF (f_rows f) (if inb (k_name c) (names f) then map (fun d => if String.eqb (k_name d) (k_name c) then c else d) (f_cols f) else f_cols f ++ [c]).
Definition pick {A} (keep : list bool) (l : list A) : list A := map snd (filter (fun p => fst p) (combine keep l)).
(** X.dropna(subset=[n]) *)
Definition dropna (n : string) (f : frame) : frame :=
  match find_col n f with
  | None => f
  | Some y => let keep := map (fun v => negb (is_nan v)) (k_cells y) in
              mkF (length (filter (fun b => b) keep)) (map (fun c => mkCol (k_name c) (k_type c) (pick keep (k_cells c))) (f_cols f))
  end.
Definition nan_char (chars : list string) (c : cell) : cell := match c with CStr s => if inb s chars then CNaN else c | _ => c end.
Definition rep_inf (v : cell) (c : cell) : cell := match c with CInf _ => v | _ => c end.

(** _data_cleaner.py:63-92 correct_object_dtype, _correct_object_dtype_as; a failing astype is logged and skipped *)
Definition try_type (d : dtype) (c : column) : column := match astype d c with Ok c' => c' | Err _ => c end.
Definition correct_as (d : dtype) (cols : list string) (f : frame) : res frame :=
  if forallb (fun n => inb n (names f)) cols
  then Ok (map_cols (fun c => if inb (k_name c) cols && negb (dtype_eqb (k_type c) d) then try_type d c else c) f)
  else Err KeyError.
Fixpoint correct_all (meta : list (dtype * list string)) (f : frame) : res frame :=
  match meta with [] => Ok f | (d, cols) :: r => do g <- correct_as d cols f; correct_all r g end.
Definition correct (p : cparams) (meta : option (list (dtype * list string))) (f : frame) : res frame :=
  match meta with
  | Some m => correct_all m f
  | None => correct_all [(DObj, []); (DFloat, filter (fun n => negb (reserved p n)) (of_type [DObj] f))] f
  end.

(** _data_cleaner.py:248-254 *)
Definition int_step (p : cparams) (c : column) : column :=
  match c_int p with
  | Some t => if dtype_eqb (k_type c) DInt && negb (reserved p (k_name c))
              then match t with ToFloat => try_type DFloat c | ToStr => as_str c end else c
  | None => c
  end.
(** _data_cleaner.py:256-261 *)
Definition obj_step (p : cparams) (c : column) : column :=
  if dtype_eqb (k_type c) DObj && negb (reserved p (k_name c)) then as_str c else c.

(** drop a remembered list of columns, or find and remember it (_data_cleaner.py:208-227) *)
Definition drop_step (on : bool) (get : cst -> option (list string)) (put : list string -> cst -> cst) (find : frame -> res (list string)) (w : work) : M cst work :=
  if on then
    mdo s <- mget;
    match get s with
    | Some l => mret (drop_cols l w)
    | None => mdo l <- mlift (find (w_cur w)); mdo _ <- mset (put l); mret (drop_cols l w)
    end
  else mret w.

(** _data_cleaner.py:185-267 clean_data *)
Definition clean_data (p : cparams) (meta : option (list (dtype * list string))) (x : work) (y : option (dtype * list cell)) : M cst (work * option (dtype * list cell)) :=
  mdo w <- mlift (match y with
                  | None => Ok x
                  | Some (d, v) => if negb (length v =? f_rows (w_cur x)) then Err ValueError else Ok (in_place (put_col (mkCol y_name d v)) x)
                  end);
  let w := match c_nan_chars p with None => w | Some cs => fresh (map_cols (on_cells (nan_char cs)) (w_cur w)) w end in
  let '(w, y) := match y with
                 | None => (w, None)
                 | Some _ =>
                     let w := if c_label_nan p then fresh (dropna y_name (w_cur w)) w else w in
                     (in_place (without [y_name]) w, option_map (fun c => (k_type c, k_cells c)) (find_col y_name (w_cur w)))
                 end in
  mdo s <- mget;
  let w := match s_drop s with None => w | Some cols => drop_cols cols w end in
  mdo w <- drop_step (c_dup p) s_dup (fun l s => mkCS (s_drop s) (s_meta s) (s_cols s) (s_const s) (s_id s) (Some l)) (fun f => Ok (dup_cols p f)) w;
  mdo w <- drop_step (c_id p) s_id (fun l s => mkCS (s_drop s) (s_meta s) (s_cols s) (s_const s) (Some l) (s_dup s)) (id_cols p) w;
  mdo w <- drop_step (c_const p) s_const (fun l s => mkCS (s_drop s) (s_meta s) (s_cols s) (Some l) (s_id s) (s_dup s)) (fun f => Ok (const_cols p f)) w;
  let w := match c_inf p with
           | None => w
           | Some v => match of_type [DInt] (w_cur w) with
                       | [] => fresh (map_cols (on_cells (rep_inf v)) (w_cur w)) w
                       | _ => in_place (map_cols (fun c => if dtype_eqb (k_type c) DInt then c else on_cells (rep_inf v) c)) w
                       end
           end in
  mdo w <- mlift (if c_correct p then do f <- correct p meta (w_cur w); Ok (in_place (fun _ => f) w) else Ok w);
  let w := in_place (map_cols (int_step p)) w in
  let w := in_place (map_cols (obj_step p)) w in
  mret (w, y).

(** df_meta: the columns of each type (_data_cleaner.py:291-296) *)
Fixpoint add_meta (d : dtype) (n : string) (m : list (dtype * list string)) : list (dtype * list string) :=
  match m with [] => [(d, [n])] | (d', l) :: r => if dtype_eqb d d' then (d', l ++ [n]) :: r else (d', l) :: add_meta d n r end.
Definition meta_of (f : frame) : list (dtype * list string) := fold_left (fun m c => add_meta (k_type c) (k_name c) m) (f_cols f) [].

Definition given (copy_data : bool) (x : frame) : work := mkW x (negb copy_data) x.
(** _data_cleaner.py:284-302 fit_transform; the result is the frame, y, and the caller's frame afterwards *)
Definition fit_transform (p : cparams) (copy_data : bool) (x : frame) (y : option (dtype * list cell)) : M cst (frame * option (dtype * list cell) * frame) :=
  mdo (w, y') <- clean_data p None (given copy_data x) y;
  mdo _ <- mset (fun s => mkCS (s_drop s) (Some (meta_of (w_cur w))) (Some (names (w_cur w))) (s_const s) (s_id s) (s_dup s));
  mret (w_cur w, y', w_caller w).
(** _data_cleaner.py:304-328 transform *)
Definition transform (p : cparams) (copy_data : bool) (x : frame) (y : option (dtype * list cell)) : M cst (frame * option (dtype * list cell) * frame) :=
  mdo s <- mget;
  mdo (w, y') <- clean_data p (s_meta s) (given copy_data x) y;
  mdo s <- mget;
  mdo ns <- mlift (match s_cols s with Some ns => Ok ns | None => Err KeyError end);
  mdo f <- mlift (select ns (w_cur w));
  mret (f, y', w_caller w).

(** _data_cleaner.py:330-341 append_drop_columns; list(set(...)) without order *)
Definition append_drop (cols : list string) : M cst unit :=
  mdo _ <- mset (fun s => match s_meta s with
                          | None => mkCS (Some (match s_drop s with Some d => d | None => [] end ++ cols)) None (s_cols s) (s_const s) (s_id s) (s_dup s)
                          | Some m => mkCS (s_drop s) (Some (map (fun dl => (fst dl, filter (fun c => negb (inb c cols)) (snd dl))) m)) (s_cols s) (s_const s) (s_id s) (s_dup s)
                          end);
  mdo s <- mget;
  mdo ns <- mlift (match s_cols s with Some ns => Ok ns | None => Err TypeError end);
  mset (fun s => mkCS (s_drop s) (s_meta s) (Some (filter (fun c => negb (inb c cols)) ns)) (s_const s) (s_id s) (s_dup s)).
End Clean.
