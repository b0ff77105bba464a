(** Model of ylearn/sklearn_ex/_dataframe_mapper.py (DataFrameMapper).
    A frame is a list of named columns.  Transformers are objects in a heap: features may share one.  Left out: sparse results,
    transformers that change the number of rows, df_out_dtype_transforms, the index, logging, [context] (it only changes the message of an exception). *)
From Coq Require Import String.
From Verif Require Import Base EstUtilsModel MetaModel.
Set Implicit Arguments.
Local Notation length := List.length.
Local Open Scope nat_scope.

(** the first element of a feature: a name, a list or a tuple of names, a function of the frame *)
Variant cdef (X : Type) := CName (s : string) | CList (l : list string) | CTuple (l : list string) | CCall (f : X -> list string).
Arguments CName {X}. Arguments CList {X}. Arguments CTuple {X}. Arguments CCall {X}.
(** options: input_df, alias *)
Record opts := mkO { o_input : option bool; o_alias : option string }.

Section Mapper.
Variables (V Y T : Type).
Definition mframe := list (string * list V).
(** the methods of a transformer object: fit with y, or without (None); transform; fit_transform if it has it; the feature names its
    steps offer (a single estimator is one step; get_feature_names, else classes_, else None) *)
Variable t_fit : T -> bool * mframe -> option Y -> T * res unit.
Variable t_tr : T -> bool * mframe -> res (list (list V)).
Variable t_ft : T -> option (bool * mframe -> option Y -> T * res (list (list V))).
Variable t_names : T -> list (list string -> option (list string)).
Variable md5 : string -> string.
(** str(i) *)
Variable num : nat -> string.

Definition feature := (cdef mframe * option nat * opts)%type.
(** default: False, None (pass through) or a transformer *)
Variant dflt := DDrop | DPass | DTr (t : nat).
Record mparams := mkMP { mp_features : list feature; mp_default : dflt; mp_df_out : bool; mp_input : bool }.
Definition fitted := (list string * option nat * opts)%type.
(** the transformer objects and the attributes feature_names_in_, fitted_features_ *)
Record mst := mkMS { h_objs : list T; h_names : option (list string); h_fitted : option (list fitted) }.

Definition mem (c : string) (l : list string) : bool := existsb (String.eqb c) l.
Definition fnames (X : mframe) : list string := map fst X.
(** X[cols] (348-354 _get_col_subset) *)
Definition subset (X : mframe) (cols : list string) : res mframe :=
  mapX (fun c => match find (fun nv => String.eqb c (fst nv)) X with Some nv => Ok nv | None => Err KeyError end) cols.

(** 19-40 _call_fit *)
Definition call_fit {R} (f : T -> bool * mframe -> option Y -> T * res R) (t : T) (a : bool * mframe) (y : Y) : T * res R :=
  match f t a (Some y) with (t', Err TypeError) => f t' a None | r => r end.

Fixpoint set_nth {A} (i : nat) (a : A) (l : list A) : list A :=
  match l, i with [], _ => [] | _ :: r, 0 => a :: r | x :: r, S j => x :: set_nth j a r end.
(** call a method of object i *)
Definition on_obj {R} (i : nat) (f : T -> T * res R) : M mst R :=
  fun s => match nth_error (h_objs s) i with
           | None => (s, Err AttributeError)
           | Some t => let (t', r) := f t in (mkMS (set_nth i t' (h_objs s)) (h_names s) (h_fitted s), r)
           end.
Definition fit_obj (i : nat) (a : bool * mframe) (y : Y) : M mst unit := on_obj i (fun t => call_fit t_fit t a y).
Definition tr_obj (i : nat) (a : bool * mframe) : M mst (list (list V)) := on_obj i (fun t => (t, t_tr t a)).
(** fit_transform if there is one, else fit and transform (310-314, 329-333) *)
Definition ft_obj (i : nat) (a : bool * mframe) (y : Y) : M mst (list (list V)) :=
  fun s => match nth_error (h_objs s) i with
           | None => (s, Err AttributeError)
           | Some t => match t_ft t with
                       | Some _ => on_obj i (fun t => call_fit (fun t a y => match t_ft t with Some f => f a y | None => (t, Err AttributeError) end) t a y) s
                       | None => (mdo _ <- fit_obj i a y; tr_obj i a) s
                       end
           end.

(** the columns a feature names (201-206) *)
Definition named (d : cdef mframe) (X : mframe) : list string :=
  match d with CName s => [s] | CList l | CTuple l => l | CCall f => f X end.

(** 199-226 the loop of fit *)
Fixpoint fit_loop (p : mparams) (X : mframe) (y : Y) (fs : list feature) (sel : list string) (done : list fitted) : M mst (list string * list fitted) :=
  match fs with
  | [] => mret (sel, done)
  | (d, t, o) :: r =>
      let columns := filter (fun c => negb (mem c sel)) (named d X) in
      let done := done ++ [(columns, t, o)] in
      match columns with
      | [] => fit_loop p X y r sel done
      | _ => mdo _ <- match t with
                      | None => mret tt
                      | Some i => mdo Xt <- mlift (subset X columns); fit_obj i (match o_input o with Some b => b | None => mp_input p end, Xt) y
                      end;
             fit_loop p X y r (sel ++ columns) done
      end
  end.
Definition no_opts := mkO None None.
(** 192-241 fit *)
Definition mfit (p : mparams) (X : mframe) (y : Y) : M mst unit :=
  mdo (sel, done) <- fit_loop p X y (mp_features p) [] [];
  let rest := filter (fun c => negb (mem c sel)) (fnames X) in
  mdo done <- match mp_default p with
              | DDrop => mret done
              | d => if length sel <? length X
                     then mdo _ <- match d with DTr i => mdo Xt <- mlift (subset X rest); fit_obj i (mp_input p, Xt) y | _ => mret tt end;
                          mret (done ++ [(rest, match d with DTr i => Some i | _ => None end, no_opts)])
                     else mret done
              end;
  mset (fun s => mkMS (h_objs s) (Some (fnames X)) (Some done)).

(** 356-410 _get_names *)
Definition base_name (columns : list string) (alias : option string) : string :=
  match alias with
  | Some a => a
  | None => let name := String.concat "_" columns in if 64 <? String.length name then (String.substring 0 32 name ++ md5 name)%string else name
  end.
(** the loop over the steps, from the last one (390-393): the last result, or the first one of the right length *)
Fixpoint step_names (columns : list string) (k : nat) (steps : list (list string -> option (list string))) (last : option (list string)) : option (list string) :=
  match steps with
  | [] => last
  | f :: r => match f columns with
              | Some l => if length l =? k then Some l else step_names columns k r (Some l)
              | None => step_names columns k r None
              end
  end.
Definition get_names (columns : list string) (t : option T) (k : nat) (alias : option string) : list string :=
  if 1 <? k then
    let ns := step_names columns k (match t with Some t => rev (t_names t) | None => [] end) None in
    let ns := match ns with None => if length columns =? k then Some columns else None | _ => ns end in
    match ns with
    | Some l => if length l =? k then l else map (fun i => (base_name columns alias ++ "_" ++ num i)%string) (seq 0 k)
    | None => map (fun i => (base_name columns alias ++ "_" ++ num i)%string) (seq 0 k)
    end
  else [base_name columns alias].
Definition obj (s : mst) (t : option nat) : option T := match t with Some i => nth_error (h_objs s) i | None => None end.

Variant mout := ODf (l : mframe) | OArr (l : list (list V)).
(** 425-448 _to_transform_result, _to_df *)
Definition to_result (p : mparams) (extracted : list (list (list V))) (ns : list string) : res mout :=
  match extracted with
  | [] => Err ValueError
  | _ => let cols := List.concat extracted in
         if mp_df_out p then if length ns =? length cols then Ok (ODf (combine ns cols)) else Err ValueError else Ok (OArr cols)
  end.

(** 248-269 the loop of transform *)
Fixpoint tr_loop (p : mparams) (X : mframe) (ffs : list fitted) (ex : list (list (list V))) (ns : list string) : M mst (list (list (list V)) * list string) :=
  match ffs with
  | [] => mret (ex, ns)
  | ([], _, _) :: r => tr_loop p X r ex ns
  | (columns, t, o) :: r =>
      mdo Xt <- mlift (subset X columns);
      mdo out <- match t with None => mret (map snd Xt) | Some i => tr_obj i (match o_input o with Some b => b | None => mp_input p end, Xt) end;
      mdo s <- mget;
      tr_loop p X r (ex ++ [out]) (ns ++ get_names columns (obj s t) (length out) (o_alias o))
  end.
(** 243-271 transform; before a fit fitted_features_ is None *)
Definition mtransform (p : mparams) (X : mframe) : M mst mout :=
  mdo s <- mget;
  mdo ffs <- mlift (match h_fitted s with Some l => Ok l | None => Err TypeError end);
  mdo (ex, ns) <- tr_loop p X ffs [] [];
  mlift (to_result p ex ns).

Definition is_tuple (d : cdef mframe) : bool := match d with CTuple _ => true | _ => false end.
(** 281-319 the loop of fit_transform; X[cols] for a tuple looks up one column *)
Fixpoint ft_loop (p : mparams) (X : mframe) (y : Y) (fs : list feature) (sel : list string) (done : list fitted) (ex : list (list (list V))) (ns : list string)
  : M mst (list string * list fitted * list (list (list V)) * list string) :=
  match fs with
  | [] => mret (sel, done, ex, ns)
  | (d, t, o) :: r =>
      let overlap := existsb (fun c => mem c sel) (named d X) in
      let columns := if overlap then filter (fun c => negb (mem c sel)) (named d X) else named d X in
      match columns with
      | [] => ft_loop p X y r sel done ex ns
      | _ => mdo Xt <- mlift (if is_tuple d && negb overlap then Err KeyError else subset X columns);
             mdo out <- match t with None => mret (map snd Xt) | Some i => ft_obj i (match o_input o with Some b => b | None => mp_input p end, Xt) y end;
             mdo s <- mget;
             ft_loop p X y r (sel ++ columns) (done ++ [(columns, t, o)]) (ex ++ [out]) (ns ++ get_names columns (obj s t) (length out) (o_alias o))
      end
  end.
(** 273-346 fit_transform *)
Definition mfit_transform (p : mparams) (X : mframe) (y : Y) : M mst mout :=
  mdo (r, ns) <- ft_loop p X y (mp_features p) [] [] [] [];
  let '(sel, done, ex) := r in
  let rest := filter (fun c => negb (mem c sel)) (fnames X) in
  mdo (r, ns) <- match mp_default p with
                 | DDrop => mret (done, ex, ns)
                 | d => if length sel <? length X
                        then mdo Xt <- mlift (subset X rest);
                             mdo (out, ns') <- match d with
                                               | DTr i => mdo out <- ft_obj i (mp_input p, Xt) y; mdo s <- mget; mret (out, ns ++ get_names rest (obj s (Some i)) (length out) None)
                                               | _ => mret (map snd Xt, ns ++ rest)
                                               end;
                             mret (done ++ [(rest, match d with DTr i => Some i | _ => None end, no_opts)], ex ++ [out], ns')
                        else mret (done, ex, ns)
                 end;
  let '(done, ex) := r in
  mdo _ <- mset (fun s => mkMS (h_objs s) (Some (fnames X)) (Some done));
  mlift (to_result p ex ns).
End Mapper.
