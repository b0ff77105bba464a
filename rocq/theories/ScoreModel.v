(** Model of ylearn/utils/metrics.py calc_score: which scores are computed, from which arrays and options.  sklearn's functions are given: [sk] answers
    a call.  Names are ASCII.  Metrics that are neither callable nor strings (an AttributeError) are left out. *)
From Coq Require Import Reals String Ascii List Bool.
From Verif Require Import Base.
Unset Implicit Arguments.
Local Notation length := List.length.
Local Open Scope string_scope.
Local Open Scope list_scope.
Local Open Scope nat_scope.

(** metrics.py:54 metric.lower() *)
Definition lower_char (a : ascii) : ascii := let n := nat_of_ascii a in if Nat.leb 65 n && Nat.leb n 90 then ascii_of_nat (n + 32) else a.
Fixpoint lower (s : string) : string := match s with EmptyString => EmptyString | String a r => String (lower_char a) (lower r) end.

(** score[k] = v of an OrderedDict *)
Definition put {V} (s : list (string * V)) (k : string) (v : V) : list (string * V) :=
  if existsb (fun e => String.eqb (fst e) k) s then map (fun e => if String.eqb (fst e) k then (k, v) else e) s else s ++ [(k, v)].

Inductive task := Binary | Multiclass | Regression | Multilabel.

Section Score.
  (** arrays; class labels *)
  Context {Arr L : Type}.
  (** the number of columns of a two-dimensional array; reshape(-1); [:, 1] *)
  Variable columns : Arr -> option nat.
  Variable flat : Arr -> Arr.
  Variable column1 : Arr -> res Arr.
  (** infer_task_type(y)[0] (_common.py:183-222); sorted(unique(y)) *)
  Variable infer : Arr -> res task.
  Variable classes_of : Arr -> res (list L).

  (** recall_options *)
  Record options := mkOpt { average : string; labels : option (list L); pos : option L }.
  (** a call of a function of sklearn.metrics *)
  Inductive call :=
    | roc_auc (y p : Arr) | roc_auc_ovo (y p : Arr) (l : option (list L)) | accuracy (y p : Arr)
    | recall (y p : Arr) (o : options) | precision (y p : Arr) (o : options) | f1 (y p : Arr) (o : options)
    | mean_squared_error (y p : Arr) | mean_absolute_error (y p : Arr) | mean_squared_log_error (y p : Arr) | r2 (y p : Arr)
    | log_loss (y p : Arr) (l : option (list L)).
  Variable sk : call -> res R.
  (** an element of metrics: a name, or a function with its __name__ *)
  Inductive metric := Named (s : string) | Fn (name : string) (f : Arr -> Arr -> res R).

  (** metrics.py:22-25 *)
  Definition squeeze (a : Arr) : Arr := match columns a with Some 1 => flat a | _ => a end.
  (** metrics.py:55-86: the branch of a lower-case name; the branch 64-65 for y_preds None cannot be reached (line 24) *)
  Definition branch (t : task) (y p pr : Arr) (o : options) (s : string) : option (res R) :=
    if String.eqb s "auc" then
      Some (match columns pr with
            | Some _ => match t with Multiclass => sk (roc_auc_ovo y pr (labels o)) | _ => do c <- column1 pr; sk (roc_auc y c) end
            | None => sk (roc_auc y pr)
            end)
    else if String.eqb s "accuracy" then Some (sk (accuracy y p))
    else if String.eqb s "recall" then Some (sk (recall y p o))
    else if String.eqb s "precision" then Some (sk (precision y p o))
    else if String.eqb s "f1" then Some (sk (f1 y p o))
    else if String.eqb s "mse" then Some (sk (mean_squared_error y p))
    else if String.eqb s "mae" then Some (sk (mean_absolute_error y p))
    else if String.eqb s "msle" then Some (sk (mean_squared_log_error y p))
    else if String.eqb s "rmse" || String.eqb s "rootmeansquarederror" || String.eqb s "root_mean_squared_error" then
      Some (do v <- sk (mean_squared_error y p); Ok (sqrt v))
    else if String.eqb s "r2" then Some (sk (r2 y p))
    else if String.eqb s "logloss" || String.eqb s "log_loss" then Some (sk (log_loss y pr (labels o)))
    else None.
  (** metrics.py:49-86 the loop *)
  Fixpoint loop (t : task) (y p pr : Arr) (o : options) (ms : list metric) (score : list (string * R)) : res (list (string * R)) :=
    match ms with
    | [] => Ok score
    | Fn n f :: r => do v <- f y p; loop t y p pr o r (put score n v)
    | Named s :: r => match branch t y p pr o (lower s) with
                      | None => loop t y p pr o r score
                      | Some rv => do v <- rv; loop t y p pr o r (put score s v)
                      end
    end.
  (** metrics.py:30-34 *)
  Definition default_metrics (t : task) : list metric :=
    match t with Regression => [Named "mae"; Named "mse"; Named "rmse"] | _ => [Named "accuracy"; Named "precision"; Named "recall"; Named "f1"] end.
  (** metrics.py:10-15, 36-47: classes and pos_label, then the options *)
  Definition make_options (t : task) (y : Arr) (pos_label : option L) (classes : option (list L)) (avg : option string) : res options :=
    do cp <- match t, pos_label with
             | Binary, None =>
                 do cs <- match classes with Some cs => Ok cs | None => classes_of y end;
                 match cs with [_; b] => Ok (Some cs, Some b) | _ => Err AssertionError end
             | _, _ => Ok (classes, pos_label)
             end;
    Ok (mkOpt (match avg with Some a => a | None => match t with Multiclass => "macro" | _ => "binary" end end) (fst cp) (snd cp)).
  (** metrics.py:18-88 *)
  Definition calc_score (y : Arr) (y_preds y_proba : option Arr) (metrics : option (list metric)) (tsk : option task)
    (pos_label : option L) (classes : option (list L)) (avg : option string) : res (list (string * R)) :=
    match y_preds with
    | None => Err AttributeError
    | Some p0 =>
        let pr := squeeze (match y_proba with Some a => a | None => p0 end) in
        let p := squeeze p0 in
        do t <- match tsk with Some t => Ok t | None => infer y end;
        do o <- make_options t y pos_label classes avg;
        loop t y p pr o (match metrics with Some ms => ms | None => default_metrics t end) []
    end.
End Score.
