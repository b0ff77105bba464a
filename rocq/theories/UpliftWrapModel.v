(** Model of UpliftModel (ylearn/uplift/_model.py) over the metrics of UpliftModel.v: fit with its attributes, assigned one by one, and
    the accessors.  The frame is given with its roles resolved: rows with treatment, outcome and true effect, and the named score
    columns; outcome and effect columns are not score columns.  Plots are not modelled. *)
From Coq Require Import Reals String List.
From Verif Require Import Base ParamsModel UpliftModel.
Unset Implicit Arguments.
Local Notation length := List.length.
Local Open Scope string_scope.
Local Open Scope list_scope.
Local Open Scope nat_scope.

Definition curves_t := list (string * list val). (* a DataFrame of curves: column name, values *)
Section Wrap.
  Context {V : Type} {EV : EqDec V}.
  Variable sort : list (row V) -> list (row V).
  Record frame := mkF { f_rows : list (row V); f_scores : list (string * list R) }.
  (** the first argument of fit: no DataFrame; a DataFrame without one of the named columns; a DataFrame with them *)
  Inductive input := NoFrame | NoColumn | Frame (f : frame).
  Record call := mkC { c_df : input; c_effect : bool (* true_effect is not None *); c_treat : V; c_control : V; c_random : option string }.

  (** _metric.py:36-46, the loop of cumulate over the score columns *)
  Fixpoint all_curves (tr ct : V) (k : kind) (rows : list (row V)) (scores : list (string * list R)) : res (curves_t * list (string * R)) :=
    match scores with
    | [] => Ok ([], [])
    | (n, s) :: rest => do p <- cumulate tr ct sort k (rescored rows s);
                        do q <- all_curves tr ct k rows rest;
                        Ok ((n, fst p) :: fst q, (n, snd p) :: snd q)
    end.
  (** _metric.py:16-61 Cumulator.__call__: the curves, with the RANDOM column if there is a name for it, and the top points;
      rnd: the random columns of this call.  No score column: pd.concat of nothing *)
  Definition cumulator (k : kind) (c : call) (rname : option string) (rnd : list (list R)) : res (curves_t * list (string * R)) :=
    match c_df c with
    | Frame f =>
      match f_scores f with
      | [] => Err ValueError
      | _ =>
        do p <- all_curves (c_treat c) (c_control c) k (f_rows f) (f_scores f);
        match rname with
        | None => Ok p
        | Some r => do q <- random_curve (c_treat c) (c_control c) sort k (f_rows f) rnd; Ok (dset (fst p) r q, snd p)
        end
      end
    | _ => Err AssertionError
    end.
  Definition lift_kind (c : call) := if c_effect c then LiftEffect else LiftTreatment.
  Definition gain_kind (c : call) := if c_effect c then GainEffect else GainTreatment.
  Definition qini_kind (c : call) := if c_effect c then QiniEffect else QiniTreatment.
  (** df.div(np.abs(df.iloc[-1, :]), axis=1) *)
  Definition div_last (t : curves_t) : curves_t := map (fun p => (fst p, normalized (snd p))) t.
  (** _metric.py:243-250 auuc_score, normalize=True *)
  Definition auuc_all (c : call) (rnd : list (list R)) : res (list (string * val)) :=
    do p <- cumulator (gain_kind c) c (c_random c) rnd;
    Ok (map (fun p => (fst p, auuc_of (snd p))) (div_last (fst p))).
  (** _metric.py:253-266 qini_score, normalize=True *)
  Definition qini_all (c : call) (rnd : list (list R)) : res (list (string * val)) :=
    let r := match c_random c with None => "RANDOM" | Some r => r end in
    do p <- cumulator (qini_kind c) c (Some r) rnd;
    let q := div_last (fst p) in
    match dget q r with
    | None => Err KeyError
    | Some b => let s := map (fun p => (fst p, qini_of (snd p) b)) q in
                Ok (match c_random c with None => filter (fun p => negb (String.eqb (fst p) r)) s | Some _ => s end)
    end.

  (** the object; a new one: nothing but _is_fitted is ever read before a fit (_model.py:10-21) *)
  Record um := mkU {
    cumlift_ : curves_t; gain_ : curves_t; gain_top_ : list (string * R); qini_ : curves_t; qini_top_ : list (string * R);
    auuc_ : list (string * val); qinis_ : list (string * val); random_ : option string; lift_ : option frame; is_fitted : bool }.
  Definition new_um : um := mkU [] [] [] [] [] [] [] None None false.
  (** _model.py:23-56 fit: rnd i = the random columns drawn in the i-th metric call *)
  Definition fit (o : um) (c : call) (rnd : nat -> list (list R)) : um * res unit :=
    match c_df c with
    | NoFrame => (o, Err AssertionError)
    | _ =>
      match cumulator (lift_kind c) c (c_random c) (rnd 0) with
      | Err e => (o, Err e)
      | Ok l =>
        let o := mkU (fst l) (gain_ o) (gain_top_ o) (qini_ o) (qini_top_ o) (auuc_ o) (qinis_ o) (random_ o) (lift_ o) (is_fitted o) in
        match cumulator (gain_kind c) c (c_random c) (rnd 1) with
        | Err e => (o, Err e)
        | Ok g =>
          let o := mkU (cumlift_ o) (fst g) (snd g) (qini_ o) (qini_top_ o) (auuc_ o) (qinis_ o) (random_ o) (lift_ o) (is_fitted o) in
          match cumulator (qini_kind c) c (c_random c) (rnd 2) with
          | Err e => (o, Err e)
          | Ok q =>
            let o := mkU (cumlift_ o) (gain_ o) (gain_top_ o) (fst q) (snd q) (auuc_ o) (qinis_ o) (random_ o) (lift_ o) (is_fitted o) in
            match auuc_all c (rnd 3) with
            | Err e => (o, Err e)
            | Ok a =>
              let o := mkU (cumlift_ o) (gain_ o) (gain_top_ o) (qini_ o) (qini_top_ o) a (qinis_ o) (random_ o) (lift_ o) (is_fitted o) in
              match qini_all c (rnd 4) with
              | Err e => (o, Err e)
              | Ok s =>
                (mkU (cumlift_ o) (gain_ o) (gain_top_ o) (qini_ o) (qini_top_ o) (auuc_ o) s (c_random c)
                     (match c_df c with Frame f => Some f | _ => lift_ o end) true, Ok tt)
              end
            end
          end
        end
      end
    end.
  (** utils/_common.py:317-341 check_fitted *)
  Definition fitted {A} (o : um) (k : res A) : res A := if is_fitted o then k else Err ValueError.
  (** _model.py:58-76 *)
  Definition get_cumlift (o : um) : res curves_t := fitted o (Ok (cumlift_ o)).
  Definition get_gain (o : um) (normalize : bool) : res curves_t := fitted o (Ok (if normalize then div_last (gain_ o) else gain_ o)).
  Definition get_qini (o : um) (normalize : bool) : res curves_t := fitted o (Ok (if normalize then div_last (qini_ o) else qini_ o)).
  (** _model.py:78-86 _get_value_or_series: one value or a series *)
  Definition value_or_series {A} (o : um) (s : list (string * A)) (name : option string) : res (A + list (string * A)) :=
    match name with
    | None => Ok (inr (match random_ o with Some r => filter (fun p => negb (String.eqb (fst p) r)) s | None => s end))
    | Some n => match dget s n with Some v => Ok (inl v) | None => Err KeyError end
    end.
  (** _model.py:88-102 *)
  Definition gain_top_point (o : um) (name : option string) := fitted o (value_or_series o (gain_top_ o) name).
  Definition qini_top_point (o : um) (name : option string) := fitted o (value_or_series o (qini_top_ o) name).
  Definition auuc_score_ (o : um) (name : option string) := fitted o (value_or_series o (auuc_ o) name).
  Definition qini_score_ (o : um) (name : option string) := fitted o (value_or_series o (qinis_ o) name).
End Wrap.
