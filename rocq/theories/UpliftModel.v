(** Model of ylearn/uplift/_metric.py.
    Simplifications: floats are exact reals; a cell that is NaN or infinite is [None] (a quotient with divisor 0);
    scores, outcomes and effects are finite.  sort_values is not stable, so the sorting function is a parameter:
    theorems hold for every function that returns a permutation in descending order.  np.random.rand gives the list
    of random columns, also a parameter.  Curves of different columns do not interact (pd.concat of equal indices). *)
From Coq Require Export Reals List Arith Permutation.
From Verif Require Export Base.
Export ListNotations.
Open Scope R_scope.
Open Scope list_scope.
Set Implicit Arguments.

Definition val := option R.
Definition vdiv (a b : R) : val := if Req_EM_T b 0 then None else Some (a / b).
Definition vsub (a b : val) : val := match a, b with Some a, Some b => Some (a - b) | _, _ => None end.
Definition vmul (a : val) (b : R) : val := match a with Some a => Some (a * b) | None => None end.
Fixpoint map2 {A B C} (f : A -> B -> C) (l : list A) (m : list B) : list C :=
  match l, m with a :: l, b :: m => f a b :: map2 f l m | _, _ => [] end.
(** Series.cumsum *)
Fixpoint cumsum (acc : R) (l : list R) : list R :=
  match l with [] => [] | v :: r => (acc + v) :: cumsum (acc + v) r end.

(** Series.interpolate(): linear in the position; cells after the last number repeat it, cells before the first stay
    NaN.  [last] = the last number seen and how many cells ago it was. *)
Fixpoint next_valid (l : list val) : option (nat * R) :=
  match l with
  | [] => None
  | Some b :: _ => Some (1%nat, b)
  | None :: r => option_map (fun p => (S (fst p), snd p)) (next_valid r)
  end.
Fixpoint interp (last : option (nat * R)) (l : list val) : list val :=
  match l with
  | [] => []
  | Some v :: r => Some v :: interp (Some (1%nat, v)) r
  | None :: r =>
      match last with
      | None => None :: interp None r
      | Some (i, a) =>
          (match next_valid r with
           | None => Some a
           | Some (d, b) => Some (a + (b - a) * (INR i / INR (i + d)))
           end) :: interp (Some (S i, a)) r
      end
  end.

Section Metric.
  Context {V : Type} {EV : EqDec V}.
  (** a row of df_col: the score column and the common columns (treatment, outcome, true effect) *)
  Record row := Row { score : R; x : V; y : R; tau : R }.
  Variables treat control : V.
  Variable sort : list row -> list row. (* sort_values(col, ascending=False) *)

  Definition ind (b : bool) : R := if b then 1 else 0.
  Definition is_treat (r : row) : bool := eqb (x r) treat.
  Definition is_control (r : row) : bool := eqb (x r) control.
  (** df_col.index, a RangeIndex from 1 (_metric.py:39) *)
  Definition index (rows : list row) : list R := map INR (seq 1 (List.length rows)).
  (** _metric.py:105, 145, 162: set(df_col[treatment].unique()) == {treat, control} *)
  Definition two_groups (rows : list row) : bool :=
    forallb (fun r => is_treat r || is_control r) rows && existsb is_treat rows && existsb is_control rows.
  (** _metric.py:107-113, 147-153 *)
  Definition x_tr (rows : list row) : list R := cumsum 0 (map (fun r => ind (is_treat r)) rows).
  Definition x_ct (rows : list row) : list R := map2 Rminus (index rows) (x_tr rows).
  Definition y_tr (rows : list row) : list R := cumsum 0 (map (fun r => y r * ind (is_treat r)) rows).
  Definition y_ct (rows : list row) : list R := cumsum 0 (map (fun r => y r * ind (is_control r)) rows).

  Inductive kind := LiftTreatment | GainTreatment | QiniTreatment | LiftEffect | GainEffect | QiniEffect.
  (** _metric.py:103-117 LiftCumulatorWithTreatment.cumulate_column *)
  Definition lift_treatment (rows : list row) : list val :=
    map2 vsub (map2 vdiv (y_tr rows) (x_tr rows)) (map2 vdiv (y_ct rows) (x_ct rows)).
  (** _metric.py:120-124 LiftCumulatorWithTrueEffect.cumulate_column *)
  Definition lift_effect (rows : list row) : list val := map2 vdiv (cumsum 0 (map tau rows)) (index rows).
  (** _metric.py:127-140 the two GainCumulators: lift.mul(lift.index) *)
  Definition gain_of (lift : list val) (rows : list row) : list val := map2 vmul lift (index rows).
  (** _metric.py:143-157 QiniCumulatorWithTreatment.cumulate_column *)
  Definition qini_treatment (rows : list row) : list val :=
    map2 vsub (map Some (y_tr rows)) (map2 vdiv (map2 Rmult (y_ct rows) (x_tr rows)) (x_ct rows)).
  (** _metric.py:160-170 QiniCumulatorWithTrueEffect.cumulate_column *)
  Definition qini_effect (rows : list row) : list val := map2 vmul (lift_effect rows) (x_tr rows).
  Definition cumulate_column (k : kind) (rows : list row) : res (list val) :=
    let checked v := if two_groups rows then Ok v else Err AssertionError in
    match k with
    | LiftTreatment => checked (lift_treatment rows)
    | GainTreatment => checked (gain_of (lift_treatment rows) rows)
    | QiniTreatment => checked (qini_treatment rows)
    | LiftEffect => Ok (lift_effect rows)
    | GainEffect => Ok (gain_of (lift_effect rows) rows)
    | QiniEffect => checked (qini_effect rows)
    end.
  (** Series.idxmax(skipna=True): the position of the first greatest number *)
  Fixpoint argmax (best : option (nat * R)) (i : nat) (l : list val) : option (nat * R) :=
    match l with
    | [] => best
    | None :: r => argmax best (S i) r
    | Some v :: r => argmax (match best with
                             | Some (_, b) => if Rlt_dec b v then Some (i, v) else best
                             | None => Some (i, v)
                             end) (S i) r
    end.
  (** _metric.py:26-52 cumulate, for one column: the curve with its row 0 and the score at the top *)
  Definition cumulate (k : kind) (rows : list row) : res (list val * R) :=
    let sorted := sort rows in
    do c <- cumulate_column k sorted ;
    match argmax None 0 c with
    | None => Err ValueError
    | Some (i, _) =>
        match nth_error sorted i with
        | None => Err KeyError
        | Some r => Ok (interp None (Some 0 :: c), score r)
        end
    end.
End Metric.
Arguments row V : clear implicits.

(** DataFrame.sum() skips NaN *)
Definition vsum (l : list val) : R := fold_right (fun v acc => match v with Some a => a + acc | None => acc end) 0 l.
(** mean(axis=1) of one row of the random curves *)
Definition vmean (l : list val) : val :=
  let n := List.length (filter (fun v : val => match v with Some _ => true | None => false end) l) in
  vdiv (vsum l) (INR n).
(** gain.iloc[-1, :] *)
Definition last_cell (c : list val) : val := List.last c None.
(** gain.div(np.abs(gain.iloc[-1, :]), axis=1) (_metric.py:200, 221) *)
Definition normalized (c : list val) : list val :=
  map (fun v => match v, last_cell c with Some a, Some b => vdiv a (Rabs b) | _, _ => None end) c.
Section Scores.
  Context {V : Type} {EV : EqDec V}.
  Variables (treat control : V) (sort : list (row V) -> list (row V)).
  (** a column of scores for the common columns of df *)
  Definition rescored (rows : list (row V)) (col : list R) : list (row V) :=
    map2 (fun r s => Row s (x r) (y r) (tau r)) rows col.
  Fixpoint curves (k : kind) (rows : list (row V)) (cols : list (list R)) : res (list (list val)) :=
    match cols with
    | [] => Ok []
    | c :: r => do p <- cumulate treat control sort k (rescored rows c) ; do t <- curves k rows r ; Ok (fst p :: t)
    end.
  (** _metric.py:54-61 cumulate_with_random: the RANDOM column; [rnd] = the random columns *)
  Definition random_curve (k : kind) (rows : list (row V)) (rnd : list (list R)) : res (list val) :=
    do cs <- curves k rows rnd ;
    Ok (map (fun i => vmean (map (fun c => nth i c None) cs)) (seq 0 (S (List.length rows)))).
  (** _metric.py:187-226 get_gain / get_qini, one column *)
  Definition get_curve (k : kind) (normalize : bool) (rows : list (row V)) : res (list val * R) :=
    do p <- cumulate treat control sort k rows ;
    Ok (if normalize then normalized (fst p) else fst p, snd p).
  Definition get_random_curve (k : kind) (normalize : bool) (rows : list (row V)) (rnd : list (list R)) : res (list val) :=
    do c <- random_curve k rows rnd ; Ok (if normalize then normalized c else c).
  (** _metric.py:243-250 auuc_score, one column: gain.sum() / len(gain) *)
  Definition auuc_of (c : list val) : val := vdiv (vsum c) (INR (List.length c)).
  Definition auuc_score (effect : bool) (normalize : bool) (rows : list (row V)) : res val :=
    do p <- get_curve (if effect then GainEffect else GainTreatment) normalize rows ; Ok (auuc_of (fst p)).
  (** _metric.py:253-266 qini_score, one column: (column sum - RANDOM sum) / len *)
  Definition qini_of (c random : list val) : val := vdiv (vsum c - vsum random) (INR (List.length c)).
  Definition qini_score (effect : bool) (normalize : bool) (rows : list (row V)) (rnd : list (list R)) : res val :=
    let k := if effect then QiniEffect else QiniTreatment in
    do p <- get_curve k normalize rows ;
    do q <- get_random_curve k normalize rows rnd ;
    Ok (qini_of (fst p) q).
End Scores.
