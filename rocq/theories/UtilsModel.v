(** Model of ylearn/utils/_common.py and ylearn/api/utils.py. *)
From Coq Require Export Ascii.
From Verif Require Export Base.
Set Implicit Arguments.

(** Python strings are lists of characters here; ASCII only. *)
Definition str := list ascii.
#[global] Instance EqDec_ascii : EqDec ascii := {| eqb := Ascii.eqb; eqb_eq := Ascii.eqb_eq |}.

(** ** utils/_common.py *)
(** str.split(','): the pieces between commas *)
Fixpoint split_on (c : ascii) (s : str) : list str :=
  match s with
  | [] => [[]]
  | x :: r => if eqb x c then [] :: split_on c r
              else match split_on c r with [] => [[x]] | p :: ps => (x :: p) :: ps end
  end.
(** str.isspace for ASCII: 9-13, 28-32 *)
Definition is_space (c : ascii) : bool :=
  let n := nat_of_ascii c in (Nat.leb 9 n && Nat.leb n 13) || (Nat.leb 28 n && Nat.leb n 32).
Fixpoint lstrip (f : ascii -> bool) (s : str) : str :=
  match s with [] => [] | c :: r => if f c then lstrip f r else s end.
(** str.strip() *)
Definition strip (s : str) : str := rev (lstrip is_space (rev (lstrip is_space s))).
(** _common.py:60-70 to_list on a string *)
Definition split_names (s : str) : list str :=
  filter (fun p => negb (Nat.eqb (List.length p) 0)) (map strip (split_on "," s)).

(** user arguments that name variables *)
Inductive names_arg := NNone | NList (l : list str) | NTuple (l : list str) | NStr (s : str) | NOther.
(** _common.py:60-70 to_list; None stays None, sequences pass through *)
Definition to_list (v : names_arg) : res (option (list str)) :=
  match v with
  | NNone => Ok None
  | NList l | NTuple l => Ok (Some l)
  | NStr s => Ok (Some (split_names s))
  | NOther => Err ValueError
  end.
(** _common.py:73-84 join_list *)
Fixpoint join_list (args : list names_arg) : res (list str) :=
  match args with
  | [] => Ok []
  | a :: r =>
      do x <- (match a with
               | NNone => Ok []
               | NList l | NTuple l => Ok l
               | NStr s => Ok (split_names s)
               | NOther => Err ValueError
               end) ;
      do y <- join_list r ; Ok (x ++ y)
  end.

(** _common.py:272-287 to_snake_case (ASCII) *)
Definition is_upper (c : ascii) : bool := let n := nat_of_ascii c in Nat.leb 65 n && Nat.leb n 90.
Definition lower (c : ascii) : ascii := if is_upper c then ascii_of_nat (nat_of_ascii c + 32) else c.
Definition underscore : ascii := "_".
Fixpoint snake_loop (last : option bool) (s : str) : str :=
  match s with
  | [] => []
  | c :: r =>
      let u := is_upper c in
      (if u then (match last with Some false => [underscore] | _ => [] end) ++ [lower c] else [c])
      ++ snake_loop (Some u) r
  end.
Definition to_snake_case (s : str) : str := lstrip (fun c => eqb c underscore) (snake_loop None s).

(** _common.py:295-297 drop_none *)
Definition drop_none {V} (kw : list (str * option V)) : list (str * V) :=
  flat_map (fun e => match snd e with Some v => [(fst e, v)] | None => [] end) kw.

(** _common.py:317-341 check_fitted.  [attr] = the attribute's value or None if missing; values are compared by
    identity with [check].  Objects are any type with a truth value. *)
Section CheckFitted.
  Variables (Obj Val Res : Type).
  Variable truthy : Val -> bool.
  Variable same : Val -> Val -> bool. (* Python [is] *)
  Variable vnone : Val. (* getattr default None *)
  Inductive check_opt := CNone | CValue (v : Val) | CFun (f : Obj -> Val).
  Variable getattr : Obj -> option Val.
  (** the result: did the wrapped function run, and with what result *)
  Definition check_and_call (check : check_opt) (fn : Obj -> res Res) (obj : Obj) : res Res :=
    let fitted :=
      match check with
      | CFun f => truthy (f obj)
      | CValue v => negb (same (match getattr obj with Some a => a | None => vnone end) v)
      | CNone => truthy (match getattr obj with Some a => a | None => vnone end)
      end in
    if fitted then fn obj else Err ValueError.
End CheckFitted.

(** _common.py:175-222 infer_task_type for a one-dimensional y.  Values: ordinary values, None, the singleton np.nan,
    and NaN entries of a float array, which are other objects than np.nan and are unequal to everything
    (pandas' unique keeps one of them). *)
Inductive yval := YV (v : nat) | YNone | YNan | YFloatNan.
#[global] Instance EqDec_yval : EqDec yval.
Proof.
  refine {| eqb := fun a b => match a, b with YV x, YV y => Nat.eqb x y | YNone, YNone => true | YNan, YNan => true
                            | YFloatNan, YFloatNan => true | _, _ => false end |}.
  intros [x| | |] [y| | |]; split; intros H; try discriminate; try reflexivity.
  - apply Nat.eqb_eq in H. now subst.
  - injection H as ->. apply Nat.eqb_refl.
Defined.
Inductive kind := KFloat | KInt | KOtherKind.
Inductive task := Binary | Multiclass | Regression | Multilabel.
(** n_unique > n_sample ** regression_exponent, an opaque float comparison *)
Section Infer.
  Variable exceeds : nat -> nat -> bool.
  (** pd.Series(...).sort_values(): ascending, missing values last *)
  Fixpoint insert_val (v : nat) (l : list nat) : list nat :=
    match l with [] => [v] | x :: r => if Nat.leb v x then v :: l else x :: insert_val v r end.
  Definition sort_vals (l : list nat) : list nat := fold_right insert_val [] l.
  Definition values_of (l : list yval) : list nat := flat_map (fun y => match y with YV v => [v] | _ => [] end) l.
  Definition infer_task_type (ncols : nat) (k : kind) (dropna : bool) (excludes : list yval) (y : list yval) :
      res (task * list yval) :=
    if Nat.ltb 1 ncols then Ok (Multilabel, map YV (seq 0 ncols))
    else
      let u := dedup y in
      let u := if dropna then filter (fun v => negb (eqb v YNan) && negb (eqb v YNone)) u else u in
      let u := diff u excludes in
      let labels := map YV (sort_vals (values_of u)) ++ filter (fun v => match v with YV _ => false | _ => true end) u in
      match List.length u with
      | 0 | 1 => Err ValueError
      | 2 => Ok (Binary, labels)
      | nu =>
          match k with
          | KFloat => Ok (Regression, [])
          | KInt => if exceeds nu (List.length y) then Ok (Regression, []) else Ok (Multiclass, labels)
          | KOtherKind => Ok (Multiclass, labels)
          end
      end.
End Infer.

(** ** api/utils.py *)
(** api/utils.py:17-31 safe_remove: the caller's list after the call and the returned list *)
Definition remove_all {A} {EA : EqDec A} (l : list A) (vs : list A) : list A := fold_left (fun l v => remove1 v l) vs l.
Definition safe_remove {A} {EA : EqDec A} (alist : option (list A)) (value : list A) (copy : bool) :
    option (list A) * option (list A) :=
  match alist with
  | None => (None, None)
  | Some l => let r := remove_all l value in (Some (if copy then l else r), Some r)
  end.

Section Select.
  Context {A : Type}.
  Variable discrete : A -> bool. (* is_discrete(data[x]) *)
  (** the common loop of api/utils.py:69-74 and 90-95 *)
  Fixpoint pick (d : bool) (limit : nat) (sel : list A) (cols : list A) : list A :=
    match cols with
    | [] => sel
    | x :: r =>
        if Bool.eqb (discrete x) d then
          let sel := sel ++ [x] in
          if Nat.leb limit (List.length sel) then sel else pick d limit sel r
        else pick d limit sel r
    end.
  (** api/utils.py:63-76 align_task_to_first *)
  Definition align_task_to_first (cols : list A) (limit : nat) : res (list A) :=
    match cols with [] => Err IndexError | x :: r => Ok (pick (discrete x) limit [x] r) end.
  (** api/utils.py:85-97 select_by_task *)
  Definition select_by_task (cols : list A) (limit : nat) (d : bool) : list A := pick d limit [] cols.
End Select.

(** user supplied treat/control values: nested sequences of scalars *)
Inductive pyval (V : Type) := Scal (v : V) | PSeq (l : list (pyval V)).
Arguments Scal {V} _. Arguments PSeq {V} _.
(** api/utils.py:133-150 safe_treat_control; k = len(treatment) *)
Definition safe_treat_control {V} (k : nat) (t : option (pyval V)) : res (option (list (pyval V))) :=
  match t with
  | None => Ok None
  | Some (PSeq l) => if Nat.eqb (List.length l) k then Ok (Some l) else Err AssertionError
  | Some (Scal v) => if Nat.eqb k 1 then Ok (Some [Scal v]) else Err AssertionError
  end.
(** len(e) == k; len of a scalar raises TypeError *)
Fixpoint all_len {V} (k : nat) (l : list (pyval V)) : res bool :=
  match l with
  | [] => Ok true
  | PSeq e :: r => if Nat.eqb (List.length e) k then all_len k r else Ok false
  | Scal _ :: _ => Err TypeError
  end.
(** api/utils.py:153-181 safe_treat_control_list *)
Definition safe_treat_control_list {V} (k : nat) (t : option (pyval V)) : res (option (list (pyval V))) :=
  match t with
  | None => Ok None
  | Some (PSeq []) => Err IndexError
  | Some (PSeq ((PSeq e :: _) as l)) => do ok <- all_len k l ; if ok : bool then Ok (Some l) else Err AssertionError
  | Some (PSeq ((Scal _ :: _) as l)) =>
      if Nat.ltb 1 k then (if Nat.eqb (List.length l) k then Ok (Some [PSeq l]) else Err ValueError)
      else Ok (Some (map (fun e => PSeq [e]) l))
  | Some (Scal v) => if Nat.eqb k 1 then Ok (Some [PSeq [Scal v]]) else Err AssertionError
  end.
