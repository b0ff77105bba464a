(** Model of ylearn/causal_discovery/_proxy_pgm.py and _proxy_gcastle.py: what is made of the learner's options and of its result.  The learners are
    external: their result is given.  Column names are distinct; 1.0 is 1. *)
From Coq Require Import ZArith String List Bool.
From Verif Require Import Base DiscoveryModel.
Unset Implicit Arguments.
Local Notation length := List.length.
Local Open Scope list_scope.
Local Open Scope nat_scope.

(** ** the result *)
Section Frame.
  Context {A : Type} {EA : EqDec A}.
  (** the networkx graph of learner.estimate *)
  Record graph := mkG { gnodes : list A; gedge : A -> A -> bool }.
  (** a square DataFrame: index = columns = labels, values by label *)
  Record frame := mkF { labels : list A; at_label : A -> A -> Z }.
  (** .values *)
  Definition values (f : frame) : matrix := fun i j => match nth_error (labels f) i, nth_error (labels f) j with Some a, Some b => at_label f a b | _, _ => 0%Z end.
  (** the joined index of an addition of frames with different indices; equal indices are kept *)
  Variable join : list A -> list A -> list A.
  Definition aligned (columns nodes : list A) : list A := if list_eqb columns nodes then columns else join columns nodes.
  (** _proxy_pgm.py:62-70: to_numpy_array(weight=None), zeros, the sum by label, fillna(0.0) *)
  Definition learned (g : graph) : frame := mkF (gnodes g) (fun a b => if gedge g a b then 1%Z else 0%Z).
  Definition pgm_matrix (columns : list A) (g : graph) : res frame :=
    if forallb (fun x => mem x columns) (gnodes g) then
      let full := mkF columns (fun _ _ => 0%Z) in
      Ok (mkF (aligned columns (gnodes g)) (fun a b =>
        if mem a (gnodes g) && mem b (gnodes g) && mem a columns && mem b columns then (at_label full a b + at_label (learned g) a b)%Z else 0%Z))
    else Err AssertionError.
  (** _proxy_pgm.py:77-78 with a DataFrame *)
  Definition pgm_dict (columns : list A) (g : graph) : res (list (A * list A)) :=
    do f <- pgm_matrix columns g; matrix2dict (length (labels f)) (values f) (labels f) None.
  (** _proxy_gcastle.py:63-73: the learner's n x n matrix m; labels only for a DataFrame.  matrix2dict has no argument threshold; drop_none
      removes it if it is None *)
  Definition castle_dict (n : nat) (m : matrix) (names : list A) (threshold : option Z) : res (list (A * list A)) :=
    match threshold with Some _ => Err TypeError | None => matrix2dict n m names None end.
End Frame.
Arguments graph : clear implicits.
Arguments frame : clear implicits.
(** _proxy_pgm.py:50-51, 72-75 with an array: pd.DataFrame(data) has the columns 0..n-1; the values are returned, or their dictionary *)
Definition pgm_array (join : list nat -> list nat -> list nat) (n : nat) (g : graph nat) : res matrix := do f <- pgm_matrix join (seq 0 n) g; Ok (values f).
Definition pgm_array_dict (join : list nat -> list nat -> list nat) (n : nat) (g : graph nat) : res (list (nat * list nat)) :=
  do m <- pgm_array join n g; matrix2dict n m (seq 0 n) None.

(** ** the options *)
Section Options.
  Context {V : Type}.
  Variables (stable pearsonr false_ dag : V).
  Local Open Scope string_scope.
  Definition opts := list (string * V).
  Definition lookup (d : opts) (k : string) : option V := match find (fun e => eqb (fst e) k) d with Some e => Some (snd e) | None => None end.
  (** _proxy_pgm.py:18-22 *)
  Definition defaults (learner : string) : opts := if eqb learner "PC" then [("variant", stable); ("ci_test", pearsonr); ("show_progress", false_)] else [].
  (** dict.pop *)
  Definition remove (d : opts) (k : string) : opts := filter (fun e => negb (eqb (fst e) k)) d.
  (** _proxy_pgm.py:35-42 _create_learner; params: the parameters of the constructor; the first ones, self and data, are already given.
      The keyword arguments and the remaining options *)
  Fixpoint split_options (params : list string) (options kwargs : opts) : opts * opts :=
    match params with
    | [] => (kwargs, options)
    | k :: params => match lookup options k with
                     | Some v => split_options params (remove options k) (dict_set kwargs k v)
                     | None => split_options params options kwargs
                     end
    end.
  (** _proxy_pgm.py:53-60: the keyword arguments of the constructor and of estimate; pc: isinstance(learner, A.PC) *)
  Definition pgm_options (learner : string) (pc : bool) (params : list string) (user : opts) : res (opts * opts) :=
    let options := fold_left (fun d e => dict_set d (fst e) (snd e)) user (defaults learner) in
    let '(kwargs, options) := split_options params options [] in
    if existsb (fun k => match lookup kwargs k with Some _ => true | None => false end) (firstn 2 params) then Err TypeError else
    Ok (kwargs, if pc then dict_set options "return_type" dag else options).
End Options.
