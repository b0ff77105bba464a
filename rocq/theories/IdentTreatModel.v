(** Model of ylearn/api/_identifier.py:53-133: IdentifierWithDiscovery as an object, with the identification of treatments and the
    causal matrix it keeps.  What the discovery finds on the data of a call is given; the columns of the matrix are those of the
    preprocessed data and the outcome, with distinct names.  sort_values is any sorting by descending weight with NaN last (quicksort: ties
    in any order). *)
From Coq Require Import ZArith List Bool.
From Verif Require Import Base UtilsModel DiscoveryModel ApiModel.
Unset Implicit Arguments.
Local Notation length := List.length.
Local Open Scope list_scope.
Local Open Scope nat_scope.

Section Ident.
  Context {A : Type} {EA : EqDec A}.
  (** the DataFrame of _discovery: labels (columns and index alike) and entries, NaN = None *)
  Record causation := mkC { labels : list A; entry : nat -> nat -> option Z }.
  (** _identifier.py:81 causation[outcome].abs() *)
  Definition outcome_weights (c : causation) (j : nat) : list (A * option Z) :=
    map (fun p => (snd p, option_map Z.abs (entry c (fst p) j))) (combine (seq 0 (length (labels c))) (labels c)).
  (** _identifier.py:81 sort_values(ascending=False) *)
  Variable srt : list (A * option Z) -> list (A * option Z).
  (** _identifier.py:79-84 *)
  Definition causes (c : causation) (outcome : A) (excludes : list A) : res (list A) :=
    match index_of outcome (labels c) with
    | None => Err AssertionError
    | Some j =>
      let t := map fst (filter (fun p => match snd p with Some w => Z.ltb 0 w | None => false end && negb (eqb (fst p) outcome)) (srt (outcome_weights c j))) in
      Ok (filter (fun x => negb (mem x excludes)) t)
    end.
  (** _identifier.py:77-97 identify_treatment; [discrete] = is_discrete of the columns of data, [fallback] = the result of
      DefaultIdentifier.identify_treatment (TransModel) *)
  Definition discovery_treatment (c : causation) (discrete : A -> bool) (outcome : A) (discrete_treatment : option bool) (limit : nat) (excludes : list A)
      (fallback : res (list A)) : res (list A) :=
    do t <- causes c outcome excludes;
    match t with
    | [] => fallback
    | _ => match discrete_treatment with
           | None => align_task_to_first discrete t limit
           | Some d => Ok (select_by_task discrete t limit d)
           end
    end.

  (** ** the object *)
  (** self.method, and what identify_aci takes from CausalModel for a matrix (ApiModel) *)
  Variables (how : ci_method) (ord : list A -> list A).
  Variable get_iv : causation -> A -> A -> res (option (list A)).
  Variable backdoor : causation -> list A -> A -> res (list A).
  (** calls; [found] = what _discovery(data, outcome) gives if it is run by this call, [cols] = data.columns *)
  Inductive op :=
  | Treatment (found : res causation) (discrete : A -> bool) (outcome : A) (discrete_treatment : option bool) (limit : nat) (excludes : list A) (fallback : res (list A))
  | Aci (found : res causation) (cols : list A) (outcome : A) (treatment : list A).
  Inductive answer := Treatments (l : list A) | Roles (r : roles A).
  Definition has_nan (c : causation) : bool :=
    existsb (fun i => existsb (fun j => match entry c i j with None => true | _ => false end) (seq 0 (length (labels c)))) (seq 0 (length (labels c))).
  Definition values (c : causation) : matrix := fun i j => match entry c i j with Some z => z | None => 0%Z end.
  (** _identifier.py:102-133 *)
  Definition aci_of (c : causation) (cols : list A) (outcome : A) (treatment : list A) : res (roles A) :=
    discovery_aci cols outcome treatment (length (labels c)) (values c) (labels c) ord (get_iv c outcome) (backdoor c treatment outcome) (has_nan c) how.
  (** causal_matrix_ before and after a call, and its result *)
  Definition call (st : option causation) (o : op) : option causation * res answer :=
    match o with
    | Treatment found discrete outcome dt limit excludes fallback =>
        match found with
        | Err e => (st, Err e)
        | Ok c => match discovery_treatment c discrete outcome dt limit excludes fallback with
                  | Ok t => (Some c, Ok (Treatments t))
                  | Err e => (st, Err e)
                  end
        end
    | Aci found cols outcome treatment =>
        match (match st with Some c => Ok c | None => found end) with
        | Err e => (st, Err e)
        | Ok c => (Some c, match aci_of c cols outcome treatment with Ok r => Ok (Roles r) | Err e => Err e end)
        end
    end.
  Definition run (h : list op) : option causation := fold_left (fun st o => fst (call st o)) h None.
End Ident.
Arguments causation : clear implicits.
Arguments op : clear implicits.
Arguments answer : clear implicits.
