(** Common vocabulary of the model: decidable equality, Python lists/sets, exceptions as values. *)
From Coq Require Export List Arith Lia Bool String Permutation.
Export ListNotations.
Open Scope list_scope.
Set Implicit Arguments.

(** Decidable equality (Python [==] on names and numbers). *)
Class EqDec (A : Type) := {
  eqb : A -> A -> bool;
  eqb_eq : forall x y, eqb x y = true <-> x = y
}.

#[global] Instance EqDec_string : EqDec string :=
  {| eqb := String.eqb; eqb_eq := String.eqb_eq |}.
#[global] Instance EqDec_nat : EqDec nat :=
  {| eqb := Nat.eqb; eqb_eq := Nat.eqb_eq |}.

Lemma pair_eqb_eq {A B} {EA : EqDec A} {EB : EqDec B} (x y : A * B) :
  (eqb (fst x) (fst y) && eqb (snd x) (snd y))%bool = true <-> x = y.
Proof.
  destruct x as [a b], y as [c d]; simpl.
  rewrite andb_true_iff, !eqb_eq. split; [intros [-> ->]|intros [= -> ->]]; auto.
Qed.
#[global] Instance EqDec_prod {A B} {EA : EqDec A} {EB : EqDec B} : EqDec (A * B) :=
  {| eqb x y := (eqb (fst x) (fst y) && eqb (snd x) (snd y))%bool; eqb_eq := pair_eqb_eq |}.

Fixpoint list_eqb {A} {EA : EqDec A} (l m : list A) : bool :=
  match l, m with
  | [], [] => true
  | x :: r, y :: t => eqb x y && list_eqb r t
  | _, _ => false
  end.
Lemma list_eqb_eq {A} {EA : EqDec A} (l m : list A) : list_eqb l m = true <-> l = m.
Proof.
  revert m; induction l as [|x r IH]; intros [|y t]; simpl; try easy.
  rewrite andb_true_iff, eqb_eq, IH. split; [now intros [-> ->]|now intros [= -> ->]].
Qed.
#[global] Instance EqDec_list {A} {EA : EqDec A} : EqDec (list A) :=
  {| eqb := list_eqb; eqb_eq := list_eqb_eq |}.

Section Eq.
  Context {A : Type} {EA : EqDec A}.
  Implicit Types (x y : A) (l m : list A).

  Lemma eqb_refl x : eqb x x = true.
  Proof. now apply eqb_eq. Qed.
  Lemma eqb_neq x y : eqb x y = false <-> x <> y.
  Proof.
    destruct (eqb x y) eqn:E; split; intros H; try easy.
    - exfalso; apply H; now apply eqb_eq.
    - intros ->. rewrite eqb_refl in E; discriminate.
  Qed.
  Lemma eqb_spec x y : reflect (x = y) (eqb x y).
  Proof. apply iff_reflect. symmetry. apply eqb_eq. Qed.
  Lemma eq_dec x y : {x = y} + {x <> y}.
  Proof. destruct (eqb_spec x y); auto. Qed.
  Lemma eqb_sym x y : eqb x y = eqb y x.
  Proof.
    destruct (eqb_spec x y) as [->|N]; [now rewrite eqb_refl|].
    symmetry; apply eqb_neq; congruence.
  Qed.

  (** Python [x in l]. *)
  Fixpoint mem x l : bool :=
    match l with [] => false | y :: r => eqb x y || mem x r end.

  Lemma mem_In x l : mem x l = true <-> In x l.
  Proof.
    induction l as [|y r IH]; simpl; [easy|].
    rewrite orb_true_iff, eqb_eq, IH. intuition congruence.
  Qed.
  Lemma mem_nIn x l : mem x l = false <-> ~ In x l.
  Proof.
    rewrite <- mem_In. destruct (mem x l); split; intros H; easy.
  Qed.
  Lemma mem_spec x l : reflect (In x l) (mem x l).
  Proof. apply iff_reflect. symmetry. apply mem_In. Qed.
  Lemma In_dec x l : {In x l} + {~ In x l}.
  Proof. destruct (mem_spec x l); auto. Qed.
  Lemma mem_app x l m : mem x (l ++ m) = mem x l || mem x m.
  Proof. induction l as [|y r IH]; simpl; [reflexivity|]. now rewrite IH, orb_assoc. Qed.

  (** Python [list.remove(x)]: drop the first occurrence (no effect if absent; the callers
      catch the ValueError). *)
  Fixpoint remove1 x l : list A :=
    match l with
    | [] => []
    | y :: r => if eqb x y then r else y :: remove1 x r
    end.

  Lemma remove1_In_other x y l : x <> y -> (In y (remove1 x l) <-> In y l).
  Proof.
    intros N. induction l as [|z r IH]; simpl; [easy|].
    destruct (eqb_spec x z) as [<-|M]; simpl; [intuition congruence|].
    rewrite IH. easy.
  Qed.
  Lemma remove1_incl x l : incl (remove1 x l) l.
  Proof.
    induction l as [|z r IH]; simpl; [easy|].
    destruct (eqb_spec x z) as [->|M].
    - intros a Ha; now right.
    - intros a [->|Ha]; [now left|right; now apply IH].
  Qed.
  Lemma remove1_NoDup x l : NoDup l -> NoDup (remove1 x l).
  Proof.
    induction l as [|z r IH]; simpl; intros H; [constructor|].
    inversion H as [|? ? Hz Hr]; subst.
    destruct (eqb_spec x z) as [->|M]; auto.
    constructor; auto. intros HI; apply Hz. now apply (remove1_incl x).
  Qed.
  Lemma remove1_NoDup_In x y l : NoDup l -> (In y (remove1 x l) <-> In y l /\ y <> x).
  Proof.
    intros ND. destruct (eqb_spec x y) as [<-|N].
    - split; [|intuition].
      intros H; exfalso. induction l as [|z r IH]; simpl in *; [easy|].
      inversion ND as [|? ? Hz Hr]; subst.
      destruct (eqb_spec x z) as [->|M]; [easy|].
      destruct H as [->|H]; [easy|auto].
    - rewrite remove1_In_other by easy. intuition congruence.
  Qed.
  Lemma remove1_nIn x l : ~ In x l -> remove1 x l = l.
  Proof.
    induction l as [|z r IH]; simpl; intros H; [easy|].
    destruct (eqb_spec x z) as [->|M]; [exfalso; auto|].
    f_equal. auto.
  Qed.

  (** Python [set(l)]: first occurrences, in order (the order is irrelevant in all statements). *)
  Fixpoint dedup l : list A :=
    match l with
    | [] => []
    | x :: r => x :: filter (fun y => negb (eqb x y)) (dedup r)
    end.

  Lemma dedup_In x l : In x (dedup l) <-> In x l.
  Proof.
    induction l as [|y r IH]; simpl; [easy|].
    rewrite filter_In, IH, negb_true_iff, eqb_neq.
    destruct (eq_dec y x) as [->|N]; intuition congruence.
  Qed.
  Lemma NoDup_filter_gen (f : A -> bool) l : NoDup l -> NoDup (filter f l).
  Proof. apply NoDup_filter. Qed.
  Lemma dedup_NoDup l : NoDup (dedup l).
  Proof.
    induction l as [|y r IH]; simpl; constructor.
    - rewrite filter_In, negb_true_iff, eqb_neq. intuition congruence.
    - now apply NoDup_filter.
  Qed.
  Lemma filter_all_true (f : A -> bool) l : (forall x, In x l -> f x = true) -> filter f l = l.
  Proof.
    induction l as [|y r IH]; simpl; intros H; [easy|].
    rewrite (H y) by now left. f_equal. apply IH. intros; apply H; now right.
  Qed.
  Lemma dedup_id l : NoDup l -> dedup l = l.
  Proof.
    induction l as [|y r IH]; intros H; [easy|].
    inversion H as [|? ? Hy Hr]; subst. simpl. rewrite (IH Hr). f_equal.
    apply filter_all_true. intros x Hx. rewrite negb_true_iff, eqb_neq. congruence.
  Qed.

  (** Set operations on lists. *)
  Definition diff l m : list A := filter (fun x => negb (mem x m)) l.
  Definition inter l m : list A := filter (fun x => mem x m) l.
  Definition union l m : list A := l ++ diff m l.
  Definition subset l m : bool := forallb (fun x => mem x m) l.
  Definition seteq l m : bool := subset l m && subset m l.
  Definition set_add x l : list A := if mem x l then l else l ++ [x].

  Lemma diff_In x l m : In x (diff l m) <-> In x l /\ ~ In x m.
  Proof. unfold diff. rewrite filter_In, negb_true_iff, mem_nIn. easy. Qed.
  Lemma inter_In x l m : In x (inter l m) <-> In x l /\ In x m.
  Proof. unfold inter. rewrite filter_In, mem_In. easy. Qed.
  Lemma union_In x l m : In x (union l m) <-> In x l \/ In x m.
  Proof.
    unfold union. rewrite in_app_iff, diff_In. destruct (In_dec x l); intuition.
  Qed.
  Lemma diff_NoDup l m : NoDup l -> NoDup (diff l m).
  Proof. apply NoDup_filter. Qed.
  Lemma inter_NoDup l m : NoDup l -> NoDup (inter l m).
  Proof. apply NoDup_filter. Qed.
  Lemma NoDup_app_intro l m :
    NoDup l -> NoDup m -> (forall x, In x l -> ~ In x m) -> NoDup (l ++ m).
  Proof.
    induction l as [|y r IH]; simpl; intros Hl Hm H; [easy|].
    inversion Hl as [|? ? Hy Hr]; subst. constructor.
    - rewrite in_app_iff. intros [Hi|Hi]; [easy|]. apply (H y); auto.
    - apply IH; auto.
  Qed.
  Lemma NoDup_app_inv l m :
    NoDup (l ++ m) -> NoDup l /\ NoDup m /\ (forall x, In x l -> ~ In x m).
  Proof.
    induction l as [|y r IH]; simpl; intros H.
    - repeat split; auto using NoDup_nil.
    - inversion H as [|? ? Hy Hr]; subst. destruct (IH Hr) as (H1 & H2 & H3).
      rewrite in_app_iff in Hy. repeat split; auto.
      + constructor; auto.
      + intros x [->|Hx]; auto.
  Qed.
  Lemma union_NoDup l m : NoDup l -> NoDup m -> NoDup (union l m).
  Proof.
    intros Hl Hm. apply NoDup_app_intro; auto using diff_NoDup.
    intros x Hx. rewrite diff_In. tauto.
  Qed.
  Lemma subset_spec l m : subset l m = true <-> incl l m.
  Proof.
    unfold subset. rewrite forallb_forall. unfold incl.
    split; intros H x Hx.
    - apply mem_In. now apply H.
    - apply mem_In. now apply H.
  Qed.
  Lemma seteq_spec l m : seteq l m = true <-> (forall x, In x l <-> In x m).
  Proof.
    unfold seteq. rewrite andb_true_iff, !subset_spec. unfold incl. firstorder.
  Qed.
  Lemma set_add_In x y l : In y (set_add x l) <-> y = x \/ In y l.
  Proof.
    unfold set_add. destruct (mem_spec x l) as [H|H]; [|rewrite in_app_iff; simpl];
      intuition congruence.
  Qed.
  Lemma set_add_NoDup x l : NoDup l -> NoDup (set_add x l).
  Proof.
    intros H. unfold set_add. destruct (mem_spec x l) as [Hx|Hx]; auto.
    apply NoDup_app_intro; auto.
    - constructor; auto using NoDup_nil.
    - intros y Hy [->|[]]. auto.
  Qed.

  (** Index of the first occurrence (Python [list.index]). *)
  Fixpoint index_of x l : option nat :=
    match l with
    | [] => None
    | y :: r => if eqb x y then Some 0 else option_map S (index_of x r)
    end.

  Lemma index_of_Some x l i : index_of x l = Some i -> nth_error l i = Some x /\ i < List.length l.
  Proof.
    revert i; induction l as [|y r IH]; simpl; intros i H; [easy|].
    destruct (eqb_spec x y) as [->|N].
    - injection H as <-. simpl; split; [easy|lia].
    - destruct (index_of x r) as [j|]; simpl in H; [|easy].
      injection H as <-. destruct (IH j eq_refl). simpl; split; [easy|lia].
  Qed.
  Lemma index_of_None x l : index_of x l = None <-> ~ In x l.
  Proof.
    induction l as [|y r IH]; simpl; [easy|].
    destruct (eqb_spec x y) as [->|N]; [intuition congruence|].
    destruct (index_of x r); simpl.
    - split; [easy|]. intros H. exfalso. assert (Hn : ~ In x r) by tauto.
      apply IH in Hn. discriminate.
    - split; auto. intros _. assert (~ In x r) by now apply IH. intuition congruence.
  Qed.

  Lemma NoDup_incl_len l m : NoDup l -> incl l m -> List.length l <= List.length m.
  Proof. apply NoDup_incl_length. Qed.
End Eq.

(** Exceptions as values. *)
Inductive exn :=
  | AssertionError | KeyError | IndexError | ValueError | TypeError | AttributeError
  | NetworkXError | NodeNotFound | NetworkXUnfeasible
  | IdentificationError | NotImplementedError | ZeroDivisionError
  | NullPointer (* not a Python exception: the C code dereferences a null pointer (crash) *)
  | OutOfFuel. (* not a Python exception: the model's recursion budget ran out *)

Inductive res (A : Type) := Ok (a : A) | Err (e : exn).
Arguments Ok {A} _. Arguments Err {A} _.

Definition bind {A B} (r : res A) (f : A -> res B) : res B :=
  match r with Ok a => f a | Err e => Err e end.
Notation "'do' x <- r ; k" := (bind r (fun x => k)) (at level 200, x pattern, r at level 100, k at level 200).

Definition is_ok {A} (r : res A) : bool := match r with Ok _ => true | Err _ => false end.

Lemma filter_length_le {A} (f : A -> bool) l : List.length (filter f l) <= List.length l.
Proof. induction l as [|a l IH]; simpl; [lia|]. destruct (f a); simpl; lia. Qed.

Lemma filter_length_lt {A} (f : A -> bool) l x :
  In x l -> f x = false -> List.length (filter f l) < List.length l.
Proof.
  induction l as [|a l IH]; simpl; [easy|]. intros [->|H] E.
  - rewrite E. pose proof (filter_length_le f l). lia.
  - specialize (IH H E). destruct (f a); simpl; lia.
Qed.
