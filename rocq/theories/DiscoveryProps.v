(** Properties C34-C37 and C67: post-processing of discovered causal matrices. *)
From Coq Require Import Lia Sorted.
From Verif Require Import Base NxModel NxSpec ReachProofs NxProofs DiscoveryModel DiscoveryProofs.
Set Implicit Arguments.

(** ** Specification *)
(** i -> j in the matrix of dimension n *)
Definition arrow (n : nat) (m : matrix) (i j : nat) : Prop := i < n /\ j < n /\ m i j <> 0%Z.
Definition nonneg (n : nat) (m : matrix) : Prop := forall i j, i < n -> j < n -> (0 <= m i j)%Z.
Definition no_diagonal (n : nat) (m : matrix) : Prop := forall i, i < n -> m i i = 0%Z.
(** every non-zero entry of m' is an entry of m, unchanged *)
Definition submatrix (n : nat) (m' m : matrix) : Prop :=
  forall i j, i < n -> j < n -> m' i j = 0%Z \/ m' i j = m i j.
Definition same_matrix (n : nat) (m' m : matrix) : Prop := forall i j, i < n -> j < n -> m' i j = m i j.
(** i -> j lies on a cycle *)
Definition on_cycle (n : nat) (m : matrix) (i j : nat) : Prop := arrow n m i j /\ reach (arrow n m) j i.

Section Facts.
  Variables (n : nat) (m : matrix).
  Lemma nonzero_In i j : In (i, j) (nonzero_edges n m) <-> arrow n m i j.
  Proof.
    unfold nonzero_edges, arrow. rewrite filter_In, in_prod_iff, !in_seq. cbn [fst snd].
    rewrite Bool.negb_true_iff, Z.eqb_neq. intuition lia.
  Qed.
  Lemma nonzero_ok : okes n (nonzero_edges n m).
  Proof. intros [i j] H. apply nonzero_In in H as (H1 & H2 & _). auto. Qed.
  Lemma list_prod_NoDup {A B} (l : list A) (l' : list B) : NoDup l -> NoDup l' -> NoDup (list_prod l l').
  Proof.
    intros N1 N2. induction N1 as [|x l Hx N1 IH]; cbn [list_prod]; [constructor|].
    apply NoDup_app_intro; auto.
    - apply FinFun.Injective_map_NoDup; auto. intros a b H. congruence.
    - intros [a b] H1 H2. apply in_map_iff in H1 as (c & [= <- <-] & _). apply in_prod_iff in H2 as [H2 _]. tauto.
  Qed.
  Lemma nonzero_NoDup : NoDup (nonzero_edges n m).
  Proof. apply NoDup_filter, list_prod_NoDup; apply seq_NoDup. Qed.
End Facts.

Lemma reach_congr {A} (R S : A -> A -> Prop) : (forall a b, R a b <-> S a b) -> forall x y, reach R x y <-> reach S x y.
Proof.
  intros H x y. split; induction 1 as [|a b c Hab _ IH]; try constructor; apply reach_step with b; auto; now apply H.
Qed.
Lemma acyclic_congr {A} (R S : A -> A -> Prop) : (forall a b, R a b <-> S a b) -> acyclic R <-> acyclic S.
Proof.
  intros H. split; intros AC x (y & Hy & Hr); apply (AC x); exists y; (split; [now apply H|]);
    revert Hr; [apply (proj2 (@reach_congr A R S H y x))|apply (proj1 (@reach_congr A R S H y x))].
Qed.

Lemma trim_cycle_run ord n m : (forall l, Permutation (ord l) l) -> no_diagonal n m ->
  exists es', trim_cycle n m ord = Ok (to_matrix m es') /\ incl es' (nonzero_edges n m) /\ acyclic (rel es') /\
    (acyclic (rel (nonzero_edges n m)) -> es' = nonzero_edges n m) /\
    forall e, removed (nonzero_edges n m) es' e -> excused m (nonzero_edges n m) e.
Proof.
  intros Ho Hd. unfold trim_cycle.
  destruct (@trim_loop_spec n m ord Ho (S (List.length (nonzero_edges n m))) (nonzero_edges n m)
    (@nonzero_ok n m) (nonzero_NoDup n m)) as (es' & -> & Hi & AC & Hsame & Hrem); [|lia|].
  - intros i H. apply nonzero_In in H as (H1 & _ & H). now apply H, Hd.
  - cbn [bind]. assert (Wf : wf (digraph n es')) by (apply dg_wf; intros e He; apply (@nonzero_ok n m), Hi, He).
    assert (D : is_dag (digraph n es') = true).
    { apply (is_dag_spec Wf). revert AC. apply acyclic_congr. intros a b. apply dg_ed. }
    rewrite D. exists es'. auto.
Qed.

Lemma to_matrix_arrow n m es i j : incl es (nonzero_edges n m) -> (arrow n (to_matrix m es) i j <-> In (i, j) es).
Proof.
  intros Hi. unfold arrow, to_matrix. destruct (mem_spec (i, j) es) as [H|H]; split; intros X; auto; try tauto.
  apply Hi in H. apply nonzero_In in H. exact H.
Qed.

(** ** C34 *)
(** Partial: matrices without a non-zero diagonal entry. *)
Theorem C34_trim_cycle_partial (ord : list (list nat) -> list (list nat)) (n : nat) (m : matrix) :
  (forall l, Permutation (ord l) l) -> nonneg n m -> no_diagonal n m ->
  exists m', trim_cycle n m ord = Ok m' /\ submatrix n m' m /\ acyclic (arrow n m').
Proof.
  intros Ho _ Hd. destruct (@trim_cycle_run ord n m Ho Hd) as (es & E & Hi & AC & _). exists (to_matrix m es).
  split; [exact E|]. split.
  - intros i j _ _. unfold to_matrix. destruct (mem (i, j) es); auto.
  - revert AC. apply acyclic_congr. intros a b. now apply to_matrix_arrow.
Qed.

(** With a self loop the method always raises IndexError. *)
Theorem C34_refuted_self_loop (ord : list (list nat) -> list (list nat)) (n : nat) (m : matrix) :
  (forall l, Permutation (ord l) l) -> nonneg n m -> ~ no_diagonal n m -> trim_cycle n m ord = Err IndexError.
Proof.
  intros Ho _ Hd. unfold trim_cycle.
  rewrite (@trim_loop_self n m ord Ho); auto using nonzero_ok, nonzero_NoDup.
  assert (X : existsb (fun i => negb (Z.eqb (m i i) 0)) (seq 0 n) = true).
  { destruct (existsb _ (seq 0 n)) eqn:E; auto. exfalso. apply Hd. intros i Hi.
    destruct (Z.eqb_spec (m i i) 0) as [|N]; auto. exfalso.
    assert (Y : existsb (fun i => negb (Z.eqb (m i i) 0)) (seq 0 n) = true); [|congruence].
    apply existsb_exists. exists i. rewrite in_seq. split; [lia|]. now rewrite Bool.negb_true_iff, Z.eqb_neq. }
  apply existsb_exists in X as (i & Hi & Hm). apply in_seq in Hi. exists i. apply nonzero_In.
  rewrite Bool.negb_true_iff, Z.eqb_neq in Hm. repeat split; auto; lia.
Qed.

(** ** C35 *)
Theorem C35_acyclic_unchanged (ord : list (list nat) -> list (list nat)) (n : nat) (m : matrix) :
  (forall l, Permutation (ord l) l) -> nonneg n m -> acyclic (arrow n m) ->
  exists m', trim_cycle n m ord = Ok m' /\ same_matrix n m' m.
Proof.
  intros Ho _ AC. assert (Hd : no_diagonal n m).
  { intros i Hi. destruct (Z.eq_dec (m i i) 0) as [|N]; auto. exfalso. apply (AC i). exists i. split; [|constructor].
    split; auto. }
  destruct (@trim_cycle_run ord n m Ho Hd) as (es & E & Hi & _ & Hs & _). exists (to_matrix m es). split; [exact E|].
  intros i j Hi' Hj. unfold to_matrix. rewrite Hs.
  - destruct (mem_spec (i, j) (nonzero_edges n m)) as [H|H]; auto.
    destruct (Z.eq_dec (m i j) 0) as [|N]; auto. exfalso. apply H, nonzero_In. split; auto.
  - revert AC. apply acyclic_congr. intros a b. apply nonzero_In.
Qed.

(** An entry is dropped only if another entry of at least its weight lies on a common cycle with it. *)
Theorem C35_dropped (ord : list (list nat) -> list (list nat)) (n : nat) (m m' : matrix) (i j : nat) :
  (forall l, Permutation (ord l) l) -> nonneg n m -> no_diagonal n m -> trim_cycle n m ord = Ok m' ->
  arrow n m i j -> m' i j = 0%Z ->
  exists x y, (x, y) <> (i, j) /\ on_cycle n m x y /\ reach (arrow n m) y i /\ reach (arrow n m) j x /\ (m i j <= m x y)%Z.
Proof.
  intros Ho _ Hd E Hij H0. destruct (@trim_cycle_run ord n m Ho Hd) as (es & E' & Hi & _ & _ & Hr).
  rewrite E in E'. injection E' as ->. unfold to_matrix in H0.
  destruct (mem_spec (i, j) es) as [H|H]; [destruct Hij; tauto|].
  destruct (Hr (i, j)) as (x & y & H1 & H2 & H3 & H4 & H5 & _); [split; auto; now apply nonzero_In|].
  assert (X : forall a b, reach (rel (nonzero_edges n m)) a b <-> reach (arrow n m) a b)
    by (apply reach_congr; intros a b; apply nonzero_In).
  cbn [fst snd] in *. exists x, y. split; auto. apply nonzero_In in H1. apply X in H4, H5. split; [|auto].
  split; auto. clear X.
  assert (T : forall a b c, reach (arrow n m) a b -> reach (arrow n m) b c -> reach (arrow n m) a c)
    by (intros a b c; apply reach_trans).
  apply T with i; auto. apply reach_step with j; auto.
Qed.

(** ... and it is a lightest entry of some cycle p0 -> p1 -> ... -> p0 of the matrix. *)
Definition lightest_on (m : matrix) (p : list nat) (i j : nat) : Prop :=
  In (i, j) (combine p (tl p)) /\ forall a b, In (a, b) (combine p (tl p)) -> (m i j <= m a b)%Z.
Theorem C35_dropped_lightest (ord : list (list nat) -> list (list nat)) (n : nat) (m m' : matrix) (i j : nat) :
  (forall l, Permutation (ord l) l) -> nonneg n m -> no_diagonal n m -> trim_cycle n m ord = Ok m' ->
  arrow n m i j -> m' i j = 0%Z ->
  exists x q, let p := x :: q ++ [x] in dwalk (arrow n m) p /\ NoDup (q ++ [x]) /\ lightest_on m p i j.
Proof.
  intros Ho _ Hd E Hij H0. destruct (@trim_cycle_run ord n m Ho Hd) as (es & E' & Hi & _ & _ & Hr).
  rewrite E in E'. injection E' as ->. unfold to_matrix in H0.
  destruct (mem_spec (i, j) es) as [H|H]; [destruct Hij; tauto|].
  destruct (Hr (i, j)) as (x & y & H1 & H2 & H3 & _ & _ & q & ND & Hw & Hl1 & Hl2); [split; auto; now apply nonzero_In|].
  exists x, (y :: q). cbv zeta. cbn [app]. split; [|split; auto].
  - assert (X : dwalk (rel (nonzero_edges n m)) (x :: y :: q ++ [x])) by (split; auto).
    revert X. generalize (x :: y :: q ++ [x]). induction l as [|a [|b l] IH]; auto. intros [Hab Hd']. split; [now apply nonzero_In|auto].
  - split; [right; exact Hl1|]. intros a b [[= <- <-]|Hab]; [exact H3|]. apply (Hl2 (a, b)). exact Hab.
Qed.

Corollary C35_kept (ord : list (list nat) -> list (list nat)) (n : nat) (m m' : matrix) (i j : nat) :
  (forall l, Permutation (ord l) l) -> nonneg n m -> no_diagonal n m -> trim_cycle n m ord = Ok m' ->
  arrow n m i j ->
  ((forall x y, arrow n m x y -> (x, y) <> (i, j) -> (m x y < m i j)%Z) \/ ~ on_cycle n m i j) ->
  m' i j = m i j.
Proof.
  intros Ho Hn Hd E Hij Hor. destruct (@C34_trim_cycle_partial ord n m Ho Hn Hd) as (m2 & E2 & Hs & _).
  rewrite E in E2. injection E2 as <-. destruct Hij as (Hi & Hj & Hz). destruct (Hs i j Hi Hj) as [H0|]; auto. exfalso.
  assert (Hij : arrow n m i j) by (split; auto).
  destruct (@C35_dropped ord n m m' i j Ho Hn Hd E Hij H0) as (x & y & N & [Hxy _] & R1 & R2 & W). destruct Hor as [H|H].
  - specialize (H x y Hxy N). lia.
  - apply H. split; auto. apply reach_trans with x; auto. apply reach_step with y; auto.
Qed.

(** ** C36 *)
(** the dictionary has one entry per variable, in column order; the entry of the j-th variable lists exactly the
    variables i with [P i j], i <> j, in column order *)
Definition lists_causes {A} (n : nat) (names : list A) (P : nat -> nat -> Prop) (d : list (A * list A)) : Prop :=
  map fst d = names /\
  forall dflt j name l, nth_error d j = Some (name, l) ->
    exists idx, StronglySorted lt idx /\ (forall i, In i idx <-> i < n /\ i <> j /\ P i j) /\
      l = map (fun i => nth i names dflt) idx.

Section C36.
  Context {A : Type} {EA : EqDec A}.
  Variables (n : nat) (m : matrix) (names : list A).
  Hypothesis Hlen : List.length names = n.
  Hypothesis ND : NoDup names.

  Lemma map_fst_combine {B C} (l : list B) : forall l' : list C, List.length l = List.length l' -> map fst (combine l l') = l.
  Proof. induction l; intros [|c l'] H; cbn in *; try discriminate; auto. f_equal. auto. Qed.
  Lemma map_snd_combine {B C} (l : list B) : forall l' : list C, List.length l = List.length l' -> map snd (combine l l') = l'.
  Proof. induction l; intros [|c l'] H; cbn in *; try discriminate; auto. f_equal. auto. Qed.

  Lemma filter_combine (f : nat -> bool) dflt : forall (l : list A) k,
    map snd (filter (fun x => f (fst x)) (combine (seq k (List.length l)) l)) =
    map (fun i => nth (i - k) l dflt) (filter f (seq k (List.length l))).
  Proof.
    induction l as [|a l IH]; intros k; cbn [List.length seq combine filter map]; auto. cbn [fst].
    assert (X : map (fun i => nth (i - S k) l dflt) (filter f (seq (S k) (List.length l))) =
                map (fun i => nth (i - k) (a :: l) dflt) (filter f (seq (S k) (List.length l)))).
    { apply map_ext_in. intros i Hi. apply filter_In in Hi as [Hi _]. apply in_seq in Hi.
      replace (i - k) with (S (i - S k)) by lia. reflexivity. }
    destruct (f k); cbn [map]; rewrite IH, X; auto. rewrite Nat.sub_diag. reflexivity.
  Qed.
  Lemma seq_sorted k len : StronglySorted lt (seq k len).
  Proof.
    revert k. induction len as [|len IH]; intros k; cbn [seq]; constructor; auto.
    apply Forall_forall. intros x Hx. apply in_seq in Hx. lia.
  Qed.
  Lemma filter_sorted (f : nat -> bool) l : StronglySorted lt l -> StronglySorted lt (filter f l).
  Proof.
    induction 1 as [|x l H IH HF]; cbn [filter]; [constructor|]. destruct (f x); auto. constructor; auto.
    rewrite Forall_forall in *. intros y Hy. apply filter_In in Hy as [Hy _]. auto.
  Qed.

  Lemma matrix2dict_spec depth (P : nat -> nat -> Prop) :
    (forall i j, i < n -> j < n -> i <> j -> (In i (dfs_targets n m depth j) <-> P i j)) ->
    exists d, matrix2dict n m names depth = Ok d /\ lists_causes n names P d.
  Proof.
    intros HP. unfold matrix2dict. rewrite Hlen, Nat.eqb_refl. cbn [negb].
    eexists. split; [reflexivity|].
    rewrite (@fold_dict_set A (list A) (nat * A) EA snd (fun e => map snd (filter (fun x => mem (fst x) (diff (dfs_targets n m depth (fst e)) [fst e])) (combine (seq 0 n) names)))).
    2: { cbn [map app]. now rewrite map_snd_combine by (rewrite seq_length; auto). }
    cbn [app]. split.
    - rewrite map_map. cbn [fst]. apply map_snd_combine. now rewrite seq_length.
    - intros dflt j name l H. rewrite nth_error_map in H.
      destruct (nth_error (combine (seq 0 n) names) j) as [[k nm]|] eqn:E; [|discriminate].
      cbn [option_map fst snd] in H. injection H as -> <-.
      assert (Hj : j < n).
      { assert (X : j < List.length (combine (seq 0 n) names)) by (apply nth_error_Some; congruence).
        rewrite combine_length, seq_length in X. lia. }
      assert (k = j) as ->.
      { assert (X : nth_error (map fst (combine (seq 0 n) names)) j = Some k) by (rewrite nth_error_map, E; auto).
        rewrite map_fst_combine in X by (rewrite seq_length; auto).
        rewrite (nth_error_nth' (seq 0 n) 0) in X by (rewrite seq_length; auto). rewrite seq_nth in X by auto.
        injection X as <-. reflexivity. }
      exists (filter (fun i => mem i (diff (dfs_targets n m depth j) [j])) (seq 0 n)).
      split; [apply filter_sorted, seq_sorted|]. split.
      + intros i. rewrite filter_In, in_seq, mem_In, diff_In. cbn [In]. split.
        * intros (Hi & H1 & H2). assert (i <> j) by (intros ->; apply H2; auto). split; [lia|]. split; auto. apply HP; auto. lia.
        * intros (Hi & Hn & Hp). split; [lia|]. split; [apply HP; auto|]. intros [->|[]]; auto.
      + pose proof (@filter_combine (fun i => mem i (diff (dfs_targets n m depth j) [j])) dflt names 0) as X. rewrite Hlen in X.
        rewrite X. apply map_ext. intros i. now rewrite Nat.sub_0_r.
  Qed.
End C36.

Lemma causes_arrow n m i j : j < n -> (In i (causes n m j) <-> arrow n m i j).
Proof.
  intros Hj. unfold causes, arrow. rewrite filter_In, in_seq, Bool.negb_true_iff, Z.eqb_neq. intuition lia.
Qed.

Theorem C36_direct_causes {A} {EA : EqDec A} (n : nat) (m : matrix) (names : list A) :
  List.length names = n -> NoDup names ->
  exists d, matrix2dict n m names (Some 1) = Ok d /\ lists_causes n names (arrow n m) d.
Proof.
  intros Hl ND. apply matrix2dict_spec; auto. intros i j Hi Hj N. unfold dfs_targets. cbn [Nat.pred].
  rewrite (@dfs_one _ []), causes_arrow by auto. tauto.
Qed.

Theorem C36_all_causes {A} {EA : EqDec A} (n : nat) (m : matrix) (names : list A) :
  List.length names = n -> NoDup names ->
  exists d, matrix2dict n m names None = Ok d /\ lists_causes n names (reach (arrow n m)) d.
Proof.
  intros Hl ND. apply matrix2dict_spec; auto. intros i j Hi Hj N. unfold dfs_targets.
  rewrite (@dfs_all (causes n m) (seq 0 n) (seq_NoDup n 0)).
  - split; intros H.
    + assert (G : forall a b, reach (fun a b => In b (causes n m a)) a b -> a < n -> reach (arrow n m) b a).
      { induction 1 as [|a b c Hab _ IH]; intros Ha; [constructor|]. apply (proj1 (@causes_arrow n m b a Ha)) in Hab.
        apply reach_trans with b; [apply IH; apply Hab|]. apply reach_step with a; auto. constructor. }
      now apply G.
    + induction H as [|a b c Hab Hbc IH]; [constructor|].
      assert (Hc : c < n) by exact Hj. destruct (Nat.eq_dec b c) as [->|N'].
      * apply reach_step with a; [|constructor]. now apply causes_arrow.
      * apply reach_trans with b; [apply IH; auto; apply Hab|]. apply reach_step with a; [|constructor].
        apply causes_arrow; auto. apply Hab.
  - intros v x Hx. now apply filter_In in Hx as [Hx _].
  - apply in_seq. lia.
  - rewrite seq_length. lia.
Qed.

(** Between depth 1 and the default the search can miss causes: 3 causes 2 and 2 causes 0 directly, but with depth 2
    the search first reaches 2 at depth 2, through 1. *)
Definition depth_gap : matrix := fun i j =>
  match i, j with 1, 0 => 1%Z | 2, 0 => 1%Z | 2, 1 => 1%Z | 3, 2 => 1%Z | _, _ => 0%Z end.
Theorem C36_refuted_depth2 :
  reach1 (arrow 4 depth_gap) 3 0 /\ arrow 4 depth_gap 3 2 /\ arrow 4 depth_gap 2 0 /\
  exists d, matrix2dict 4 depth_gap [0; 1; 2; 3] (Some 2) = Ok ((0, [1; 2]) :: d).
Proof.
  assert (A1 : arrow 4 depth_gap 3 2) by (repeat split; try lia; discriminate).
  assert (A2 : arrow 4 depth_gap 2 0) by (repeat split; try lia; discriminate).
  split; [|split; [auto|split; [auto|]]].
  - exists 2. split; auto. apply reach_step with 0; auto. constructor.
  - vm_compute. eexists. reflexivity.
Qed.

(** ** C37 *)
(** one row for the pair i < j, oriented along the larger absolute weight, ties from i to j *)
Definition strongest (m : matrix) (i j : nat) : nat * nat * Z :=
  if Z.ltb (Z.abs (m i j)) (Z.abs (m j i)) then (j, i, m j i) else (i, j, m i j).
Definition about (i j : nat) (r : nat * nat * Z) : bool :=
  let '(a, b, _) := r in (Nat.eqb a i && Nat.eqb b j) || (Nat.eqb a j && Nat.eqb b i).
Lemma filter_none {A} (f : A -> bool) l : (forall x, In x l -> f x = false) -> filter f l = [].
Proof. induction l as [|a l IH]; cbn [filter]; auto. intros H. rewrite (H a) by now left. apply IH. intros; apply H; now right. Qed.
Lemma filter_flat_map {A B} (f : B -> bool) (g : A -> list B) l : filter f (flat_map g l) = flat_map (fun x => filter f (g x)) l.
Proof. induction l as [|a l IH]; cbn [flat_map]; auto. rewrite filter_app, IH. reflexivity. Qed.
Lemma flat_map_one {A B} {EA : EqDec A} (g : A -> list B) l x r : NoDup l -> In x l -> g x = r -> (forall y, In y l -> y <> x -> g y = []) ->
  flat_map g l = r.
Proof.
  induction l as [|a l IH]; intros ND Hx Hr H; [destruct Hx|]. cbn [flat_map]. inversion ND as [|? ? Hn ND']; subst.
  destruct (In_dec x l) as [Hi|Hi].
  - rewrite IH; auto; [|intros y Hy; apply H; now right]. rewrite (H a); auto; [now left|]. congruence.
  - destruct Hx as [->|Hx]; [|tauto]. replace (flat_map g l) with (@nil B); [apply app_nil_r|].
    clear -Hn H. assert (X : forall y, In y l -> g y = []) by (intros y Hy; apply H; [now right|congruence]).
    clear H Hn. induction l as [|b l IH]; auto. cbn [flat_map]. rewrite (X b) by now left. apply IH. intros; apply X; now right.
Qed.
Theorem C37_dataframe (n : nat) (m : matrix) :
  (forall i j, i < j -> j < n -> filter (about i j) (matrix2array n m true) = [strongest m i j]) /\
  (forall r, In r (matrix2array n m true) -> exists i j, i < j /\ j < n /\ r = strongest m i j).
Proof.
  assert (S1 : forall i j, (if Z.leb (Z.abs (m j i)) (Z.abs (m i j)) then (i, j, m i j) else (j, i, m j i)) = strongest m i j).
  { intros i j. unfold strongest. destruct (Z.leb_spec (Z.abs (m j i)) (Z.abs (m i j))); destruct (Z.ltb_spec (Z.abs (m i j)) (Z.abs (m j i))); auto; lia. }
  assert (S2 : forall i j a b, i < j -> a < b -> about i j (strongest m a b) = Nat.eqb a i && Nat.eqb b j).
  { intros i j a b H1 H2. unfold strongest, about. destruct (Z.ltb _ _);
      destruct (Nat.eqb_spec a i), (Nat.eqb_spec b j), (Nat.eqb_spec b i), (Nat.eqb_spec a j); subst; cbn; auto; lia. }
  unfold matrix2array. split.
  - intros i j Hij Hj. rewrite filter_flat_map. apply (@flat_map_one nat _ _ _ _ i).
    + apply seq_NoDup.
    + apply in_seq. lia.
    + assert (X : forall l, (forall c, In c l -> i < c) -> NoDup l -> In j l ->
        filter (about i j) (map (fun col => if Z.leb (Z.abs (m col i)) (Z.abs (m i col)) then (i, col, m i col) else (col, i, m col i)) l) = [strongest m i j]).
      { induction l as [|c l IH]; intros Hc ND Hi; [destruct Hi|]. inversion ND as [|? ? Hn ND']; subst. cbn [map filter]. rewrite S1, S2 by (auto; apply Hc; now left).
        rewrite Nat.eqb_refl. cbn [andb]. destruct (Nat.eqb_spec c j) as [->|N].
        - f_equal. apply filter_none. intros r Hr. apply in_map_iff in Hr as (d & <- & Hd). rewrite S1, S2 by (auto; apply Hc; now right).
          rewrite Nat.eqb_refl. cbn [andb]. apply Nat.eqb_neq. congruence.
        - apply IH; auto; [intros; apply Hc; now right|]. destruct Hi; congruence. }
      apply X; [|apply seq_NoDup|apply in_seq; lia]. intros c Hc. apply in_seq in Hc. lia.
    + intros a Ha N. apply in_seq in Ha. apply filter_none. intros r Hr. apply in_map_iff in Hr as (d & <- & Hd). apply in_seq in Hd.
      rewrite S1, S2 by lia. destruct (Nat.eqb_spec a i); [congruence|reflexivity].
  - intros r Hr. apply in_flat_map in Hr as (a & Ha & Hr). apply in_map_iff in Hr as (b & <- & Hb). apply in_seq in Ha, Hb.
    rewrite S1. exists a, b. repeat split; lia.
Qed.
(** For an ndarray the row is always (i, j, m[i,j]), also when the other direction is stronger. *)
Theorem C37_refuted_ndarray (n : nat) (m : matrix) (i j : nat) : i < j -> j < n ->
  In (i, j, m i j) (matrix2array n m false) /\
  ((Z.abs (m i j) < Z.abs (m j i))%Z -> ~ In (strongest m i j) (matrix2array n m false)).
Proof.
  intros Hij Hj.
  assert (X : forall r, In r (matrix2array n m false) <-> exists a b, a < b /\ b < n /\ r = (a, b, m a b)).
  { intros r. unfold matrix2array. rewrite in_flat_map. split.
    - intros (a & Ha & Hr). apply in_map_iff in Hr as (b & <- & Hb). apply in_seq in Ha, Hb. exists a, b. rewrite Z.leb_refl. repeat split; lia.
    - intros (a & b & Hab & Hb & ->). exists a. rewrite in_seq. split; [lia|]. apply in_map_iff. exists b. rewrite Z.leb_refl, in_seq. split; auto. lia. }
  split; [apply X; eauto|]. intros Hlt H. apply X in H as (a & b & Hab & _ & H). unfold strongest in H.
  apply Z.ltb_lt in Hlt. rewrite Hlt in H. injection H as -> ->. lia.
Qed.

(** ** C67: the causal matrix reported by CausalDiscovery *)
(** the entry a -> b survives the comparison with b -> a *)
Definition stronger (m : matrix) (a b : nat) : Prop :=
  (Z.abs (m b a) < Z.abs (m a b))%Z \/ (Z.abs (m b a) = Z.abs (m a b) /\ a < b).
Definition resolved (m : matrix) (a b : nat) : Z :=
  if (if Nat.ltb a b then Z.leb (Z.abs (m b a)) (Z.abs (m a b)) else Z.ltb (Z.abs (m b a)) (Z.abs (m a b))) then m a b else 0%Z.
Definition pair_in (i : nat) (l : list nat) (a b : nat) : bool := (Nat.eqb a i && mem b l) || (Nat.eqb b i && mem a l).

Lemma inner_loop i l : forall m, (forall c, In c l -> i < c) -> NoDup l -> forall a b,
  fold_left (fun m c => keep_stronger m i c) l m a b = if pair_in i l a b then resolved m a b else m a b.
Proof.
  induction l as [|c l IH]; intros m Hl ND a b; cbn [fold_left].
  - unfold pair_in. cbn. now rewrite !Bool.andb_false_r.
  - inversion ND as [|? ? Hn ND']; subst. rewrite IH; auto; [|intros; apply Hl; now right].
    assert (Hc : i < c) by (apply Hl; now left).
    assert (K : forall a b, keep_stronger m i c a b = if (Nat.eqb a i && Nat.eqb b c) || (Nat.eqb a c && Nat.eqb b i) then resolved m a b else m a b).
    { clear a b. intros a b. unfold keep_stronger, resolved. destruct (Z.ltb_spec (Z.abs (m i c)) (Z.abs (m c i))); unfold set_cell;
        destruct (Nat.eqb_spec a i), (Nat.eqb_spec b c), (Nat.eqb_spec a c), (Nat.eqb_spec b i); subst; cbn [andb orb]; try lia; auto;
        repeat match goal with |- context [Nat.ltb ?x ?y] => destruct (Nat.ltb_spec x y) | |- context [Z.ltb ?x ?y] => destruct (Z.ltb_spec x y) | |- context [Z.leb ?x ?y] => destruct (Z.leb_spec x y) end; auto; lia. }
    assert (MC : forall x, mem x (c :: l) = Nat.eqb x c || mem x l).
    { intros x. destruct (mem_spec x (c :: l)) as [H|H], (Nat.eqb_spec x c), (mem_spec x l); cbn in *; auto; exfalso; intuition congruence. }
    unfold pair_in. rewrite !MC. destruct ((Nat.eqb a i && mem b l) || (Nat.eqb b i && mem a l)) eqn:E.
    + assert (N : (Nat.eqb a i && Nat.eqb b c) || (Nat.eqb a c && Nat.eqb b i) = false).
      { destruct (Nat.eqb_spec a i), (Nat.eqb_spec b i), (mem_spec a l), (mem_spec b l), (Nat.eqb_spec a c), (Nat.eqb_spec b c); subst; cbn in *; auto; try discriminate; try tauto; try lia;
          exfalso; match goal with H : In i l |- _ => assert (i < i) by (apply Hl; now right); lia end. }
      assert (R : resolved (keep_stronger m i c) a b = resolved m a b).
      { unfold resolved. rewrite !K, N. replace ((Nat.eqb b i && Nat.eqb a c) || (Nat.eqb b c && Nat.eqb a i)) with false; auto.
        symmetry. rewrite <- N. rewrite Bool.orb_comm, (Bool.andb_comm (Nat.eqb b c)), (Bool.andb_comm (Nat.eqb b i)). reflexivity. }
      rewrite R. replace ((Nat.eqb a i && (Nat.eqb b c || mem b l)) || (Nat.eqb b i && (Nat.eqb a c || mem a l))) with true; auto.
      destruct (Nat.eqb a i), (Nat.eqb b i), (mem a l), (mem b l); cbn in *; try discriminate; now rewrite ?Bool.orb_true_r.
    + rewrite K. destruct (Nat.eqb a i), (Nat.eqb b i), (mem a l), (mem b l), (Nat.eqb a c), (Nat.eqb b c); cbn in *; auto; discriminate.
Qed.

Lemma mem_seq x k len : mem x (seq k len) = Nat.leb k x && Nat.ltb x (k + len).
Proof.
  destruct (mem_spec x (seq k len)) as [H|H]; rewrite in_seq in H; destruct (Nat.leb_spec k x), (Nat.ltb_spec x (k + len)); cbn; auto; lia.
Qed.

Lemma to_dag_loop_spec n m a b : a < n -> b < n ->
  to_dag_loop n m a b = if Nat.eqb a b then 0%Z else resolved m a b.
Proof.
  intros Ha Hb. unfold to_dag_loop.
  set (step := fun m i => set_cell (fold_left (fun m c => keep_stronger m i c) (seq (S i) (n - S i)) m) i i 0).
  assert (S1 : forall m i a b, i < n -> a < n -> b < n -> step m i a b =
    if Nat.eqb a i && Nat.eqb b i then 0%Z else if (Nat.eqb (Nat.min a b) i && negb (Nat.eqb a b)) then resolved m a b else m a b).
  { clear m a b Ha Hb. intros m i a b Hi Ha Hb. unfold step, set_cell. destruct (Nat.eqb a i && Nat.eqb b i) eqn:E; auto.
    rewrite inner_loop; [|intros c Hc; apply in_seq in Hc; lia|apply seq_NoDup].
    replace (pair_in i (seq (S i) (n - S i)) a b) with (Nat.eqb (Nat.min a b) i && negb (Nat.eqb a b)); auto.
    unfold pair_in. rewrite !mem_seq.
    destruct (Nat.eqb_spec a i), (Nat.eqb_spec b i), (Nat.leb_spec (S i) a), (Nat.leb_spec (S i) b), (Nat.ltb_spec a (S i + (n - S i))), (Nat.ltb_spec b (S i + (n - S i))),
      (Nat.eqb_spec a b), (Nat.eqb_spec (Nat.min a b) i); subst; cbn in *; auto; try discriminate; lia. }
  assert (G : forall k l m, (forall i, In i l -> k <= i < n) -> NoDup l -> forall a b, a < n -> b < n -> 
    fold_left step l m a b = if Nat.eqb a b then (if mem a l then 0%Z else m a b) else if mem (Nat.min a b) l then resolved m a b else m a b).
  { intros k. induction l as [|i l IH]; intros m0 Hl ND a0 b0 Ha0 Hb0; cbn [fold_left].
    - cbn. now destruct (Nat.eqb a0 b0).
    - inversion ND as [|? ? Hn ND']; subst. rewrite IH; auto; [|intros; apply Hl; now right].
      assert (Hi : i < n) by (apply Hl; now left).
      assert (MC : forall x, mem x (i :: l) = Nat.eqb x i || mem x l).
      { intros x. destruct (mem_spec x (i :: l)) as [H|H], (Nat.eqb_spec x i), (mem_spec x l); cbn in *; auto; exfalso; intuition congruence. }
      rewrite !MC. unfold resolved. rewrite !S1 by auto. rewrite (Nat.min_comm b0 a0).
      destruct (Nat.eqb_spec a0 b0) as [->|N].
      + destruct (mem_spec b0 l) as [H|H]; [now rewrite Bool.orb_true_r|]. rewrite Bool.orb_false_r.
        destruct (Nat.eqb b0 i); cbn [andb negb]; auto. now rewrite Bool.andb_false_r.
      + destruct (Nat.eqb_spec b0 a0); [congruence|]. cbn [negb]. rewrite !Bool.andb_true_r.
        assert (Y : forall x y, x <> y -> Nat.eqb x i && Nat.eqb y i = false) by (intros x y Hxy; destruct (Nat.eqb_spec x i), (Nat.eqb_spec y i); cbn; auto; congruence).
        rewrite !Y by auto. destruct (mem_spec (Nat.min a0 b0) l) as [H|H].
        * rewrite Bool.orb_true_r. destruct (Nat.eqb_spec (Nat.min a0 b0) i) as [E|E]; [congruence|]. reflexivity.
        * rewrite Bool.orb_false_r. destruct (Nat.eqb (Nat.min a0 b0) i); auto. }
  rewrite (G 0); auto.
  - rewrite !mem_seq. destruct (Nat.ltb_spec a (0 + n)), (Nat.ltb_spec (Nat.min a b) (0 + n)); try lia. reflexivity.
  - intros i Hi. apply in_seq in Hi. lia.
  - apply seq_NoDup.
Qed.

(** what the threshold lets through *)
Definition passes (th : option Z) (v : Z) : Prop := match th with None => True | Some t => (t <= Z.abs v)%Z end.

(** the arrows compared by the code: not below the threshold, no self loop, the stronger of the two directions *)
Definition candidate (n : nat) (th : option Z) (w : matrix) (i j : nat) : Prop :=
  arrow n w i j /\ i <> j /\ passes th (w i j) /\ stronger w i j.

Definition cut (th : option Z) (w : matrix) : matrix := match th with Some t => threshold_cut t w | None => w end.
Lemma cut_val th w i j : (cut th w i j = w i j /\ passes th (w i j)) \/
  (cut th w i j = 0%Z /\ forall v, passes th v -> (Z.abs (w i j) < Z.abs v)%Z).
Proof.
  destruct th as [t|]; cbn; auto. unfold threshold_cut. destruct (Z.ltb_spec (Z.abs (w i j)) t); [right; split; auto; intros; lia|auto].
Qed.

Lemma resolved_arrow n th w i j : arrow n (to_dag_loop n (cut th w)) i j <-> candidate n th w i j.
Proof.
  pose proof (cut_val th w i j) as V. pose proof (cut_val th w j i) as V'.
  unfold candidate, stronger, arrow. split.
  - intros (Hi & Hj & H). rewrite to_dag_loop_spec in H by auto. destruct (Nat.eqb_spec i j) as [|N]; [tauto|].
    unfold resolved in H. assert (Hm : cut th w i j <> 0%Z) by (destruct (if Nat.ltb i j then _ else _); [exact H|congruence]).
    destruct V as [[V P]|[V _]]; [|congruence]. rewrite V in *. repeat split; auto.
    destruct V' as [[V' _]|[V' P']]; [|left; now apply P']. rewrite V' in *.
    destruct (Nat.ltb_spec i j); [destruct (Z.leb_spec (Z.abs (w j i)) (Z.abs (w i j)))|destruct (Z.ltb_spec (Z.abs (w j i)) (Z.abs (w i j)))]; try tauto; lia.
  - intros ((Hi & Hj & Hw) & N & P & S). repeat split; auto. rewrite to_dag_loop_spec by auto.
    destruct (Nat.eqb_spec i j) as [|_]; [tauto|]. unfold resolved.
    destruct V as [[V _]|[_ V]]; [|specialize (V _ P); lia]. rewrite V.
    assert (L : (Z.abs (cut th w j i) <= Z.abs (w j i))%Z) by (destruct V' as [[-> _]|[-> _]]; lia).
    destruct (Nat.ltb_spec i j); [destruct (Z.leb_spec (Z.abs (cut th w j i)) (Z.abs (w i j)))|destruct (Z.ltb_spec (Z.abs (cut th w j i)) (Z.abs (w i j)))]; auto; lia.
Qed.
Lemma resolved_val n th w i j : candidate n th w i j -> to_dag_loop n (cut th w) i j = w i j.
Proof.
  intros C. pose proof (proj2 (resolved_arrow n th w i j) C) as (Hi & Hj & H). rewrite to_dag_loop_spec in * by auto.
  destruct (Nat.eqb i j); [tauto|]. unfold resolved in *. destruct (if Nat.ltb i j then _ else _); [|tauto].
  destruct (cut_val th w i j) as [[V _]|[V _]]; auto. congruence.
Qed.

Theorem C67_discovered_dag (ord : list (list nat) -> list (list nat)) (n : nat) (th : option Z) (w : matrix) :
  (forall l, Permutation (ord l) l) -> nonneg n w ->
  exists m', discovered ord n th w = Ok m' /\ acyclic (arrow n m') /\
    (forall i j, arrow n m' i j -> candidate n th w i j /\ m' i j = w i j) /\
    (forall i j, candidate n th w i j -> ~ reach (candidate n th w) j i -> m' i j = w i j) /\
    (forall i j, candidate n th w i j -> m' i j <> w i j ->
      exists x y, (x, y) <> (i, j) /\ candidate n th w x y /\ (w i j <= w x y)%Z /\
        reach (candidate n th w) y i /\ reach (candidate n th w) j x).
Proof.
  intros Ho Hw. set (r := to_dag_loop n (cut th w)).
  assert (RA : forall i j, arrow n r i j <-> candidate n th w i j) by (intros; apply resolved_arrow).
  assert (RV : forall i j, i < n -> j < n -> r i j <> 0%Z -> r i j = w i j).
  { intros i j Hi Hj H. apply resolved_val, RA. split; auto. }
  assert (Hn : nonneg n r).
  { intros i j Hi Hj. destruct (Z.eq_dec (r i j) 0) as [->|N]; [lia|]. rewrite RV; auto. }
  assert (Hd : no_diagonal n r).
  { intros i Hi. unfold r. rewrite to_dag_loop_spec, Nat.eqb_refl; auto. }
  destruct (@C34_trim_cycle_partial ord n r Ho Hn Hd) as (m' & E & Hs & AC). exists m'. split; [exact E|]. split; [exact AC|].
  assert (RR : forall a b, reach (arrow n r) a b <-> reach (candidate n th w) a b) by (apply reach_congr; exact RA).
  assert (A1 : forall i j, arrow n m' i j -> candidate n th w i j /\ m' i j = w i j).
  { intros i j (Hi & Hj & H). destruct (Hs i j Hi Hj) as [|Hx]; [tauto|]. rewrite Hx in *. split; [apply RA; split; auto|auto]. }
  assert (A3 : forall i j, candidate n th w i j -> m' i j <> w i j ->
      exists x y, (x, y) <> (i, j) /\ candidate n th w x y /\ (w i j <= w x y)%Z /\
        reach (candidate n th w) y i /\ reach (candidate n th w) j x).
  { intros i j C H. pose proof C as ((Hi & Hj & _) & _). pose proof (proj2 (RA i j) C) as Ar. destruct (Hs i j Hi Hj) as [H0|Hx].
    - destruct (@C35_dropped ord n r m' i j Ho Hn Hd E Ar H0) as (x & y & N & [Hxy _] & R1 & R2 & W).
      exists x, y. split; auto. split; [now apply RA|]. destruct Hxy as (Hx & Hy & Hz). rewrite !RV in W; auto; [|apply Ar].
      split; auto. split; now apply RR.
    - exfalso. apply H. rewrite Hx. apply RV; auto. apply Ar. }
  split; [exact A1|]. split; [|exact A3]. intros i j C NC.
  destruct (Z.eq_dec (m' i j) (w i j)) as [|N]; auto. exfalso. apply NC.
  destruct (A3 i j C N) as (x & y & _ & Hxy & _ & R1 & R2). apply reach_trans with x; auto. apply reach_step with y; auto.
Qed.

(** ** Non-vacuity *)
(** 0 -> 1 -> 2 -> 0 with weights 3, 2, 1, 2 -> 3 with weight 4 *)
Definition triangle : matrix := fun i j =>
  match i, j with 0, 1 => 3%Z | 1, 2 => 2%Z | 2, 0 => 1%Z | 2, 3 => 4%Z | _, _ => 0%Z end.
Definition table (n : nat) (m : matrix) : list (list Z) := map (fun i => map (m i) (seq 0 n)) (seq 0 n).
Example triangle_meets : nonneg 4 triangle /\ no_diagonal 4 triangle /\ on_cycle 4 triangle 2 0.
Proof.
  split; [|split].
  - intros i j _ _. unfold triangle. destruct i as [|[|[|i]]], j as [|[|[|[|j]]]]; lia.
  - intros i _. unfold triangle. now destruct i as [|[|[|i]]].
  - assert (A : arrow 4 triangle 2 0 /\ arrow 4 triangle 0 1 /\ arrow 4 triangle 1 2) by (repeat split; try lia; discriminate).
    destruct A as (A1 & A2 & A3). split; auto. eapply reach_step; [exact A2|]. eapply reach_step; [exact A3|constructor].
Qed.
Example triangle_trimmed :
  (do m' <- trim_cycle 4 triangle (fun l => l) ; Ok (table 4 m')) = Ok [[0; 3; 0; 0]; [0; 0; 2; 0]; [0; 0; 0; 4]; [0; 0; 0; 0]]%Z.
Proof. vm_compute. reflexivity. Qed.
Example triangle_dict : matrix2dict 4 triangle ["a"; "b"; "c"; "d"]%string (Some 1) =
  Ok [("a", ["c"]); ("b", ["a"]); ("c", ["b"]); ("d", ["c"])]%string.
Proof. vm_compute. reflexivity. Qed.
Example two_cycle : (do m' <- discovered (fun l => l) 3 (Some 2%Z) (fun i j => match i, j with 0, 1 => 3%Z | 1, 0 => 5%Z | 1, 2 => 1%Z | 1, 1 => 7%Z | 0, 2 => 4%Z | 2, 0 => 4%Z | _, _ => 0%Z end) ; Ok (table 3 m'))
  = Ok [[0; 0; 4]; [5; 0; 0]; [0; 0; 0]]%Z.
Proof. vm_compute. reflexivity. Qed.

Print Assumptions C34_trim_cycle_partial.
Print Assumptions C34_refuted_self_loop.
Print Assumptions C35_acyclic_unchanged.
Print Assumptions C35_dropped.
Print Assumptions C35_kept.
Print Assumptions C35_dropped_lightest.
Print Assumptions C36_direct_causes.
Print Assumptions C36_all_causes.
Print Assumptions C36_refuted_depth2.
Print Assumptions C37_dataframe.
Print Assumptions C37_refuted_ndarray.
Print Assumptions C67_discovered_dag.
