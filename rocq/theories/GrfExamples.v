(** An environment that meets the hypotheses of the theorems about GRForest: every regular matrix has an inverse. *)
From Coq Require Import ZArith Reals Lra ClassicalEpsilon FunctionalExtensionality.
From Verif Require Import Base EstUtilsModel MetaModel TreeCritModel TreeCritProps SplitterModel SplitterSpec TreeSpec TreeExamples
  BestFirstModel BestFirstProps GrfCritModel GrfCritSpec GrfModel GrfSpec GrfProofs GrfCritOk.
Unset Implicit Arguments.
Local Notation length := List.length.
Local Open Scope R_scope.

Lemma times_S p m x j : times (S p) m x j = m j 0%nat * x 0%nat + times p (fun a b => m a (S b)) (fun b => x (S b)) j.
Proof. unfold times. cbn [seq map]. rewrite Rsum_cons. f_equal. rewrite <- seq_shift, map_map. reflexivity. Qed.

(** the rows other than r *)
Definition other (r j : nat) : nat := if (j <? r)%nat then j else S j.
Lemma other_lt r p j : (j < p)%nat -> (other r j < S p)%nat.
Proof. unfold other. destruct (Nat.ltb_spec j r); lia. Qed.
Lemma other_onto r p j : (j < S p)%nat -> (r < S p)%nat -> j = r \/ exists q, (q < p)%nat /\ j = other r q.
Proof.
  intros Hj Hr. destruct (Nat.lt_trichotomy j r) as [L|[->|L]]; [right|now left|right].
  - exists j. unfold other. destruct (Nat.ltb_spec j r); [split; [lia|auto]|lia].
  - exists (j - 1)%nat. unfold other. destruct (Nat.ltb_spec (j - 1) r); [lia|split; lia].
Qed.

(** Gaussian elimination of the first unknown with row r *)
Section Eliminate.
Variables (p : nat) (m : matrix) (r : nat).
Hypotheses (Hr : (r < S p)%nat) (Hp : m r 0%nat <> 0).
Definition reduced (j k : nat) : R := m (other r j) (S k) - m (other r j) 0%nat / m r 0%nat * m r (S k).
Definition first_of (b : R) (x : nat -> R) : R := (b - times p (fun a k => m a (S k)) x r) / m r 0%nat.
Definition extend (b : R) (x : nat -> R) (k : nat) : R := match k with O => first_of b x | S k => x k end.

Lemma extend_pivot b x : times (S p) m (extend b x) r = b.
Proof.
  rewrite times_S. cbn [extend]. change (fun b0 : nat => x b0) with x. unfold first_of.
  set (q := times p _ x r). clearbody q. field. auto.
Qed.
Lemma extend_other b x j : (j < p)%nat ->
  times (S p) m (extend b x) (other r j) = times p reduced x j + m (other r j) 0%nat / m r 0%nat * b.
Proof.
  intros Hj. rewrite times_S. cbn [extend]. change (fun b0 : nat => x b0) with x. unfold first_of.
  assert (T : times p reduced x j = times p (fun a k => m a (S k)) x (other r j) - m (other r j) 0%nat / m r 0%nat * times p (fun a k => m a (S k)) x r).
  { unfold times, reduced. rewrite <- Rsum_scale. induction (seq 0 p) as [|a l IH]; cbn [map]; rewrite ?Rsum_cons; [cbn; lra|]. rewrite IH. ring. }
  rewrite T. set (q := times p _ x r). set (q' := times p _ x (other r j)). clearbody q q'. field. auto.
Qed.
End Eliminate.

Lemma regular_onto p : forall m, regular p m -> forall b, exists x, forall j, (j < p)%nat -> times p m x j = b j.
Proof.
  induction p as [|p IH]; intros m G b; [exists (fun _ => 0); lia|].
  assert (C : (exists r, (r < S p)%nat /\ m r 0%nat <> 0) \/ forall r, (r < S p)%nat -> m r 0%nat = 0).
  { generalize (S p). intros q. induction q as [|q IHq]; [right; lia|]. destruct IHq as [(r & R1 & R2)|A]; [left; exists r; split; [lia|auto]|].
    destruct (Req_EM_T (m q 0%nat) 0); [right|left; exists q; split; [lia|auto]]. intros r Hr. destruct (Nat.eq_dec r q); [now subst|apply A; lia]. }
  destruct C as [(r & R1 & R2)|A].
  - destruct (IH (reduced m r)) with (b := fun j => b (other r j) - m (other r j) 0%nat / m r 0%nat * b r) as (x & Hx).
    + intros x Hx j Hj. pose proof (G (extend p m r 0 x)) as K. specialize (K ltac:(
        intros q Hq; destruct (other_onto r p q Hq R1) as [->|(q' & Q1 & ->)];
          [now apply extend_pivot|rewrite extend_other, Hx by auto; lra])). apply (K (S j)). lia.
    + exists (extend p m r (b r) x). intros j Hj. destruct (other_onto r p j Hj R1) as [->|(q & Q1 & ->)]; [now apply extend_pivot|].
      rewrite extend_other, Hx by auto. lra.
  - exfalso. specialize (G (fun k => match k with O => 1 | _ => 0 end)).
    assert (1 = 0); [|lra]. apply (G ltac:(intros j Hj; rewrite times_S, A by auto; unfold times; rewrite Rsum_map_0; [lra|intros; lra]) 0%nat). lia.
Qed.

Lemma times_minus p m x y j : times p m (fun k => x k - y k) j = times p m x j - times p m y j.
Proof. unfold times. induction (seq 0 p) as [|a l IH]; cbn [map]; rewrite ?Rsum_cons; [cbn; lra|]. rewrite IH. ring. Qed.

(** Every regular matrix has an inverse. *)
Theorem C160_regular_inverse p m : regular p m -> exists g, inverse_of p g m.
Proof.
  intros G. pose proof (regular_onto p m G) as O.
  assert (B : exists g : matrix, forall k, (k < p)%nat -> forall j, (j < p)%nat -> times p m (fun i => g i k) j = (if (j =? k)%nat then 1 else 0)).
  { assert (A : forall q, exists g : matrix, forall k, (k < q)%nat -> forall j, (j < p)%nat -> times p m (fun i => g i k) j = (if (j =? k)%nat then 1 else 0)).
    { induction q as [|q (g & Hg)]; [exists (fun _ _ => 0); lia|]. destruct (O (fun j => if (j =? q)%nat then 1 else 0)) as (x & Hx).
      exists (fun i k => if (k =? q)%nat then x i else g i k). intros k Hk j Hj. destruct (Nat.eqb_spec k q) as [->|N]; [now apply Hx|apply Hg; auto; lia]. }
    apply A. }
  destruct B as (g & Hg). exists g.
  assert (Right : forall x j, (j < p)%nat -> times p m (times p g x) j = x j).
  { intros x j Hj. unfold times at 1.
    transitivity (Rsum (map (fun k => Rsum (map (fun i => m j i * g i k * x k) (seq 0 p))) (seq 0 p))).
    { rewrite Rsum_swap. apply Rsum_map_ext. intros i _. unfold times. rewrite <- Rsum_scale. apply Rsum_map_ext. intros; ring. }
    transitivity (Rsum (map (fun k => (if (j =? k)%nat then 1 else 0) * x k) (seq 0 p))); [|now apply sum_delta].
    apply Rsum_map_ext. intros k Hk. apply in_seq in Hk. rewrite <- (Hg k) by lia. rewrite Rsum_scale_r. reflexivity. }
  intros x j Hj. split; [|auto].
  assert (Z : times p g (times p m x) j - x j = 0); [|lra].
  apply (G (fun j => times p g (times p m x) j - x j)); [|auto]. intros k Hk.
  transitivity (times p m (times p g (times p m x)) k - times p m x k); [|rewrite Right by auto; lra].
  apply times_minus.
Qed.
Print Assumptions C160_regular_inverse.

(** exact inversion, samples in order, seeds in order, the sort of the code, the first largest record; the solver of a
    single regressor without intercept *)
Definition exact_inv (p : nat) (m : matrix) : res matrix :=
  match excluded_middle_informative (exists g, inverse_of p g m) with
  | left H => Ok (proj1_sig (constructive_indefinite_description _ H))
  | right _ => Err ValueError
  end.
Definition la1 : linalg := mkLa
  (fun _ l => fun _ => Rsum (map (fun e => nth 0 (fst e) 0 * snd e) l) / Rsum (map (fun e => nth 0 (fst e) 0 * nth 0 (fst e) 0) l))
  (fun _ m => fun j k => / m j k).
Definition E1 : fenv := mkEnv la1 exact_inv (fun _ k => k) (fun _ n k => firstn k (seq 0 n)) (fun _ => env0) first_largest.

Theorem C160_usable : usable E1.
Proof.
  split.
  - intros p l l' H. cbn. apply functional_extensionality. intros _. apply (f_equal2 Rdiv); exact (Rsum_map_perm _ H).
  - intros p m G. apply C160_regular_inverse in G. cbn. unfold exact_inv.
    destruct (excluded_middle_informative _) as [H|H]; [|contradiction]. eexists. split; [reflexivity|].
    apply (proj2_sig (constructive_indefinite_description _ H)).
  - intros seed n k H. cbn. split; [|split].
    + rewrite firstn_length, seq_length. lia.
    + apply firstn_NoDup', seq_NoDup.
    + intros i Hi. apply firstn_In' in Hi. apply in_seq in Hi. lia.
  - intros seed. apply C96_sane.
  - apply C98_takes_largest.
Qed.
Print Assumptions C160_usable.
