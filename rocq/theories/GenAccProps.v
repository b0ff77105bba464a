(** C249: count_accuracy (ylearn/exp_dataset/gen.py). *)
From Coq Require Import ZArith Reals String List Bool Lia Lra.
From Verif Require Import Base GenModel GenProps.
Unset Implicit Arguments.
Local Notation length := List.length.
Local Open Scope string_scope.
Local Open Scope list_scope.
Local Open Scope nat_scope.

(** ** C249: count_accuracy *)
(** the adjacency matrix of a directed graph without loops, each edge in one direction *)
Definition proper (d : nat) (M : zmat) : Prop :=
  binary d M /\ (forall i, i < d -> M i i = 0%Z) /\ forall i j, i < d -> j < d -> M i j = 1%Z -> M j i = 0%Z.
(** an estimate: entries 0, 1 and -1 (undirected), no loops, each edge entered once *)
Definition estimate (d : nat) (M : zmat) : Prop :=
  (forall i j, i < d -> j < d -> (M i j = 0 \/ M i j = 1 \/ M i j = -1)%Z) /\ (forall i, i < d -> M i i = 0%Z) /\
  forall i j, i < d -> j < d -> M i j <> 0%Z -> M j i = 0%Z.
(** number of cells with P *)
Definition count (d : nat) (P : nat -> nat -> bool) : Z := sumZ d (fun i => sumZ d (fun j => if P i j then 1 else 0)%Z).
(** number of pairs j < i with P *)
Definition count_pairs (d : nat) (P : nat -> nat -> bool) : Z := sumZ d (fun i => sumZ d (fun j => if Nat.ltb j i then (if P i j then 1 else 0) else 0)%Z).
Definition one (M : zmat) i j : bool := Z.eqb (M i j) 1.
Definition adjacent (M : zmat) (i j : nat) : bool := nzZ M i j || nzZ M j i.
(** the pair is adjacent in one graph only, or estimated in the wrong direction *)
Definition wrong (T E : zmat) (i j : nat) : bool :=
  xorb (adjacent T i j) (adjacent E i j) || (one E i j && negb (one T i j)) || (one E j i && negb (one T j i)).

Lemma list_prod_count : forall (f : nat * nat -> bool) (l1 l2 : list nat),
  length (filter f (list_prod l1 l2)) = fold_right plus 0 (map (fun i => length (filter (fun j => f (i, j)) l2)) l1).
Proof.
  intros f. induction l1 as [|a l1 IH]; intros l2; [reflexivity|]. cbn [list_prod map fold_right]. rewrite filter_app, app_length, IH. f_equal.
  induction l2 as [|b l2 IH2]; [reflexivity|]. cbn [map filter]. destruct (f (a, b)); cbn [length]; rewrite IH2; reflexivity.
Qed.
Lemma cells_count : forall d P, Z.of_nat (length (cells_of d P)) = count d P.
Proof.
  intros d P. unfold cells_of, cells, count. rewrite list_prod_count. cbn [fst snd].
  assert (I : forall a, Z.of_nat (length (filter (fun j => P a j) (seq 0 d))) = sumZ d (fun j => if P a j then 1 else 0)%Z).
  { intros a. unfold sumZ. induction (seq 0 d) as [|b l IH]; [reflexivity|]. cbn [filter map fold_right]. destruct (P a b); cbn [length]; lia. }
  unfold sumZ at 1. set (f := fun i => length (filter (fun j => P i j) (seq 0 d))). set (g := fun i => sumZ d (fun j => if P i j then 1 else 0)%Z).
  change (forall a, Z.of_nat (f a) = g a) in I. clearbody f g. induction (seq 0 d) as [|a l IH]; [reflexivity|]. cbn [map fold_right]. rewrite Nat2Z.inj_add, IH, I. reflexivity.
Qed.
Lemma inb_In : forall l c, inb l c = true <-> In c l.
Proof.
  intros l [i j]. unfold inb. rewrite existsb_exists. cbn [fst snd]. split.
  - intros ([a b] & Hin & H). cbn [fst snd] in H. apply andb_prop in H. destruct H as [A B]. apply Nat.eqb_eq in A, B. subst. exact Hin.
  - intros H. exists (i, j). split; [exact H|]. cbn [fst snd]. rewrite !Nat.eqb_refl. reflexivity.
Qed.
Lemma in_cells : forall d i j, In (i, j) (cells d) <-> i < d /\ j < d.
Proof. intros d i j. unfold cells. rewrite in_prod_iff, !in_seq. lia. Qed.
Lemma inb_cells : forall d Q c, In c (cells d) -> inb (cells_of d Q) c = Q (fst c) (snd c).
Proof.
  intros d Q c H. apply eq_true_iff_eq. rewrite inb_In. unfold cells_of. rewrite filter_In. tauto.
Qed.
Lemma inb_app : forall a b c, inb (a ++ b) c = (inb a c || inb b c)%bool.
Proof. intros a b c. unfold inb. apply existsb_app. Qed.
Lemma filter_cells : forall d P f g, (forall c, In c (cells d) -> f c = g (fst c) (snd c)) ->
  filter f (cells_of d P) = cells_of d (fun i j => P i j && g i j)%bool.
Proof.
  intros d P f g. unfold cells_of. induction (cells d) as [|c l IH]; intros H; [reflexivity|]. cbn [filter].
  specialize (IH (fun e He => H e (or_intror He))). destruct (P (fst c) (snd c)) eqn:E; cbn [filter andb].
  - rewrite (H c (or_introl eq_refl)). destruct (g (fst c) (snd c)); rewrite IH; reflexivity.
  - exact IH.
Qed.
Lemma count_ext : forall d P Q, (forall i j, i < d -> j < d -> P i j = Q i j) -> count d P = count d Q.
Proof. intros d P Q H. unfold count. apply sumZ_ext. intros i Hi. apply sumZ_ext. intros j Hj. rewrite H by assumption. reflexivity. Qed.
(** all the sizes as counts of cells *)
Lemma accuracy_counts : forall d T E,
  let skel := fun i j => (nzZ T i j || nzZ T j i)%bool in
  let und := fun i j => Z.eqb (E i j) (-1) in
  let lowE := fun i j => nzZ (tril 0 (fun i j => E i j + E j i)%Z) i j in
  let lowT := fun i j => nzZ (tril 0 (fun i j => T i j + T j i)%Z) i j in
  let rev := count d (fun i j => one E i j && negb (nzZ T i j) && nzZ T j i)%bool in
  let fpos := (count d (fun i j => one E i j && negb (skel i j)) + count d (fun i j => und i j && negb (skel i j)))%Z in
  let tpos := (count d (fun i j => one E i j && nzZ T i j) + count d (fun i j => und i j && skel i j))%Z in
  let acc := count_accuracy d T E in
  fdr acc = (IZR (rev + fpos) / IZR (Z.max (count d (one E) + count d und) 1))%R /\
  tpr acc = (IZR tpos / IZR (Z.max (count d (nzZ T)) 1))%R /\
  fpr acc = (IZR (rev + fpos) / Rmax (1 / 2 * INR d * (INR d - 1) - IZR (count d (nzZ T))) 1)%R /\
  Z.of_nat (shd acc) = (count d (fun i j => lowE i j && negb (lowT i j)) + count d (fun i j => lowT i j && negb (lowE i j)) + rev)%Z /\
  Z.of_nat (nnz acc) = (count d (one E) + count d und)%Z.
Proof.
  intros d T E skel und lowE lowT rev fpos tpos acc. unfold acc, count_accuracy. cbn [fdr tpr fpr shd nnz].
  change (nzZ (trZ T)) with (fun i j => nzZ T j i). change (fun i j => Z.eqb (E i j) 1) with (one E).
  change (fun i j => Z.eqb (E i j) (-1)) with und.
  change (nzZ (tril 0 (fun i j => E i j + E j i)%Z)) with lowE. change (nzZ (tril 0 (fun i j => T i j + T j i)%Z)) with lowT.
  unfold intersect, setdiff.
  rewrite !(filter_cells d (one E) (inb (cells_of d (nzZ T))) (nzZ T)) by (intros c Hc; apply inb_cells; exact Hc).
  rewrite !(filter_cells d (one E) (fun c => negb (inb (cells_of d (nzZ T)) c)) (fun i j => negb (nzZ T i j))) by (intros c Hc; rewrite inb_cells by exact Hc; reflexivity).
  rewrite !(filter_cells d _ (inb (cells_of d (fun i j => nzZ T j i))) (fun i j => nzZ T j i)) by (intros c Hc; apply inb_cells; exact Hc).
  assert (Hsk : forall c, In c (cells d) -> inb (cells_of d (nzZ T) ++ cells_of d (fun i j => nzZ T j i)) c = skel (fst c) (snd c)).
  { intros c Hc. rewrite inb_app, !inb_cells by exact Hc. reflexivity. }
  rewrite !(filter_cells d _ (inb (cells_of d (nzZ T) ++ cells_of d (fun i j => nzZ T j i))) skel) by exact Hsk.
  rewrite !(filter_cells d _ (fun c => negb (inb (cells_of d (nzZ T) ++ cells_of d (fun i j => nzZ T j i)) c)) (fun i j => negb (skel i j)))
    by (intros c Hc; rewrite Hsk by exact Hc; reflexivity).
  rewrite !(filter_cells d _ (fun c => negb (inb (cells_of d lowT) c)) (fun i j => negb (lowT i j))) by (intros c Hc; rewrite inb_cells by exact Hc; reflexivity).
  rewrite !(filter_cells d _ (fun c => negb (inb (cells_of d lowE) c)) (fun i j => negb (lowE i j))) by (intros c Hc; rewrite inb_cells by exact Hc; reflexivity).
  rewrite !INR_IZR_INZ, !app_length. repeat rewrite ?Nat2Z.inj_max, ?Nat2Z.inj_add. rewrite !cells_count. change (Z.of_nat 1) with 1%Z. unfold fpos, tpos, rev. auto.
Qed.
Lemma count_nonneg : forall d P, (0 <= count d P)%Z.
Proof. intros d P. rewrite <- cells_count. lia. Qed.
Lemma sumZ_le : forall d f g, (forall i, i < d -> (f i <= g i)%Z) -> (sumZ d f <= sumZ d g)%Z.
Proof. induction d as [|d IH]; intros f g H; [reflexivity|]. rewrite !sumZ_S. assert (A := IH f g (fun i Hi => H i (Nat.lt_lt_succ_r _ _ Hi))). specialize (H d (Nat.lt_succ_diag_r d)). lia. Qed.
Lemma sum2_add : forall d f g, (sumZ d (fun i => sumZ d (fun j => f i j)) + sumZ d (fun i => sumZ d (fun j => g i j)) = sumZ d (fun i => sumZ d (fun j => f i j + g i j)))%Z.
Proof. intros d f g. rewrite <- (sumZ_add d (fun i => sumZ d (fun j => f i j)) (fun i => sumZ d (fun j => g i j))). apply sumZ_ext. intros i _. symmetry. apply sumZ_add. Qed.
(** comparing two sums over all cells pair by pair *)
Lemma pairs_le : forall d (f g : nat -> nat -> Z), (forall i, i < d -> (f i i <= g i i)%Z) -> (forall i j, i < d -> j < i -> (f i j + f j i <= g i j + g j i)%Z) ->
  (sumZ d (fun i => sumZ d (fun j => f i j)) <= sumZ d (fun i => sumZ d (fun j => g i j)))%Z.
Proof.
  intros d f g H1 H2. rewrite (sum_pairs d f), (sum_pairs d g). apply Z.add_le_mono; [|apply sumZ_le; exact H1].
  apply sumZ_le. intros i Hi. apply sumZ_le. intros j Hj. destruct (Nat.ltb_spec j i); [apply H2; assumption|lia].
Qed.
Ltac cases_of HE := repeat match goal with
  | |- context [Z.eqb ?a ?b] => destruct (Z.eqb_spec a b)
  end.

(** fdr and tpr are proportions *)
Theorem C249_proportions : forall d T E, proper d T -> estimate d E ->
  (0 <= fdr (count_accuracy d T E) <= 1)%R /\ (0 <= tpr (count_accuracy d T E) <= 1)%R /\ (0 <= fpr (count_accuracy d T E))%R.
Proof.
  intros d T E (HT & HT0 & HT1) (HE & HE0 & HE1). destruct (accuracy_counts d T E) as (Hf & Ht & Hp & _ & _). rewrite Hf, Ht, Hp. clear Hf Ht Hp.
  set (rev := count d _). set (a := count d _). set (b := count d _). set (p := count d (one E)). set (u := count d _). set (t1 := count d _).
  set (t2 := count d _). set (n := count d (nzZ T)).
  assert (Hrev := count_nonneg d _ : (0 <= rev)%Z). assert (Ha := count_nonneg d _ : (0 <= a)%Z). assert (Hb := count_nonneg d _ : (0 <= b)%Z).
  assert (H1 := count_nonneg d _ : (0 <= t1)%Z). assert (H2 := count_nonneg d _ : (0 <= t2)%Z).
  assert (G1 : (rev + (a + b) <= p + u)%Z).
  { unfold rev, a, b, p, u, count. rewrite !sum2_add. apply sumZ_le. intros i Hi. apply sumZ_le. intros j Hj. unfold one, nzZ.
    destruct (Z.eqb_spec (E i j) 1), (Z.eqb_spec (E i j) (-1)), (T i j =? 0)%Z, (T j i =? 0)%Z; cbn; lia. }
  assert (G2 : (t1 + t2 <= n)%Z).
  { unfold t1, t2, n, count. rewrite sum2_add. apply pairs_le.
    - intros i Hi. unfold one, nzZ. rewrite (HE0 i Hi), (HT0 i Hi). cbn. lia.
    - intros i j Hi Hj. assert (Hj' : j < d) by lia. assert (A := HE1 i j Hi Hj'). assert (B := HE1 j i Hj' Hi). unfold one, nzZ.
      destruct (Z.eqb_spec (E i j) 1), (Z.eqb_spec (E i j) (-1)), (Z.eqb_spec (E j i) 1), (Z.eqb_spec (E j i) (-1)), (T i j =? 0)%Z, (T j i =? 0)%Z; cbn; lia. }
  assert (Q : forall x y, (0 <= x <= y)%Z -> (0 <= IZR x / IZR (Z.max y 1) <= 1)%R).
  { intros x y Hxy. assert (Hm : (0 < IZR (Z.max y 1))%R) by (apply IZR_lt; lia). assert (Hx : (0 <= IZR x)%R) by (apply IZR_le; lia).
    assert (Hxm : (IZR x <= IZR (Z.max y 1))%R) by (apply IZR_le; lia). split.
    - apply Rmult_le_pos; [exact Hx|]. apply Rlt_le, Rinv_0_lt_compat. exact Hm.
    - apply (Rmult_le_reg_r (IZR (Z.max y 1))); [exact Hm|]. unfold Rdiv. rewrite Rmult_assoc, Rinv_l by lra. lra. }
  split; [apply Q; lia|]. split; [apply Q; lia|]. apply Rmult_le_pos; [apply IZR_le; lia|]. apply Rlt_le, Rinv_0_lt_compat.
  apply Rlt_le_trans with 1%R; [lra|apply Rmax_r].
Qed.
(** fpr is not: three reversed edges give 3 *)
Definition complete3 : zmat := fun i j => if Nat.ltb i j then 1%Z else 0%Z.
Theorem C249_fpr_refuted : exists d T E, proper d T /\ estimate d E /\ fpr (count_accuracy d T E) = 3%R.
Proof.
  exists 3, complete3, (trZ complete3). unfold complete3, trZ. split; [split; [|split]|split; [split; [|split]|]].
  - intros i j _ _. destruct (Nat.ltb i j); auto.
  - intros i _. rewrite Nat.ltb_irrefl. reflexivity.
  - intros i j _ _. destruct (Nat.ltb_spec i j), (Nat.ltb_spec j i); try lia.
  - intros i j _ _. destruct (Nat.ltb j i); auto.
  - intros i _. rewrite Nat.ltb_irrefl. reflexivity.
  - intros i j _ _. destruct (Nat.ltb_spec i j), (Nat.ltb_spec j i); try lia.
  - unfold count_accuracy. cbn [fpr]. match goal with |- (INR ?a / Rmax (_ - INR ?b) _)%R = _ => change a with 3; change b with 3 end.
    rewrite Rmax_right by (cbn; lra). cbn. lra.
Qed.
Lemma count_zero : forall d P, (forall i j, i < d -> j < d -> P i j = false) -> count d P = 0%Z.
Proof. intros d P H. unfold count. apply sumZ_zero. intros i Hi. apply sumZ_zero. intros j Hj. rewrite H by assumption. reflexivity. Qed.
(** an estimate equal to the truth has no error *)
Theorem C249_perfect : forall d T, proper d T -> let acc := count_accuracy d T T in
  fdr acc = 0%R /\ fpr acc = 0%R /\ shd acc = 0 /\ Z.of_nat (nnz acc) = edges d T /\ tpr acc = if Z.eqb (edges d T) 0 then 0%R else 1%R.
Proof.
  intros d T (HT & HT0 & HT1) acc. destruct (accuracy_counts d T T) as (Hf & Ht & Hp & Hs & Hn). fold acc in Hf, Ht, Hp, Hs, Hn.
  assert (Bd : forall i j, i < d -> j < d -> one T i j = nzZ T i j /\ Z.eqb (T i j) (-1) = false).
  { intros i j Hi Hj. unfold one, nzZ. destruct (HT i j Hi Hj) as [-> | ->]; split; reflexivity. }
  assert (Ee : edges d T = count d (nzZ T)).
  { unfold edges, count. apply sumZ_ext. intros i Hi. apply sumZ_ext. intros j Hj. unfold nzZ. destruct (HT i j Hi Hj) as [-> | ->]; reflexivity. }
  rewrite (count_zero d (fun i j => one T i j && negb (nzZ T i j) && nzZ T j i)%bool) in Hf, Hp, Hs by (intros i j Hi Hj; rewrite (proj1 (Bd i j Hi Hj)); destruct (nzZ T i j); reflexivity).
  rewrite (count_zero d (fun i j => one T i j && negb (nzZ T i j || nzZ T j i))%bool) in Hf, Hp by (intros i j Hi Hj; rewrite (proj1 (Bd i j Hi Hj)); destruct (nzZ T i j); reflexivity).
  rewrite (count_zero d (fun i j => Z.eqb (T i j) (-1) && negb (nzZ T i j || nzZ T j i))%bool) in Hf, Hp by (intros i j Hi Hj; rewrite (proj2 (Bd i j Hi Hj)); reflexivity).
  rewrite (count_zero d (fun i j => Z.eqb (T i j) (-1) && (nzZ T i j || nzZ T j i))%bool) in Ht by (intros i j Hi Hj; rewrite (proj2 (Bd i j Hi Hj)); reflexivity).
  rewrite (count_zero d (fun i j => Z.eqb (T i j) (-1))) in Hn by (intros i j Hi Hj; apply Bd; assumption).
  rewrite (count_ext d (fun i j => one T i j && nzZ T i j)%bool (nzZ T)) in Ht by (intros i j Hi Hj; rewrite (proj1 (Bd i j Hi Hj)); destruct (nzZ T i j); reflexivity).
  rewrite (count_ext d (one T) (nzZ T)) in Hn by (intros i j Hi Hj; apply Bd; assumption).
  rewrite !count_zero in Hs by (intros i j _ _; match goal with |- (?b && negb ?b)%bool = false => destruct b; reflexivity end).
  split; [rewrite Hf; unfold Rdiv; cbn; apply Rmult_0_l|]. split; [rewrite Hp; unfold Rdiv; cbn; apply Rmult_0_l|]. split; [lia|]. split; [lia|].
  rewrite Ht, Ee. rewrite Z.add_0_r. assert (N := count_nonneg d (nzZ T)). destruct (Z.eqb_spec (count d (nzZ T)) 0) as [E0|E0].
  - rewrite E0. cbn. unfold Rdiv. apply Rmult_0_l.
  - rewrite Z.max_l by lia. unfold Rdiv. apply Rinv_r. apply IZR_neq. exact E0.
Qed.
(** shd counts the pairs of vertices that are wrong *)
Theorem C249_shd : forall d T E, proper d T -> estimate d E -> Z.of_nat (shd (count_accuracy d T E)) = count_pairs d (wrong T E).
Proof.
  intros d T E (HT & HT0 & HT1) (HE & HE0 & HE1). destruct (accuracy_counts d T E) as (_ & _ & _ & Hs & _). rewrite Hs. clear Hs. unfold count, count_pairs.
  rewrite !sum2_add, sum_pairs. match goal with |- (_ + sumZ d ?g = _)%Z => rewrite (sumZ_zero d g) end.
  2:{ intros i Hi. unfold nzZ, tril, one. rewrite (HE0 i Hi), (HT0 i Hi). cbn. destruct (_ <=? _)%Z; reflexivity. }
  rewrite Z.add_0_r. apply sumZ_ext. intros i Hi. apply sumZ_ext. intros j Hj. destruct (Nat.ltb_spec j i) as [L|L]; [|reflexivity].
  assert (A := HE1 i j Hi Hj). assert (B := HE1 j i Hj Hi). assert (C := HT1 i j Hi Hj). assert (D := HT1 j i Hj Hi).
  unfold wrong, adjacent, nzZ, one, tril. destruct (Z.leb_spec (Z.of_nat j) (Z.of_nat i + 0)) as [L1|L1]; [|lia].
  destruct (Z.leb_spec (Z.of_nat i) (Z.of_nat j + 0)) as [L2|L2]; [lia|].
  destruct (HE i j Hi Hj) as [X|[X|X]], (HE j i Hj Hi) as [Y|[Y|Y]]; rewrite X, Y in *; try (exfalso; lia);
    destruct (HT i j Hi Hj) as [Z1|Z1], (HT j i Hj Hi) as [Z2|Z2]; rewrite Z1, Z2 in *; try (exfalso; lia); reflexivity.
Qed.
(** so it is 0 only if every pair is adjacent in both or in none, and no edge is reversed *)
Theorem C249_shd_zero : forall d T E, proper d T -> estimate d E ->
  (shd (count_accuracy d T E) = 0 <-> forall i j, i < d -> j < d -> adjacent T i j = adjacent E i j /\ (E i j = 1%Z -> T i j = 1%Z)).
Proof.
  intros d T E HT HE. assert (H := C249_shd d T E HT HE). destruct HT as (HT & HT0 & HT1), HE as (HE & HE0 & HE1). split.
  - intros Hz. rewrite Hz in H. cbn in H.
    assert (G : forall d f, (forall i, i < d -> (0 <= f i)%Z) -> sumZ d f = 0%Z -> forall i, i < d -> f i = 0%Z).
    { clear. induction d as [|d IH]; intros f Hf H i Hi; [lia|]. rewrite sumZ_S in H.
      assert (A : (0 <= sumZ d f)%Z) by (apply Z.le_trans with (sumZ d (fun _ => 0%Z)); [rewrite sumZ_zero by reflexivity; lia|apply sumZ_le; intros k Hk; apply Hf; lia]).
      assert (B := Hf d (Nat.lt_succ_diag_r d)). destruct (Nat.eq_dec i d) as [->|N]; [lia|]. apply IH; [intros k Hk; apply Hf; lia|lia|lia]. }
    assert (W : forall i j, i < d -> j < i -> wrong T E i j = false).
    { intros i j Hi Hj. unfold count_pairs in H. symmetry in H.
      assert (N : forall i j, (0 <= (if Nat.ltb j i then (if wrong T E i j then 1 else 0) else 0))%Z) by (intros a b; destruct (Nat.ltb b a), (wrong T E a b); lia).
      assert (A' : sumZ d (fun j0 => if Nat.ltb j0 i then (if wrong T E i j0 then 1 else 0) else 0)%Z = 0%Z).
      { apply (G d (fun a => sumZ d (fun j0 => if Nat.ltb j0 a then (if wrong T E a j0 then 1 else 0) else 0)%Z)); [|exact H|exact Hi].
        intros a _. apply Z.le_trans with (sumZ d (fun _ => 0%Z)); [rewrite sumZ_zero by reflexivity; lia|]. apply sumZ_le. intros b _. apply N. }
      assert (B := G d _ (fun b Hb => N i b) A' j (Nat.lt_trans _ _ _ Hj Hi)). cbn beta in B. destruct (Nat.ltb_spec j i); [|lia].
      destruct (wrong T E i j); [discriminate|reflexivity]. }
    assert (S : forall i j, i < d -> j < d -> i <> j -> adjacent T i j = adjacent E i j /\ (E i j = 1%Z -> T i j = 1%Z)).
    { assert (S1 : forall i j, wrong T E i j = false -> (adjacent T i j = adjacent E i j /\ (E i j = 1%Z -> T i j = 1%Z)) /\ (E j i = 1%Z -> T j i = 1%Z)).
      { intros i j X. unfold wrong in X. apply orb_false_iff in X. destruct X as [X Y]. apply orb_false_iff in X. destruct X as [X Z].
        unfold one in Y, Z. split; [split|].
        - destruct (adjacent T i j), (adjacent E i j); cbn in X; congruence.
        - intros e. rewrite e, Z.eqb_refl in Z. cbn in Z. destruct (Z.eqb_spec (T i j) 1); [assumption|discriminate].
        - intros e. rewrite e, Z.eqb_refl in Y. cbn in Y. destruct (Z.eqb_spec (T j i) 1); [assumption|discriminate]. }
      intros i j Hi Hj N. destruct (Nat.lt_ge_cases j i) as [L|L]; [apply (S1 i j (W i j Hi L))|].
      destruct (S1 j i (W j i Hj ltac:(lia))) as [[X _] Y]. split; [|exact Y]. unfold adjacent in *. rewrite (orb_comm (nzZ T i j)), (orb_comm (nzZ E i j)). exact X. }
    intros i j Hi Hj. destruct (Nat.eq_dec i j) as [->|N]; [|apply S; assumption]. unfold adjacent, nzZ. rewrite (HT0 j Hj), (HE0 j Hj). split; [reflexivity|discriminate].
  - intros Hw. assert (Z0 : count_pairs d (wrong T E) = 0%Z).
    { unfold count_pairs. apply sumZ_zero. intros i Hi. apply sumZ_zero. intros j Hj. destruct (Nat.ltb j i); [|reflexivity].
      destruct (Hw i j Hi Hj) as [X Y]. destruct (Hw j i Hj Hi) as [_ Z]. unfold wrong. rewrite X. unfold one.
      destruct (Z.eqb_spec (E i j) 1) as [e|e], (Z.eqb_spec (E j i) 1) as [f|f]; try rewrite (Y e); try rewrite (Z f); cbn;
        destruct (adjacent E i j); reflexivity. }
    lia.
Qed.
(** for directed estimates: only if they are equal *)
Theorem C249_shd_equal : forall d T E, proper d T -> proper d E -> (shd (count_accuracy d T E) = 0 <-> forall i j, i < d -> j < d -> E i j = T i j).
Proof.
  intros d T E HT (HE & HE0 & HE1). assert (HE' : estimate d E).
  { split; [intros i j Hi Hj; destruct (HE i j Hi Hj); auto|]. split; [exact HE0|]. intros i j Hi Hj N. apply HE1; [assumption|assumption|]. destruct (HE i j Hi Hj); tauto. }
  rewrite (C249_shd_zero d T E HT HE'). destruct HT as (HT & HT0 & HT1). split.
  - intros H i j Hi Hj. destruct (H i j Hi Hj) as [A B]. destruct (H j i Hj Hi) as [_ C]. unfold adjacent, nzZ in A.
    destruct (HE i j Hi Hj) as [e|e], (HT i j Hi Hj) as [t|t]; try congruence.
    + destruct (HE j i Hj Hi) as [e2|e2]; rewrite e, e2, t in A; cbn in A; [discriminate|]. specialize (C e2). specialize (HT1 i j Hi Hj t). congruence.
    + specialize (B e). congruence.
  - intros H i j Hi Hj. unfold adjacent, nzZ. rewrite (H i j Hi Hj), (H j i Hj Hi). split; [reflexivity|tauto].
Qed.
(** every binary DAG qualifies as the truth *)
Theorem C249_dags : forall d T, binary d T -> dag d (nzZ T) -> proper d T.
Proof.
  intros d T HT HD. split; [exact HT|]. split.
  - intros i Hi. destruct (HT i i Hi Hi) as [E|E]; [exact E|]. exfalso. apply (HD i). apply walk_edge; [exact Hi|exact Hi|]. unfold nzZ. rewrite E. reflexivity.
  - intros i j Hi Hj E. destruct (HT j i Hj Hi) as [E2|E2]; [exact E2|]. exfalso. apply (HD i).
    apply walk_step with (k := j); [exact Hi|exact Hj|unfold nzZ; rewrite E; reflexivity|]. apply walk_edge; [exact Hj|exact Hi|]. unfold nzZ. rewrite E2. reflexivity.
Qed.
