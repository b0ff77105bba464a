(** C250: simulate_linear_sem_with_A and dygen (ylearn/exp_dataset/gen.py); concrete cases for C246-C250. *)
From Coq Require Import ZArith Reals String List Bool Lia Lra FunctionalExtensionality.
From Verif Require Import Base GenModel GenProps GenAccProps.
Unset Implicit Arguments.
Local Notation length := List.length.
Local Open Scope string_scope.
Local Open Scope list_scope.
Local Open Scope nat_scope.

Lemma add_lags_ok : forall d A lag sem sc zl gl j, adds_noise sem -> forall ks c, exists r, add_lags d A lag sem sc zl gl j ks c = Ok r /\
  forall i, r i = (c i + sumR ks (fun k => sum_to d (fun p => lag k i p * A k p j) + zl k (sc j) j i))%R.
Proof.
  intros d A lag sem sc zl gl j Hs. induction ks as [|k ks IH]; intros c; cbn [add_lags].
  - eexists. split; [reflexivity|]. intros i. unfold sumR. cbn. ring.
  - rewrite row_wise_add by exact Hs. cbn [bind]. match goal with |- exists r, add_lags _ _ _ _ _ _ _ _ _ ?c2 = _ /\ _ => destruct (IH c2) as (r & Hr & Hi) end.
    exists r. split; [exact Hr|]. intros i. rewrite Hi, parents_sum. unfold sumR. cbn [map fold_right]. ring.
Qed.
Lemma lagged_local : forall d A B lag ord sem sc z g zl gl, local d (nzR B) (lagged_column d A B lag ord sem sc z g zl gl).
Proof.
  intros d A B lag ord sem sc z g zl gl j X Y H. unfold lagged_column.
  assert (E : (fun i => sumR (parents d (nzR B) j) (fun p => X i p * B p j)%R) = (fun i => sumR (parents d (nzR B) j) (fun p => Y i p * B p j)%R)).
  { apply functional_extensionality. intros i. unfold sumR. f_equal. apply map_ext_in.
    intros p Hp. apply in_parents in Hp. destruct Hp as [Hp He]. rewrite (H p Hp He). reflexivity. }
  rewrite E. reflexivity.
Qed.
(** One block given the past ones: X = X B + sum over the lags of (lag_k A_k + noise_k); the contemporaneous equation adds no noise *)
Theorem C250_block : forall d is_dag order A B lag ord sem s z g zl gl, decides_dag d is_dag -> sorts_dags d order -> dag d (nzR B) -> noise_fits d s -> adds_noise sem ->
  exists X, simulate_linear_sem_with_A d is_dag order A B lag ord sem s z g zl gl = Ok X /\
  forall i j, j < d -> X i j = (sum_to d (fun p => X i p * B p j) + sum_to ord (fun k => sum_to d (fun p => lag k i p * A k p j) + zl k (scale_of s j) j i))%R.
Proof.
  intros d is_dag order A B lag ord sem s z g zl gl HD HO HB Hs Hsem. destruct (scale_vec_ok d s Hs) as (sc & Es & Hsc). unfold simulate_linear_sem_with_A.
  rewrite Es. cbn [bind]. rewrite (proj2 (HD _) HB). cbn [negb]. assert (Ht := HO _ HB). rewrite (topological_length _ _ _ Ht), Nat.eqb_refl. cbn [negb].
  destruct (fill_solves d (nzR B) (lagged_column d A B lag ord sem sc z g zl gl) (order (nzR B)) (fun _ _ => 0%R) Ht (lagged_local _ _ _ _ _ _ _ _ _ _ _)) as (X & HX & HF).
  { intros j Y _. unfold lagged_column. rewrite row_wise_add by exact Hsem. cbn [bind].
    destruct (add_lags_ok d A lag sem sc zl gl j Hsem (seq 0 ord) (fun i => sumR (parents d (nzR B) j) (fun p => Y i p * B p j) + 0 * z (sc j) j i)%R) as (r & Hr & _).
    exists r. exact Hr. }
  exists X. split; [exact HX|]. intros i j Hj. destruct (HF j Hj) as (c & Hc & Hi). rewrite Hi. unfold lagged_column in Hc. rewrite row_wise_add in Hc by exact Hsem.
  cbn [bind] in Hc. destruct (add_lags_ok d A lag sem sc zl gl j Hsem (seq 0 ord) (fun i => sumR (parents d (nzR B) j) (fun p => X i p * B p j) + 0 * z (sc j) j i)%R) as (r & Hr & Hri).
  rewrite Hr in Hc. injection Hc as <-. rewrite Hri, parents_sum, sumR_to, Hsc. ring.
Qed.
(** the contemporaneous noise does not matter at all *)
Theorem C250_no_noise : forall d is_dag order A B lag ord sem s z1 z2 g zl gl, adds_noise sem ->
  simulate_linear_sem_with_A d is_dag order A B lag ord sem s z1 g zl gl = simulate_linear_sem_with_A d is_dag order A B lag ord sem s z2 g zl gl.
Proof.
  intros d is_dag order A B lag ord sem s z1 z2 g zl gl Hs. unfold simulate_linear_sem_with_A. destruct (scale_vec d s) as [sc|]; [|reflexivity]. cbn [bind].
  destruct (is_dag (nzR B)); [|reflexivity]. cbn [negb]. destruct (Nat.eqb (length (order (nzR B))) d); [|reflexivity]. cbn [negb].
  generalize (fun _ _ : nat => 0%R) as X. induction (order (nzR B)) as [|j l IH]; intros X; [reflexivity|]. cbn [fill].
  assert (E : lagged_column d A B lag ord sem sc z1 g zl gl j X = lagged_column d A B lag ord sem sc z2 g zl gl j X).
  { unfold lagged_column. rewrite !row_wise_add by exact Hs. cbn [bind]. f_equal. apply functional_extensionality. intros i. ring. }
  rewrite E. destruct (lagged_column d A B lag ord sem sc z2 g zl gl j X); [apply IH|reflexivity].
Qed.

(** dygen *)
Definition blk (l : list rmat) (t : nat) : rmat := nth t l (fun _ _ => 0%R).
Definition base_equation (d : nat) (B : rmat) (s : noise) (z : R -> nat -> nat -> R) (X : rmat) : Prop :=
  forall i j, j < d -> X i j = (sum_to d (fun p => X i p * B p j) + z (scale_of s j) j i)%R.
(** block t from the ord blocks before it: lag k is block t - ord + k, so lag 0 is the oldest *)
Definition lag_equation (d : nat) (A : nat -> rmat) (B : rmat) (ord : nat) (s : noise) (zl : nat -> R -> nat -> nat -> R) (blocks : list rmat) (t : nat) : Prop :=
  forall i j, j < d -> blk blocks t i j =
    (sum_to d (fun p => blk blocks t i p * B p j) +
     sum_to ord (fun k => sum_to d (fun p => blk blocks (t - ord + k) i p * A k p j) + zl k (scale_of s j) j i))%R.
Lemma nth_of_skipn : forall (l : list rmat) n k x, nth k (skipn n l) x = nth (n + k) l x.
Proof. induction l as [|a l IH]; intros [|n] k x; cbn [skipn plus nth]; try reflexivity; [destruct k; reflexivity|apply IH]. Qed.
Section Dygen.
  Variables (d : nat) (is_dag : (nat -> nat -> bool) -> bool) (order : (nat -> nat -> bool) -> list nat).
  Hypothesis (HD : decides_dag d is_dag) (HO : sorts_dags d order).
  Variables (A : nat -> rmat) (B : rmat) (s : noise).
  Hypothesis (HB : dag d (nzR B)) (Hs : noise_fits d s).
  Lemma gauss_adds : adds_noise "gauss". Proof. left. reflexivity. Qed.
  Lemma base_blocks_ok : forall z n t, exists l, base_blocks d is_dag order B s z t n = Ok l /\ length l = n /\
    forall k, k < n -> base_equation d B s (z (t + k)) (blk l k).
  Proof.
    intros z. induction n as [|n IH]; intros t; cbn [base_blocks]; [exists []; split; [reflexivity|split; [reflexivity|intros; lia]]|].
    destruct (C248_linear d is_dag order B "gauss" s (z t) (fun _ _ x => x) HD HO HB Hs gauss_adds) as (X & -> & HX). cbn [bind].
    destruct (IH (t + 1)) as (l & -> & Hl & Hk). cbn [bind]. exists (X :: l). split; [reflexivity|]. split; [cbn; lia|].
    intros [|k] H; [rewrite Nat.add_0_r; exact HX|]. replace (t + S k) with (t + 1 + k) by lia. apply Hk. lia.
  Qed.
  Lemma dygen_loop_ok : forall ord z zl step blocks, ord <= length blocks -> exists tl, dygen_loop d is_dag order A B ord s z zl (length blocks) step blocks = Ok (blocks ++ tl) /\
    length tl = step /\ forall t, length blocks <= t -> t < length blocks + step -> lag_equation d A B ord s (zl t) (blocks ++ tl) t.
  Proof.
    intros ord z zl. induction step as [|step IH]; intros blocks Hb; cbn [dygen_loop].
    - exists []. rewrite app_nil_r. split; [reflexivity|]. split; [reflexivity|]. intros; lia.
    - destruct (C250_block d is_dag order A B (fun k => nth k (skipn (length blocks - ord) blocks) (fun _ _ => 0%R)) ord "gauss" s (z (length blocks)) (fun _ _ x => x)
        (zl (length blocks)) (fun _ _ _ x => x) HD HO HB Hs gauss_adds) as (X & -> & HX). cbn [bind].
      assert (EL : length blocks + 1 = length (blocks ++ [X])) by (rewrite app_length; reflexivity). rewrite EL.
      destruct (IH (blocks ++ [X])) as (tl & -> & Hl & Ht); [rewrite app_length; lia|]. exists (X :: tl).
      rewrite <- app_assoc. split; [reflexivity|]. split; [cbn; lia|]. rewrite <- app_assoc in Ht. cbn [app] in Ht. rewrite <- EL in Ht.
      intros t H1 H2. destruct (Nat.eq_dec t (length blocks)) as [->|N]; [|apply Ht; lia].
      intros i j Hj. unfold blk. rewrite app_nth2, Nat.sub_diag by lia. cbn [nth]. rewrite (HX i j Hj). f_equal. apply sum_to_ext. intros k Hk. f_equal.
      apply sum_to_ext. intros p _. rewrite nth_of_skipn, app_nth1 by lia. reflexivity.
  Qed.
  (** order blocks from the structural model, then step blocks each from the order blocks before it *)
  Theorem C250_dygen : forall ord step z zl, 1 <= ord -> ord <= step ->
    exists l, dygen d is_dag order A B ord step s z zl = Ok l /\ length l = ord + step /\
    (forall t, t < ord -> base_equation d B s (z t) (blk l t)) /\ (forall t, ord <= t -> t < ord + step -> lag_equation d A B ord s (zl t) l t).
  Proof.
    intros ord step z zl H1 H2. unfold dygen. apply Nat.leb_le in H2. rewrite H2. destruct (base_blocks_ok z ord 0) as (b & -> & Hb & Hk). cbn [bind].
    destruct (dygen_loop_ok ord z zl step b) as (tl & E & Hl & Ht); [lia|]. rewrite Hb in E, Ht. rewrite E. cbn [bind].
    destruct (Nat.eqb_spec ord 0); [lia|]. exists (b ++ tl). split; [reflexivity|]. split; [rewrite app_length; lia|]. split; [|exact Ht].
    intros t H. unfold blk. rewrite app_nth1 by lia. apply Hk. exact H.
  Qed.
End Dygen.
Theorem C250_errors : forall d is_dag order A B ord step s z zl,
  (step < ord -> dygen d is_dag order A B ord step s z zl = Err AssertionError) /\
  (ord = 0 -> forall l, dygen d is_dag order A B ord step s z zl <> Ok l).
Proof.
  intros d is_dag order A B ord step s z zl. unfold dygen. split.
  - intros H. apply Nat.leb_gt in H. rewrite H. reflexivity.
  - intros -> l. cbn [Nat.leb base_blocks bind]. destruct (dygen_loop d is_dag order A B 0 s z zl 0 step []); cbn; discriminate.
Qed.

(** gen: whatever is drawn, the sample solves a structural model whose graph is an acyclic orientation of the drawn graph, with weights
    between 0.5 and 2 in absolute value *)
Theorem C248_gen : forall d is_dag order und p1 p2 S u s z, decides_dag d is_dag -> sorts_dags d order -> undirected d und -> permutes d p1 -> permutes d p2 ->
  (forall i j, S i j < 2) -> (forall k i j, 0 <= u k i j < 1)%R -> noise_fits d s ->
  exists X W, gen d is_dag order und p1 p2 S u s z = Ok X /\ dag d (nzR W) /\
  (forall i j, i < d -> j < d -> W i j <> 0%R -> (1 / 2 <= Rabs (W i j) <= 2)%R) /\
  (exists q, permutes d q /\ forall i j, i < d -> j < d -> (nzR W (q i) (q j) || nzR W (q j) (q i))%bool = nzZ und i j) /\
  forall i j, j < d -> X i j = (sum_to d (fun p => X i p * W p j) + z (scale_of s j) j i)%R.
Proof.
  intros d is_dag order und p1 p2 S u s z HD HO HU H1 H2 HS Hu Hs. destruct (C246_er d is_dag und (fun _ _ => 0%Z) p1 p2 HD HU H1 H2) as (B & EB & HB & Hbin & _ & q & Hq & Hqe).
  set (W := simulate_parameter B default_ranges S u).
  assert (G := fun i j Hi Hj => C247_default d B S u i j Hbin Hi Hj (HS i j) (fun k => Hu k i j)). cbv zeta in G. fold W in G.
  assert (HW : dag d (nzR W)).
  { intros i Hw. apply (HB i). assert (K : forall i j, walk d (nzR W) i j -> walk d (nzZ B) i j).
    { induction 1 as [a b Ha Hb He|a k b Ha Hk He _ IH].
      - apply walk_edge; [exact Ha|exact Hb|]. rewrite <- (proj2 (proj2 (G a b Ha Hb))). exact He.
      - apply walk_step with (k := k); [exact Ha|exact Hk| |exact IH]. rewrite <- (proj2 (proj2 (G a k Ha Hk))). exact He. }
    apply K. exact Hw. }
  destruct (C248_linear d is_dag order W "gauss" s z (fun _ _ x => x) HD HO HW Hs gauss_adds) as (X & HX & HE).
  exists X, W. split; [unfold gen; rewrite EB; cbn [bind]; exact HX|]. split; [exact HW|]. split; [|split; [|exact HE]].
  - intros i j Hi Hj N. destruct (G i j Hi Hj) as (A & C & _). destruct (Hbin i j Hi Hj) as [E|E]; [elim N; exact (A E)|exact (C E)].
  - exists q. split; [exact Hq|]. intros i j Hi Hj. rewrite <- (Hqe i j Hi Hj). destruct Hq as [Hq _].
    rewrite (proj2 (proj2 (G (q i) (q j) (Hq i Hi) (Hq j Hj)))), (proj2 (proj2 (G (q j) (q i) (Hq j Hj) (Hq i Hi)))). reflexivity.
Qed.

(** ** Concrete cases: the graph 0 -> 1 on two vertices *)
Definition edge01 : nat -> nat -> bool := fun i j => Nat.eqb i 0 && Nat.eqb j 1.
(** a procedure for d = 2: no loops and not both directions *)
Definition dag2 (E : nat -> nat -> bool) : bool := negb (E 0 0) && negb (E 1 1) && negb (E 0 1 && E 1 0).
Definition order2 (E : nat -> nat -> bool) : list nat := if E 1 0 then [1; 0] else [0; 1].
Theorem dag2_decides : decides_dag 2 dag2.
Proof.
  intros E. unfold dag2. split.
  - intros H i Hw. apply andb_prop in H. destruct H as [H H3]. apply andb_prop in H. destruct H as [H1 H2].
    destruct (E 0 0) eqn:A; [discriminate|]. destruct (E 1 1) eqn:C; [discriminate|].
    assert (G : forall i j, walk 2 E i j -> i <> j /\ E i j = true).
    { induction 1 as [a b Ha Hb He|a k b Ha Hk He Hwk IH].
      - split; [|exact He]. intros ->. destruct b as [|[|b]]; [congruence|congruence|lia].
      - exfalso. destruct IH as [N IH]. assert (Hb := proj2 (walk_bounds _ _ _ _ Hwk)).
        destruct a as [|[|a]], k as [|[|k]], b as [|[|b]]; try lia; try congruence; rewrite He, IH in H3; discriminate. }
    destruct (G i i Hw). congruence.
  - intros H. destruct (E 0 0) eqn:A; [elim (H 0); apply walk_edge; [lia|lia|exact A]|]. destruct (E 1 1) eqn:C; [elim (H 1); apply walk_edge; [lia|lia|exact C]|].
    destruct (E 0 1) eqn:D; [|reflexivity]. destruct (E 1 0) eqn:F; [|reflexivity]. elim (H 0). apply walk_step with (k := 1); [lia|lia|exact D|]. apply walk_edge; [lia|lia|exact F].
Qed.
Theorem order2_sorts : sorts_dags 2 order2.
Proof.
  intros E H. assert (A : dag2 E = true) by (apply dag2_decides; exact H). unfold dag2 in A. apply andb_prop in A. destruct A as [A A3]. apply andb_prop in A. destruct A as [A1 A2].
  destruct (E 0 0) eqn:L0; [discriminate|]. destruct (E 1 1) eqn:L1; [discriminate|].
  assert (S : forall a b, a < 2 -> b < 2 -> a <> b -> E b a = false -> topological 2 E [a; b]).
  { intros a b Ha Hb N Hf. assert (La : E a a = false) by (destruct a as [|[|a]]; [assumption|assumption|lia]).
    assert (Lb : E b b = false) by (destruct b as [|[|b]]; [assumption|assumption|lia]). split; [|split].
    - constructor; [intros [e|[]]; auto|]. constructor; [intros []|constructor].
    - intros j. cbn. split; [intros [<-|[<-|[]]]; assumption|intros Hj]. lia.
    - intros l1 j l2 El p Hp He. destruct l1 as [|x [|y l1]]; cbn in El.
      + injection El as -> _. exfalso. destruct (Nat.eq_dec p j) as [->|Np]; [congruence|]. assert (p = b) by lia. subst. congruence.
      + injection El as -> -> _. destruct (Nat.eq_dec p j) as [->|Np]; [congruence|]. left. lia.
      + injection El as -> -> El. destruct l1; discriminate. }
  unfold order2. destruct (E 1 0) eqn:F; apply S; try lia; try reflexivity.
  - destruct (E 0 1); [discriminate|reflexivity].
  - exact F.
Qed.
Definition W01 : rmat := fun i j => if edge01 i j then 2%R else 0%R.
Lemma W01_edges : forall i j, nzR W01 i j = edge01 i j.
Proof. intros i j. unfold nzR, W01. destruct (edge01 i j); [destruct (Req_EM_T 2 0); [lra|reflexivity]|destruct (Req_EM_T 0 0); [reflexivity|congruence]]. Qed.
Theorem W01_dag : dag 2 (nzR W01).
Proof. apply dag2_decides. unfold dag2. rewrite !W01_edges. reflexivity. Qed.
(** C248: with noise 1 at vertex 0 and 5 at vertex 1, x1 = 2 * 1 + 5 *)
Example C248_case : exists X, simulate_linear_sem 2 dag2 order2 W01 "gauss" (Vector [1; 1]%R) (fun _ j _ => if Nat.eqb j 0 then 1 else 5)%R (fun _ _ x => x) = Ok X /\
  X 0 0 = 1%R /\ X 0 1 = 7%R.
Proof.
  destruct (C248_linear 2 dag2 order2 W01 "gauss" (Vector [1; 1]%R) (fun _ j _ => if Nat.eqb j 0 then 1 else 5)%R (fun _ _ x => x) dag2_decides order2_sorts W01_dag eq_refl
    (or_introl eq_refl)) as (X & HX & H). exists X. split; [exact HX|].
  assert (H0 := H 0 0 ltac:(lia)). assert (H1 := H 0 1 ltac:(lia)). unfold W01, edge01 in H0, H1. cbn in H0, H1. split; lra.
Qed.
Example C248_order_case : exists X, simulate_linear_sem 2 dag2 order2 W01 "gauss" NoNoise (fun _ _ _ => 0%R) (fun _ _ x => x) = Ok X.
Proof. destruct (C248_linear 2 dag2 order2 W01 "gauss" NoNoise (fun _ _ _ => 0%R) (fun _ _ x => x) dag2_decides order2_sorts W01_dag Logic.I (or_introl eq_refl)) as (X & HX & _). exists X. exact HX. Qed.
(** the inverse of I - W is I + W here *)
Example C248_population_case : left_inverse 2 (fun a b => if Nat.eqb a b then 1 else W01 a b)%R (IminusW W01).
Proof. intros [|[|i]] [|[|j]] Hi Hj; try lia; unfold IminusW, W01, edge01; cbn; ring. Qed.
Definition B01 : zmat := fun i j => if edge01 i j then 1%Z else 0%Z.
Example C248_nonlinear_case : dag 2 (nzZ B01).
Proof. apply dag2_decides. reflexivity. Qed.
(** C246: the draw with the only possible edge, identity and swap *)
Example C246_case : simulate_dag 2 dag2 "ER" (fun i j => if Nat.eqb i j then 0%Z else 1%Z) (fun _ _ => 0%Z) (fun i => i) (fun i => i) <> Err AssertionError /\
  undirected 2 (fun i j => if Nat.eqb i j then 0%Z else 1%Z) /\ permutes 2 (fun i => 1 - i).
Proof.
  split; [vm_compute; discriminate|]. split; [split; [|split]|split].
  - intros i j _ _. destruct (Nat.eqb i j); auto.
  - intros i j _ _. rewrite Nat.eqb_sym. reflexivity.
  - intros i _. rewrite Nat.eqb_refl. reflexivity.
  - intros i Hi. lia.
  - intros i j Hi Hj E. lia.
Qed.
Example C246_directed_case : exists B, simulate_dag 2 dag2 "SF" (fun _ _ => 0%Z) B01 (fun i => i) (fun i => 1 - i) = Ok B /\ B 1 0 = 1%Z /\ B 0 1 = 0%Z.
Proof. eexists. split; [reflexivity|]. split; reflexivity. Qed.
Example C247_case : simulate_parameter B01 default_ranges (fun _ _ => 1) (fun _ _ _ => 0%R) 0 1 = (1 / 2)%R.
Proof. unfold simulate_parameter. cbn. field. Qed.
(** C249: the edge reversed, missing and found *)
Example C249_case : shd (count_accuracy 2 B01 (trZ B01)) = 1 /\ shd (count_accuracy 2 B01 (fun _ _ => 0%Z)) = 1 /\ shd (count_accuracy 2 B01 B01) = 0 /\ proper 2 B01 /\ estimate 2 (trZ B01).
Proof.
  split; [reflexivity|]. split; [reflexivity|]. split; [reflexivity|]. unfold B01, trZ, edge01. split; [split; [|split]|split; [|split]].
  - intros i j _ _. destruct (_ && _)%bool; auto.
  - intros [|[|i]] Hi; try lia; reflexivity.
  - intros [|[|i]] [|[|j]] Hi Hj; try lia; cbn; congruence.
  - intros i j _ _. destruct (_ && _)%bool; auto.
  - intros [|[|i]] Hi; try lia; reflexivity.
  - intros [|[|i]] [|[|j]] Hi Hj; try lia; cbn; congruence.
Qed.
(** an undirected edge on the true skeleton counts as found *)
Example C249_undirected_case : tpr (count_accuracy 2 B01 (fun i j => - B01 j i)%Z) = 1%R /\ shd (count_accuracy 2 B01 (fun i j => - B01 j i)%Z) = 0.
Proof. split; [|reflexivity]. unfold count_accuracy. cbn [tpr]. match goal with |- (INR ?a / INR ?b)%R = _ => change a with 1; change b with 1 end. cbn. field. Qed.
(** C250: the weight A_0 multiplies the oldest block: without noise after the start, block 2 repeats block 0, not block 1 *)
Theorem C250_recent_refuted : exists l, dygen 2 dag2 order2 (fun k p j => if Nat.eqb k 0 && Nat.eqb p j then 1 else 0)%R (fun _ _ => 0%R) 2 2 NoNoise
    (fun t _ _ _ => INR t) (fun _ _ _ _ _ => 0%R) = Ok l /\
  length l = 4 /\ blk l 0 0 0 = 0%R /\ blk l 1 0 0 = 1%R /\ blk l 2 0 0 = 0%R.
Proof.
  assert (HB : dag 2 (nzR (fun _ _ => 0%R))).
  { apply dag2_decides. unfold dag2, nzR. destruct (Req_EM_T 0 0); [reflexivity|congruence]. }
  destruct (C250_dygen 2 dag2 order2 dag2_decides order2_sorts (fun k p j => if Nat.eqb k 0 && Nat.eqb p j then 1 else 0)%R (fun _ _ => 0%R) NoNoise HB Logic.I 2 2
    (fun t _ _ _ => INR t) (fun _ _ _ _ _ => 0%R) ltac:(lia) ltac:(lia)) as (l & Hl & Hn & H1 & H2).
  exists l. split; [exact Hl|]. split; [exact Hn|].
  assert (E0 := H1 0 ltac:(lia) 0 0 ltac:(lia)). assert (E1 := H1 1 ltac:(lia) 0 0 ltac:(lia)). assert (E2 := H2 2 ltac:(lia) ltac:(lia) 0 0 ltac:(lia)).
  cbn in E0, E1, E2. repeat split; lra.
Qed.
Print Assumptions C246_er.
Print Assumptions C248_linear.
Print Assumptions C248_population.
Print Assumptions C249_shd.
Print Assumptions C250_dygen.
