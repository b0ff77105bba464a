(** C246-C250: properties of the data generators and count_accuracy (ylearn/exp_dataset/gen.py). *)
From Coq Require Import ZArith Reals String List Bool Lia Lra Permutation FinFun FunctionalExtensionality.
From Verif Require Import Base GenModel.
Unset Implicit Arguments.
Local Notation length := List.length.
Local Open Scope string_scope.
Local Open Scope list_scope.
Local Open Scope nat_scope.

(** ** Specification *)
(** p permutes 0 .. d-1 *)
Definition permutes (d : nat) (p : nat -> nat) : Prop := (forall i, i < d -> p i < d) /\ (forall i j, i < d -> j < d -> p i = p j -> i = j).
(** a walk of at least one edge within 0 .. d-1 *)
Inductive walk (d : nat) (E : nat -> nat -> bool) : nat -> nat -> Prop :=
| walk_edge i j : i < d -> j < d -> E i j = true -> walk d E i j
| walk_step i k j : i < d -> k < d -> E i k = true -> walk d E k j -> walk d E i j.
Definition dag (d : nat) (E : nat -> nat -> bool) : Prop := forall i, ~ walk d E i i.
(** igraph's is_dag decides whether there is a closed walk; its topological_sorting lists every vertex once, parents first *)
Definition decides_dag (d : nat) (is_dag : (nat -> nat -> bool) -> bool) : Prop := forall E, is_dag E = true <-> dag d E.
Definition topological (d : nat) (E : nat -> nat -> bool) (l : list nat) : Prop :=
  NoDup l /\ (forall j, In j l <-> j < d) /\ forall l1 j l2, l = l1 ++ j :: l2 -> forall p, p < d -> E p j = true -> In p l1.
Definition sorts_dags (d : nat) (order : (nat -> nat -> bool) -> list nat) : Prop := forall E, dag d E -> topological d E (order E).
Definition binary (d : nat) (M : zmat) : Prop := forall i j, i < d -> j < d -> (M i j = 0 \/ M i j = 1)%Z.
(** the adjacency matrix of an undirected graph without loops *)
Definition undirected (d : nat) (M : zmat) : Prop := binary d M /\ (forall i j, i < d -> j < d -> M i j = M j i) /\ forall i, i < d -> M i i = 0%Z.
(** number of directed edges; of pairs i > j with an edge *)
Definition edges (d : nat) (M : zmat) : Z := sumZ d (fun i => sumZ d (fun j => M i j)).
Definition lower_edges (d : nat) (M : zmat) : Z := sumZ d (fun i => sumZ d (fun j => if Nat.ltb j i then M i j else 0%Z)).

(** ** Sums *)
Lemma sumZ_ext : forall d f g, (forall i, i < d -> f i = g i) -> sumZ d f = sumZ d g.
Proof. intros d f g H. unfold sumZ. f_equal. apply map_ext_in. intros i Hi. apply in_seq in Hi. apply H. lia. Qed.
Lemma sumZ_S : forall d f, sumZ (S d) f = (sumZ d f + f d)%Z.
Proof.
  intros d f. unfold sumZ. rewrite seq_S, map_app. cbn [map plus]. generalize (map f (seq 0 d)). induction l as [|a l IH]; cbn [fold_right app]; [lia|].
  rewrite IH. lia.
Qed.
Lemma sumZ_add : forall d f g, sumZ d (fun i => f i + g i)%Z = (sumZ d f + sumZ d g)%Z.
Proof. induction d as [|d IH]; intros f g; [reflexivity|]. rewrite !sumZ_S, IH. lia. Qed.
Lemma sumZ_zero : forall d f, (forall i, i < d -> f i = 0%Z) -> sumZ d f = 0%Z.
Proof. induction d as [|d IH]; intros f H; [reflexivity|]. rewrite sumZ_S, (IH f), H by auto. reflexivity. Qed.
Lemma sumZ_one : forall d f k, k < d -> sumZ d (fun i => if Nat.eqb i k then f i else 0%Z) = f k.
Proof.
  induction d as [|d IH]; intros f k H; [lia|]. rewrite sumZ_S. destruct (Nat.eq_dec k d) as [->|Hk].
  - rewrite Nat.eqb_refl, sumZ_zero; [lia|]. intros i Hi. destruct (Nat.eqb_spec i d); [lia|reflexivity].
  - rewrite IH by lia. destruct (Nat.eqb_spec d k); lia.
Qed.
Lemma sumZ_perm : forall d p f, permutes d p -> sumZ d (fun i => f (p i)) = sumZ d f.
Proof.
  intros d p f [Hp Hi]. unfold sumZ. rewrite <- (map_map p f).
  assert (P : Permutation (map p (seq 0 d)) (seq 0 d)).
  { apply NoDup_Permutation_bis.
    - assert (H : forall l, NoDup l -> (forall i, In i l -> i < d) -> NoDup (map p l)).
      { induction l as [|a l IH]; intros Hl Hd; cbn [map]; constructor.
        - intros Hin. apply in_map_iff in Hin. destruct Hin as (b & E & Hb). apply NoDup_cons_iff in Hl. destruct Hl as [Ha _]. apply Ha.
          rewrite <- (Hi b a); [exact Hb|apply Hd; right; exact Hb|apply Hd; left; reflexivity|exact E].
        - apply IH; [apply NoDup_cons_iff in Hl; apply Hl|intros i Hin; apply Hd; right; exact Hin]. }
      apply H; [apply seq_NoDup|]. intros i Hin. apply in_seq in Hin. lia.
    - rewrite map_length. lia.
    - intros i Hin. apply in_map_iff in Hin. destruct Hin as (k & <- & Hk). apply in_seq in Hk. apply in_seq. specialize (Hp k). lia. }
  apply (Permutation_map f) in P. revert P. generalize (map f (map p (seq 0 d))) (map f (seq 0 d)). induction 1; cbn [fold_right]; lia.
Qed.
(** every permutation has an inverse *)
Lemma permutes_inverse : forall d p, permutes d p -> exists q, permutes d q /\ (forall i, i < d -> p (q i) = i) /\ (forall i, i < d -> q (p i) = i).
Proof.
  intros d p [Hp Hi].
  assert (Hs : bSurjective d p). { apply bInjective_bSurjective; [intros i H; exact (Hp i H)|intros i j A B C; exact (Hi i j A B C)]. }
  assert (HF : bFun d p) by (intros i H; exact (Hp i H)).
  exists (fun i => match find (fun k => Nat.eqb (p k) i) (seq 0 d) with Some k => k | None => 0 end).
  assert (Hq : forall i, i < d -> exists k, find (fun k => Nat.eqb (p k) i) (seq 0 d) = Some k /\ k < d /\ p k = i).
  { intros i H. destruct (Hs i H) as (k & Hk & E). destruct (find (fun k => Nat.eqb (p k) i) (seq 0 d)) as [k2|] eqn:Ef.
    - exists k2. apply find_some in Ef. destruct Ef as [A B]. apply in_seq in A. apply Nat.eqb_eq in B. split; [reflexivity|]. split; [lia|exact B].
    - exfalso. assert (F : (p k =? i) = false) by (apply (find_none _ _ Ef k); apply in_seq; lia). apply Nat.eqb_neq in F. auto. }
  split; [split|split].
  - intros i H. destruct (Hq i H) as (k & -> & A & _). exact A.
  - intros i j A B. destruct (Hq i A) as (k & -> & _ & <-). destruct (Hq j B) as (k2 & -> & _ & <-). congruence.
  - intros i H. destruct (Hq i H) as (k & -> & _ & E). exact E.
  - intros i H. destruct (Hq (p i) (Hp i H)) as (k & -> & A & E). exact (Hi k i A H E).
Qed.
(** P.T @ M @ P moves entry (i, j) to (p i, p j) *)
Lemma random_permutation_at : forall d p M i j, permutes d p -> i < d -> j < d -> random_permutation d p M (p i) (p j) = M i j.
Proof.
  intros d p M i j [Hp Hi] A B. unfold random_permutation, mulZ, trZ, perm_eye.
  assert (E : forall k, k < d -> sumZ d (fun r => (if Nat.eqb (p r) (p i) then 1 else 0) * M r k)%Z = M i k).
  { intros k Hk. rewrite (sumZ_ext d _ (fun r => if Nat.eqb r i then M r k else 0%Z)); [apply (sumZ_one d (fun r => M r k) i A)|].
    intros r Hr. destruct (Nat.eqb_spec r i) as [->|N].
    - rewrite Nat.eqb_refl. lia.
    - destruct (Nat.eqb_spec (p r) (p i)) as [E|E]; [elim N; exact (Hi r i Hr A E)|lia]. }
  rewrite (sumZ_ext d _ (fun k => if Nat.eqb k j then M i k else 0%Z)); [apply (sumZ_one d (fun k => M i k) j B)|].
  intros k Hk. rewrite (E k Hk). destruct (Nat.eqb_spec k j) as [->|N].
  - rewrite Nat.eqb_refl. lia.
  - destruct (Nat.eqb_spec (p k) (p j)) as [E2|E2]; [elim N; exact (Hi k j Hk B E2)|lia].
Qed.
Lemma random_permutation_edges : forall d p M, permutes d p -> edges d (random_permutation d p M) = edges d M.
Proof.
  intros d p M Hp. unfold edges. rewrite <- (sumZ_perm d p (fun i => sumZ d (fun j => random_permutation d p M i j)) Hp).
  apply sumZ_ext. intros i Hi. rewrite <- (sumZ_perm d p (fun j => random_permutation d p M (p i) j) Hp).
  apply sumZ_ext. intros j Hj. apply random_permutation_at; assumption.
Qed.
Lemma walk_bounds : forall d E i j, walk d E i j -> i < d /\ j < d.
Proof. induction 1 as [i j Hi Hj HE|i k j Hi Hk HE H IH]; [split; assumption|]. split; [exact Hi|exact (proj2 IH)]. Qed.
Lemma walk_map : forall d E E' (q : nat -> nat), (forall i, i < d -> q i < d) -> (forall i j, i < d -> j < d -> E i j = true -> E' (q i) (q j) = true) ->
  forall i j, walk d E i j -> walk d E' (q i) (q j).
Proof.
  intros d E E' q Hq HE. induction 1 as [i j Hi Hj He|i k j Hi Hk He H IH]; [apply walk_edge; auto|].
  apply walk_step with (k := q k); auto.
Qed.
Lemma dag_permuted : forall d p M, permutes d p -> dag d (nzZ M) -> dag d (nzZ (random_permutation d p M)).
Proof.
  intros d p M Hp HM i Hw. destruct (permutes_inverse d p Hp) as (q & [Hq _] & Hpq & _).
  apply (HM (q i)). refine (walk_map d _ (nzZ M) q Hq _ i i Hw). intros a b A B E.
  unfold nzZ in *. rewrite <- (random_permutation_at d p M (q a) (q b) Hp (Hq a A) (Hq b B)). rewrite (Hpq a A), (Hpq b B). exact E.
Qed.
Lemma dag_tril : forall d M, dag d (nzZ (tril (-1) M)).
Proof.
  intros d M i Hw. assert (G : forall i j, walk d (nzZ (tril (-1) M)) i j -> j < i).
  { assert (E : forall i j, nzZ (tril (-1) M) i j = true -> j < i).
    { intros a b H. unfold nzZ, tril in H. destruct (Z.leb_spec (Z.of_nat b) (Z.of_nat a + -1)); [lia|]. discriminate. }
    induction 1 as [a b _ _ H|a k b _ _ H _ IH]; [exact (E a b H)|]. apply E in H. lia. }
  specialize (G i i Hw). lia.
Qed.
(** a sum over all entries, by pairs *)
Lemma sum_pairs : forall d (f : nat -> nat -> Z), sumZ d (fun i => sumZ d (fun j => f i j))
  = (sumZ d (fun i => sumZ d (fun j => if Nat.ltb j i then f i j + f j i else 0)) + sumZ d (fun i => f i i))%Z.
Proof.
  induction d as [|d IH]; intros f; [reflexivity|]. rewrite !sumZ_S.
  rewrite (sumZ_ext d (fun i => sumZ (S d) (fun j => f i j)) (fun i => sumZ d (fun j => f i j) + f i d)%Z) by (intros i _; apply sumZ_S).
  rewrite sumZ_add, IH.
  rewrite (sumZ_ext d (fun i => sumZ (S d) (fun j => if Nat.ltb j i then f i j + f j i else 0)%Z) (fun i => sumZ d (fun j => if Nat.ltb j i then f i j + f j i else 0)%Z)).
  - rewrite (sumZ_ext d (fun j => if Nat.ltb j d then f d j + f j d else 0)%Z (fun j => f d j + f j d)%Z).
    + rewrite (sumZ_add d (fun j => f d j) (fun j => f j d)). destruct (Nat.ltb_spec d d); lia.
    + intros j Hj. destruct (Nat.ltb_spec j d); lia.
  - intros i Hi. rewrite sumZ_S. destruct (Nat.ltb_spec d i); lia.
Qed.

(** C246: simulate_dag.  For every Erdos-Renyi draw and all permutations the assertion holds, and the result is an acyclic orientation of
    the drawn graph: a DAG with as many edges as were drawn, on the renamed vertices *)
Theorem C246_er : forall d is_dag und dir p1 p2, decides_dag d is_dag -> undirected d und -> permutes d p1 -> permutes d p2 ->
  exists B, simulate_dag d is_dag "ER" und dir p1 p2 = Ok B /\ dag d (nzZ B) /\ binary d B /\ edges d B = lower_edges d und /\
  exists q, permutes d q /\ forall i j, i < d -> j < d -> (nzZ B (q i) (q j) || nzZ B (q j) (q i))%bool = nzZ und i j.
Proof.
  intros d is_dag und dir p1 p2 HD (HB & HS & HZ) H1 H2. set (M := random_permutation d p1 und).
  assert (Hdag : dag d (nzZ (random_permutation d p2 (tril (-1) M)))) by (apply dag_permuted; [exact H2|apply dag_tril]).
  exists (random_permutation d p2 (tril (-1) M)). split.
  { unfold simulate_dag. cbn [String.eqb Ascii.eqb Bool.eqb bind]. fold M. rewrite (proj2 (HD _) Hdag). reflexivity. }
  split; [exact Hdag|].
  destruct (permutes_inverse d p1 H1) as (q1 & Q1 & Hp1 & Hq1). destruct (permutes_inverse d p2 H2) as (q2 & Q2 & Hp2 & Hq2).
  assert (HM : forall i j, i < d -> j < d -> M i j = und (q1 i) (q1 j)).
  { intros i j A B. rewrite <- (Hp1 i A) at 1. rewrite <- (Hp1 j B) at 1. apply random_permutation_at; [exact H1|apply Q1; exact A|apply Q1; exact B]. }
  assert (HMs : forall i j, i < d -> j < d -> M i j = M j i).
  { intros i j A B. rewrite !HM by assumption. apply HS; apply Q1; assumption. }
  assert (HM0 : forall i, i < d -> M i i = 0%Z). { intros i A. rewrite HM by assumption. apply HZ. apply Q1. exact A. }
  split; [|split].
  - intros i j A B. rewrite <- (Hp2 i A), <- (Hp2 j B). rewrite random_permutation_at; [|exact H2|apply Q2; exact A|apply Q2; exact B].
    unfold tril. destruct (Z.of_nat (q2 j) <=? Z.of_nat (q2 i) + -1)%Z; [|left; reflexivity]. rewrite HM by (apply Q2; assumption). apply HB; apply Q1; apply Q2; assumption.
  - rewrite random_permutation_edges by exact H2.
    assert (T : edges d (tril (-1) M) = lower_edges d M).
    { unfold edges, lower_edges. apply sumZ_ext. intros i _. apply sumZ_ext. intros j _. unfold tril.
      destruct (Z.leb_spec (Z.of_nat j) (Z.of_nat i + -1)), (Nat.ltb_spec j i); try lia; reflexivity. }
    rewrite T. assert (H : forall N, (forall i j, i < d -> j < d -> N i j = N j i) -> (forall i, i < d -> N i i = 0%Z) -> edges d N = (2 * lower_edges d N)%Z).
    { intros N A B. unfold edges, lower_edges. rewrite sum_pairs, (sumZ_zero d (fun i => N i i) B).
      rewrite (sumZ_ext d _ (fun i => sumZ d (fun j => if Nat.ltb j i then N i j else 0) + sumZ d (fun j => if Nat.ltb j i then N i j else 0))%Z).
      - rewrite sumZ_add. lia.
      - intros i Hi. rewrite <- sumZ_add. apply sumZ_ext. intros j Hj. destruct (Nat.ltb j i); [rewrite (A j i Hj Hi); lia|reflexivity]. }
    assert (E := H M HMs HM0). assert (E2 := H und HS HZ). unfold M in E. rewrite random_permutation_edges in E by exact H1. fold M in E. lia.
  - exists (fun i => p2 (p1 i)). split.
    { split; [intros i A; apply H2, H1; exact A|]. intros i j A B E. apply H1; [exact A|exact B|]. apply H2; [apply H1; exact A|apply H1; exact B|exact E]. }
    intros i j A B. unfold nzZ. rewrite !random_permutation_at by (try exact H2; apply H1; assumption).
    assert (Eu : M (p1 i) (p1 j) = und i j) by (apply random_permutation_at; assumption).
    assert (Eu2 : M (p1 j) (p1 i) = und i j) by (rewrite <- Eu; apply HMs; apply H1; assumption).
    unfold tril. rewrite Eu, Eu2. destruct (Nat.eq_dec i j) as [->|N].
    + rewrite (HZ j B). destruct (Z.of_nat (p1 j) <=? Z.of_nat (p1 j) + -1)%Z; reflexivity.
    + assert (p1 i <> p1 j) by (intros E; apply N; apply H1; assumption).
      destruct (Z.leb_spec (Z.of_nat (p1 j)) (Z.of_nat (p1 i) + -1)), (Z.leb_spec (Z.of_nat (p1 i)) (Z.of_nat (p1 j) + -1)); try lia;
        destruct (und i j =? 0)%Z; reflexivity.
Qed.
(** for the directed draws: acyclic if the draw is *)
Theorem C246_directed : forall d is_dag gt und dir p1 p2, decides_dag d is_dag -> gt = "SF" \/ gt = "BP" -> dag d (nzZ dir) -> permutes d p2 ->
  exists B, simulate_dag d is_dag gt und dir p1 p2 = Ok B /\ dag d (nzZ B) /\ edges d B = edges d dir /\
  forall i j, i < d -> j < d -> B (p2 i) (p2 j) = dir i j.
Proof.
  intros d is_dag gt und dir p1 p2 HD Hg Hdir H2. exists (random_permutation d p2 dir).
  assert (Hdag : dag d (nzZ (random_permutation d p2 dir))) by (apply dag_permuted; assumption).
  split; [|split; [exact Hdag|split; [apply random_permutation_edges; exact H2|intros i j A B; apply random_permutation_at; assumption]]].
  unfold simulate_dag. destruct Hg as [->| ->]; cbn [String.eqb Ascii.eqb Bool.eqb orb bind]; rewrite (proj2 (HD _) Hdag); reflexivity.
Qed.
(** whatever the draw: what is returned is a DAG *)
Theorem C246_result : forall d is_dag gt und dir p1 p2 B, decides_dag d is_dag -> simulate_dag d is_dag gt und dir p1 p2 = Ok B -> dag d (nzZ B).
Proof.
  intros d is_dag gt und dir p1 p2 B HD H. unfold simulate_dag in H.
  match type of H with bind ?x _ = _ => destruct x as [M|]; cbn [bind] in H; [|discriminate] end.
  destruct (is_dag (nzZ (random_permutation d p2 M))) eqn:E; [|discriminate]. injection H as <-. apply HD. exact E.
Qed.
(** simulate_random_graph with is_acyclic=1 keeps the diagonal above the main one: the result has cycles *)
Theorem C246_acyclic_refuted : exists d und dir p B, undirected d und /\ permutes d p /\
  simulate_random_graph d "ER" und dir 1 p = Ok B /\ ~ dag d (nzZ B).
Proof.
  exists 2, (fun i j => if Nat.eqb i j then 0%Z else 1%Z), (fun _ _ => 0%Z), (fun i => i). eexists. split; [split; [|split]|split; [split|split; [reflexivity|]]].
  - intros i j _ _. destruct (Nat.eqb i j); auto.
  - intros i j _ _. rewrite Nat.eqb_sym. reflexivity.
  - intros i _. rewrite Nat.eqb_refl. reflexivity.
  - auto.
  - auto.
  - intros H. apply (H 0). apply walk_step with (k := 1); [lia|lia|reflexivity|]. apply walk_edge; [lia|lia|reflexivity].
Qed.
(** is_acyclic=-1 would be acyclic *)
Theorem C246_acyclic_partial : forall d gt und dir p B, permutes d p -> gt = "ER" \/ dag d (nzZ dir) -> simulate_random_graph d gt und dir (-1) p = Ok B -> dag d (nzZ B).
Proof.
  intros d gt und dir p B Hp Hg H. unfold simulate_random_graph in H. destruct (String.eqb gt "ER") eqn:E.
  - injection H as <-. apply dag_permuted; [exact Hp|apply dag_tril].
  - destruct (String.eqb gt "SF"); [|discriminate]. injection H as <-. apply dag_permuted; [exact Hp|]. destruct Hg as [->|Hg]; [discriminate|exact Hg].
Qed.

(** ** C247: weights *)
Local Open Scope R_scope.
Lemma parameter_loop_at : forall B S u ranges i0 i j, parameter_loop B S u i0 ranges i j =
  IZR (B i j) * (match (if Nat.leb i0 (S i j) then nth_error ranges (S i j - i0)%nat else None) with
                 | Some r => fst r + (snd r - fst r) * u (S i j) i j | None => 0 end).
Proof.
  intros B S u. induction ranges as [|[lo hi] ranges IH]; intros i0 i j; cbn [parameter_loop].
  - destruct (Nat.leb i0 (S i j)); [destruct (S i j - i0)%nat; cbn; ring|ring].
  - rewrite IH. destruct (Nat.eqb_spec (S i j) i0) as [E|E].
    + rewrite E, Nat.leb_refl, Nat.sub_diag. cbn [nth_error fst snd]. destruct (Nat.leb_spec (i0 + 1) i0); [lia|]. ring.
    + destruct (Nat.leb_spec (i0 + 1) (S i j)), (Nat.leb_spec i0 (S i j)); try lia; try ring.
      replace (S i j - i0)%nat with (Datatypes.S (S i j - (i0 + 1)))%nat by lia. cbn [nth_error]. ring.
Qed.
(** a weight is 0 without an edge, otherwise drawn from the chosen range *)
Theorem C247_weights : forall d B ranges S u i j, binary d B -> (i < d)%nat -> (j < d)%nat -> (S i j < length ranges)%nat ->
  let w := simulate_parameter B ranges S u i j in
  (B i j = 0%Z -> w = 0) /\
  (B i j = 1%Z -> exists lo hi, nth_error ranges (S i j) = Some (lo, hi) /\ w = lo + (hi - lo) * u (S i j) i j).
Proof.
  intros d B ranges S u i j HB Hi Hj HS w. unfold w, simulate_parameter. rewrite parameter_loop_at. cbn [Nat.leb]. rewrite Nat.sub_0_r. split.
  - intros ->. ring.
  - intros ->. destruct (nth_error ranges (S i j)) as [[lo hi]|] eqn:E; [|apply nth_error_None in E; lia].
    exists lo, hi. split; [reflexivity|]. cbn [fst snd]. ring.
Qed.
(** with the default ranges: weights between 0.5 and 2 in absolute value, exactly on the edges; so the weights form a DAG as B does *)
Theorem C247_default : forall d B S u i j, binary d B -> (i < d)%nat -> (j < d)%nat -> (S i j < 2)%nat ->
  (forall k, 0 <= u k i j < 1) ->
  let w := simulate_parameter B default_ranges S u i j in
  (B i j = 0%Z -> w = 0) /\ (B i j = 1%Z -> 1 / 2 <= Rabs w <= 2) /\ nzR (simulate_parameter B default_ranges S u) i j = nzZ B i j.
Proof.
  intros d B S u i j HB Hi Hj HS Hu w.
  destruct (C247_weights d B default_ranges S u i j HB Hi Hj HS) as [H0 H1]. fold w in H0, H1.
  assert (H2 : B i j = 1%Z -> 1 / 2 <= Rabs w <= 2).
  { intros E. destruct (H1 E) as (lo & hi & En & Ew). specialize (Hu (S i j)). destruct (S i j) as [|[|n]]; cbn [default_ranges nth_error] in En; [| |lia].
    - injection En as <- <-. rewrite Rabs_left; lra.
    - injection En as <- <-. rewrite Rabs_right; lra. }
  split; [exact H0|]. split; [exact H2|]. unfold nzR. fold w. unfold nzZ. destruct (HB i j Hi Hj) as [E|E]; rewrite E.
  - rewrite (H0 E). destruct (Req_EM_T 0 0); [reflexivity|congruence].
  - destruct (Req_EM_T w 0) as [Z|Z]; [|reflexivity]. specialize (H2 E). rewrite Z, Rabs_R0 in H2. lra.
Qed.
(** simulate_weight_A: the weights of lag k lie between scale*low/eta^k and scale*high/eta^k *)
Theorem C247_lags : forall d A_bin scale low high eta S u k i j, binary d (A_bin k) -> (i < d)%nat -> (j < d)%nat -> (S k i j < 2)%nat ->
  (forall m, 0 <= u k m i j < 1) -> 0 < scale -> 0 < low -> low <= high -> 0 < eta ->
  let a := simulate_weight_A A_bin scale low high eta S u k i j in
  (A_bin k i j = 0%Z -> a = 0) /\ (A_bin k i j = 1%Z -> scale * low / eta ^ k <= Rabs a <= scale * high / eta ^ k).
Proof.
  intros d A_bin scale low high eta S u k i j HB Hi Hj HS Hu Hs Hl Hlh He a.
  destruct (C247_weights d (A_bin k) (lag_ranges scale low high eta k) (S k) (u k) i j HB Hi Hj HS) as [H0 H1].
  change (simulate_parameter (A_bin k) (lag_ranges scale low high eta k) (S k) (u k) i j) with a in H0, H1. split; [exact H0|].
  intros E. destruct (H1 E) as (lo & hi & En & Ea). specialize (Hu (S k i j)). set (v := u k (S k i j) i j) in *.
  assert (Hf : 0 < 1 / eta ^ k). { unfold Rdiv. rewrite Rmult_1_l. apply Rinv_0_lt_compat. apply pow_lt. exact He. }
  set (f := 1 / eta ^ k) in *.
  assert (El : scale * low / eta ^ k = scale * f * low) by (unfold f; field; apply pow_nonzero; lra).
  assert (Eh : scale * high / eta ^ k = scale * f * high) by (unfold f; field; apply pow_nonzero; lra).
  rewrite El, Eh. assert (Hsf : 0 < scale * f) by (apply Rmult_lt_0_compat; assumption). set (g := scale * f) in *.
  assert (Hm : exists m, low <= m <= high /\ Rabs a = g * m).
  { destruct (S k i j) as [|[|n]]; cbn [lag_ranges nth_error] in En; [| |lia]; injection En as <- <-.
    - exists (low + (high - low) * v). split; [split; nra|]. rewrite Ea. fold f.
      replace (scale * - low * f + (scale * - high * f - scale * - low * f) * v) with (- (g * (low + (high - low) * v))) by (unfold g; ring).
      rewrite Rabs_Ropp, Rabs_right; [reflexivity|]. apply Rle_ge. apply Rmult_le_pos; nra.
    - exists (high + (low - high) * v). split; [split; nra|]. rewrite Ea. fold f.
      replace (scale * high * f + (scale * low * f - scale * high * f) * v) with (g * (high + (low - high) * v)) by (unfold g; ring).
      rewrite Rabs_right; [reflexivity|]. apply Rle_ge. apply Rmult_le_pos; nra. }
  destruct Hm as (m & Hm & ->). nra.
Qed.
Local Close Scope R_scope.

(** ** C248: samples of structural equation models *)
(** the scale of vertex j, and whether the argument has a usable length *)
Definition scale_of (s : noise) (j : nat) : R := match s with NoNoise => 1%R | Scalar a => a | Vector l => nth j l 0%R end.
Definition noise_fits (d : nat) (s : noise) : Prop := match s with Vector l => length l = d | _ => True end.
(** sum over p = 0 .. d-1 *)
Fixpoint sum_to (d : nat) (f : nat -> R) : R := match d with 0 => 0%R | S d => (sum_to d f + f d)%R end.
Definition adds_noise (sem : string) : Prop := In sem ["gauss"; "exp"; "gumbel"; "uniform"].
Definition draws_variable (sem : string) : Prop := In sem ["logistic"; "poisson"].

Lemma sumR_app : forall l1 l2 f, sumR (l1 ++ l2) f = (sumR l1 f + sumR l2 f)%R.
Proof. intros l1 l2 f. unfold sumR. rewrite map_app. induction (map f l1) as [|a l IH]; cbn [fold_right app]; [ring|]. rewrite IH. ring. Qed.
Lemma sumR_to : forall d f, sumR (seq 0 d) f = sum_to d f.
Proof. induction d as [|d IH]; intros f; [reflexivity|]. rewrite seq_S, sumR_app, IH. cbn [sum_to]. unfold sumR. cbn. ring. Qed.
Lemma sumR_filter : forall l P f, (forall p, In p l -> P p = false -> f p = 0%R) -> sumR (filter P l) f = sumR l f.
Proof.
  intros l P f. unfold sumR. induction l as [|a l IH]; intros H; [reflexivity|]. cbn [filter map fold_right].
  rewrite <- IH by (intros p Hp; apply H; right; exact Hp). destruct (P a) eqn:E; [reflexivity|]. rewrite (H a (or_introl eq_refl) E). ring.
Qed.
Lemma sum_to_ext : forall d f g, (forall p, p < d -> f p = g p) -> sum_to d f = sum_to d g.
Proof. induction d as [|d IH]; intros f g H; [reflexivity|]. cbn [sum_to]. rewrite (IH f g), (H d) by auto. reflexivity. Qed.
(** the sum over the parents is the matrix product *)
Lemma parents_sum : forall d (W : rmat) j (x : nat -> R), sumR (parents d (nzR W) j) (fun p => x p * W p j)%R = sum_to d (fun p => x p * W p j)%R.
Proof.
  intros d W j x. unfold parents. rewrite sumR_filter; [apply sumR_to|]. intros p _ H. unfold nzR in H.
  destruct (Req_EM_T (W p j) 0) as [E|]; [rewrite E; ring|discriminate].
Qed.
Lemma in_parents : forall d E j p, In p (parents d E j) <-> p < d /\ E p j = true.
Proof. intros d E j p. unfold parents. rewrite filter_In, in_seq. intuition lia. Qed.
Lemma scale_vec_ok : forall d s, noise_fits d s -> exists sc, scale_vec d s = Ok sc /\ forall j, sc j = scale_of s j.
Proof.
  intros d [|a|l] H; cbn in H |- *; [eexists; split; reflexivity|eexists; split; [reflexivity|intros j; cbn; ring]|].
  rewrite H, Nat.eqb_refl. eexists. split; reflexivity.
Qed.

(** the loop over the vertices: later columns do not change the parents' *)
Lemma fill_total : forall F vs X, (forall j Y, In j vs -> exists c, F j Y = Ok c) -> exists Y, fill F vs X = Ok Y.
Proof.
  intros F. induction vs as [|j vs IH]; intros X H; cbn [fill]; [eexists; reflexivity|].
  destruct (H j X (or_introl eq_refl)) as (c & ->). cbn [bind]. apply IH. intros k Y Hk. apply H. right. exact Hk.
Qed.
Lemma fill_other : forall F vs X Y, fill F vs X = Ok Y -> forall k, ~ In k vs -> forall i, Y i k = X i k.
Proof.
  intros F. induction vs as [|j vs IH]; intros X Y H k Hk i; cbn [fill] in H; [injection H as <-; reflexivity|].
  destruct (F j X) as [c|]; cbn [bind] in H; [|discriminate]. rewrite (IH _ _ H k); [|intros A; apply Hk; right; exact A].
  unfold set_col. destruct (Nat.eqb_spec k j) as [->|]; [elim Hk; left; reflexivity|reflexivity].
Qed.
Lemma fill_column : forall F vs X Y, fill F vs X = Ok Y -> NoDup vs -> forall l1 j l2, vs = l1 ++ j :: l2 ->
  exists c Z, F j Z = Ok c /\ (forall i, Y i j = c i) /\ forall k, ~ In k (j :: l2) -> forall i, Z i k = Y i k.
Proof.
  intros F. induction vs as [|a vs IH]; intros X Y H ND l1 j l2 E; [destruct l1; discriminate|].
  cbn [fill] in H. destruct (F a X) as [c|] eqn:EF; cbn [bind] in H; [|discriminate]. apply NoDup_cons_iff in ND. destruct ND as [Ha ND].
  destruct l1 as [|b l1]; cbn [app] in E; injection E as -> ->.
  - exists c, X. split; [exact EF|]. split.
    + intros i. rewrite (fill_other _ _ _ _ H j Ha). unfold set_col. rewrite Nat.eqb_refl. reflexivity.
    + intros k Hk i. rewrite (fill_other _ _ _ _ H k) by (intros A; apply Hk; right; exact A). unfold set_col.
      destruct (Nat.eqb_spec k j) as [->|]; [elim Hk; left; reflexivity|reflexivity].
  - exact (IH _ _ H ND l1 j l2 eq_refl).
Qed.
Definition local (d : nat) (E : nat -> nat -> bool) (F : nat -> rmat -> res (nat -> R)) : Prop :=
  forall j X Y, (forall p, p < d -> E p j = true -> forall i, X i p = Y i p) -> F j X = F j Y.
Lemma fill_solves : forall d E F vs X, topological d E vs -> local d E F -> (forall j Y, j < d -> exists c, F j Y = Ok c) ->
  exists Y, fill F vs X = Ok Y /\ forall j, j < d -> exists c, F j Y = Ok c /\ forall i, Y i j = c i.
Proof.
  intros d E F vs X (ND & Hin & Ht) HL HT. destruct (fill_total F vs X) as (Y & HY); [intros j Y Hj; apply HT, Hin; exact Hj|].
  exists Y. split; [exact HY|]. intros j Hj. apply Hin in Hj. destruct (in_split _ _ Hj) as (l1 & l2 & El).
  destruct (fill_column F vs X Y HY ND l1 j l2 El) as (c & Z & HF & HYc & HZ). exists c. split; [|exact HYc].
  rewrite <- HF. apply HL. intros p Hp He i. symmetry. apply HZ. intros A. assert (B := Ht _ _ _ El p Hp He).
  rewrite El in ND. apply NoDup_remove in ND. destruct ND as [ND1 ND2]. destruct A as [<-|A]; [apply ND2, in_or_app; left; exact B|].
  clear - ND1 A B. induction l1 as [|b l1 IH]; [destruct B|]. cbn [app] in ND1. apply NoDup_cons_iff in ND1. destruct ND1 as [N1 N2].
  destruct B as [->|B]; [apply N1, in_or_app; right; exact A|exact (IH N2 B)].
Qed.
Lemma solution_unique : forall d E F vs X Y, topological d E vs -> local d E F ->
  (forall j, j < d -> exists c, F j X = Ok c /\ forall i, X i j = c i) -> (forall j, j < d -> exists c, F j Y = Ok c /\ forall i, Y i j = c i) ->
  forall j, j < d -> forall i, X i j = Y i j.
Proof.
  intros d E F vs X Y (ND & Hin & Ht) HL HX HY.
  assert (G : forall l2 l1, vs = l1 ++ l2 -> (forall p, In p l1 -> forall i, X i p = Y i p) -> forall j, In j l2 -> forall i, X i j = Y i j).
  { induction l2 as [|a l2 IH]; intros l1 El H j Hj; [destruct Hj|].
    assert (Ha : a < d) by (apply Hin; rewrite El; apply in_or_app; right; left; reflexivity).
    assert (Ea : forall i, X i a = Y i a).
    { destruct (HX a Ha) as (c & F1 & E1). destruct (HY a Ha) as (c2 & F2 & E2). assert (EF : F a X = F a Y).
      { apply HL. intros p Hp He. apply H. exact (Ht _ _ _ El p Hp He). }
      rewrite F1, F2 in EF. injection EF as ->. intros i. rewrite E1, E2. reflexivity. }
    destruct Hj as [<-|Hj]; [exact Ea|]. refine (IH (l1 ++ [a]) _ _ j Hj); [rewrite <- app_assoc; exact El|].
    intros p Hp. apply in_app_iff in Hp. destruct Hp as [Hp|[<-|[]]]; [exact (H p Hp)|exact Ea]. }
  intros j Hj. apply (G vs [] eq_refl); [intros p []|apply Hin; exact Hj].
Qed.
Lemma topological_length : forall d E l, topological d E l -> length l = d.
Proof.
  intros d E l (ND & Hin & _). apply Nat.le_antisymm.
  - replace d with (length (seq 0 d)) by apply seq_length. apply NoDup_incl_length; [exact ND|]. intros a Ha. apply Hin in Ha. apply in_seq. lia.
  - replace d with (length (seq 0 d)) by apply seq_length. apply NoDup_incl_length; [apply seq_NoDup|]. intros a Ha. apply in_seq in Ha. apply Hin. lia.
Qed.
Lemma additive_names : forall sem, adds_noise sem -> additive sem = true.
Proof. intros sem H. unfold adds_noise in H. cbn in H. unfold additive. repeat (destruct H as [<-|H]; [reflexivity|]). destruct H. Qed.
Lemma discrete_names : forall sem, draws_variable sem -> additive sem = false /\ discrete sem = true.
Proof. intros sem H. unfold draws_variable in H. cbn in H. repeat (destruct H as [<-|H]; [split; reflexivity|]). destruct H. Qed.
Lemma unknown_names : forall sem, ~ adds_noise sem -> ~ draws_variable sem -> (additive sem || discrete sem)%bool = false.
Proof.
  intros sem H1 H2. unfold adds_noise, draws_variable in *. cbn in H1, H2. unfold additive, discrete.
  repeat match goal with |- context [String.eqb sem ?n] => destruct (String.eqb_spec sem n) as [->|]; [exfalso; intuition congruence|] end. reflexivity.
Qed.
Lemma linear_column_local : forall d W sem sc z g, local d (nzR W) (linear_column d W sem sc z g).
Proof.
  intros d W sem sc z g j X Y H. unfold linear_column. f_equal. apply functional_extensionality. intros i. unfold sumR. f_equal. apply map_ext_in.
  intros p Hp. apply in_parents in Hp. destruct Hp as [Hp He]. rewrite (H p Hp He). reflexivity.
Qed.
Lemma row_wise_add : forall sem f t z g, adds_noise sem -> row_wise sem f t z g = Ok (fun i => f i + t * z i)%R.
Proof. intros sem f t z g H. unfold row_wise, single_equation. rewrite (additive_names sem H). reflexivity. Qed.
Lemma row_wise_draw : forall sem f t z g, draws_variable sem -> row_wise sem f t z g = Ok (fun i => g i (f i)).
Proof. intros sem f t z g H. unfold row_wise, single_equation. destruct (discrete_names sem H) as [-> ->]. reflexivity. Qed.

(** For every DAG of weights, every drawn noise and every valid order of the vertices: the columns solve X = X W + noise *)
Theorem C248_linear : forall d is_dag order W sem s z g, decides_dag d is_dag -> sorts_dags d order -> dag d (nzR W) -> noise_fits d s -> adds_noise sem ->
  exists X, simulate_linear_sem d is_dag order W sem s z g = Ok X /\
  forall i j, j < d -> X i j = (sum_to d (fun p => X i p * W p j) + z (scale_of s j) j i)%R.
Proof.
  intros d is_dag order W sem s z g HD HO HW Hs Hsem. destruct (scale_vec_ok d s Hs) as (sc & Es & Hsc). unfold simulate_linear_sem.
  rewrite Es. cbn [bind]. rewrite (proj2 (HD _) HW). cbn [negb]. assert (Ht := HO _ HW). rewrite (topological_length _ _ _ Ht), Nat.eqb_refl. cbn [negb].
  destruct (fill_solves d (nzR W) (linear_column d W sem sc z g) (order (nzR W)) (fun _ _ => 0%R) Ht (linear_column_local d W sem sc z g)) as (X & HX & HF).
  { intros j Y _. unfold linear_column. rewrite row_wise_add by exact Hsem. eexists. reflexivity. }
  exists X. split; [exact HX|]. intros i j Hj. destruct (HF j Hj) as (c & Hc & Hi). rewrite Hi. unfold linear_column in Hc. rewrite row_wise_add in Hc by exact Hsem.
  injection Hc as <-. rewrite parents_sum, Hsc. ring.
Qed.
(** logistic and Poisson variables are drawn from the linear predictor of the parents *)
Theorem C248_discrete : forall d is_dag order W sem s z g, decides_dag d is_dag -> sorts_dags d order -> dag d (nzR W) -> noise_fits d s -> draws_variable sem ->
  exists X, simulate_linear_sem d is_dag order W sem s z g = Ok X /\ forall i j, j < d -> X i j = g j i (sum_to d (fun p => X i p * W p j))%R.
Proof.
  intros d is_dag order W sem s z g HD HO HW Hs Hsem. destruct (scale_vec_ok d s Hs) as (sc & Es & Hsc). unfold simulate_linear_sem.
  rewrite Es. cbn [bind]. rewrite (proj2 (HD _) HW). cbn [negb]. assert (Ht := HO _ HW). rewrite (topological_length _ _ _ Ht), Nat.eqb_refl. cbn [negb].
  destruct (fill_solves d (nzR W) (linear_column d W sem sc z g) (order (nzR W)) (fun _ _ => 0%R) Ht (linear_column_local d W sem sc z g)) as (X & HX & HF).
  { intros j Y _. unfold linear_column. rewrite row_wise_draw by exact Hsem. eexists. reflexivity. }
  exists X. split; [exact HX|]. intros i j Hj. destruct (HF j Hj) as (c & Hc & Hi). rewrite Hi. unfold linear_column in Hc. rewrite row_wise_draw in Hc by exact Hsem.
  injection Hc as <-. rewrite parents_sum. reflexivity.
Qed.
(** which topological order is used does not matter *)
Theorem C248_order : forall d is_dag order1 order2 W sem s z g X1 X2, sorts_dags d order1 -> sorts_dags d order2 -> decides_dag d is_dag ->
  simulate_linear_sem d is_dag order1 W sem s z g = Ok X1 -> simulate_linear_sem d is_dag order2 W sem s z g = Ok X2 ->
  forall i j, j < d -> X1 i j = X2 i j.
Proof.
  intros d is_dag order1 order2 W sem s z g X1 X2 O1 O2 HD H1 H2. unfold simulate_linear_sem in H1, H2.
  destruct (scale_vec d s) as [sc|]; cbn [bind] in H1, H2; [|discriminate]. destruct (is_dag (nzR W)) eqn:Ed; cbn [negb] in H1, H2; [|discriminate].
  apply HD in Ed. assert (T1 := O1 _ Ed). assert (T2 := O2 _ Ed). rewrite (topological_length _ _ _ T1), Nat.eqb_refl in H1.
  rewrite (topological_length _ _ _ T2), Nat.eqb_refl in H2. cbn [negb] in H1, H2.
  assert (HT : (exists c0, forall j Y, exists c, linear_column d W sem sc z g j Y = Ok c /\ c0 = 0) \/ forall j Y, exists e, linear_column d W sem sc z g j Y = Err e).
  { unfold linear_column, row_wise. destruct (additive sem || discrete sem)%bool; [left; exists 0; intros; eexists; split; reflexivity|right; intros; eexists; reflexivity]. }
  intros i j Hj. destruct HT as [(c0 & HT)|HT].
  - assert (HT' : forall j Y, j < d -> exists c, linear_column d W sem sc z g j Y = Ok c) by (intros k Y _; destruct (HT k Y) as (c & E & _); exists c; exact E).
    destruct (fill_solves d (nzR W) _ _ (fun _ _ => 0%R) T1 (linear_column_local d W sem sc z g) HT') as (Y1 & E1 & F1).
    destruct (fill_solves d (nzR W) _ _ (fun _ _ => 0%R) T2 (linear_column_local d W sem sc z g) HT') as (Y2 & E2 & F2).
    rewrite H1 in E1. injection E1 as <-. rewrite H2 in E2. injection E2 as <-.
    exact (solution_unique d (nzR W) _ _ X1 X2 T1 (linear_column_local d W sem sc z g) F1 F2 j Hj i).
  - exfalso. destruct T1 as (_ & Hin & _). apply Hin in Hj. destruct (order1 (nzR W)) as [|a l]; [destruct Hj|]. cbn [fill] in H1.
    destruct (HT a (fun _ _ => 0%R)) as (e & Ee). rewrite Ee in H1. discriminate.
Qed.
(** wrong arguments *)
Theorem C248_errors : forall d is_dag order W sem s z g, decides_dag d is_dag -> sorts_dags d order ->
  (~ noise_fits d s -> simulate_linear_sem d is_dag order W sem s z g = Err ValueError) /\
  (~ dag d (nzR W) -> simulate_linear_sem d is_dag order W sem s z g = Err ValueError) /\
  (0 < d -> ~ adds_noise sem -> ~ draws_variable sem -> simulate_linear_sem d is_dag order W sem s z g = Err ValueError).
Proof.
  intros d is_dag order W sem s z g HD HO.
  assert (HS : (exists sc, scale_vec d s = Ok sc) \/ scale_vec d s = Err ValueError).
  { destruct s as [|a|l]; cbn; [left; eexists; reflexivity|left; eexists; reflexivity|]. destruct (Nat.eqb (length l) d); [left; eexists; reflexivity|right; reflexivity]. }
  unfold simulate_linear_sem. split; [|split].
  - intros H. destruct s as [|a|l]; cbn in H; [tauto|tauto|]. cbn [scale_vec]. destruct (Nat.eqb_spec (length l) d); [tauto|reflexivity].
  - intros H. destruct HS as [(sc & ->)| ->]; [|reflexivity]. cbn [bind]. destruct (is_dag (nzR W)) eqn:E; [|reflexivity]. apply HD in E. tauto.
  - intros Hd H1 H2. destruct HS as [(sc & ->)| ->]; [|reflexivity]. cbn [bind]. destruct (is_dag (nzR W)) eqn:E; [|reflexivity]. cbn [negb]. apply HD in E.
    assert (Ht := HO _ E). rewrite (topological_length _ _ _ Ht), Nat.eqb_refl. cbn [negb]. destruct Ht as (_ & Hin & _).
    destruct (order (nzR W)) as [|a l]; [destruct (proj2 (Hin 0) Hd)|]. cbn [fill]. unfold linear_column, row_wise. rewrite (unknown_names sem H1 H2). reflexivity.
Qed.

(** n = inf: the returned matrix has 1/d X'X equal to the covariance of the model, that is the covariance C with (I - W)' C (I - W) = diag(scale^2) *)
Definition IminusW (W : rmat) : rmat := fun a b => ((if Nat.eqb a b then 1 else 0) - W a b)%R.
(** 1/d X'X *)
Definition second_moment (d : nat) (X : rmat) (a b : nat) : R := (/ INR d * sum_to d (fun k => X k a * X k b))%R.
Definition left_inverse (d : nat) (M N : rmat) : Prop := forall i j, i < d -> j < d -> sum_to d (fun k => M i k * N k j)%R = if Nat.eqb i j then 1%R else 0%R.
Lemma sum_to_plus : forall d f g, sum_to d (fun i => f i + g i)%R = (sum_to d f + sum_to d g)%R.
Proof. induction d as [|d IH]; intros f g; cbn [sum_to]; [ring|]. rewrite IH. ring. Qed.
Lemma sum_to_mult : forall d a f, sum_to d (fun i => a * f i)%R = (a * sum_to d f)%R.
Proof. induction d as [|d IH]; intros a f; cbn [sum_to]; [ring|]. rewrite IH. ring. Qed.
Lemma sum_to_zero : forall d f, (forall i, i < d -> f i = 0%R) -> sum_to d f = 0%R.
Proof. induction d as [|d IH]; intros f H; [reflexivity|]. cbn [sum_to]. rewrite (IH f), (H d) by auto. ring. Qed.
Lemma sum_to_swap : forall d e f, sum_to d (fun i => sum_to e (fun j => f i j)) = sum_to e (fun j => sum_to d (fun i => f i j)).
Proof.
  induction d as [|d IH]; intros e f; cbn [sum_to]; [symmetry; apply sum_to_zero; reflexivity|]. rewrite IH. rewrite <- sum_to_plus. reflexivity.
Qed.
Lemma sum_to_one : forall d f k, k < d -> sum_to d (fun i => (if Nat.eqb k i then f i else 0)%R) = f k.
Proof.
  induction d as [|d IH]; intros f k H; [lia|]. cbn [sum_to]. destruct (Nat.eqb_spec k d) as [->|N].
  - rewrite sum_to_zero; [ring|]. intros i Hi. destruct (Nat.eqb_spec d i); [lia|reflexivity].
  - rewrite IH by lia. ring.
Qed.
Theorem C248_population : forall d is_dag W s inv, decides_dag d is_dag -> dag d (nzR W) -> noise_fits d s -> 0 < d ->
  left_inverse d (inv (IminusW W)) (IminusW W) ->
  exists X, population d is_dag W "gauss" s inv = Ok X /\
  forall i j, i < d -> j < d ->
    sum_to d (fun a => sum_to d (fun b => IminusW W a i * second_moment d X a b * IminusW W b j))%R = if Nat.eqb i j then (scale_of s i * scale_of s i)%R else 0%R.
Proof.
  intros d is_dag W s inv HD HW Hs Hd Hinv. destruct (scale_vec_ok d s Hs) as (sc & Es & Hsc). unfold population. rewrite Es. cbn [bind].
  rewrite (proj2 (HD _) HW). cbn [negb String.eqb Ascii.eqb Bool.eqb]. eexists. split; [reflexivity|].
  set (X := fun i j : nat => sumR (seq 0 d) _). intros i j Hi Hj.
  assert (Hd0 : (0 < INR d)%R) by (apply lt_0_INR; exact Hd).
  assert (HX : forall k a, k < d -> X k a = (sqrt (INR d) * scale_of s k * inv (IminusW W) k a)%R).
  { intros k a Hk. unfold X. rewrite sumR_to. rewrite (sum_to_ext d _ (fun m => if Nat.eqb k m then sqrt (INR d) * sc k * inv (IminusW W) m a else 0)%R).
    - rewrite (sum_to_one d (fun m => sqrt (INR d) * sc k * inv (IminusW W) m a)%R k Hk), Hsc. reflexivity.
    - intros m _. unfold IminusW. destruct (Nat.eqb k m); ring. }
  assert (HY : forall k b, k < d -> b < d -> sum_to d (fun a => X k a * IminusW W a b)%R = if Nat.eqb k b then (sqrt (INR d) * scale_of s k)%R else 0%R).
  { intros k b Hk Hb. rewrite (sum_to_ext d _ (fun a => (sqrt (INR d) * scale_of s k) * (inv (IminusW W) k a * IminusW W a b))%R) by (intros a _; rewrite (HX k a Hk); ring).
    rewrite sum_to_mult, (Hinv k b Hk Hb). destruct (Nat.eqb k b); ring. }
  rewrite (sum_to_ext d _ (fun a => sum_to d (fun k => / INR d * ((X k a * IminusW W a i) * sum_to d (fun b => X k b * IminusW W b j))))%R).
  2:{ intros a Ha. rewrite (sum_to_ext d _ (fun b => sum_to d (fun k => / INR d * ((X k a * IminusW W a i) * (X k b * IminusW W b j))))%R).
      - rewrite sum_to_swap. apply sum_to_ext. intros k _. rewrite sum_to_mult. f_equal. rewrite sum_to_mult. reflexivity.
      - intros b _. unfold second_moment. rewrite (sum_to_ext d (fun k => / INR d * (X k a * IminusW W a i * (X k b * IminusW W b j)))%R
          (fun k => (/ INR d * IminusW W a i * IminusW W b j) * (X k a * X k b))%R) by (intros k _; ring). rewrite !sum_to_mult. ring. }
  rewrite sum_to_swap. rewrite (sum_to_ext d _ (fun k => if Nat.eqb i k then (if Nat.eqb k j then scale_of s k * scale_of s k else 0) else 0)%R).
  - rewrite (sum_to_one d (fun k => if Nat.eqb k j then scale_of s k * scale_of s k else 0)%R i Hi). reflexivity.
  - intros k Hk. rewrite sum_to_mult.
    rewrite (sum_to_ext d _ (fun a => (sum_to d (fun b => X k b * IminusW W b j)) * (X k a * IminusW W a i))%R) by (intros a _; ring).
    rewrite sum_to_mult, (HY k j Hk Hj), (HY k i Hk Hi). rewrite (Nat.eqb_sym i k). destruct (Nat.eqb k i), (Nat.eqb k j); try ring.
    assert (Hsq : (sqrt (INR d) * sqrt (INR d) = INR d)%R) by (apply sqrt_sqrt; lra).
    replace (/ INR d * (sqrt (INR d) * scale_of s k * (sqrt (INR d) * scale_of s k)))%R with (/ INR d * (sqrt (INR d) * sqrt (INR d)) * (scale_of s k * scale_of s k))%R by ring.
    rewrite Hsq. field. lra.
Qed.

(** Nonlinear models: every vertex with parents is a function of their columns plus noise, the others are noise *)
Lemma nonlinear_local : forall d B sem sc z h, local d (nzZ B) (nonlinear_column d B sem sc z h).
Proof.
  intros d B sem sc z h j X Y H. unfold nonlinear_column. destruct (sc j) as [s|]; [|reflexivity]. cbn [bind].
  assert (E : map (fun p i => X i p) (parents d (nzZ B) j) = map (fun p i => Y i p) (parents d (nzZ B) j)).
  { apply map_ext_in. intros p Hp. apply in_parents in Hp. destruct Hp as [Hp He]. apply functional_extensionality. apply H; assumption. }
  destruct (parents d (nzZ B) j) as [|p ps]; [reflexivity|]. rewrite E. reflexivity.
Qed.
Theorem C248_nonlinear_partial : forall d order B sem z h, sorts_dags d order -> dag d (nzZ B) -> In sem ["mlp"; "mim"; "gp"; "gp-add"] ->
  exists X, simulate_nonlinear_sem d order B sem NoNoise z h = Ok X /\
  forall j, j < d -> let ps := filter (fun p => nzZ B p j) (seq 0 d) in
    forall i, X i j = ((if Nat.eqb (length ps) 0 then 0 else h j (map (fun p k => X k p) ps) i) + z 1 j i)%R.
Proof.
  intros d order B sem z h HO HB Hsem. unfold simulate_nonlinear_sem. cbn [scale_vec_nonlinear bind]. assert (Ht := HO _ HB).
  rewrite (topological_length _ _ _ Ht), Nat.eqb_refl. cbn [negb].
  assert (Es : (String.eqb sem "mlp" || String.eqb sem "mim" || String.eqb sem "gp" || String.eqb sem "gp-add")%bool = true).
  { cbn in Hsem. repeat (destruct Hsem as [<-|Hsem]; [reflexivity|]). destruct Hsem. }
  destruct (fill_solves d (nzZ B) (nonlinear_column d B sem (fun _ => Ok 1%R) z h) (order (nzZ B)) (fun _ _ => 0%R) Ht (nonlinear_local _ _ _ _ _ _)) as (X & HX & HF).
  { intros j Y _. unfold nonlinear_column. cbn [bind]. destruct (parents d (nzZ B) j); [eexists; reflexivity|]. rewrite Es. eexists. reflexivity. }
  exists X. split; [exact HX|]. intros j Hj. cbv zeta. set (ps := filter (fun p => nzZ B p j) (seq 0 d)). intros i. destruct (HF j Hj) as (c & Hc & Hi). rewrite Hi. unfold nonlinear_column in Hc. cbn [bind] in Hc.
  change (parents d (nzZ B) j) with ps in Hc. destruct ps as [|p ps']; [injection Hc as <-; cbn; ring|]. rewrite Es in Hc. injection Hc as <-. reflexivity.
Qed.
(** its noise_scale argument cannot be used: an array of the documented kind is refused, and so is a scalar *)
Theorem C248_nonlinear_refuted : forall d order B sem z h, sorts_dags d order -> dag d (nzZ B) -> 0 < d ->
  (forall l, 2 <= length l -> simulate_nonlinear_sem d order B sem (Vector l) z h = Err ValueError) /\
  (forall a, a <> 0%R -> simulate_nonlinear_sem d order B sem (Scalar a) z h = Err TypeError).
Proof.
  intros d order B sem z h HO HB Hd. split.
  - intros [|a [|b l]] H; cbn in H; [lia|lia|]. reflexivity.
  - intros a Ha. unfold simulate_nonlinear_sem. cbn [scale_vec_nonlinear bind]. assert (Ht := HO _ HB).
    rewrite (topological_length _ _ _ Ht), Nat.eqb_refl. cbn [negb]. destruct Ht as (_ & Hin & _).
    destruct (order (nzZ B)) as [|k l]; [destruct (proj2 (Hin 0) Hd)|]. cbn [fill]. unfold nonlinear_column. destruct (Req_EM_T a 0); [contradiction|reflexivity].
Qed.
