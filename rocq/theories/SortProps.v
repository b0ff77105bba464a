(** The sort of the tree engine sorts (C96). *)
From Coq Require Import ZArith Reals Lra Sorted.
From Verif Require Import Base SplitterModel SortModel.
Set Implicit Arguments.
Local Notation length := List.length.
Open Scope nat_scope.

(* ------------------------------------------------------------------------------------------------ *)
(** ** Arrays of cells *)

Lemma lset_length' {A} (l : list A) i v : length (lset l i v) = length l.
Proof. revert i. induction l as [|x l IH]; intros [|i]; cbn; auto. Qed.

Lemma lset_nth' {A} (l : list A) i j v d : nth j (lset l i v) d = if (j =? i) && (i <? length l) then v else nth j l d.
Proof.
  revert i j. induction l as [|x l IH]; intros i j.
  - cbn [lset length]. replace (i <? 0) with false by (symmetry; apply Nat.ltb_ge; lia). now rewrite andb_false_r.
  - destruct i as [|i], j as [|j]; cbn [lset nth length]; auto. rewrite IH. reflexivity.
Qed.

Lemma lset_perm' {A} (l : list A) i v d : i < length l -> Permutation (nth i l d :: lset l i v) (v :: l).
Proof.
  revert i. induction l as [|x l IH]; intros i Hi; cbn in Hi; [lia|]. destruct i as [|i]; cbn [nth lset].
  - apply perm_swap.
  - apply perm_trans with (x :: nth i l d :: lset l i v); [apply perm_swap|].
    apply perm_trans with (x :: v :: l); [apply perm_skip; apply IH; lia|apply perm_swap].
Qed.

Lemma swap2_length a i j : length (swap2 a i j) = length a.
Proof. unfold swap2. now rewrite !lset_length'. Qed.

Lemma swap2_nth a i j k : i < length a -> j < length a ->
  nth k (swap2 a i j) cell0 = if k =? j then nth i a cell0 else if k =? i then nth j a cell0 else nth k a cell0.
Proof.
  intros Hi Hj. unfold swap2. rewrite !lset_nth', !lset_length'.
  apply Nat.ltb_lt in Hi. apply Nat.ltb_lt in Hj. rewrite Hi, Hj, !andb_true_r. reflexivity.
Qed.

Lemma swap2_xv a i j k : i < length a -> j < length a ->
  xv (swap2 a i j) k = if k =? j then xv a i else if k =? i then xv a j else xv a k.
Proof. intros Hi Hj. unfold xv. rewrite swap2_nth by auto. now destruct (k =? j), (k =? i). Qed.

Lemma swap2_perm a i j : i < length a -> j < length a -> Permutation (swap2 a i j) a.
Proof.
  intros Hi Hj. unfold swap2. set (l1 := lset a i (nth j a cell0)).
  assert (N : nth j l1 cell0 = nth j a cell0).
  { unfold l1. rewrite lset_nth'. destruct (Nat.eqb_spec j i) as [->|]; cbn [andb]; auto. now destruct (i <? length a). }
  apply Permutation_cons_inv with (nth j l1 cell0).
  apply perm_trans with (nth i a cell0 :: l1); [apply lset_perm'; unfold l1; now rewrite lset_length'|].
  rewrite N. now apply lset_perm'.
Qed.

(* ------------------------------------------------------------------------------------------------ *)
(** ** Three-way partition *)

Definition parted (p : R) (a : list cell) (i l r : nat) : Prop :=
  l <= i /\ i <= r /\ r <= length a /\
  (forall k, k < l -> (xv a k < p)%R) /\
  (forall k, l <= k < i -> xv a k = p) /\
  (forall k, r <= k < length a -> (xv a k > p)%R).

Lemma part3_spec p fuel : forall a i l r, r - i <= fuel -> parted p a i l r ->
  forall b l' r', part3 fuel p a i l r = (b, l', r') -> Permutation b a /\ parted p b r' l' r'.
Proof.
  induction fuel as [|k IH]; intros a i l r F P b l' r' E; cbn [part3] in E.
  - injection E as <- <- <-. split; auto. destruct P as (A1 & A2 & A3 & A4 & A5 & A6).
    replace i with r in * by lia. repeat split; auto; lia.
  - destruct (Nat.ltb_spec i r) as [Hi|Hi].
    2: { injection E as <- <- <-. split; auto. destruct P as (A1 & A2 & A3 & A4 & A5 & A6).
         replace i with r in * by lia. repeat split; auto; lia. }
    destruct P as (A1 & A2 & A3 & A4 & A5 & A6).
    destruct (Rlt_dec (xv a i) p) as [L|L]; [|destruct (Rgt_dec (xv a i) p) as [G|G]].
    + apply IH in E; [|lia|].
      * destruct E as [E1 E2]. split; auto. rewrite E1. apply swap2_perm; lia.
      * unfold parted. rewrite swap2_length. repeat split; try lia.
        -- intros j Hj. rewrite swap2_xv by lia. destruct (Nat.eqb_spec j l); auto.
           destruct (Nat.eqb_spec j i); [lia|]. apply A4. lia.
        -- intros j Hj. rewrite swap2_xv by lia. destruct (Nat.eqb_spec j l); [lia|].
           destruct (Nat.eqb_spec j i); apply A5; lia.
        -- intros j Hj. rewrite swap2_xv by lia. destruct (Nat.eqb_spec j l); [lia|].
           destruct (Nat.eqb_spec j i); [lia|]. apply A6. lia.
    + apply IH in E; [|lia|].
      * destruct E as [E1 E2]. split; auto. rewrite E1. apply swap2_perm; lia.
      * unfold parted. rewrite swap2_length. repeat split; try lia.
        -- intros j Hj. rewrite swap2_xv by lia. destruct (Nat.eqb_spec j (r - 1)); [lia|].
           destruct (Nat.eqb_spec j i); [lia|]. apply A4. lia.
        -- intros j Hj. rewrite swap2_xv by lia. destruct (Nat.eqb_spec j (r - 1)); [lia|].
           destruct (Nat.eqb_spec j i); [lia|]. apply A5; lia.
        -- intros j Hj. rewrite swap2_xv by lia. destruct (Nat.eqb_spec j (r - 1)); auto.
           destruct (Nat.eqb_spec j i); [lia|]. apply A6. lia.
    + apply IH in E; [|lia|]; auto.
      repeat split; try lia; auto. intros j Hj. destruct (Nat.eq_dec j i) as [->|]; [lra|]. apply A5. lia.
Qed.

(* ------------------------------------------------------------------------------------------------ *)
(** ** Heaps *)

Definition child (i c : nat) : Prop := c = 2 * i + 1 \/ c = 2 * i + 2.
(** heap order in [s, e) *)
Definition heap (a : list cell) (s e : nat) : Prop :=
  forall i c, s <= i -> child i c -> c < e -> (xv a c <= xv a i)%R.
(** heap order but for the children of [root] *)
Definition hole (a : list cell) (s e root : nat) : Prop :=
  (forall i c, s <= i -> i <> root -> child i c -> c < e -> (xv a c <= xv a i)%R) /\
  (forall c p, child root c -> c < e -> s <= p -> child p root -> (xv a c <= xv a p)%R).

(** [b] is [a] with the positions below [e] rearranged *)
Definition shuffled (e : nat) (a b : list cell) : Prop :=
  Permutation b a /\ (forall i, e <= i -> nth i b cell0 = nth i a cell0) /\
  (forall i, i < e -> exists j, j < e /\ nth i b cell0 = nth j a cell0).

Lemma shuffled_refl e a : shuffled e a a.
Proof. repeat split; auto. intros i Hi. now exists i. Qed.
Lemma shuffled_trans e a b c : shuffled e a b -> shuffled e b c -> shuffled e a c.
Proof.
  intros (A1 & A2 & A3) (B1 & B2 & B3). split; [now rewrite B1|]. split.
  - intros i Hi. rewrite B2, A2; auto.
  - intros i Hi. destruct (B3 i Hi) as (j & Hj & E). destruct (A3 j Hj) as (k & Hk & E'). exists k. split; congruence.
Qed.
Lemma shuffled_swap e a i j : i < e -> j < e -> e <= length a -> shuffled e a (swap2 a i j).
Proof.
  intros Hi Hj He. split; [apply swap2_perm; lia|]. split; intros k Hk; rewrite swap2_nth by lia.
  - destruct (Nat.eqb_spec k j); [lia|]. destruct (Nat.eqb_spec k i); [lia|auto].
  - destruct (Nat.eqb_spec k j); [now exists i|]. destruct (Nat.eqb_spec k i); [now exists j|now exists k].
Qed.

Lemma sift_spec fuel : forall a s e root, e - root <= fuel -> s <= root < e -> e <= length a -> hole a s e root ->
  heap (sift_down fuel a root e) s e /\ shuffled e a (sift_down fuel a root e).
Proof.
  induction fuel as [|k IH]; intros a s e root F [R1 R2] L [H1 H2]; [lia|].
  cbn [sift_down].
  set (c := root * 2 + 1).
  set (m1 := if c <? e then if Rlt_dec (xv a root) (xv a c) then c else root else root).
  set (m2 := if c + 1 <? e then if Rlt_dec (xv a m1) (xv a (c + 1)) then c + 1 else m1 else m1).
  assert (M1 : (m1 = root \/ m1 = c /\ c < e) /\ (xv a root <= xv a m1)%R /\ (c < e -> (xv a c <= xv a m1)%R)).
  { unfold m1. destruct (Nat.ltb_spec c e); [|repeat split; auto; try lra; lia].
    destruct (Rlt_dec (xv a root) (xv a c)); repeat split; auto; try lra; intros; lra. }
  assert (M2 : (m2 = root \/ (m2 = c \/ m2 = c + 1) /\ m2 < e) /\ (xv a root <= xv a m2)%R /\ (c < e -> (xv a c <= xv a m2)%R) /\
               (c + 1 < e -> (xv a (c + 1) <= xv a m2)%R)).
  { destruct M1 as (N1 & N2 & N3). unfold m2. destruct (Nat.ltb_spec (c + 1) e) as [Hc|Hc].
    - destruct (Rlt_dec (xv a m1) (xv a (c + 1))) as [Hl|Hl].
      + split; [right; split; [auto|lia]|]. split; [lra|]. split; [intros Hc'; specialize (N3 Hc'); lra|intros; lra].
      + split; [destruct N1 as [N1|[N1 N1']]; [auto|right; split; [auto|lia]]|]. repeat split; auto; intros; lra.
    - split; [destruct N1 as [N1|[N1 N1']]; [auto|right; split; [auto|lia]]|]. repeat split; auto; intros; lia. }
  clearbody m1 m2. clear M1 m1. destruct M2 as (N1 & N2 & N3 & N4).
  destruct (Nat.eqb_spec m2 root) as [->|D].
  - split; [|apply shuffled_refl]. intros i x Hi Hc Hx. destruct (Nat.eq_dec i root) as [->|]; [|now apply H1].
    destruct Hc as [Hc|Hc]; subst x.
    + replace (2 * root + 1) with c in * by (unfold c; lia). auto.
    + replace (2 * root + 2) with (c + 1) in * by (unfold c; lia). auto.
  - destruct N1 as [N1|[N1 N1']]; [congruence|].
    assert (Cm : child root m2) by (unfold child, c in *; lia).
    destruct (IH (swap2 a root m2) s e m2) as [Q1 Q2]; try (rewrite ?swap2_length; unfold c in *; lia).
    + split.
      * intros i x Hi Hn Hc Hx. rewrite !swap2_xv by lia.
        destruct (Nat.eqb_spec i m2); [congruence|].
        destruct (Nat.eqb_spec i root) as [->|Hir].
        -- destruct (Nat.eqb_spec x m2); [auto|]. destruct (Nat.eqb_spec x root); [unfold child in *; lia|].
           destruct Hc as [Hc|Hc]; subst x.
           ++ replace (2 * root + 1) with c in * by (unfold c; lia). auto.
           ++ replace (2 * root + 2) with (c + 1) in * by (unfold c; lia). auto.
        -- destruct (Nat.eqb_spec x m2) as [->|]; [unfold child in *; lia|].
           destruct (Nat.eqb_spec x root) as [->|]; [|now apply H1]. now apply H2.
      * intros x p Hc Hx Hp Hpc. assert (p = root) by (unfold child, c in *; lia). subst p.
        rewrite !swap2_xv by lia. rewrite Nat.eqb_refl.
        destruct (Nat.eqb_spec x m2); [unfold child in *; lia|].
        destruct (Nat.eqb_spec x root); [unfold child in *; lia|].
        destruct (Nat.eqb_spec root m2); [congruence|]. apply H1; auto. unfold c in *; lia.
    + split; auto. apply shuffled_trans with (swap2 a root m2); auto. apply shuffled_swap; lia.
Qed.

Lemma shuffled_length e a b : shuffled e a b -> length b = length a.
Proof. intros (H & _). now apply Permutation_length. Qed.

Lemma heapify_spec start : forall a, start < length a -> heap a (S start) (length a) ->
  heap (heapify start a) 0 (length a) /\ Permutation (heapify start a) a.
Proof.
  induction start as [|s IH]; intros a L H; cbn [heapify].
  - destruct (@sift_spec (length a) a 0 (length a) 0) as [Q1 Q2]; try lia.
    + split; [intros i c _ Hi Hc Hx; apply H; auto; lia|]. intros c p _ _ _ Hp. unfold child in Hp; lia.
    + split; auto. apply Q2.
  - destruct (@sift_spec (length a) a (S s) (length a) (S s)) as [Q1 Q2]; try lia.
    + split; [intros i c Hs Hi Hc Hx; apply H; auto; lia|]. intros c p _ _ Hs Hp. unfold child in Hp; lia.
    + set (b := sift_down (length a) a (S s) (length a)) in *.
      assert (Lb : length b = length a) by (eapply shuffled_length; eauto).
      destruct (IH b) as [P1 P2]; [lia|now rewrite Lb|]. rewrite Lb in P1. split; auto. rewrite P2. apply Q2.
Qed.

Lemma heap_max a e : heap a 0 e -> forall i, i < e -> (xv a i <= xv a 0)%R.
Proof.
  intros H i. induction i as [i IH] using lt_wf_ind. intros Hi. destruct i as [|i]; [lra|].
  assert (C : child (i / 2) (S i)).
  { unfold child. pose proof (Nat.div_mod i 2). pose proof (Nat.mod_upper_bound i 2). lia. }
  assert (L : i / 2 < S i) by (unfold child in C; lia).
  apply Rle_trans with (xv a (i / 2)); [apply H; auto; lia|apply IH; lia].
Qed.

(** sorted from position [e] on, and nothing before larger *)
Definition tail_sorted (a : list cell) (e : nat) : Prop :=
  forall i j, i <= j -> e <= j -> j < length a -> (xv a i <= xv a j)%R.

Lemma drain_spec e : forall a, e < length a -> heap a 0 (S e) -> tail_sorted a (S e) ->
  tail_sorted (drain e a) 0 /\ Permutation (drain e a) a.
Proof.
  induction e as [|e IH]; intros a L H T; cbn [drain].
  - split; auto. intros i j Hij _ Hj. destruct (Nat.eq_dec j 0) as [->|]; [|apply T; lia].
    replace i with 0 by lia. lra.
  - set (b := swap2 a 0 (S e)). set (c := sift_down (length a) b 0 (S e)).
    assert (Lb : length b = length a) by apply swap2_length.
    destruct (@sift_spec (length a) b 0 (S e) 0) as [Q1 Q2]; try lia.
    + split.
      * intros i x _ Hi Hc Hx. unfold b. rewrite !swap2_xv by lia.
        destruct (Nat.eqb_spec x (S e)); [lia|]. destruct (Nat.eqb_spec x 0); [unfold child in *; lia|].
        destruct (Nat.eqb_spec i (S e)); [unfold child in *; lia|].
        destruct (Nat.eqb_spec i 0); [lia|]. apply H; auto; lia.
      * intros x p _ _ _ Hp. unfold child in Hp; lia.
    + fold c in Q1, Q2. pose proof (shuffled_length Q2) as Lc.
      assert (T1 : tail_sorted b (S e)).
      { intros i j Hij Hj Hjl. rewrite Lb in Hjl. unfold b. rewrite !swap2_xv by lia.
        destruct (Nat.eqb_spec j (S e)) as [->|].
        - destruct (Nat.eqb_spec i (S e)); [lra|].
          destruct (Nat.eqb_spec i 0) as [->|]; apply heap_max with (e := S (S e)); auto; lia.
        - destruct (Nat.eqb_spec i (S e)) as [->|]; [destruct (Nat.eqb_spec j 0); [lia|]; apply T; lia|].
          destruct (Nat.eqb_spec j 0); [lia|].
          destruct (Nat.eqb_spec i 0) as [->|]; apply T; lia. }
      assert (T2 : tail_sorted c (S e)).
      { intros i j Hij Hj Hjl. destruct Q2 as (_ & B2 & B3). unfold xv. rewrite (B2 j Hj).
        destruct (Nat.lt_ge_cases i (S e)) as [Hi|Hi].
        - destruct (B3 i Hi) as (i' & Hi' & E). rewrite E. apply T1; lia.
        - rewrite (B2 i Hi). apply T1; lia. }
      destruct (IH c) as [P1 P2]; try lia; auto.
      split; auto. rewrite P2. destruct Q2 as (Q2 & _). rewrite Q2. apply swap2_perm; lia.
Qed.

Lemma heapsort_spec a : 1 < length a -> tail_sorted (heapsort a) 0 /\ Permutation (heapsort a) a.
Proof.
  intros L. unfold heapsort.
  assert (D : (length a - 2) / 2 < length a) by (apply Nat.div_lt_upper_bound; lia).
  destruct (@heapify_spec ((length a - 2) / 2) a) as [H1 H2]; auto.
  { intros i c Hi Hc Hx. exfalso. pose proof (Nat.div_mod (length a - 2) 2).
    pose proof (Nat.mod_upper_bound (length a - 2) 2). unfold child in Hc; lia. }
  set (b := heapify _ a) in *. pose proof (Permutation_length H2) as Lb. 
  destruct (@drain_spec (length a - 1) b) as [P1 P2]; try lia.
  - replace (S (length a - 1)) with (length a) by lia. auto.
  - intros i j _ Hj Hl. lia.
  - split; auto. now rewrite P2.
Qed.

(* ------------------------------------------------------------------------------------------------ *)
(** ** introsort *)

Definition cle (x y : cell) : Prop := (fst x <= fst y)%R.

Lemma ss_app (a b : list cell) : StronglySorted cle a -> StronglySorted cle b ->
  (forall x y, In x a -> In y b -> cle x y) -> StronglySorted cle (a ++ b).
Proof.
  induction a as [|x a IH]; cbn; intros A B H; auto. inversion A as [|? ? A1 A2]; subst. constructor; auto.
  apply Forall_app. split; auto. apply Forall_forall. intros y Hy. apply H; auto.
Qed.

Lemma tail_ss a : tail_sorted a 0 -> StronglySorted cle a.
Proof.
  induction a as [|x a IH]; intros H; constructor.
  - apply IH. intros i j Hij _ Hj. specialize (H (S i) (S j)). apply H; cbn; lia.
  - apply Forall_forall. intros y Hy. destruct (In_nth _ _ cell0 Hy) as (k & Hk & <-).
    specialize (H 0 (S k)). apply H; cbn; lia.
Qed.

Lemma ss_tail a : StronglySorted cle a -> tail_sorted a 0.
Proof.
  induction 1 as [|x a S IH F]; intros i j Hij _ Hj; cbn in Hj; [lia|].
  destruct i as [|i], j as [|j]; unfold xv in *; cbn [nth]; try lra; try lia.
  - rewrite Forall_forall in F. apply F, nth_In. lia.
  - apply IH; lia.
Qed.

Lemma in_piece (b : list cell) s n x : s + n <= length b -> In x (firstn n (skipn s b)) ->
  exists k, s <= k < s + n /\ x = nth k b cell0.
Proof.
  intros L H. destruct (In_nth _ _ cell0 H) as (k & Hk & <-).
  rewrite firstn_length, skipn_length in Hk. exists (s + k). split; [lia|].
  rewrite <- (firstn_skipn s b) at 2. rewrite app_nth2; rewrite firstn_length; [|lia].
  rewrite Nat.min_l by lia. replace (s + k - s) with k by lia.
  rewrite <- (firstn_skipn n (skipn s b)) at 2. rewrite app_nth1; auto. rewrite firstn_length, skipn_length. lia.
Qed.

Lemma introsort_spec maxd : forall a, StronglySorted cle (introsort maxd a) /\ Permutation (introsort maxd a) a.
Proof.
  induction maxd as [|d IH]; intros a; cbn [introsort];
    (destruct (Nat.leb_spec (length a) 1) as [L|L];
     [split; auto; destruct a as [|x [|y a]]; cbn in L; [constructor|repeat constructor|lia]|]).
  - destruct (@heapsort_spec a L). split; auto. now apply tail_ss.
  - destruct (part3 (length a) (median3 a) a 0 0 (length a)) as [[b l] r] eqn:E.
    apply (@part3_spec _ _ _ _ _ _) in E; [|lia|repeat split; intros; lia].
    destruct E as [P (Q1 & _ & Q3 & Q4 & Q5 & Q6)].
    destruct (IH (firstn l b)) as [S1 P1]. destruct (IH (skipn r b)) as [S2 P2].
    assert (I1 : forall x, In x (introsort d (firstn l b)) -> (fst x < median3 a)%R).
    { intros x Hx. apply (Permutation_in _ P1) in Hx. change (firstn l b) with (firstn l (skipn 0 b)) in Hx.
      apply in_piece in Hx; [|lia]. destruct Hx as (k & Hk & ->). apply Q4. lia. }
    assert (I2 : forall x, In x (firstn (r - l) (skipn l b)) -> fst x = median3 a).
    { intros x Hx. apply in_piece in Hx; [|lia]. destruct Hx as (k & Hk & ->). apply Q5. lia. }
    assert (I3 : forall x, In x (introsort d (skipn r b)) -> (fst x > median3 a)%R).
    { intros x Hx. apply (Permutation_in _ P2) in Hx.
      rewrite <- (firstn_all (skipn r b)), skipn_length in Hx. apply in_piece in Hx; [|lia].
      destruct Hx as (k & Hk & ->). apply Q6. lia. }
    split.
    + apply ss_app; auto; [apply ss_app; auto|].
      * assert (G : forall m : list cell, (forall x, In x m -> fst x = median3 a) -> StronglySorted cle m).
        { induction m as [|x m IHm]; intros Hm; constructor; [apply IHm; intros; apply Hm; now right|].
          apply Forall_forall. intros y Hy. unfold cle. rewrite (Hm x), (Hm y); [lra|now right|now left]. }
        now apply G.
      * intros x y Hx Hy. apply I2 in Hx. apply I3 in Hy. unfold cle. lra.
      * intros x y Hx Hy. apply I1 in Hx. unfold cle. apply in_app_or in Hy.
        destruct Hy as [Hy|Hy]; [apply I2 in Hy|apply I3 in Hy]; lra.
    + rewrite P1, P2. apply perm_trans with b; auto.
      rewrite <- (firstn_skipn l b) at 4. apply Permutation_app_head.
      rewrite <- (firstn_skipn (r - l) (skipn l b)) at 2.
      replace (skipn (r - l) (skipn l b)) with (skipn r b); auto.
      clear - Q1. revert r Q1. revert l. induction b as [|x b IHb]; intros l r Q; [now rewrite !skipn_nil|].
      destruct l as [|l]; cbn [skipn]; [now rewrite Nat.sub_0_r|]. destruct r as [|r]; [lia|].
      cbn [skipn]. rewrite Nat.sub_succ. apply IHb. lia.
Qed.

(* ------------------------------------------------------------------------------------------------ *)
(** ** C96 *)

(** After sort the samples are the same samples in an order of increasing value, whatever the values and
    whatever depth limit is used. *)
Theorem C96_sort maxd key samples :
  Permutation (sort_with maxd key samples) samples /\
  forall i j, i <= j -> j < length samples ->
    (key (nth i (sort_with maxd key samples) 0%nat) <= key (nth j (sort_with maxd key samples) 0%nat))%R.
Proof.
  destruct samples as [|s0 r0] eqn:Es; [cbn; split; auto; intros; lia|]. rewrite <- Es.
  replace (sort_with maxd key samples) with
    (map snd (introsort (maxd (length samples)) (map (fun i => (key i, i)) samples))) by now rewrite Es.
  set (a := map (fun i => (key i, i)) samples).
  destruct (introsort_spec (maxd (length samples)) a) as [S P]. set (b := introsort _ a) in *.
  assert (Pm : Permutation (map snd b) samples).
  { apply perm_trans with (map snd a); [now apply Permutation_map|]. unfold a. rewrite map_map. cbn. now rewrite map_id. }
  split; auto. intros i j Hij Hj.
  assert (Lb : length b = length samples) by (rewrite <- (Permutation_length Pm); now rewrite map_length).
  assert (K : forall k, k < length samples -> key (nth k (map snd b) 0) = xv b k).
  { intros k Hk. assert (I : In (nth k b cell0) b) by (apply nth_In; lia).
    apply (Permutation_in _ P) in I. unfold a in I. apply in_map_iff in I. destruct I as (x & Ex & _).
    replace 0 with (snd cell0) by reflexivity. rewrite map_nth. unfold xv. now rewrite <- Ex. }
  rewrite !K by lia. apply ss_tail; auto; lia.
Qed.
Print Assumptions C96_sort.

(** the sort of the code: the depth limit of the code *)
Theorem C96_code_sort key samples :
  Permutation (code_sort key samples) samples /\
  forall i j, i <= j -> j < length samples ->
    (key (nth i (code_sort key samples) 0%nat) <= key (nth j (code_sort key samples) 0%nat))%R.
Proof. apply C96_sort. Qed.

(** The pivot is a value of the array, so a round always settles at least one position: the loop of introsort
    ends even without the depth limit. *)
Theorem C96_progress a b l r : 1 < length a ->
  part3 (length a) (median3 a) a 0 0 (length a) = (b, l, r) -> l < r.
Proof.
  intros L E. apply (@part3_spec _ _ _ _ _ _) in E; [|lia|repeat split; intros; lia].
  destruct E as [P (Q1 & _ & Q3 & Q4 & Q5 & Q6)].
  assert (M : exists k, k < length a /\ median3 a = xv a k).
  { unfold median3. assert (length a / 2 < length a) by (apply Nat.div_lt; lia).
    destruct (Rlt_dec _ _), (Rlt_dec _ _); try destruct (Rlt_dec _ _);
      (exists 0; split; [lia|reflexivity]) || (exists (length a / 2); split; [lia|reflexivity]) || (exists (length a - 1); split; [lia|reflexivity]). }
  destruct M as (k & Hk & M).
  assert (I : In (nth k a cell0) b) by (apply (Permutation_in _ (Permutation_sym P)); now apply nth_In).
  destruct (In_nth _ _ cell0 I) as (j & Hj & Ej).
  assert (Ev : xv b j = median3 a) by (unfold xv in *; rewrite Ej; auto).
  destruct (Nat.lt_ge_cases j l) as [H|H]; [specialize (Q4 _ H); lra|].
  destruct (Nat.lt_ge_cases j r) as [H'|H']; [lia|]. specialize (Q6 j). lapply Q6; [lra|lia].
Qed.
Print Assumptions C96_progress.

Example C96_example : forall key : nat -> R, Rlt (key 3) (key 1) -> Rlt (key 1) (key 2) ->
  code_sort key [1; 2; 3] = [3; 1; 2].
Proof.
  intros key H1 H2. destruct (C96_code_sort key [1; 2; 3]) as [P S].
  set (c := code_sort key [1; 2; 3]) in *. pose proof (Permutation_length P) as Lc.
  pose proof (S 0 1) as S01. pose proof (S 1 2) as S12. cbn [length] in *.
  assert (N : NoDup c) by (apply (Permutation_NoDup (Permutation_sym P)); repeat constructor; cbn; intuition lia).
  assert (In (nth 0 c 0) [1;2;3] /\ In (nth 1 c 0) [1;2;3] /\ In (nth 2 c 0) [1;2;3]) as (I0 & I1 & I2)
    by (repeat split; apply (Permutation_in _ P), nth_In; lia).
  destruct c as [|x [|y [|z [|w c]]]]; try discriminate Lc. cbn [nth] in *.
  inversion N as [|? ? N1 N']; subst. inversion N' as [|? ? N2 N'']; subst. cbn in N1, N2.
  specialize (S01 ltac:(lia) ltac:(lia)). specialize (S12 ltac:(lia) ltac:(lia)).
  cbn in I0, I1, I2.
  destruct I0 as [<-|[<-|[<-|[]]]], I1 as [<-|[<-|[<-|[]]]], I2 as [<-|[<-|[<-|[]]]]; try tauto; try (exfalso; lra).
Qed.
