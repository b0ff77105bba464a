(** Proofs about the splitter: array lemmas, the feature-drawing loop, the scan of one feature, the partition
    loop, node_split. *)
From Coq Require Import ZArith Reals Lra FunctionalExtensionality Sorted.
From Verif Require Import Base TreeCritModel TreeCritProps SplitterModel SplitterSpec.
Set Implicit Arguments.
Local Notation length := List.length.
Open Scope R_scope.

(* ------------------------------------------------------------------------------------------------ *)
(** ** Arrays *)
Open Scope nat_scope.

Lemma lset_length {A} (l : list A) i v : length (lset l i v) = length l.
Proof. revert i. induction l as [|x l IH]; intros [|i]; cbn; auto. Qed.

Lemma lset_nth {A} (l : list A) i j v d : nth j (lset l i v) d = if (j =? i) && (i <? length l) then v else nth j l d.
Proof.
  revert i j. induction l as [|x l IH]; intros i j.
  - cbn [lset length]. replace (i <? 0) with false by (symmetry; apply Nat.ltb_ge; lia). now rewrite andb_false_r.
  - destruct i as [|i], j as [|j]; cbn [lset nth length]; auto. rewrite IH. reflexivity.
Qed.

Lemma lset_perm {A} (l : list A) i v d : i < length l -> Permutation (nth i l d :: lset l i v) (v :: l).
Proof.
  revert i. induction l as [|x l IH]; intros i Hi; cbn in Hi; [lia|]. destruct i as [|i]; cbn [nth lset].
  - apply perm_swap.
  - apply perm_trans with (x :: nth i l d :: lset l i v); [apply perm_swap|].
    apply perm_trans with (x :: v :: l); [apply perm_skip; apply IH; lia|apply perm_swap].
Qed.

Lemma swap_length l i j : length (swap l i j) = length l.
Proof. unfold swap. now rewrite !lset_length. Qed.

Lemma swap_nth l i j k : i < length l -> j < length l ->
  nth k (swap l i j) 0 = if k =? j then nth i l 0 else if k =? i then nth j l 0 else nth k l 0.
Proof.
  intros Hi Hj. unfold swap. rewrite !lset_nth, !lset_length.
  apply Nat.ltb_lt in Hi. apply Nat.ltb_lt in Hj. rewrite Hi, Hj, !andb_true_r. reflexivity.
Qed.

Lemma swap_perm l i j : i < length l -> j < length l -> Permutation (swap l i j) l.
Proof.
  intros Hi Hj. unfold swap. set (l1 := lset l i (nth j l 0)).
  assert (N : nth j l1 0 = nth j l 0).
  { unfold l1. rewrite lset_nth. destruct (Nat.eqb_spec j i) as [->|]; cbn [andb]; auto. now destruct (i <? length l). }
  apply Permutation_cons_inv with (nth j l1 0).
  apply perm_trans with (nth i l 0 :: l1); [apply lset_perm; unfold l1; now rewrite lset_length|].
  rewrite N. now apply lset_perm.
Qed.

(** a rearrangement of positions [s, e) *)
Definition rearr (s e : nat) (l l' : list nat) : Prop :=
  length l' = length l /\ (forall i, i < s \/ e <= i -> nth i l' 0 = nth i l 0) /\ Permutation l' l.

Lemma rearr_refl s e l : rearr s e l l.
Proof. split; auto. Qed.
Lemma rearr_trans s e l1 l2 l3 : rearr s e l1 l2 -> rearr s e l2 l3 -> rearr s e l1 l3.
Proof.
  intros (A1 & A2 & A3) (B1 & B2 & B3). split; [congruence|]. split.
  - intros i Hi. rewrite B2, A2; auto.
  - now transitivity l2.
Qed.
Lemma rearr_wider s e s' e' l l' : s' <= s -> e <= e' -> rearr s e l l' -> rearr s' e' l l'.
Proof. intros H1 H2 (A1 & A2 & A3). split; auto. split; auto. intros i Hi. apply A2. lia. Qed.

Lemma swap_rearr s e l i j : s <= i < e -> s <= j < e -> e <= length l -> rearr s e l (swap l i j).
Proof.
  intros Hi Hj He. split; [apply swap_length|]. split; [|apply swap_perm; lia].
  intros k Hk. rewrite swap_nth by lia. destruct (Nat.eqb_spec k j); [lia|]. destruct (Nat.eqb_spec k i); [lia|auto].
Qed.

Lemma firstn_nth_ext (l l' : list nat) n : length l' = length l -> (forall i, i < n -> nth i l' 0 = nth i l 0) ->
  firstn n l' = firstn n l.
Proof.
  revert l l'. induction n as [|n IH]; intros l l' HL H; [reflexivity|].
  destruct l as [|x l], l' as [|y l']; cbn in *; try lia; auto. f_equal.
  - apply (H 0). lia.
  - apply IH; [lia|]. intros i Hi. apply (H (S i)). lia.
Qed.
Lemma skipn_nth_ext (l l' : list nat) n : length l' = length l -> (forall i, n <= i -> nth i l' 0 = nth i l 0) ->
  skipn n l' = skipn n l.
Proof.
  revert l l'. induction n as [|n IH]; intros l l' HL H.
  - cbn [skipn]. apply nth_ext with (d := 0) (d' := 0); auto. intros i _. apply H. lia.
  - destruct l as [|x l], l' as [|y l']; cbn in *; try lia; auto. apply IH; [lia|]. intros i Hi. apply (H (S i)). lia.
Qed.

Lemma nth_skipn {A} (l : list A) k j d : nth j (skipn k l) d = nth (k + j) l d.
Proof.
  revert k. induction l as [|x l IH]; intros k.
  - rewrite skipn_nil. destruct (k + j); destruct j; auto.
  - destruct k as [|k]; [reflexivity|]. cbn [skipn plus nth]. apply IH.
Qed.
Lemma nth_firstn {A} (l : list A) n j d : j < n -> nth j (firstn n l) d = nth j l d.
Proof.
  revert l j. induction n as [|n IH]; intros l j Hj; [lia|]. destruct l as [|x l]; [now destruct j|].
  destruct j as [|j]; [reflexivity|]. cbn. apply IH. lia.
Qed.
Lemma nth_slice {A} (l : list A) s e j d : j < e - s -> nth j (slice l s e) d = nth (s + j) l d.
Proof. intros H. unfold slice. now rewrite nth_firstn, nth_skipn by auto. Qed.

Lemma slice_split {A} (l : list A) s e : s <= e -> l = firstn s l ++ slice l s e ++ skipn e l.
Proof.
  intros H. unfold slice. replace e with (s + (e - s)) at 2 by lia.
  rewrite skipn_plus, firstn_skipn. now rewrite firstn_skipn.
Qed.

Lemma rearr_slice s e l l' : s <= e -> rearr s e l l' -> Permutation (slice l' s e) (slice l s e).
Proof.
  intros H (A1 & A2 & A3).
  rewrite (slice_split l' H) in A3. rewrite (slice_split l H) in A3.
  rewrite (@firstn_nth_ext l l' s A1) in A3 by (intros; apply A2; lia).
  rewrite (@skipn_nth_ext l l' e A1) in A3 by (intros; apply A2; lia).
  apply Permutation_app_inv_l in A3. now apply Permutation_app_inv_r in A3.
Qed.

(** slices of disjoint regions are not touched *)
Lemma rearr_slice_out s e a b l l' : rearr s e l l' -> b <= s \/ e <= a -> slice l' a b = slice l a b.
Proof.
  intros (A1 & A2 & A3) H. apply nth_ext with (d := 0) (d' := 0).
  - unfold slice. now rewrite !firstn_length, !skipn_length, A1.
  - intros j Hj. unfold slice in Hj. rewrite firstn_length in Hj.
    rewrite !nth_slice by lia. apply A2. lia.
Qed.

Lemma put_length {A} (l m : list A) s : s + length m <= length l -> length (put l s m) = length l.
Proof. intros H. unfold put. rewrite !app_length, firstn_length, skipn_length. lia. Qed.

Lemma put_nth {A} (l m : list A) s i d : s + length m <= length l ->
  nth i (put l s m) d = if (s <=? i) && (i <? s + length m) then nth (i - s) m d else nth i l d.
Proof.
  intros H. unfold put.
  destruct (Nat.leb_spec s i) as [H1|H1]; cbn [andb].
  - rewrite app_nth2 by (rewrite firstn_length; lia). rewrite firstn_length. replace (Nat.min s (length l)) with s by lia.
    destruct (Nat.ltb_spec i (s + length m)) as [H2|H2].
    + now rewrite app_nth1 by lia.
    + rewrite app_nth2 by lia. rewrite nth_skipn. f_equal. lia.
  - rewrite app_nth1 by (rewrite firstn_length; lia). now rewrite nth_firstn.
Qed.

Lemma put_slice {A} (l m : list A) s e : s + length m <= length l -> e = s + length m -> slice (put l s m) s e = m.
Proof.
  intros H ->. unfold put, slice. replace (s + length m - s) with (length m) by lia.
  assert (E : length (firstn s l) = s) by (rewrite firstn_length; lia).
  rewrite <- E at 1. rewrite skipn_app, skipn_all, Nat.sub_diag. cbn [skipn app].
  now rewrite firstn_app, firstn_all, Nat.sub_diag, firstn_O, app_nil_r.
Qed.

Lemma put_rearr (l m : list nat) s e : s <= e <= length l -> Permutation m (slice l s e) -> rearr s e l (put l s m).
Proof.
  intros H P. assert (L : length m = e - s) by (rewrite (Permutation_length P); apply slice_length; lia).
  assert (B : s + length m <= length l) by lia.
  split; [now apply put_length|]. split.
  - intros i Hi. rewrite put_nth by auto. destruct (Nat.leb_spec s i); cbn [andb]; auto.
    destruct (Nat.ltb_spec i (s + length m)); auto. lia.
  - unfold put. rewrite (@slice_split _ l s e) at 3 by lia. apply Permutation_app_head.
    replace (s + length m) with e by lia. now apply Permutation_app_tail.
Qed.

Lemma slice_firstn_perm {A} (l : list A) n : n <= length l -> slice l 0 n = firstn n l.
Proof. intros. unfold slice. now rewrite Nat.sub_0_r. Qed.

Lemma slice_in {A} (l : list A) s e d i : s <= i < e -> e <= length l -> In (nth i l d) (slice l s e).
Proof.
  intros H1 H2. replace i with (s + (i - s)) by lia. rewrite <- (@nth_slice _ l s e) by lia.
  apply nth_In. rewrite slice_length by lia. lia.
Qed.
Lemma in_slice {A} (l : list A) s e d x : e <= length l -> In x (slice l s e) -> exists i, s <= i < e /\ x = nth i l d.
Proof.
  intros H1 H2. apply (In_nth _ _ d) in H2. destruct H2 as (j & Hj & <-). rewrite slice_length in Hj by lia.
  exists (s + j). split; [lia|]. now rewrite nth_slice by lia.
Qed.

(* ------------------------------------------------------------------------------------------------ *)
(** ** Splitting a list by a threshold *)

Lemma filter_all {A} (f : A -> bool) l : (forall x, In x l -> f x = true) -> filter f l = l.
Proof. induction l as [|x l IH]; intros H; cbn; [auto|]. rewrite (H x) by now left. f_equal. apply IH. intros; apply H; now right. Qed.
Lemma filter_none {A} (f : A -> bool) l : (forall x, In x l -> f x = false) -> filter f l = [].
Proof. induction l as [|x l IH]; intros H; cbn; [auto|]. rewrite (H x) by now left. apply IH. intros; apply H; now right. Qed.
Lemma filter_perm {A} (f : A -> bool) l l' : Permutation l l' -> Permutation (filter f l) (filter f l').
Proof.
  induction 1; cbn; auto.
  - destruct (f x); auto.
  - destruct (f x), (f y); auto. apply perm_swap.
  - etransitivity; eauto.
Qed.

Section Thr.
Variable X : nat -> nat -> R.

Lemma left_perm f t l l' : Permutation l l' -> Permutation (left_of X f t l) (left_of X f t l').
Proof. apply filter_perm. Qed.
Lemma right_perm f t l l' : Permutation l l' -> Permutation (right_of X f t l) (right_of X f t l').
Proof. apply filter_perm. Qed.
Lemma in_left f t l i : In i (left_of X f t l) <-> In i l /\ (X i f <= t)%R.
Proof. unfold left_of. rewrite filter_In. destruct (Rle_dec (X i f) t); intuition congruence. Qed.
Lemma in_right f t l i : In i (right_of X f t l) <-> In i l /\ ~ (X i f <= t)%R.
Proof. unfold right_of. rewrite filter_In. destruct (Rle_dec (X i f) t); intuition congruence. Qed.
Lemma left_right_perm f t l : Permutation (left_of X f t l ++ right_of X f t l) l.
Proof.
  induction l as [|i l IH]; cbn; [auto|]. destruct (Rle_dec (X i f) t); cbn.
  - now apply perm_skip.
  - symmetry. apply Permutation_cons_app. now symmetry.
Qed.

(** the array [samples] is split by feature f and threshold t at position q of [start, end) *)
Definition parted (f : nat) (t : R) (start q end_ : nat) (samples : list nat) : Prop :=
  (forall i, start <= i < q -> (X (nth i samples 0%nat) f <= t)%R) /\
  (forall i, q <= i < end_ -> ~ (X (nth i samples 0%nat) f <= t)%R).

Lemma parted_sides f t start q end_ samples node :
  start <= q <= end_ -> end_ <= length samples -> Permutation (slice samples start end_) node ->
  parted f t start q end_ samples ->
  Permutation (slice samples start q) (left_of X f t node) /\
  Permutation (slice samples q end_) (right_of X f t node).
Proof.
  intros H1 H2 P (A & B). rewrite <- (left_perm f t P), <- (right_perm f t P).
  rewrite (@slice_app _ samples start q end_) by lia. unfold left_of, right_of. rewrite !filter_app.
  assert (E1 : forall i, In i (slice samples start q) -> (X i f <= t)%R).
  { intros i Hi. apply (@in_slice _ _ _ _ 0) in Hi; [|lia]. destruct Hi as (j & Hj & ->). now apply A. }
  assert (E2 : forall i, In i (slice samples q end_) -> ~ (X i f <= t)%R).
  { intros i Hi. apply (@in_slice _ _ _ _ 0) in Hi; [|lia]. destruct Hi as (j & Hj & ->). now apply B. }
  split.
  - rewrite filter_all, filter_none, app_nil_r; auto.
    + intros i Hi. apply E2 in Hi. destruct (Rle_dec (X i f) t); auto; contradiction.
    + intros i Hi. apply E1 in Hi. destruct (Rle_dec (X i f) t); auto; contradiction.
  - rewrite filter_none, filter_all; auto.
    + intros i Hi. apply E2 in Hi. destruct (Rle_dec (X i f) t); auto; contradiction.
    + intros i Hi. apply E1 in Hi. destruct (Rle_dec (X i f) t); auto; contradiction.
Qed.

Lemma partition_ok f t fuel : forall samples p pe, pe - p <= fuel -> p <= pe <= length samples ->
  exists samples' q, partition X fuel f t samples p pe = (samples', q) /\ p <= q <= pe /\
    rearr p pe samples samples' /\ parted f t p q pe samples'.
Proof.
  induction fuel as [|k IH]; intros samples p pe Hf Hp; cbn [partition].
  - exists samples, pe. split; [auto|]. split; [lia|]. split; [apply rearr_refl|]. split; intros; lia.
  - destruct (Nat.ltb_spec p pe) as [H|H].
    + destruct (Rle_dec (X (nth p samples 0%nat) f) t) as [HL|HG].
      * destruct (IH samples (S p) pe) as (s' & q & E & Hq & Rr & Pt); [lia|lia|].
        exists s', q. split; [auto|]. split; [lia|]. split; [eapply rearr_wider; [| |exact Rr]; lia|].
        destruct Pt as (A & B). split; [|auto]. intros i Hi.
        destruct (Nat.eq_dec i p) as [->|]; [|apply A; lia].
        destruct Rr as (_ & O & _). now rewrite O by lia.
      * destruct (IH (swap samples p (pe - 1)) p (pe - 1)) as (s' & q & E & Hq & Rr & Pt);
          [lia|rewrite swap_length; lia|].
        exists s', q. split; [auto|]. split; [lia|].
        assert (R1 : rearr p pe samples (swap samples p (pe - 1))) by (apply swap_rearr; lia).
        split; [eapply rearr_trans; [exact R1|eapply rearr_wider; [| |exact Rr]; lia]|].
        destruct Pt as (A & B). split; [auto|]. intros i Hi.
        destruct (Nat.eq_dec i (pe - 1)) as [->|]; [|apply B; lia].
        destruct Rr as (_ & O & _). rewrite O by lia. rewrite swap_nth by lia. now rewrite Nat.eqb_refl.
    + exists samples, pe. split; [auto|]. split; [lia|]. split; [apply rearr_refl|]. split; intros; lia.
Qed.

(** a threshold splits a sorted array at some position *)
Lemma sorted_cut f t start end_ samples : start <= end_ ->
  (forall i j, start <= i -> i <= j -> j < end_ -> (X (nth i samples 0%nat) f <= X (nth j samples 0%nat) f)%R) ->
  exists q, start <= q <= end_ /\ parted f t start q end_ samples.
Proof.
  intros H. remember (end_ - start) as n eqn:En. revert end_ H En.
  induction n as [|n IH]; intros end_ H En Hs.
  - exists start. split; [lia|]. split; intros; lia.
  - destruct (IH (end_ - 1)) as (q & Hq & A & B); [lia|lia|intros; apply Hs; lia|].
    destruct (Nat.eq_dec q (end_ - 1)) as [Eq|Nq].
    + destruct (Rle_dec (X (nth (end_ - 1) samples 0%nat) f) t) as [L|G].
      * exists end_. split; [lia|]. split; [|intros; lia]. intros i Hi.
        destruct (Nat.eq_dec i (end_ - 1)) as [->|]; [auto|]. apply A. lia.
      * exists q. split; [lia|]. split; [auto|]. intros i Hi. assert (i = end_ - 1) as -> by lia. auto.
    + exists q. split; [lia|]. split; [auto|]. intros i Hi.
      destruct (Nat.eq_dec i (end_ - 1)) as [->|]; [|apply B; lia].
      assert (G : ~ (X (nth q samples 0%nat) f <= t)%R) by (apply B; lia).
      assert (L : (X (nth q samples 0%nat) f <= X (nth (end_ - 1) samples 0%nat) f)%R) by (apply Hs; lia). lra.
Qed.
End Thr.

Lemma FT_pos : (0 < FT)%R.
Proof. unfold FT. lra. Qed.

(* ------------------------------------------------------------------------------------------------ *)
(** ** The scan of one feature *)

Lemma skip_equal_ok xf end_ fuel : forall p, p < end_ -> end_ - p <= fuel ->
  let r := skip_equal fuel xf end_ p in
  p <= r < end_ /\ (forall q, p < q <= r -> (xf q <= xf (q - 1)%nat + FT)%R) /\
  (S r < end_ -> (xf r + FT < xf (S r))%R).
Proof.
  induction fuel as [|k IH]; intros p Hp Hf; [lia|]. cbv zeta. cbn [skip_equal].
  destruct (Nat.ltb_spec (S p) end_) as [H|H].
  - destruct (Rle_dec (xf (S p)) (xf p + FT)) as [L|G].
    + destruct (IH (S p)) as (A & B & D); [lia|lia|]. split; [lia|]. split; [|auto].
      intros q Hq. destruct (Nat.eq_dec q (S p)) as [->|]; [|apply B; lia].
      replace (S p - 1) with p by lia. auto.
    + split; [lia|]. split; [intros; lia|]. intros _. lra.
  - split; [lia|]. split; [intros; lia|]. intros; lia.
Qed.

Section Split.
Context {C V : Type}.
Variable cr : crit C V.
Variable sp : cspec V.
Variable N : R.
Variable rel : nat -> nat -> list nat -> C -> list nat -> nat -> Prop.
Hypothesis K : crit_ok cr sp N rel.
Variable X : nat -> nat -> R.
Variable srt : (nat -> R) -> list nat -> list nat.
Hypothesis srt_perm : forall key l, Permutation (srt key l) l.
Hypothesis srt_sorted : forall key l i j, i <= j -> j < length l ->
  (key (nth i (srt key l) 0%nat) <= key (nth j (srt key l) 0%nat))%R.
Variable rnd : nat -> nat.
Variable rmax : R.
Hypothesis rmax_pos : (0 < rmax)%R.
Hypothesis rnd_le : forall t, (INR (rnd t) <= rmax)%R.
Variables (max_features msl : nat) (mwl : R).

Definition adm (start end_ : nat) (samples : list nat) (xf : nat -> R) (q : nat) : Prop :=
  (xf (q - 1)%nat + FT < xf q)%R /\ msl <= q - start /\ msl <= end_ - q /\
  (mwl <= cs_wl sp (slice samples start q) (slice samples q end_))%R /\
  (mwl <= cs_wr sp (slice samples start q) (slice samples q end_))%R.

Lemma better_true pr best : better pr best = true -> forall b, best = Some b -> (ca_proxy b < pr)%R.
Proof. intros H b ->. unfold better in H. destruct (Rgt_dec pr (ca_proxy b)); [lra|discriminate]. Qed.
Lemma better_false pr best : better pr best = false -> exists b, best = Some b /\ (pr <= ca_proxy b)%R.
Proof.
  unfold better. destruct best as [b|]; [|discriminate]. destruct (Rgt_dec pr (ca_proxy b)) as [|G]; [discriminate|].
  intros _. exists b. split; [auto|lra].
Qed.

Definition mono (best best' : option cand) : Prop :=
  forall b, best = Some b -> exists b', best' = Some b' /\ (ca_proxy b <= ca_proxy b')%R.
Lemma mono_refl b : mono b b.
Proof. intros x H. exists x. split; [auto|lra]. Qed.
Lemma mono_trans a b c : mono a b -> mono b c -> mono a c.
Proof. intros H1 H2 x Hx. destruct (H1 x Hx) as (y & Hy & L1). destruct (H2 y Hy) as (z & Hz & L2). exists z. split; [auto|lra]. Qed.

Lemma scan_ok f start end_ node samples xf fuel : forall p pos c best,
  rel start end_ node c samples pos -> pos <= p -> start <= p <= end_ -> end_ - p < fuel ->
  exists c' best' pos', scan cr msl mwl fuel f start end_ samples xf p c best = Ok (c', best') /\
    rel start end_ node c' samples pos' /\ mono best best' /\
    (best' = best \/ exists q, p < q < end_ /\ adm start end_ samples xf q /\
       best' = Some (mkCand f q (mid_threshold xf q) (cs_proxy sp (slice samples start q) (slice samples q end_)))) /\
    (forall q, p < q < end_ -> adm start end_ samples xf q ->
       exists b, best' = Some b /\ (cs_proxy sp (slice samples start q) (slice samples q end_) <= ca_proxy b)%R).
Proof.
  induction fuel as [|k IH]; intros p pos c best HR Hpos Hp Hf; [lia|]. cbn [scan].
  destruct (Nat.ltb_spec p end_) as [H|H].
  2:{ exists c, best, pos. split; [auto|]. split; [auto|]. split; [apply mono_refl|]. split; [now left|]. intros; lia. }
  destruct (@skip_equal_ok xf end_ end_ p H ltac:(lia)) as (A & B & D). cbv zeta in A, B, D.
  set (r := skip_equal end_ xf end_ p) in *.
  assert (NG : forall q, p < q < S r -> adm start end_ samples xf q -> False).
  { intros q Hq (G & _). specialize (B q ltac:(lia)). lra. }
  destruct (Nat.ltb_spec (S r) end_) as [H1|H1].
  2:{ destruct (IH (S r) pos c best HR ltac:(lia) ltac:(lia) ltac:(lia)) as (c' & b' & pos' & E & R' & M & O & Q).
      exists c', b', pos'. split; [auto|]. split; [auto|]. split; [auto|]. split.
      - destruct O as [O|(q & Hq & Aq & Eq)]; [now left|lia].
      - intros q Hq Aq. exfalso. apply (NG q); [lia|auto]. }
  assert (STEP : forall c1 pos1 best1, rel start end_ node c1 samples pos1 -> pos1 <= S r -> mono best best1 ->
     (best1 = best \/ (adm start end_ samples xf (S r) /\ best1 = Some (mkCand f (S r) (mid_threshold xf (S r))
         (cs_proxy sp (slice samples start (S r)) (slice samples (S r) end_))))) ->
     (adm start end_ samples xf (S r) -> exists b, best1 = Some b /\
         (cs_proxy sp (slice samples start (S r)) (slice samples (S r) end_) <= ca_proxy b)%R) ->
     exists c' best' pos', scan cr msl mwl k f start end_ samples xf (S r) c1 best1 = Ok (c', best') /\
      rel start end_ node c' samples pos' /\ mono best best' /\
      (best' = best \/ exists q, p < q < end_ /\ adm start end_ samples xf q /\
       best' = Some (mkCand f q (mid_threshold xf q) (cs_proxy sp (slice samples start q) (slice samples q end_)))) /\
      (forall q, p < q < end_ -> adm start end_ samples xf q ->
       exists b, best' = Some b /\ (cs_proxy sp (slice samples start q) (slice samples q end_) <= ca_proxy b)%R)).
  { intros c1 pos1 best1 R1 P1 M1 O1 Q1.
    destruct (IH (S r) pos1 c1 best1 R1 P1 ltac:(lia) ltac:(lia)) as (c' & b' & pos' & E & R' & M & O & Q).
    exists c', b', pos'. split; [auto|]. split; [auto|]. split; [eapply mono_trans; eauto|]. split.
    - destruct O as [O|(q & Hq & Aq & Eq)].
      + destruct O1 as [O1|[O1 O2]]; [left; congruence|]. right. exists (S r). split; [lia|]. split; [auto|congruence].
      + right. exists q. split; [lia|]. auto.
    - intros q Hq Aq. destruct (Nat.lt_trichotomy q (S r)) as [L|[->|G]].
      + exfalso. apply (NG q); auto. lia.
      + destruct (Q1 Aq) as (b & -> & L). destruct (M b eq_refl) as (b2 & -> & L2). exists b2. split; [auto|lra].
      + apply Q; auto. lia. }
  destruct ((S r - start <? msl) || (end_ - S r <? msl))%bool eqn:Em.
  { apply (STEP c pos best HR); [lia|apply mono_refl|now left|].
    intros (_ & A1 & A2 & _). apply orb_true_iff in Em. rewrite !Nat.ltb_lt in Em. lia. }
  apply orb_false_iff in Em. rewrite !Nat.ltb_ge in Em.
  destruct (@k_update _ _ _ _ _ _ K _ _ _ _ _ _ (S r) HR) as (c1 & -> & R1); [lia|]. cbn [bind].
  destruct (@k_facts _ _ _ _ _ _ K _ _ _ _ _ _ R1) as (_ & _ & _ & _ & _ & _ & FL & FR & FP & _). rewrite FL, FR, FP.
  destruct (Rlt_dec _ mwl) as [W1|W1].
  { apply (STEP c1 (S r) best R1); [lia|apply mono_refl|now left|]. intros (_ & _ & _ & A1 & _). lra. }
  destruct (Rlt_dec _ mwl) as [W2|W2].
  { apply (STEP c1 (S r) best R1); [lia|apply mono_refl|now left|]. intros (_ & _ & _ & _ & A2). lra. }
  assert (AD : adm start end_ samples xf (S r)).
  { unfold adm. replace (S r - 1) with r by lia. split; [auto|]. split; [lia|]. split; [lia|]. split; lra. }
  destruct (better _ best) eqn:Eb.
  - apply (STEP c1 (S r) _ R1); [lia| |right; auto|].
    + intros b Hb. eexists. split; [reflexivity|]. cbn. left. now apply (better_true _ Eb).
    + intros _. eexists. split; [reflexivity|]. cbn. lra.
  - apply (STEP c1 (S r) _ R1); [lia|apply mono_refl|now left|].
    intros _. now apply better_false.
Qed.

(* ------------------------------------------------------------------------------------------------ *)
(** ** Evaluating one feature *)

Section Node.
Variables (start end_ : nat) (samples0 : list nat).
Hypothesis Hse : start < end_ <= length samples0.
Let node := slice samples0 start end_.

Definition live (c : C) : Prop := exists s p, rel start end_ node c s p.

Definition good (b : cand) : Prop :=
  allowed sp X msl mwl (ca_feature b) (ca_thr b) node /\
  ca_pos b = start + length (left_of X (ca_feature b) (ca_thr b) node) /\
  ca_proxy b = cs_proxy sp (left_of X (ca_feature b) (ca_thr b) node) (right_of X (ca_feature b) (ca_thr b) node).

Definition dominated (f : nat) (best : option cand) : Prop :=
  forall t, allowed sp X msl mwl f t node -> separated X f t node ->
  exists b, best = Some b /\ (cs_proxy sp (left_of X f t node) (right_of X f t node) <= ca_proxy b)%R.

Lemma node_len : length node = end_ - start.
Proof. apply slice_length. lia. Qed.

Lemma rearr_node s : rearr start end_ samples0 s -> end_ <= length s /\ Permutation (slice s start end_) node.
Proof. intros Rr. split; [destruct Rr as (-> & _); lia|]. apply rearr_slice; [lia|auto]. Qed.

Lemma in_node s i : rearr start end_ samples0 s -> start <= i < end_ -> In (nth i s 0) node.
Proof.
  intros Rr Hi. destruct (rearr_node Rr) as [L P]. apply (Permutation_in _ P). apply slice_in; lia.
Qed.
Lemma node_in s x : rearr start end_ samples0 s -> In x node -> exists i, start <= i < end_ /\ x = nth i s 0.
Proof.
  intros Rr Hi. destruct (rearr_node Rr) as [L P]. apply (Permutation_in _ (Permutation_sym P)) in Hi.
  now apply in_slice.
Qed.

(** a position at which a rearrangement of the node is split gives a good candidate *)
Lemma parted_good f t q s : rearr start end_ samples0 s -> start < q < end_ -> parted X f t start q end_ s ->
  msl <= q - start -> msl <= end_ - q ->
  (mwl <= cs_wl sp (slice s start q) (slice s q end_))%R -> (mwl <= cs_wr sp (slice s start q) (slice s q end_))%R ->
  good (mkCand f q t (cs_proxy sp (slice s start q) (slice s q end_))).
Proof.
  intros Rr Hq Pt M1 M2 W1 W2. destruct (rearr_node Rr) as [L P].
  destruct (parted_sides (conj (Nat.lt_le_incl _ _ (proj1 Hq)) (Nat.lt_le_incl _ _ (proj2 Hq))) L P Pt) as [P1 P2].
  pose proof (Permutation_length P1) as L1. pose proof (Permutation_length P2) as L2.
  rewrite !slice_length in L1, L2 by lia.
  destruct (k_perm K P1 P2) as (E1 & E2 & E3 & _).
  unfold good, allowed. cbn [ca_feature ca_thr ca_pos ca_proxy].
  rewrite E1, <- E2, <- E3, <- L1, <- L2. split; [|split; [lia|auto]].
  split; [intros E; rewrite E in L1; cbn in L1; lia|]. split; [intros E; rewrite E in L2; cbn in L2; lia|].
  split; [lia|]. split; [lia|]. auto.
Qed.

Lemma mid_between xf q : (xf (q - 1)%nat < xf q)%R -> (xf (q - 1)%nat <= mid_threshold xf q < xf q)%R.
Proof.
  intros H. unfold mid_threshold. destruct (Req_EM_T _ (xf q)) as [E|E]; [lra|]. split; lra.
Qed.

Definition step_ok (random : bool) (f : nat) (s : @sst C) (flag : bool) (s' : @sst C) : Prop :=
  rearr start end_ samples0 (s_samples s') /\ live (s_crit s') /\ s_cur s' = Some f /\
  mono (s_best s) (s_best s') /\
  (flag = true -> constant_on X f node /\ s_best s' = s_best s) /\
  (flag = false -> ~ constant_on X f node /\
     (random = false -> dominated f (s_best s')) /\
     (s_best s' = s_best s \/
      exists b, s_best s' = Some b /\ good b /\ ca_feature b = f /\
        (random = false -> separated X f (ca_thr b) node) /\
        (random = true -> parted X f (ca_thr b) start (ca_pos b) end_ (s_samples s')))).

Lemma eval_best_ok f s : rearr start end_ samples0 (s_samples s) -> live (s_crit s) ->
  exists flag s', eval_best cr X srt msl mwl start end_ f s = Ok (flag, s') /\ step_ok false f s flag s'.
Proof.
  intros Rr Lc. unfold eval_best.
  destruct (rearr_node Rr) as [L P]. rewrite at_range_slice by lia.
  set (key := fun i => X i f). set (srtd := srt key (slice (s_samples s) start end_)).
  set (samples := put (s_samples s) start srtd).
  assert (LS : length srtd = end_ - start).
  { unfold srtd. rewrite (Permutation_length (srt_perm _ _)). apply slice_length. lia. }
  assert (R1 : rearr start end_ (s_samples s) samples) by (apply put_rearr; [lia|apply srt_perm]).
  assert (R2 : rearr start end_ samples0 samples) by (eapply rearr_trans; eauto).
  assert (SV : forall i, start <= i < end_ -> nth i samples 0 = nth (i - start) srtd 0).
  { intros i Hi. unfold samples. rewrite put_nth by lia.
    destruct (Nat.leb_spec start i); [|lia]. destruct (Nat.ltb_spec i (start + length srtd)); [reflexivity|lia]. }
  assert (Srt : forall i j, start <= i -> i <= j -> j < end_ -> (X (nth i samples 0%nat) f <= X (nth j samples 0%nat) f)%R).
  { intros i j H1 H2 H3. rewrite !SV by lia. apply (srt_sorted key); [lia|]. rewrite slice_length by lia. lia. }
  destruct (rearr_node R2) as [L2 P2].
  set (xf := fun p => X (nth p samples 0%nat) f).
  change (X (nth (end_ - 1) samples 0) f) with (xf (end_ - 1)). change (X (nth start samples 0) f) with (xf start).
  destruct (Rle_dec (xf (end_ - 1)) (xf start + FT)) as [H|H].
  - eexists true, _. split; [reflexivity|]. unfold step_ok. cbn [s_samples s_crit s_cur s_best].
    split; [auto|]. split; [auto|]. split; [auto|]. split; [apply mono_refl|]. split; [|discriminate].
    intros _. split; [|auto]. intros i j Hi Hj.
    apply (@node_in _ _ R2) in Hi. apply (@node_in _ _ R2) in Hj. destruct Hi as (a & Ha & ->), Hj as (b & Hb & ->).
    assert (A1 : (xf start <= xf a)%R) by (apply Srt; lia).
    assert (A2 : (xf b <= xf (end_ - 1)%nat)%R) by (apply Srt; lia). unfold xf in *. lra.
  - destruct Lc as (s1 & p1 & Rl).
    assert (R0 : rel start end_ node (cr_reset cr (s_crit s)) samples start) by (eapply (k_reset K); eauto).
    destruct (@scan_ok f start end_ node samples xf (S (end_ - start)) start start _ (s_best s) R0) as
      (c' & b' & pos' & E & Rl' & M & O & Q); [lia|lia|lia|].
    rewrite E. cbn [bind]. eexists false, _. split; [reflexivity|]. unfold step_ok. cbn [s_samples s_crit s_cur s_best fst snd].
    split; [auto|]. split; [exists samples, pos'; auto|]. split; [auto|]. split; [auto|]. split; [discriminate|].
    intros _. split; [|split].
    + intros Ct. apply H. apply (Ct (nth start samples 0) (nth (end_ - 1) samples 0)); apply (@in_node _ _ R2); lia.
    + intros _ t Al Sp.
      destruct (@sorted_cut X f t start end_ samples ltac:(lia) Srt) as (q & Hq & Pt).
      destruct (parted_sides Hq L2 P2 Pt) as [P3 P4].
      pose proof (Permutation_length P3) as L3. pose proof (Permutation_length P4) as L4.
      rewrite !slice_length in L3, L4 by lia.
      destruct (k_perm K P3 P4) as (E1 & E2 & E3 & _).
      destruct Al as (N1 & N2 & M1 & M2 & W1 & W2).
      assert (Q1 : start < q).
      { destruct (left_of X f t node) as [|x l]; [congruence|]. cbn in L3. lia. }
      assert (Q2 : q < end_).
      { destruct (right_of X f t node) as [|x l]; [congruence|]. cbn in L4. lia. }
      rewrite <- E1. apply Q; [lia|]. unfold adm. rewrite E2, E3.
      split; [|split; [lia|split; [lia|auto]]].
      unfold xf. apply Sp.
      * apply (Permutation_in _ P3). apply slice_in; lia.
      * apply (Permutation_in _ P4). apply slice_in; lia.
    + destruct O as [O|(q & Hq & (G & M1 & M2 & W1 & W2) & Eb)]; [now left|]. right. eexists. split; [exact Eb|].
      pose proof FT_pos as FP.
      destruct (@mid_between xf q) as [T1 T2]; [lra|].
      assert (Pt : parted X f (mid_threshold xf q) start q end_ samples).
      { split; intros i Hi.
        - assert (A1 : (xf i <= xf (q - 1)%nat)%R) by (apply Srt; lia). unfold xf in *. lra.
        - assert (A1 : (xf q <= xf i)%R) by (apply Srt; lia). unfold xf in *. lra. }
      split; [apply parted_good; auto|]. split; [reflexivity|]. cbn [ca_thr]. split; [|discriminate].
      intros _ i j Hi Hj. apply in_left in Hi. apply in_right in Hj.
      destruct Hi as [Hi Ti], Hj as [Hj Tj]. apply (@node_in _ _ R2) in Hi. apply (@node_in _ _ R2) in Hj.
      destruct Hi as (a & Ha & ->), Hj as (b & Hb & ->).
      assert (A : a < q). { destruct (Nat.lt_ge_cases a q); auto. exfalso. destruct Pt as (_ & Pt). apply (Pt a); [lia|auto]. }
      assert (B : q <= b). { destruct (Nat.lt_ge_cases b q); auto. exfalso. destruct Pt as (Pt & _). apply Tj, Pt. lia. }
      assert (A1 : (xf a <= xf (q - 1)%nat)%R) by (apply Srt; lia).
      assert (A2 : (xf q <= xf b)%R) by (apply Srt; lia). unfold xf in *. lra.
Qed.

Lemma fold_min_max f l : forall m0 M0, (m0 <= M0)%R ->
  let mm := fold_left (fun mm i => let v := X i f in
               if Rlt_dec v (fst mm) then (v, snd mm)
               else if Rgt_dec v (snd mm) then (fst mm, v) else mm) l (m0, M0) in
  (fst mm <= m0)%R /\ (M0 <= snd mm)%R /\
  (forall i, In i l -> (fst mm <= X i f <= snd mm)%R) /\
  (fst mm = m0 \/ exists i, In i l /\ fst mm = X i f) /\ (snd mm = M0 \/ exists i, In i l /\ snd mm = X i f).
Proof.
  induction l as [|i l IH]; intros m0 M0 H; cbv zeta; cbn [fold_left fst snd].
  - split; [lra|]. split; [lra|]. split; [easy|]. auto.
  - destruct (Rlt_dec (X i f) m0) as [H1|H1]; [|destruct (Rgt_dec (X i f) M0) as [H2|H2]].
    + destruct (IH (X i f) M0 ltac:(lra)) as (A & B & D & E & F). cbv zeta in *.
      split; [lra|]. split; [lra|]. split; [intros j [<-|Hj]; [lra|auto]|]. split.
      * right. destruct E as [E|(j & Hj & E)]; [exists i|exists j]; cbn; auto.
      * destruct F as [F|(j & Hj & F)]; [now left|right; exists j; cbn; auto].
    + destruct (IH m0 (X i f) ltac:(lra)) as (A & B & D & E & F). cbv zeta in *.
      split; [lra|]. split; [lra|]. split; [intros j [<-|Hj]; [lra|auto]|]. split.
      * destruct E as [E|(j & Hj & E)]; [now left|right; exists j; cbn; auto].
      * right. destruct F as [F|(j & Hj & F)]; [exists i|exists j]; cbn; auto.
    + destruct (IH m0 M0 H) as (A & B & D & E & F). cbv zeta in *.
      split; [lra|]. split; [lra|]. split; [intros j [<-|Hj]; [lra|auto]|]. split.
      * destruct E as [E|(j & Hj & E)]; [now left|right; exists j; cbn; auto].
      * destruct F as [F|(j & Hj & F)]; [now left|right; exists j; cbn; auto].
Qed.

Lemma min_max_ok f s : rearr start end_ samples0 s ->
  let mm := min_max X s start end_ f in
  (forall i, In i node -> (fst mm <= X i f <= snd mm)%R) /\
  (exists i, In i node /\ fst mm = X i f) /\ (exists i, In i node /\ snd mm = X i f).
Proof.
  intros Rr. cbv zeta. unfold min_max. destruct (rearr_node Rr) as [L P]. rewrite at_range_slice by lia.
  set (x0 := X (nth start s 0) f).
  destruct (@fold_min_max f (slice s (S start) end_) x0 x0 ltac:(lra)) as (A & B & D & E & F). cbv zeta in *.
  set (mm := fold_left _ _ _) in *.
  assert (I0 : In (nth start s 0) node) by (apply (@in_node _ _ Rr); lia).
  assert (I1 : forall i, In i (slice s (S start) end_) -> In i node).
  { intros i Hi. apply (@in_slice _ _ _ _ 0) in Hi; [|lia]. destruct Hi as (j & Hj & ->). apply (@in_node _ _ Rr). lia. }
  split; [|split].
  - intros i Hi. apply (@node_in _ _ Rr) in Hi. destruct Hi as (j & Hj & ->).
    destruct (Nat.eq_dec j start) as [->|]; [fold x0; lra|]. apply D. apply slice_in; lia.
  - destruct E as [E|(i & Hi & E)]; eauto.
  - destruct F as [F|(i & Hi & F)]; eauto.
Qed.

Lemma eval_random_ok f s : rearr start end_ samples0 (s_samples s) -> live (s_crit s) ->
  exists flag s', eval_random cr X rnd rmax msl mwl start end_ f s = Ok (flag, s') /\ step_ok true f s flag s'.
Proof.
  intros Rr Lc. unfold eval_random.
  destruct (min_max_ok f Rr) as (MM & (i0 & I0 & E0) & (i1 & I1 & E1)). cbv zeta in *.
  set (mm := min_max X (s_samples s) start end_ f) in *. clearbody mm.
  destruct (Rle_dec (snd mm) (fst mm + FT)) as [H|H].
  - eexists true, _. split; [reflexivity|]. unfold step_ok. cbn [s_samples s_crit s_cur s_best].
    split; [auto|]. split; [auto|]. split; [auto|]. split; [apply mono_refl|]. split; [|discriminate].
    intros _. split; [|auto]. intros i j Hi Hj. pose proof (MM i Hi). pose proof (MM j Hj). lra.
  - set (u := ((snd mm - fst mm) * INR (rnd (s_t s)) / rmax + fst mm)%R).
    set (thr := if Req_EM_T u (snd mm) then fst mm else u).
    pose proof FT_pos as FP.
    assert (T : (fst mm <= thr < snd mm)%R).
    { assert (U : (fst mm <= u <= snd mm)%R).
      { assert (Q : (0 <= INR (rnd (s_t s)) / rmax <= 1)%R).
        { split; [apply Rmult_le_pos; [apply pos_INR|left; now apply Rinv_0_lt_compat]|].
          apply Rmult_le_reg_r with rmax; [auto|]. unfold Rdiv. rewrite Rmult_assoc, Rinv_l, Rmult_1_r, Rmult_1_l by lra. auto. }
        set (z := (INR (rnd (s_t s)) / rmax)%R) in *.
        replace u with ((snd mm - fst mm) * z + fst mm)%R by (unfold u, z, Rdiv; ring).
        assert (0 <= (snd mm - fst mm) * z <= (snd mm - fst mm) * 1)%R by (split; [apply Rmult_le_pos; lra|apply Rmult_le_compat_l; lra]).
        lra. }
      unfold thr. destruct (Req_EM_T u (snd mm)); lra. }
    destruct (@partition_ok X f thr (end_ - start) (s_samples s) start end_) as (s' & q & E & Hq & R1 & Pt);
      [lia|destruct Rr as (-> & _); lia|].
    rewrite E.
    assert (R2 : rearr start end_ samples0 s') by (eapply rearr_trans; eauto).
    destruct (rearr_node R2) as [L2 P2].
    assert (NC : ~ constant_on X f node).
    { intros Ct. pose proof (Ct i0 i1 I0 I1). lra. }
    assert (Q : start < q < end_).
    { destruct (@node_in _ _ R2 I0) as (a & Ha & Ea). destruct (@node_in _ _ R2 I1) as (b & Hb & Eb). split.
      - destruct (Nat.lt_ge_cases start q) as [|G]; auto. exfalso. destruct Pt as (_ & Pt). apply (Pt a); [lia|].
        rewrite <- Ea, <- E0. lra.
      - destruct (Nat.lt_ge_cases q end_) as [|G]; auto. exfalso. destruct Pt as (Pt & _).
        assert (T2 := Pt b ltac:(lia)). rewrite <- Eb, <- E1 in T2. lra. }
    assert (TRIV : forall c, live c -> step_ok true f s false (mkSst s' c (s_best s) (Some f) (S (s_t s)))).
    { intros c Lv. unfold step_ok. cbn [s_samples s_crit s_cur s_best].
      split; [auto|]. split; [auto|]. split; [auto|]. split; [apply mono_refl|]. split; [discriminate|].
      intros _. split; [auto|]. split; [discriminate|]. now left. }
    destruct ((q - start <? msl) || (end_ - q <? msl))%bool eqn:Em.
    { eexists false, _. split; [reflexivity|]. now apply TRIV. }
    apply orb_false_iff in Em. rewrite !Nat.ltb_ge in Em.
    destruct Lc as (s1 & p1 & Rl).
    assert (R0 : rel start end_ node (cr_reset cr (s_crit s)) s' start) by (eapply (k_reset K); eauto).
    destruct (@k_update _ _ _ _ _ _ K _ _ _ _ _ _ q R0) as (c1 & -> & Rl1); [lia|]. cbn [bind].
    destruct (@k_facts _ _ _ _ _ _ K _ _ _ _ _ _ Rl1) as (_ & _ & _ & _ & _ & _ & FL & FR & FQ & _).
    rewrite FL, FR, FQ.
    assert (Lv1 : live c1) by (exists s', q; auto).
    destruct (Rlt_dec _ mwl) as [W1|W1]; [eexists false, _; split; [reflexivity|]; now apply TRIV|].
    destruct (Rlt_dec _ mwl) as [W2|W2]; [eexists false, _; split; [reflexivity|]; now apply TRIV|].
    eexists false, _. split; [reflexivity|].
    destruct (better _ (s_best s)) eqn:Eb; [|now apply TRIV].
    unfold step_ok. cbn [s_samples s_crit s_cur s_best].
    split; [auto|]. split; [auto|]. split; [auto|]. split.
    { intros b Hb. eexists. split; [reflexivity|]. cbn. left. now apply (better_true _ Eb). }
    split; [discriminate|]. intros _. split; [auto|]. split; [discriminate|]. right.
    eexists. split; [reflexivity|]. split; [apply parted_good; auto; try lia; lra|].
    cbn [ca_feature ca_thr ca_pos]. split; [auto|]. split; [discriminate|]. auto.
Qed.

(* ------------------------------------------------------------------------------------------------ *)
(** ** Drawing features *)

Section Draw.
Variables (features0 : list nat) (nk : nat) (random : bool).
Hypothesis Hnd : NoDup features0.
Hypothesis Hnk : nk <= length features0.
Let nf := length features0.
Let eval := if random then eval_random cr X rnd rmax msl mwl start end_ else eval_best cr X srt msl mwl start end_.

Lemma eval_ok f s : rearr start end_ samples0 (s_samples s) -> live (s_crit s) ->
  exists flag s', eval f s = Ok (flag, s') /\ step_ok random f s flag s'.
Proof. unfold eval. destruct random; intros H1 H2; [now apply eval_random_ok|now apply eval_best_ok]. Qed.

Record dinv (q : draw) (s : @sst C) : Prop := mkDinv {
  i_len : length (dr_features q) = nf;
  i_perm : Permutation (dr_features q) features0;
  i_known : Permutation (firstn nk (dr_features q)) (firstn nk features0);
  i_drawn : dr_drawn q <= nk;
  i_fi : nk + dr_found q <= dr_fi q <= nf;
  i_vis : dr_visited q = dr_drawn q + dr_found q + (nf - dr_fi q);
  i_const : forall i, nk <= i < nk + dr_found q -> constant_on X (nth i (dr_features q) 0) node;
  i_seen : forall i, dr_fi q <= i < nf -> ~ constant_on X (nth i (dr_features q) 0) node /\
             (random = false -> dominated (nth i (dr_features q) 0) (s_best s));
  i_rearr : rearr start end_ samples0 (s_samples s);
  i_live : live (s_crit s);
  i_best : forall b, s_best s = Some b ->
             good b /\ (exists i, dr_fi q <= i < nf /\ ca_feature b = nth i (dr_features q) 0) /\
             (random = false -> separated X (ca_feature b) (ca_thr b) node) /\
             (random = true -> s_cur s = Some (ca_feature b) ->
                parted X (ca_feature b) (ca_thr b) start (ca_pos b) end_ (s_samples s))
}.

Lemma firstn_rearr a e (l l' : list nat) : rearr a e l l' -> nk <= a -> firstn nk l' = firstn nk l.
Proof. intros (A & B & _) H. apply firstn_nth_ext; auto. intros i Hi. apply B. lia. Qed.

Lemma dominated_mono f b b' : mono b b' -> dominated f b -> dominated f b'.
Proof.
  intros M D t Al Sp. destruct (D t Al Sp) as (x & E & L). destruct (M x E) as (y & Ey & Ly). exists y. split; [auto|lra].
Qed.

Lemma draw_ok fuel : forall q s, dinv q s -> nf - dr_visited q <= fuel ->
  exists q' s', draw_loop rnd max_features eval nk fuel q s = Ok (q', s') /\ dinv q' s' /\
    (dr_fi q' = nk + dr_found q' \/ (max_features <= dr_visited q' /\ dr_fi q' < nf)).
Proof.
  induction fuel as [|k IH]; intros q s I Hf; cbn [draw_loop].
  all: destruct ((nk + dr_found q <? dr_fi q) &&
      ((dr_visited q <? max_features) || (dr_visited q <=? dr_found q + dr_drawn q)))%bool eqn:Ec.
  all: pose proof I as [I1 I2 I3 I4 I5 I6 I7 I8 I9 I10 I11].
  1:{ apply andb_true_iff in Ec. destruct Ec as [Ec _]. apply Nat.ltb_lt in Ec. lia. }
  2:{ apply andb_true_iff in Ec. destruct Ec as [Ec _]. apply Nat.ltb_lt in Ec.
    set (low := dr_drawn q). set (high := dr_fi q - dr_found q).
    assert (M : rnd (s_t s) mod (high - low) < high - low) by (apply Nat.mod_upper_bound; unfold high, low; lia).
    set (fj := low + rnd (s_t s) mod (high - low)) in *.
    assert (Hfj : low <= fj < high) by (unfold fj; lia). clearbody fj. clear M. subst low high.
    destruct (Nat.ltb_spec fj nk) as [Hk|Hk].
    - apply IH; [|cbn [dr_visited]; lia].
      assert (R1 : rearr 0 nk (dr_features q) (swap (dr_features q) (dr_drawn q) fj)) by (apply swap_rearr; lia).
      constructor; cbn [dr_features dr_fi dr_drawn dr_found dr_visited s_samples s_crit s_best s_cur]; auto; try lia.
      + now rewrite swap_length.
      + destruct R1 as (_ & _ & P). now rewrite P.
      + rewrite <- I3. rewrite <- !(@slice_firstn_perm _ _ nk) by (rewrite ?swap_length; lia).
        apply rearr_slice; [lia|auto].
      + intros i Hi. destruct R1 as (_ & O & _). rewrite O by lia. auto.
      + intros i Hi. destruct R1 as (_ & O & _). rewrite O by lia. auto.
      + intros b Hb. destruct (I11 b Hb) as (A & (i & Hi & B) & D & E). split; [auto|]. split; [|auto].
        exists i. split; [lia|]. destruct R1 as (_ & O & _). rewrite O by lia. auto.
    - set (g := fj + dr_found q). assert (Hg : nk + dr_found q <= g < dr_fi q) by (unfold g; lia). clearbody g.
      set (f := nth g (dr_features q) 0).
      destruct (@eval_ok f (mkSst (s_samples s) (s_crit s) (s_best s) (s_cur s) (S (s_t s)))) as (flag & s' & E & SO); [auto|auto|].
      rewrite E. cbn [bind fst snd].
      destruct SO as (O1 & O2 & O3 & O4 & O5 & O6). cbn [s_samples s_crit s_best s_cur] in *.
      assert (NF : forall i, dr_fi q <= i < nf -> nth i (dr_features q) 0 <> f).
      { intros i Hi Ei. assert (ND : NoDup (dr_features q)) by (eapply Permutation_NoDup; [symmetry; exact I2|auto]).
        apply (proj1 (NoDup_nth (dr_features q) 0) ND) in Ei; lia. }
      destruct flag.
      + destruct (O5 eq_refl) as [CT EB].
        assert (R1 : rearr (nk + dr_found q) (dr_fi q) (dr_features q) (swap (dr_features q) g (nk + dr_found q)))
          by (apply swap_rearr; lia).
        apply IH; [|cbn [dr_visited]; lia].
        constructor; cbn [dr_features dr_fi dr_drawn dr_found dr_visited]; auto; try lia.
        * now rewrite swap_length.
        * destruct R1 as (_ & _ & P). now rewrite P.
        * rewrite (firstn_rearr R1) by lia. auto.
        * intros i Hi. rewrite swap_nth by lia. destruct (Nat.eqb_spec i (nk + dr_found q)) as [_|Ni]; [exact CT|].
          destruct (Nat.eqb_spec i g); [lia|]. apply I7. lia.
        * intros i Hi. destruct R1 as (_ & O & _). rewrite O by lia. rewrite EB. apply I8. lia.
        * intros b Hb. rewrite EB in Hb. destruct (I11 b Hb) as (A & (i & Hi & B) & D & F). split; [auto|].
          split; [exists i; split; [lia|]; destruct R1 as (_ & O & _); rewrite O by lia; auto|]. split; [auto|].
          intros _ Ec2. exfalso. rewrite O3 in Ec2. injection Ec2 as Ec2. apply (NF i); [lia|]. congruence.
      + destruct (O6 eq_refl) as (NC & DM & OB).
        assert (R1 : rearr (nk + dr_found q) (dr_fi q) (dr_features q) (swap (dr_features q) (dr_fi q - 1) g))
          by (apply swap_rearr; lia).
        assert (F1 : nth (dr_fi q - 1) (swap (dr_features q) (dr_fi q - 1) g) 0 = f).
        { rewrite swap_nth by lia. destruct (Nat.eqb_spec (dr_fi q - 1) g) as [->|]; [reflexivity|]. now rewrite Nat.eqb_refl. }
        apply IH; [|cbn [dr_visited]; lia].
        constructor; cbn [dr_features dr_fi dr_drawn dr_found dr_visited]; auto; try lia.
        * now rewrite swap_length.
        * destruct R1 as (_ & _ & P). now rewrite P.
        * rewrite (firstn_rearr R1) by lia. auto.
        * intros i Hi. destruct R1 as (_ & O & _). rewrite O by lia. apply I7. lia.
        * intros i Hi. destruct (Nat.eq_dec i (dr_fi q - 1)) as [->|Ni]; [rewrite F1; auto|].
          destruct R1 as (_ & O & _). rewrite O by lia. destruct (I8 i ltac:(lia)) as [A B]. split; [auto|].
          intros Hr. eapply dominated_mono; [exact O4|auto].
        * intros b Hb. destruct OB as [OB|(b1 & Eb1 & G1 & Ef & Sp & Pt)].
          -- rewrite OB in Hb. destruct (I11 b Hb) as (A & (i & Hi & B) & D & F). split; [auto|].
             split; [exists i; split; [lia|]; destruct R1 as (_ & O & _); rewrite O by lia; auto|]. split; [auto|].
             intros _ Ec2. exfalso. rewrite O3 in Ec2. injection Ec2 as Ec2. apply (NF i); [lia|]. congruence.
          -- rewrite Eb1 in Hb. injection Hb as <-. split; [auto|]. rewrite Ef.
             split; [exists (dr_fi q - 1); split; [lia|now rewrite F1]|]. split; auto. }
  all: exists q, s; split; [reflexivity|]; split; [exact I|];
    apply andb_false_iff in Ec; destruct Ec as [Ec|Ec];
    [apply Nat.ltb_ge in Ec; left; lia|
     apply orb_false_iff in Ec; destruct Ec as [Ec1 Ec2]; apply Nat.ltb_ge in Ec1; apply Nat.leb_gt in Ec2; right; lia].
Qed.

End Draw.
End Node.

(* ------------------------------------------------------------------------------------------------ *)
(** ** node_split *)

(** what node_split returns for a node: [examined] are the features whose values were inspected and not constant *)
Definition split_result (random : bool) (start end_ : nat) (node samples' : list nat) (impurity : R)
           (examined : list nat) (best : option split) : Prop :=
  match best with
  | None => random = false -> forall f t, In f examined -> allowed sp X msl mwl f t node -> separated X f t node -> False
  | Some s =>
      let l := left_of X (sp_feature s) (sp_thr s) node in
      let r := right_of X (sp_feature s) (sp_thr s) node in
      In (sp_feature s) examined /\ allowed sp X msl mwl (sp_feature s) (sp_thr s) node /\
      sp_pos s = start + length l /\
      Permutation (slice samples' start (sp_pos s)) l /\ Permutation (slice samples' (sp_pos s) end_) r /\
      (sp_il s, sp_ir s) = cs_children sp l r /\ sp_improvement s = cs_improve sp l r impurity (sp_il s) (sp_ir s) /\
      (random = false -> separated X (sp_feature s) (sp_thr s) node /\
         forall f t, In f examined -> allowed sp X msl mwl f t node -> separated X f t node ->
           (cs_proxy sp (left_of X f t node) (right_of X f t node) <= cs_proxy sp l r)%R)
  end.

Lemma parted_pos f t start q end_ samples node : start <= q <= end_ -> end_ <= length samples ->
  Permutation (slice samples start end_) node -> parted X f t start q end_ samples ->
  q = start + length (left_of X f t node).
Proof.
  intros H1 H2 P Pt. destruct (parted_sides H1 H2 P Pt) as [P1 _].
  rewrite <- (Permutation_length P1), slice_length by lia. lia.
Qed.

Lemma NoDup_app_r {A} (l m : list A) : NoDup (l ++ m) -> NoDup m.
Proof. induction l as [|x l IH]; cbn; auto. intros H. inversion H; auto. Qed.

Lemma firstn_put0 {A} (l m : list A) n : length m = n -> n <= length l -> firstn n (put l 0 m) = m.
Proof.
  intros H1 H2. unfold put. cbn [firstn app]. rewrite firstn_app, H1, Nat.sub_diag, firstn_O, app_nil_r.
  apply firstn_all2. lia.
Qed.
Lemma slice_put_after (l m : list nat) n a b : length m = n -> n <= a -> b <= length l -> slice (put l 0 m) a b = slice l a b.
Proof.
  intros H1 H2 H3. destruct (Nat.le_gt_cases n (length l)) as [Hn|Hn].
  - apply nth_ext with (d := 0) (d' := 0).
    + unfold slice. rewrite !firstn_length, !skipn_length, put_length by (cbn; lia). auto.
    + intros j Hj. unfold slice in Hj. rewrite firstn_length in Hj. rewrite !nth_slice by lia.
      rewrite put_nth by (cbn; lia). destruct (Nat.leb_spec 0 (a + j)); [|lia]. cbn [andb plus].
      destruct (Nat.ltb_spec (a + j) (length m)); [lia|auto].
  - unfold slice. replace (b - a) with 0 by lia. auto.
Qed.

Lemma node_split_ok random impurity start end_ nk c p :
  start < end_ <= length (p_samples p) ->
  NoDup (p_features p) -> nk <= length (p_features p) -> length (p_const p) = length (p_features p) ->
  firstn nk (p_features p) = firstn nk (p_const p) ->
  live start end_ (p_samples p) c ->
  let node := slice (p_samples p) start end_ in
  exists p' c' best kc examined,
    node_split cr X srt rnd rmax max_features msl mwl random impurity start end_ nk c p = Ok (p', c', best, kc) /\
    rearr start end_ (p_samples p) (p_samples p') /\
    Permutation (p_features p') (p_features p) /\ length (p_const p') = length (p_features p) /\
    nk <= kc <= length (p_features p) /\ firstn kc (p_features p') = firstn kc (p_const p') /\
    firstn nk (p_const p') = firstn nk (p_const p) /\
    (forall f, In f (slice (p_const p') nk kc) -> constant_on X f node) /\
    cr_value cr c' = cs_value sp node /\
    NoDup examined /\ incl examined (p_features p) /\ (forall f, In f examined -> ~ constant_on X f node) /\
    ((forall f, In f (p_features p) -> In f (firstn kc (p_const p')) \/ In f examined) \/
     (examined <> [] /\ max_features <= kc + length examined /\ max_features < length (p_features p))) /\
    split_result random start end_ node (p_samples p') impurity examined best.
Proof.
  intros Hse ND Hnk Lc Ek Lv node. unfold node_split. set (features0 := p_features p) in *.
  set (samples0 := p_samples p) in *. set (nf := length features0).
  assert (I0 : dinv start end_ samples0 features0 nk random (mkDraw features0 nf 0 0 0) (mkSst samples0 c None None (p_t p))).
  { constructor; cbn [dr_features dr_fi dr_drawn dr_found dr_visited s_samples s_crit s_best s_cur]; auto; try lia; try (unfold nf; lia).
    - apply rearr_refl.
    - discriminate. }
  destruct (@draw_ok start end_ samples0 Hse features0 nk random ND Hnk nf _ _ I0) as (q & s & E & I & Ex);
    [cbn [dr_visited]; lia|].
  change (draw_loop rnd max_features (if random then eval_random cr X rnd rmax msl mwl start end_ else eval_best cr X srt msl mwl start end_) nk nf
     (mkDraw features0 nf 0 0 0) (mkSst samples0 c None None (p_t p)) = Ok (q, s)) in E.
  rewrite E. cbn [bind]. clear E I0.
  destruct I as [J1 J2 J3 J4 J5 J6 J7 J8 J9 J10 J11]. fold nf in J1, J5, J6, J8, J11, Ex.
  set (examined := slice (dr_features q) (dr_fi q) nf).
  assert (NDq : NoDup (dr_features q)) by (eapply Permutation_NoDup; [symmetry; exact J2|auto]).
  assert (EXI : forall f, In f examined <-> exists i, dr_fi q <= i < nf /\ f = nth i (dr_features q) 0).
  { intros f. unfold examined. split; [intros Hf; apply in_slice; [lia|auto]|].
    intros (i & Hi & ->). apply slice_in; lia. }
  assert (LEX : length examined = nf - dr_fi q) by (unfold examined; apply slice_length; lia).
  set (features := put (dr_features q) 0 (firstn nk (p_const p))).
  set (const := put (p_const p) nk (at_range features nk (nk + dr_found q))).
  assert (Lk : length (firstn nk (p_const p)) = nk) by (rewrite firstn_length; lia).
  assert (Lf : length features = nf) by (unfold features; rewrite put_length; lia).
  assert (Efk : firstn nk features = firstn nk (p_const p)) by (apply firstn_put0; [auto|lia]).
  assert (Esl : forall a b, nk <= a -> b <= nf -> slice features a b = slice (dr_features q) a b).
  { intros a b H1 H2. apply slice_put_after with (n := nk); auto. lia. }
  assert (Eat : at_range features nk (nk + dr_found q) = slice (dr_features q) nk (nk + dr_found q)).
  { rewrite at_range_slice by lia. apply Esl; lia. }
  assert (Lat : length (at_range features nk (nk + dr_found q)) = dr_found q).
  { rewrite Eat, slice_length by lia. lia. }
  assert (Lco : length const = nf) by (unfold const; rewrite put_length; fold nf; lia).
  assert (Ecs : slice const nk (nk + dr_found q) = slice (dr_features q) nk (nk + dr_found q)).
  { unfold const. rewrite put_slice; [auto|lia|lia]. }
  assert (Eck : firstn nk const = firstn nk (p_const p)).
  { unfold const. apply firstn_nth_ext; [rewrite put_length; lia|]. intros i Hi. rewrite put_nth by lia.
    destruct (Nat.leb_spec nk i); [lia|]. reflexivity. }
  assert (F0 : forall (l : list nat), firstn (nk + dr_found q) l = firstn nk l ++ slice l nk (nk + dr_found q)).
  { intros l. rewrite firstn_plus. unfold slice. do 2 f_equal. lia. }
  assert (Efc : firstn (nk + dr_found q) features = firstn (nk + dr_found q) const).
  { rewrite !F0, Efk, Eck, Esl by lia. now rewrite Ecs. }
  assert (Pf : Permutation features features0).
  { transitivity (dr_features q); [|exact J2].
    unfold features, put. cbn [firstn app]. rewrite Lk, Nat.add_0_l.
    rewrite <- (firstn_skipn nk (dr_features q)) at 2. apply Permutation_app_tail. rewrite <- Ek. now symmetry. }
  assert (DONE : forall samples' c' best, rearr start end_ samples0 samples' -> cr_value cr c' = cs_value sp node ->
     split_result random start end_ node samples' impurity examined best ->
     exists p' c'' best' kc examined',
      Ok (mkSpl samples' features const (s_t s), c', best, nk + dr_found q) = Ok (p', c'', best', kc) /\
      rearr start end_ samples0 (p_samples p') /\
      Permutation (p_features p') features0 /\ length (p_const p') = length features0 /\
      nk <= kc <= length features0 /\ firstn kc (p_features p') = firstn kc (p_const p') /\
      firstn nk (p_const p') = firstn nk (p_const p) /\
      (forall f, In f (slice (p_const p') nk kc) -> constant_on X f node) /\
      cr_value cr c'' = cs_value sp node /\
      NoDup examined' /\ incl examined' features0 /\ (forall f, In f examined' -> ~ constant_on X f node) /\
      ((forall f, In f features0 -> In f (firstn kc (p_const p')) \/ In f examined') \/
       (examined' <> [] /\ max_features <= kc + length examined' /\ max_features < length features0)) /\
      split_result random start end_ node (p_samples p') impurity examined' best').
  { intros samples' c' best HR HV HS.
    exists (mkSpl samples' features const (s_t s)), c', best, (nk + dr_found q), examined.
    cbn [p_samples p_features p_const]. fold nf.
    split; [reflexivity|]. split; [auto|]. split; [auto|]. split; [auto|]. split; [lia|]. split; [auto|].
    split; [auto|]. split.
    { intros f Hf. rewrite Ecs in Hf. apply (@in_slice _ _ _ _ 0) in Hf; [|lia]. destruct Hf as (i & Hi & ->). now apply J7. }
    split; [auto|]. split.
    { unfold examined, slice. rewrite <- (firstn_skipn (dr_fi q) (dr_features q)) in NDq. apply NoDup_app_r in NDq.
      rewrite firstn_all2; [auto|]. rewrite skipn_length. lia. }
    split.
    { intros f Hf. apply EXI in Hf. destruct Hf as (i & Hi & ->). apply (Permutation_in _ J2). apply nth_In. lia. }
    split.
    { intros f Hf. apply EXI in Hf. destruct Hf as (i & Hi & ->). now apply J8. }
    split; [|auto].
    assert (ALL : dr_fi q = nk + dr_found q -> forall f, In f features0 -> In f (firstn (nk + dr_found q) const) \/ In f examined).
    { intros Efi f Hf. apply (Permutation_in _ (Permutation_sym Pf)) in Hf.
      rewrite <- (firstn_skipn (nk + dr_found q) features) in Hf. apply in_app_or in Hf. rewrite <- Efc.
      destruct Hf as [Hf|Hf]; [now left|]. right. unfold examined. rewrite Efi.
      replace (skipn (nk + dr_found q) features) with (slice features (nk + dr_found q) nf) in Hf.
      - rewrite Esl in Hf by lia. auto.
      - unfold slice. rewrite firstn_all2; [auto|]. rewrite skipn_length. lia. }
    destruct Ex as [Ex|[Ex1 Ex2]].
    - left. auto.
    - destruct (Nat.eq_dec (dr_fi q) (nk + dr_found q)) as [Efi|Nfi]; [left; auto|]. right.
      split; [intros Enil; rewrite Enil in LEX; cbn in LEX; lia|]. split; lia. }
  destruct (s_best s) as [b|] eqn:Eb.
  - destruct (J11 b eq_refl) as (G & (i & Hi & Fi) & Sp & Pr).
    set (smp := if (random && match s_cur s with Some f => f =? ca_feature b | None => false end)%bool
                then s_samples s
                else fst (partition X (end_ - start) (ca_feature b) (ca_thr b) (s_samples s) start end_)).
    destruct (@rearr_node start end_ samples0 Hse _ J9) as [L1 P1]. fold node in P1.
    pose proof G as (Al & Gp & Gx). fold node in Al, Gp, Gx.
    pose proof Al as (Al1 & Al2 & Al3 & Al4 & Al5 & Al6).
    assert (LRP : Permutation (left_of X (ca_feature b) (ca_thr b) node ++ right_of X (ca_feature b) (ca_thr b) node) node) by apply left_right_perm.
    assert (LRL : length (left_of X (ca_feature b) (ca_thr b) node) + length (right_of X (ca_feature b) (ca_thr b) node) = end_ - start).
    { rewrite <- app_length, (Permutation_length LRP). apply node_len. auto. }
    assert (Hpos : start < ca_pos b < end_).
    { rewrite Gp. destruct (left_of X (ca_feature b) (ca_thr b) node); [congruence|].
      destruct (right_of X (ca_feature b) (ca_thr b) node); [congruence|]. cbn [length] in *. lia. }
    assert (SM : rearr start end_ samples0 smp /\ parted X (ca_feature b) (ca_thr b) start (ca_pos b) end_ smp).
    { destruct (random && match s_cur s with Some f => f =? ca_feature b | None => false end)%bool eqn:Ec; unfold smp.
      - apply andb_true_iff in Ec. destruct Ec as [Er Ec]. destruct (s_cur s) as [f|] eqn:Es; [|discriminate].
        apply Nat.eqb_eq in Ec. subst f. split; [auto|]. now apply Pr.
      - destruct (@partition_ok X (ca_feature b) (ca_thr b) (end_ - start) (s_samples s) start end_) as (s' & x & E & Hx & R1 & Pt); [lia|lia|].
        rewrite E. cbn [fst]. assert (R2 : rearr start end_ samples0 s') by (eapply rearr_trans; eauto).
        destruct (@rearr_node start end_ samples0 Hse _ R2) as [L2 P2].
        split; [auto|]. fold node in P2. rewrite Gp. rewrite <- (parted_pos Hx L2 P2 Pt). auto. }
    clearbody smp. destruct SM as [R2 Pt]. destruct (@rearr_node start end_ samples0 Hse _ R2) as [L2 P2]. fold node in P2.
    destruct J10 as (s1 & p1 & Rl).
    assert (R0 : rel start end_ node (cr_reset cr (s_crit s)) smp start) by (eapply (k_reset K); eauto).
    destruct (@k_update _ _ _ _ _ _ K _ _ _ _ _ _ (ca_pos b) R0) as (c1 & -> & Rl1); [lia|]. cbn [bind].
    destruct (@k_facts _ _ _ _ _ _ K _ _ _ _ _ _ Rl1) as (_ & _ & _ & _ & _ & FV & FL & FR & FQ & FC & FI).
    apply DONE; [auto|auto|].
    assert (Hp2 : start <= ca_pos b <= end_) by lia.
    destruct (parted_sides Hp2 L2 P2 Pt) as [P3 P4]. destruct (k_perm K P3 P4) as (E1 & E2 & E3 & _ & _ & E6 & E7 & _).
    unfold split_result. cbn [sp_feature sp_thr sp_pos sp_il sp_ir sp_improvement]. rewrite FC, E6.
    split; [apply EXI; eauto|]. split; [auto|]. split; [auto|]. split; [auto|]. split; [auto|].
    split; [now rewrite <- surjective_pairing|]. split; [now rewrite FI, E7|].
    intros Hr. split; [auto|]. intros f t Hf Af Sf. apply EXI in Hf. destruct Hf as (j & Hj & ->).
    destruct (J8 j Hj) as [_ Dm]. destruct (Dm Hr t Af Sf) as (b' & Eb' & Lb'). injection Eb' as <-. fold node in Lb'. lra.
  - cbn [bind]. apply DONE; [auto| |].
    + destruct J10 as (s1 & p1 & Rl). destruct (@k_facts _ _ _ _ _ _ K _ _ _ _ _ _ Rl) as (_ & _ & _ & _ & _ & FV & _). auto.
    + unfold split_result. intros Hr f t Hf Af Sf. apply EXI in Hf. destruct Hf as (j & Hj & ->).
      destruct (J8 j Hj) as [_ Dm]. destruct (Dm Hr t Af Sf) as (b' & Eb' & _). discriminate.
Qed.

End Split.
