(** C63, C64, C85-C87: estimator utilities. *)
From Coq Require Import ZArith Sorting.Sorted.
From Verif Require Import Base ApiModel EstUtilsModel.
Set Implicit Arguments.
Local Notation length := List.length.
Local Notation concat := List.concat.

(* ------------------------------------------------------------------------------------------------ *)
(** ** C63 *)

Lemma np_cumsum_length acc l : length (np_cumsum acc l) = length l.
Proof. revert acc; induction l; intros; cbn; auto. Qed.

Lemma np_cumsum_nth l : forall acc i, i < length l ->
  nth (S i) (acc :: np_cumsum acc l) 0 = nth i (acc :: np_cumsum acc l) 0 + nth i l 0.
Proof.
  induction l as [|x r IH]; intros acc i Hi; [cbn in Hi; lia|].
  destruct i as [|i]; [reflexivity|].
  cbn in Hi. change (nth (S i) ((acc + x) :: np_cumsum (acc + x) r) 0 =
                     nth i ((acc + x) :: np_cumsum (acc + x) r) 0 + nth i r 0).
  apply IH. lia.
Qed.

Lemma ranges_cover l : forall acc,
  flat_map (fun p => seq (fst p) (snd p)) (combine (acc :: np_cumsum acc l) l) = seq acc (list_sum l).
Proof.
  induction l as [|x r IH]; intros acc; [reflexivity|].
  change (seq acc x ++ flat_map (fun p => seq (fst p) (snd p)) (combine ((acc + x) :: np_cumsum (acc + x) r) r)
          = seq acc (list_sum (x :: r))). rewrite IH.
  change (list_sum (x :: r)) with (x + list_sum r). now rewrite seq_app.
Qed.

Lemma list_sum_repeat v k : list_sum (repeat v k) = v * k.
Proof. induction k as [|k IH]; cbn; [lia|]. unfold list_sum in IH. rewrite IH. lia. Qed.

Lemma list_sum_mapS l : list_sum (map S l) = list_sum l + length l.
Proof. induction l as [|x r IH]; cbn; auto. unfold list_sum in IH. lia. Qed.

Lemma firstn_repeat {A} (v : A) k m : firstn k (repeat v m) = repeat v (Nat.min k m).
Proof. revert m; induction k; intros [|m]; cbn; auto. now rewrite IHk. Qed.
Lemma skipn_repeat {A} (v : A) k m : skipn k (repeat v m) = repeat v (m - k).
Proof. revert m; induction k; intros [|m]; cbn; auto. Qed.
Lemma map_repeat {A B} (f : A -> B) v k : map f (repeat v k) = repeat (f v) k.
Proof. induction k; cbn; auto. now rewrite IHk. Qed.

(** C63: for every number of estimators n >= 1 and effective number of jobs >= 1 the call succeeds, and
    - there are min(jobs, n) jobs, with one size each and one more start than jobs;
    - the half-open ranges [starts[i], starts[i] + size[i]) are, in order, exactly 0..n-1 (each estimator
      once), and each range ends where the next one starts, the last one at n;
    - every job gets at least one estimator and sizes differ by at most one. *)
Theorem C63_partition_covers n eff :
  1 <= n -> 1 <= eff ->
  exists n_jobs per starts,
    partition_estimators n eff = Ok (n_jobs, per, starts) /\
    n_jobs = Nat.min eff n /\ length per = n_jobs /\ length starts = S n_jobs /\
    flat_map (fun p => seq (fst p) (snd p)) (combine starts per) = seq 0 n /\
    nth 0 starts n = 0 /\ nth n_jobs starts 0 = n /\
    (forall i, i < n_jobs -> nth (S i) starts 0 = nth i starts 0 + nth i per 0) /\
    Forall (fun s => 1 <= s) per /\
    (forall s t, In s per -> In t per -> s <= t + 1).
Proof.
  intros Hn He. unfold partition_estimators.
  set (j := Nat.min eff n). assert (Hj : 1 <= j <= n) by (unfold j; lia).
  replace (j =? 0) with false by (symmetry; apply Nat.eqb_neq; lia).
  assert (Hmod := Nat.mod_upper_bound n j ltac:(lia)).
  assert (Hdiv := Nat.div_mod n j ltac:(lia)).
  assert (Hq : 1 <= n / j) by (apply Nat.div_str_pos; lia).
  set (q := n / j) in *. set (m := n mod j) in *.
  set (per := incr_prefix m (repeat q j)).
  assert (Eper : per = repeat (S q) m ++ repeat q (j - m)).
  { unfold per, incr_prefix. rewrite firstn_repeat, skipn_repeat, map_repeat.
    now replace (Nat.min m j) with m by lia. }
  assert (Hlen : length per = j).
  { rewrite Eper, app_length, !repeat_length. lia. }
  assert (Hsum : list_sum per = n).
  { rewrite Eper. rewrite list_sum_app, !list_sum_repeat. nia. }
  exists j, per, (0 :: np_cumsum 0 per).
  assert (Hstep : forall i, i < j -> nth (S i) (0 :: np_cumsum 0 per) 0 =
                                     nth i (0 :: np_cumsum 0 per) 0 + nth i per 0).
  { intros i Hi. apply np_cumsum_nth. lia. }
  repeat (split; auto).
  - cbn. now rewrite np_cumsum_length, Hlen.
  - now rewrite ranges_cover, Hsum.
  - assert (G : forall l acc, nth (length l) (acc :: np_cumsum acc l) 0 = acc + list_sum l).
    { induction l as [|x r IH]; intros acc; [cbn; lia|].
      change (nth (length (x :: r)) (acc :: np_cumsum acc (x :: r)) 0)
        with (nth (length r) ((acc + x) :: np_cumsum (acc + x) r) 0).
      rewrite IH. cbn. unfold list_sum. lia. }
    rewrite <- Hlen, G. lia.
  - rewrite Eper. apply Forall_app. split; apply Forall_forall; intros x Hx;
      apply repeat_spec in Hx; lia.
  - rewrite Eper. intros s t Hs Ht. apply in_app_or in Hs, Ht.
    destruct Hs as [Hs|Hs], Ht as [Ht|Ht]; apply repeat_spec in Hs, Ht; lia.
Qed.

(** no estimator: the call raises *)
Theorem C63_zero_estimators eff : partition_estimators 0 eff = Err ZeroDivisionError.
Proof. unfold partition_estimators. now rewrite Nat.min_0_r. Qed.

Example C63_case : partition_estimators 10 4 = Ok (4, [3; 3; 2; 2], [0; 3; 6; 8; 10]).
Proof. reflexivity. Qed.

(* ------------------------------------------------------------------------------------------------ *)
(** ** C64: one-hot decoding *)

(** specification: the one-hot vector of class i among n *)
Definition one_hot_vec (n i : nat) : list Z := map (fun k => if k =? i then 1%Z else 0%Z) (seq 0 n).

Lemma dot_onehot_out i : forall n s, ~ (s <= i < s + n) ->
  dot_arange s (map (fun k => if k =? i then 1%Z else 0%Z) (seq s n)) = 0%Z.
Proof.
  induction n as [|n IH]; intros s H; [reflexivity|]. cbn.
  destruct (s =? i) eqn:E; [apply Nat.eqb_eq in E; lia|].
  rewrite IH by lia. lia.
Qed.

Lemma dot_onehot i : forall n s, s <= i < s + n ->
  dot_arange s (map (fun k => if k =? i then 1%Z else 0%Z) (seq s n)) = Z.of_nat i.
Proof.
  induction n as [|n IH]; intros s H; [lia|]. cbn.
  destruct (s =? i) eqn:E.
  - apply Nat.eqb_eq in E. subst. rewrite dot_onehot_out by lia. lia.
  - apply Nat.eqb_neq in E. rewrite IH by lia. lia.
Qed.

(** C64 (decoding): convert4onehot of a matrix whose rows are one-hot vectors returns the classes. *)
Theorem C64_convert4onehot n classes :
  Forall (fun i => i < n) classes ->
  convert4onehot (map (one_hot_vec n) classes) = map Z.of_nat classes.
Proof.
  intros H. unfold convert4onehot. rewrite map_map. apply map_ext_in.
  intros i Hi. rewrite Forall_forall in H. apply dot_onehot. specialize (H i Hi). lia.
Qed.

(* ------------------------------------------------------------------------------------------------ *)
(** ** C64: cartesian *)

(** specification: the product of lists *)
Fixpoint product {A} (arrays : list (list A)) : list (list A) :=
  match arrays with
  | [] => [[]]
  | a :: r => flat_map (fun x => map (cons x) (product r)) a
  end.

Lemma product_In {A} (arrays : list (list A)) row :
  In row (product arrays) <-> Forall2 (fun x a => In x a) row arrays.
Proof.
  revert row; induction arrays as [|a r IH]; intros row; cbn.
  - split; [intros [<-|[]]; constructor|intros H; inversion H; auto].
  - rewrite in_flat_map. split.
    + intros (x & Hx & H). apply in_map_iff in H as (t & <- & Ht). constructor; auto. now apply IH.
    + intros H. inversion H as [|x ? t ? Hx Ht]; subst. exists x; split; auto.
      apply in_map. now apply IH.
Qed.

Lemma indices_In sh idx : In idx (indices sh) <-> Forall2 lt idx sh.
Proof.
  revert idx; induction sh as [|n r IH]; intros idx; cbn.
  - split; [intros [<-|[]]; constructor|intros H; inversion H; auto].
  - rewrite in_flat_map. split.
    + intros (x & Hx & H). apply in_map_iff in H as (t & <- & Ht). apply in_seq in Hx.
      constructor; [lia|]. now apply IH.
    + intros H. inversion H as [|x ? t ? Hx Ht]; subst. exists x; split; [apply in_seq; lia|].
      apply in_map. now apply IH.
Qed.

Lemma NoDup_flat_map_cons {A} (l : list A) (f : A -> list (list A)) :
  NoDup l -> (forall x, In x l -> NoDup (f x)) -> NoDup (flat_map (fun x => map (cons x) (f x)) l).
Proof.
  induction 1 as [|x l Hx ND IH]; intros Hf; cbn; [constructor|].
  assert (D : forall a b : list (list A), NoDup a -> NoDup b -> (forall z, In z a -> ~ In z b) -> NoDup (a ++ b)).
  { clear. induction a as [|z a IH]; intros b Ha Hb Hd; cbn; auto.
    inversion Ha; subst. constructor.
    - intros H. apply in_app_or in H as [H|H]; [easy|]. apply (Hd z); cbn; auto.
    - apply IH; auto. intros w Hw. apply Hd. now right. }
  apply D.
  - apply FinFun.Injective_map_NoDup; [|apply Hf; now left]. intros u v E. congruence.
  - apply IH. intros y Hy. apply Hf. now right.
  - intros z Hz Hz'. apply in_map_iff in Hz as (t & <- & _).
    apply in_flat_map in Hz' as (y & Hy & H). apply in_map_iff in H as (t' & E & _). congruence.
Qed.

Lemma indices_NoDup sh : NoDup (indices sh).
Proof.
  induction sh as [|n r IH]; cbn; [repeat constructor; easy|].
  apply NoDup_flat_map_cons; [apply seq_NoDup|auto].
Qed.

Lemma flat_map_flat_map {A B C} (g : B -> list C) (f : A -> list B) l :
  flat_map g (flat_map f l) = flat_map (fun x => flat_map g (f x)) l.
Proof. induction l as [|x l IH]; cbn; auto. now rewrite flat_map_app, IH. Qed.
Lemma flat_map_map {A B C} (g : B -> list C) (f : A -> B) l :
  flat_map g (map f l) = flat_map (fun x => g (f x)) l.
Proof. induction l as [|x l IH]; cbn; auto. now rewrite IH. Qed.
Lemma map_flat_map {A B C} (h : B -> C) (f : A -> list B) l :
  map h (flat_map f l) = flat_map (fun x => map h (f x)) l.
Proof. induction l as [|x l IH]; cbn; auto. now rewrite map_app, IH. Qed.
Lemma flat_map_ext_in {A B} (f g : A -> list B) l :
  (forall x, In x l -> f x = g x) -> flat_map f l = flat_map g l.
Proof.
  induction l as [|x l IH]; cbn; intros H; auto. rewrite H by auto. rewrite IH; auto.
Qed.

Lemma indices_app s t :
  indices (s ++ t) = flat_map (fun i => map (app i) (indices t)) (indices s).
Proof.
  induction s as [|n r IH]; cbn.
  - rewrite app_nil_r. symmetry. erewrite map_ext; [apply map_id|reflexivity].
  - rewrite IH, flat_map_flat_map. apply flat_map_ext. intros x.
    rewrite map_flat_map, flat_map_map. apply flat_map_ext. intros i. now rewrite map_map.
Qed.

Lemma indices_1 n : indices [n] = map (fun i => [i]) (seq 0 n).
Proof. reflexivity. Qed.

(** the row of the product selected by a multi-index *)
Definition pick {A} (d : A) (arrays : list (list A)) (idx : list nat) : list A :=
  map (fun j => nth (nth j idx 0) (nth j arrays []) d) (seq 0 (length arrays)).

Lemma pick_cons {A} (d : A) a arrays i idx :
  pick d (a :: arrays) (i :: idx) = nth i a d :: pick d arrays idx.
Proof.
  unfold pick. cbn [length seq map nth]. f_equal.
  rewrite <- seq_shift, map_map. reflexivity.
Qed.

Lemma map_nth_seq {A} (d : A) l : map (fun i => nth i l d) (seq 0 (length l)) = l.
Proof.
  induction l as [|x r IH]; auto. cbn [length seq map nth]. f_equal.
  rewrite <- seq_shift, map_map. exact IH.
Qed.

Lemma product_pick {A} (d : A) arrays :
  product arrays = map (pick d arrays) (indices (map (@List.length A) arrays)).
Proof.
  induction arrays as [|a r IH]; [reflexivity|].
  cbn [product map indices]. rewrite IH, map_flat_map.
  rewrite <- (map_nth_seq d a) at 1. rewrite flat_map_map. apply flat_map_ext. intros i.
  rewrite !map_map. apply map_ext. intros idx. now rewrite pick_cons.
Qed.

Lemma chunks_rows {A} n : n <> 0 -> forall (rows : list (list A)) fuel,
  Forall (fun r => length r = n) rows -> length rows <= fuel ->
  chunks fuel n (concat rows) = rows.
Proof.
  intros Hn rows. induction rows as [|r rows IH]; intros fuel HF Hl.
  - destruct fuel; reflexivity.
  - inversion HF as [|? ? Hr HF']; subst. destruct fuel as [|fuel]; [cbn in Hl; lia|].
    cbn [chunks concat].
    destruct (r ++ concat rows) eqn:E.
    { apply app_eq_nil in E as [-> _]. cbn in Hn. lia. }
    rewrite <- E. rewrite firstn_app, firstn_all, skipn_app, skipn_all.
    replace (length r - length r) with 0 by lia. cbn [firstn skipn]. rewrite app_nil_r.
    cbn [app]. f_equal. apply IH; auto. cbn in Hl. lia.
Qed.

Lemma concat_length_rows {A} n (rows : list (list A)) :
  Forall (fun r => length r = n) rows -> length (concat rows) = length rows * n.
Proof. induction 1 as [|r rows Hr HF IH]; cbn; auto. rewrite app_length. lia. Qed.

Lemma reshape_concat {A} n (rows : list (list A)) :
  n <> 0 -> Forall (fun r => length r = n) rows -> reshape_rows n (concat rows) = Ok rows.
Proof.
  intros Hn HF. unfold reshape_rows.
  replace (n =? 0) with false by (symmetry; now apply Nat.eqb_neq).
  rewrite (concat_length_rows HF), Nat.mod_mul by auto. cbn [Nat.eqb].
  rewrite chunks_rows; auto. nia.
Qed.

Lemma swap01_length {A} (l : list A) : length (swap01 l) = length l.
Proof. destruct l as [|a [|b r]]; reflexivity. Qed.
Lemma swap01_swap01 {A} (l : list A) : swap01 (swap01 l) = l.
Proof. destruct l as [|a [|b r]]; reflexivity. Qed.
Lemma swap01_Forall2 {A B} (P : A -> B -> Prop) l m : Forall2 P l m -> Forall2 P (swap01 l) (swap01 m).
Proof.
  intros H. destruct H as [|a b l m Hab H]; [now constructor|].
  destruct H as [|a' b' l m Hab' H]; cbn; auto.
Qed.
Lemma Forall2_rev' {A B} (P : A -> B -> Prop) l m : Forall2 P l m -> Forall2 P (rev l) (rev m).
Proof.
  induction 1; cbn; [constructor|]. apply Forall2_app; auto.
Qed.

Lemma nth_map_seq {A} (f : nat -> A) N k d : k < N -> nth k (map f (seq 0 N)) d = f k.
Proof.
  intros H. rewrite nth_indep with (d' := f 0) by (rewrite map_length, seq_length; lia).
  rewrite map_nth. now rewrite seq_nth.
Qed.

(** the exact rows of cartesian: the multi-indices of the shape with reversed axes *)
Lemma cartesian_rows {A} (d : A) arrays :
  arrays <> [] ->
  cartesian d arrays =
  Ok (map (fun idx => pick d arrays (swap01 (rev idx)))
          (indices (rev (swap01 (map (@List.length A) arrays))))).
Proof.
  intros Hne. unfold cartesian.
  set (N := length arrays). set (sh := swap01 (map (@List.length A) arrays)).
  assert (HN : N <> 0) by (unfold N; destruct arrays; [easy|cbn; lia]).
  assert (E : nd_ravel (nd_T (np_array d (meshgrid d arrays))) =
              concat (map (fun idx => pick d arrays (swap01 (rev idx))) (indices (rev sh)))).
  { unfold nd_ravel, nd_T, np_array. cbn [nd_shape nd_at].
    replace (length (meshgrid d arrays)) with N by (unfold meshgrid; now rewrite map_length, seq_length).
    replace (match meshgrid d arrays with [] => [] | a :: _ => nd_shape a end) with sh.
    2:{ unfold meshgrid. destruct arrays as [|a r]; [easy|]. reflexivity. }
    cbn [rev]. rewrite indices_app, indices_1, <- flat_map_concat_map, map_flat_map.
    apply flat_map_ext. intros idx. rewrite !map_map. unfold pick. fold N.
    apply map_ext_in. intros k Hk. apply in_seq in Hk. rewrite rev_app_distr. cbn [rev app].
    unfold meshgrid. fold N.
    rewrite nth_map_seq by lia. reflexivity. }
  rewrite E. apply reshape_concat; auto.
  apply Forall_forall. intros r Hr. apply in_map_iff in Hr as (idx & <- & _).
  unfold pick. now rewrite map_length, seq_length.
Qed.

(** C64 (product): for at least one array, cartesian lists exactly the tuples of the product, each as often as
    in the product (once, when the arrays have distinct entries). *)
Theorem C64_cartesian {A} (d : A) arrays :
  arrays <> [] -> exists rows, cartesian d arrays = Ok rows /\ Permutation rows (product arrays).
Proof.
  intros Hne. eexists. split; [now apply cartesian_rows|].
  rewrite (product_pick d), <- (map_map (fun idx => swap01 (rev idx)) (pick d arrays)).
  apply Permutation_map. apply NoDup_Permutation.
  - apply FinFun.Injective_map_NoDup; [|apply indices_NoDup].
    intros u v E. rewrite <- (rev_involutive u), <- (rev_involutive v).
    f_equal. rewrite <- (swap01_swap01 (rev u)), E. apply swap01_swap01.
  - apply indices_NoDup.
  - intros idx. rewrite in_map_iff, indices_In. split.
    + intros (u & <- & Hu). apply indices_In in Hu. apply Forall2_rev' in Hu.
      rewrite rev_involutive in Hu. apply swap01_Forall2 in Hu. now rewrite swap01_swap01 in Hu.
    + intros H. exists (rev (swap01 idx)). rewrite rev_involutive, swap01_swap01. split; auto.
      apply indices_In. apply Forall2_rev'. now apply swap01_Forall2.
Qed.

(** ... hence every tuple appears, nothing else does, and no tuple twice when no array repeats an entry *)
Theorem C64_cartesian_each_once {A} (d : A) arrays rows :
  arrays <> [] -> cartesian d arrays = Ok rows ->
  (forall row, In row rows <-> Forall2 (fun x a => In x a) row arrays) /\
  (Forall (@NoDup A) arrays -> NoDup rows).
Proof.
  intros Hne E. destruct (C64_cartesian d Hne) as (rows' & E' & P).
  assert (rows' = rows) by congruence. subst. split.
  - intros row. rewrite <- product_In. split; intros H; [exact (Permutation_in _ P H)|exact (Permutation_in _ (Permutation_sym P) H)].
  - intros HN. apply (Permutation_NoDup (Permutation_sym P)). clear - HN.
    induction HN as [|a r Ha HN IH]; cbn; [repeat constructor; easy|].
    apply NoDup_flat_map_cons; auto.
Qed.

(** two arrays: the second one varies fastest *)
Theorem C64_cartesian_two {A} (d : A) a b :
  cartesian d [a; b] = Ok (flat_map (fun x => map (fun y => [x; y]) b) a).
Proof.
  rewrite cartesian_rows by easy. f_equal. cbn [map swap01 rev app].
  transitivity (product [a; b]).
  - rewrite (product_pick d). cbn [map]. apply map_ext_in.
    intros idx Hi. apply indices_In in Hi.
    inversion Hi as [|i ? ? ? Hi0 Hi1]; subst. inversion Hi1 as [|j ? ? ? Hj0 Hj1]; subst.
    inversion Hj1; subst. reflexivity.
  - cbn. apply flat_map_ext. intros x. f_equal. induction b; cbn; auto. now f_equal.
Qed.

(** three arrays: the third one varies SLOWEST (a consequence of meshgrid's default 'xy' indexing), so the
    order is not the lexicographic one *)
Theorem C64_cartesian_three {A} (d : A) a b c :
  cartesian d [a; b; c] =
  Ok (flat_map (fun z => flat_map (fun x => map (fun y => [x; y; z]) b) a) c).
Proof.
  rewrite cartesian_rows by easy. f_equal. cbn [map swap01 rev app].
  transitivity (map (fun t => match t with [z; x; y] => [x; y; z] | _ => t end) (product [c; a; b])).
  - rewrite (product_pick d), map_map. cbn [map]. apply map_ext_in.
    intros idx Hi. apply indices_In in Hi.
    inversion Hi as [|i ? ? ? Hi0 Hi1]; subst. inversion Hi1 as [|j ? ? ? Hj0 Hj1]; subst.
    inversion Hj1 as [|k ? ? ? Hk0 Hk1]; subst. inversion Hk1; subst. reflexivity.
  - cbn. rewrite map_flat_map. apply flat_map_ext. intros z.
    rewrite map_map, map_flat_map. apply flat_map_ext. intros x. rewrite map_map.
    induction b; cbn; auto. now f_equal.
Qed.

Example C64_cartesian_case :
  cartesian 0 [[0; 1]; [0; 1; 2]] = Ok [[0;0]; [0;1]; [0;2]; [1;0]; [1;1]; [1;2]] /\
  cartesian 0 [[0; 1]; [5; 6]; [8; 9]] =
    Ok [[0;5;8]; [0;6;8]; [1;5;8]; [1;6;8]; [0;5;9]; [0;6;9]; [1;5;9]; [1;6;9]].
Proof. split; reflexivity. Qed.

(** no array at all: numpy refuses to reshape to zero columns *)
Theorem C64_cartesian_none {A} (d : A) : cartesian d [] = Err ValueError.
Proof. reflexivity. Qed.

(* ------------------------------------------------------------------------------------------------ *)
(** ** C64: groups *)

Lemma bool_select_filter {A B} (f : B -> bool) (l : list B) (a : list A) :
  length l = length a ->
  bool_select (map f l) a = map snd (filter (fun p => f (fst p)) (combine l a)).
Proof.
  revert a; induction l as [|b l IH]; intros [|x a] H; cbn in *; try lia; auto.
  destruct (f b); cbn; rewrite IH by lia; reflexivity.
Qed.

(** C64 (groups, one-hot): with a one-hot treatment matrix the selected rows are, in order, those of the
    target class. *)
Theorem C64_get_groups_onehot {A} n classes (array : list A) t :
  Forall (fun i => i < n) classes -> length classes = length array ->
  get_groups [Z.of_nat t] (map (one_hot_vec n) classes) true array =
  Ok (map snd (filter (fun p => fst p =? t) (combine classes array))).
Proof.
  intros HF Hl. unfold get_groups. cbn [bind]. rewrite C64_convert4onehot by auto.
  unfold bool_index. rewrite !map_length, Hl, Nat.eqb_refl. f_equal.
  rewrite map_map. rewrite bool_select_filter by auto. f_equal. apply filter_ext.
  intros [c x]. cbn. destruct (Z.eqb_spec (Z.of_nat t) (Z.of_nat c)), (Nat.eqb_spec c t); lia || auto.
Qed.

Lemma mapX_ok {X Y} (f : X -> res Y) (g : X -> Y) l :
  (forall x, In x l -> f x = Ok (g x)) -> mapX f l = Ok (map g l).
Proof.
  induction l as [|x l IH]; intros H; cbn; auto.
  rewrite H by (now left). cbn. rewrite IH by (intros; apply H; now right). reflexivity.
Qed.

(** C64 (groups, raw): with a treatment matrix of d columns and a target of d entries the selected rows are,
    in order, those whose treatment row equals the target. *)
Theorem C64_get_groups_raw {A} d (a : list (list Z)) (array : list A) target :
  Forall (fun r => length r = d) a -> length target = d -> length a = length array ->
  get_groups target a false array =
  Ok (map snd (filter (fun p => eqb (fst p) target) (combine a array))).
Proof.
  intros HF Ht Hl. unfold get_groups.
  rewrite (mapX_ok _ (fun r => eqb r target)).
  - cbn [bind]. unfold bool_index. rewrite map_length, Hl, Nat.eqb_refl.
    now rewrite bool_select_filter by auto.
  - intros r Hr. rewrite Forall_forall in HF. specialize (HF r Hr). unfold row_matches.
    destruct target as [|t [|t' target]].
    + destruct r; [reflexivity|cbn in *; lia].
    + destruct r as [|y [|y' r]]; cbn in *; try lia. now rewrite Z.eqb_sym.
    + rewrite HF, <- Ht, Nat.eqb_refl. f_equal. exact (eqb_sym (t :: t' :: target) r).
Qed.

(** C64 (groups, one number as target): the selected rows are those all of whose entries are that number. *)
Theorem C64_get_groups_scalar {A} (a : list (list Z)) (array : list A) t :
  length a = length array ->
  exists sel, get_groups [t] a false array = Ok (map snd sel) /\
    sel = filter (fun p => forallb (Z.eqb t) (fst p)) (combine a array) /\
    (forall r x, In (r, x) sel <-> In (r, x) (combine a array) /\ (forall z, In z r -> z = t)).
Proof.
  intros Hl. exists (filter (fun p => forallb (Z.eqb t) (fst p)) (combine a array)).
  split; [|split; [reflexivity|]].
  - unfold get_groups. rewrite (mapX_ok _ (fun r => forallb (Z.eqb t) r)) by reflexivity.
    cbn [bind]. unfold bool_index. rewrite map_length, Hl, Nat.eqb_refl.
    now rewrite bool_select_filter by auto.
  - intros r x. rewrite filter_In. cbn [fst]. rewrite forallb_forall. split; intros [H1 H2]; split; auto.
    + intros z Hz. symmetry. apply Z.eqb_eq. auto.
    + intros z Hz. apply Z.eqb_eq. symmetry. auto.
Qed.

(** The decoding is only faithful on one-hot rows: concatenated one-hot blocks of two binary treatments are
    not told apart, so group selection by decoded label mixes (0,1) with (1,0). *)
Theorem C64_two_blocks_collide :
  convert4onehot [[1; 0; 0; 1]; [0; 1; 1; 0]]%Z = [3; 3]%Z.
Proof. reflexivity. Qed.

Example C64_groups_case :
  get_groups [1%Z] (map (one_hot_vec 3) [0; 1; 2; 1]) true [10; 11; 12; 13] = Ok [11; 13] /\
  get_groups [1; 0]%Z [[1; 0]; [0; 1]; [1; 0]]%Z false [10; 11; 12] = Ok [10; 12].
Proof. split; reflexivity. Qed.

(* ------------------------------------------------------------------------------------------------ *)
(** ** C85: class lookup *)

(** C85: for distinct classes, check_classes returns the one position of the class, raises on an unknown
    class or when the model has no classes, and passes None through. *)
Theorem C85_check_classes {A} {EA : EqDec A} (t : A) cs :
  NoDup cs ->
  (In t cs -> exists i, check_classes (Some t) (Some cs) = Ok (Some [i]) /\ nth_error cs i = Some t) /\
  (~ In t cs -> check_classes (Some t) (Some cs) = Err AssertionError) /\
  check_classes (Some t) None = Err AssertionError /\
  (forall o, check_classes (A := A) None o = Ok None).
Proof.
  intros ND. split; [|split; [|split]]; auto.
  - intros Hin. unfold check_classes. rewrite (proj2 (mem_In _ _) Hin).
    assert (G : forall l s, NoDup l -> In t l -> exists i, i < length l /\ nth_error l i = Some t /\
              map fst (filter (fun p => eqb t (snd p)) (combine (seq s (length l)) l)) = [s + i]).
    { clear. assert (Z0 : forall l s, ~ In t l ->
        map fst (filter (fun p => eqb t (snd p)) (combine (seq s (length l)) l)) = []).
      { induction l as [|x l IH]; intros s H; cbn; auto.
        destruct (eqb_spec t x) as [->|N]; [exfalso; apply H; now left|]. apply IH. intros H'; apply H; now right. }
      induction l as [|x l IH]; intros s ND Hin; [easy|]. inversion ND; subst. cbn.
      destruct (eqb_spec t x) as [->|N].
      - exists 0. repeat split; [lia|]. cbn. rewrite Z0 by auto. f_equal. lia.
      - destruct Hin as [E|Hin]; [congruence|].
        destruct (IH (S s) H2 Hin) as (i & Hi & E1 & E2). exists (S i). repeat split; [lia|auto|].
        rewrite E2. f_equal. lia. }
    destruct (G cs 0 ND Hin) as (i & _ & E1 & E2). exists i. rewrite E2. auto.
  - intros H. unfold check_classes. now rewrite (proj2 (mem_nIn _ _) H).
Qed.

Example C85_case : check_classes (Some 7) (Some [3; 7; 9]) = Ok (Some [1]).
Proof. reflexivity. Qed.

(* ------------------------------------------------------------------------------------------------ *)
(** ** C86: leaf counts *)

Lemma uinsert_In x y l : In y (uinsert x l) <-> y = x \/ In y l.
Proof.
  induction l as [|z l IH]; cbn; [intuition|].
  destruct (x <? z)%Z; [cbn; intuition|]. destruct (Z.eqb_spec x z); [subst; cbn; intuition|].
  cbn. rewrite IH. intuition.
Qed.
Lemma np_unique_In y l : In y (np_unique l) <-> In y l.
Proof.
  induction l as [|x l IH]; cbn; [easy|]. rewrite uinsert_In. rewrite IH. intuition.
Qed.

Lemma uinsert_sorted x l : StronglySorted Z.lt l -> StronglySorted Z.lt (uinsert x l).
Proof.
  induction 1 as [|y l Hs IH HF]; cbn; [repeat constructor|].
  destruct (Z.ltb_spec x y).
  - constructor; [constructor; auto|]. constructor; auto. eapply Forall_impl; [|exact HF]. cbn; lia.
  - destruct (Z.eqb_spec x y); [constructor; auto|].
    constructor; auto. apply Forall_forall. intros z Hz. apply uinsert_In in Hz as [->|Hz]; [lia|].
    rewrite Forall_forall in HF. now apply HF.
Qed.
Lemma np_unique_sorted l : StronglySorted Z.lt (np_unique l).
Proof. induction l; cbn; [constructor|]. now apply uinsert_sorted. Qed.
Lemma ssorted_NoDup l : StronglySorted Z.lt l -> NoDup l.
Proof.
  induction 1 as [|y l Hs IH HF]; constructor; auto. intros H. rewrite Forall_forall in HF.
  specialize (HF y H). lia.
Qed.

Lemma select_unique x (f : Z -> nat) : forall l, NoDup l ->
  bool_select (map (Z.eqb x) l) (map f l) = if mem x l then [f x] else [].
Proof.
  induction 1 as [|y l Hy ND IH]; cbn; auto.
  destruct (Z.eqb_spec x y) as [->|N]; cbn.
  - rewrite IH. rewrite (proj2 (mem_nIn _ _) Hy). reflexivity.
  - exact IH.
Qed.

(** C86: count_leaf_num gives every sample the number of samples with the same predicted value *)
Theorem C86_count_leaf_num y :
  count_leaf_num y = map (fun yi => length (filter (Z.eqb yi) y)) y.
Proof.
  unfold count_leaf_num, np_counts.
  rewrite (flat_map_ext_in _ (fun yi => [length (filter (Z.eqb yi) y)])).
  - assert (G : forall (f : Z -> nat) l, flat_map (fun yi => [f yi]) l = map f l).
    { clear. intros f. induction l as [|x l IH]; cbn; [reflexivity|]. now rewrite IH. }
    apply (G (fun yi => length (filter (Z.eqb yi) y))).
  - intros x Hx. rewrite select_unique by (apply ssorted_NoDup, np_unique_sorted).
    now rewrite (proj2 (mem_In _ _) (proj2 (np_unique_In x y) Hx)).
Qed.

Example C86_case : count_leaf_num [5; 2; 5; 5; 2]%Z = [3; 2; 3; 3; 2].
Proof. reflexivity. Qed.

(* ------------------------------------------------------------------------------------------------ *)
(** ** C87: row-wise Kronecker product *)

Lemma kron_length x y : length (kron x y) = length x * length y.
Proof. unfold kron. induction x; cbn; auto. rewrite app_length, map_length. lia. Qed.

Lemma kron_nth x y : forall a b, a < length x -> b < length y ->
  nth (a * length y + b) (kron x y) 0%Z = (nth a x 0 * nth b y 0)%Z.
Proof.
  unfold kron. induction x as [|u x IH]; intros a b Ha Hb; [cbn in Ha; lia|].
  cbn [flat_map]. destruct a as [|a].
  - rewrite app_nth1 by (rewrite map_length; lia). cbn [Nat.mul Nat.add nth].
    rewrite nth_indep with (d' := (u * 0)%Z) by (rewrite map_length; lia). apply map_nth.
  - rewrite app_nth2 by (rewrite map_length; cbn; lia). rewrite map_length.
    replace (S a * length y + b - length y) with (a * length y + b) by (cbn; lia).
    apply IH; cbn in Ha; lia.
Qed.

(** C87: nd_kron of an (n, p) and an (n, q) matrix is the (n, p*q) matrix of products of entries of the same
    row, the second factor varying fastest; different numbers of rows are refused. *)
Theorem C87_nd_kron x y p q :
  Forall (fun r => length r = p) x -> Forall (fun r => length r = q) y ->
  (length x = length y -> exists m, nd_kron x y = Ok m /\ length m = length x /\
     Forall (fun r => length r = p * q) m /\
     (forall i a b, i < length x -> a < p -> b < q ->
        nth (a * q + b) (nth i m []) 0%Z = (nth a (nth i x []) 0 * nth b (nth i y []) 0)%Z)) /\
  (length x <> length y -> nd_kron x y = Err AssertionError).
Proof.
  intros HX HY. split; intros Hl; unfold nd_kron.
  - rewrite Hl, Nat.eqb_refl. eexists. split; [reflexivity|].
    assert (L : length (map (fun p => kron (fst p) (snd p)) (combine x y)) = length y)
      by (rewrite map_length, combine_length; lia).
    split; [auto|]. split.
    + apply Forall_forall. intros r Hr. apply in_map_iff in Hr as ([u v] & <- & Huv). cbn [fst snd].
      rewrite kron_length. pose proof (in_combine_l _ _ _ _ Huv) as H1. pose proof (in_combine_r _ _ _ _ Huv) as H2.
      rewrite Forall_forall in HX, HY. now rewrite (HX u H1), (HY v H2).
    + intros i a b Hi Ha Hb.
      rewrite nth_indep with (d' := (fun p => kron (fst p) (snd p)) ([], [])) by lia.
      rewrite (map_nth (fun p => kron (fst p) (snd p))). rewrite combine_nth by auto. cbn [fst snd].
      assert (H1 : length (nth i x []) = p) by (rewrite Forall_forall in HX; apply HX, nth_In; lia).
      assert (H2 : length (nth i y []) = q) by (rewrite Forall_forall in HY; apply HY, nth_In; lia).
      rewrite <- H2. apply kron_nth; lia.
  - now replace (length x =? length y) with false by (symmetry; now apply Nat.eqb_neq).
Qed.

Example C87_case : nd_kron [[1; 2]; [3; 4]]%Z [[5; 6; 7]; [1; 0; 2]]%Z
                   = Ok [[5; 6; 7; 10; 12; 14]; [3; 0; 6; 4; 0; 8]]%Z.
Proof. reflexivity. Qed.

Print Assumptions C63_partition_covers.
Print Assumptions C64_cartesian_each_once.
Print Assumptions C64_cartesian_three.
Print Assumptions C64_get_groups_onehot.
Print Assumptions C64_get_groups_raw.
Print Assumptions C64_get_groups_scalar.
Print Assumptions C85_check_classes.
Print Assumptions C86_count_leaf_num.
Print Assumptions C87_nd_kron.
