(** C260, C261: properties of the uplift plots (ylearn/uplift/_plot.py). *)
From Coq Require Import Reals List Bool Lia Lra Sorted.
From Verif Require Import Base PlotModel.
Unset Implicit Arguments.
Local Notation length := List.length.
Local Open Scope list_scope.
Local Open Scope nat_scope.

(** ** C260: the sampled points *)
Lemma linspace_bound : forall n k i, 2 <= k -> i < k -> 1 <= n -> i * (n - 1) / (k - 1) < n.
Proof. intros n k i Hk Hi Hn. apply Nat.div_lt_upper_bound; [lia|]. nia. Qed.
Lemma linspace_step : forall n k i, 2 <= k -> k < n -> i * (n - 1) / (k - 1) < S i * (n - 1) / (k - 1) <= i * (n - 1) / (k - 1) + (n - 1) / (k - 1) + 1.
Proof.
  intros n k i Hk Hn. set (d := k - 1). set (m := n - 1). assert (Hd : d <> 0) by (unfold d; lia). assert (Hm : d < m) by (unfold d, m; lia).
  assert (A := Nat.div_mod (i * m) d Hd). assert (B := Nat.mod_upper_bound (i * m) d Hd). assert (A' := Nat.div_mod (S i * m) d Hd). assert (B' := Nat.mod_upper_bound (S i * m) d Hd).
  assert (A'' := Nat.div_mod m d Hd). assert (B'' := Nat.mod_upper_bound m d Hd). split.
  - apply Nat.nle_gt. intros C. nia.
  - apply Nat.nlt_ge. intros C. nia.
Qed.
Lemma linspace_mono : forall n k i j, 2 <= k -> k < n -> i < j -> i * (n - 1) / (k - 1) < j * (n - 1) / (k - 1).
Proof. intros n k i j Hk Hn H. induction H as [|j H IH]; [apply linspace_step; assumption|]. etransitivity; [exact IH|]. apply linspace_step; assumption. Qed.
Lemma flat_map_found : forall {V} (curve : list V) idx, (forall i, In i idx -> i < length curve) ->
  exists s, flat_map (fun i => match nth_error curve i with Some v => [(i, v)] | None => [] end) idx = s /\ map fst s = idx /\ forall i v, In (i, v) s -> nth_error curve i = Some v.
Proof.
  intros V curve. induction idx as [|i idx IH]; intros H; [exists []; repeat split; intros i v []|].
  destruct IH as (s & E & F & G); [intros j Hj; apply H; now right|]. cbn [flat_map]. rewrite E.
  destruct (nth_error curve i) as [v|] eqn:Ev; [|apply nth_error_None in Ev; specialize (H i (or_introl eq_refl)); lia].
  exists ((i, v) :: s). split; [reflexivity|]. split; [cbn; now rewrite F|]. intros j w [Hj|Hj]; [injection Hj as <- <-; exact Ev|now apply G].
Qed.
(** the plotted points: as many as asked for, on the curve, at increasing positions that are evenly spaced up to one, from its first to its last point *)
Theorem C260_sample : forall {V} (curve : list V) k, 2 <= k -> k < length curve ->
  exists s, sample curve k = Ok s /\ length s = k /\
    (forall i v, In (i, v) s -> nth_error curve i = Some v) /\
    (forall a b i j, a < b -> nth_error (map fst s) a = Some i -> nth_error (map fst s) b = Some j -> i < j) /\
    (forall a i j, nth_error (map fst s) a = Some i -> nth_error (map fst s) (a + 1) = Some j -> j <= i + (length curve - 1) / (k - 1) + 1) /\
    nth_error (map fst s) 0 = Some 0 /\ nth_error (map fst s) (k - 1) = Some (length curve - 1).
Proof.
  intros V curve k Hk Hn. unfold sample. destruct (Nat.leb_spec (length curve) k); [lia|].
  destruct (flat_map_found curve (linspace (length curve) k)) as (s & E & F & G).
  { intros i Hi. unfold linspace in Hi. apply in_map_iff in Hi as (j & <- & Hj). apply in_seq in Hj. apply linspace_bound; lia. }
  assert (N : forall a, a < k -> nth_error (map fst s) a = Some (a * (length curve - 1) / (k - 1))).
  { intros a Ha. rewrite F. unfold linspace. rewrite nth_error_map, (nth_error_nth' _ 0) by (rewrite seq_length; exact Ha). now rewrite seq_nth by exact Ha. }
  assert (L : length (map fst s) = k) by (rewrite F; unfold linspace; now rewrite map_length, seq_length).
  assert (B : forall a i, nth_error (map fst s) a = Some i -> a < k) by (intros a i Ha; rewrite <- L; apply nth_error_Some; congruence).
  exists s. rewrite E. split; [reflexivity|]. split; [now rewrite map_length in L|]. split; [exact G|]. split; [|split; [|split]].
  - intros a b i j Hab Ha Hb. rewrite (N a (B _ _ Ha)) in Ha. rewrite (N b (B _ _ Hb)) in Hb. injection Ha as <-. injection Hb as <-. apply linspace_mono; assumption.
  - intros a i j Ha Hb. rewrite (N a (B _ _ Ha)) in Ha. rewrite (N _ (B _ _ Hb)) in Hb. injection Ha as <-. injection Hb as <-. rewrite Nat.add_1_r. apply linspace_step; assumption.
  - rewrite N by lia. f_equal. cbn [Nat.mul]. apply Nat.div_0_l. lia.
  - rewrite N by lia. f_equal. rewrite Nat.mul_comm. apply Nat.div_mul. lia.
Qed.
(** but curves with no more points than asked for (100 unless told otherwise) are not plotted at all *)
Theorem C260_short_refuted : forall {V} (curve : list V) k, length curve <= k -> sample curve k = Err AssertionError.
Proof. intros V curve k H. unfold sample. destruct (Nat.leb_spec (length curve) k); [reflexivity|lia]. Qed.

(** ** C261: the bars *)
Definition sum (l : list R) : R := fold_right Rplus 0%R l.
Lemma mean_between : forall l m lo hi, mean l = Some m -> (forall v, In v l -> lo <= v <= hi)%R -> (lo <= m <= hi)%R.
Proof.
  intros l m lo hi H B. destruct l as [|a l]; [discriminate|]. unfold mean in H. injection H as <-. set (L := a :: l) in *.
  assert (S : (INR (length L) * lo <= sum L <= INR (length L) * hi)%R).
  { clearbody L. induction L as [|x L IH]; [cbn; lra|]. unfold sum in *. cbn [fold_right]. change (length (x :: L)) with (S (length L)). rewrite S_INR.
    assert (B1 := B x (or_introl eq_refl)). assert (IH' := IH (fun v Hv => B v (or_intror Hv))). lra. }
  assert (P : (0 < INR (length L))%R) by (apply lt_0_INR; unfold L; cbn; lia). assert (NZ : INR (length L) <> 0%R) by (apply Rgt_not_eq; exact P). unfold sum in S.
  split.
  - apply (Rmult_le_reg_l (INR (length L))); [exact P|]. unfold Rdiv. rewrite (Rmult_comm (fold_right Rplus 0%R L)), <- Rmult_assoc, Rinv_r, Rmult_1_l by exact NZ. apply S.
  - apply (Rmult_le_reg_l (INR (length L))); [exact P|]. unfold Rdiv. rewrite (Rmult_comm (fold_right Rplus 0%R L)), <- Rmult_assoc, Rinv_r, Rmult_1_l by exact NZ. apply S.
Qed.
(** a value of a higher bin is larger than one of a lower bin *)
Lemma bin_mono : forall inner v w, (v <= w)%R -> bin inner v <= bin inner w.
Proof.
  intros inner v w H. unfold bin. induction inner as [|e inner IH]; [reflexivity|]. cbn [filter].
  destruct (Rlt_dec e v), (Rlt_dec e w); cbn [length]; try lia; lra.
Qed.
Lemma bin_lt : forall inner v w, bin inner v < bin inner w -> (v < w)%R.
Proof. intros inner v w H. apply Rnot_le_lt. intros C. apply (bin_mono inner) in C. lia. Qed.
(** the largest and smallest values of a list *)
Lemma has_max : forall (l : list R), l <> [] -> exists m, In m l /\ forall v, In v l -> (v <= m)%R.
Proof.
  induction l as [|a l IH]; intros H; [contradiction|]. destruct l as [|b l]; [exists a; split; [now left|]; intros v [<-|[]]; lra|].
  destruct IH as (m & Hm & B); [discriminate|]. destruct (Rle_dec a m).
  - exists m. split; [now right|]. intros v [<-|Hv]; [assumption|now apply B].
  - exists a. split; [now left|]. intros v [<-|Hv]; [lra|]. specialize (B v Hv). lra.
Qed.
Lemma has_min : forall (l : list R), l <> [] -> exists m, In m l /\ forall v, In v l -> (m <= v)%R.
Proof.
  induction l as [|a l IH]; intros H; [contradiction|]. destruct l as [|b l]; [exists a; split; [now left|]; intros v [<-|[]]; lra|].
  destruct IH as (m & Hm & B); [discriminate|]. destruct (Rle_dec m a).
  - exists m. split; [now right|]. intros v [<-|Hv]; [assumption|now apply B].
  - exists a. split; [now left|]. intros v [<-|Hv]; [lra|]. specialize (B v Hv). lra.
Qed.
Lemma rev_seq_nth : forall n i, i < n -> nth_error (rev (seq 0 n)) i = Some (n - 1 - i).
Proof.
  intros n i H. rewrite (nth_error_nth' _ 0) by (rewrite rev_length, seq_length; exact H). rewrite rev_nth by (rewrite seq_length; exact H).
  rewrite seq_length, seq_nth by lia. f_equal. lia.
Qed.
(** the bars come in strictly descending order, whatever the values *)
Theorem C261_descending : forall edges values bars i j a b, split edges values = Ok bars -> i < j ->
  nth_error bars i = Some (Some a) -> nth_error bars j = Some (Some b) -> (b < a)%R.
Proof.
  intros edges values bars i j a b H Hij Hi Hj. unfold split in H. destruct (strictly edges); [|discriminate]. injection H as <-.
  set (inner := removelast (tl edges)) in *. set (n := length edges - 1) in *. rewrite nth_error_map in Hi, Hj.
  assert (Li : i < n /\ j < n).
  { split; [destruct (Nat.lt_ge_cases i n) as [L|L]; [exact L|]; rewrite (proj2 (nth_error_None (rev (seq 0 n)) i)) in Hi by (rewrite rev_length, seq_length; exact L); discriminate|].
    destruct (Nat.lt_ge_cases j n) as [L|L]; [exact L|]; rewrite (proj2 (nth_error_None (rev (seq 0 n)) j)) in Hj by (rewrite rev_length, seq_length; exact L); discriminate. }
  rewrite rev_seq_nth in Hi, Hj by apply Li. cbn [option_map] in Hi, Hj. injection Hi as Hi. injection Hj as Hj.
  set (G := fun b => filter (fun v => Nat.eqb (bin inner v) b) values). change (mean (G (n - 1 - i)) = Some a) in Hi. change (mean (G (n - 1 - j)) = Some b) in Hj.
  assert (Ni : G (n - 1 - i) <> []) by (intros C; rewrite C in Hi; discriminate). assert (Nj : G (n - 1 - j) <> []) by (intros C; rewrite C in Hj; discriminate).
  destruct (has_min _ Ni) as (lo & Hlo & Blo). destruct (has_max _ Nj) as (hi & Hhi & Bhi). destruct (has_max _ Ni) as (hi' & _ & Bhi'). destruct (has_min _ Nj) as (lo' & _ & Blo').
  assert (X : (lo <= a <= hi')%R) by (apply (mean_between _ _ _ _ Hi); intros; split; auto). assert (Y : (lo' <= b <= hi)%R) by (apply (mean_between _ _ _ _ Hj); intros; split; auto).
  apply filter_In in Hlo as [_ Hlo]. apply filter_In in Hhi as [_ Hhi]. apply Nat.eqb_eq in Hlo. apply Nat.eqb_eq in Hhi.
  assert (Z : (hi < lo)%R) by (apply (bin_lt inner); lia). lra.
Qed.
(** one bar per bin; every value counts in exactly one bar *)
Lemma bin_bound : forall inner v, bin inner v <= length inner.
Proof. intros inner v. unfold bin. induction inner as [|e inner IH]; cbn; [lia|]. destruct (Rlt_dec e v); cbn; lia. Qed.
Lemma removelast_length : forall (l : list R), length (removelast l) = length l - 1.
Proof. induction l as [|a [|b l] IH]; cbn in *; [reflexivity|reflexivity|]. rewrite IH. lia. Qed.
Theorem C261_bins : forall edges values bars, 2 <= length edges -> split edges values = Ok bars -> length bars = length edges - 1 /\
  (forall i m, nth_error bars i = Some m -> m = mean (filter (fun v => Nat.eqb (bin (removelast (tl edges)) v) (length edges - 2 - i)) values)) /\
  forall v, In v values -> bin (removelast (tl edges)) v <= length edges - 2.
Proof.
  intros edges values bars He H. unfold split in H. destruct (strictly edges); [|discriminate]. injection H as <-.
  split; [now rewrite map_length, rev_length, seq_length|]. split.
  - intros i m Hm. rewrite nth_error_map in Hm. destruct (Nat.lt_ge_cases i (length edges - 1)) as [L|L].
    + rewrite rev_seq_nth in Hm by exact L. cbn in Hm. injection Hm as <-. replace (length edges - 1 - 1 - i) with (length edges - 2 - i) by lia. reflexivity.
    + rewrite (proj2 (nth_error_None (rev (seq 0 (length edges - 1))) i)) in Hm by (rewrite rev_length, seq_length; exact L). discriminate.
  - intros v _. etransitivity; [apply bin_bound|]. rewrite removelast_length. destruct edges; cbn; lia.
Qed.
(** bin b holds the values above the edge b and up to the edge b+1 *)
Lemma bin_spec : forall inner v b, strictly inner = true -> (bin inner v = b <-> b <= length inner /\ (forall i e, nth_error inner i = Some e -> (i < b <-> (e < v)%R))).
Proof.
  assert (SS : forall inner a, strictly (a :: inner) = true -> forall e, In e inner -> (a < e)%R).
  { induction inner as [|c inner IH]; intros a H e He; [destruct He|]. cbn [strictly] in H. destruct (Rlt_dec a c) as [L|]; [|discriminate]. cbn [andb] in H.
    destruct He as [<-|He]; [exact L|]. specialize (IH c H e He). lra. }
  assert (D : forall inner v, strictly inner = true -> forall i e, nth_error inner i = Some e -> (i < bin inner v <-> (e < v)%R)).
  { induction inner as [|a inner IH]; intros v H i e Hi; [destruct i; discriminate|]. assert (S := SS inner a H).
    assert (H' : strictly inner = true) by (destruct inner; [reflexivity|]; cbn [strictly] in H; apply andb_true_iff in H; apply H).
    unfold bin in *. cbn [filter]. destruct (Rlt_dec a v) as [L|L].
    - cbn [length]. destruct i as [|i]; [cbn in Hi; injection Hi as <-; split; [intros _; exact L|lia]|]. cbn in Hi. rewrite <- (IH v H' i e Hi). lia.
    - assert (Z : filter (fun e0 => if Rlt_dec e0 v then true else false) inner = []).
      { clear - S L. induction inner as [|c inner IH]; [reflexivity|]. cbn. assert (Sc := S c (or_introl eq_refl)). destruct (Rlt_dec c v); [lra|]. apply IH. intros; apply S; now right. }
      rewrite Z. cbn [length]. split; [lia|]. intros C. exfalso. destruct i as [|i]; [cbn in Hi; injection Hi as <-; lra|]. cbn in Hi. apply nth_error_In in Hi. specialize (S _ Hi). lra. }
  intros inner v b H. split.
  - intros <-. split; [apply bin_bound|apply D; exact H].
  - intros [Hb HB]. destruct (Nat.lt_trichotomy (bin inner v) b) as [L|[L|L]]; [|exact L|]; exfalso.
    + destruct (nth_error inner (bin inner v)) as [e|] eqn:E; [|apply nth_error_None in E; lia]. assert (X := proj1 (HB _ _ E) L). apply (D inner v H _ _ E) in X. lia.
    + assert (Lb := bin_bound inner v). destruct (nth_error inner b) as [e|] eqn:E; [|apply nth_error_None in E; lia]. assert (X := proj1 (D inner v H _ _ E) L). apply (HB _ _ E) in X. lia.
Qed.
Theorem C261_intervals : forall inner v b, strictly inner = true ->
  (bin inner v = b <-> b <= length inner /\ (forall i e, nth_error inner i = Some e -> (i < b <-> (e < v)%R))).
Proof. exact bin_spec. Qed.
(** equal edges (many equal effects) are an error *)
Theorem C261_edges_refuted : forall values e1 e2 e, split (e1 ++ e :: e :: e2) values = Err ValueError.
Proof.
  intros values e1 e2 e. unfold split. assert (S : strictly (e1 ++ e :: e :: e2) = false).
  { induction e1 as [|a [|b e1] IH].
    - cbn. destruct (Rlt_dec e e); [lra|reflexivity].
    - cbn in *. destruct (Rlt_dec e e); [lra|]. apply andb_false_r.
    - cbn [app strictly] in *. rewrite IH. apply andb_false_r. }
  now rewrite S.
Qed.

(** ** Concrete cases *)
Example C260_case : sample (seq 10 8) 3 = Ok [(0, 10); (3, 13); (7, 17)].
Proof. reflexivity. Qed.
Example C261_case : split [1; 2; 4]%R [1; 2; 3; 4]%R = Ok [Some ((3 + (4 + 0)) / INR 2)%R; Some ((1 + (2 + 0)) / INR 2)%R].
Proof.
  unfold split. cbn [strictly]. destruct (Rlt_dec 1 2); [|lra]. destruct (Rlt_dec 2 4); [|lra]. cbn [andb tl removelast length rev seq map app Nat.sub].
  unfold bin. cbn [filter].
  repeat match goal with |- context [Rlt_dec ?a ?b] => destruct (Rlt_dec a b); try lra end. reflexivity.
Qed.
Print Assumptions C260_sample.
Print Assumptions C261_descending.
Print Assumptions C261_intervals.
