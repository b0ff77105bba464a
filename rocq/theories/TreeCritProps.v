(** C61, C62: the statistics kept by the tree criteria are those of the split, and the proxy used to search
    for the best split ranks splits like the impurity improvement. *)
From Coq Require Import ZArith Reals Lra.
From Verif Require Import Base TreeCritModel.
Set Implicit Arguments.
Local Notation length := List.length.
Open Scope R_scope.

(* ------------------------------------------------------------------------------------------------ *)
(** ** Specification *)

(** the samples l[a:b] *)
Definition slice {A} (l : list A) (a b : nat) : list A := firstn (b - a) (skipn a l).

Definition Rsum (l : list R) : R := fold_right Rplus 0 l.

(** a sample is treated iff its weight is positive *)
Definition treatedb (d : data) (i : nat) : bool := if Rgt_dec (wt d i) 0 then true else false.

(** sums and counts of treated and control outcomes of a list of samples *)
Definition stats_of (d : data) (l : list nat) : gstat :=
  let t := filter (treatedb d) l in
  let c := filter (fun i => negb (treatedb d i)) l in
  mkG (Rsum (map (fun i => y_at d i 0) t)) (Rsum (map (fun i => y_at d i 0) c))
      (Rsum (map (fun i => y_at d i 0 * y_at d i 0) t)) (Rsum (map (fun i => y_at d i 0 * y_at d i 0) c))
      (Z.of_nat (length t)) (Z.of_nat (length c)).

(** What a splitter does with the criterion of a node: rearrange samples[start:end] and reset, rearrange and
    reverse_reset, or move the split position. *)
Inductive cop := CReset (samples : list nat) | CReverse (samples : list nat) | CUpdate (new_pos : nat).

(** histories in which every update moves the split position forward within the node *)
Fixpoint forward (start end_ : nat) (node : list nat) (pos : nat) (ops : list cop) : Prop :=
  match ops with
  | [] => True
  | CReset s :: r => ((end_ <= length s)%nat /\ Permutation (slice s start end_) node) /\
                     forward start end_ node start r
  | CReverse s :: r => ((end_ <= length s)%nat /\ Permutation (slice s start end_) node) /\
                       forward start end_ node end_ r
  | CUpdate p :: r => (pos <= p <= end_)%nat /\ forward start end_ node p r
  end.

Definition hc_step (d : data) (s : hc * list nat) (o : cop) : res (hc * list nat) :=
  match o with
  | CReset samples => Ok (hc_reset (fst s), samples)
  | CReverse samples => Ok (hc_reverse_reset (fst s), samples)
  | CUpdate p => do c <- hc_update d (fst s) (snd s) p ; Ok (c, snd s)
  end.
Fixpoint hc_run (d : data) (s : hc * list nat) (ops : list cop) : res (hc * list nat) :=
  match ops with [] => Ok s | o :: r => do s' <- hc_step d s o ; hc_run d s' r end.

Definition rc_step (d : data) (s : rc * list nat) (o : cop) : rc * list nat :=
  match o with
  | CReset samples => (rc_reset (fst s), samples)
  | CReverse samples => (rc_reverse_reset (fst s), samples)
  | CUpdate p => (rc_update d (fst s) (snd s) p, snd s)
  end.
Definition rc_run (d : data) (s : rc * list nat) (ops : list cop) : rc * list nat := fold_left (rc_step d) ops s.

(* ------------------------------------------------------------------------------------------------ *)
(** ** Slices and sums *)

Lemma slice_length {A} (l : list A) a b : (b <= length l)%nat -> length (slice l a b) = (b - a)%nat.
Proof. intros H. unfold slice. rewrite firstn_length, skipn_length. lia. Qed.

Lemma at_range_slice samples a b : (b <= length samples)%nat -> at_range samples a b = slice samples a b.
Proof.
  intros H. unfold at_range, slice.
  apply nth_ext with (d := 0%nat) (d' := 0%nat).
  - rewrite map_length, seq_length, firstn_length, skipn_length. lia.
  - intros n Hn. rewrite map_length, seq_length in Hn.
    rewrite nth_indep with (d' := nth 0 samples 0%nat) by now rewrite map_length, seq_length.
    rewrite (map_nth (fun p => nth p samples 0%nat)), seq_nth by auto.
    assert (G : forall (l : list nat) k m j, (j < m)%nat -> nth j (firstn m (skipn k l)) 0%nat = nth (k + j) l 0%nat).
    { clear. intros l k m j Hj. revert l k j Hj. induction m as [|m IH]; intros l k j Hj; [lia|].
      revert k. induction l as [|x l IHl]; intros k.
      - rewrite skipn_nil, firstn_nil.
        assert (N : forall n, nth n (@nil nat) 0%nat = 0%nat) by (intros []; auto). now rewrite !N.
      - destruct k as [|k]; [|cbn [skipn plus nth]; apply IHl].
        cbn [skipn firstn plus]. destruct j as [|j]; [reflexivity|]. cbn [nth].
        specialize (IH l 0%nat j ltac:(lia)). cbn [skipn plus] in IH. exact IH. }
    now rewrite G.
Qed.

Lemma skipn_plus {A} a n (l : list A) : skipn (a + n) l = skipn n (skipn a l).
Proof.
  revert l. induction a as [|a IH]; intros l; [reflexivity|]. destruct l as [|x l]; [now rewrite !skipn_nil|]. apply IH.
Qed.
Lemma firstn_plus {A} m k (u : list A) : firstn (m + k) u = firstn m u ++ firstn k (skipn m u).
Proof.
  revert u. induction m as [|m IH]; intros u; [reflexivity|].
  destruct u as [|x u]; [now rewrite !firstn_nil|]. cbn. now rewrite IH.
Qed.
Lemma slice_app {A} (l : list A) a b c : (a <= b)%nat -> (b <= c)%nat -> slice l a c = slice l a b ++ slice l b c.
Proof.
  intros H1 H2. unfold slice.
  replace (c - a)%nat with ((b - a) + (c - b))%nat by lia.
  rewrite firstn_plus. f_equal. f_equal. rewrite <- skipn_plus. f_equal. lia.
Qed.

Lemma slice_nil {A} (l : list A) a : slice l a a = [].
Proof. unfold slice. now rewrite Nat.sub_diag. Qed.

Lemma Rsum_nil : Rsum [] = 0.
Proof. reflexivity. Qed.
Lemma Rsum_cons x l : Rsum (x :: l) = x + Rsum l.
Proof. reflexivity. Qed.
Ltac rsum := cbn [map app fst snd]; rewrite ?Rsum_cons, ?Rsum_nil.

Lemma Rsum_app l m : Rsum (l ++ m) = Rsum l + Rsum m.
Proof. induction l as [|x l IH]; rsum; [lra|]. rewrite IH. lra. Qed.

Lemma Rsum_perm l m : Permutation l m -> Rsum l = Rsum m.
Proof. induction 1; rsum; lra. Qed.

Lemma fold_Rsum {A} (f : A -> R) l : forall a, fold_left (fun a i => a + f i) l a = a + Rsum (map f l).
Proof. induction l as [|x l IH]; intros a; cbn [fold_left]; rsum; [lra|]. rewrite IH. lra. Qed.
Lemma fold_Rsub {A} (f : A -> R) l : forall a, fold_left (fun a i => a - f i) l a = a - Rsum (map f l).
Proof. induction l as [|x l IH]; intros a; cbn [fold_left]; rsum; [lra|]. rewrite IH. lra. Qed.

(* ------------------------------------------------------------------------------------------------ *)
(** ** gstat algebra *)

Ltac gring := unfold gadd, gsub, g0; cbn [yt y0 yt2 y02 nt n0]; f_equal; (ring || lia || lra).

Lemma gstat_eta g : mkG (yt g) (y0 g) (yt2 g) (y02 g) (nt g) (n0 g) = g.
Proof. now destruct g. Qed.
Lemma gadd_0_l g : gadd g0 g = g.
Proof. destruct g. gring. Qed.
Lemma gadd_0_r g : gadd g g0 = g.
Proof. destruct g. gring. Qed.
Lemma gadd_assoc a b c : gadd a (gadd b c) = gadd (gadd a b) c.
Proof. gring. Qed.
Lemma gadd_comm a b : gadd a b = gadd b a.
Proof. gring. Qed.
Lemma gsub_add a b : gsub (gadd a b) a = b.
Proof. destruct b. gring. Qed.
Lemma gsub_gadd a b c : gsub (gsub a b) c = gsub a (gadd b c).
Proof. gring. Qed.

Lemma stats_nil d : stats_of d [] = g0.
Proof. reflexivity. Qed.
Lemma stats_cons d i l : stats_of d (i :: l) = gadd (gone (wt d i) (y_at d i 0)) (stats_of d l).
Proof.
  unfold stats_of, gone. cbn [filter].
  destruct (treatedb d i) eqn:E; unfold treatedb in E; destruct (Rgt_dec (wt d i) 0); try discriminate E; cbn [negb map length]; unfold gadd; cbn [yt y0 yt2 y02 nt n0];
    rewrite ?Rsum_cons; f_equal; (lra || lia).
Qed.
Lemma stats_app d l m : stats_of d (l ++ m) = gadd (stats_of d l) (stats_of d m).
Proof.
  induction l as [|i l IH]; cbn [app]; [now rewrite stats_nil, gadd_0_l|].
  now rewrite !stats_cons, IH, gadd_assoc.
Qed.
Lemma stats_perm d l m : Permutation l m -> stats_of d l = stats_of d m.
Proof.
  induction 1 as [|i l m P IH|i j l|l m k P1 IH1 P2 IH2]; auto.
  - now rewrite !stats_cons, IH.
  - rewrite !stats_cons, !gadd_assoc. f_equal. apply gadd_comm.
  - congruence.
Qed.
Lemma stats_count d l : (nt (stats_of d l) + n0 (stats_of d l))%Z = Z.of_nat (length l).
Proof.
  induction l as [|i l IH]; [reflexivity|]. rewrite stats_cons. unfold gadd. cbn [nt n0 length].
  unfold gone. destruct (Rgt_dec (wt d i) 0); cbn [nt n0]; lia.
Qed.

(* ------------------------------------------------------------------------------------------------ *)
(** ** HonestCMSE / CMSE *)

Lemma init_stats d l : forall g, fold_left (fun g i => gadd g (gone (wt d i) (y_at d i 0))) l g = gadd g (stats_of d l).
Proof.
  induction l as [|i l IH]; intros g; cbn [fold_left]; [now rewrite stats_nil, gadd_0_r|].
  now rewrite IH, stats_cons, gadd_assoc.
Qed.

Lemma y_at_1 d i : d_out d = 1%nat -> d_y d i = y_at d i 0.
Proof. intros H. unfold y_at. rewrite H. f_equal. lia. Qed.

Lemma read_ok d w i : d_out d = 1%nat -> d_w d = Some w -> read_sample d i = Ok (gone (wt d i) (y_at d i 0)).
Proof. intros H1 H2. unfold read_sample, wt. rewrite H2. now rewrite (y_at_1 _ i H1). Qed.

Lemma on_update_add d w l : d_out d = 1%nat -> d_w d = Some w -> forall g,
  fold_left (fun r i => do g <- r ; do s <- read_sample d i ; Ok (gadd g s)) l (Ok g) = Ok (gadd g (stats_of d l)).
Proof.
  intros H1 H2. induction l as [|i l IH]; intros g; cbn [fold_left]; [now rewrite stats_nil, gadd_0_r|].
  cbn [bind]. rewrite (read_ok _ i H1 H2). cbn [bind]. now rewrite IH, stats_cons, gadd_assoc.
Qed.
Lemma on_update_sub d w l : d_out d = 1%nat -> d_w d = Some w -> forall g,
  fold_left (fun r i => do g <- r ; do s <- read_sample d i ; Ok (gsub g s)) l (Ok g) = Ok (gsub g (stats_of d l)).
Proof.
  intros H1 H2. induction l as [|i l IH]; intros g; cbn [fold_left].
  - rewrite stats_nil. f_equal. destruct g. gring.
  - cbn [bind]. rewrite (read_ok _ i H1 H2). cbn [bind]. now rewrite IH, stats_cons, gsub_gadd.
Qed.

Ltac hcbn := cbn [hstart hend hpos hN hwn hwl hwr htot hleft hright].
Ltac rcbn := cbn [rstart rend rpos rN rwn rwl rwr rsq rtot rleft rright].

(** the statistics describe the split of the current array at the current position *)
Definition hc_consistent (d : data) (start end_ : nat) (node : list nat) (c : hc) (samples : list nat) : Prop :=
  hstart c = start /\ hend c = end_ /\ (start <= hpos c <= end_)%nat /\
  (end_ <= length samples)%nat /\ Permutation (slice samples start end_) node /\
  htot c = stats_of d node /\
  hleft c = stats_of d (slice samples start (hpos c)) /\
  hright c = stats_of d (slice samples (hpos c) end_).

Lemma hc_update_ok d w start end_ node c samples p :
  d_out d = 1%nat -> d_w d = Some w ->
  hc_consistent d start end_ node c samples -> (hpos c <= p <= end_)%nat ->
  exists c', hc_update d c samples p = Ok c' /\ hc_consistent d start end_ node c' samples /\ hpos c' = p.
Proof.
  intros H1 H2 (S1 & S2 & S3 & S4 & S5 & S6 & S7 & S8) Hp.
  unfold hc_update. rewrite S2. unfold on_update.
  assert (T : htot c = gadd (stats_of d (slice samples start p)) (stats_of d (slice samples p end_))).
  { rewrite <- stats_app, <- slice_app by lia. rewrite S6. symmetry. now apply stats_perm. }
  destruct (near (hpos c) p end_) eqn:N; cbn [negb].
  - rewrite (@on_update_add d w _ H1 H2). cbn [bind]. eexists. split; [reflexivity|].
    rewrite gadd_0_l, at_range_slice by lia.
    assert (L : gadd (hleft c) (stats_of d (slice samples (hpos c) p)) = stats_of d (slice samples start p)).
    { rewrite S7, <- stats_app, <- slice_app by lia. reflexivity. }
    unfold hc_consistent. hcbn. rewrite L. intuition (auto; try lia). now rewrite T, gsub_add.
  - rewrite (@on_update_sub d w _ H1 H2). cbn [bind]. eexists. split; [reflexivity|].
    rewrite (stats_perm d (Permutation_sym (Permutation_rev _))), at_range_slice by lia.
    assert (L : gadd (htot c) (gsub g0 (stats_of d (slice samples p end_))) = stats_of d (slice samples start p)).
    { rewrite T. destruct (stats_of d (slice samples start p)). gring. }
    unfold hc_consistent. cbn [hc_reverse_reset hleft hpos hstart hend htot hright]. rewrite L.
    intuition (auto; try lia). now rewrite T, gsub_add.
Qed.

Lemma hc_init_ok d N samples start end_ :
  (start <= end_ <= length samples)%nat ->
  hc_consistent d start end_ (slice samples start end_) (hc_init d N samples start end_) samples.
Proof.
  intros H. unfold hc_consistent, hc_init, hc_reset. hcbn. rewrite init_stats, gadd_0_l, at_range_slice by lia.
  rewrite slice_nil, stats_nil. intuition (auto; lia).
Qed.

Lemma hc_run_ok d w start end_ node ops : d_out d = 1%nat -> d_w d = Some w ->
  forall c samples, hc_consistent d start end_ node c samples -> forward start end_ node (hpos c) ops ->
  exists c' samples', hc_run d (c, samples) ops = Ok (c', samples') /\ hc_consistent d start end_ node c' samples'.
Proof.
  intros H1 H2. induction ops as [|o ops IH]; intros c samples C F; cbn [hc_run]; [eauto|].
  destruct o as [s|s|p]; cbn [forward hc_step fst snd bind] in *.
  - destruct F as [[F1 F2] F3]. apply IH; [|cbn; destruct C as (-> & _); exact F3].
    destruct C as (S1 & S2 & S3 & S4 & S5 & S6 & S7 & S8). unfold hc_consistent, hc_reset. hcbn.
    rewrite S1, S2, slice_nil, stats_nil. rewrite S6, (stats_perm d F2). intuition (auto; lia).
  - destruct F as [[F1 F2] F3]. apply IH; [|cbn; destruct C as (_ & -> & _); exact F3].
    destruct C as (S1 & S2 & S3 & S4 & S5 & S6 & S7 & S8). unfold hc_consistent, hc_reverse_reset. hcbn.
    rewrite S1, S2, slice_nil, stats_nil. rewrite S6, (stats_perm d F2). intuition (auto; lia).
  - destruct F as [F1 F2].
    assert (F1' : (hpos c <= p <= end_)%nat) by exact F1.
    destruct (@hc_update_ok d w start end_ node c samples p H1 H2 C F1') as (c' & -> & C' & P').
    cbn [bind]. apply IH; auto. now rewrite P'.
Qed.

(** C61 (causal criteria): after init on samples[start:end] and any forward history, the left (right) sums,
    squared sums and counts of treated and control samples are those of samples[start:pos] (samples[pos:end]),
    for one outcome and given weights. *)
Theorem C61_causal_stats d w N samples start end_ ops :
  d_out d = 1%nat -> d_w d = Some w -> (start <= end_ <= length samples)%nat ->
  forward start end_ (slice samples start end_) start ops ->
  exists c samples', hc_run d (hc_init d N samples start end_, samples) ops = Ok (c, samples') /\
    (start <= hpos c <= end_)%nat /\
    Permutation (slice samples' start end_) (slice samples start end_) /\
    hleft c = stats_of d (slice samples' start (hpos c)) /\
    hright c = stats_of d (slice samples' (hpos c) end_) /\
    htot c = stats_of d (slice samples' start end_).
Proof.
  intros H1 H2 H3 F.
  destruct (@hc_run_ok d w start end_ _ ops H1 H2 _ samples (hc_init_ok d N samples H3) F) as (c & s & E & C).
  exists c, s. destruct C as (S1 & S2 & S3 & S4 & S5 & S6 & S7 & S8).
  split; [exact E|]. split; [auto|]. split; [auto|]. split; [auto|]. split; [auto|].
  rewrite S6. symmetry. now apply stats_perm.
Qed.

(** Moving backward is silently wrong: the statistics stay those of the old position while the position
    moves (for every data set and every consistent state). *)
Theorem C61_backward_refuted d w start end_ node c samples p :
  d_out d = 1%nat -> d_w d = Some w ->
  hc_consistent d start end_ node c samples -> (start <= p < hpos c)%nat ->
  exists c', hc_update d c samples p = Ok c' /\ hpos c' = p /\ hleft c' = hleft c /\
             hleft c' <> stats_of d (slice samples start p).
Proof.
  intros H1 H2 (S1 & S2 & S3 & S4 & S5 & S6 & S7 & S8) Hp.
  unfold hc_update, on_update.
  assert (E : near (hpos c) p (hend c) = true) by (unfold near; apply Z.leb_le; rewrite S2; lia).
  rewrite E. cbn [negb]. unfold at_range. replace (p - hpos c)%nat with 0%nat by lia. cbn [seq map fold_left bind].
  eexists. split; [reflexivity|]. cbn [hpos hleft]. rewrite gadd_0_r. split; [auto|]. split; [auto|].
  rewrite S7. intros C. pose proof (stats_count d (slice samples start (hpos c))) as C1.
  rewrite C, stats_count in C1. rewrite !slice_length in C1 by lia. lia.
Qed.

(** Without sample weights the first split evaluation inside a node dereferences a null pointer, although init
    accepts missing weights. *)
Theorem C61_null_weight_refuted d N samples start end_ p :
  d_w d = None -> (start < p < end_)%nat ->
  hc_update d (hc_init d N samples start end_) samples p = Err NullPointer.
Proof.
  intros H1 Hp. unfold hc_update, hc_init, hc_reset. cbn [hpos hend hstart].
  assert (F : forall f l, l <> [] ->
    fold_left (fun r i => do g <- r ; do s <- read_sample d i ; Ok (f g s)) l (Ok g0) = Err NullPointer).
  { intros f l Hl. assert (G : forall l, fold_left (fun r i => do g <- r ; do s <- read_sample d i ; Ok (f g s)) l
        (Err NullPointer) = @Err gstat NullPointer) by (intros m; induction m; auto).
    destruct l as [|i l]; [congruence|]. cbn [fold_left bind].
    assert (E : read_sample d i = Err NullPointer) by (unfold read_sample; now rewrite H1). rewrite E. apply G. }
  unfold on_update. destruct (near start p end_).
  - rewrite F; [reflexivity|]. unfold at_range. destruct (p - start)%nat eqn:E; [lia|]. cbn. discriminate.
  - rewrite F; [reflexivity|]. intros C. apply (f_equal (@length nat)) in C. rewrite rev_length in C.
    unfold at_range in C. rewrite map_length, seq_length in C. cbn in C. lia.
Qed.

(** With two outcomes init reads the first outcome of each sample but update reads the flat array at the sample
    number: the left sums are then not those of any outcome. *)
Theorem C61_outputs_refuted :
  let d := mkData 2 (fun k => INR k) (Some (fun _ => 1)) in
  exists c, hc_update d (hc_init d 2 [1; 0]%nat 0 2) [1; 0]%nat 1 = Ok c /\
    yt (hleft c) = 1 /\ yt (stats_of d (slice [1; 0]%nat 0 1)) = 2 /\ y_at d 1 1 = 3.
Proof.
  cbv zeta. eexists. split; [reflexivity|].
  unfold stats_of, slice, treatedb, wt, y_at, gone. cbn.
  destruct (Rgt_dec 1 0); [|lra]. cbn. unfold gone, y_at. cbn. destruct (Rgt_dec 1 0); [|lra]. cbn. lra.
Qed.

(* ------------------------------------------------------------------------------------------------ *)
(** ** RegressionCriterion *)

(** weighted outcome sum and weight of a list of samples *)
Definition wy_sum (d : data) (l : list nat) (k : nat) : R := Rsum (map (fun i => wt d i * y_at d i k) l).
Definition w_sum (d : data) (l : list nat) : R := Rsum (map (wt d) l).
(** weighted sum of the squares of all outcomes *)
Definition wy2_sum (d : data) (l : list nat) : R :=
  Rsum (map (fun i => Rsum (map (fun k => wt d i * y_at d i k * y_at d i k) (seq 0 (d_out d)))) l).

Definition rc_consistent (d : data) (start end_ : nat) (node : list nat) (c : rc) (samples : list nat) : Prop :=
  rstart c = start /\ rend c = end_ /\ (start <= rpos c <= end_)%nat /\
  (end_ <= length samples)%nat /\ Permutation (slice samples start end_) node /\
  (forall k, rtot c k = wy_sum d node k) /\ rwn c = w_sum d node /\ rsq c = wy2_sum d node /\
  (forall k, rleft c k = wy_sum d (slice samples start (rpos c)) k) /\
  (forall k, rright c k = wy_sum d (slice samples (rpos c) end_) k) /\
  rwl c = w_sum d (slice samples start (rpos c)) /\
  rwr c = w_sum d (slice samples (rpos c) end_).

Lemma wy_sum_app d l m k : wy_sum d (l ++ m) k = wy_sum d l k + wy_sum d m k.
Proof. unfold wy_sum. now rewrite map_app, Rsum_app. Qed.
Lemma w_sum_app d l m : w_sum d (l ++ m) = w_sum d l + w_sum d m.
Proof. unfold w_sum. now rewrite map_app, Rsum_app. Qed.
Lemma wy2_sum_app d l m : wy2_sum d (l ++ m) = wy2_sum d l + wy2_sum d m.
Proof. unfold wy2_sum. now rewrite map_app, Rsum_app. Qed.
Lemma wy_sum_perm d l m k : Permutation l m -> wy_sum d l k = wy_sum d m k.
Proof. intros P. unfold wy_sum. apply Rsum_perm. now apply Permutation_map. Qed.
Lemma w_sum_perm d l m : Permutation l m -> w_sum d l = w_sum d m.
Proof. intros P. unfold w_sum. apply Rsum_perm. now apply Permutation_map. Qed.
Lemma wy2_sum_perm d l m : Permutation l m -> wy2_sum d l = wy2_sum d m.
Proof. intros P. unfold wy2_sum. apply Rsum_perm. now apply Permutation_map. Qed.

Lemma rc_tot_fold d l : forall s k,
  fold_left (fun s i k => s k + wt d i * y_at d i k) l s k = s k + wy_sum d l k.
Proof.
  induction l as [|i l IH]; intros s k; cbn [fold_left]; [unfold wy_sum; rsum; lra|].
  rewrite IH. unfold wy_sum. rsum. lra.
Qed.
Lemma rc_sq_fold d l : forall a,
  fold_left (fun a i => fold_left (fun b k => b + wt d i * y_at d i k * y_at d i k) (seq 0 (d_out d)) a) l a
  = a + wy2_sum d l.
Proof.
  induction l as [|i l IH]; intros a; cbn [fold_left]; [unfold wy2_sum; rsum; lra|].
  rewrite IH, (fold_Rsum (fun k => wt d i * y_at d i k * y_at d i k)). unfold wy2_sum. rsum. lra.
Qed.
Lemma rc_upd_fold d l : forall s k,
  fst (fold_left (fun s i => (fun k => fst s k + wt d i * y_at d i k, snd s + wt d i)) l s) k
  = fst s k + wy_sum d l k /\
  snd (fold_left (fun s i => (fun k => fst s k + wt d i * y_at d i k, snd s + wt d i)) l s) = snd s + w_sum d l.
Proof.
  induction l as [|i l IH]; intros s k; cbn [fold_left]; [unfold wy_sum, w_sum; rsum; split; lra|].
  destruct (IH (fun k0 => fst s k0 + wt d i * y_at d i k0, snd s + wt d i) k) as [E1 E2].
  rewrite E1, E2. unfold wy_sum, w_sum. rsum. split; lra.
Qed.
Lemma rc_dn_fold d l : forall s k,
  fst (fold_left (fun s i => (fun k => fst s k - wt d i * y_at d i k, snd s - wt d i)) l s) k
  = fst s k - wy_sum d l k /\
  snd (fold_left (fun s i => (fun k => fst s k - wt d i * y_at d i k, snd s - wt d i)) l s) = snd s - w_sum d l.
Proof.
  induction l as [|i l IH]; intros s k; cbn [fold_left]; [unfold wy_sum, w_sum; rsum; split; lra|].
  destruct (IH (fun k0 => fst s k0 - wt d i * y_at d i k0, snd s - wt d i) k) as [E1 E2].
  rewrite E1, E2. unfold wy_sum, w_sum. rsum. split; lra.
Qed.

Lemma rc_init_ok d N samples start end_ :
  (start <= end_ <= length samples)%nat ->
  rc_consistent d start end_ (slice samples start end_) (rc_init d N samples start end_) samples.
Proof.
  intros H. unfold rc_consistent, rc_init, rc_reset. rcbn. rewrite slice_nil, at_range_slice by lia.
  rewrite rc_sq_fold, (fold_Rsum (wt d)). fold (w_sum d (slice samples start end_)).
  assert (Z1 : forall k, wy_sum d [] k = 0) by reflexivity.
  assert (Z2 : w_sum d [] = 0) by reflexivity.
  intuition (auto; try lia; try lra); rewrite rc_tot_fold; lra.
Qed.

Lemma rc_update_ok d start end_ node c samples p :
  rc_consistent d start end_ node c samples -> (rpos c <= p <= end_)%nat ->
  rc_consistent d start end_ node (rc_update d c samples p) samples /\ rpos (rc_update d c samples p) = p.
Proof.
  intros (S1 & S2 & S3 & S4 & S5 & S6 & S7 & S8 & S9 & S10 & S11 & S12) Hp.
  assert (T1 : forall k, wy_sum d node k = wy_sum d (slice samples start p) k + wy_sum d (slice samples p end_) k).
  { intros k. rewrite <- wy_sum_app, <- slice_app by lia. symmetry. now apply wy_sum_perm. }
  assert (T2 : w_sum d node = w_sum d (slice samples start p) + w_sum d (slice samples p end_)).
  { rewrite <- w_sum_app, <- slice_app by lia. symmetry. now apply w_sum_perm. }
  unfold rc_update. rewrite S2. destruct (near (rpos c) p end_) eqn:N.
  - rewrite at_range_slice by lia.
    destruct (fold_left _ (slice samples (rpos c) p) (rleft c, rwl c)) as [sl wl] eqn:E.
    assert (E1 : forall k, sl k = wy_sum d (slice samples start p) k).
    { intros k. pose proof (proj1 (rc_upd_fold d (slice samples (rpos c) p) (rleft c, rwl c) k)) as F.
      rewrite E in F. cbn [fst] in F. rewrite F, S9, <- wy_sum_app, <- slice_app by lia. reflexivity. }
    assert (E2 : wl = w_sum d (slice samples start p)).
    { pose proof (proj2 (rc_upd_fold d (slice samples (rpos c) p) (rleft c, rwl c) 0%nat)) as F.
      rewrite E in F. cbn [snd] in F. rewrite F, S11, <- w_sum_app, <- slice_app by lia. reflexivity. }
    split; [|reflexivity]. unfold rc_consistent. rcbn. intuition (auto; try lia).
    + rewrite S6, E1, T1. lra.
    + rewrite S7, E2, T2. lra.
  - rewrite at_range_slice by lia.
    destruct (fold_left _ (rev (slice samples p end_)) _) as [sl wl] eqn:E.
    assert (E1 : forall k, sl k = wy_sum d (slice samples start p) k).
    { intros k. pose proof (proj1 (rc_dn_fold d (rev (slice samples p end_)) (rleft (rc_reverse_reset c), rwl (rc_reverse_reset c)) k)) as F.
      rewrite E in F. cbn [fst rc_reverse_reset rleft] in F.
      rewrite F, S6, T1, (wy_sum_perm d k (Permutation_sym (Permutation_rev (slice samples p end_)))). lra. }
    assert (E2 : wl = w_sum d (slice samples start p)).
    { pose proof (proj2 (rc_dn_fold d (rev (slice samples p end_)) (rleft (rc_reverse_reset c), rwl (rc_reverse_reset c)) 0%nat)) as F.
      rewrite E in F. cbn [snd rc_reverse_reset rwl] in F.
      rewrite F, S7, T2, (w_sum_perm d (Permutation_sym (Permutation_rev (slice samples p end_)))). lra. }
    split; [|reflexivity]. unfold rc_consistent. rcbn. intuition (auto; try lia).
    + rewrite S6, E1, T1. lra.
    + rewrite S7, E2, T2. lra.
Qed.

Lemma rc_run_ok d start end_ node ops :
  forall c samples, rc_consistent d start end_ node c samples -> forward start end_ node (rpos c) ops ->
  rc_consistent d start end_ node (fst (rc_run d (c, samples) ops)) (snd (rc_run d (c, samples) ops)).
Proof.
  induction ops as [|o ops IH]; intros c samples C F; cbn [rc_run fold_left]; [exact C|].
  assert (Z1 : forall k, wy_sum d [] k = 0) by reflexivity.
  assert (Z2 : w_sum d [] = 0) by reflexivity.
  destruct o as [s|s|p]; cbn [forward rc_step fst snd] in *.
  - destruct F as [[F1 F2] F3]. apply IH; [|cbn; destruct C as (-> & _); exact F3].
    destruct C as (S1 & S2 & S3 & S4 & S5 & S6 & S7 & S8 & _). unfold rc_consistent, rc_reset. rcbn.
    rewrite S1, S2, slice_nil. repeat (split; [intuition (auto; lia)|]).
    split; [intros k; now rewrite S6, (wy_sum_perm d k F2)|]. split; [auto|]. now rewrite S7, (w_sum_perm d F2).
  - destruct F as [[F1 F2] F3]. apply IH; [|cbn; destruct C as (_ & -> & _); exact F3].
    destruct C as (S1 & S2 & S3 & S4 & S5 & S6 & S7 & S8 & _). unfold rc_consistent, rc_reverse_reset. rcbn.
    rewrite S1, S2, slice_nil. repeat (split; [intuition (auto; lia)|]).
    split; [intros k; now rewrite S6, (wy_sum_perm d k F2)|]. split; [auto|].
    split; [now rewrite S7, (w_sum_perm d F2)|auto].
  - destruct F as [F1 F2]. destruct (@rc_update_ok d start end_ node c samples p C F1) as [C' P'].
    apply IH; auto. now rewrite P'.
Qed.

(** C61 (regression and policy criteria): the same for the weighted sums of every output and the weights, with
    or without sample weights. *)
Theorem C61_regression_stats d N samples start end_ ops :
  (start <= end_ <= length samples)%nat ->
  forward start end_ (slice samples start end_) start ops ->
  exists c samples', rc_run d (rc_init d N samples start end_, samples) ops = (c, samples') /\
    (start <= rpos c <= end_)%nat /\
    Permutation (slice samples' start end_) (slice samples start end_) /\
    (forall k, rleft c k = wy_sum d (slice samples' start (rpos c)) k) /\
    (forall k, rright c k = wy_sum d (slice samples' (rpos c) end_) k) /\
    rwl c = w_sum d (slice samples' start (rpos c)) /\
    rwr c = w_sum d (slice samples' (rpos c) end_).
Proof.
  intros H F. pose proof (@rc_run_ok d start end_ _ ops _ samples (rc_init_ok d N samples H) F) as C.
  destruct (rc_run d (rc_init d N samples start end_, samples) ops) as [c s]. cbn [fst snd] in C.
  exists c, s. unfold rc_consistent in C. intuition auto.
Qed.

Example C61_case :
  let d := mkData 1 (fun k => INR k) (Some (fun i => if Nat.even i then 1 else 0)) in
  forward 0 4 (slice [0; 1; 2; 3]%nat 0 4) 0 [CReset [2; 0; 3; 1]%nat; CUpdate 1; CUpdate 3; CReverse [3; 1; 0; 2]%nat] /\
  stats_of d [2; 0; 3]%nat = mkG 2 3 4 9 2 1.
Proof.
  cbv zeta. split.
  - cbn. split; [split; [lia|]|split; [lia|split; [lia|split; [split; [lia|]|exact I]]]].
    + unfold slice. cbn. apply (Permutation_trans (l' := [0; 2; 3; 1]%nat)); [constructor|].
      constructor. apply Permutation_sym. apply (Permutation_middle [2; 3]%nat []%nat 1%nat).
    + unfold slice. cbn. apply (Permutation_trans (l' := [0; 3; 1; 2]%nat)).
      * apply Permutation_sym. apply (Permutation_middle [3; 1]%nat [2]%nat 0%nat).
      * constructor. apply (Permutation_trans (l' := [1; 3; 2]%nat)); [constructor|]. constructor. constructor.
  - unfold stats_of, treatedb, wt, y_at. cbn. destruct (Rgt_dec 1 0); [|lra]. destruct (Rgt_dec 0 0); [lra|].
    cbn. f_equal; lra.
Qed.

(* ------------------------------------------------------------------------------------------------ *)
(** ** C62: the proxy ranks splits like the improvement *)

(** the criterion states (with the arrangement of the samples) a forward history can reach in a node *)
Definition h_reach (d : data) (N : R) (samples : list nat) (start end_ : nat) (c : hc) (s : list nat) : Prop :=
  exists ops, forward start end_ (slice samples start end_) start ops /\
              hc_run d (hc_init d N samples start end_, samples) ops = Ok (c, s).
Definition r_reach (d : data) (N : R) (samples : list nat) (start end_ : nat) (c : rc) (s : list nat) : Prop :=
  exists ops, forward start end_ (slice samples start end_) start ops /\
              rc_run d (rc_init d N samples start end_, samples) ops = (c, s).

Lemma h_reach_ok d w N samples start end_ c s :
  d_out d = 1%nat -> d_w d = Some w -> (start <= end_ <= length samples)%nat ->
  h_reach d N samples start end_ c s -> hc_consistent d start end_ (slice samples start end_) c s.
Proof.
  intros H1 H2 H3 (ops & F & E).
  destruct (@hc_run_ok d w start end_ _ ops H1 H2 _ samples (hc_init_ok d N samples H3) F) as (c' & s' & E' & C).
  rewrite E in E'. injection E' as <- <-. exact C.
Qed.
Lemma r_reach_ok d N samples start end_ c s :
  (start <= end_ <= length samples)%nat ->
  r_reach d N samples start end_ c s -> rc_consistent d start end_ (slice samples start end_) c s.
Proof.
  intros H3 (ops & F & E).
  pose proof (@rc_run_ok d start end_ _ ops _ samples (rc_init_ok d N samples H3) F) as C.
  now rewrite E in C.
Qed.

Lemma eps_pos : 0 < eps.
Proof. unfold eps. lra. Qed.

Lemma le_scale a b k x y : 0 < k -> x = a / k -> y = b / k -> (a <= b <-> x <= y).
Proof.
  intros Hk -> ->. unfold Rdiv. split; intros H.
  - apply Rmult_le_compat_r; auto. left. now apply Rinv_0_lt_compat.
  - apply Rmult_le_reg_r with (/ k); auto. now apply Rinv_0_lt_compat.
Qed.

Lemma gn_node d start end_ node c s :
  hc_consistent d start end_ node c s -> gn (htot c) = INR (end_ - start).
Proof.
  intros (_ & _ & _ & S4 & S5 & S6 & _). unfold gn. rewrite S6, stats_count, <- INR_IZR_INZ.
  f_equal. rewrite <- (Permutation_length S5). now apply slice_length.
Qed.

(** C62 (causal criteria): for any two splits reachable in a node the split with the larger proxy has the
    larger improvement, and conversely. *)
Theorem C62_causal d w N samples start end_ c1 s1 c2 s2 parent :
  d_out d = 1%nat -> d_w d = Some w -> (start < end_ <= length samples)%nat ->
  h_reach d N samples start end_ c1 s1 -> h_reach d N samples start end_ c2 s2 ->
  let improve impr imp c := impr c parent (imp (hleft c)) (imp (hright c)) in
  (hc_proxy honest_impurity c1 <= hc_proxy honest_impurity c2 <->
   improve honest_improvement honest_impurity c1 <= improve honest_improvement honest_impurity c2) /\
  (hc_proxy cmse_impurity c1 <= hc_proxy cmse_impurity c2 <->
   improve cmse_improvement cmse_impurity c1 <= improve cmse_improvement cmse_impurity c2).
Proof.
  intros H1 H2 H3 R1 R2. cbv zeta.
  assert (H3' : (start <= end_ <= length samples)%nat) by lia.
  pose proof (h_reach_ok H1 H2 H3' R1) as C1. pose proof (h_reach_ok H1 H2 H3' R2) as C2.
  pose proof (gn_node C1) as G1. pose proof (gn_node C2) as G2.
  assert (P : 0 < INR (end_ - start)) by (apply lt_0_INR; lia). pose proof eps_pos as Pe.
  unfold hc_proxy, honest_improvement, cmse_improvement. rewrite G1, G2.
  set (n := INR (end_ - start)) in *. clearbody n.
  generalize (honest_impurity (hleft c1)) (honest_impurity (hright c1)) (honest_impurity (hleft c2)) (honest_impurity (hright c2)).
  generalize (cmse_impurity (hleft c1)) (cmse_impurity (hright c1)) (cmse_impurity (hleft c2)) (cmse_impurity (hright c2)).
  generalize (gn (hleft c1)) (gn (hright c1)) (gn (hleft c2)) (gn (hright c2)).
  clear - P Pe. intros l1 r1 l2 r2 a1 b1 a2 b2 e1 f1 e2 f2. split.
  - rewrite (le_scale (k := n + eps) (x := (- r1 * f1 - l1 * e1) / (n + eps)) (y := (- r2 * f2 - l2 * e2) / (n + eps)))
      by (reflexivity || lra).
    replace ((- r1 * f1 - l1 * e1) / (n + eps)) with (- (r1 / (n + eps) * f1) - l1 / (n + eps) * e1) by (field; lra).
    replace ((- r2 * f2 - l2 * e2) / (n + eps)) with (- (r2 / (n + eps) * f2) - l2 / (n + eps) * e2) by (field; lra).
    split; lra.
  - rewrite (le_scale (k := n) (x := (- r1 * b1 - l1 * a1) / n) (y := (- r2 * b2 - l2 * a2) / n))
      by (reflexivity || lra).
    replace ((- r1 * b1 - l1 * a1) / n) with (- (r1 / n * b1) - l1 / n * a1) by (field; lra).
    replace ((- r2 * b2 - l2 * a2) / n) with (- (r2 / n * b2) - l2 / n * a2) by (field; lra).
    split; lra.
Qed.

Lemma w_sum_pos d l : (forall i, In i l -> 0 < wt d i) -> l <> [] -> 0 < w_sum d l.
Proof.
  intros H Hl. destruct l as [|i l]; [congruence|]. unfold w_sum. rsum.
  assert (G : forall m, (forall i, In i m -> 0 < wt d i) -> 0 <= Rsum (map (wt d) m)).
  { intros m. induction m as [|j m IH]; intros Hm; rsum; [lra|].
    assert (0 < wt d j) by (apply Hm; now left). assert (0 <= Rsum (map (wt d) m)) by (apply IH; intros; apply Hm; now right). lra. }
  assert (0 < wt d i) by (apply H; now left). assert (0 <= Rsum (map (wt d) l)) by (apply G; intros; apply H; now right). lra.
Qed.

(** facts about a proper split of a node with positive weights *)
Lemma r_split_facts d start end_ node c s :
  rc_consistent d start end_ node c s -> (forall i, In i node -> 0 < wt d i) -> (start < rpos c < end_)%nat ->
  0 < rwl c /\ 0 < rwr c /\ rwn c = rwl c + rwr c /\ rsq c = wy2_sum d node /\ rwn c = w_sum d node /\
  mse_sq_left d c s = wy2_sum d (slice s start (rpos c)).
Proof.
  intros (S1 & S2 & S3 & S4 & S5 & S6 & S7 & S8 & S9 & S10 & S11 & S12) W Hp.
  assert (I1 : forall i, In i (slice s start (rpos c)) -> 0 < wt d i).
  { intros i Hi. apply W. apply (Permutation_in _ S5). rewrite (@slice_app _ s start (rpos c) end_) by lia.
    apply in_or_app. now left. }
  assert (I2 : forall i, In i (slice s (rpos c) end_) -> 0 < wt d i).
  { intros i Hi. apply W. apply (Permutation_in _ S5). rewrite (@slice_app _ s start (rpos c) end_) by lia.
    apply in_or_app. now right. }
  split; [rewrite S11; apply w_sum_pos; auto; intros E; apply (f_equal (@length nat)) in E; rewrite slice_length in E; cbn in E; lia|].
  split; [rewrite S12; apply w_sum_pos; auto; intros E; apply (f_equal (@length nat)) in E; rewrite slice_length in E; cbn in E; lia|].
  split; [rewrite S7, S11, S12, <- w_sum_app, <- slice_app by lia; symmetry; now apply w_sum_perm|].
  split; [auto|]. split; [auto|].
  unfold mse_sq_left. rewrite rc_sq_fold, S1, at_range_slice by lia. lra.
Qed.

Lemma ksum_Rsum n f : ksum n f = Rsum (map f (seq 0 n)).
Proof. unfold ksum. rewrite fold_Rsum. lra. Qed.
Lemma Rsum_scale {A} (f : A -> R) k l : Rsum (map (fun i => k * f i) l) = k * Rsum (map f l).
Proof. induction l as [|x l IH]; rsum; [lra|]. rewrite IH. lra. Qed.

Lemma mse_child q s w n : w <> 0 ->
  w * fold_left (fun a k => a - (s k / w) ^ 2) (seq 0 n) (q / w) = q - ksum n (fun k => s k * s k) / w.
Proof.
  intros Hw. rewrite (fold_Rsub (fun k => (s k / w) ^ 2)), ksum_Rsum.
  replace (map (fun k => (s k / w) ^ 2) (seq 0 n)) with (map (fun k => / (w * w) * (s k * s k)) (seq 0 n)).
  - rewrite (Rsum_scale (fun k => s k * s k)). field. auto.
  - apply map_ext. intros k. field. auto.
Qed.

(** the improvement of the split [c] of a node, as a function of the proxy *)
Lemma mse_improvement_eq d start end_ node c s parent :
  rc_consistent d start end_ node c s -> (forall i, In i node -> 0 < wt d i) -> (start < rpos c < end_)%nat ->
  rN c <> 0 ->
  std_improvement c parent (fst (mse_children d c s)) (snd (mse_children d c s)) =
  w_sum d node / rN c * parent - wy2_sum d node / rN c + mse_proxy d c / rN c.
Proof.
  intros C W Hp HN. destruct (r_split_facts C W Hp) as (P1 & P2 & P3 & P4 & P5 & P6).
  unfold std_improvement.
  assert (E : rwl c * fst (mse_children d c s) + rwr c * snd (mse_children d c s) = wy2_sum d node - mse_proxy d c).
  { unfold mse_children, mse_proxy. cbn [fst snd].
    pose proof (mse_child (mse_sq_left d c s) (rleft c) (d_out d) (Rgt_not_eq _ _ P1)) as F1.
    pose proof (mse_child (rsq c - mse_sq_left d c s) (rright c) (d_out d) (Rgt_not_eq _ _ P2)) as F2.
    rewrite F1, F2, P4. lra. }
  rewrite <- P5. transitivity (rwn c / rN c * parent - (rwl c * fst (mse_children d c s) + rwr c * snd (mse_children d c s)) / rN c).
  - field. split; [auto|lra].
  - rewrite E. field. auto.
Qed.

Lemma preg_improvement_eq d start end_ node c s parent :
  rc_consistent d start end_ node c s -> (forall i, In i node -> 0 < wt d i) -> (start < rpos c < end_)%nat ->
  rN c <> 0 ->
  std_improvement c parent (fst (preg_children d c)) (snd (preg_children d c)) =
  w_sum d node / rN c * (parent - alpha) + preg_proxy d c / rN c.
Proof.
  intros C W Hp HN. destruct (r_split_facts C W Hp) as (P1 & P2 & P3 & P4 & P5 & P6).
  unfold std_improvement, preg_children, preg_proxy. cbn [fst snd]. rewrite <- P5, P3. field. lra.
Qed.

Lemma rN_run d ops : forall c s, rN (fst (rc_run d (c, s) ops)) = rN c.
Proof.
  induction ops as [|o ops IH]; intros c s; [reflexivity|].
  unfold rc_run in *. destruct o; cbn [fold_left rc_step fst snd]; rewrite IH; try reflexivity.
  unfold rc_update. destruct (if near _ _ _ then _ else _). reflexivity.
Qed.

(** C62 (MSE and the default policy criterion): for any two proper splits of a node with positive weights. *)
Theorem C62_mse d N samples start end_ c1 s1 c2 s2 parent :
  (start < end_ <= length samples)%nat -> 0 < N ->
  (forall i, In i (slice samples start end_) -> 0 < wt d i) ->
  r_reach d N samples start end_ c1 s1 -> r_reach d N samples start end_ c2 s2 ->
  (start < rpos c1 < end_)%nat -> (start < rpos c2 < end_)%nat ->
  let improve c s := std_improvement c parent (fst (mse_children d c s)) (snd (mse_children d c s)) in
  (mse_proxy d c1 <= mse_proxy d c2 <-> improve c1 s1 <= improve c2 s2).
Proof.
  intros H3 HN W R1 R2 Q1 Q2. cbv zeta.
  assert (H3' : (start <= end_ <= length samples)%nat) by lia.
  assert (N1 : rN c1 = N /\ rN c2 = N).
  { destruct R1 as (o1 & _ & E1), R2 as (o2 & _ & E2). split.
    - change c1 with (fst (c1, s1)). now rewrite <- E1, rN_run.
    - change c2 with (fst (c2, s2)). now rewrite <- E2, rN_run. }
  destruct N1 as [N1 N2].
  rewrite (mse_improvement_eq parent (r_reach_ok H3' R1) W Q1) by lra.
  rewrite (mse_improvement_eq parent (r_reach_ok H3' R2) W Q2) by lra.
  rewrite N1, N2. rewrite (@le_scale (mse_proxy d c1) (mse_proxy d c2) N _ _ HN eq_refl eq_refl). split; lra.
Qed.

Theorem C62_policy d N samples start end_ c1 s1 c2 s2 parent :
  (start < end_ <= length samples)%nat -> 0 < N ->
  (forall i, In i (slice samples start end_) -> 0 < wt d i) ->
  r_reach d N samples start end_ c1 s1 -> r_reach d N samples start end_ c2 s2 ->
  (start < rpos c1 < end_)%nat -> (start < rpos c2 < end_)%nat ->
  let improve c := std_improvement c parent (fst (preg_children d c)) (snd (preg_children d c)) in
  (preg_proxy d c1 <= preg_proxy d c2 <-> improve c1 <= improve c2).
Proof.
  intros H3 HN W R1 R2 Q1 Q2. cbv zeta.
  assert (H3' : (start <= end_ <= length samples)%nat) by lia.
  assert (N1 : rN c1 = N /\ rN c2 = N).
  { destruct R1 as (o1 & _ & E1), R2 as (o2 & _ & E2). split.
    - change c1 with (fst (c1, s1)). now rewrite <- E1, rN_run.
    - change c2 with (fst (c2, s2)). now rewrite <- E2, rN_run. }
  destruct N1 as [N1 N2].
  rewrite (preg_improvement_eq parent (r_reach_ok H3' R1) W Q1) by lra.
  rewrite (preg_improvement_eq parent (r_reach_ok H3' R2) W Q2) by lra.
  rewrite N1, N2. rewrite (@le_scale (preg_proxy d c1) (preg_proxy d c2) N _ _ HN eq_refl eq_refl). split; lra.
Qed.

(** what kmax computes: the largest of the first n entries *)
Lemma kmax_spec n s : (0 < n)%nat ->
  (forall k, (k < n)%nat -> s k <= kmax n s) /\ exists k, (k < n)%nat /\ kmax n s = s k.
Proof.
  intros Hn. unfold kmax.
  assert (G : forall l x, exists m, fold_left (fun m k => match m with
      | None => Some (s k) | Some x => if Rgt_dec (s k) x then Some (s k) else m end) l (Some x) = Some m /\
      x <= m /\ (forall k, In k l -> s k <= m) /\ (m = x \/ exists k, In k l /\ m = s k)).
  { induction l as [|k l IH]; intros x; cbn [fold_left].
    - exists x. split; [auto|]. split; [lra|]. split; [easy|now left].
    - destruct (Rgt_dec (s k) x) as [H|H].
      + destruct (IH (s k)) as (m & -> & H1 & H2 & H3). exists m. split; [auto|]. split; [lra|]. split.
        * intros j [->|Hj]; auto.
        * right. destruct H3 as [->|(j & Hj & ->)]; [exists k; split; [now left|auto]|exists j; split; [now right|auto]].
      + destruct (IH x) as (m & -> & H1 & H2 & H3). exists m. split; [auto|]. split; [lra|]. split.
        * intros j [->|Hj]; [lra|auto].
        * destruct H3 as [->|(j & Hj & ->)]; [now left|right; exists j; split; [now right|auto]]. }
  destruct n as [|n]; [lia|]. cbn [seq fold_left]. destruct (G (seq 1 n) (s 0%nat)) as (m & -> & H1 & H2 & H3). split.
  - intros k Hk. destruct k as [|k]; [auto|]. apply H2. apply in_seq. lia.
  - destruct H3 as [->|(k & Hk & ->)]; [exists 0%nat; split; [lia|auto]|]. apply in_seq in Hk. exists k. split; [lia|auto].
Qed.

Lemma kmax_ext n s t : (forall k, s k = t k) -> kmax n s = kmax n t.
Proof.
  intros E. unfold kmax.
  assert (G : forall l m, fold_left (fun m k => match m with
      | None => Some (s k) | Some x => if Rgt_dec (s k) x then Some (s k) else m end) l m =
      fold_left (fun m k => match m with
      | None => Some (t k) | Some x => if Rgt_dec (t k) x then Some (t k) else m end) l m).
  { induction l as [|k l IH]; intros m; cbn [fold_left]; [auto|]. rewrite IH, E. reflexivity. }
  now rewrite G.
Qed.

(** PRegCriteria1 (criterion="policy_test1") does not rank splits like its own improvement: the split with the
    larger proxy has the smaller improvement. *)
Theorem C62_policy_test1_refuted :
  let d := mkData 2 (fun k => nth k [10; 0; 1; 0; 0; 4; 0; 4] 0) None in
  let c0 := rc_init d 4 [0; 1; 2; 3]%nat 0 4 in
  let c1 := rc_update d c0 [0; 1; 2; 3]%nat 1 in
  let c2 := rc_update d c1 [0; 1; 2; 3]%nat 2 in
  let improve c := std_improvement c (preg_impurity d c0) (fst (preg_children d c)) (snd (preg_children d c)) in
  preg1_proxy d c2 < preg1_proxy d c1 /\ improve c1 < improve c2.
Proof.
  cbv zeta. set (d := mkData _ _ _).
  set (c0 := rc_init _ _ _ _ _). set (c1 := rc_update d c0 _ _). set (c2 := rc_update d c1 _ _).
  assert (C0 : rc_consistent d 0 4 (slice [0; 1; 2; 3]%nat 0 4) c0 [0; 1; 2; 3]%nat) by (apply rc_init_ok; cbn; lia).
  assert (P0 : rpos c0 = 0%nat) by reflexivity.
  destruct (@rc_update_ok d 0 4 _ c0 _ 1 C0 ltac:(lia)) as [C1 P1]. fold c1 in C1, P1.
  destruct (@rc_update_ok d 0 4 _ c1 _ 2 C1 ltac:(lia)) as [C2 P2]. fold c2 in C2, P2.
  assert (W : forall i, In i (slice [0; 1; 2; 3]%nat 0 4) -> 0 < wt d i) by (intros; cbn; lra).
  rewrite (preg_improvement_eq (preg_impurity d c0) C1 W) by (rewrite ?P1; cbn; try lia; lra).
  rewrite (preg_improvement_eq (preg_impurity d c0) C2 W) by (rewrite ?P2; cbn; try lia; lra).
  destruct C1 as (_ & _ & _ & _ & _ & _ & _ & _ & L1 & R1 & WL1 & WR1).
  destruct C2 as (_ & _ & _ & _ & _ & _ & _ & _ & L2 & R2 & WL2 & WR2).
  rewrite P1 in *. rewrite P2 in *.
  assert (K : forall s, kmax (d_out d) s = Rmax (s 0%nat) (s 1%nat)).
  { intros s. unfold kmax, Rmax. cbn. destruct (Rgt_dec (s 1%nat) (s 0%nat)), (Rle_dec (s 0%nat) (s 1%nat)); cbn; lra. }
  assert (S1 : kmax (d_out d) (rleft c1) = 10).
  { rewrite K, !L1. unfold wy_sum, slice, wt, y_at. cbn. rewrite Rmax_left; lra. }
  assert (S2 : kmax (d_out d) (rright c1) = 8).
  { rewrite K, !R1. unfold wy_sum, slice, wt, y_at. cbn. rewrite Rmax_right; lra. }
  assert (S3 : kmax (d_out d) (rleft c2) = 11).
  { rewrite K, !L2. unfold wy_sum, slice, wt, y_at. cbn. rewrite Rmax_left; lra. }
  assert (S4 : kmax (d_out d) (rright c2) = 8).
  { rewrite K, !R2. unfold wy_sum, slice, wt, y_at. cbn. rewrite Rmax_right; lra. }
  assert (N1 : rN c1 = 4) by reflexivity. assert (N2 : rN c2 = 4) by reflexivity.
  assert (V1 : rwl c1 = 1) by (rewrite WL1; unfold w_sum, slice, wt; cbn; lra).
  assert (V2 : rwr c1 = 3) by (rewrite WR1; unfold w_sum, slice, wt; cbn; lra).
  assert (V3 : rwl c2 = 2) by (rewrite WL2; unfold w_sum, slice, wt; cbn; lra).
  assert (V4 : rwr c2 = 2) by (rewrite WR2; unfold w_sum, slice, wt; cbn; lra).
  unfold preg1_proxy, preg_proxy. rewrite S1, S2, S3, S4, V1, V2, V3, V4, N1, N2. split; lra.
Qed.

(* ------------------------------------------------------------------------------------------------ *)
(** ** C88: the impurity handed to a child is the impurity of the child *)

(** For the causal criteria: the impurities computed for the children of a split are those the criterion
    computes when it is initialised on samples[start:pos] and samples[pos:end]. *)
Theorem C88_causal_children d w N samples start end_ c s :
  d_out d = 1%nat -> d_w d = Some w -> (start <= end_ <= length samples)%nat ->
  h_reach d N samples start end_ c s ->
  hleft c = htot (hc_init d N s start (hpos c)) /\ hright c = htot (hc_init d N s (hpos c) end_).
Proof.
  intros H1 H2 H3 R. destruct (h_reach_ok H1 H2 H3 R) as (S1 & S2 & S3 & S4 & S5 & S6 & S7 & S8).
  assert (A1 : (start <= hpos c <= length s)%nat) by lia. assert (A2 : (hpos c <= end_ <= length s)%nat) by lia.
  destruct (hc_init_ok d N s A1) as (_ & _ & _ & _ & _ & T1 & _).
  destruct (hc_init_ok d N s A2) as (_ & _ & _ & _ & _ & T2 & _).
  now rewrite T1, T2.
Qed.

Theorem C88_policy_children d N samples start end_ c s :
  (start <= end_ <= length samples)%nat -> r_reach d N samples start end_ c s ->
  preg_children d c =
  (preg_impurity d (rc_init d N s start (rpos c)), preg_impurity d (rc_init d N s (rpos c) end_)).
Proof.
  intros H3 R. destruct (r_reach_ok H3 R) as (S1 & S2 & S3 & S4 & S5 & S6 & S7 & S8 & S9 & S10 & S11 & S12).
  assert (A1 : (start <= rpos c <= length s)%nat) by lia. assert (A2 : (rpos c <= end_ <= length s)%nat) by lia.
  destruct (rc_init_ok d N s A1) as (_ & _ & _ & _ & _ & T1 & U1 & _).
  destruct (rc_init_ok d N s A2) as (_ & _ & _ & _ & _ & T2 & U2 & _).
  unfold preg_children, preg_impurity. rewrite U1, U2, <- S11, <- S12. f_equal; do 2 f_equal; apply kmax_ext; intros k.
  - now rewrite S9, T1.
  - now rewrite S10, T2.
Qed.

(** For MSE (criterion="policy_test") the impurity handed to a child is n_outputs times its impurity as a node:
    right for one output, wrong for two or more. *)
Theorem C88_mse_children d N samples start end_ c s :
  (start <= end_ <= length samples)%nat -> (0 < d_out d)%nat -> r_reach d N samples start end_ c s ->
  mse_children d c s =
  (INR (d_out d) * mse_impurity d (rc_init d N s start (rpos c)),
   INR (d_out d) * mse_impurity d (rc_init d N s (rpos c) end_)).
Proof.
  intros H3 Hd R. destruct (r_reach_ok H3 R) as (S1 & S2 & S3 & S4 & S5 & S6 & S7 & S8 & S9 & S10 & S11 & S12).
  assert (A1 : (start <= rpos c <= length s)%nat) by lia. assert (A2 : (rpos c <= end_ <= length s)%nat) by lia.
  destruct (rc_init_ok d N s A1) as (_ & _ & _ & _ & _ & T1 & U1 & V1 & _).
  destruct (rc_init_ok d N s A2) as (_ & _ & _ & _ & _ & T2 & U2 & V2 & _).
  assert (D : INR (d_out d) <> 0) by (apply not_0_INR; lia).
  assert (Q : mse_sq_left d c s = wy2_sum d (slice s start (rpos c))).
  { unfold mse_sq_left. rewrite rc_sq_fold, S1, at_range_slice by lia. lra. }
  assert (Q2 : rsq c - wy2_sum d (slice s start (rpos c)) = wy2_sum d (slice s (rpos c) end_)).
  { rewrite S8, <- (wy2_sum_perm d S5), (@slice_app _ s start (rpos c) end_), wy2_sum_app by lia. lra. }
  assert (X : forall k x, x = INR k * (x / INR k) \/ INR k = 0).
  { intros k x. destruct (Req_dec (INR k) 0); [now right|left; field; auto]. }
  unfold mse_children, mse_impurity. rewrite Q, Q2, U1, U2, V1, V2, <- S11, <- S12.
  f_equal.
  - rewrite !(fold_Rsub (fun k => (rtot _ k / rwl c) ^ 2)), (fold_Rsub (fun k => (rleft c k / rwl c) ^ 2)).
    rewrite (map_ext (fun k => (rleft c k / rwl c) ^ 2) (fun k => (rtot (rc_init d N s start (rpos c)) k / rwl c) ^ 2)).
    + match goal with |- ?x = _ => generalize x end. intros x. field. auto.
    + intros k. now rewrite S9, T1.
  - rewrite !(fold_Rsub (fun k => (rtot _ k / rwr c) ^ 2)), (fold_Rsub (fun k => (rright c k / rwr c) ^ 2)).
    rewrite (map_ext (fun k => (rright c k / rwr c) ^ 2) (fun k => (rtot (rc_init d N s (rpos c) end_) k / rwr c) ^ 2)).
    + match goal with |- ?x = _ => generalize x end. intros x. field. auto.
    + intros k. now rewrite S10, T2.
Qed.

Theorem C88_mse_refuted :
  let d := mkData 2 (fun k => nth k [0; 0; 2; 0; 5; 5] 0) None in
  let s := [0; 1; 2]%nat in
  let c := rc_update d (rc_init d 3 s 0 3) s 2 in
  fst (mse_children d c s) = 1 /\ mse_impurity d (rc_init d 3 s 0 2) = 1 / 2.
Proof.
  cbv zeta. set (d := mkData _ _ _). set (c := rc_update _ _ _ _).
  assert (E : mse_impurity d (rc_init d 3 [0; 1; 2]%nat 0 2) = 1 / 2).
  { unfold mse_impurity, rc_init, rc_reset, at_range, wt, y_at. cbn. field. }
  split; [|exact E].
  rewrite (@C88_mse_children d 3 [0; 1; 2]%nat 0 3 c [0; 1; 2]%nat).
  - cbn [fst]. change (rpos c) with 2%nat. rewrite E. cbn. lra.
  - cbn. lia.
  - cbn. lia.
  - exists [CUpdate 2]. split; [cbn; lia|reflexivity].
Qed.

(** C88: in particular the honest impurity of the children *)
Example C88_case :
  let d := mkData 1 (fun k => INR k) (Some (fun i => if Nat.even i then 1 else 0)) in
  exists c, h_reach d 4 [0; 1; 2; 3]%nat 0 4 c [2; 0; 3; 1]%nat /\ hpos c = 3%nat.
Proof.
  cbv zeta. eexists. split; [exists [CReset [2; 0; 3; 1]%nat; CUpdate 3]; split|].
  - cbn. split; [split; [lia|]|split; [lia|exact I]].
    unfold slice. cbn. apply (Permutation_trans (l' := [0; 2; 3; 1]%nat)); [constructor|].
    constructor. apply Permutation_sym. apply (Permutation_middle [2; 3]%nat []%nat 1%nat).
  - reflexivity.
  - reflexivity.
Qed.

Print Assumptions C61_causal_stats.
Print Assumptions C61_regression_stats.
Print Assumptions C62_causal.
Print Assumptions C62_mse.
Print Assumptions C62_policy.
Print Assumptions C62_policy_test1_refuted.
Print Assumptions C88_mse_children.
