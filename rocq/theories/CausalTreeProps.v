(** Theorems about CausalTree: C92, C93, C95. *)
From Coq Require Import ZArith Reals Lra FunctionalExtensionality.
From Verif Require Import Base TreeCritModel TreeCritProps SplitterModel SplitterSpec TreeSpec CausalTreeModel CritOk SplitterProofs TreeShape TreeProps.
Set Implicit Arguments.
Local Notation length := List.length.
Open Scope R_scope.

(** the mean of a function over a list of samples; the difference of the means of the treated and the others *)
Definition avg (y : nat -> R) (l : list nat) : R := Rsum (map y l) / INR (length l).

(* ------------------------------------------------------------------------------------------------ *)
(** ** C92: what a causal tree estimates *)

Section Data.
Variables (y : nat -> R) (x : nat -> list Z) (treat : list Z) (sel : list nat).
Notation d := (ct_data y x treat sel).
Notation treated k := (zeqb treat (x (nth k sel 0%nat))).

Lemma ct_wt k : wt d k = if treated k then 1 else 0.
Proof. reflexivity. Qed.
Lemma ct_y k : y_at d k 0 = y (nth k sel 0%nat).
Proof. unfold y_at, ct_data. cbn [d_out d_y]. now rewrite Nat.mul_1_r, Nat.add_0_r. Qed.
Lemma ct_treatedb k : treatedb d k = treated k.
Proof. unfold treatedb. rewrite ct_wt. destruct (treated k); destruct (Rgt_dec _ _); auto; lra. Qed.
Lemma ct_kept n : kept_samples d n = filter (fun k => treated k) (seq 0 n).
Proof.
  unfold kept_samples, ct_data. cbn [d_w]. apply filter_ext. intros k. destruct (treated k); destruct (Req_EM_T _ _); auto; lra.
Qed.
(** on kept samples the statistics are those of the treated; there are no controls *)
Lemma ct_stats l : (forall k, In k l -> treated k = true) ->
  stats_of d l = mkG (Rsum (map (fun k => y (nth k sel 0%nat)) l)) 0
                     (Rsum (map (fun k => y (nth k sel 0%nat) * y (nth k sel 0%nat)) l)) 0 (Z.of_nat (length l)) 0.
Proof.
  intros H. unfold stats_of. rewrite (filter_all (treatedb d)) by (intros k Hk; rewrite ct_treatedb; auto).
  rewrite (filter_none (fun i => negb (treatedb d i))) by (intros k Hk; rewrite ct_treatedb, H; auto).
  cbn [map length]. rewrite !Rsum_nil. f_equal; try (f_equal; apply map_ext; intros k; now rewrite ct_y).
Qed.
Lemma ct_ranking N : ranking d N (honest_crit d) (causal_spec honest_impurity eps d).
Proof. eapply rk_honest; reflexivity. Qed.
Lemma ct_value l : (forall k, In k l -> treated k = true) ->
  cs_value (causal_spec honest_impurity eps d) l = Rsum (map (fun k => y (nth k sel 0%nat)) l) / (INR (length l) + eps).
Proof.
  intros H. unfold causal_spec. cbn [cs_value]. rewrite ct_stats by auto. unfold nte, n0e. cbn [yt y0 nt n0].
  rewrite <- INR_IZR_INZ. rewrite Rplus_0_l. unfold Rdiv. rewrite Rmult_0_l. lra.
Qed.
End Data.

(** Without an honest part, the estimate for any row is the sum of the outcomes of the TREATED training rows in
    its leaf over their number plus 1e-5; control outcomes are never used. *)
Theorem C92_estimate_refuted e g wv y x treat control n nf b :
  sane e -> (1 <= g_min_samples_leaf g)%nat ->
  (exists i, (i < n)%nat /\ x i = treat) ->
  ct_fit e g wv y x treat control n nf None = Ok b ->
  forall r, exists j nd, tree_apply (b_nodes b) r = Ok j /\ nth_error (b_nodes b) j = Some nd /\ nd_left nd = Leaf /\
    let sel := ct_rows x treat control n in
    let tr := filter (fun k => match tree_apply (b_nodes b) (wv (nth k sel 0%nat)) with Ok q => Nat.eqb q j | Err _ => false end)
                     (filter (fun k => zeqb treat (x (nth k sel 0%nat))) (seq 0 (length sel))) in
    tr <> [] /\
    tree_predict 0 b r = Ok (Rsum (map (fun k => y (nth k sel 0%nat)) tr) / (INR (length tr) + / 100000)).
Proof.
  intros He Hm (i0 & Hi0 & Ei0) E r. unfold ct_fit in E. set (sel := ct_rows x treat control n) in *.
  set (d := ct_data y x treat sel) in *.
  assert (Hk : kept_samples d (length sel) <> []).
  { rewrite (ct_kept y x treat sel). intros Hn.
    assert (Hin : In i0 sel).
    { apply filter_In. split; [apply in_seq; lia|]. rewrite Ei0. unfold zeqb. destruct (list_eq_dec _ treat treat); [reflexivity|congruence]. }
    apply (In_nth _ _ 0%nat) in Hin. destruct Hin as (k & Hk & Ek).
    assert (In k (filter (fun k => zeqb treat (x (nth k sel 0%nat))) (seq 0 (length sel)))).
    { apply filter_In. split; [apply in_seq; lia|]. rewrite Ek, Ei0. unfold zeqb. destruct (list_eq_dec _ treat treat); [reflexivity|congruence]. }
    rewrite Hn in H. destruct H. }
  pose proof (ct_ranking y x treat sel (weighted_n d (length sel))) as Rk. fold d in Rk.
  destruct (@C91_predict _ _ (honest_crit d) (causal_spec honest_impurity eps d) e g (ct_X wv sel) d (length sel) nf b 0
              (co_ranking Rk) He Hm Hk E r) as (j & nd & A1 & A2 & A3 & A4).
  exists j, nd. split; [auto|]. split; [auto|]. split; [auto|]. cbv zeta in *.
  unfold samples_at, ct_X in A4. rewrite (ct_kept y x treat sel) in A4.
  destruct A4 as (B1 & _ & _ & B4 & _). split; [exact B4|]. rewrite B1. f_equal. unfold d. rewrite ct_value.
  - unfold eps. replace (1 / 100000) with (/ 100000) by lra. reflexivity.
  - intros k Hin. apply filter_In in Hin. destruct Hin as [Hin _]. apply filter_In in Hin. tauto.
Qed.
Print Assumptions C92_estimate_refuted.

(** In particular: when all outcomes are the same number c > 0, so that the treatment has no effect at all, every
    estimate is positive: c * k / (k + 1e-5) for a number k >= 1 of treated rows. *)
Theorem C92_no_effect_refuted e g wv y x treat control n nf b c :
  sane e -> (1 <= g_min_samples_leaf g)%nat -> (exists i, (i < n)%nat /\ x i = treat) ->
  (forall i, y i = c) -> 0 < c ->
  ct_fit e g wv y x treat control n nf None = Ok b ->
  forall r, exists k v, (1 <= k)%nat /\ tree_predict 0 b r = Ok v /\ v = c * INR k / (INR k + / 100000) /\ c / 2 < v.
Proof.
  intros He Hm Ht Hy Hc E r. destruct (@C92_estimate_refuted e g wv y x treat control n nf b He Hm Ht E r) as (j & nd & _ & _ & _ & A1 & A2). cbv zeta in *.
  match type of A1 with ?l <> [] => set (tr := l) in * end.
  exists (length tr), (c * INR (length tr) / (INR (length tr) + / 100000)).
  assert (L : (1 <= length tr)%nat) by (destruct tr; [congruence|cbn; lia]).
  split; [auto|]. split.
  - rewrite A2. do 2 f_equal. clear - Hy. induction tr as [|k tr IH]; [cbn; lra|].
    cbn [map length]. rewrite Rsum_cons, IH, Hy, S_INR. lra.
  - split; [reflexivity|]. apply le_INR in L. change (INR 1) with 1 in L.
    set (k := INR (length tr)) in *. apply (Rmult_lt_reg_r (k + / 100000)); [lra|].
    unfold Rdiv. rewrite (Rmult_assoc (c * k)), Rinv_l by lra. nra.
Qed.
Print Assumptions C92_no_effect_refuted.

Lemma mean_avg (y : nat -> R) l : mean (map y l) = avg y l.
Proof. unfold mean, avg. now rewrite fold_plus_Rsum, map_length. Qed.

Lemma lset_nth {A} (l : list A) i j v dflt : nth i (lset l j v) dflt = if (Nat.eqb i j && (j <? length l)%nat)%bool then v else nth i l dflt.
Proof.
  revert i j. induction l as [|a l IH]; intros i j.
  - cbn [lset length]. replace (j <? 0)%nat with false by (symmetry; apply Nat.ltb_ge; lia). now rewrite andb_false_r.
  - destruct j as [|j], i as [|i]; cbn [lset nth length]; auto. rewrite IH. reflexivity.
Qed.

(** the value written to leaf j *)
Definition leaf_value (y : nat -> R) (x : nat -> bool) (sub : list nat) (old : R) : R :=
  let tr := filter x sub in
  let ct := filter (fun i => negb (x i)) sub in
  match tr, ct with
  | [], _ => old
  | _, [] => old
  | _, _ => avg y tr - avg y ct
  end.

Lemma honest_values_nth nodes values wv y x test j : (j < length values)%nat ->
  nth j (honest_values nodes values wv y x test) 0 =
  leaf_value y x (filter (fun i => Nat.eqb (leaf_of nodes (wv i)) j) test) (nth j values 0).
Proof.
  intros Hj. unfold honest_values.
  set (step := fun (vals : list R) (j : nat) => _).
  assert (ST : forall vals k, (j < length vals)%nat -> length (step vals k) = length vals /\
     nth j (step vals k) 0 = if Nat.eqb j k then leaf_value y x (filter (fun i => Nat.eqb (leaf_of nodes (wv i)) j) test) (nth j vals 0) else nth j vals 0).
  { intros vals k Hv. unfold step, leaf_value. cbv zeta. destruct (Nat.eqb_spec j k) as [<-|Hn].
    - destruct (filter x (filter (fun i => Nat.eqb (leaf_of nodes (wv i)) j) test)) as [|a tr] eqn:E1; cbn [map]; [auto|].
      destruct (filter (fun i => negb (x i)) (filter (fun i => Nat.eqb (leaf_of nodes (wv i)) j) test)) as [|c ct] eqn:E2; cbn [map]; [auto|].
      split; [apply lset_length|]. rewrite lset_nth, Nat.eqb_refl. apply Nat.ltb_lt in Hv. rewrite Hv. cbn [andb].
      change (y a :: map y tr) with (map y (a :: tr)). change (y c :: map y ct) with (map y (c :: ct)). now rewrite !mean_avg.
    - destruct (map y (filter x (filter (fun i => Nat.eqb (leaf_of nodes (wv i)) k) test))) as [|a tr]; [auto|].
      destruct (map y (filter (fun i => negb (x i)) (filter (fun i => Nat.eqb (leaf_of nodes (wv i)) k) test))) as [|c ct]; [auto|].
      split; [apply lset_length|]. rewrite lset_nth. apply Nat.eqb_neq in Hn. now rewrite Hn. }
  assert (G : forall ls vals, NoDup ls -> (j < length vals)%nat ->
     nth j (fold_left step ls vals) 0 = if existsb (Nat.eqb j) ls then leaf_value y x (filter (fun i => Nat.eqb (leaf_of nodes (wv i)) j) test) (nth j vals 0) else nth j vals 0).
  { induction ls as [|k ls IH]; intros vals ND Hv; [reflexivity|]. inversion ND; subst. cbn [fold_left existsb].
    destruct (ST vals k Hv) as [S1 S2]. rewrite IH by (auto; lia). rewrite S2.
    destruct (Nat.eqb_spec j k) as [<-|Hn]; cbn [orb]; [|reflexivity].
    destruct (existsb (Nat.eqb j) ls) eqn:Ee; [apply existsb_nat in Ee; contradiction|]. reflexivity. }
  rewrite G by (auto; apply NoDup_nodup).
  destruct (existsb (Nat.eqb j) (nodup Nat.eq_dec (map (fun i => leaf_of nodes (wv i)) test))) eqn:Ee; [reflexivity|].
  (* no test sample reaches j *)
  rewrite filter_none; [reflexivity|]. intros i Hi. destruct (Nat.eqb_spec (leaf_of nodes (wv i)) j) as [<-|]; [|reflexivity].
  exfalso. assert (In (leaf_of nodes (wv i)) (nodup Nat.eq_dec (map (fun i => leaf_of nodes (wv i)) test))) by (apply nodup_In, (in_map (fun i => leaf_of nodes (wv i))); auto).
  apply existsb_nat in H. congruence.
Qed.

(** With an honest part: a leaf reached by treated and control test rows gets the difference of their mean
    outcomes; any other leaf keeps the value of the training rows (which C92_estimate_refuted describes). *)
Theorem C92_honest_partial e g wv y x treat control n nf train test b :
  sane e -> (1 <= g_min_samples_leaf g)%nat ->
  let sel := ct_rows x treat control n in
  let pick ks := map (fun k => nth k sel 0%nat) ks in
  (exists k, In k train /\ x (nth k sel 0%nat) = treat) ->
  ct_fit e g wv y x treat control n nf (Some (train, test)) = Ok b ->
  forall r, exists j, tree_apply (b_nodes b) r = Ok j /\
    let there := filter (fun i => match tree_apply (b_nodes b) (wv i) with Ok q => Nat.eqb q j | Err _ => false end) in
    let tr := filter (fun i => zeqb treat (x i)) (there (pick test)) in
    let ct := filter (fun i => negb (zeqb treat (x i))) (there (pick test)) in
    let tr0 := filter (fun i => zeqb treat (x i)) (there (pick train)) in
    (tr <> [] -> ct <> [] -> tree_predict 0 b r = Ok (avg y tr - avg y ct)) /\
    (tr = [] \/ ct = [] -> tree_predict 0 b r = Ok (Rsum (map y tr0) / (INR (length tr0) + / 100000)) /\ tr0 <> []).
Proof.
  intros He Hm sel pick (k0 & Hk0 & Ek0) E r. unfold ct_fit in E. fold sel in E. cbv iota zeta beta in E. change (map (fun k : nat => nth k sel 0%nat) train) with (pick train) in E. change (map (fun k : nat => nth k sel 0%nat) test) with (pick test) in E.
  set (ptr := pick train) in *. set (d := ct_data y x treat ptr) in *.
  assert (Lp : length ptr = length train) by apply map_length.
  destruct (grow (honest_crit d) e g (ct_X wv ptr) d (length train) nf) as [b0|] eqn:Eg; cbn [bind] in E; [|discriminate E].
  injection E as <-. cbn [b_nodes].
  assert (Hk : kept_samples d (length train) <> []).
  { unfold d. rewrite (ct_kept y x treat ptr). intros Hn. apply (In_nth _ _ 0%nat) in Hk0. destruct Hk0 as (q & Hq & Eq).
    assert (Hin : In q (filter (fun k => zeqb treat (x (nth k ptr 0%nat))) (seq 0 (length train)))).
    { apply filter_In. split; [apply in_seq; lia|]. unfold ptr, pick.
      rewrite (nth_indep _ 0%nat (nth 0 sel 0%nat)) by now rewrite map_length.
      rewrite (map_nth (fun k => nth k sel 0%nat)), Eq, Ek0. unfold zeqb. destruct (list_eq_dec _ treat treat); [reflexivity|congruence]. }
    rewrite Hn in Hin. destruct Hin. }
  pose proof (ct_ranking y x treat ptr (weighted_n d (length train))) as Rk. fold d in Rk.
  destruct (@C91_predict _ _ (honest_crit d) (causal_spec honest_impurity eps d) e g (ct_X wv ptr) d (length train) nf b0 0
              (co_ranking Rk) He Hm Hk Eg r) as (j & nd & A1 & A2 & A3 & A4).
  destruct (@C91_builds _ _ (honest_crit d) (causal_spec honest_impurity eps d) e g (ct_X wv ptr) d (length train) nf
              (co_ranking Rk) He Hm Hk) as (b1 & Eb1 & LV & _). assert (b1 = b0) as -> by congruence. clear Eb1.
  exists j. split; [exact A1|]. cbv zeta in A4 |- *. destruct A4 as (B1 & _ & _ & B4 & _).
  assert (Lj : (j < length (b_values b0))%nat) by (rewrite LV; apply nth_error_Some; congruence).
  unfold tree_predict in *. cbn [b_nodes b_values]. rewrite A1 in *. cbn [bind] in *. injection B1 as B1.
  rewrite honest_values_nth by auto. rewrite B1. clear B1.
  assert (TOT : forall i, exists q, tree_apply (b_nodes b0) (wv i) = Ok q).
  { intros i. destruct (@C91_predict _ _ (honest_crit d) (causal_spec honest_impurity eps d) e g (ct_X wv ptr) d (length train) nf b0 0
              (co_ranking Rk) He Hm Hk Eg (wv i)) as (q & _ & Aq & _). eauto. }
  assert (FE : forall l, filter (fun i => Nat.eqb (leaf_of (b_nodes b0) (wv i)) j) l =
                         filter (fun i => match tree_apply (b_nodes b0) (wv i) with Ok q => Nat.eqb q j | Err _ => false end) l).
  { intros l. apply filter_ext. intros i. unfold leaf_of. destruct (TOT i) as (q & ->). reflexivity. }
  rewrite FE. unfold leaf_value. cbv zeta.
  set (there := filter (fun i => match tree_apply (b_nodes b0) (wv i) with Ok q => Nat.eqb q j | Err _ => false end) (pick test)).
  (* the training rows of the leaf *)
  set (s := samples_at (b_nodes b0) (ct_X wv ptr) j (kept_samples d (length train))) in *.
  assert (ES : map (fun k => nth k ptr 0%nat) s = filter (fun i => zeqb treat (x i))
                (filter (fun i => match tree_apply (b_nodes b0) (wv i) with Ok q => Nat.eqb q j | Err _ => false end) ptr)).
  { unfold s, samples_at, d. rewrite (ct_kept y x treat ptr). unfold ct_X. rewrite <- Lp. clear.
    assert (G : forall (f h : nat -> bool) (l : list nat) m, map (fun k => nth (k - m) l 0%nat) (filter (fun k => f (nth (k - m) l 0%nat)) (filter (fun k => h (nth (k - m) l 0%nat)) (seq m (length l)))) = filter h (filter f l)).
    { intros f h. induction l as [|a l IH]; intros m; [reflexivity|]. cbn [length seq filter].
      assert (E0 : nth (m - m) (a :: l) 0%nat = a) by now rewrite Nat.sub_diag.
      assert (EQ : map (fun k => nth (k - m) (a :: l) 0%nat) (filter (fun k => f (nth (k - m) (a :: l) 0%nat)) (filter (fun k => h (nth (k - m) (a :: l) 0%nat)) (seq (S m) (length l)))) = filter h (filter f l)).
      { rewrite <- (IH (S m)). clear IH. 
        assert (SH : forall k, In k (seq (S m) (length l)) -> nth (k - m) (a :: l) 0%nat = nth (k - S m) l 0%nat).
        { intros k Hk. apply in_seq in Hk. replace (k - m)%nat with (S (k - S m)) by lia. reflexivity. }
        rewrite (filter_ext_in (fun k => h (nth (k - m) (a :: l) 0%nat)) (fun k => h (nth (k - S m) l 0%nat))) by (intros k Hk; now rewrite SH).
        set (u := filter (fun k => h (nth (k - S m) l 0%nat)) (seq (S m) (length l))).
        assert (Hu : forall k, In k u -> nth (k - m) (a :: l) 0%nat = nth (k - S m) l 0%nat) by (intros k Hk; apply filter_In in Hk; apply SH; tauto).
        rewrite (filter_ext_in (fun k => f (nth (k - m) (a :: l) 0%nat)) (fun k => f (nth (k - S m) l 0%nat))) by (intros k Hk; now rewrite Hu).
        apply map_ext_in. intros k Hk. apply filter_In in Hk. apply Hu. tauto. }
      rewrite E0. destruct (h a) eqn:Eh; cbn [filter]; rewrite ?E0; destruct (f a) eqn:Ef; cbn [filter map]; rewrite ?E0, ?Eh, EQ; reflexivity. }
    specialize (G (fun i => match tree_apply (b_nodes b0) (wv i) with Ok q => Nat.eqb q j | Err _ => false end) (fun i => zeqb treat (x i)) ptr 0%nat).
    rewrite <- G. 
    rewrite (filter_ext (fun k => zeqb treat (x (nth (k - 0) ptr 0%nat))) (fun k => zeqb treat (x (nth k ptr 0%nat)))) by (intros k; now rewrite Nat.sub_0_r).
    rewrite (filter_ext (fun k => match tree_apply (b_nodes b0) (wv (nth (k - 0) ptr 0%nat)) with Ok q => Nat.eqb q j | Err _ => false end)
                        (fun k => match tree_apply (b_nodes b0) (wv (nth k ptr 0%nat)) with Ok q => Nat.eqb q j | Err _ => false end)) by (intros k; now rewrite Nat.sub_0_r).
    apply map_ext. intros k. now rewrite Nat.sub_0_r. }
  rewrite <- ES.
  assert (VAL : cs_value (causal_spec honest_impurity eps d) s =
                Rsum (map y (map (fun k => nth k ptr 0%nat) s)) / (INR (length (map (fun k => nth k ptr 0%nat) s)) + / 100000)).
  { unfold d. rewrite ct_value.
    - rewrite map_map, map_length. unfold eps. replace (1 / 100000) with (/ 100000) by lra. reflexivity.
    - intros k Hin. apply filter_In in Hin. destruct Hin as [Hin _]. unfold d in Hin. rewrite (ct_kept y x treat ptr) in Hin.
      apply filter_In in Hin. tauto. }
  assert (NE : map (fun k => nth k ptr 0%nat) s <> []) by (destruct s; [congruence|discriminate]).
  split.
  - intros N1 N2. destruct (filter _ there) as [|a tr]; [congruence|]. destruct (filter _ there) as [|c ct]; [congruence|]. reflexivity.
  - intros N1. split; [|exact NE]. rewrite <- VAL. f_equal.
    destruct (filter (fun i => zeqb treat (x i)) there) as [|a tr]; [reflexivity|].
    destruct (filter (fun i => negb (zeqb treat (x i))) there) as [|c ct]; [reflexivity|]. destruct N1; discriminate.
Qed.
Print Assumptions C92_honest_partial.

(* ------------------------------------------------------------------------------------------------ *)
(** ** C93: estimate and honest_subsample_num *)

(** estimate() with no quantity: the effect of every row, in order *)
Theorem C93_cite_partial e g wv y x treat control n nf b rows :
  sane e -> (1 <= g_min_samples_leaf g)%nat -> (exists i, (i < n)%nat /\ x i = treat) ->
  ct_fit e g wv y x treat control n nf None = Ok b ->
  exists l, ct_estimate false b rows = Ok (Some l) /\ ct_effect_nji b rows = Ok (map (fun v => [0; v]) l) /\
    length l = length rows /\
    forall k r, nth_error rows k = Some r -> exists v, nth_error l k = Some v /\ tree_predict 0 b r = Ok v.
Proof.
  intros He Hm Ht E.
  assert (G : forall rows acc, exists l,
    fold_left (fun acc r => do l <- acc ; do v <- tree_predict 0 b r ; Ok (l ++ [v])) rows (Ok acc) = Ok (acc ++ l) /\
    length l = length rows /\ forall k r, nth_error rows k = Some r -> exists v, nth_error l k = Some v /\ tree_predict 0 b r = Ok v).
  { clear rows. induction rows as [|r rows IH]; intros acc.
    - exists []. rewrite app_nil_r. split; [reflexivity|]. split; [reflexivity|]. intros [|k] r; discriminate.
    - destruct (@C92_estimate_refuted e g wv y x treat control n nf b He Hm Ht E r) as (j & nd & _ & _ & _ & _ & Ev).
      cbv zeta in Ev. cbn [fold_left]. rewrite Ev. cbn [bind].
      match type of Ev with _ = Ok ?v => destruct (IH (acc ++ [v])) as (l & E1 & E2 & E3); exists (v :: l) end.
      rewrite E1, <- app_assoc. split; [reflexivity|]. split; [cbn; lia|].
      intros [|k] q Hq; cbn in Hq |- *; [injection Hq as <-; eauto|auto]. }
  destruct (G rows []) as (l & E1 & E2 & E3). exists l. unfold ct_estimate, ct_effect_nji. rewrite E1. cbn [bind app]. auto.
Qed.
Print Assumptions C93_cite_partial.

(** estimate(quantity="ATE") and "CATE" never return a number *)
Theorem C93_ate_refuted b rows v : ct_estimate true b rows <> Ok (Some v).
Proof. unfold ct_estimate. destruct (fold_left _ rows _); cbn [bind]; discriminate. Qed.
Print Assumptions C93_ate_refuted.

(** no integer honest_subsample_num is usable; a real one is iff it lies in [0, 1) *)
Theorem C93_honest_num_refuted :
  (forall k, honest_num (HInt k) = Err AttributeError) /\
  (forall q, 0 <= q < 1 -> honest_num (HReal q) = Ok (Some q)) /\
  (forall q, ~ 0 <= q < 1 -> honest_num (HReal q) = Err ValueError).
Proof.
  split; [reflexivity|]. unfold honest_num. split; intros q Hq; destruct (Rge_dec q 1); destruct (Rlt_dec q 0); try reflexivity; lra.
Qed.
Print Assumptions C93_honest_num_refuted.

(* ------------------------------------------------------------------------------------------------ *)
(** ** C95: min_impurity_decrease in a causal tree *)

(** The improvement the builder compares with min_impurity_decrease: the documented formula has 0 in place of
    eps and a factor n / N in front. *)
Theorem C95_causal_gain d X imp f t s : s <> [] ->
  let l := left_of X f t s in
  let r := right_of X f t s in
  let il := honest_impurity (stats_of d l) in
  let ir := honest_impurity (stats_of d r) in
  gain (causal_spec honest_impurity eps d) X imp f t s =
  cnt s / (cnt s + eps) * (imp - cnt r / cnt s * ir - cnt l / cnt s * il) + eps / (cnt s + eps) * imp.
Proof.
  intros Hs l r il ir. unfold gain. cbn [causal_spec cs_improve cs_children fst snd]. fold l r il ir.
  assert (CN : cnt (l ++ r) = cnt s) by (unfold cnt, l, r; now rewrite (Permutation_length (left_right_perm X f t s))).
  assert (C0 : 0 < cnt s) by (unfold cnt; apply lt_0_INR; destruct s; [congruence|cbn; lia]).
  rewrite CN. pose proof eps_pos. field. lra.
Qed.
Print Assumptions C95_causal_gain.

(** With outcomes that are all 0 no split decreases anything, yet a causal tree with fewer than 100000 treated
    rows splits its root for min_impurity_decrease = 1 (or less) whenever the other parameters allow a split. *)
Theorem C95_causal_refuted e g wv y x treat control n nf b :
  sane e -> (1 <= g_min_samples_leaf g)%nat -> g_min_weight_leaf g = 0 -> (forall i, y i = 0) ->
  g_random g = false -> (nf <= g_max_features g)%nat -> (1 <= g_max_depth g)%nat -> g_min_decrease g <= 1 ->
  let sel := ct_rows x treat control n in
  let s := filter (fun k => zeqb treat (x (nth k sel 0%nat))) (seq 0 (length sel)) in
  (g_min_samples_split g <= length s)%nat -> (2 * g_min_samples_leaf g <= length s)%nat -> (Z.of_nat (length s) < 100000)%Z ->
  (exists f t, (f < nf)%nat /\ (g_min_samples_leaf g <= length (left_of (ct_X wv sel) f t s))%nat /\
               (g_min_samples_leaf g <= length (right_of (ct_X wv sel) f t s))%nat /\
               separated (ct_X wv sel) f t s) ->
  ct_fit e g wv y x treat control n nf None = Ok b ->
  exists root, nth_error (b_nodes b) 0 = Some root /\ nd_left root <> Leaf /\
    forall nd, In nd (b_nodes b) -> nd_imp nd = 10000000000.
Proof.
  intros He Hm Hw Hy Hb Hf Hd Hi sel s Hmss Hs Hs2 (f & t & Hft & Hl & Hr & Sp) E. unfold ct_fit in E. fold sel in E.
  set (d := ct_data y x treat sel) in *.
  assert (Ek : kept_samples d (length sel) = s) by apply (ct_kept y x treat sel).
  assert (Hk : kept_samples d (length sel) <> []) by (rewrite Ek; destruct s; [cbn in Hs; lia|discriminate]).
  pose proof (ct_ranking y x treat sel (weighted_n d (length sel))) as Rk. fold d in Rk.
  set (sp := causal_spec honest_impurity eps d) in *.
  assert (Z0 : forall l, Rsum (map (fun i => y_at d i 0) l) = 0 /\ Rsum (map (fun i => y_at d i 0 * y_at d i 0) l) = 0).
  { induction l as [|i l [IH1 IH2]]; [cbn; lra|]. cbn [map]. rewrite !Rsum_cons, IH1, IH2. unfold d. rewrite ct_y, Hy. lra. }
  assert (IMP : forall l, honest_impurity (stats_of d l) = alpha).
  { intros l. unfold honest_impurity, stats_of. cbn [yt y0 yt2 y02].
    rewrite !(proj1 (Z0 _)), !(proj2 (Z0 _)). unfold Rdiv. rewrite !Rmult_0_l. lra. }
  assert (Wp : forall i, (i < length sel)%nat -> 0 <= wt d i).
  { intros i _. unfold d. rewrite ct_wt. destruct (zeqb _ _); lra. }
  assert (NI : forall j nd, nth_error (b_nodes b) j = Some nd -> nd_imp nd = alpha).
  { intros j nd Hj. destruct (@C91_nodes _ _ (honest_crit d) sp e g (ct_X wv sel) d (length sel) nf b (co_ranking Rk) He Hm Hk E j nd Hj)
      as (_ & _ & _ & _ & Q & _). rewrite Q by reflexivity. apply IMP. }
  destruct (@C91_builds _ _ (honest_crit d) sp e g (ct_X wv sel) d (length sel) nf (co_ranking Rk) He Hm Hk) as (b1 & Eb & _ & Nb & _).
  assert (b1 = b) as -> by congruence. clear Eb.
  destruct (nth_error (b_nodes b) 0) as [root|] eqn:E0; [|apply nth_error_None in E0; lia].
  exists root. split; [reflexivity|]. split.
  - intros Lf. pose proof (@C89_best_splits _ _ (honest_crit d) sp e g (ct_X wv sel) d (length sel) nf b Rk He Hm Hk Wp Hb Hf E 0%nat root E0) as B.
    cbv zeta in B. rewrite Lf in B.
    (* all samples pass the root *)
    assert (PS : passing (b_nodes b) (ct_X wv sel) 0 (kept_samples d (length sel)) = s).
    { rewrite Ek. apply filter_all. intros i _. unfold tree_path. destruct (length (b_nodes b)) as [|ln]; [lia|]. cbn [path_row].
      rewrite (nth_error_nth _ _ node0 E0), Lf. reflexivity. }
    rewrite PS in B. destruct B as (depth & AD & B).
    assert (D0 : depth = 0%nat).
    { destruct (AD (fun _ => 0) [0%nat]) as (p1 & p2 & Ep & Lp); [|now left|].
      - unfold tree_path. destruct (length (b_nodes b)) as [|ln]; [lia|]. cbn [path_row]. now rewrite (nth_error_nth _ _ node0 E0), Lf.
      - destruct p1 as [|q p1]; [auto|]. injection Ep as _ Ep. destruct p1; discriminate. }
    subst depth. destruct B as [B|[B|[B|[B|[B|B]]]]]; [lia|lia|lia| | |].
    + rewrite Hw in B. unfold sp, causal_spec in B. cbn [cs_wn] in B.
      assert (0 <= w_sum d s); [|lra]. clear - Wp. unfold w_sum. induction s as [|i l IH]; [cbn; lra|]. cbn [map]. rewrite Rsum_cons.
      assert (0 <= wt d i) by (unfold d; rewrite ct_wt; destruct (zeqb _ _); lra). lra.
    + rewrite (NI 0%nat root E0) in B. unfold alpha, EPSILON in B.
      assert (/ 2 ^ 52 <= 1); [|lra]. rewrite <- Rinv_1. apply Rinv_le_contravar; [lra|]. apply pow_R1_Rle. lra.
    + specialize (B f t Hft). assert (Ne : s <> []) by (destruct s; [cbn in Hs; lia|discriminate]).
      assert (Al : allowed sp (ct_X wv sel) (g_min_samples_leaf g) (g_min_weight_leaf g) f t s).
      { unfold allowed. rewrite Hw. unfold sp, causal_spec. cbn [cs_wl cs_wr].
        split; [destruct (left_of (ct_X wv sel) f t s); [cbn in Hl; lia|discriminate]|].
        split; [destruct (right_of (ct_X wv sel) f t s); [cbn in Hr; lia|discriminate]|]. split; [auto|]. split; [auto|]. lra. }
      specialize (B Al Sp). unfold sp in B. rewrite C95_causal_gain in B by auto. rewrite (NI 0%nat root E0), !IMP in B.
      assert (C1 : 1 <= cnt s) by (unfold cnt; apply (le_INR 1); lia).
      assert (C2 : cnt s <= 99999) by (unfold cnt; rewrite INR_IZR_INZ; apply IZR_le; lia).
      assert (C3 : (cnt (right_of (ct_X wv sel) f t s) + cnt (left_of (ct_X wv sel) f t s) = cnt s)).
      { unfold cnt. rewrite <- plus_INR. f_equal. rewrite Nat.add_comm, <- app_length. apply Permutation_length, left_right_perm. }
      set (a := cnt (right_of _ _ _ _)) in *. set (c := cnt (left_of _ _ _ _)) in *.
      replace (alpha - a / cnt s * alpha - c / cnt s * alpha) with (alpha * (1 - (a + c) / cnt s)) in B by (field; lra).
      rewrite C3 in B. replace (1 - cnt s / cnt s) with 0 in B by (field; lra).
      assert (EP : 0 < EPSILON) by (unfold EPSILON; apply Rinv_0_lt_compat, pow_lt; lra).
      assert (G : 1 <= eps / (cnt s + eps) * alpha); [|lra].
      unfold eps, alpha. apply (Rmult_le_reg_r (cnt s + 1 / 100000)); [lra|]. field_simplify; lra.
  - intros nd Hin. apply In_nth_error in Hin. destruct Hin as (j & Hj). rewrite (NI j nd Hj). reflexivity.
Qed.
Print Assumptions C95_causal_refuted.
