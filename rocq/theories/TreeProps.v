(** Theorems about the trees built by the depth-first builder: C89 - C95. *)
From Coq Require Import ZArith Reals Lra FunctionalExtensionality.
From Verif Require Import Base TreeCritModel TreeCritProps SplitterModel SplitterSpec GrfCritModel GrfCritSpec GrfCritOk TreeSpec CritOk SplitterProofs BuilderProofs TreeShape.
Set Implicit Arguments.
Local Notation length := List.length.
Open Scope nat_scope.

Lemma ranking_ok d N C V (cr : crit C V) sp : ranking d N cr sp -> exists rel, crit_ok cr sp N rel.
Proof.
  intros [w H1 H2|w H1 H2| | |la p tr H1 H2].
  - exists (hrel d N). eapply honest_ok; eauto.
  - exists (hrel d N). eapply cmse_ok; eauto.
  - exists (rrel d N). apply mse_ok.
  - exists (rrel d N). apply preg_ok.
  - exists (grel la d p tr). now apply grf_ok.
Qed.
Lemma computes_ok d N C V (cr : crit C V) sp : computes d N cr sp -> exists rel, crit_ok cr sp N rel.
Proof. intros [C' V' cr' sp' H|]; [eapply ranking_ok; eauto|]. exists (rrel d N). apply preg1_ok. Qed.

Notation whole g sp X nf d n b :=
  (subtree sp X nf (g_max_features g) (g_min_samples_leaf g) (g_min_weight_leaf g) (g_min_samples_split g)
     (g_max_depth g) (g_min_decrease g) (g_random g = false) (b_nodes b) (b_values b) 0 0
     (cs_node sp (kept_samples d n)) (kept_samples d n) (length (b_nodes b)) (b_max b)).

Lemma grow_ok C V (cr : crit C V) sp e g X d n nf :
  computes d (weighted_n d n) cr sp -> sane e -> 1 <= g_min_samples_leaf g -> kept_samples d n <> [] ->
  exists b, grow cr e g X d n nf = Ok b /\ whole g sp X nf d n b /\
    length (b_values b) = length (b_nodes b) /\
    1 <= length (b_nodes b) <= 2 * length (kept_samples d n) - 1.
Proof.
  intros Hc (S1 & S2 & S3) Hm Hk. destruct (computes_ok Hc) as [rel K].
  set (samples := kept_samples d n) in *. set (k := length samples).
  assert (Lk : 1 <= k) by (unfold k; destruct samples; [congruence|cbn; lia]).
  set (b0 := mkBst [] [] (mkSpl samples (seq 0 nf) (repeat 0%nat nf) 0) 0 : @bst V).
  set (r0 := mkSrec 0 k 0 None false 0%R 0).
  assert (P1 : forall key l, Permutation (e_sort e key l) l) by (intros; apply S1).
  assert (P2 : forall key l i j, i <= j -> j < length l -> (key (nth i (e_sort e key l) 0%nat) <= key (nth j (e_sort e key l) 0%nat))%R)
    by (intros; apply S1; auto).
  assert (RO : rec_ok X (g_max_depth g) nf r0 (b_spl b0)).
  { unfold rec_ok, r0, b0. cbn [sr_start sr_end sr_depth sr_const b_spl p_samples p_features p_const]. fold k.
    split; [lia|]. split; [lia|]. split; [auto|]. split; [apply repeat_length|]. split; [lia|]. split; [reflexivity|]. easy. }
  destruct (@build_rec _ _ cr sp (weighted_n d n) rel K X (e_sort e) P1 P2 (e_rnd e) (e_rmax e) S2 S3
              (g_max_features g) (g_min_samples_leaf g) (g_min_weight_leaf g) (g_min_samples_split g) (g_max_depth g)
              (g_min_decrease g) (g_random g) nf Hm k r0 [] b0 true) as
    (b & m & dp & M & E & L1 & L2 & _ & _ & T & Mx & _); [unfold r0; cbn; lia|exact RO|reflexivity|exact I|].
  exists b. cbn [sr_start sr_end r0 b0 b_nodes b_spl p_samples b_max sr_depth length plus] in *.
  assert (Es : slice samples 0 k = samples) by (unfold slice, k; rewrite Nat.sub_0_r; cbn [skipn]; apply firstn_all).
  rewrite Es in T. rewrite Nat.max_0_l in Mx. subst dp. rewrite <- L1 in T.
  split; [|split; [exact T|split; [auto|lia]]].
  unfold grow, build. fold samples. fold k. replace (2 * k + 1) with (m + (2 * k + 1 - m)) by lia.
  change (mkBst [] [] (mkSpl samples (seq 0 nf) (repeat 0 nf) 0) 0) with b0. fold r0. rewrite E.
  destruct (2 * k + 1 - m); reflexivity.
Qed.

Lemma grow_whole C V (cr : crit C V) sp e g X d n nf b :
  computes d (weighted_n d n) cr sp -> sane e -> 1 <= g_min_samples_leaf g -> kept_samples d n <> [] ->
  grow cr e g X d n nf = Ok b -> whole g sp X nf d n b /\ length (b_values b) = length (b_nodes b).
Proof.
  intros H1 H2 H3 H4 E. destruct (@grow_ok _ _ cr sp e g X d n nf H1 H2 H3 H4) as (b' & E' & A & B & _).
  assert (b' = b) as -> by congruence. auto.
Qed.

(** the improvement of a split as a function of its proxy *)
Lemma gain_as_proxy d N C V (cr : crit C V) sp X : ranking d N cr sp -> (0 < N)%R ->
  forall s imp, (forall i, In i s -> (0 < wt d i)%R) -> s <> [] ->
  exists a k, (0 < k)%R /\ forall f t, left_of X f t s <> [] -> right_of X f t s <> [] ->
    gain sp X imp f t s = (a + k * cs_proxy sp (left_of X f t s) (right_of X f t s))%R.
Proof.
  intros H HN s imp Hw Hs.
  assert (CN : forall f t, cnt (left_of X f t s ++ right_of X f t s) = cnt s).
  { intros f t. unfold cnt. now rewrite (Permutation_length (left_right_perm X f t s)). }
  assert (WN : forall f t, w_sum d (left_of X f t s ++ right_of X f t s) = w_sum d s).
  { intros f t. apply w_sum_perm, left_right_perm. }
  assert (WA : forall f t, (w_sum d (left_of X f t s) + w_sum d (right_of X f t s))%R = w_sum d s).
  { intros f t. now rewrite <- w_sum_app. }
  assert (C0 : (0 < cnt s)%R) by (unfold cnt; apply lt_0_INR; destruct s; [congruence|cbn; lia]).
  assert (WP : forall f t, left_of X f t s <> [] -> right_of X f t s <> [] ->
            (0 < w_sum d (left_of X f t s))%R /\ (0 < w_sum d (right_of X f t s))%R).
  { intros f t A B. split; apply w_sum_pos; auto; intros i Hi; apply Hw; [apply in_left in Hi|apply in_right in Hi]; tauto. }
  assert (W0 : (0 < w_sum d s)%R) by (apply w_sum_pos; auto).
  pose proof eps_pos as EP.
  destruct H as [w H1 H2|w H1 H2| | |la p tr H1 H2]; unfold gain; cbn [grf_spec causal_spec mse_spec preg_spec cs_improve cs_children cs_proxy fst snd].
  - exists imp, (/ (cnt s + eps))%R. split; [apply Rinv_0_lt_compat; lra|]. intros f t _ _. rewrite CN. field. lra.
  - exists imp, (/ cnt s)%R. split; [apply Rinv_0_lt_compat; lra|]. intros f t _ _. rewrite CN, Rplus_0_r. field. lra.
  - exists (w_sum d s / N * imp - wy2_sum d s / N)%R, (/ N)%R. split; [apply Rinv_0_lt_compat; lra|].
    intros f t A B. destruct (WP f t A B) as [P1 P2]. unfold std_spec_improve. rewrite WN.
    set (l := left_of X f t s) in *. set (r := right_of X f t s) in *.
    assert (E : forall m, (0 < w_sum d m)%R ->
      (w_sum d m * variance_sum d m = wy2_sum d m - ksum (d_out d) (fun k => wy_sum d m k * wy_sum d m k) / w_sum d m)%R).
    { intros m Hm. rewrite <- (@mse_child (wy2_sum d m) (wy_sum d m) (w_sum d m) (d_out d)) by lra.
      rewrite (fold_sub_ksum (d_out d) (fun k => ((wy_sum d m k / w_sum d m) ^ 2)%R)). reflexivity. }
    pose proof (E l P1) as E1. pose proof (E r P2) as E2.
    assert (E3 : wy2_sum d s = (wy2_sum d l + wy2_sum d r)%R).
    { rewrite <- wy2_sum_app. apply wy2_sum_perm. symmetry. apply left_right_perm. }
    rewrite E3.
    transitivity (w_sum d s / N * imp - (w_sum d r * variance_sum d r + w_sum d l * variance_sum d l) / N)%R.
    + field. lra.
    + rewrite E1, E2. field. lra.
  - exists (w_sum d s / N * (imp - alpha))%R, (/ N)%R. split; [apply Rinv_0_lt_compat; lra|].
    intros f t A B. destruct (WP f t A B) as [P1 P2]. unfold std_spec_improve. rewrite WN. rewrite <- (WA f t). field. lra.
  - exists 0%R, 1%R. split; [lra|]. intros f t _ _. lra.
Qed.

(** every split of the samples by a feature that is allowed and separated was examined *)
Lemma searched_all {V} (sp : cspec V) X nf mf msl mwl s ex f t : searched X nf mf s ex -> nf <= mf -> f < nf ->
  allowed sp X msl mwl f t s -> separated X f t s -> In f ex.
Proof.
  intros (_ & _ & [A|(cs & _ & _ & _ & _ & A)]) Hm Hf Al Sp; [|lia].
  destruct (A f Hf) as [Ct|]; auto. exfalso.
  destruct Al as (A1 & A2 & _).
  destruct (left_of X f t s) as [|i l] eqn:El; [congruence|]. destruct (right_of X f t s) as [|j r] eqn:Er; [congruence|].
  assert (Hi : In i (left_of X f t s)) by (rewrite El; now left).
  assert (Hj : In j (right_of X f t s)) by (rewrite Er; now left).
  specialize (Sp i j Hi Hj). apply in_left in Hi. apply in_right in Hj.
  specialize (Ct i j (proj1 Hi) (proj1 Hj)). lra.
Qed.

Lemma passing_through nodes X j s : passing nodes X j s = filter (fun i => through (length nodes) nodes 0 j (X i)) s.
Proof. reflexivity. Qed.

Lemma kept_in d n i : In i (kept_samples d n) -> i < n /\ (wt d i <> 0)%R.
Proof.
  unfold kept_samples. rewrite filter_In, in_seq. intros [A B]. split; [lia|]. unfold wt.
  destruct (d_w d); [|lra]. destruct (Req_EM_T _ _); congruence.
Qed.
Lemma weighted_kept d n : weighted_n d n = w_sum d (kept_samples d n).
Proof.
  unfold weighted_n. rewrite (fold_Rsum (wt d)). unfold w_sum, kept_samples.
  rewrite Rplus_0_l. generalize (seq 0 n) as l. intros l. unfold wt. destruct (d_w d) as [w|].
  - induction l as [|i l IH]; [reflexivity|]. cbn [map filter]. rewrite Rsum_cons.
    destruct (Req_EM_T (w i) 0) as [E|E]; [rewrite E; lra|]. cbn [map]. rewrite Rsum_cons. lra.
  - now rewrite filter_all.
Qed.

(* ------------------------------------------------------------------------------------------------ *)
(** ** C89: every split is the best split of the samples that reach the node *)

(** The split (f, t) is the best of the samples [s]: no allowed and separated split of [s], by any feature,
    has a larger impurity improvement. *)
Definition best_gain {V} (sp : cspec V) X nf g (imp : R) (f : nat) (t : R) (s : list nat) : Prop :=
  forall f' t', f' < nf -> allowed sp X (g_min_samples_leaf g) (g_min_weight_leaf g) f' t' s -> separated X f' t' s ->
    (gain sp X imp f' t' s <= gain sp X imp f t s)%R.

Theorem C89_best_splits C V (cr : crit C V) sp e g X d n nf b :
  ranking d (weighted_n d n) cr sp -> sane e -> 1 <= g_min_samples_leaf g ->
  kept_samples d n <> [] -> (forall i, i < n -> (0 <= wt d i)%R) ->
  g_random g = false -> nf <= g_max_features g ->
  grow cr e g X d n nf = Ok b ->
  forall j nd, nth_error (b_nodes b) j = Some nd ->
  let s := passing (b_nodes b) X j (kept_samples d n) in
  match nd_left nd with
  | Leaf =>
      exists depth, at_depth (b_nodes b) j depth /\
      (g_max_depth g <= depth \/ length s < g_min_samples_split g \/ length s < 2 * g_min_samples_leaf g \/
       (cs_wn sp s < 2 * g_min_weight_leaf g)%R \/ (nd_imp nd <= EPSILON)%R \/
       (forall f t, f < nf -> allowed sp X (g_min_samples_leaf g) (g_min_weight_leaf g) f t s ->
          separated X f t s -> (gain sp X (nd_imp nd) f t s + EPSILON < g_min_decrease g)%R))
  | _ =>
      allowed sp X (g_min_samples_leaf g) (g_min_weight_leaf g) (nd_feature nd) (nd_thr nd) s /\
      separated X (nd_feature nd) (nd_thr nd) s /\
      best_gain sp X nf g (nd_imp nd) (nd_feature nd) (nd_thr nd) s /\
      (g_min_decrease g <= gain sp X (nd_imp nd) (nd_feature nd) (nd_thr nd) s + EPSILON)%R
  end.
Proof.
  intros Hr He Hm Hk Hw Hb Hf E j nd Hj s.
  assert (Hc : computes d (weighted_n d n) cr sp) by now constructor.
  destruct (@grow_whole _ _ cr sp e g X d n nf b Hc He Hm Hk E) as [T LV].
  assert (Lj : j < length (b_nodes b)) by (apply nth_error_Some; congruence).
  destruct (node_ok T Hk (j := j)) as (depth & N1 & N2 & N3 & N4); [lia|].
  rewrite <- passing_through in N1, N2. fold s in N1, N2.
  destruct N2 as (nd' & E1 & E2 & E3 & E4 & E5 & E6). assert (nd' = nd) as -> by congruence. clear E1.
  assert (Ws : forall i, In i s -> (0 < wt d i)%R).
  { intros i Hi. unfold s, passing in Hi. apply filter_In in Hi. destruct Hi as [Hi _]. apply kept_in in Hi.
    destruct Hi as [Hi1 Hi2]. specialize (Hw i Hi1). lra. }
  assert (N0 : (0 < weighted_n d n)%R).
  { rewrite weighted_kept. apply w_sum_pos; auto. intros i Hi. apply kept_in in Hi. destruct Hi as [Hi1 Hi2]. specialize (Hw i Hi1). lra. }
  destruct (@gain_as_proxy d (weighted_n d n) C V cr sp X Hr N0 s (nd_imp nd) Ws N1) as (a & k & Kp & G).
  assert (BG : forall ex f t, searched X nf (g_max_features g) s ex ->
            allowed sp X (g_min_samples_leaf g) (g_min_weight_leaf g) f t s ->
            optimal sp X (g_min_samples_leaf g) (g_min_weight_leaf g) ex f t s ->
            best_gain sp X nf g (nd_imp nd) f t s).
  { intros ex f t Se Al Op f' t' Hf' Al' Sp'. pose proof Al as (A1 & A2 & _). pose proof Al' as (B1 & B2 & _).
    rewrite !G by auto. apply Rplus_le_compat_l, Rmult_le_compat_l; [lra|]. apply Op; auto.
    eapply searched_all; eauto. }
  destruct (nd_left nd) eqn:El.
  - exists depth. split; [exact N3|]. specialize (E6 Hb).
    destruct E6 as [H|[H|[H|[H|[H|[(ex & Se & H)|(ex & f & t & Se & Hin & Al & Sp & Op & H)]]]]]]; auto.
    + do 4 right. now left.
    + do 5 right. intros f t Hf' Al Sp. exfalso. eapply H; eauto. eapply searched_all; eauto.
    + do 5 right. intros f' t' Hf' Al' Sp'. pose proof (BG ex f t Se Al Op f' t' Hf' Al' Sp'). lra.
  - destruct E6 as (_ & _ & D3 & D4 & D5 & ex & Se & Hin & D6). destruct (D6 Hb) as [D7 D8].
    split; [auto|]. split; [auto|]. split; [eapply BG; eauto|auto].
  - destruct E6 as (_ & _ & D3 & D4 & D5 & ex & Se & Hin & D6). destruct (D6 Hb) as [D7 D8].
    split; [auto|]. split; [auto|]. split; [eapply BG; eauto|auto].
Qed.
Print Assumptions C89_best_splits.

(* ------------------------------------------------------------------------------------------------ *)
(** ** C90: which features are searched *)

Theorem C90_searched C V (cr : crit C V) sp e g X d n nf b :
  computes d (weighted_n d n) cr sp -> sane e -> 1 <= g_min_samples_leaf g -> kept_samples d n <> [] ->
  grow cr e g X d n nf = Ok b ->
  forall j nd, nth_error (b_nodes b) j = Some nd ->
  let s := passing (b_nodes b) X j (kept_samples d n) in
  let msl := g_min_samples_leaf g in
  let mwl := g_min_weight_leaf g in
  match nd_left nd with
  | Leaf =>
      g_random g = false ->
      exists depth, at_depth (b_nodes b) j depth /\
      (g_max_depth g <= depth \/ length s < g_min_samples_split g \/ length s < 2 * msl \/
       (cs_wn sp s < 2 * mwl)%R \/ (nd_imp nd <= EPSILON)%R \/
       exists ex, searched X nf (g_max_features g) s ex /\
         ((forall f t, In f ex -> allowed sp X msl mwl f t s -> ~ separated X f t s) \/
          (exists f t, In f ex /\ allowed sp X msl mwl f t s /\ separated X f t s /\ optimal sp X msl mwl ex f t s /\
             (gain sp X (nd_imp nd) f t s + EPSILON < g_min_decrease g)%R)))
  | _ =>
      allowed sp X msl mwl (nd_feature nd) (nd_thr nd) s /\
      exists ex, searched X nf (g_max_features g) s ex /\ In (nd_feature nd) ex /\
        (g_random g = false ->
         separated X (nd_feature nd) (nd_thr nd) s /\ optimal sp X msl mwl ex (nd_feature nd) (nd_thr nd) s)
  end.
Proof.
  intros Hc He Hm Hk E j nd Hj s msl mwl.
  destruct (@grow_whole _ _ cr sp e g X d n nf b Hc He Hm Hk E) as [T LV].
  assert (Lj : j < length (b_nodes b)) by (apply nth_error_Some; congruence).
  destruct (node_ok T Hk (j := j)) as (depth & N1 & N2 & N3 & N4); [lia|].
  rewrite <- passing_through in N1, N2. fold s in N1, N2.
  destruct N2 as (nd' & E1 & E2 & E3 & E4 & E5 & E6). assert (nd' = nd) as -> by congruence. clear E1.
  destruct (nd_left nd) eqn:El.
  - intros Hb. exists depth. split; [exact N3|]. specialize (E6 Hb).
    destruct E6 as [H|[H|[H|[H|[H|[(ex & Se & H)|(ex & f & t & Se & Hin & Al & Sp & Op & H)]]]]]]; auto.
    + do 4 right. now left.
    + do 5 right. exists ex. auto.
    + do 5 right. exists ex. split; [auto|]. right. exists f, t. auto.
  - destruct E6 as (_ & _ & D3 & D4 & D5 & ex & Se & Hin & D6). split; [auto|]. exists ex. auto.
  - destruct E6 as (_ & _ & D3 & D4 & D5 & ex & Se & Hin & D6). split; [auto|]. exists ex. auto.
Qed.
Print Assumptions C90_searched.

(* ------------------------------------------------------------------------------------------------ *)
(** ** C91: the fitted tree partitions the samples *)

Theorem C91_builds C V (cr : crit C V) sp e g X d n nf :
  computes d (weighted_n d n) cr sp -> sane e -> 1 <= g_min_samples_leaf g -> kept_samples d n <> [] ->
  exists b, grow cr e g X d n nf = Ok b /\ length (b_values b) = length (b_nodes b) /\
    1 <= length (b_nodes b) <= 2 * length (kept_samples d n) - 1.
Proof.
  intros H1 H2 H3 H4. destruct (@grow_ok _ _ cr sp e g X d n nf H1 H2 H3 H4) as (b & A & _ & B & D). eauto.
Qed.
Print Assumptions C91_builds.

(** apply and predict are total; a prediction is the value of exactly the training samples of the leaf. *)
Theorem C91_predict C V (cr : crit C V) sp e g X d n nf b dflt :
  computes d (weighted_n d n) cr sp -> sane e -> 1 <= g_min_samples_leaf g -> kept_samples d n <> [] ->
  grow cr e g X d n nf = Ok b ->
  forall x, exists j nd, tree_apply (b_nodes b) x = Ok j /\ nth_error (b_nodes b) j = Some nd /\ nd_left nd = Leaf /\
    let s := samples_at (b_nodes b) X j (kept_samples d n) in
    tree_predict dflt b x = Ok (cs_value sp s) /\ nd_n nd = length s /\ nd_w nd = cs_wn sp s /\ s <> [] /\
    (length (b_nodes b) = 1 \/ g_min_samples_leaf g <= length s).
Proof.
  intros H1 H2 H3 H4 E x. destruct (@grow_whole _ _ cr sp e g X d n nf b H1 H2 H3 H4 E) as [T LV].
  destruct (leaf_ok T x) as (j & nd & A1 & A2 & A3 & A4 & A5).
  assert (Ea : tree_apply (b_nodes b) x = Ok j) by (apply A1; lia).
  exists j, nd. split; [exact Ea|]. split; [auto|]. split; [auto|].
  change (filter _ (kept_samples d n)) with (samples_at (b_nodes b) X j (kept_samples d n)) in A5.
  cbv zeta in *. destruct A5 as (B1 & B2 & B3 & B4 & B5).
  split. { unfold tree_predict. rewrite Ea. cbn [bind]. f_equal. now apply nth_error_nth. }
  split; [auto|]. split; [auto|]. split; [auto|]. destruct B5 as [(_ & B5 & _)|(_ & B5)]; auto.
Qed.
Print Assumptions C91_predict.

(** counts, weights, values and impurities stored in all nodes are those of the training samples passing them *)
Theorem C91_nodes C V (cr : crit C V) sp e g X d n nf b :
  computes d (weighted_n d n) cr sp -> sane e -> 1 <= g_min_samples_leaf g -> kept_samples d n <> [] ->
  grow cr e g X d n nf = Ok b ->
  forall j nd, nth_error (b_nodes b) j = Some nd ->
  let s := passing (b_nodes b) X j (kept_samples d n) in
  s <> [] /\ nd_n nd = length s /\ nd_w nd = cs_wn sp s /\ nth_error (b_values b) j = Some (cs_value sp s) /\
  ((forall l r, cs_children sp l r = (cs_node sp l, cs_node sp r)) -> nd_imp nd = cs_node sp s) /\
  exists depth, at_depth (b_nodes b) j depth /\ depth <= g_max_depth g.
Proof.
  intros H1 H2 H3 H4 E j nd Hj s. destruct (@grow_whole _ _ cr sp e g X d n nf b H1 H2 H3 H4 E) as [T LV].
  assert (Lj : j < length (b_nodes b)) by (apply nth_error_Some; congruence).
  destruct (node_ok T H4 (j := j)) as (depth & N1 & N2 & N3 & N4); [lia|].
  rewrite <- passing_through in N1, N2, N4. fold s in N1, N2, N4.
  destruct N2 as (nd' & E1 & E2 & E3 & E4 & E5 & E6). assert (nd' = nd) as -> by congruence.
  split; [auto|]. split; [auto|]. split; [auto|]. split; [auto|]. split.
  - intros Hch. rewrite <- N4 by auto. symmetry. f_equal. now apply nth_error_nth.
  - exists depth. split; [exact N3|auto].
Qed.
Print Assumptions C91_nodes.

(** get_depth: no decision path is longer, some training sample has one as long; max_depth is respected. *)
Theorem C91_depth C V (cr : crit C V) sp e g X d n nf b :
  computes d (weighted_n d n) cr sp -> sane e -> 1 <= g_min_samples_leaf g -> kept_samples d n <> [] ->
  grow cr e g X d n nf = Ok b ->
  b_max b <= g_max_depth g /\
  (forall x, exists p, tree_path (b_nodes b) x = Ok p /\ length p <= 1 + b_max b) /\
  (exists i p, In i (kept_samples d n) /\ tree_path (b_nodes b) (X i) = Ok p /\ length p = 1 + b_max b).
Proof.
  intros H1 H2 H3 H4 E. destruct (@grow_whole _ _ cr sp e g X d n nf b H1 H2 H3 H4 E) as [T LV].
  split; [apply (st_lt T)|]. split.
  - intros x. destruct (path_ok T x) as (p & j & _ & A2 & A3 & A4 & A5). exists (p ++ [j]). split.
    + apply A2. lia.
    + rewrite app_length. cbn. lia.
  - destruct (deepest_ok T H4) as (i & p & j & A1 & A2 & A3). exists i, (p ++ [j]). split; [auto|].
    destruct (path_ok T (X i)) as (p' & j' & _ & B2 & B3 & B4 & B5). split.
    + apply A3. assert (length p = length p'); [|lia].
      specialize (A3 (S (length p + length p')) ltac:(lia)). destruct (B2 (S (length p + length p'))) as [B _]; [lia|].
      rewrite B in A3. injection A3 as A3. apply (f_equal (@length nat)) in A3. rewrite !app_length in A3. cbn in A3. lia.
    + rewrite app_length. cbn. lia.
Qed.
Print Assumptions C91_depth.

(** decision_path never writes past its buffer and returns the path of every row. *)
Theorem C91_decision_path C V (cr : crit C V) sp e g X d n nf b :
  computes d (weighted_n d n) cr sp -> sane e -> 1 <= g_min_samples_leaf g -> kept_samples d n <> [] ->
  grow cr e g X d n nf = Ok b ->
  forall rows, exists ps, decision_path (b_nodes b) (b_max b) rows = Ok ps /\
    length ps = length rows /\
    forall k x, nth_error rows k = Some x -> exists p, nth_error ps k = Some p /\ tree_path (b_nodes b) x = Ok p.
Proof.
  intros H1 H2 H3 H4 E rows. destruct (@C91_depth _ _ cr sp e g X d n nf b H1 H2 H3 H4 E) as (_ & P & _).
  assert (G : forall rows acc, exists ps,
    fold_left (fun acc x => do l <- acc ; do p <- tree_path (b_nodes b) x ; Ok (l ++ [p])) rows (Ok acc) = Ok (acc ++ ps) /\
    length ps = length rows /\ length (List.concat ps) <= length rows * (1 + b_max b) /\
    forall k x, nth_error rows k = Some x -> exists p, nth_error ps k = Some p /\ tree_path (b_nodes b) x = Ok p).
  { clear rows. induction rows as [|x rows IH]; intros acc.
    - exists []. cbn. rewrite app_nil_r. split; [auto|]. split; [auto|]. split; [lia|]. intros [|k] x; discriminate.
    - destruct (P x) as (p & Ep & Lp). cbn [fold_left]. rewrite Ep. cbn [bind].
      destruct (IH (acc ++ [p])) as (ps & E1 & E2 & E3 & E4). exists (p :: ps). rewrite E1, <- app_assoc. cbn [app].
      split; [auto|]. split; [cbn; lia|]. split.
      + cbn [List.concat length]. rewrite app_length. lia.
      + intros [|k] y Hy; cbn in Hy |- *; [injection Hy as <-; eauto|auto]. }
  destruct (G rows []) as (ps & E1 & E2 & E3 & E4). exists ps. unfold decision_path. rewrite E1. cbn [bind app].
  apply Nat.leb_le in E3. rewrite E3. auto.
Qed.
Print Assumptions C91_decision_path.

(** get_n_leaves: one more than the internal nodes *)
Theorem C91_leaves C V (cr : crit C V) sp e g X d n nf b :
  computes d (weighted_n d n) cr sp -> sane e -> 1 <= g_min_samples_leaf g -> kept_samples d n <> [] ->
  grow cr e g X d n nf = Ok b ->
  length (b_nodes b) + 1 = 2 * n_leaves (b_nodes b).
Proof.
  intros H1 H2 H3 H4 E. destruct (@grow_whole _ _ cr sp e g X d n nf b H1 H2 H3 H4 E) as [T LV].
  pose proof (leaves_ok T) as H. unfold slice in H. rewrite Nat.sub_0_r in H. cbn [skipn] in H. rewrite firstn_all in H. lia.
Qed.
Print Assumptions C91_leaves.

(* ------------------------------------------------------------------------------------------------ *)
(** ** C94: feature importances *)

Lemma raw_sum nodes f : raw_importance nodes f =
  Rsum (map (decrease nodes) (filter (fun n => negb (is_leafb n) && (nd_feature n =? f)) nodes)).
Proof.
  unfold raw_importance. assert (G : forall l a,
    fold_left (fun a n => if is_leafb n then a else if nd_feature n =? f then (a + decrease nodes n)%R else a) l a =
    (a + Rsum (map (decrease nodes) (filter (fun n => negb (is_leafb n) && (nd_feature n =? f)) l)))%R).
  { induction l as [|n l IH]; intros a; cbn [fold_left filter]; [cbn [map]; rewrite Rsum_nil; lra|].
    destruct (is_leafb n); cbn [negb andb]; [apply IH|]. destruct (nd_feature n =? f); [|apply IH].
    rewrite IH. cbn [map]. rewrite Rsum_cons. lra. }
  rewrite G. lra.
Qed.

Lemma sum_by_feature (h : node -> R) nf l : (forall n, In n l -> is_leafb n = false -> nd_feature n < nf) ->
  Rsum (map (fun f => Rsum (map h (filter (fun n => negb (is_leafb n) && (nd_feature n =? f)) l))) (seq 0 nf)) =
  Rsum (map h (filter (fun n => negb (is_leafb n)) l)).
Proof.
  induction l as [|n l IH]; intros Hf.
  - cbn [filter map]. rewrite Rsum_nil. clear Hf. induction (seq 0 nf) as [|f s IHs]; [reflexivity|]. cbn [map]. rewrite Rsum_cons, IHs. lra.
  - cbn [filter].
    destruct (is_leafb n) eqn:El; cbn [negb andb]; [apply IH; intros; apply Hf; [now right|auto]|].
    assert (Hn : nd_feature n < nf) by (apply Hf; [now left|auto]).
    cbn [map]. rewrite Rsum_cons, <- IH by (intros; apply Hf; [now right|auto]). clear IH Hf El.
    assert (G : forall s, NoDup s -> Rsum (map (fun f => Rsum (map h (if nd_feature n =? f then
        n :: filter (fun n0 => negb (is_leafb n0) && (nd_feature n0 =? f)) l else filter (fun n0 => negb (is_leafb n0) && (nd_feature n0 =? f)) l))) s) =
      ((if existsb (Nat.eqb (nd_feature n)) s then h n else 0) +
       Rsum (map (fun f => Rsum (map h (filter (fun n0 => negb (is_leafb n0) && (nd_feature n0 =? f)) l))) s))%R).
    { induction s as [|f s IHs]; intros ND; [cbn; lra|]. inversion ND; subst. cbn [map existsb]. rewrite !Rsum_cons, IHs by auto.
      destruct (Nat.eqb_spec (nd_feature n) f) as [->|]; cbn [orb].
      - destruct (existsb (Nat.eqb f) s) eqn:Ee; [apply existsb_nat in Ee; contradiction|]. cbn [map]. rewrite Rsum_cons. lra.
      - lra. }
    rewrite G by apply seq_NoDup.
    destruct (existsb (Nat.eqb (nd_feature n)) (seq 0 nf)) eqn:Ee; [lra|].
    exfalso. assert (Hin : In (nd_feature n) (seq 0 nf)) by (apply in_seq; lia). apply existsb_nat in Hin. congruence.
Qed.

Lemma fold_plus_Rsum l : fold_left Rplus l 0%R = Rsum l.
Proof. pose proof (fold_Rsum (fun x => x) l 0%R) as H. cbv beta in H. rewrite map_id in H. change (fold_left (fun a i : R => (a + i)%R) l 0%R) with (fold_left Rplus l 0%R) in H. rewrite H. lra. Qed.
Lemma Rsum_div {A} (f : A -> R) k l : Rsum (map (fun i => (f i / k)%R) l) = (Rsum (map f l) / k)%R.
Proof. unfold Rdiv. rewrite Rmult_comm, <- Rsum_scale. f_equal. apply map_ext. intros. lra. Qed.

(** before the normalisation: the importances add up to the weighted impurity of the root minus that of the
    leaves, over the weight of the root *)
Definition total_importance (nodes : list node) : R :=
  ((wimp (nth 0 nodes node0) - Rsum (map wimp (filter is_leafb nodes))) / nd_w (nth 0 nodes node0))%R.

Theorem C94_importances C V (cr : crit C V) sp e g X d n nf b :
  computes d (weighted_n d n) cr sp -> sane e -> 1 <= g_min_samples_leaf g -> kept_samples d n <> [] ->
  grow cr e g X d n nf = Ok b ->
  let imps := importances (b_nodes b) nf in
  length imps = nf /\
  ((0 < total_importance (b_nodes b))%R -> Rsum imps = 1%R) /\
  (~ (0 < total_importance (b_nodes b))%R -> Rsum imps = total_importance (b_nodes b)) /\
  (forall f, f < nf -> (forall nd, In nd (b_nodes b) -> nd_left nd <> Leaf -> nd_feature nd <> f) -> nth f imps 1%R = 0%R).
Proof.
  intros H1 H2 H3 H4 E. destruct (@grow_whole _ _ cr sp e g X d n nf b H1 H2 H3 H4 E) as [T LV]. cbv zeta.
  set (nodes := b_nodes b) in *. set (w0 := nd_w (nth 0 nodes node0)).
  assert (Tot : Rsum (map (fun f => (raw_importance nodes f / w0)%R) (seq 0 nf)) = total_importance nodes).
  { rewrite Rsum_div. unfold total_importance. f_equal.
    pose proof (telescope T) as H. fold nodes in H.
    assert (Es : slice nodes 0 (length nodes) = nodes) by (unfold slice; rewrite Nat.sub_0_r; cbn [skipn]; apply firstn_all).
    rewrite Es in H. rewrite <- H.
    replace (map (raw_importance nodes) (seq 0 nf)) with (map (fun f => Rsum (map (decrease nodes) (filter (fun n => negb (is_leafb n) && (nd_feature n =? f)) nodes))) (seq 0 nf)).
    - apply sum_by_feature. intros nd Hn. apply (features_ok T). fold nodes. now rewrite Es.
    - apply map_ext. intros f. symmetry. apply raw_sum. }
  unfold importances. fold w0. rewrite fold_plus_Rsum, Tot.
  split; [destruct (Rgt_dec _ _); now rewrite ?map_length, seq_length|]. split; [|split].
  - intros Hp. destruct (Rgt_dec (total_importance nodes) 0); [|lra].
    rewrite map_map, Rsum_div, Tot. field. lra.
  - intros Hp. destruct (Rgt_dec (total_importance nodes) 0); [lra|]. exact Tot.
  - intros f Hf Hu. assert (R0 : raw_importance nodes f = 0%R).
    { rewrite raw_sum. replace (filter _ nodes) with (@nil node); [apply Rsum_nil|]. symmetry.
      apply filter_none. intros nd Hn. unfold is_leafb. specialize (Hu nd Hn).
      destruct (nd_left nd); cbn [negb andb]; auto; apply Nat.eqb_neq; apply Hu; discriminate. }
    assert (Nf : nth f (map (fun f => (raw_importance nodes f / w0)%R) (seq 0 nf)) 1%R = 0%R).
    { rewrite (nth_indep _ 1%R (raw_importance nodes 0 / w0)%R) by now rewrite map_length, seq_length.
      rewrite (map_nth (fun f => (raw_importance nodes f / w0)%R)). rewrite seq_nth by auto. cbn [plus]. rewrite R0. unfold Rdiv. lra. }
    destruct (Rgt_dec _ _); [|exact Nf].
    rewrite (nth_indep _ 1%R (1 / total_importance nodes)%R) by now rewrite !map_length, seq_length.
    rewrite (map_nth (fun v => (v / total_importance nodes)%R)). rewrite Nf. unfold Rdiv. lra.
Qed.
Print Assumptions C94_importances.

Theorem C94_policy_nonneg e g X d n nf b :
  sane e -> 1 <= g_min_samples_leaf g -> kept_samples d n <> [] -> (forall i, i < n -> (0 <= wt d i)%R) ->
  grow (preg_crit d) e g X d n nf = Ok b ->
  forall f, (0 <= nth f (importances (b_nodes b) nf) 0)%R.
Proof.
  intros He Hm Hk Hw E f.
  destruct (@grow_whole _ _ (preg_crit d) (preg_spec false d (weighted_n d n)) e g X d n nf b) as [T LV]; auto.
  { constructor. constructor. }
  set (nodes := b_nodes b) in *. set (sp := preg_spec false d (weighted_n d n)) in *.
  assert (Es : slice nodes 0 (length nodes) = nodes) by (unfold slice; rewrite Nat.sub_0_r; cbn [skipn]; apply firstn_all).
  assert (D : forall nd, In nd nodes -> is_leafb nd = false -> (0 <= decrease nodes nd)%R).
  { intros nd Hn Hl. apply (@decrease_ok _ sp X nf (g_max_features g) (g_min_samples_leaf g) (g_min_weight_leaf g) (g_min_samples_split g) (g_max_depth g) (g_min_decrease g) (g_random g = false)
      (fun i => (0 < wt d i)%R) nodes (b_values b) 0 0 _ _ _ _ T); auto.
    - intros u f0 t Hq A1 A2. unfold sp, preg_spec. cbn [cs_wn cs_node].
      set (l := left_of X f0 t u) in *. set (r := right_of X f0 t u) in *.
      assert (P1 : (0 < w_sum d l)%R) by (apply w_sum_pos; auto; intros i Hi; apply in_left in Hi; apply Hq; tauto).
      assert (P2 : (0 < w_sum d r)%R) by (apply w_sum_pos; auto; intros i Hi; apply in_right in Hi; apply Hq; tauto).
      assert (PM : Permutation (l ++ r) u) by apply left_right_perm.
      rewrite <- (w_sum_perm d PM), w_sum_app.
      assert (K : (kmax (d_out d) (wy_sum d u) <= kmax (d_out d) (wy_sum d l) + kmax (d_out d) (wy_sum d r))%R).
      { destruct (Nat.eq_0_gt_0_cases (d_out d)) as [E0|E0]; [rewrite E0; cbn; lra|].
        destruct (@kmax_spec (d_out d) (wy_sum d u) E0) as (_ & k & Hk' & Ek).
        destruct (@kmax_spec (d_out d) (wy_sum d l) E0) as (Ul & _).
        destruct (@kmax_spec (d_out d) (wy_sum d r) E0) as (Ur & _).
        rewrite Ek, <- (wy_sum_perm d k PM), wy_sum_app. specialize (Ul k Hk'). specialize (Ur k Hk'). lra. }
      replace (w_sum d l * (alpha - kmax (d_out d) (wy_sum d l) / w_sum d l))%R with (w_sum d l * alpha - kmax (d_out d) (wy_sum d l))%R by (field; lra).
      replace (w_sum d r * (alpha - kmax (d_out d) (wy_sum d r) / w_sum d r))%R with (w_sum d r * alpha - kmax (d_out d) (wy_sum d r))%R by (field; lra).
      replace ((w_sum d l + w_sum d r) * (alpha - kmax (d_out d) (wy_sum d u) / (w_sum d l + w_sum d r)))%R
        with ((w_sum d l + w_sum d r) * alpha - kmax (d_out d) (wy_sum d u))%R by (field; lra).
      lra.
    - intros i Hi. apply kept_in in Hi. destruct Hi as [Hi1 Hi2]. specialize (Hw i Hi1). lra.
    - now rewrite Es. }
  assert (W0 : (0 < nd_w (nth 0 nodes node0))%R).
  { rewrite (proj2 (root_node T)). unfold sp, preg_spec. cbn [cs_wn]. apply w_sum_pos; auto.
    intros i Hi. apply kept_in in Hi. destruct Hi as [Hi1 Hi2]. specialize (Hw i Hi1). lra. }
  assert (R0 : forall f, (0 <= raw_importance nodes f / nd_w (nth 0 nodes node0))%R).
  { intros f0. apply Rmult_le_pos; [|apply Rlt_le, Rinv_0_lt_compat; auto]. rewrite raw_sum.
    assert (G : forall l, (forall nd, In nd l -> In nd nodes) ->
      (0 <= Rsum (map (decrease nodes) (filter (fun n0 => negb (is_leafb n0) && (nd_feature n0 =? f0)) l)))%R).
    { induction l as [|nd l IH]; intros Hl; cbn [filter map]; [rewrite Rsum_nil; lra|].
      assert (0 <= Rsum (map (decrease nodes) (filter (fun n0 => negb (is_leafb n0) && (nd_feature n0 =? f0)) l)))%R by (apply IH; intros; apply Hl; now right).
      destruct (is_leafb nd) eqn:El; cbn [negb andb]; [auto|]. destruct (nd_feature nd =? f0); [|auto]. cbn [map]. rewrite Rsum_cons.
      assert (0 <= decrease nodes nd)%R by (apply D; auto; apply Hl; now left). lra. }
    apply G. auto. }
  unfold importances. set (imps := map _ (seq 0 nf)).
  assert (I0 : forall v, In v imps -> (0 <= v)%R) by (intros v Hv; apply in_map_iff in Hv; destruct Hv as (f0 & <- & _); apply R0).
  destruct (Rgt_dec (fold_left Rplus imps 0%R) 0%R) as [Ht|Ht].
  - destruct (nth_in_or_default f (map (fun v => (v / fold_left Rplus imps 0%R)%R) imps) 0%R) as [Hin|Hd].
    + apply in_map_iff in Hin. destruct Hin as (v & <- & Hv). apply Rmult_le_pos; [auto|apply Rlt_le, Rinv_0_lt_compat; auto].
    + rewrite Hd. lra.
  - destruct (nth_in_or_default f imps 0%R) as [Hin|Hd]; [auto|]. rewrite Hd. lra.
Qed.
Print Assumptions C94_policy_nonneg.

(* ------------------------------------------------------------------------------------------------ *)
(** ** C95: min_impurity_decrease *)

(** the documented weighted impurity decrease (causal_tree.py:99-106), read off the stored nodes; [N] is the
    total weight *)
Definition documented_decrease (nodes : list node) (N : R) (nd : node) : R :=
  let l := nth (link_id (nd_left nd)) nodes node0 in
  let r := nth (link_id (nd_right nd)) nodes node0 in
  (nd_w nd / N * (nd_imp nd - nd_w r / nd_w nd * nd_imp r - nd_w l / nd_w nd * nd_imp l))%R.

Lemma documented_split C (cr : crit C (nat -> R)) sp e g X d n nf b :
  computes d (weighted_n d n) cr sp -> cs_improve sp = std_spec_improve d (weighted_n d n) -> cs_wn sp = w_sum d ->
  sane e -> 1 <= g_min_samples_leaf g -> kept_samples d n <> [] ->
  grow cr e g X d n nf = Ok b ->
  forall nd, In nd (b_nodes b) -> nd_left nd <> Leaf ->
  (g_min_decrease g <= documented_decrease (b_nodes b) (weighted_n d n) nd + EPSILON)%R.
Proof.
  intros Hc Hi Hn He Hm Hk E nd Hin Hl.
  destruct (@grow_whole _ _ cr sp e g X d n nf b Hc He Hm Hk E) as [T LV]. set (nodes := b_nodes b) in *.
  assert (Es : slice nodes 0 (length nodes) = nodes) by (unfold slice; rewrite Nat.sub_0_r; cbn [skipn]; apply firstn_all).
  destruct (children_ok T nd) as (u & a & c & A1 & A2 & A3 & A4 & A5 & A6 & A7 & A8 & A9 & A10).
  - now rewrite Es.
  - unfold is_leafb. destruct (nd_left nd); congruence.
  - unfold documented_decrease. rewrite A1, A2. cbn [link_id]. rewrite A5, A6, A7, A8, A9, !Hn.
    unfold gain in A10. cbv zeta in A10. rewrite Hi in A10. unfold std_spec_improve in A10.
    rewrite (w_sum_perm d (left_right_perm X (nd_feature nd) (nd_thr nd) u)) in A10. exact A10.
Qed.
(** the trees of the regression and policy criteria: every split reaches the documented decrease (up to
    EPSILON = 2^-52) *)
Theorem C95_policy e g X d n nf b :
  sane e -> 1 <= g_min_samples_leaf g -> kept_samples d n <> [] ->
  grow (preg_crit d) e g X d n nf = Ok b \/ grow (preg1_crit d) e g X d n nf = Ok b \/ grow (mse_crit d) e g X d n nf = Ok b ->
  forall nd, In nd (b_nodes b) -> nd_left nd <> Leaf ->
  (g_min_decrease g <= documented_decrease (b_nodes b) (weighted_n d n) nd + EPSILON)%R.
Proof.
  intros He Hm Hk [E|[E|E]].
  - apply (@documented_split _ (preg_crit d) (preg_spec false d (weighted_n d n)) e g X d n nf b); auto. apply co_ranking, rk_preg.
  - apply (@documented_split _ (preg1_crit d) (preg_spec true d (weighted_n d n)) e g X d n nf b); auto. apply co_preg1.
  - apply (@documented_split _ (mse_crit d) (mse_spec d (weighted_n d n)) e g X d n nf b); auto. apply co_ranking, rk_mse.
Qed.
Print Assumptions C95_policy.
