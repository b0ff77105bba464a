(** C119: which half of double robustness holds. *)
From Coq Require Import ZArith Reals Lra.
From Verif Require Import Base ApiModel EstUtilsModel EstUtilsProps MetaModel MetaSpec MetaProofs MetaProps MetaRefit MetaT MetaX
  CrossFitModel CrossFitProofs DrModel DrProofs DrSpec DrProps DrCalls.
Local Notation length := List.length.
Local Notation concat := List.concat.

(* ------------------------------------------------------------------------------------------------ *)
(** ** Finite sums *)
Definition rsum (f : nat -> R) (l : list nat) : R := fold_right Rplus 0%R (map f l).

Lemma rsum_ext f g l : (forall i, In i l -> f i = g i) -> rsum f l = rsum g l.
Proof.
  intros H. unfold rsum. induction l as [|a l IH]; cbn; auto.
  rewrite (H a) by now left. rewrite IH; auto. intros i Hi. apply H. now right.
Qed.
Lemma rsum_plus f g l : rsum (fun i => f i + g i)%R l = (rsum f l + rsum g l)%R.
Proof. unfold rsum. induction l as [|a l IH]; cbn; [lra|]. rewrite IH. lra. Qed.
Lemma rsum_minus f g l : rsum (fun i => f i - g i)%R l = (rsum f l - rsum g l)%R.
Proof. unfold rsum. induction l as [|a l IH]; cbn; [lra|]. rewrite IH. lra. Qed.
Lemma rsum_scal c f l : rsum (fun i => c * f i)%R l = (c * rsum f l)%R.
Proof. unfold rsum. induction l as [|a l IH]; cbn; [lra|]. rewrite IH. lra. Qed.
Lemma rsum_zero (l : list nat) : rsum (fun _ => 0%R) l = 0%R.
Proof. unfold rsum. induction l as [|a l IH]; cbn; [lra|]. rewrite IH. lra. Qed.
Lemma rsum_swap f l m : rsum (fun i => rsum (f i) m) l = rsum (fun j => rsum (fun i => f i j) l) m.
Proof.
  induction l as [|a l IH]; [symmetry; apply rsum_zero|].
  change (rsum (fun i => rsum (f i) m) (a :: l)) with (rsum (f a) m + rsum (fun i => rsum (f i) m) l)%R. rewrite IH, <- rsum_plus.
  apply rsum_ext. intros j _. reflexivity.
Qed.
Lemma rsum_filter f P l : rsum f (filter P l) = rsum (fun i => if P i then f i else 0)%R l.
Proof.
  unfold rsum. induction l as [|a l IH]; cbn; auto. destruct (P a); cbn; rewrite IH; lra.
Qed.
Lemma rsum_one (l : list nat) : rsum (fun _ => 1%R) l = INR (length l).
Proof. unfold rsum. induction l as [|a l IH]; cbn [map fold_right length]; auto. rewrite IH, S_INR. lra. Qed.
Lemma rsum_count (P : nat -> bool) l : rsum (fun i => if P i then 1 else 0)%R l = INR (length (filter P l)).
Proof. rewrite <- (rsum_filter (fun _ => 1%R)). apply rsum_one. Qed.
Lemma rsum_abs f l : (Rabs (rsum f l) <= rsum (fun i => Rabs (f i)) l)%R.
Proof.
  unfold rsum. induction l as [|a l IH]; cbn; [rewrite Rabs_R0; lra|].
  eapply Rle_trans; [apply Rabs_triang|]. lra.
Qed.
Lemma rsum_le f g l : (forall i, In i l -> f i <= g i)%R -> (rsum f l <= rsum g l)%R.
Proof.
  intros H. unfold rsum. induction l as [|a l IH]; cbn; [lra|]. apply Rplus_le_compat; [apply H; now left|].
  apply IH. intros i Hi. apply H. now right.
Qed.

(* ------------------------------------------------------------------------------------------------ *)
(** ** Strata: the rows with the same covariates *)

Definition same (w : list row) (r r' : nat) : bool :=
  if list_eq_dec Req_EM_T (nth r w []) (nth r' w []) then true else false.
Lemma same_iff w r r' : same w r r' = true <-> nth r w [] = nth r' w [].
Proof. unfold same. destruct (list_eq_dec _ _ _); split; easy. Qed.
Lemma same_sym w r r' : same w r r' = same w r' r.
Proof. apply eq_iff_eq_true. rewrite !same_iff. split; auto. Qed.

(** the rows of the stratum of r, and those of them with treatment g *)
Definition stratum (w : list row) (n r : nat) : list nat := filter (same w r) (seq 0 n).
Definition arm (w : list row) (x : list (list label)) (n r : nat) (g : list label) : list nat :=
  filter (fun r' => eqb (nth r' x []) g) (stratum w n r).
(** the share of treatment g in the stratum of r, and the mean outcome there *)
Definition share (w : list row) (x : list (list label)) (n r : nat) (g : list label) : R :=
  (INR (length (arm w x n r g)) / INR (length (stratum w n r)))%R.
Definition arm_mean (w : list row) (x : list (list label)) (y : list row) (n j r : nat) (g : list label) : R :=
  (rsum (fun r' => nth j (nth r' y []) 0) (arm w x n r g) / INR (length (arm w x n r g)))%R.

Lemma stratum_same w n r r' : same w r r' = true -> stratum w n r = stratum w n r'.
Proof.
  intros H. unfold stratum. apply filter_ext. intros k. apply eq_iff_eq_true. apply same_iff in H. rewrite !same_iff, H. easy.
Qed.
Lemma stratum_self w n r : r < n -> In r (stratum w n r).
Proof. intros H. apply filter_In. split; [apply in_seq; lia|]. now apply same_iff. Qed.

(** averages over strata sum up to the total *)
Lemma strata_total w n g :
  rsum (fun r => rsum g (stratum w n r) / INR (length (stratum w n r)))%R (seq 0 n) = rsum g (seq 0 n).
Proof.
  transitivity (rsum (fun r => rsum (fun r' => if same w r r' then g r' / INR (length (stratum w n r')) else 0)%R (seq 0 n)) (seq 0 n)).
  { apply rsum_ext. intros r Hr. unfold Rdiv at 1. rewrite Rmult_comm, <- rsum_scal. unfold stratum at 2. rewrite rsum_filter.
    apply rsum_ext. intros r' _. destruct (same w r r') eqn:E; auto. rewrite (stratum_same _ _ _ _ E). unfold Rdiv. lra. }
  rewrite (rsum_swap (fun r r' => if same w r r' then g r' / INR (length (stratum w n r')) else 0)%R).
  apply rsum_ext. intros r' Hr'. apply in_seq in Hr'.
  transitivity (g r' / INR (length (stratum w n r')) * rsum (fun r => if same w r' r then 1 else 0)%R (seq 0 n))%R.
  { rewrite <- rsum_scal. apply rsum_ext. intros r _. rewrite (same_sym w r r'). destruct (same w r' r); lra. }
  rewrite rsum_count. fold (stratum w n r').
  assert (0 < INR (length (stratum w n r')))%R.
  { apply lt_0_INR. destruct (stratum w n r') as [|] eqn:E; [|cbn; lia].
    pose proof (stratum_self w n r' ltac:(lia)) as I. rewrite E in I. easy. }
  field. lra.
Qed.

(** the sum of the inverse-propensity terms of one group *)
Lemma ipw_total w x y n j (g : list label) (p h : nat -> R) :
  (forall r r', same w r r' = true -> p r = p r' /\ h r = h r') ->
  (forall r, r < n -> p r = share w x n r g) -> (forall r, r < n -> (0 < share w x n r g)%R) ->
  rsum (fun r => h r + (nth j (nth r y []) 0 - h r) * (if eqb (nth r x []) g then 1 else 0) / (p r + 1/100000))%R (seq 0 n) =
  rsum (fun r => h r + (arm_mean w x y n j r g - h r) * (p r / (p r + 1/100000)))%R (seq 0 n).
Proof.
  intros Hs Hp Hpos. rewrite !rsum_plus. f_equal.
  rewrite <- (strata_total w n). apply rsum_ext. intros r Hr. apply in_seq in Hr.
  set (S := stratum w n r). set (A := arm w x n r g).
  assert (HS : forall r', In r' S -> p r' = p r /\ h r' = h r).
  { intros r' I. apply filter_In in I as [_ I]. destruct (Hs _ _ I). auto. }
  assert (NS : (0 < INR (length S))%R).
  { apply lt_0_INR. unfold S. pose proof (stratum_self w n r ltac:(lia)) as I. destruct (stratum w n r); [easy|cbn; lia]. }
  assert (P : (0 < p r)%R) by (rewrite Hp by lia; apply Hpos; lia).
  assert (NA : (0 < INR (length A))%R).
  { destruct (Nat.eq_dec (length A) 0) as [E0|]; [|apply lt_0_INR; lia].
    exfalso. rewrite Hp in P by lia. unfold share in P. fold A in P. rewrite E0 in P. cbn in P. unfold Rdiv in P. rewrite Rmult_0_l in P. lra. }
  transitivity ((rsum (fun r' => nth j (nth r' y []) 0) A - INR (length A) * h r) / (p r + 1/100000) / INR (length S))%R.
  - f_equal.
    transitivity (rsum (fun r' => / (p r + 1/100000) * ((if eqb (nth r' x []) g then nth j (nth r' y []) 0 else 0) -
                         (if eqb (nth r' x []) g then 1 else 0) * h r))%R S).
    { apply rsum_ext. intros r' I. destruct (HS r' I) as [-> ->]. destruct (eqb (nth r' x []) g); unfold Rdiv; ring. }
    rewrite rsum_scal, rsum_minus. unfold A, arm. fold S. rewrite (rsum_filter (fun r' => nth j (nth r' y []) 0%R)).
    unfold Rdiv. rewrite Rmult_comm. f_equal. f_equal. rewrite <- rsum_count.
    rewrite (Rmult_comm _ (h r)), <- rsum_scal. apply rsum_ext. intros r' _. ring.
  - rewrite (Hp r ltac:(lia)). unfold share, arm_mean. fold S A.
    assert (0 < INR (length A) / INR (length S))%R by (apply Rdiv_lt_0_compat; auto).
    assert (INR (length A) / INR (length S) + 1 / 100000 <> 0)%R by lra.
    assert (INR (length A) * 100000 + INR (length S) <> 0)%R by lra.
    field. repeat split; lra.
Qed.

(** C119, proved part.  DoublyRobust without covariates and without cross fitting, adjustment columns w, any outcome
    model.  If the treatment model gives every row, for the treat and the control group, exactly the share of the group
    among the rows with the same w, and no share is zero, then the ATE differs from the adjusted difference of means
    -- the average over the rows of (mean outcome of the treat group at the same w) minus (that of the control group) --
    only by the 1e-5 in the denominator, by the given formula, which is at most 1e-5 times the average of
    |mean - outcome prediction| / share. *)
Theorem C119_DR_propensity_partial Lx Ly Lf categories cf a s1 d w :
  Forall (fun r => length r = d) (a_x a) -> (forall cs, categories = Some cs -> Forall (@NoDup label) cs) ->
  cf <= 1 -> a_v a = None -> a_w a = Some w ->
  dr_fit Lx Ly Lf categories cf a (dr_new Lf) = (s1, Ok tt) ->
  exists keys mx my, groups_of d (dr_values categories (a_x a)) keys /\
    l_fit Lx w (nd_vec (group_nos keys (a_x a))) = Ok mx /\
    l_fit Ly (own_features keys w (a_x a)) (squeeze (nd_rows (a_y a))) = Ok my /\
    let n := length (a_x a) in
    let sh r g := share w (a_x a) n r g in
    let h r j := row_pred Ly my (nth r w [] ++ repeat 0%R (length keys)) j in
    forall rc rt, asks d keys 0 (a_control a) rc -> In rc keys -> asks d keys 1 (a_treat a) rt -> In rt keys ->
    (forall r g, r < n -> g = rc \/ g = rt -> (row_prob Lx mx (nth r w []) (group_no keys g) = sh r g /\ 0 < sh r g)%R) ->
    forall data, exists e, dr_estimate Lf data QATE false TNone s1 = (s1, Ok e) /\
      forall j,
        let m r g := arm_mean w (a_x a) (a_y a) n j r g in
        nd_at e [j] = (rsum (fun r => (h r j + (m r rt - h r j) * (sh r rt / (sh r rt + 1/100000))) -
                                      (h r j + (m r rc - h r j) * (sh r rc / (sh r rc + 1/100000)))) (seq 0 n) / INR n)%R /\
        (Rabs (nd_at e [j] - rsum (fun r => m r rt - m r rc) (seq 0 n) / INR n)
           <= 1/100000 * (rsum (fun r => Rabs (m r rt - h r j) / sh r rt + Rabs (m r rc - h r j) / sh r rc) (seq 0 n) / INR n))%R.
Proof.
  intros HL HN Hcf Hv Hw H.
  destruct (dr_fit_spec _ _ _ _ _ _ _ _ HL HN H) as (keys & wv & p & h & Hg & Hi & Hall & Hx & Hk & Ew & El & Ep & Eh & Hs).
  rewrite Hv, Hw in Ew. cbn in Ew. injection Ew as <-.
  destruct (dr_cross_x_one _ _ _ _ _ _ Hcf Ep) as (mx & Emx & Encl & Hp).
  destruct (dr_cross_y_one _ _ _ _ _ _ Hcf Eh) as (my & Emy & Hh).
  exists keys, mx, my. do 3 (split; [assumption|]). intros n sh hh rc rt Ac Ic At It Hsh data.
  destruct (Hs rc rt Ac Ic At It) as (e & f & HE & -> & Hf). clear Hs. rewrite Hv in *. cbn zeta in Hf.
  destruct Hf as (g & -> & Hgg). destruct (group_no_lt _ _ It) as [Lt Nt]. destruct (group_no_lt _ _ Ic) as [Lc Nc].
  set (s := mkDR _ _ _ _ _ _ _ _ _ _).
  pose proof (dr_prepare_code Lf data TNone s d keys e rt rt eq_refl HE eq_refl eq_refl It) as P.
  assert (E : dr_effects Lf data s = (s, Ok (mkNd [n; width (a_y a); length keys]
                     (fun idx => g (nth 0 idx 0) (nth 1 idx 0) (nth 2 idx 0))))).
  { unfold dr_effects, mbind, mget, attr, mlift, mret, s. cbn [d_final d_first d_cov d_v negb d_yd d_xd].
    destruct data; reflexivity. }
  rewrite E in P. erewrite at_treat_ok in P; [|reflexivity|exact Lt].
  eexists. split; [unfold dr_estimate, mbind; rewrite P; reflexivity|]. intros j m. cbn [nd_at nth].
  fold (rsum (fun r => g r j (group_no keys rt)) (seq 0 n)).
  assert (F : rsum (fun r => g r j (group_no keys rt)) (seq 0 n) =
              rsum (fun r => (hh r j + (m r rt - hh r j) * (sh r rt / (sh r rt + 1/100000))) -
                             (hh r j + (m r rc - hh r j) * (sh r rc / (sh r rc + 1/100000))))%R (seq 0 n)).
  { assert (Ps : forall k gk, nth_error keys k = Some gk -> k < length keys -> (gk = rc \/ gk = rt) ->
        rsum (fun r => pseudo keys (a_x a) (a_y a) p h r j k) (seq 0 n) =
        rsum (fun r => (hh r j + (m r gk - hh r j) * (sh r gk / (sh r gk + 1/100000))))%R (seq 0 n)).
    { intros k gk Ek Lk Hgk.
      assert (Ekn : group_no keys gk = k) by (apply group_no_nth; [apply Hg|auto]).
      transitivity (rsum (fun r => hh r j + (nth j (nth r (a_y a) []) 0 - hh r j) * (if eqb (nth r (a_x a) []) gk then 1 else 0)
                                    / (row_prob Lx mx (nth r w []) k + 1/100000))%R (seq 0 n)).
      - apply rsum_ext. intros r Hr. apply in_seq in Hr. unfold pseudo. rewrite Hp, (nth_error_nth _ _ [] Ek).
        rewrite Hh by (auto; rewrite own_features_length; lia). rewrite own_features_nth, strip_features by (auto; lia). reflexivity.
      - rewrite (ipw_total w (a_x a) (a_y a) n j gk (fun r => row_prob Lx mx (nth r w []) k) (fun r => hh r j)).
        + apply rsum_ext. intros r Hr. apply in_seq in Hr. rewrite <- Ekn. destruct (Hsh r gk ltac:(lia) Hgk) as [-> _]. reflexivity.
        + intros r r' Hrr. apply same_iff in Hrr. unfold hh. now rewrite Hrr.
        + intros r Hr. rewrite <- Ekn. apply (Hsh r gk Hr Hgk).
        + intros r Hr. apply (Hsh r gk Hr Hgk). }
    rewrite rsum_minus, <- (Ps _ rt Nt Lt ltac:(auto)), <- (Ps _ rc Nc Lc ltac:(auto)), <- rsum_minus.
    apply rsum_ext. intros r _. rewrite Hgg by auto. reflexivity. }
  rewrite F. split; [reflexivity|].
  assert (Hn : (0 < INR n)%R) by (apply lt_0_INR; unfold n; destruct (a_x a); [easy|cbn; lia]).
  assert (Q : forall A B C c, (Rabs (A - B) <= c * C -> Rabs (A / INR n - B / INR n) <= c * (C / INR n))%R).
  { intros A B C c HQ. replace (A / INR n - B / INR n)%R with ((A - B) * / INR n)%R by (unfold Rdiv; ring).
    rewrite Rabs_mult, (Rabs_pos_eq (/ INR n)) by (left; now apply Rinv_0_lt_compat).
    replace (c * (C / INR n))%R with (c * C * / INR n)%R by (unfold Rdiv; ring).
    apply Rmult_le_compat_r; [left; now apply Rinv_0_lt_compat|exact HQ]. }
  apply Q. rewrite <- rsum_minus.
  eapply Rle_trans; [apply rsum_abs|]. rewrite <- rsum_scal. apply rsum_le. intros r Hr. apply in_seq in Hr.
  assert (B : forall gk, gk = rc \/ gk = rt ->
     exists u, (hh r j + (m r gk - hh r j) * (sh r gk / (sh r gk + 1 / 100000)) = m r gk + u /\
     Rabs u <= 1/100000 * (Rabs (m r gk - hh r j) / sh r gk))%R).
  { intros gk Hgk. destruct (Hsh r gk ltac:(lia) Hgk) as [_ Ppos]. set (q := sh r gk) in *. set (D := (m r gk - hh r j)%R).
    exists (- (D * (1/100000 / (q + 1/100000))))%R. split.
    - unfold D. field. lra.
    - rewrite Rabs_Ropp, Rabs_mult. rewrite (Rabs_pos_eq (1/100000 / (q + 1/100000))).
      2:{ apply Rlt_le, Rdiv_lt_0_compat; lra. }
      assert (1/100000 / (q + 1/100000) <= 1/100000 / q)%R.
      { unfold Rdiv. apply Rmult_le_compat_l; [lra|]. apply Rinv_le_contravar; lra. }
      apply Rle_trans with (Rabs D * (1 / 100000 / q))%R; [apply Rmult_le_compat_l; [apply Rabs_pos|auto]|].
      right. field. lra. }
  destruct (B rt ltac:(auto)) as (ut & Et & Bt). destruct (B rc ltac:(auto)) as (uc & Ec & Bc). rewrite Et, Ec.
  replace (m r rt + ut - (m r rc + uc) - (m r rt - m r rc))%R with (ut - uc)%R by ring.
  eapply Rle_trans; [apply (Rabs_triang ut (- uc))|]. rewrite Rabs_Ropp. unfold Rdiv in *. lra.
Qed.

(** the half that is false: with an outcome model that is exact -- it predicts every training outcome and, given the
    indicator of either group, the outcome of that group -- and a treatment model that gives each group 1/2, the true
    effect of every row is 1 but the ATE is below 0.6.  Rows: treatments 0, 0, 0, 1 and outcomes 0, 0, 0, 1. *)
Definition exact_y : learner :=
  @mkLearner unit (fun _ _ => Ok tt) (fun _ r => [nth 2 r 0%R]) (fun _ => None) (fun _ => None) (fun _ _ => []).
Definition ex119 : drargs :=
  mkDrArgs [[LInt 0]; [LInt 0]; [LInt 0]; [LInt 1]] (Some [[0%R]; [0%R]; [0%R]; [0%R]]) None [[0%R]; [0%R]; [0%R]; [1%R]] TNone TNone.
Definition keys119 : list (list label) := [[LInt 0]; [LInt 1]].
Theorem C119_DR_outcome_refuted :
  (forall r, r < 4 -> row_pred exact_y tt (features keys119 (nth r (a_x ex119) []) [0%R]) 0 = nth 0 (nth r (a_y ex119) []) 0%R) /\
  (row_pred exact_y tt (features keys119 [LInt 1] [0%R]) 0 - row_pred exact_y tt (features keys119 [LInt 0] [0%R]) 0 = 1)%R /\
  exists s1 e, dr_fit (toyc 2) exact_y toy None 1 ex119 (dr_new toy) = (s1, Ok tt) /\
    dr_estimate toy None QATE false TNone s1 = (s1, Ok e) /\ (nd_at e [0%nat] < 6/10)%R.
Proof.
  split; [|split].
  - intros r Hr. destruct r as [|[|[|[|r]]]]; [..|lia]; cbn; reflexivity.
  - cbn. lra.
  - eexists _, _. split; [cbv - [Rplus Rminus Rmult Rinv Rdiv INR IZR Rlt]; reflexivity|].
    split; [cbv - [Rplus Rminus Rmult Rinv Rdiv INR IZR Rlt]; reflexivity|].
    cbn [nd_at nth]. cbv - [Rplus Rminus Rmult Rinv Rdiv INR IZR Rlt]. change (INR 2) with (1 + 1)%R. change (INR 4) with (1 + 1 + 1 + 1)%R.
    replace (1 * / (1 + 1))%R with (1/2)%R by field. 
    field_simplify. lra.
Qed.

(** the hypotheses of the proved half are met: two strata, one of them with two rows of the control group *)
Definition ex119b : drargs :=
  mkDrArgs [[LInt 0]; [LInt 1]; [LInt 0]; [LInt 0]; [LInt 1]] (Some [[0%R]; [0%R]; [1%R]; [1%R]; [1%R]]) None
           [[0%R]; [2%R]; [1%R]; [3%R]; [7%R]] TNone TNone.
Definition exact_x : learner :=
  @mkLearner unit (fun _ _ => Ok tt) (fun _ _ => [0%R]) (fun _ => None) (fun _ => Some [LInt 0; LInt 1])
             (fun _ r => [1/2 + nth 0 r 0 * (1/6); 1/2 - nth 0 r 0 * (1/6)]%R).
Example C119_case :
  exists s1, dr_fit exact_x toy toy None 1 ex119b (dr_new toy) = (s1, Ok tt) /\
    forall r g, r < 5 -> In g keys119 ->
      (row_prob exact_x tt (nth r [[0%R]; [0%R]; [1%R]; [1%R]; [1%R]] []) (group_no keys119 g) =
         share [[0%R]; [0%R]; [1%R]; [1%R]; [1%R]] (a_x ex119b) 5 r g /\
       0 < share [[0%R]; [0%R]; [1%R]; [1%R]; [1%R]] (a_x ex119b) 5 r g)%R.
Proof.
  eexists. split; [cbv - [Rplus Rminus Rmult Rinv Rdiv INR IZR Rlt]; reflexivity|].
  intros r g Hr Hg.
  assert (T0 : forall a b, same [[0%R]; [0%R]; [1%R]; [1%R]; [1%R]] a b =
     (eqb (nth a [0;0;1;1;1;2]%nat 2) (nth b [0;0;1;1;1;2]%nat 2))).
  { intros a b. apply eq_iff_eq_true. rewrite same_iff, eqb_eq.
    do 6 (destruct a as [|a]; [do 6 (destruct b as [|b]; [cbn; split; intros Q; try easy; injection Q; lra|]); cbn; split; intros Q; easy || (destruct b; easy)|]).
    do 6 (destruct b as [|b]; [cbn; split; intros Q; easy || (destruct a; easy)|]). cbn. destruct a, b; easy. }
  unfold share, arm, stratum.
  rewrite (filter_ext _ _ (T0 r)).
  destruct r as [|[|[|[|[|r]]]]]; [..|lia]; destruct Hg as [<-|[<-|[]]]; cbn; split; lra.
Qed.
Print Assumptions C119_DR_propensity_partial.
