(** C141-C149: bounds on causal effects without identification (ApproxBound). *)
From Coq Require Import ZArith Reals Lra.
From Verif Require Import Base ApiModel EstUtilsModel EstUtilsProps MetaModel MetaSpec MetaProofs MetaProps
  CrossFitModel CrossFitProofs DrModel DrProofs DrSpec DrProps DrRobust BoundModel BoundProofs.
Local Notation length := List.length.
Local Notation concat := List.concat.

(* ------------------------------------------------------------------------------------------------ *)
(** ** Lemmas *)

Lemma filter_length_map {A B} (f : A -> B) (P : B -> bool) (Q : A -> bool) l :
  (forall a, In a l -> P (f a) = Q a) -> length (filter P (map f l)) = length (filter Q l).
Proof.
  induction l as [|a l IH]; cbn; intros H; [reflexivity|]. rewrite (H a (or_introl eq_refl)).
  destruct (Q a); cbn; rewrite IH; auto.
Qed.
Lemma filter_all {A} (P : A -> bool) l : (forall a, In a l -> P a = true) -> filter P l = l.
Proof. induction l as [|a l IH]; cbn; intros H; [reflexivity|]. rewrite (H a (or_introl eq_refl)), IH; auto. Qed.

Lemma same_group keys r g : In r keys -> In g keys -> group_no keys r = group_no keys g -> r = g.
Proof. intros H1 H2 E. destruct (group_no_lt _ _ H1) as [_ E1]. destruct (group_no_lt _ _ H2) as [_ E2]. congruence. Qed.

Lemma code_is keys r g : In r keys -> In g keys -> (Z.of_nat (group_no keys r) =? Z.of_nat (group_no keys g))%Z = eqb r g.
Proof.
  intros H1 H2. destruct (eqb_spec r g) as [->|N]; [apply Z.eqb_refl|].
  apply Z.eqb_neq. intros E. apply Nat2Z.inj in E. now apply (same_group keys) in E.
Qed.

Lemma count_label_of keys x g : (forall r, In r x -> In r keys) -> In g keys ->
  count_label (zcodes keys x) (group_no keys g) = length (filter (fun r => eqb r g) x).
Proof. intros Hx Hg. unfold count_label, zcodes. apply filter_length_map. intros r Hr. now apply code_is; [apply Hx|]. Qed.

Lemma shares_of keys x : NoDup keys -> (forall r, In r x -> In r keys) -> (forall g, In g keys -> In g x) ->
  shares (zcodes keys x) (length keys) = map (share_of x) keys.
Proof.
  intros ND Hx Hk. unfold shares. rewrite filter_all.
  - rewrite map_map. assert (Lz : length (zcodes keys x) = length x) by apply map_length. rewrite Lz. rewrite (map_eq_nth (share_of x) keys []). apply map_ext_in. intros q Hq.
    apply in_seq in Hq. unfold share_of. f_equal. f_equal.
    assert (Hn : In (nth q keys []) keys) by (apply nth_In; lia).
    rewrite <- (count_label_of keys x (nth q keys []) Hx Hn). f_equal. symmetry. apply group_no_nth; [assumption|].
    apply nth_error_nth'. lia.
  - intros c Hc. apply in_map_iff in Hc as (q & <- & Hq). apply in_seq in Hq.
    assert (Hn : In (nth q keys []) keys) by (apply nth_In; lia).
    assert (Eq : group_no keys (nth q keys []) = q) by (apply group_no_nth; [assumption|apply nth_error_nth'; lia]).
    rewrite <- Eq, (count_label_of _ _ _ Hx Hn).
    assert (I : In (nth q keys []) (filter (fun r => eqb r (nth q keys [])) x)).
    { apply filter_In. split; [now apply Hk|]. now apply eqb_eq. }
    destruct (filter _ _); [destruct I|reflexivity].
Qed.

Lemma mask_of keys x g : (forall r, In r x -> In r keys) -> In g keys ->
  forall r, r < length x -> nth r (map (fun z => (z =? Z.of_nat (group_no keys g))%Z) (zcodes keys x)) false = true <-> nth r x [] = g.
Proof.
  intros Hx Hg r Hr. unfold zcodes. rewrite map_map.
  rewrite (nth_indep _ false ((fun r => (Z.of_nat (group_no keys r) =? Z.of_nat (group_no keys g))%Z) [])) by now rewrite map_length.
  rewrite (map_nth (fun r => (Z.of_nat (group_no keys r) =? Z.of_nat (group_no keys g))%Z)).
  rewrite code_is by (auto; apply Hx, nth_In; exact Hr). apply eqb_eq.
Qed.

Lemma ab_enc_pure Lx Ly A (m : M encs A) (s : ab Lx Ly) r : m (b_enc s) = (b_enc s, r) -> ab_enc m s = (s, r).
Proof. intros H. unfold ab_enc. rewrite H. destruct s; reflexivity. Qed.

Lemma ab_treat_ok Lx Ly (s : ab Lx Ly) d keys (treat : bool) t r :
  Enc (b_enc s) d keys -> b_isf s = true -> asks d keys (if treat then 1 else 0) t r -> In r keys ->
  ab_enc (get_tr_ctrl t (fun v => sl_comp (b_isf s) v None) treat) s = (s, Ok (Z.of_nat (group_no keys r))).
Proof.
  intros HE Hi HA Hr. destruct (group_no_lt _ _ Hr) as [_ E]. apply ab_enc_pure.
  eapply get_tr_ctrl_ok; eauto. intros x _. rewrite Hi. apply sl_comp_ready.
Qed.

(** the estimate on the training data of a fitted object *)
Lemma ab_prepare_train Lx Ly (s : ab Lx Ly) d keys p treat control rt rk yu yl :
  Enc (b_enc s) d keys -> b_isf s = true -> b_prob s = Some p -> (b_named s = false -> b_v s = None) -> (b_named s = true -> b_v s <> None) ->
  asks d keys 1 treat rt -> In rt keys -> asks d keys 0 control rk -> In rk keys ->
  ab_prepare Lx Ly None treat control yu yl s =
  (s, ab_bounds Ly (b_xd s) (b_my s) (Z.of_nat (group_no keys rt)) (Z.of_nat (group_no keys rk)) yu yl
        (mkWork (answers (b_v s) (length (b_y s))) (b_v s) (b_y s) p
           (map (fun z => (z =? Z.of_nat (group_no keys rt))%Z) (b_x s)) (map (fun z => (z =? Z.of_nat (group_no keys rk))%Z) (b_x s)))).
Proof.
  intros HE Hi Hp Hn1 Hn2 At It Ak Ik. unfold ab_prepare, mbind at 1, mget. rewrite Hp. unfold mbind at 1, attr, mlift.
  cbn zeta. rewrite (mbind_ok _ _ _ (ab_treat_ok _ _ s d keys true _ _ HE Hi At It)).
  rewrite (mbind_ok _ _ _ (ab_treat_ok _ _ s d keys false _ _ HE Hi Ak Ik)).
  destruct (b_named s); cbn [negb]; unfold mbind, mret.
  - destruct (b_v s); [reflexivity|]. now destruct (Hn2 eq_refl).
  - rewrite (Hn1 eq_refl). reflexivity.
Qed.

Lemma vat_one a r : vat [a] r = a.
Proof. reflexivity. Qed.
Lemma vat_col (p : list row) q r : length p <> 1 -> vat (map (fun x => nth q x 0%R) p) r = nth q (nth r p []) 0%R.
Proof.
  intros H. unfold vat. rewrite map_length. rewrite (proj2 (Nat.eqb_neq _ _) H).
  destruct (Nat.lt_ge_cases r (length p)) as [Hr|Hr].
  - rewrite (nth_indep _ 0%R ((fun x => nth q x 0%R) [])) by now rewrite map_length. now rewrite (map_nth (fun x => nth q x 0%R)).
  - rewrite !nth_overflow by (rewrite ?map_length; cbn; try lia; now rewrite (nth_overflow p) by lia; cbn; lia). now destruct q.
Qed.

(** what an estimate on the training data computes *)
Lemma ab_estimate_train Lx Ly categories disc xp a s1 d :
  Forall (fun r => length r = d) (q_x a) -> (forall cs, categories = Some cs -> Forall (@NoDup label) cs) ->
  ab_fit Lx Ly categories disc a (ab_new Lx Ly xp) = (s1, Ok tt) ->
  exists keys my,
    groups_of d (dr_values categories (q_x a)) keys /\ (d = 1 -> categories = None -> increasing keys) /\
    (forall r, In r (q_x a) -> In r keys) /\
    l_fit Ly (group_inputs keys (q_x a) (q_v a)) (squeeze (nd_rows (q_y a))) = Ok my /\
    forall P treat control rt rk yu yl,
      propensity Lx xp keys a P -> l_dim Ly my = None ->
      Forall (fun r => length r = 1) (q_y a) -> length (q_y a) = length (q_x a) ->
      asks d keys 1 treat rt -> In rt (q_x a) -> asks d keys 0 control rk -> In rk (q_x a) ->
      exists U L, upper_bound (q_x a) (q_y a) rt rk yu U /\ lower_bound (q_x a) (q_y a) rt rk yl L /\
        ab_prepare Lx Ly None treat control yu yl s1 =
        (s1, Ok (vectors U L (answers (q_v a) (length (q_x a))) (fun r => P r rt) (fun r => P r rk)
                   (outcome_of Ly my keys (q_v a) rt) (outcome_of Ly my keys (q_v a) rk))) /\ b_isf s1 = true.
Proof.
  intros HL HN H. destruct (ab_fit_spec _ _ _ _ _ _ _ _ HL HN H) as (keys & my & e & p & mx & Hg & Hi & Hall & Hx & HE & Hv & Hm & -> & Hp).
  exists keys, my. do 4 (split; [assumption|]). intros P treat control rt rk yu yl HP Hd Hy1 Hy At It Ak Ik.
  destruct (Enc_keys HE) as (ND & _ & _).
  assert (HH : Forall (fun r => length r = length keys) p /\ (length p = 1 \/ length p = answers (q_v a) (length (q_x a))) /\
    forall g r, In g keys -> r < answers (q_v a) (length (q_x a)) -> vat (map (fun r => nth (group_no keys g) r 0%R) p) r = P r g).
  { unfold propensity in HP. destruct xp as [p0|].
    - subst p. destruct HP as [HP1 HP2]. split; [repeat constructor; assumption|]. split; [auto|]. intros g r Ig Hr. cbn [map].
      rewrite vat_one. symmetry. now apply HP2.
    - destruct (q_v a) as [v|] eqn:Ev.
      + destruct HP as (m & HP1 & HP2 & HP3). destruct Hp as (_ & m' & Em & _ & ->). assert (m = m') as <- by congruence.
        specialize (Hv v eq_refl). cbn [answers].
        assert (Lp : length (proba_rows Lx m v) = length (q_x a)) by (unfold proba_rows; now rewrite map_length).
        split; [|split; [auto|]].
        * apply Forall_forall. intros r Hr. unfold proba_rows in Hr. apply in_map_iff in Hr as (w & <- & _).
          rewrite map_length, seq_length. exact HP2.
        * intros g r Ig Hr. rewrite (HP3 r g ltac:(lia) Ig). unfold row_prob.
          assert (N : forall k, k < length (q_x a) -> nth (group_no keys g) (nth k (proba_rows Lx m v) []) 0%R = nth (group_no keys g) (l_proba Lx m (nth k v [])) 0%R).
          { intros k Hk. unfold proba_rows. rewrite (nth_map_in _ v [] []) by lia. rewrite (nth_map_in _ (seq 0 (n_classes Lx m)) 0 0%R).
            - rewrite seq_nth; [reflexivity|]. rewrite HP2. now apply group_no_lt.
            - rewrite seq_length, HP2. now apply group_no_lt. }
          destruct (Nat.eq_dec (length (proba_rows Lx m v)) 1) as [E1|N1].
          -- destruct (proba_rows Lx m v) as [|w [|w' l]] eqn:Er; try discriminate E1. cbn [map]. rewrite vat_one.
             assert (r = 0) as -> by lia. exact (N 0 Hr).
          -- rewrite vat_col by assumption. now apply N.
      + destruct HP as [HP1 HP2]. subst p. rewrite (shares_of keys _ ND Hall HP1). split; [repeat constructor; now rewrite map_length|].
        split; [auto|]. intros g r Ig Hr. cbn [map]. rewrite vat_one. rewrite (HP2 r g Ig).
        destruct (group_no_lt _ _ Ig) as [Lg Ng]. rewrite (nth_map_in _ keys []) by assumption. f_equal. now apply nth_error_nth. }
  destruct HH as (H1 & H2 & H3).
  destruct (ab_bounds_ok Ly keys my (q_x a) (q_y a) (q_v a) p rt rk
     (map (fun z => (z =? Z.of_nat (group_no keys rt))%Z) (zcodes keys (q_x a)))
     (map (fun z => (z =? Z.of_nat (group_no keys rk))%Z) (zcodes keys (q_x a))) yu yl) as (U & L & HU & HLo & E); auto.
  { unfold zcodes. now rewrite !map_length. }
  { apply mask_of; auto. }
  { unfold zcodes. now rewrite !map_length. }
  { apply mask_of; auto. }
  exists U, L. split; [exact HU|]. split; [exact HLo|]. split; [|reflexivity].
  rewrite (ab_prepare_train Lx Ly _ d keys p treat control rt rk yu yl); cbn [b_enc b_isf b_prob b_v b_named b_y b_x b_xd b_mx b_my]; auto.
  - f_equal. rewrite Hy. rewrite E. f_equal. apply vectors_ext. intros r Hr. rewrite !H3; auto.
  - destruct (q_v a); [easy|auto].
  - destruct (q_v a); [easy|]. intros Q. discriminate Q.
Qed.

(* ------------------------------------------------------------------------------------------------ *)
(** ** C141, C143: the bounds *)

(** C141: with covariates one interval per row, otherwise one interval.  With P r g the propensity of group g, m g r the
    outcome model's prediction for row r had its group been g, and U, L the given (or observed) extreme outcomes, the
    interval is [P(t) m(t) + (1-P(t)) L - (P(c) m(c) + (1-P(c)) U), P(t) m(t) + (1-P(t)) U - (P(c) m(c) + (1-P(c)) L)]. *)
Theorem C141_AB_formula Lx Ly categories disc xp a s1 d :
  Forall (fun r => length r = d) (q_x a) -> (forall cs, categories = Some cs -> Forall (@NoDup label) cs) ->
  ab_fit Lx Ly categories disc a (ab_new Lx Ly xp) = (s1, Ok tt) ->
  exists keys my,
    groups_of d (dr_values categories (q_x a)) keys /\ (d = 1 -> categories = None -> increasing keys) /\
    l_fit Ly (group_inputs keys (q_x a) (q_v a)) (squeeze (nd_rows (q_y a))) = Ok my /\
    forall P treat control rt rk yu yl,
      propensity Lx xp keys a P -> l_dim Ly my = None ->
      Forall (fun r => length r = 1) (q_y a) -> length (q_y a) = length (q_x a) ->
      asks d keys 1 treat rt -> In rt (q_x a) -> asks d keys 0 control rk -> In rk (q_x a) ->
      let m g r := outcome_of Ly my keys (q_v a) g r in
      let rows := seq 0 (answers (q_v a) (length (q_x a))) in
      exists U L, upper_bound (q_x a) (q_y a) rt rk yu U /\ lower_bound (q_x a) (q_y a) rt rk yl L /\
        snd (ab_estimate Lx Ly None treat control yu yl NoAssump s1) = Ok (Interval
          (map (fun r => P r rt * m rt r + (1 - P r rt) * L - (P r rk * m rk r + (1 - P r rk) * U))%R rows)
          (map (fun r => P r rt * m rt r + (1 - P r rt) * U - (P r rk * m rk r + (1 - P r rk) * L))%R rows)).
Proof.
  intros HL HN H. destruct (ab_estimate_train _ _ _ _ _ _ _ _ HL HN H) as (keys & my & H1 & H2 & _ & H3 & F).
  exists keys, my. do 3 (split; [assumption|]). intros P treat control rt rk yu yl HP Hd Hy1 Hy At It Ak Ik m rows.
  destruct (F P treat control rt rk yu yl HP Hd Hy1 Hy At It Ak Ik) as (U & L & HU & HLo & E & Hf).
  exists U, L. split; [exact HU|]. split; [exact HLo|].
  unfold ab_estimate, mbind at 1, mget. rewrite Hf. cbn [negb]. rewrite (mbind_ok _ _ _ E). unfold mret. cbn [snd r_lower r_upper vectors].
  f_equal. f_equal; apply map_ext; intros r; unfold bound_lower, bound_upper; subst m; cbn beta; lra.
Qed.

(** C143: the interval has width (2 - P(t) - P(c)) (U - L); it contains 0 when the propensities are probabilities of two
    groups and the predictions lie within the bounds of the outcome; the assumptions of monotonicity replace one end by 0 *)
Theorem C143_AB_zero_width Lx Ly categories disc xp a s1 d :
  Forall (fun r => length r = d) (q_x a) -> (forall cs, categories = Some cs -> Forall (@NoDup label) cs) ->
  ab_fit Lx Ly categories disc a (ab_new Lx Ly xp) = (s1, Ok tt) ->
  exists keys my,
    groups_of d (dr_values categories (q_x a)) keys /\ (d = 1 -> categories = None -> increasing keys) /\
    l_fit Ly (group_inputs keys (q_x a) (q_v a)) (squeeze (nd_rows (q_y a))) = Ok my /\
    forall P treat control rt rk yu yl,
      propensity Lx xp keys a P -> l_dim Ly my = None ->
      Forall (fun r => length r = 1) (q_y a) -> length (q_y a) = length (q_x a) ->
      asks d keys 1 treat rt -> In rt (q_x a) -> asks d keys 0 control rk -> In rk (q_x a) ->
      let m g r := outcome_of Ly my keys (q_v a) g r in
      let n := answers (q_v a) (length (q_x a)) in
      let call k := snd (ab_estimate Lx Ly None treat control yu yl k s1) in
      exists U L lo up, upper_bound (q_x a) (q_y a) rt rk yu U /\ lower_bound (q_x a) (q_y a) rt rk yl L /\
        call NoAssump = Ok (Interval (map lo (seq 0 n)) (map up (seq 0 n))) /\
        call NonNegative = Ok (Interval (repeat 0%R n) (map up (seq 0 n))) /\
        call NonPositive = Ok (Interval (map lo (seq 0 n)) (repeat 0%R n)) /\
        call OtherAssump = Err AssertionError /\
        forall r, r < n ->
          (up r - lo r = (2 - P r rt - P r rk) * (U - L))%R /\
          ((0 <= P r rt)%R -> (0 <= P r rk)%R -> (P r rt + P r rk <= 1)%R ->
           (L <= m rt r <= U)%R -> (L <= m rk r <= U)%R -> (lo r <= 0 <= up r)%R).
Proof.
  intros HL HN H. destruct (ab_estimate_train _ _ _ _ _ _ _ _ HL HN H) as (keys & my & H1 & H2 & _ & H3 & F).
  exists keys, my. do 3 (split; [assumption|]). intros P treat control rt rk yu yl HP Hd Hy1 Hy At It Ak Ik m n call.
  destruct (F P treat control rt rk yu yl HP Hd Hy1 Hy At It Ak Ik) as (U & L & HU & HLo & E & Hf).
  exists U, L, (fun r => bound_lower U L (P r rt) (P r rk) (m rt r) (m rk r)), (fun r => bound_upper U L (P r rt) (P r rk) (m rt r) (m rk r)).
  split; [exact HU|]. split; [exact HLo|].
  assert (C : forall k, call k = snd ((let b := vectors U L n (fun r => P r rt) (fun r => P r rk) (m rt) (m rk) in
     let zero := map (fun _ => 0%R) (r_lower b) in
    match k with
    | NoAssump => mret (Interval (r_lower b) (r_upper b))
    | NonNegative => mret (Interval zero (r_upper b))
    | NonPositive => mret (Interval (r_lower b) zero)
    | Optimal => mret (Intervals (r_u1 b, r_l1 b) (r_u2 b, r_l2 b))
    | OtherAssump => mlift (Err AssertionError)
    end) s1)).
  { intros k. unfold call, ab_estimate, mbind at 1, mget. rewrite Hf. cbn [negb]. rewrite (mbind_ok _ _ _ E). reflexivity. }
  assert (Z : forall (f : nat -> R), map (fun _ : R => 0%R) (map f (seq 0 n)) = repeat 0%R n).
  { intros f. rewrite map_map. symmetry. apply repeat_map_seq. }
  rewrite !C. cbn zeta. cbn [r_lower r_upper vectors]. unfold mret, mlift. cbn [snd]. rewrite !Z.
  do 4 (split; [reflexivity|]). intros r Hr. unfold bound_lower, bound_upper. split; [lra|]. intros P1 P2 P3 M1 M2. split; nra.
Qed.

(* ------------------------------------------------------------------------------------------------ *)
(** ** C142: the interval is valid and cannot be narrowed *)

(** potential outcomes: Y r g is the outcome of unit r had its group been g; the observed outcome is that of its own group *)
Definition consistent (x : list (list label)) (y : list row) (Y : nat -> list label -> R) : Prop :=
  forall r, r < length x -> Y r (nth r x []) = nth 0 (nth r y []) 0%R.
Definition within (n : nat) (L U : R) (Y : nat -> list label -> R) (g : list label) : Prop := forall r, r < n -> (L <= Y r g <= U)%R.
(** the average effect of group t against group c *)
Definition ate (n : nat) (Y : nat -> list label -> R) (t c : list label) : R := (rsum (fun r => Y r t - Y r c)%R (seq 0 n) / INR n)%R.
(** the mean outcome of a group *)
Definition members (x : list (list label)) (g : list label) : list nat := filter (fun r => eqb (nth r x []) g) (seq 0 (length x)).
Definition mean_of (x : list (list label)) (y : list row) (g : list label) : R :=
  (rsum (fun r => nth 0 (nth r y []) 0%R) (members x g) / INR (length (members x g)))%R.

Lemma members_count x g : length (filter (fun r => eqb r g) x) = length (members x g).
Proof.
  unfold members. rewrite <- (filter_length_map (fun r => nth r x []) (fun r => eqb r g)) by reflexivity.
  rewrite <- (map_eq_nth (fun r => r) x []). now rewrite map_id.
Qed.
Lemma members_ne x g : In g x -> INR (length (members x g)) <> 0%R.
Proof.
  intros H. rewrite <- members_count. apply not_0_INR. assert (I : In g (filter (fun r => eqb r g) x)) by (apply filter_In; split; [exact H|now apply eqb_eq]).
  destruct (filter _ _); [destruct I|easy].
Qed.

Lemma share_mean x y g (b : R) : In g x ->
  (INR (length x) * (share_of x g * mean_of x y g + (1 - share_of x g) * b))%R =
  rsum (fun r => if eqb (nth r x []) g then nth 0 (nth r y []) 0 else b)%R (seq 0 (length x)).
Proof.
  intros Hg. assert (Hn : INR (length x) <> 0%R) by (apply not_0_INR; destruct x; [destruct Hg|easy]).
  assert (Hc := members_ne x g Hg). unfold share_of, mean_of. rewrite members_count.
  transitivity (rsum (fun r => nth 0 (nth r y []) 0) (members x g) + (INR (length x) - INR (length (members x g))) * b)%R; [field; split; assumption|].
  unfold members at 1. rewrite rsum_filter. unfold members. rewrite <- rsum_count.
  assert (S1 : INR (length x) = rsum (fun _ => 1%R) (seq 0 (length x))) by (rewrite rsum_one, seq_length; reflexivity).
  rewrite S1. rewrite <- rsum_minus. rewrite (Rmult_comm _ b), <- rsum_scal, <- rsum_plus. apply rsum_ext. intros r _.
  destruct (eqb (nth r x []) g); lra.
Qed.

(** C142: without covariates, if the outcome model predicts group means, then for every assignment of potential outcomes that
    agrees with the data and stays within [L, U], the average effect lies in the interval; and when the two groups differ and
    the data themselves stay within [L, U], both ends are the average effect of such an assignment. *)
Theorem C142_AB_valid_sharp Lx Ly categories disc a s1 d :
  Forall (fun r => length r = d) (q_x a) -> (forall cs, categories = Some cs -> Forall (@NoDup label) cs) -> q_v a = None ->
  ab_fit Lx Ly categories disc a (ab_new Lx Ly None) = (s1, Ok tt) ->
  exists keys my,
    groups_of d (dr_values categories (q_x a)) keys /\ (d = 1 -> categories = None -> increasing keys) /\
    l_fit Ly (map (indicator keys) (q_x a)) (squeeze (nd_rows (q_y a))) = Ok my /\
    forall treat control rt rk U L,
      let x := q_x a in let y := q_y a in let n := length x in
      (forall g, In g keys -> In g x) -> l_dim Ly my = None -> Forall (fun r => length r = 1) y -> length y = n ->
      (forall g, In g keys -> nth 0 (l_pred Ly my (indicator keys g)) 0%R = mean_of x y g) ->
      asks d keys 1 treat rt -> In rt x -> asks d keys 0 control rk -> In rk x ->
      exists lo up, snd (ab_estimate Lx Ly None treat control (Some U) (Some L) NoAssump s1) = Ok (Interval [lo] [up]) /\
        (forall Y, consistent x y Y -> within n L U Y rt -> within n L U Y rk -> (lo <= ate n Y rt rk <= up)%R) /\
        (rt <> rk -> (forall b, outcomes_of x y rt rk b -> (L <= b <= U)%R) ->
         (exists Y, consistent x y Y /\ within n L U Y rt /\ within n L U Y rk /\ ate n Y rt rk = lo) /\
         (exists Y, consistent x y Y /\ within n L U Y rt /\ within n L U Y rk /\ ate n Y rt rk = up)).
Proof.
  intros HL HN Hv H. destruct (ab_estimate_train _ _ _ _ _ _ _ _ HL HN H) as (keys & my & H1 & H2 & Hall & H3 & F).
  assert (EI : group_inputs keys (q_x a) (q_v a) = map (indicator keys) (q_x a)).
  { unfold group_inputs. rewrite Hv. rewrite (map_eq_nth (indicator keys) _ []). apply map_ext. intros r. unfold group_input. cbn [cov]. apply app_nil_r. }
  rewrite EI in H3. exists keys, my. do 3 (split; [assumption|]). intros treat control rt rk U L x y n Hocc Hd Hy1 Hy HM At It Ak Ik.
  assert (HP : propensity Lx None keys a (fun _ g => share_of (q_x a) g)) by (unfold propensity; rewrite Hv; auto).
  destruct (F _ treat control rt rk (Some U) (Some L) HP Hd Hy1 Hy At It Ak Ik) as (U' & L' & HU & HLo & E & Hf).
  cbn in HU, HLo. subst U' L'.
  assert (EO : forall g, In g x -> outcome_of Ly my keys (q_v a) g 0 = mean_of x y g).
  { intros g Hg. unfold outcome_of, group_input. rewrite Hv. cbn [cov]. rewrite app_nil_r. apply HM, Hall. exact Hg. }
  assert (Hn : (0 < INR n)%R) by (apply lt_0_INR; unfold n; destruct x; [destruct It|cbn; lia]).
  set (side := fun g b => rsum (fun r => if eqb (nth r x []) g then nth 0 (nth r y []) 0 else b)%R (seq 0 n)).
  assert (SM : forall g b, In g x -> (share_of x g * mean_of x y g + (1 - share_of x g) * b)%R = (side g b / INR n)%R).
  { intros g b Hg. unfold side, n. rewrite <- share_mean by exact Hg. field. apply Rgt_not_eq. exact Hn. }
  exists ((side rt L - side rk U) / INR n)%R, ((side rt U - side rk L) / INR n)%R. split; [|split].
  - unfold ab_estimate, mbind at 1, mget. rewrite Hf. cbn [negb]. rewrite (mbind_ok _ _ _ E). unfold mret. cbn [snd r_lower r_upper vectors].
    rewrite Hv. cbn [answers seq map]. rewrite <- Hv. unfold bound_lower, bound_upper. fold x y. rewrite !EO by assumption.
    unfold Rdiv. rewrite !Rmult_minus_distr_r. fold (Rdiv (side rt L) (INR n)) (Rdiv (side rt U) (INR n)) (Rdiv (side rk L) (INR n)) (Rdiv (side rk U) (INR n)).
    rewrite <- !SM by assumption. f_equal. f_equal; f_equal; lra.
  - intros Y HC HT HK. unfold ate. rewrite rsum_minus.
    assert (B : forall g, In g x -> within n L U Y g -> (side g L <= rsum (fun r => Y r g) (seq 0 n) <= side g U)%R).
    { intros g Hg HB. split; apply rsum_le; intros r Hr; apply in_seq in Hr; specialize (HB r ltac:(lia));
        destruct (eqb_spec (nth r x []) g) as [Eg|_]; try lra; rewrite <- Eg, (HC r (proj2 Hr)); lra. }
    pose proof (B rt It HT). pose proof (B rk Ik HK).
    split; apply Rmult_le_compat_r; try (apply Rlt_le, Rinv_0_lt_compat; exact Hn); lra.
  - intros Hne Hb.
    assert (G : forall bt bk, (L <= bt <= U)%R -> (L <= bk <= U)%R ->
       exists Y, consistent x y Y /\ within n L U Y rt /\ within n L U Y rk /\ ate n Y rt rk = ((side rt bt - side rk bk) / INR n)%R).
    { intros bt bk Bt Bk.
      exists (fun r g => if eqb (nth r x []) g then nth 0 (nth r y []) 0%R else if eqb g rt then bt else bk).
      split; [|split; [|split]].
      - intros r Hr. now rewrite (proj2 (eqb_eq _ _) eq_refl).
      - intros r Hr. destruct (eqb_spec (nth r x []) rt) as [Eg|_].
        + apply Hb. exists r. split; [exact Hr|]. auto.
        + now rewrite (proj2 (eqb_eq _ _) eq_refl).
      - intros r Hr. destruct (eqb_spec (nth r x []) rk) as [Eg|_].
        + apply Hb. exists r. split; [exact Hr|]. auto.
        + destruct (eqb_spec rk rt) as [Ee|_]; [now symmetry in Ee|]. exact Bk.
      - unfold ate. rewrite rsum_minus. f_equal. f_equal; apply rsum_ext; intros r _.
        + now rewrite (proj2 (eqb_eq _ _) (eq_refl rt)).
        + destruct (eqb_spec rk rt) as [Ee|_]; [now symmetry in Ee|]. reflexivity. }
    assert (LU : (L <= U)%R).
    { apply (In_nth _ _ []) in It as (i & Hi1 & Hi2). assert (Q := Hb _ (ex_intro _ i (conj Hi1 (conj (or_introl Hi2) eq_refl)))). lra. }
    split; apply G; lra.
Qed.
