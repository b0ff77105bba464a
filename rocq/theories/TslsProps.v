(** C150-C152: what NP2SLS computes, and when that is the effect. *)
From Coq Require Import ZArith Reals Lra Psatz Sorting.Sorted.
From Verif Require Import Base ApiModel EstUtilsModel EstUtilsProps MetaModel MetaSpec MetaProofs MetaProps CrossFitModel DrModel DrProofs DrRobust
  MetaRefit DmlModel DmlProofs DmlProps BoundProofs TslsModel TslsSpec TslsProofs.
Local Notation length := List.length.
Local Notation concat := List.concat.

(** C150: fit trains x_model on (basis of z times basis of v, w, 1) with the basis functions of the treatment as targets,
    and y_model on (predictions of x_model times basis of v, w, 1) with the outcomes as targets; estimate() is the
    difference of the predictions of y_model at the basis functions of treat and of control. *)
Theorem C150_NP_formula Lx Ly a n x_d z_d k_v k_w x z cats phi zeta psi :
  good_call a n x_d z_d k_v k_w x z cats phi zeta psi -> two_d Lx ->
  let pv := option_map (map psi) in
  exists st : Mdl Ly -> nstate Ly,
    np_fit Lx Ly a =
    (do mx <- l_fit Lx (drows n (fun r => zeta (nth r z [])) (pv (n_v a)) (n_w a)) (nd_rows (map phi x));
     do my <- l_fit Ly (drows n (fun r => l_pred Lx mx (drow (zeta (nth r z [])) (option_map psi (at_row (n_v a) r)) (at_row (n_w a) r)))
                              (pv (n_v a)) (n_w a)) (nd_rows (n_y a));
     Ok (st my)) /\
    forall my data n' v w treat control t c, est_data a n k_v k_w data n' v w ->
      t_means n' x_d 1 cats treat t -> t_means n' x_d 0 cats control c ->
      exists e, np_estimate (Some (st my)) data treat control NQNone = Ok e /\
        entrywise Rminus (predict Ly my (drows n' (fun r => phi (nth r t [])) (pv v) w))
                         (predict Ly my (drows n' (fun r => phi (nth r c [])) (pv v) w)) e.
Proof.
  intros G H2 pv. destruct (np_fit_ok Lx Ly a n x_d z_d k_v k_w x z cats phi zeta psi G H2) as (fx & fv & Ax & Av & E).
  exists (fitted_state a n x_d (width (n_y a)) cats fx fv psi). split; [exact E|].
  intros my data n' v w treat control t c HD Ht Hc. unfold np_estimate.
  destruct G as [g_n0 g_xd0 g_zd0 g_kv0 g_y0 g_x0 g_xr0 g_z0 g_zr0 g_v0 g_w0 g_phi0 g_zeta0 g_psi0].
  rewrite (np_prepare_ok a n k_v k_w x_d (width (n_y a)) cats fx fv phi psi my data n' v w treat control t c
    g_n0 g_xd0 (x_means_cats _ _ _ _ g_x0) g_v0 g_w0 Ax Av HD Ht Hc).
  cbn [bind fst snd]. apply zip_same. apply predict_shape. now rewrite !drows_length.
Qed.

(** an unfitted object refuses *)
Theorem C150_NP_not_fitted L data treat control q : np_estimate (None : option (nstate L)) data treat control q = Err AssertionError.
Proof. reflexivity. Qed.

(* ------------------------------------------------------------------------------------------------ *)
(** ** Least squares *)

(** linear models with intercepts: model m of L predicts outcome j by the coefficients c j and the intercept b j *)
Definition linear_model (L : learner) (m : Mdl L) (d : nat) (c : nat -> row) (b : nat -> R) : Prop :=
  l_dim L m = Some d /\ forall z, l_pred L m z = map (fun j => linear_part (c j) z + b j)%R (seq 0 d).
(** ... with the smallest sum of squares on the training data X, Y *)
Definition ols (L : learner) (X Y : list row) (m : Mdl L) (c : nat -> row) (b : nat -> R) : Prop :=
  linear_model L m (width Y) c b /\
  forall j c' b', j < width Y -> (sq_error X Y j (c j) (b j) <= sq_error X Y j c' b')%R.

(** the rows X determine the difference of two rows: it is a combination of them *)
Definition spans (X : list row) (d : nat) (p q : row) : Prop :=
  exists alpha, forall k, k < d -> rsum (fun r => alpha r * nth k (nth r X []) 0)%R (seq 0 (length X)) = (nth k p 0 - nth k q 0)%R.

(** if the outcome is linear up to errors orthogonal to the columns of X, least squares gives that linear function on
    the rows of X *)
Lemma ols_orthogonal X Y d j c b B : Forall (fun r => length r = d) X ->
  (forall c' b', sq_error X Y j c b <= sq_error X Y j c' b')%R ->
  (forall k, k < d -> rsum (fun r => (nth j (nth r Y []) 0 - linear_part B (nth r X [])) * nth k (nth r X []) 0)%R (seq 0 (length X)) = 0%R) ->
  rsum (fun r => (nth j (nth r Y []) 0 - linear_part B (nth r X [])))%R (seq 0 (length X)) = 0%R ->
  forall r, r < length X -> (linear_part c (nth r X []) + b = linear_part B (nth r X []))%R.
Proof.
  intros HX Hm HO H1.
  assert (HL : forall r, r < length X -> length (nth r X []) = d).
  { intros r Hr. rewrite Forall_forall in HX. apply HX, nth_In, Hr. }
  set (e := fun r => (nth j (nth r Y []) 0 - linear_part B (nth r X []))%R).
  set (g := fun r => (linear_part B (nth r X []) - (linear_part c (nth r X []) + b))%R).
  assert (OB : forall q, rsum (fun r => e r * linear_part q (nth r X []))%R (seq 0 (length X)) = 0%R).
  { intros q. transitivity (rsum (fun k => nth k q 0 * rsum (fun r => e r * nth k (nth r X []) 0)%R (seq 0 (length X)))%R (seq 0 d)).
    - apply (linear_combination q X e (length X) d HX eq_refl).
    - transitivity (rsum (fun _ => 0%R) (seq 0 d)); [|apply rsum_zero]. apply rsum_ext. intros k Hk. apply in_seq in Hk.
      unfold e. rewrite HO by lia. ring. }
  assert (EG : rsum (fun r => e r * g r)%R (seq 0 (length X)) = 0%R).
  { transitivity (rsum (fun r => (e r * linear_part B (nth r X []) - e r * linear_part c (nth r X [])) - b * e r)%R (seq 0 (length X))).
    - apply rsum_ext. intros r _. unfold g. ring.
    - rewrite rsum_minus, rsum_minus, rsum_scal, !OB. unfold e at 1. rewrite H1. ring. }
  assert (SB : sq_error X Y j B 0 = rsum (fun r => e r ^ 2)%R (seq 0 (length X))).
  { unfold sq_error. apply rsum_ext. intros r _. unfold e. ring. }
  assert (SC : sq_error X Y j c b = (rsum (fun r => e r ^ 2)%R (seq 0 (length X)) + rsum (fun r => g r ^ 2)%R (seq 0 (length X)))%R).
  { unfold sq_error. transitivity (rsum (fun r => (e r ^ 2 + g r ^ 2) + 2 * (e r * g r))%R (seq 0 (length X))).
    - apply rsum_ext. intros r _. unfold e, g. ring.
    - rewrite rsum_plus, rsum_plus, (rsum_scal 2), EG. ring. }
  specialize (Hm B 0%R). rewrite SB, SC in Hm.
  assert (HZ : (rsum (fun r => g r ^ 2)%R (seq 0 (length X)) <= 0)%R) by lra.
  intros r Hr. pose proof (rsum_zero_all _ _ (fun k _ => pow2_ge_0 (g k)) HZ r ltac:(apply in_seq; lia)) as Eg. cbv beta in Eg.
  assert (g r = 0)%R by (apply Rsqr_0_uniq; unfold Rsqr; lra). unfold g in *. lra.
Qed.

(** ... and hence every difference the rows determine *)
Lemma ols_contrast X d c b B p q : Forall (fun r => length r = d) X -> length p = d -> length q = d ->
  (exists k, k < d /\ (forall r, r < length X -> nth k (nth r X []) 0%R = 1%R) /\ nth k p 0%R = nth k q 0%R) ->
  (forall r, r < length X -> (linear_part c (nth r X []) + b = linear_part B (nth r X []))%R) ->
  spans X d p q ->
  (linear_part c p - linear_part c q = linear_part B p - linear_part B q)%R.
Proof.
  intros HX Hp Hq (k1 & Hk1 & H1 & H1') HE (alpha & HA).
  assert (D : forall f, rsum (fun r => alpha r * linear_part f (nth r X []))%R (seq 0 (length X)) = (linear_part f p - linear_part f q)%R).
  { intros f. rewrite (linear_combination f X alpha (length X) d HX eq_refl). unfold linear_part. rewrite Hp, Hq, <- rsum_minus.
    apply rsum_ext. intros k Hk. apply in_seq in Hk. rewrite HA by lia. ring. }
  assert (A0 : rsum alpha (seq 0 (length X)) = 0%R).
  { transitivity (rsum (fun r => alpha r * nth k1 (nth r X []) 0)%R (seq 0 (length X))).
    - apply rsum_ext. intros r Hr. apply in_seq in Hr. rewrite H1 by lia. ring.
    - rewrite HA by auto. lra. }
  rewrite <- !D.
  transitivity (rsum (fun r => alpha r * linear_part B (nth r X []) - b * alpha r)%R (seq 0 (length X))).
  - apply rsum_ext. intros r Hr. apply in_seq in Hr. rewrite <- HE by lia. ring.
  - rewrite rsum_minus, rsum_scal, A0. ring.
Qed.

(** the normal equations *)
Lemma quadratic_zero S Q : (0 <= Q)%R -> (forall t, 0 <= - (2 * t * S) + t * t * Q)%R -> S = 0%R.
Proof.
  intros HQ H. specialize (H (S / (Q + 1))%R).
  assert (E : (- (2 * (S / (Q + 1)) * S) + S / (Q + 1) * (S / (Q + 1)) * Q = - ((S * S) * ((Q + 2) / ((Q + 1) * (Q + 1)))))%R) by (field; lra).
  rewrite E in H. clear E. assert (HP : (0 < (Q + 2) / ((Q + 1) * (Q + 1)))%R) by (apply Rdiv_lt_0_compat; nra).
  assert (S * S <= 0)%R by nra. nra.
Qed.
Definition bump (d k : nat) (t : R) (c : row) : row := map (fun i => nth i c 0 + (if i =? k then t else 0))%R (seq 0 d).
Lemma linear_bump d k t c z : length z = d -> k < d -> linear_part (bump d k t c) z = (linear_part c z + t * nth k z 0)%R.
Proof.
  intros Hz Hk. unfold linear_part. rewrite Hz.
  transitivity (rsum (fun i => nth i c 0 * nth i z 0 + (if i =? k then t * nth k z 0 else 0))%R (seq 0 d)).
  - apply rsum_ext. intros i Hi. apply in_seq in Hi. unfold bump. rewrite nth_map_seq by lia. destruct (Nat.eqb_spec i k); [subst|]; ring.
  - rewrite rsum_plus. f_equal. rewrite (rsum_single _ k) by (auto; intros i Hi; now rewrite (proj2 (Nat.eqb_neq i k) Hi)).
    now rewrite Nat.eqb_refl.
Qed.
Lemma ols_normal X Y d j c b : Forall (fun r => length r = d) X -> (forall c' b', sq_error X Y j c b <= sq_error X Y j c' b')%R ->
  forall k, k < d ->
  rsum (fun r => (nth j (nth r Y []) 0 - (linear_part c (nth r X []) + b)) * nth k (nth r X []) 0)%R (seq 0 (length X)) = 0%R.
Proof.
  intros HX Hm k Hk. set (e := fun r => (nth j (nth r Y []) 0 - (linear_part c (nth r X []) + b))%R).
  apply (quadratic_zero _ (rsum (fun r => nth k (nth r X []) 0 * nth k (nth r X []) 0)%R (seq 0 (length X)))).
  - apply Rle_trans with (rsum (fun _ => 0%R) (seq 0 (length X))); [rewrite rsum_zero; apply Rle_refl|]. apply rsum_le. intros r _. apply (Rle_0_sqr (nth k (nth r X []) 0%R)).
  - intros t. specialize (Hm (bump d k t c) b).
    assert (E : sq_error X Y j (bump d k t c) b =
      (sq_error X Y j c b - 2 * t * rsum (fun r => e r * nth k (nth r X []) 0)%R (seq 0 (length X)) +
       t * t * rsum (fun r => nth k (nth r X []) 0 * nth k (nth r X []) 0)%R (seq 0 (length X)))%R).
    { unfold sq_error. rewrite <- !rsum_scal, <- rsum_minus, <- rsum_plus. apply rsum_ext. intros r Hr. apply in_seq in Hr.
      rewrite (linear_bump d) by (auto; rewrite Forall_forall in HX; apply HX, nth_In; lia). unfold e. ring. }
    rewrite E in Hm. unfold e in Hm. cbv beta in Hm. lra.
Qed.

(* ------------------------------------------------------------------------------------------------ *)
(** ** Rows *)
Lemma outer_length x v : length (outer x v) = length x * length v.
Proof. rewrite <- kron_outer. apply kron_length. Qed.
Definition dwidth (p : nat) (q w : option nat) : nat :=
  (match q with Some q => p * q | None => p end) + (match w with Some w => w | None => 0 end) + 1.
Lemma drow_length x v w : length (drow x v w) = dwidth (length x) (option_map (@length R) v) (option_map (@length R) w).
Proof. unfold drow, dwidth. rewrite !app_length. destruct v, w; cbn [option_map length]; rewrite ?outer_length; lia. Qed.
Lemma drow_last x v w : nth (length (drow x v w) - 1) (drow x v w) 0%R = 1%R.
Proof.
  unfold drow. rewrite app_assoc. match goal with |- nth (length (?a ++ _) - 1) _ _ = _ => generalize a; intros u end.
  rewrite app_length. cbn [length]. replace (length u + 1 - 1) with (length u + 0) by lia. now rewrite app_nth2_plus.
Qed.

Lemma linear_app c u t : linear_part c (u ++ t) = (linear_part c u + linear_part (skipn (length u) c) t)%R.
Proof.
  unfold linear_part. rewrite app_length, seq_app, rsum_app. cbn [Nat.add]. f_equal.
  - apply rsum_ext. intros k Hk. apply in_seq in Hk. now rewrite app_nth1 by lia.
  - rewrite rsum_shift. apply rsum_ext. intros k Hk. rewrite app_nth2_plus. now rewrite nth_skipn2.
Qed.
(** the coefficient of treatment feature i at covariate features v *)
Definition kappa (B : row) (v : option row) (i : nat) : R := match v with Some v => slope B i v | None => nth i B 0%R end.
Lemma linear_drow_diff B x x' v w : length x = length x' ->
  (linear_part B (drow x v w) - linear_part B (drow x' v w) = rsum (fun i => kappa B v i * (nth i x 0 - nth i x' 0))%R (seq 0 (length x)))%R.
Proof.
  intros H. unfold drow. rewrite !linear_app.
  assert (E : length (match v with Some v => outer x v | None => x end) = length (match v with Some v => outer x' v | None => x' end)).
  { destruct v; rewrite ?outer_length; congruence. }
  rewrite E.
  match goal with |- (?a + ?b - (?c + ?b))%R = _ => transitivity (a - c)%R; [ring|] end.
  destruct v as [v|]; cbn [kappa].
  - rewrite <- !kron_outer, !linear_kron, <- H, <- rsum_minus. apply rsum_ext. intros i _. ring.
  - unfold linear_part. rewrite <- H, <- rsum_minus. apply rsum_ext. intros i _. ring.
Qed.

(** the value at treatment features x, covariate features v, adjustment w of a function linear in the products *)
Definition structural (B : row) (x : row) (v w : option row) : R := linear_part B (drow x v w).

Definition fwidth (n p q k_w : nat) (a : nargs) : nat :=
  dwidth p (option_map (fun _ => q) (n_v a)) (option_map (fun _ => k_w) (n_w a)).

Lemma at_row_width n k o r : orect n k o -> r < n -> option_map (@length R) (at_row o r) = option_map (fun _ => k) o.
Proof.
  destruct o as [l|]; [|reflexivity]. intros [H HF] Hr. cbn [at_row option_map]. f_equal. rewrite Forall_forall in HF. apply HF, nth_In. lia.
Qed.
Lemma at_row_map psi v n k r : orect n k v -> r < n -> at_row (option_map (map psi) v) r = option_map psi (at_row v r).
Proof.
  destruct v as [l|]; [|reflexivity]. intros [H HF] Hr. cbn [at_row option_map]. f_equal. rewrite (nth_map_in _ _ [] []) by lia. reflexivity.
Qed.
Lemma psi_width psi v n k q r : orect n k v -> r < n -> (forall u, length u = k -> length (psi u) = q) ->
  option_map (@length R) (option_map psi (at_row v r)) = option_map (fun _ => q) v.
Proof.
  destruct v as [l|]; [|reflexivity]. intros [H HF] Hr Hq. cbn [at_row option_map]. f_equal. apply Hq. rewrite Forall_forall in HF. apply HF, nth_In. lia.
Qed.
Lemma est_data_same a n k_v k_w data n' v w {A B} (f : A) (g : B) : est_data a n k_v k_w data n' v w ->
  option_map (fun _ => f) v = option_map (fun _ => f) (n_v a) /\ option_map (fun _ => g) w = option_map (fun _ => g) (n_w a).
Proof.
  destruct 1 as [|d v w _ _ Hv Hw]; [auto|]. split.
  - destruct (n_v a); [destruct Hv as (_ & Hv & _); now destruct v|now subst].
  - destruct (n_w a); [destruct Hw as (_ & Hw & _); now destruct w|now subst].
Qed.
Lemma est_data_rect a n k_v k_w data n' v w : est_data a n k_v k_w data n' v w -> orect n k_v (n_v a) -> orect n k_w (n_w a) ->
  orect n' k_v v /\ orect n' k_w w.
Proof.
  destruct 1 as [|d v w _ _ Hv Hw]; [auto|]. intros _ _. split.
  - destruct (n_v a); [apply Hv|subst; exact I].
  - destruct (n_w a); [apply Hw|subst; exact I].
Qed.
Lemma t_means_rect n x_d dflt cats t rows : good_cats x_d cats -> t_means n x_d dflt cats t rows -> rect n x_d rows.
Proof.
  intros HC. destruct 1 as [|l t H|cats l vs t H HF|cats t HF].
  - apply rect_repeat, repeat_length.
  - eapply rows_arg_rect; eauto.
  - destruct HC as (<- & _). eapply coded_rect; eauto. apply (rows_arg_rect _ _ _ _ H).
  - destruct HC as (HL & _). rewrite <- HL at 1. eapply coded_rect; eauto. apply repeat_length.
Qed.

Lemma drows_rect n x v w psi k_v k_w p q : orect n k_v v -> orect n k_w w -> (forall u : row, length u = k_v -> length (psi u) = q) ->
  (forall r, r < n -> length (x r) = p) ->
  Forall (fun r : row => length r = dwidth p (option_map (fun _ => q) v) (option_map (fun _ => k_w) w)) (drows n x (option_map (map psi) v) w).
Proof.
  intros HV HW Hq Hx. apply Forall_forall. intros z Hz. unfold drows in Hz. apply in_map_iff in Hz as (r & <- & Hr). apply in_seq in Hr.
  rewrite drow_length, (at_row_map _ _ n k_v) by (auto; lia). rewrite (psi_width psi v n k_v q) by (auto; lia).
  rewrite (at_row_width n k_w) by (auto; lia). rewrite Hx by lia. reflexivity.
Qed.

(** the estimates of a fitted object whose y_model is least squares, when the errors are orthogonal to the second stage *)
Lemma np_recovery Lx Ly a n x_d z_d k_v k_w x z cats phi zeta psi p q mx my c b B :
  good_call a n x_d z_d k_v k_w x z cats phi zeta psi -> two_d Lx ->
  (forall r, length r = x_d -> length (phi r) = p) -> (forall r, length r = k_v -> length (psi r) = q) ->
  let pv := option_map (map psi) in
  let Z := drows n (fun r => zeta (nth r z [])) (pv (n_v a)) (n_w a) in
  let D := drows n (fun r => l_pred Lx mx (nth r Z [])) (pv (n_v a)) (n_w a) in
  l_fit Lx Z (nd_rows (map phi x)) = Ok mx -> l_fit Ly D (nd_rows (n_y a)) = Ok my -> ols Ly D (n_y a) my c b ->
  (forall j k, j < width (n_y a) -> k < fwidth n p q k_w a ->
     rsum (fun r => (nth j (nth r (n_y a) []) 0 - linear_part (B j) (nth r D [])) * nth k (nth r D []) 0)%R (seq 0 n) = 0%R) ->
  exists s, np_fit Lx Ly a = Ok s /\
    forall data n' v w treat control t ct, est_data a n k_v k_w data n' v w ->
      t_means n' x_d 1 cats treat t -> t_means n' x_d 0 cats control ct ->
      exists e, np_estimate (Some s) data treat control NQNone = Ok e /\ nd_shape e = [n'; width (n_y a)] /\
        forall r j, r < n' -> j < width (n_y a) ->
          let fx := fun t => drow (phi (nth r t [])) (option_map psi (at_row v r)) (at_row w r) in
          spans D (fwidth n p q k_w a) (fx t) (fx ct) ->
          nd_at e [r; j] = (structural (B j) (phi (nth r t [])) (option_map psi (at_row v r)) (at_row w r)
                            - structural (B j) (phi (nth r ct [])) (option_map psi (at_row v r)) (at_row w r))%R.
Proof.
  intros G H2 Hp Hq pv Z D Ex Ey (HL & HM) HO.
  destruct (C150_NP_formula Lx Ly a n x_d z_d k_v k_w x z cats phi zeta psi G H2) as (st & EF & EE).
  destruct G as [g_n0 g_xd0 g_zd0 g_kv0 g_y0 g_x0 g_xr0 g_z0 g_zr0 g_v0 g_w0 g_phi0 g_zeta0 g_psi0].
  assert (ED : drows n (fun r => l_pred Lx mx (drow (zeta (nth r z [])) (option_map psi (at_row (n_v a) r)) (at_row (n_w a) r)))
                 (option_map (map psi) (n_v a)) (n_w a) = D).
  { unfold D. unfold drows at 1 2. apply map_ext_in. intros r Hr. apply in_seq in Hr. f_equal. f_equal. unfold Z. rewrite drows_nth by lia.
    unfold pv. now rewrite (at_row_map psi _ n k_v) by (auto; lia). }
  exists (st my). split.
  { rewrite EF. fold pv. fold Z. rewrite Ex. cbn [bind]. unfold pv in *. rewrite ED, Ey. reflexivity. }
  intros data n' v w treat control t ct HD Ht Hc.
  destruct (EE my data n' v w treat control t ct HD Ht Hc) as (e & E1 & S1 & S2 & V1). exists e. split; [exact E1|].
  assert (SH : nd_shape e = [n'; width (n_y a)]).
  { rewrite S1. unfold predict. rewrite (proj1 HL). cbn [nd_shape]. now rewrite drows_length. }
  split; [exact SH|]. intros r j Hr Hj fx HS. rewrite V1. unfold predict. rewrite (proj1 HL). cbn [nd_at nth].
  destruct (est_data_rect _ _ _ _ _ _ _ _ HD g_v0 g_w0) as (RV & RW).
  rewrite !drows_nth by auto. rewrite (at_row_map psi v n' k_v) by auto. fold (fx t) (fx ct).
  rewrite !(proj2 HL), !nth_map_seq by auto. cbv beta. unfold structural. fold (fx t) (fx ct).
  assert (LX : forall r, r < n -> length (l_pred Lx mx (nth r Z [])) = p).
  { intros r' Hr'. destruct (H2 _ _ _ Ex) as (_ & Hw). rewrite Hw. rewrite (@width_all _ p).
    - reflexivity.
    - destruct x; [|discriminate]. destruct g_xr0 as [g _]. cbn in g. lia.
    - apply Forall_forall. intros u Hu. apply in_map_iff in Hu as (u' & <- & Hu). apply Hp. destruct g_xr0 as [_ g]. rewrite Forall_forall in g. now apply g. }
  pose proof (drows_rect n (fun r => l_pred Lx mx (nth r Z [])) (n_v a) (n_w a) psi k_v k_w p q g_v0 g_w0 Hq LX) as HF.
  change (Forall (fun r : row => length r = fwidth n p q k_w a) D) in HF.
  assert (LD : length D = n) by apply drows_length.
  assert (LF : forall u, rect n' x_d u -> length (fx u) = fwidth n p q k_w a).
  { intros u [Hu Hu']. unfold fx. rewrite drow_length, (psi_width psi v n' k_v q), (at_row_width n' k_w) by auto.
    rewrite Hp by (rewrite Forall_forall in Hu'; apply Hu', nth_In; lia). unfold fwidth.
    destruct (est_data_same _ _ _ _ _ _ _ _ q k_w HD) as (-> & ->). reflexivity. }
  pose proof (t_means_rect _ _ _ _ _ _ (x_means_cats _ _ _ _ g_x0) Ht) as Rt.
  pose proof (t_means_rect _ _ _ _ _ _ (x_means_cats _ _ _ _ g_x0) Hc) as Rc.
  assert (K1 : forall u, rect n' x_d u -> nth (fwidth n p q k_w a - 1) (fx u) 0%R = 1%R).
  { intros u Hu. rewrite <- (LF u Hu). unfold fx. apply drow_last. }
  assert (K2 : forall r, r < length D -> nth (fwidth n p q k_w a - 1) (nth r D []) 0%R = 1%R).
  { intros r' Hr'. rewrite LD in Hr'. rewrite Forall_forall in HF. rewrite <- (HF (nth r' D [])) by (apply nth_In; lia).
    unfold D. rewrite drows_nth by auto. apply drow_last. }
  assert (Kd : 0 < fwidth n p q k_w a) by (unfold fwidth, dwidth; lia).
  assert (HE : forall r, r < length D -> (linear_part (c j) (nth r D []) + b j = linear_part (B j) (nth r D []))%R).
  { apply (ols_orthogonal D (n_y a) (fwidth n p q k_w a) j (c j) (b j) (B j) HF).
    - intros c' b'. now apply HM.
    - intros k Hk. rewrite LD. now apply HO.
    - rewrite LD. etransitivity; [|apply (HO j (fwidth n p q k_w a - 1)); auto; lia]. apply rsum_ext. intros r' Hr'. apply in_seq in Hr'.
      rewrite K2 by lia. ring. }
  pose proof (ols_contrast D (fwidth n p q k_w a) (c j) (b j) (B j) (fx t) (fx ct) HF (LF t Rt) (LF ct Rc)) as OC.
  rewrite <- OC; auto; [ring|]. exists (fwidth n p q k_w a - 1). split; [lia|]. split; auto. now rewrite !K1.
Qed.
