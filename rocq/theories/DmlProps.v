(** C126-C132: fitting and estimating with DoubleML, continuous treatments. *)
From Coq Require Import ZArith Reals Lra.
From Verif Require Import Base ApiModel EstUtilsModel EstUtilsProps MetaModel MetaSpec MetaProofs MetaProps MetaRefit MetaT MetaX
  CrossFitModel CrossFitProofs DrModel DrProofs DrSpec DrProps DrCalls DrRobust DmlModel DmlProofs.
Local Notation length := List.length.
Local Notation concat := List.concat.

(** the residuals of row r of t against predictions h *)
Definition resid (t : list row) (h : nat -> nat -> R) (r : nat) : row :=
  map (fun i => (nth i (nth r t []) 0 - h r i)%R) (seq 0 (width t)).
(** the training data of the final model: for every row the products of the treatment residuals with (1, covariates),
    and the outcome residuals *)
Definition design (x : list row) (xhat : nat -> nat -> R) (v : list row) : list row :=
  map (fun r => feats (resid x xhat r) (nth r v [])) (seq 0 (length x)).
Definition residuals (y : list row) (yhat : nat -> nat -> R) : list row := map (resid y yhat) (seq 0 (length y)).

(* ------------------------------------------------------------------------------------------------ *)
(** ** Broadcasting in range *)

Lemma bshape_nil s : bshape s [] = Ok s.
Proof. destruct s; reflexivity. Qed.
Lemma bshape_same s : bshape s s = Ok s.
Proof. induction s as [|x s IH]; cbn; auto. now rewrite IH, Nat.eqb_refl. Qed.
Lemma bindex_in s idx : Forall2 (fun i d => i < d) idx s -> bindex s idx = idx.
Proof.
  induction 1 as [|i d idx s Hi _ IH]; auto. cbn. rewrite IH. destruct (Nat.eqb_spec d 1); auto. f_equal. lia.
Qed.
Lemma F2_rev {A B} (P : A -> B -> Prop) l m : Forall2 P l m -> Forall2 P (rev l) (rev m).
Proof. induction 1; cbn; auto. apply Forall2_app; auto. Qed.

Lemma bcast_scalar f a t : exists b, bcast2 f a (mkNd [] (fun _ => t)) = Ok b /\ nd_shape b = nd_shape a /\
  forall idx, Forall2 (fun i d => i < d) idx (nd_shape a) -> nd_at b idx = f (nd_at a idx) t.
Proof.
  unfold bcast2. cbn [nd_shape rev nd_at]. rewrite bshape_nil. cbn [bind]. eexists. split; [reflexivity|]. cbn [nd_shape nd_at].
  split; [apply rev_involutive|]. intros idx H. rewrite bindex_in by now apply F2_rev. now rewrite rev_involutive.
Qed.
Lemma bcast_same f a b : nd_shape a = nd_shape b -> exists e, bcast2 f a b = Ok e /\ nd_shape e = nd_shape a /\
  forall idx, Forall2 (fun i d => i < d) idx (nd_shape a) -> nd_at e idx = f (nd_at a idx) (nd_at b idx).
Proof.
  intros E. unfold bcast2. rewrite <- E, bshape_same. cbn [bind]. eexists. split; [reflexivity|]. cbn [nd_shape nd_at].
  split; [apply rev_involutive|]. intros idx H. rewrite bindex_in by now apply F2_rev. now rewrite rev_involutive.
Qed.

(* ------------------------------------------------------------------------------------------------ *)
(** ** Estimates of a fitted object, numbers as treat and control *)

Definition same_but_treat (s s' : St) : Prop := exists t, s' = (fst s, dml_treat t (snd s)).

Lemma estimate_nums s c y_d x_d v_d V data t ct :
  ready s c y_d x_d v_d V -> 0 < y_d -> 0 < x_d -> coef_shape c y_d x_d v_d ->
  Forall (fun r => length r = v_d) (data_rows data V) ->
  exists e, dml_estimate false data (ANum t) (ANum ct) QNone s = ((fst s, dml_treat (ANum t) (snd s)), Ok e) /\
    nd_shape e = [length (data_rows data V); y_d; x_d] /\
    forall r j i, r < length (data_rows data V) -> j < y_d -> i < x_d ->
      nd_at e [r; j; i] = (slope (nth j c []) i (1 :: nth r (data_rows data V) []) * (t - ct))%R.
Proof.
  intros HR Hy Hx Hc HV. destruct (dml_prepare_ok _ _ _ _ _ _ _ HR Hy Hx Hc HV) as (f & E & Hf).
  set (D := data_rows data V) in *.
  destruct (bcast_scalar Rminus (mkNd [] (fun _ => t)) ct) as (df & E1 & S1 & V1).
  specialize (V1 [] (Forall2_nil _)). cbn [nd_shape nd_at] in S1, V1.
  assert (E2 : exists e, bcast2 Rmult (mkNd [length D; y_d; x_d] f) df = Ok e /\ nd_shape e = [length D; y_d; x_d] /\
    forall r j i, r < length D -> j < y_d -> i < x_d -> nd_at e [r; j; i] = (f [r; j; i] * (t - ct))%R).
  { destruct df as [sh at_]. cbn [nd_shape nd_at] in *. subst sh. unfold bcast2. cbn [nd_shape rev nd_at]. rewrite bshape_nil. cbn [bind].
    eexists. split; [reflexivity|]. cbn [nd_shape nd_at rev app bindex]. split; [reflexivity|].
    intros r j i Hr Hj Hi. cbn [rev app bindex]. rewrite V1. f_equal. f_equal.
    destruct (Nat.eqb_spec x_d 1), (Nat.eqb_spec y_d 1), (Nat.eqb_spec (length D) 1); repeat f_equal; lia. }
  destruct E2 as (e & E2 & S2 & V2).
  exists e. split.
  - unfold dml_estimate, mbind. rewrite E. unfold obj_get, dml_arg, mbind, obj_get, mret, mlift, obj_set. cbn [fst snd as_attr].
    unfold cont_effect, cont_nd. cbn [bind]. rewrite E1. cbn [bind]. rewrite E2. destruct s; reflexivity.
  - split; auto. intros r j i Hr Hj Hi. rewrite V2 by auto. now rewrite Hf.
Qed.

Lemma fit_ready Lx Ly lin categories cf a x s s1 :
  m_x a = XCont x -> dml_fit Lx Ly lin categories cf a s = (s1, Ok tt) ->
  exists v wv xhat yhat c,
    m_v a = Some v /\ get_wv [m_w a; m_v a] = Ok wv /\
    first_stage Lx cf wv x (width x) xhat /\ first_stage Ly cf wv (m_y a) (width (m_y a)) yhat /\
    lin (design x xhat v) (residuals (m_y a) yhat) = Ok c /\
    (forall k, fst s1 k = if k =? d_yx (snd s) then Some c else fst s k) /\
    forall v_d, ready s1 c (width (m_y a)) (width x) v_d v.
Proof.
  intros Ex H. destruct (dml_fit_cont _ _ _ _ _ _ _ _ _ Ex H) as (v & wv & xhat & yhat & c & H1 & H2 & H3 & H4 & H5 & ->).
  exists v, wv, xhat, yhat, c. do 5 (split; [assumption|]). split; [reflexivity|]. intros v_d. unfold ready, upd. cbn [fst snd].
  cbn [d_yx d_isf d_stage1 d_encs d_tv d_named d_nx d_ny d_tr d_ct]. rewrite Nat.eqb_refl. repeat split.
Qed.

(** C126: fit a DoubleML object (for the first time or again) on continuous treatments x, covariates v.  The first-stage
    models predict treatments and outcomes from w and v (see C130 for the rows they are fitted on); the final model is
    fitted on the products of the treatment residuals with (1, v) and on the outcome residuals.  With its coefficients c,
    the effect of moving from control ct to treat t is, for row r, outcome j and treatment i,
    (c[j, i*(1+v_d)] + c[j, i*(1+v_d)+1] v[r,0] + ...) * (t - ct); 'ATE' is its average over the rows. *)
Theorem C126_DML_estimate Lx Ly lin categories cf a x s s1 :
  m_x a = XCont x -> dml_fit Lx Ly lin categories cf a s = (s1, Ok tt) ->
  exists v wv xhat yhat c,
    m_v a = Some v /\ get_wv [m_w a; m_v a] = Ok wv /\
    first_stage Lx cf wv x (width x) xhat /\ first_stage Ly cf wv (m_y a) (width (m_y a)) yhat /\
    lin (design x xhat v) (residuals (m_y a) yhat) = Ok c /\
    forall v_d data t ct, coef_shape c (width (m_y a)) (width x) v_d -> 0 < width (m_y a) -> 0 < width x ->
      let D := match data with Some d => d | None => v end in
      Forall (fun r => length r = v_d) D ->
      let effect r j i := (rsum (fun k => nth (i * S v_d + k) (nth j c []) 0 * nth k (1 :: nth r D []) 0) (seq 0 (S v_d)) * (t - ct))%R in
      (exists s2 e, dml_estimate false data (ANum t) (ANum ct) QNone s1 = (s2, Ok e) /\
         nd_shape e = [length D; width (m_y a); width x] /\
         forall r j i, r < length D -> j < width (m_y a) -> i < width x -> nd_at e [r; j; i] = effect r j i) /\
      (exists s2 e, dml_estimate false data (ANum t) (ANum ct) QATE s1 = (s2, Ok e) /\
         nd_shape e = [width (m_y a); width x] /\
         forall j i, j < width (m_y a) -> i < width x -> nd_at e [j; i] = (rsum (fun r => effect r j i) (seq 0 (length D)) / INR (length D))%R).
Proof.
  intros Ex H. destruct (fit_ready _ _ _ _ _ _ _ _ _ Ex H) as (v & wv & xhat & yhat & c & H1 & H2 & H3 & H4 & H5 & _ & HR).
  exists v, wv, xhat, yhat, c. do 5 (split; [assumption|]). intros v_d data t ct Hc Hy Hx D HD effect.
  destruct (estimate_nums _ _ _ _ _ _ data t ct (HR v_d) Hy Hx Hc HD) as (e & E & S & V). fold D in S, V. change (data_rows data v) with D in S, V.
  assert (V' : forall r j i, r < length D -> j < width (m_y a) -> i < width x -> nd_at e [r; j; i] = effect r j i).
  { intros r j i Hr Hj Hi. rewrite V by auto. unfold slope, effect.
    assert (El : length (nth r D []) = v_d) by (rewrite Forall_forall in HD; apply HD, nth_In, Hr). cbn [length]. now rewrite El. }
  split; [exists (fst s1, dml_treat (ANum t) (snd s1)), e; auto|].
  unfold dml_estimate in E |- *. unfold mbind, mret, mlift in E |- *.
  destruct (dml_prepare data s1) as [s' [fij|er]] eqn:E0; [|discriminate E].
  destruct (obj_get s') as [s'' [o|er]]; [|discriminate E].
  destruct (dml_arg false (ANum t) true s'') as [s3 [tv|er]]; [|discriminate E].
  destruct (dml_arg false (ANum ct) false s3) as [s4 [cv|er]]; [|discriminate E].
  destruct (obj_set _ s4) as [s5 [u|er]]; [|discriminate E].
  destruct (cont_effect _ _ _ _) as [e0|er] eqn:E1; [|discriminate E]. injection E as _ ->.
  unfold mean0. rewrite S. eexists _, _. split; [reflexivity|]. cbn [nd_shape nd_at]. split; [reflexivity|].
  intros j i Hj Hi. f_equal. apply (rsum_ext _ _ (seq 0 (length D))). intros r Hr. apply in_seq in Hr. apply V'; auto; lia.
Qed.

(** the treatment row x with entry i replaced *)
Definition set_nth (i : nat) (t : R) (x : row) : row := firstn i x ++ t :: skipn (S i) x.
Lemma set_nth_length i t x : i < length x -> length (set_nth i t x) = length x.
Proof. intros H. unfold set_nth. rewrite app_length, firstn_length. cbn [length]. rewrite skipn_length. lia. Qed.
Lemma set_nth_nth i t x k : i < length x -> nth k (set_nth i t x) 0%R = if k =? i then t else nth k x 0%R.
Proof.
  intros H. unfold set_nth. assert (Lf : length (firstn i x) = i) by (rewrite firstn_length; lia).
  destruct (Nat.eqb_spec k i) as [->|N].
  - rewrite app_nth2, Lf, Nat.sub_diag by lia. reflexivity.
  - destruct (Nat.lt_ge_cases k i).
    + rewrite app_nth1 by lia. apply nth_firstn2. auto.
    + rewrite app_nth2 by lia. rewrite Lf. replace (k - i) with (S (k - S i)) by lia. cbn [nth]. rewrite nth_skipn2. f_equal. lia.
Qed.
Lemma rsum_single f i n : i < n -> (forall k, k <> i -> f k = 0%R) -> rsum f (seq 0 n) = f i.
Proof.
  intros Hi H. replace n with (i + (1 + (n - S i))) by lia. rewrite !seq_app, !rsum_app.
  assert (Z : forall l, (forall k, In k l -> k <> i) -> rsum f l = 0%R).
  { intros l Hl. etransitivity; [|apply (rsum_zero l)]. apply rsum_ext. intros k Hk. apply H, Hl, Hk. }
  rewrite (Z (seq 0 i)) by (intros k Hk; apply in_seq in Hk; lia).
  rewrite (Z (seq (0 + i + 1) _)) by (intros k Hk; apply in_seq in Hk; lia). unfold rsum. cbn. lra.
Qed.

Lemma slope_change coef x v i t ct : i < length x ->
  (linear_part coef (feats (set_nth i t x) v) - linear_part coef (feats (set_nth i ct x) v) = slope coef i (1 :: v) * (t - ct))%R.
Proof.
  intros Hi. unfold feats. rewrite !linear_kron, !set_nth_length by auto. rewrite <- rsum_minus.
  rewrite (rsum_single _ i) by (auto; intros k Hk; rewrite !set_nth_nth by auto; rewrite (proj2 (Nat.eqb_neq k i) Hk); lra).
  rewrite !set_nth_nth by auto. rewrite Nat.eqb_refl. lra.
Qed.

(** C127: in the same situation the estimate for treatment i is the change of the final model's prediction for a row with
    covariates v[r] when treatment i is moved from ct to t -- whatever the values x of the other treatments are. *)
Theorem C127_DML_effect_of_final_model Lx Ly lin categories cf a x s s1 :
  m_x a = XCont x -> dml_fit Lx Ly lin categories cf a s = (s1, Ok tt) ->
  exists v X Y c, m_v a = Some v /\ lin X Y = Ok c /\
    forall v_d data t ct, coef_shape c (width (m_y a)) (width x) v_d -> 0 < width (m_y a) -> 0 < width x ->
      let D := match data with Some d => d | None => v end in
      Forall (fun r => length r = v_d) D ->
      exists s2 e, dml_estimate false data (ANum t) (ANum ct) QNone s1 = (s2, Ok e) /\
        forall r j i x0, r < length D -> j < width (m_y a) -> i < width x -> length x0 = width x ->
          nd_at e [r; j; i] = (linear_part (nth j c []) (feats (set_nth i t x0) (nth r D [])) -
                               linear_part (nth j c []) (feats (set_nth i ct x0) (nth r D [])))%R.
Proof.
  intros Ex H. destruct (fit_ready _ _ _ _ _ _ _ _ _ Ex H) as (v & wv & xhat & yhat & c & H1 & H2 & H3 & H4 & H5 & _ & HR).
  exists v, (design x xhat v), (residuals (m_y a) yhat), c. do 2 (split; [assumption|]). intros v_d data t ct Hc Hy Hx D HD.
  destruct (estimate_nums _ _ _ _ _ _ data t ct (HR v_d) Hy Hx Hc HD) as (e & E & S & V).
  eexists _, e. split; [exact E|]. intros r j i x0 Hr Hj Hi Hl. rewrite V by auto. now rewrite slope_change by lia.
Qed.

(* ------------------------------------------------------------------------------------------------ *)
(** ** C128: recovery of the true effect *)

(** squared error of a linear model with intercept b for outcome j *)
Definition sq_error (X Y : list row) (j : nat) (coef : row) (b : R) : R :=
  rsum (fun r => (nth j (nth r Y []) 0 - (linear_part coef (nth r X []) + b)) ^ 2)%R (seq 0 (length X)).
(** c are least squares coefficients: for every outcome, with some intercept, no linear model has a smaller error *)
Definition least_squares (X Y : list row) (c : list row) : Prop :=
  forall j, j < length c -> exists b, forall coef' b', (sq_error X Y j (nth j c []) b <= sq_error X Y j coef' b')%R.

(** the true effect of one unit of treatment i on outcome j at covariates v: linear in (1, v) *)
Definition true_effect (B : nat -> row) (j i : nat) (v : row) : R := slope (B j) i (1%R :: v).
Definition unit_row (d i : nat) : row := map (fun k => if k =? i then 1%R else 0%R) (seq 0 d).
(** the data determine the effect of treatment i at covariates v: a contrast of the rows of the design is the row
    of one unit of treatment i *)
Definition determined (X : list row) (x_d i : nat) (v : row) : Prop :=
  exists alpha : nat -> R, rsum alpha (seq 0 (length X)) = 0%R /\
    forall k, k < x_d * S (length v) ->
      rsum (fun r => alpha r * nth k (nth r X []) 0)%R (seq 0 (length X)) = nth k (feats (unit_row x_d i) v) 0%R.

Lemma rsum_zero_all f l : (forall i, In i l -> 0 <= f i)%R -> (rsum f l <= 0)%R -> forall i, In i l -> f i = 0%R.
Proof.
  intros Hp Hz. assert (G : forall l, (forall i, In i l -> 0 <= f i)%R -> (0 <= rsum f l)%R).
  { intros m Hm. rewrite <- (rsum_zero m). now apply rsum_le. }
  revert Hp Hz. induction l as [|a l IH]; intros Hp Hz i Hi; [easy|].
  change (rsum f (a :: l)) with (f a + rsum f l)%R in Hz.
  pose proof (G l ltac:(intros k Hk; apply Hp; now right)) as G1. pose proof (Hp a (or_introl eq_refl)) as G2.
  destruct Hi as [<-|Hi]; [lra|]. apply IH; auto; [intros k Hk; apply Hp; now right|lra].
Qed.

Lemma linear_combination coef (X : list row) alpha n d : Forall (fun r => length r = d) X -> n = length X ->
  rsum (fun r => alpha r * linear_part coef (nth r X []))%R (seq 0 n) =
  rsum (fun k => nth k coef 0 * rsum (fun r => alpha r * nth k (nth r X []) 0)%R (seq 0 n))%R (seq 0 d).
Proof.
  intros HX ->. transitivity (rsum (fun r => rsum (fun k => nth k coef 0 * (alpha r * nth k (nth r X []) 0))%R (seq 0 d)) (seq 0 (length X))).
  - apply rsum_ext. intros r Hr. apply in_seq in Hr. unfold linear_part. rewrite Forall_forall in HX.
    rewrite (HX (nth r X [])) by (apply nth_In; lia). rewrite <- rsum_scal. apply rsum_ext. intros k _. lra.
  - rewrite (rsum_swap (fun r k => nth k coef 0 * (alpha r * nth k (nth r X []) 0))%R). apply rsum_ext. intros k _. apply rsum_scal.
Qed.

Lemma unit_row_nth d i k : k < d -> nth k (unit_row d i) 0%R = if k =? i then 1%R else 0%R.
Proof. intros H. unfold unit_row. rewrite (nth_map_in _ _ 0 0%R) by now rewrite seq_length. now rewrite seq_nth by auto. Qed.

Lemma linear_unit coef d i v : i < d -> linear_part coef (feats (unit_row d i) v) = slope coef i (1%R :: v).
Proof.
  intros H. unfold feats. rewrite linear_kron. unfold unit_row at 2. rewrite map_length, seq_length.
  transitivity (rsum (fun k => (if k =? i then 1 else 0) * slope coef k (1 :: v))%R (seq 0 d)).
  { apply rsum_ext. intros k Hk. apply in_seq in Hk. now rewrite unit_row_nth by lia. }
  rewrite (rsum_single _ i) by (auto; intros k Hk; rewrite (proj2 (Nat.eqb_neq k i) Hk); lra). rewrite Nat.eqb_refl. lra.
Qed.

Lemma resid_length t h r : length (resid t h r) = width t.
Proof. unfold resid. now rewrite map_length, seq_length. Qed.
Lemma design_shape x xhat v v_d : length v = length x -> Forall (fun r => length r = v_d) v ->
  Forall (fun r => length r = width x * S v_d) (design x xhat v).
Proof.
  intros Hl HV. apply Forall_forall. intros z Hz. unfold design in Hz. apply in_map_iff in Hz as (r & <- & Hr). apply in_seq in Hr.
  unfold feats. rewrite kron_length, resid_length. cbn [length]. rewrite Forall_forall in HV. rewrite (HV (nth r v [])); auto.
  apply nth_In. lia.
Qed.

(** least squares recovers every determined effect when the data are exactly linear *)
Lemma recovery X Y c B n x_d v_d j i v :
  least_squares X Y c -> j < length c -> i < x_d -> length v = v_d -> n = length X -> Forall (fun r => length r = x_d * S v_d) X ->
  (forall r, r < n -> nth j (nth r Y []) 0%R = linear_part B (nth r X [])) ->
  determined X x_d i v -> slope (nth j c []) i (1%R :: v) = slope B i (1%R :: v).
Proof.
  intros HL Hj Hi Hv -> HX HB (alpha & Ha & Hd). rewrite Hv in Hd. destruct (HL j Hj) as (b & Hb). specialize (Hb B 0%R).
  assert (Z : sq_error X Y j B 0 = 0%R).
  { unfold sq_error. etransitivity; [|apply (rsum_zero (seq 0 (length X)))]. apply rsum_ext. intros r Hr. apply in_seq in Hr.
    rewrite HB by lia. ring. }
  rewrite Z in Hb. unfold sq_error in Hb.
  assert (Hr : forall r, r < length X -> (linear_part B (nth r X []) = linear_part (nth j c []) (nth r X []) + b)%R).
  { intros r Hr. pose proof (rsum_zero_all _ _ (fun k _ => pow2_ge_0 _) Hb r ltac:(apply in_seq; lia)) as E. cbv beta in E.
    rewrite HB in E by auto. assert (E' : (linear_part B (nth r X []) - (linear_part (nth j c []) (nth r X []) + b))%R = 0%R).
    { apply Rsqr_0_uniq. unfold Rsqr. lra. }
    lra. }
  rewrite <- !(linear_unit _ x_d) by auto.
  assert (LF : length (feats (unit_row x_d i) v) = x_d * S v_d).
  { unfold feats. rewrite kron_length. unfold unit_row. rewrite map_length, seq_length. cbn [length]. now rewrite Hv. }
  assert (G : forall coef, linear_part coef (feats (unit_row x_d i) v) = rsum (fun r => alpha r * linear_part coef (nth r X []))%R (seq 0 (length X))).
  { intros coef. rewrite (linear_combination _ _ _ _ (x_d * S v_d) HX eq_refl). unfold linear_part. rewrite LF. apply rsum_ext.
    intros k Hk. apply in_seq in Hk. now rewrite Hd by lia. }
  rewrite !G. apply Rminus_diag_uniq. rewrite <- rsum_minus.
  transitivity (rsum (fun r => (- b) * alpha r)%R (seq 0 (length X))).
  - apply rsum_ext. intros r Hr'. apply in_seq in Hr'. rewrite (Hr r) by lia. ring.
  - rewrite rsum_scal, Ha. ring.
Qed.

(** C128: suppose the outcomes are exactly  y[r,j] = sum_i x[r,i] * effect_ji(v[r]) + g(r,j)  with effects linear in
    (1, v), that the outcome predictions fit the treatment predictions,  yhat[r,j] = sum_i xhat[r,i] * effect_ji(v[r]) +
    g(r,j), and that the final model returns least squares coefficients.  Then the estimate is the true effect, for every
    row, outcome and treatment whose effect the data determine -- whatever g is and however xhat was obtained. *)
Theorem C128_DML_recovers Lx Ly lin categories cf a x s s1 :
  m_x a = XCont x -> dml_fit Lx Ly lin categories cf a s = (s1, Ok tt) ->
  exists v wv xhat yhat c,
    m_v a = Some v /\ get_wv [m_w a; m_v a] = Ok wv /\
    first_stage Lx cf wv x (width x) xhat /\ first_stage Ly cf wv (m_y a) (width (m_y a)) yhat /\
    lin (design x xhat v) (residuals (m_y a) yhat) = Ok c /\
    forall v_d B g data t ct,
      coef_shape c (width (m_y a)) (width x) v_d -> 0 < width (m_y a) -> 0 < width x ->
      length v = length x -> length (m_y a) = length x -> Forall (fun r => length r = v_d) v ->
      let D := match data with Some d => d | None => v end in
      Forall (fun r => length r = v_d) D ->
      least_squares (design x xhat v) (residuals (m_y a) yhat) c ->
      (forall r j, r < length x -> j < width (m_y a) ->
         nth j (nth r (m_y a) []) 0%R =
         (rsum (fun i => nth i (nth r x []) 0 * true_effect B j i (nth r v [])) (seq 0 (width x)) + g r j)%R) ->
      (forall r j, r < length x -> j < width (m_y a) ->
         yhat r j = (rsum (fun i => xhat r i * true_effect B j i (nth r v [])) (seq 0 (width x)) + g r j)%R) ->
      exists s2 e, dml_estimate false data (ANum t) (ANum ct) QNone s1 = (s2, Ok e) /\
        forall r j i, r < length D -> j < width (m_y a) -> i < width x ->
          determined (design x xhat v) (width x) i (nth r D []) ->
          nd_at e [r; j; i] = (true_effect B j i (nth r D []) * (t - ct))%R.
Proof.
  intros Ex H. destruct (fit_ready _ _ _ _ _ _ _ _ _ Ex H) as (v & wv & xhat & yhat & c & H1 & H2 & H3 & H4 & H5 & _ & HR).
  exists v, wv, xhat, yhat, c. do 5 (split; [assumption|]).
  intros v_d B g data t ct Hc Hy Hx Hlv Hly HV D HD HLS HT HP.
  destruct (estimate_nums _ _ _ _ _ _ data t ct (HR v_d) Hy Hx Hc HD) as (e & E & S & V).
  eexists _, e. split; [exact E|]. intros r j i Hr Hj Hi Hdet. rewrite V by auto. fold D. f_equal. change (data_rows data v) with D.
  assert (Ln : length (design x xhat v) = length x) by (unfold design; now rewrite map_length, seq_length).
  eapply (recovery _ _ c (B j) _ (width x) v_d j i); [exact HLS| |exact Hi| |reflexivity| | |exact Hdet].
  - destruct Hc as [Hc _]. lia.
  - rewrite Forall_forall in HD. apply HD, nth_In, Hr.
  - now apply design_shape.
  - rewrite Ln. intros r' Hr'. unfold residuals, design. rewrite (nth_map_in _ _ 0 []) by (rewrite seq_length; lia).
    rewrite (nth_map_in _ _ 0 []) by (now rewrite seq_length). rewrite !seq_nth by lia. cbn [Nat.add].
    unfold feats. rewrite linear_kron, resid_length.
    unfold resid at 1. rewrite (nth_map_in _ _ 0 0%R) by (now rewrite seq_length). rewrite seq_nth by auto. cbn [Nat.add].
    rewrite HT, HP by auto.
    transitivity (rsum (fun i => nth i (nth r' x []) 0 * true_effect B j i (nth r' v []) - xhat r' i * true_effect B j i (nth r' v []))%R (seq 0 (width x))).
    + rewrite rsum_minus. lra.
    + apply rsum_ext. intros k Hk. apply in_seq in Hk. unfold resid. rewrite (nth_map_in _ _ 0 0%R) by (now rewrite seq_length).
      rewrite seq_nth by lia. unfold true_effect. cbn [Nat.add]. lra.
Qed.
