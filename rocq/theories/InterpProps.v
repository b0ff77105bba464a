(** Theorems about PolicyInterpreter: C189 - C195. *)
From Coq Require Import ZArith Reals Lra String FunctionalExtensionality.
From Verif Require Import Base EstUtilsModel MetaProofs TreeCritModel TreeCritProps SplitterModel SplitterSpec TreeSpec SplitterProofs CritOk TreeProps TreeExamples
  BestFirstModel BestFirstProofs BestFirstShape BestFirstProps PolicyModel PolicyProps RlossModel InterpModel InterpSpec InterpProofs InterpPolicy.
Set Implicit Arguments.
Local Notation length := List.length.
Local Open Scope nat_scope.

(** settings the constructor and PolicyTree.fit accept: a sane random stream, a frontier that pops the best entry, positive limits *)
Definition proper (cf : config) : Prop :=
  sane (cf_env cf) /\ takes_largest (cf_pick cf) /\ 1 <= g_min_samples_leaf (cf_set cf) /\ (forall m, cf_mln cf = Some m -> 1 <= m).

Section Interp.
Variables (Frame Names T : Type).
Variable cols : Frame -> Names -> list (nat -> R).
Variable eff_cols : Frame -> Names -> effects.
Variable f32 : R -> R.
Variable ncov : Names -> nat.
Notation fit := (@pi_fit Frame Names T cols eff_cols f32 ncov).
Notation interpret := (@pi_interpret Frame Names T cols f32).
Notation decide := (@pi_decide Frame Names T cols f32).
Notation predict := (@pi_predict Frame Names T cols f32).
Notation rows := (rows_of_query cols f32).

(* ------------------------------------------------------------------------------------------------ *)
(** ** C189: what interpret prints for a row is true, and is the whole reason for the recommendation *)

(** The conditions printed for row i are about row i and true of it.  Take the training rows that meet these
    conditions: there are some; the recommended treatment has the largest mean effect over them (the first one if
    there are several), and the printed value is that mean. *)
Theorem C189_explanation cf o a o' q ce : proper cf -> (forall x, f32 (f32 x) = f32 x) -> cf_crit cf = PolicyReg ->
  fit cf o a = (o', Ok tt) -> the_effects eff_cols a = Some ce -> 2 <= ef_out ce -> rows a None <> [] ->
  exists es, interpret cf o' q = Ok es /\ length es = length (rows a q) /\
  forall i e, nth_error es i = Some e -> exists x, nth_error (rows a q) i = Some x /\ honest i x (ex_lines e) /\
    let s := who (ex_lines e) (rows a None) in
    let m k := mean (fun r => ef_ce ce r k) s in
    s <> [] /\ ex_treat e < ef_out ce /\ ex_value e = m (ex_treat e) /\
    (forall k, k < ef_out ce -> (m k <= m (ex_treat e))%R) /\ (forall k, k < ex_treat e -> (m k < m (ex_treat e))%R).
Proof.
  intros (He & Hp & Hm & HM) Hf Hc E Hce Ho Hr.
  destruct (@interp_run _ _ _ cols eff_cols f32 ncov cf o a o' ce He Hp Hm HM Hf Hc E Hce Ho Hr) as (nodes & BT & RUN).
  destruct (RUN q) as (es & pr & Ei & Le & _ & _ & _ & H).
  exists es. split; [auto|]. split; [auto|]. intros i e Hi. destruct (H i e Hi) as (x & p & leaf & r & Hx & Px & Ax & El & _ & _ & _ & S).
  exists x. split; [auto|]. destruct (@lines_ok nodes (rows a None) i x p leaf BT Px Ax) as (L1 & _ & _ & L4).
  rewrite El. split; [auto|]. cbv zeta in *.
  assert (ES : who (row_lines nodes i x leaf p) (rows a None) =
     filter (fun i => match tree_apply nodes (nth i (rows a None) (fun _ => 0%R)) with Ok k => k =? leaf | Err _ => false end) (seq 0 (length (rows a None)))).
  { unfold who. apply filter_ext. intros j. apply Bool.eq_true_iff_eq. rewrite meetsb_ok, L4.
    destruct (tree_apply nodes (nth j (rows a None) (fun _ => 0%R))) as [k|]; [|split; congruence]. rewrite Nat.eqb_eq. split; congruence. }
  rewrite ES. destruct S as (S1 & S2 & S3 & S4 & S5). split; [auto|]. split; [auto|]. split; [auto|]. split; [|auto]. intros k Hk. now apply S4.
Qed.

(* ------------------------------------------------------------------------------------------------ *)
(** ** C190: rows with the same reason *)

(** Any row, of this or another data frame, that meets the conditions printed for row i gets the same conditions, the same
    recommendation and the same value; a row with the same nodes and signs meets them. *)
Theorem C190_same_reason cf o a o' q q' ce : proper cf -> (forall x, f32 (f32 x) = f32 x) -> cf_crit cf = PolicyReg ->
  fit cf o a = (o', Ok tt) -> the_effects eff_cols a = Some ce -> 2 <= ef_out ce -> rows a None <> [] ->
  forall es es' i i' e e' x', interpret cf o' q = Ok es -> interpret cf o' q' = Ok es' ->
  nth_error es i = Some e -> nth_error es' i' = Some e' -> nth_error (rows a q') i' = Some x' ->
  let skeleton l := (ln_node l, ln_feature l, ln_le l, ln_thr l) in
  (meets (ex_lines e) x' <-> map skeleton (ex_lines e') = map skeleton (ex_lines e)) /\
  (meets (ex_lines e) x' -> ex_treat e' = ex_treat e /\ ex_value e' = ex_value e).
Proof.
  intros (He & Hp & Hm & HM) Hf Hc E Hce Ho Hr es es' i i' e e' x' I I' N N' X' sk.
  destruct (@interp_run _ _ _ cols eff_cols f32 ncov cf o a o' ce He Hp Hm HM Hf Hc E Hce Ho Hr) as (nodes & BT & RUN).
  destruct (RUN q) as (es0 & pr & Ei & _ & _ & _ & _ & H). assert (es0 = es) as -> by congruence.
  destruct (RUN q') as (es1 & pr' & Ei' & _ & _ & _ & _ & H'). assert (es1 = es') as -> by congruence.
  destruct (H i e N) as (x & p & leaf & r & Hx & Px & Ax & El & _ & _ & _ & _ & S2 & S3 & S4 & S5).
  destruct (H' i' e' N') as (x1 & p' & leaf' & r' & Hx' & Px' & Ax' & El' & _ & _ & _ & _ & S2' & S3' & S4' & S5').
  assert (x1 = x') as -> by congruence. cbv zeta in *.
  destruct (@lines_ok nodes (rows a None) i x p leaf BT Px Ax) as (L1 & L2 & L3 & L4).
  destruct (@lines_ok nodes (rows a None) i' x' p' leaf' BT Px' Ax') as (L1' & L2' & L3' & L4').
  rewrite <- El in *. rewrite <- El' in *.
  assert (SAME : meets (ex_lines e) x' -> leaf' = leaf) by (intros M; apply L4 in M; congruence).
  split; [split|].
  - intros M. specialize (SAME M). subst leaf'.
    assert (Pp : p' = p).
    { destruct (tree_facts BT) as (U & Z & _). rewrite L2, L2'. f_equal. eapply chain_unique; eauto.
      - rewrite <- L2'. eapply path_chain; exact Px'.
      - rewrite <- L2. eapply path_chain; exact Px. }
    destruct (tree_path_apply _ _ Px) as (p0 & j & Ep0 & A & Lf & NL). assert (j = leaf) as -> by congruence.
    rewrite El, El', Pp, Ep0. rewrite Ep0 in Px. rewrite (@row_lines_path nodes i' x' p0 leaf Lf NL), (@row_lines_path nodes i x p0 leaf Lf NL). rewrite !map_map. unfold sk. cbn [ln_node ln_feature ln_le ln_thr]. apply map_ext_in. intros y Hy.
    assert (side nodes x' y = side nodes x y) as ->; [|reflexivity].
    pose proof (@same_leaf nodes (rows a None) x x' p0 leaf BT Px) as Q. apply Q; auto.
  - intros Q l Hl. apply (in_map sk) in Hl. rewrite <- Q in Hl. apply in_map_iff in Hl. destruct Hl as (l' & El1 & Hl').
    destruct (L1' l' Hl') as (_ & _ & T1). unfold sk in El1. injection El1 as _ E2 E3 E4. unfold true_of in *. now rewrite <- E2, <- E3, <- E4.
  - intros M. specialize (SAME M). subst leaf'.
    assert (ET : ex_treat e' = ex_treat e).
    { destruct (Nat.lt_trichotomy (ex_treat e') (ex_treat e)) as [Q|[Q|Q]]; [|auto|].
      - specialize (S5 _ Q). destruct (S4' _ S2) as [_ B]. lra.
      - specialize (S5' _ Q). destruct (S4 _ S2') as [_ B]. lra. }
    split; [auto|]. rewrite S3, S3', ET. reflexivity.
Qed.

(* ------------------------------------------------------------------------------------------------ *)
(** ** C191: decide, predict and interpret agree; treatment names *)

(** predict gives for every row the mean effects of all treatments; the recommended treatment has the largest entry, and it
    is the value interpret prints.  decide gives the recommended treatments of interpret: their numbers, or their names. *)
Theorem C191_agree cf o a o' q ce : proper cf -> (forall x, f32 (f32 x) = f32 x) -> cf_crit cf = PolicyReg ->
  fit cf o a = (o', Ok tt) -> the_effects eff_cols a = Some ce -> 2 <= ef_out ce -> rows a None <> [] ->
  exists es pr, interpret cf o' q = Ok es /\ predict cf o' q = Ok (Mat pr) /\ length pr = length es /\
  (forall i e, nth_error es i = Some e -> exists r, nth_error pr i = Some r /\ length r = ef_out ce /\
     ex_treat e < ef_out ce /\ ex_value e = nth (ex_treat e) r 0%R /\ forall k, k < ef_out ce -> (nth k r 0 <= ex_value e)%R) /\
  match pa_names a with
  | None => decide cf o' q = Ok (Numbers (map ex_treat es))
  | Some names =>
      (forall l, decide cf o' q = Ok (Named l) <-> map Some l = map (fun e => nth_error names (ex_treat e)) es) /\
      ((exists e, In e es /\ length names <= ex_treat e) -> decide cf o' q = Err IndexError) /\
      (length names >= ef_out ce -> exists l, decide cf o' q = Ok (Named l))
  end.
Proof.
  intros (He & Hp & Hm & HM) Hf Hc E Hce Ho Hr.
  destruct (@interp_run _ _ _ cols eff_cols f32 ncov cf o a o' ce He Hp Hm HM Hf Hc E Hce Ho Hr) as (nodes & BT & RUN).
  destruct (RUN q) as (es & pr & Ei & Le & Ed & Ep & Lp & H). exists es, pr. split; [auto|]. split; [auto|]. split; [auto|]. split.
  { intros i e Hi. destruct (H i e Hi) as (x & p & leaf & r & _ & _ & _ & _ & R1 & R2 & R3 & _ & S2 & S3 & S4 & _). cbv zeta in *.
    exists r. split; [auto|]. split; [auto|]. split; [auto|]. split; [auto|]. intros k Hk. destruct (S4 k Hk) as [A B]. rewrite A, S3. exact B. }
  assert (TR : forall e, In e es -> ex_treat e < ef_out ce).
  { intros e Hin. apply In_nth_error in Hin. destruct Hin as [i Hi]. destruct (H i e Hi) as (x & p & leaf & r & _ & _ & _ & _ & _ & _ & _ & _ & S2 & _). auto. }
  destruct (pa_names a) as [names|]; [|auto]. set (f := fun k => match nth_error names k with Some t => Ok t | None => Err IndexError end) in Ed.
  assert (MX : forall es, (exists l, mapX f (map ex_treat es) = Ok l /\ map Some l = map (fun e => nth_error names (ex_treat e)) es) \/
      (mapX f (map ex_treat es) = Err IndexError /\ exists e, In e es /\ nth_error names (ex_treat e) = None)).
  { clear. induction es as [|e es IH]; [left; exists []; auto|]. cbn [map mapX]. unfold f at 1 3. destruct (nth_error names (ex_treat e)) as [t|] eqn:Et; cbn [bind].
    - destruct IH as [(l & -> & Hl)|(-> & e' & He' & N')]; cbn [bind].
      + left. exists (t :: l). cbn [map]. split; [auto|]. now rewrite Hl.
      + right. split; [auto|]. exists e'. split; [now right|auto].
    - right. split; [auto|]. exists e. split; [now left|auto]. }
  rewrite Ed. destruct (MX es) as [(l & -> & Hl)|(-> & e & Hin & Hn)]; cbn [bind].
  - split; [|split].
    + intros l'. split; [intros [= ->]; auto|]. intros Q. rewrite <- Hl in Q. do 2 f_equal.
      revert l' Q. clear. induction l as [|t l IH]; intros [|t' l'] Q; try discriminate; auto. cbn in Q. injection Q as -> Q. f_equal. auto.
    + intros (e & Hin & He'). exfalso. apply (in_map (fun e => nth_error names (ex_treat e))) in Hin. rewrite <- Hl in Hin.
      apply in_map_iff in Hin. destruct Hin as (t & Et & _). assert (ex_treat e < length names) by (apply nth_error_Some; congruence). lia.
    + eauto.
  - split; [|split; [auto|]].
    + intros l'. split; [discriminate|]. intros Q. exfalso. apply (in_map (fun e => nth_error names (ex_treat e))) in Hin. rewrite <- Q, Hn in Hin.
      apply in_map_iff in Hin. destruct Hin as (t & Et & _). discriminate.
    + intros Ln. exfalso. apply nth_error_None in Hn. specialize (TR e Hin). lia.
Qed.

(** The text of a node in plot pairs the treatment names with the mean effects: entry k is name k with the effect of
    treatment k, as in decide; treatments beyond the names are left out without an error. *)
Theorem C191_plot_label cf o a o' names value : fit cf o a = (o', Ok tt) -> pa_names a = Some names ->
  exists l, node_label o' value = inl l /\ length l = Nat.min (length names) (length value) /\
  forall k t v, nth_error l k = Some (t, v) <-> nth_error names k = Some t /\ nth_error value k = Some v.
Proof.
  intros E Hn. destruct (pi_fit_inv _ _ _ _ _ _ _ E) as (c & src & ce & nf & p & _ & _ & _ & _ & -> & _).
  unfold node_label. cbn [pi_names]. rewrite Hn. eexists. split; [reflexivity|]. split; [apply combine_length|].
  clear. revert value. induction names as [|t names IH]; intros [|v value] [|k] t' v'; cbn [combine nth_error]; try (split; [discriminate|intros [A B]; discriminate]).
  - split; [intros [= -> ->]; auto|intros [[= ->] [= ->]]; auto].
  - apply IH.
Qed.

(* ------------------------------------------------------------------------------------------------ *)
(** ** C192: fits that succeed and cannot be used *)

Theorem C192_single_treatment_refuted cf o a o' q ce : proper cf ->
  fit cf o a = (o', Ok tt) -> the_effects eff_cols a = Some ce -> ef_out ce = 1 -> rows a None <> [] ->
  decide cf o' q = Err ValueError /\ interpret cf o' q = Err ValueError /\
  (cf_crit cf = PolicyReg -> exists l, predict cf o' q = Ok (Vec l) /\ length l = length (rows a q)).
Proof.
  intros (He & Hp & Hm & HM) E Hce Ho Hr. destruct (pi_fit_inv _ _ _ _ _ _ _ E) as (c & src & ce' & nf & p & _ & Hce' & _ & Ef & -> & FT).
  assert (ce' = ce) as -> by congruence. rewrite Ho in Ef.
  assert (Lv : cast f32 (pt_v p) = rows a None) by (rewrite <- FT; reflexivity).
  assert (Hv : pt_v p <> []) by (intros Z; rewrite Z in Lv; cbn in Lv; congruence).
  assert (CN : counted (cf_mln cf) None (length (pt_v p)) <> []) by (rewrite counted_all; destruct (pt_v p); [congruence|discriminate]).
  pose proof (@C102_single_treatment_refuted Frame Names cols f32 None _ _ _ _ _ _ _ _ _ _ None _ _ q He Hp Hm HM Ef CN) as K.
  destruct (@prepare_ok Frame Names cols f32 None _ _ _ _ _ _ _ _ _ _ _ None _ _ q He Hp Hm HM Ef CN) as (vs & Ev & Po).
  assert (Lvs : length vs = length (rows a q)).
  { destruct (@tree_predicts_ok (pt_tree p) (pt_features cols f32 p q)) as (vs' & Ev' & L & _).
    { intros x. pose proof (@fit_tree Frame Names cols f32 None _ _ _ _ _ _ _ _ _ _ _ None _ _ He Hp Hm HM Ef) as F. cbv zeta in F.
      rewrite counted_kept in F. destruct (F CN) as (_ & _ & F'). destruct (F' x) as (j' & _ & J2 & _). eauto. }
    rewrite <- FT. congruence. }
  split; [|split].
  - unfold pi_decide, pi_ready. cbn [pi_fitted pi_tree bind]. now rewrite K.
  - unfold pi_interpret, pi_ready. cbn [pi_fitted pi_tree bind]. unfold predict_opt_effect, pt_prepare. rewrite Ev. cbn [bind]. rewrite Po.
    destruct (cf_crit cf); reflexivity.
  - intros Hc. unfold pi_predict, pi_ready. cbn [pi_fitted pi_tree bind]. unfold predict_opt_effect, pt_prepare. rewrite Hc, Ev. cbn [bind]. rewrite Po.
    eexists. split; [reflexivity|]. now rewrite map_length.
Qed.

Theorem C192_criterion_refuted cf o a o' q : proper cf -> cf_crit cf <> PolicyReg ->
  fit cf o a = (o', Ok tt) -> rows a None <> [] ->
  decide cf o' q = Err ValueError /\ interpret cf o' q = Err ValueError /\ predict cf o' q = Err ValueError.
Proof.
  intros (He & Hp & Hm & HM) Hc E Hr. destruct (pi_fit_inv _ _ _ _ _ _ _ E) as (c & src & ce' & nf & p & _ & Hce' & _ & Ef & -> & FT).
  assert (Lv : cast f32 (pt_v p) = rows a None) by (rewrite <- FT; reflexivity).
  assert (Hv : pt_v p <> []) by (intros Z; rewrite Z in Lv; cbn in Lv; congruence).
  assert (CN : counted (cf_mln cf) None (length (pt_v p)) <> []) by (rewrite counted_all; destruct (pt_v p); [congruence|discriminate]).
  destruct (@C102_criterion_refuted Frame Names cols f32 None _ _ _ _ _ _ _ _ _ _ _ None _ _ q He Hp Hm HM Ef CN Hc) as [K1 K2].
  unfold pi_decide, pi_interpret, pi_predict, pi_ready. cbn [pi_fitted pi_tree bind]. now rewrite K1, K2.
Qed.

(* ------------------------------------------------------------------------------------------------ *)
(** ** C193: covariate= *)

Definition with_cov (a : piargs Frame Names T) (c : option Names) : piargs Frame Names T :=
  mkPA (pa_data a) (pa_est a) c (pa_names a) (pa_effect a) (pa_array a).

(** When the effects are the estimator's, covariate= has no influence on any answer: it is only recorded (plot uses it
    to name the features). *)
Theorem C193_covariate_refuted cf o a m c0 c : own_effects a = false -> pa_est a = Some m -> es_cov m = Some c0 ->
  let o1 := fit cf o (with_cov a (Some c)) in
  let o2 := fit cf o (with_cov a None) in
  snd o1 = snd o2 /\
  (snd o1 = Ok tt -> pi_cov (fst o1) = Some c /\ pi_cov (fst o2) = Some c0 /\
     forall q, interpret cf (fst o1) q = interpret cf (fst o2) q /\ decide cf (fst o1) q = decide cf (fst o2) q /\ predict cf (fst o1) q = predict cf (fst o2) q).
Proof.
  intros Ho Hm Hc o1 o2.
  assert (HA : pa_array a = None) by (unfold own_effects in Ho; destruct (pa_array a); [discriminate|auto]).
  assert (HE : pa_effect a = None) by (unfold own_effects in Ho; rewrite HA in Ho; destruct (pa_effect a); [discriminate|auto]).
  unfold o1, o2, pi_fit, with_cov. cbn [pa_cov pa_est pa_data pa_names]. rewrite Hm, Hc. unfold pi_source. cbn [pa_array pa_effect pa_est pa_data]. rewrite HA, HE, Hc.
  destruct (negb (es_fitted m)); [cbn; split; [auto|discriminate]|]. cbn [pt_covariates]. unfold pt_fit.
  assert (PC : pt_covariates cols None (pa_data a) c (FromModel c0 (option_map snd (es_trans m))) = pt_covariates cols None (pa_data a) c0 (FromModel c0 (option_map snd (es_trans m))))
    by (destruct (es_trans m) as [[k t]|]; reflexivity).
  rewrite PC. destruct (pt_covariates _ _ _ _ _) as [[c1 v1] t1]. destruct (negb _); [cbn; split; [auto|discriminate]|].
  destruct (pt_build _ _ _ _ _ _ _ _ _) as [b|x]; cbn [bind fst snd pi_cov]; [|split; [auto|discriminate]].
  split; [auto|]. intros _. split; [auto|]. split; [auto|]. intros q. split; [|split]; reflexivity.
Qed.

(** Only when the caller gives the effects are the named covariates used. *)
Theorem C193_covariate_partial cf o a o' c : own_effects a = true -> pa_cov a = Some c -> fit cf o a = (o', Ok tt) ->
  pi_cov o' = Some c /\ forall q, rows a q = cast f32 (cols match q with Some df => df | None => pa_data a end c).
Proof.
  intros Ho Hc E. destruct (pi_fit_inv _ _ _ _ _ _ _ E) as (c' & src & ce' & nf & p & NC & _ & _ & _ & -> & FT).
  unfold named_cov in NC. rewrite Hc in NC. injection NC as <-. split; [auto|].
  intros q. unfold rows_of_query, rows_of_frame. rewrite Ho. unfold named_cov. now rewrite Hc.
Qed.

(* ------------------------------------------------------------------------------------------------ *)
(** ** C194: histories of fits *)

(** A successful fit does not depend on what was fitted before, and leaves the same answers. *)
Theorem C194_refit cf o1 o2 a : snd (fit cf o1 a) = snd (fit cf o2 a) /\
  (snd (fit cf o1 a) = Ok tt -> fit cf o1 a = fit cf o2 a).
Proof.
  unfold pi_fit. destruct (match pa_cov a with Some c => Ok (Some c) | None => match pa_est a with Some m => Ok (es_cov m) | None => Err AttributeError end end) as [[c|]|];
    [|cbn; split; [auto|discriminate]|cbn; split; [auto|discriminate]].
  destruct (match pa_est a with Some m => negb (es_fitted m) | None => false end); [cbn; split; [auto|discriminate]|].
  destruct (pi_source eff_cols ncov a c) as [[[src ce] nf]|]; [|cbn; split; [auto|discriminate]].
  destruct (pt_fit _ _ _ _ _ _ _ _ _ _ _ _ _ _ _) as [p|]; cbn; [auto|split; [auto|discriminate]].
Qed.

(** A failed fit either leaves the object as it was, or makes all answers raise AssertionError until the next successful fit;
    it never mixes two fits. *)
Theorem C194_failed_fit cf o a o' x : fit cf o a = (o', Err x) ->
  o' = o \/ forall cf' q, decide cf' o' q = Err AssertionError /\ predict cf' o' q = Err AssertionError /\ interpret cf' o' q = Err AssertionError.
Proof.
  unfold pi_fit. intros H.
  assert (DEAD : forall fl c nm cf' q, let o' := mkPI fl (Some c) None nm in
     @pi_decide Frame Names T cols f32 cf' o' q = Err AssertionError /\ predict cf' o' q = Err AssertionError /\ interpret cf' o' q = Err AssertionError).
  { intros fl c nm cf' q. unfold pi_decide, pi_predict, pi_interpret, pi_ready. cbn [pi_fitted pi_tree]. destruct fl; auto. }
  destruct (match pa_cov a with Some c => Ok (Some c) | None => match pa_est a with Some m => Ok (es_cov m) | None => Err AttributeError end end) as [[c|]|];
    [|injection H as <- _; auto|injection H as <- _; auto].
  destruct (match pa_est a with Some m => negb (es_fitted m) | None => false end); [injection H as <- _; auto|].
  destruct (pi_source eff_cols ncov a c) as [[[src ce] nf]|]; [|injection H as <- _; right; apply DEAD].
  destruct (pt_fit _ _ _ _ _ _ _ _ _ _ _ _ _ _ _) as [p|]; [discriminate|injection H as <- _; right; apply DEAD].
Qed.

(** An object that was never fitted answers nothing. *)
Theorem C194_unfitted cf q : decide cf pi_new q = Err AssertionError /\ predict cf pi_new q = Err AssertionError /\ interpret cf pi_new q = Err AssertionError.
Proof. repeat split. Qed.

(* ------------------------------------------------------------------------------------------------ *)
(** ** C195: no data means the training data *)
Theorem C195_training_data cf o a o' : fit cf o a = (o', Ok tt) ->
  interpret cf o' None = interpret cf o' (Some (pa_data a)) /\ decide cf o' None = decide cf o' (Some (pa_data a)) /\
  predict cf o' None = predict cf o' (Some (pa_data a)).
Proof.
  intros E. destruct (pi_fit_inv _ _ _ _ _ _ _ E) as (c & src & ce & nf & p & _ & _ & _ & _ & -> & FT).
  assert (F : pt_features cols f32 p None = pt_features cols f32 p (Some (pa_data a))) by (rewrite !FT; reflexivity).
  unfold pi_interpret, pi_decide, pi_predict, pi_ready. cbn [pi_fitted pi_tree bind]. unfold predict_ind, predict_opt_effect, pt_prepare. now rewrite F.
Qed.

(** fit succeeds when there is a covariate, the estimator (if any) is fitted, and the effects have one row per row of data. *)
Theorem C195_fit_succeeds cf o a c ce : proper cf -> named_cov a = Some c -> (forall m, pa_est a = Some m -> es_fitted m = true) ->
  (own_effects a = true \/ exists m c', pa_est a = Some m /\ es_cov m = Some c') -> the_effects eff_cols a = Some ce ->
  rows a None <> [] -> ef_n ce = length (rows a None) -> exists o', fit cf o a = (o', Ok tt).
Proof.
  intros (He & Hp & Hm & HM) NC EF SRC Hce Hr Hn. unfold pi_fit.
  assert (CV : match pa_cov a with Some c => Ok (Some c) | None => match pa_est a with Some m => Ok (es_cov m) | None => Err AttributeError end end = Ok (Some c)).
  { unfold named_cov in NC. destruct (pa_cov a); [congruence|]. destruct (pa_est a); congruence. }
  rewrite CV. assert (FT : match pa_est a with Some m => negb (es_fitted m) | None => false end = false) by (destruct (pa_est a); [rewrite EF by auto|]; auto).
  rewrite FT.
  assert (PS : exists src nf, pi_source eff_cols ncov a c = Ok (src, ce, nf) /\ length (snd (fst (pt_covariates cols None (pa_data a) c src))) = length (rows a None)).
  { unfold the_effects in Hce. unfold pi_source, rows_of_query, rows_of_frame. unfold own_effects in *. rewrite NC. unfold cast. rewrite map_length. destruct (pa_array a).
    - injection Hce as <-. eexists _, _. split; [reflexivity|]. reflexivity.
    - destruct (pa_effect a).
      + injection Hce as <-. eexists _, _. split; [reflexivity|]. reflexivity.
      + destruct SRC as [SRC|(m & c' & Em & Ec)]; [discriminate|]. rewrite Em in *. rewrite (EF m eq_refl), Ec. cbn [negb]. injection Hce as <-.
        eexists _, _. split; [reflexivity|]. cbn [pt_covariates]. destruct (es_trans m) as [[k t]|]; reflexivity. }
  destruct PS as (src & nf & -> & L).
  assert (CN : counted (cf_mln cf) None (length (snd (fst (pt_covariates cols None (pa_data a) c src)))) <> []).
  { rewrite counted_all, L. destruct (rows a None); [congruence|discriminate]. }
  pose proof (@C102_fit_succeeds Frame Names cols f32 None (cf_crit cf) _ _ _ _ (pa_data a) c src (ef_out ce) (ef_ce ce) (ef_n ce) None nf He Hp Hm HM CN) as Q.
  destruct (pt_fit _ _ _ _ _ _ _ _ _ _ _ _ _ _ _) as [p|]; [eauto|]. destruct Q as [Q _]. congruence.
Qed.
End Interp.
Print Assumptions C189_explanation.
Print Assumptions C190_same_reason.
Print Assumptions C191_agree.
Print Assumptions C191_plot_label.
Print Assumptions C192_single_treatment_refuted.
Print Assumptions C192_criterion_refuted.
Print Assumptions C193_covariate_refuted.
Print Assumptions C193_covariate_partial.
Print Assumptions C194_refit.
Print Assumptions C194_failed_fit.
Print Assumptions C194_unfitted.
Print Assumptions C195_training_data.
Print Assumptions C195_fit_succeeds.
