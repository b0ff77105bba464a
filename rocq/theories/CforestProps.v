(** Theorems about CausalForest: C173 - C179. *)
From Coq Require Import ZArith Reals Lra.
From Verif Require Import Base ApiModel EstUtilsModel EstUtilsProps MetaModel MetaSpec MetaProofs MetaProps MetaRefit MetaT MetaX
  CrossFitModel CrossFitProofs DrModel DrProofs DrSpec DrProps DrCalls DrRobust DmlModel DmlProofs DmlProps DmlCalls DmlDisc
  TreeCritModel TreeCritProps SplitterModel SplitterSpec TreeSpec BestFirstModel BestFirstProps GrfCritModel GrfCritSpec GrfModel GrfSpec GrfProofs GrfExamples GrfProps
  GrfRefuted GrfApiProps CforestModel CforestProofs.
Unset Implicit Arguments.
Local Notation length := List.length.
Local Open Scope nat_scope.

(* ------------------------------------------------------------------------------------------------ *)
(** ** C173, C174: what fit and estimate compute *)

(** [local_effects]: the rows out are the only solutions, row by row, of the regularised weighted normal equations of the
    forest grown on the residuals yr (outcome) and xr (q columns) of n training rows with covariates v; weights: C161 *)
Definition local_effects (E : fenv) (p : fparams) (m : nat) (h : option nat) (n q : nat) (xr : nat -> nat -> R) (yr : nat -> R)
  (v : list row) (rows : list row) (out : list row) : Prop :=
  let D := mkFd n q (width v) yr xr (Some (fun i => fn_row (nth i v []))) in
  exists nodes, trees_of E p D (fun i => fn_row (nth i v [])) None m h nodes /\
    Forall2 (fun r theta => let w := weight_of E n m h (fun i => fn_row (nth i v [])) nodes (Z.to_nat (fp_n p)) (fn_row r) in
      solves n q xr w (rhs n xr yr w) theta /\ forall theta', solves n q xr w (rhs n xr yr w) theta' -> theta' = theta) rows out.

Lemma forest_estimates E p m h x xhat keep y yhat v f s1 :
  usable E -> proper p -> sizes p (length x) m h -> enough (length x) m h -> length v = length x ->
  grf_fit E (cf_data x xhat keep y yhat (Some v)) None (grf_init p) = (f, Ok tt) -> fst s1 = f ->
  forall data t c q, let rows := match data with Some d => d | None => v end in rows <> [] -> width rows = width v ->
  exists out, cf_estimate E s1 data t c q = Ok out /\
    local_effects E p m h (length x) (ncols (width x) keep) (fun i j => nth (col keep j) (nth i x []) 0 - xhat i (col keep j))%R
      (fun i => nth 0 (nth i y []) 0 - yhat i 0%nat)%R v rows out.
Proof.
  intros U P Hz Hn Hv Hf <- data t c q rows Hr Hw. set (D := cf_data x xhat keep y yhat (Some v)) in *.
  destruct (C160_estimate_partial E p D (fun i => fn_row (nth i v [])) None m h U P Hz Hn eq_refl) as (o & nodes & Ho & HT & HE & HN).
  rewrite Hf in Ho. injection Ho as Ho.
  assert (EQ : cf_estimate E s1 data t c q = grf_estimate E o (Some (fd_nf D, map fn_row rows))).
  { unfold cf_estimate. rewrite Ho. destruct data as [d|]; cbn [option_map].
    - subst rows. cbn [D cf_data fd_nf]. rewrite Hw. reflexivity.
    - subst rows. rewrite HN.
      + f_equal. f_equal. f_equal. change (fd_n D) with (length x). rewrite <- Hv. clear.
        apply (nth_ext _ _ (fn_row []) (fn_row [])); [now rewrite !map_length, seq_length|]. intros i Hi. rewrite map_length, seq_length in Hi.
        rewrite (map_nth (A := row)). now rewrite EstUtilsProps.nth_map_seq by auto.
      + change (fd_n D) with (length x). rewrite <- Hv. destruct v; [easy|]. cbn; lia. }
  destruct (HE (map fn_row rows)) as (out & E1 & F1); [destruct rows; easy|].
  exists out. split; [now rewrite EQ|]. exists nodes. split; [exact HT|].
  clearbody rows. clear - F1. change (fd_n D) with (length x) in F1. remember (map fn_row rows) as l eqn:El. revert rows El.
  induction F1 as [|b th l l' Hb F1 IH]; intros [|r rows] El; try discriminate; [constructor|]. injection El as -> ->.
  constructor; [exact Hb|]. now apply IH.
Qed.

(** C173, continuous treatments: the first stage is DoubleML's; the forest is grown on the residuals, one effect per
    treatment column.  Partial: as in C160 the right-hand side is not the documented one. *)
Theorem C173_CF_continuous_partial Lx Ly E categories cf a x p s1 m h v :
  usable E -> proper p -> m_x a = XCont x -> m_v a = Some v -> length v = length x ->
  sizes p (length x) m h -> enough (length x) m h ->
  cf_fit Lx Ly E categories cf None a (cf_new p) = (s1, Ok tt) ->
  exists wv xhat yhat,
    get_wv [m_w a; m_v a] = Ok wv /\
    first_stage Lx cf wv x (width x) xhat /\ first_stage Ly cf wv (m_y a) (width (m_y a)) yhat /\
    forall data t c q, let rows := match data with Some d => d | None => v end in rows <> [] -> width rows = width v ->
    exists out, cf_estimate E s1 data t c q = Ok out /\
      local_effects E p m h (length x) (width x) (fun i j => nth j (nth i x []) 0 - xhat i j)%R (fun i => nth 0 (nth i (m_y a) []) 0 - yhat i 0%nat)%R v rows out.
Proof.
  intros U P Ex Ev Lv Hz Hn H. destruct (cf_fit_cont _ _ _ _ _ _ _ _ _ _ Ex H) as (wv & xhat & yhat & H1 & H2 & H3 & H4 & _).
  cbn [transformed] in *. rewrite Ev in H4. exists wv, xhat, yhat. do 3 (split; [assumption|]).
  exact (forest_estimates E p m h x xhat None (m_y a) yhat v (fst s1) s1 U P Hz Hn Lv H4 eq_refl).
Qed.
Print Assumptions C173_CF_continuous_partial.

Definition seqdel (n c : nat) : list nat := seq 0 c ++ seq (S c) (n - S c).
Lemma keep_one n c : c < n -> keep_cols n [c] = seqdel n c.
Proof.
  intros H. unfold keep_cols, seqdel. replace (seq 0 n) with (seq 0 c ++ c :: seq (S c) (n - S c)).
  2:{ change (c :: seq (S c) (n - S c)) with (seq c (S (n - S c))). rewrite <- seq_app. f_equal. lia. }
  rewrite filter_app. cbn [filter existsb]. rewrite Nat.eqb_refl. cbn [orb negb]. f_equal.
  - transitivity (filter (fun _ : nat => true) (seq 0 c)).
    + apply filter_ext_in. intros i Hi. apply in_seq in Hi. rewrite (proj2 (Nat.eqb_neq i c)) by lia. reflexivity.
    + induction (seq 0 c); cbn; congruence.
  - transitivity (filter (fun _ : nat => true) (seq (S c) (n - S c))).
    + apply filter_ext_in. intros i Hi. apply in_seq in Hi. rewrite (proj2 (Nat.eqb_neq i c)) by lia. reflexivity.
    + induction (seq (S c) (n - S c)); cbn; congruence.
Qed.
Lemma seqdel_length n c : c < n -> length (seqdel n c) = n - 1.
Proof. intros H. unfold seqdel. rewrite app_length, !seq_length. lia. Qed.
Lemma seqdel_nth n c j : j < n - 1 -> c < n -> nth j (seqdel n c) 0 = if j <? c then j else S j.
Proof.
  intros Hj Hc. unfold seqdel. destruct (Nat.ltb_spec j c).
  - rewrite app_nth1 by now rewrite seq_length. now rewrite seq_nth.
  - rewrite app_nth2 by now rewrite seq_length. rewrite seq_length, seq_nth by lia. lia.
Qed.

(** C174, discrete treatments: the forest is grown on (indicator of the group - its probability) for every group but the
    control group, in the order of the groups.  The control is the first group unless fit was given a value or list. *)
Theorem C174_CF_discrete_partial Lx Ly E categories cf a x p s1 m h v d rk :
  usable E -> proper p -> m_x a = XDisc x -> Forall (fun r => length r = d) x -> (forall cs, categories = Some cs -> Forall (@NoDup label) cs) ->
  m_v a = Some v -> length v = length x -> sizes p (length x) m h -> enough (length x) m h ->
  cf_fit Lx Ly E categories cf None a (cf_new p) = (s1, Ok tt) ->
  exists keys wv ph yhat,
    groups_of d (dr_values categories x) keys /\ (d = 1 -> categories = None -> increasing keys) /\
    get_wv [m_w a; m_v a] = Ok wv /\ 2 <= length keys /\
    first_stage_disc Lx cf wv (group_nos keys x) (length keys) ph /\ first_stage Ly cf wv (m_y a) (width (m_y a)) yhat /\
    (names d keys 0 (k_control a) rk -> In rk keys ->
     let others := seqdel (length keys) (group_no keys rk) in
     forall data t c q, let rows := match data with Some d => d | None => v end in rows <> [] -> width rows = width v ->
     exists out, cf_estimate E s1 data t c q = Ok out /\
       local_effects E p m h (length x) (length keys - 1)
         (fun i j => nth (nth j others 0%nat) (nth i (map (indicator keys) x) []) 0 - ph i (nth j others 0%nat))%R
         (fun i => nth 0 (nth i (m_y a) []) 0 - yhat i 0%nat)%R v rows out).
Proof.
  intros U P Ex HL HN Ev Lv Hz Hn H.
  destruct (cf_fit_disc _ _ _ _ _ _ _ _ _ _ _ Ex HL HN H) as (keys & e & wv & ph & yhat & cols & H1 & H2 & H3 & H4 & H5 & H6 & H7 & H8 & H9 & H10 & H11 & _).
  cbn [transformed] in H5, H11. exists keys, wv, ph, yhat. do 6 (split; [assumption|]). intros Nk Ik others.
  assert (K : 0 < length keys) by lia. pose proof (drops_named _ _ _ _ _ _ H9 Nk Ik K H10) as ->.
  destruct (group_no_lt _ _ Ik) as [Lt _]. rewrite keep_one in H11 by auto. fold others in H11. rewrite Ev in H11.
  intros data t c q rows Hr Hw.
  destruct (forest_estimates E p m h (map (indicator keys) x) ph (Some others) (m_y a) yhat v (fst s1) s1 U P) with (data := data) (t := t) (c := c) (q := q)
    as (out & Eo & Lo); try (rewrite map_length); auto.
  exists out. split; [exact Eo|]. cbn [ncols col] in Lo. rewrite map_length in Lo. rewrite (seqdel_length _ _ Lt : length others = _) in Lo. exact Lo.
Qed.
Print Assumptions C174_CF_discrete_partial.

(* ------------------------------------------------------------------------------------------------ *)
(** ** C175: data without noise *)

(** One continuous treatment; residuals of outcome and treatment related exactly by y' = b + tau x'; every tree a single node
    (so that all rows have the weight 1/n).  The estimate of every row is tau times (1 - 1/n) V / (V + 1e-5), V the variance of
    the treatment residuals: with the documented equations the factor 1 - 1/n would not be there. *)
Theorem C175_CF_attenuated_refuted Lx Ly E categories cf a x p s1 m h v :
  usable E -> proper p -> fp_mln p = Some 1 -> m_x a = XCont x -> width x = 1 -> m_v a = Some v -> length v = length x ->
  sizes p (length x) m h -> enough (length x) m h ->
  cf_fit Lx Ly E categories cf None a (cf_new p) = (s1, Ok tt) ->
  exists wv xhat yhat, get_wv [m_w a; m_v a] = Ok wv /\ first_stage Lx cf wv x 1 xhat /\ first_stage Ly cf wv (m_y a) (width (m_y a)) yhat /\
    let n := length x in
    let xr := (fun i => nth 0 (nth i x []) 0 - xhat i 0%nat)%R in
    let yr := (fun i => nth 0 (nth i (m_y a) []) 0 - yhat i 0%nat)%R in
    forall tau b, (forall i, (i < n)%nat -> yr i = b + tau * xr i)%R ->
    let V := mean (fun i => (xr i - mean xr (seq 0 n)) ^ 2)%R (seq 0 n) in
    forall data t c q, let rows := match data with Some d => d | None => v end in rows <> [] -> width rows = width v ->
    cf_estimate E s1 data t c q = Ok (repeat [(1 - 1 / INR n) * (tau * V / (V + 1 / 100000))]%R (length rows)).
Proof.
  intros U P Hm Ex Wx Ev Lv Hz Hn H.
  destruct (C173_CF_continuous_partial _ _ _ _ _ _ _ _ _ _ _ _ U P Ex Ev Lv Hz Hn H) as (wv & xhat & yhat & H1 & H2 & H3 & H4).
  rewrite Wx in *. exists wv, xhat, yhat. do 3 (split; [assumption|]). intros n xr yr tau b Hy V data t c q rows Hr Hw.
  destruct (H4 data t c q Hr Hw) as (out & Eo & nodes & HT & F). fold n in HT, F. fold rows in F. rewrite Eo. f_equal.
  assert (N0 : INR n <> 0%R) by (apply not_0_INR; destruct Hn as [A B]; fold n in A; destruct h; lia).
  set (D := mkFd n 1 (width v) _ _ _) in HT.
  assert (W : forall r i, weight_of E n m h (fun i => fn_row (nth i v [])) nodes (Z.to_nat (fp_n p)) r i = (1 / INR n)%R).
  { intros r i. exact (C161_single_node_refuted E p D _ None m h nodes U P eq_refl HT Hm r i). }
  assert (Ws : forall r, total n (weight_of E n m h (fun i => fn_row (nth i v [])) nodes (Z.to_nat (fp_n p)) r) = 1%R).
  { intros r. transitivity (Rsum (map (fun _ : nat => 1 / INR n) (seq 0 n))%R).
    - apply Rsum_map_ext. intros; apply W.
    - rewrite Rsum_const, seq_length. now field. }
  clearbody rows. clear Eo Hr Hw H4. induction F as [|r th l l' Hth F IH]; [reflexivity|]. cbn [repeat length]. f_equal; [|exact IH].
  set (w := weight_of _ _ _ _ _ _ _ _) in Hth. cbv zeta in Hth. destruct Hth as [Hs _].
  destruct th as [|theta [|? ?]]; destruct Hs as [Hl Hs]; try discriminate Hl. f_equal.
  destruct (C160_attenuated_refuted n (fun i j => nth j (nth i x []) 0 - xhat i j)%R yr w n tau b theta) as (_ & A & _).
  - intros i Hi. left. apply W.
  - apply Ws.
  - intros i Hi _. apply Hy. exact Hi.
  - cbv zeta in A. replace V with (total n (fun i => w i * (centred n (fun i j => nth j (nth i x []) 0 - xhat i j) w i 0 * centred n (fun i j => nth j (nth i x []) 0 - xhat i j) w i 0)))%R.
    + apply A. split; auto.
    + unfold V, mean. rewrite seq_length. unfold Rdiv at 1. rewrite <- Rsum_scale_r. apply Rsum_map_ext. intros i _.
      assert (C : centred n (fun i j => nth j (nth i x []) 0 - xhat i j)%R w i 0 = (xr i - Rsum (map xr (seq 0 n)) / INR n)%R).
      { unfold centred. unfold xr at 1. f_equal. unfold Rdiv. rewrite <- Rsum_scale_r. apply Rsum_map_ext. intros k _. unfold w. rewrite W. unfold xr.
        unfold Rdiv. ring. }
      rewrite C. unfold w. rewrite W. unfold Rdiv. ring.
Qed.
Print Assumptions C175_CF_attenuated_refuted.

(* ------------------------------------------------------------------------------------------------ *)
(** ** C176: average effects, treat and control *)

(** estimate(quantity='ATE') gives one result per row, like estimate(); treat and control have no influence. *)
Theorem C176_CF_quantity_refuted Lx Ly E categories cf a x p s1 m h v :
  usable E -> proper p -> m_x a = XCont x -> m_v a = Some v -> length v = length x ->
  sizes p (length x) m h -> enough (length x) m h ->
  cf_fit Lx Ly E categories cf None a (cf_new p) = (s1, Ok tt) ->
  forall data, let rows := match data with Some d => d | None => v end in rows <> [] -> width rows = width v ->
  exists out, length out = length rows /\ Forall (fun r => length r = width x) out /\
    forall t c q, cf_estimate E s1 data t c q = Ok out.
Proof.
  intros U P Ex Ev Lv Hz Hn H data rows Hr Hw.
  destruct (C173_CF_continuous_partial _ _ _ _ _ _ _ _ _ _ _ _ U P Ex Ev Lv Hz Hn H) as (wv & xhat & yhat & _ & _ & _ & H4).
  destruct (H4 data ANone ANone QNone Hr Hw) as (out & Eo & nodes & _ & F). exists out. split; [clear - F; fold rows in F; induction F; cbn [length]; auto|].
  split; [|intros; exact Eo]. fold rows in F. clearbody rows. clear - F. induction F as [|r th l l' Hth F IH]; constructor; auto.
  cbv zeta in Hth. destruct Hth as [[Hl _] _]. exact Hl.
Qed.
Print Assumptions C176_CF_quantity_refuted.

(* ------------------------------------------------------------------------------------------------ *)
(** ** C177: effect_nji, apply *)

Lemma cf_fit_flags Lx Ly E categories cf trf a s s1 :
  cf_fit Lx Ly E categories cf trf a s = (s1, Ok tt) -> d_isf (snd s1) = true /\ d_stage1 (snd s1) = true.
Proof.
  intros H. unfold cf_fit in H. set (body := (mbind _ _ : M CSt unit)) in H.
  assert (Hb : body s = (s1, Ok tt)) by (destruct (m_w a), (m_v a); auto; discriminate H). clear H. subst body.
  apply mbind_inv in Hb as (a1 & [] & _ & H). apply mbind_inv in H as (a2 & o2 & _ & H). cbv zeta in H.
  apply mbind_inv in H as (a3 & [x' z'] & _ & H). apply mbind_inv in H as (a4 & [] & _ & H).
  apply mbind_inv in H as (a5 & wv & _ & H). apply mbind_inv in H as (a6 & xhat & _ & H). apply mbind_inv in H as (a7 & yhat & _ & H).
  apply mbind_inv in H as (a8 & [] & A8 & H). apply on_dml_inv in A8 as (h8 & o8 & A8 & ->). unfold obj_set in A8. injection A8 as _ <-.
  apply mbind_inv in H as (a9 & keep & A9 & H). apply cf_columns_inv in A9 as (_ & G9 & _). cbn [snd] in G9.
  apply mbind_inv in H as (b & [] & B & H). apply on_forest_inv in B as (f & B & ->).
  apply on_dml_inv in H as (h9 & o9 & H & ->). unfold obj_set in H. injection H as _ <-. split; [reflexivity|exact G9].
Qed.

(** effect_nji is DoubleML's, which reads coef_ of the final model: it always raises AttributeError. *)
Theorem C177_CF_effect_nji_refuted Lx Ly E categories cf trf a s s1 disc data control :
  cf_fit Lx Ly E categories cf trf a s = (s1, Ok tt) -> snd (cf_effect_nji disc data control s1) = Err AttributeError.
Proof.
  intros H. destruct (cf_fit_flags _ _ _ _ _ _ _ _ _ H) as [F1 F2].
  destruct s1 as [f o]. destruct o as [yx isf st1 en tv nm nx ny tr ct]. cbn [snd d_isf d_stage1] in F1, F2. subst isf st1.
  destruct data, tv, nm; reflexivity.
Qed.
Print Assumptions C177_CF_effect_nji_refuted.

Theorem C177_CF_apply_refuted Lx Ly E categories cf trf a x p s1 rows :
  m_x a = XCont x -> cf_fit Lx Ly E categories cf trf a (cf_new p) = (s1, Ok tt) -> cf_apply s1 rows = Err TypeError.
Proof.
  intros Ex H. destruct (cf_fit_cont _ _ _ _ _ _ _ _ _ _ Ex H) as (wv & xhat & yhat & _ & _ & _ & H4 & _).
  unfold cf_apply. eapply C166_apply_refuted. exact H4.
Qed.
Print Assumptions C177_CF_apply_refuted.

(* ------------------------------------------------------------------------------------------------ *)
(** ** C178: covariates *)

(** Without covariates fit raises, although DoubleML's check accepts adjustment variables alone. *)
Theorem C178_CF_no_covariate_refuted Lx Ly E categories cf trf a x p m h :
  m_x a = XCont x -> m_v a = None -> (1 <= fp_n p)%Z -> sizes p (length x) m h -> enough (length x) m h ->
  forall s1, cf_fit Lx Ly E categories cf trf a (cf_new p) <> (s1, Ok tt).
Proof.
  intros Ex Ev HN Hz Hn s1 H. destruct (cf_fit_cont _ _ _ _ _ _ _ _ _ _ Ex H) as (wv & xhat & yhat & _ & _ & _ & H4 & _).
  rewrite Ev in H4. assert (T : transformed trf None = None) by (destruct trf; reflexivity). rewrite T in H4.
  pose proof (C172_no_covariate_refuted E p (cf_data x xhat None (m_y a) yhat None) None m h Hz Hn HN eq_refl) as A.
  cbn [fst cf_new] in H4. rewrite H4 in A. discriminate A.
Qed.
Print Assumptions C178_CF_no_covariate_refuted.

(** A covariate_transformer is applied to the training data only: if it changes the number of columns, estimate() works and
    estimate(training data) raises ValueError. *)
Theorem C178_CF_transformer_refuted Lx Ly E categories cf f a x p s1 m h v q1 q2 :
  usable E -> proper p -> m_x a = XCont x -> m_v a = Some v -> length (f v) = length x -> f v <> [] -> v <> [] -> width (f v) <> width v ->
  sizes p (length x) m h -> enough (length x) m h ->
  cf_fit Lx Ly E categories cf (Some f) a (cf_new p) = (s1, Ok tt) ->
  (exists out, cf_estimate E s1 None ANone ANone q1 = Ok out) /\ cf_estimate E s1 (Some v) ANone ANone q2 = Err ValueError.
Proof.
  intros U P Ex Ev Lv Hf Hv Hw Hz Hn H. destruct (cf_fit_cont _ _ _ _ _ _ _ _ _ _ Ex H) as (wv & xhat & yhat & _ & _ & _ & H4 & _).
  rewrite Ev in H4. cbn [transformed option_map fst cf_new] in H4. split.
  - destruct (forest_estimates E p m h x xhat None (m_y a) yhat (f v) (fst s1) s1 U P Hz Hn Lv H4 eq_refl None ANone ANone q1 Hf eq_refl) as (out & Eo & _). eauto.
  - set (D := cf_data x xhat None (m_y a) yhat (Some (f v))) in *.
    destruct (fit_fresh E p D (fun i => fn_row (nth i (f v) [])) None m h U P Hn eq_refl (grf_init p) eq_refl eq_refl Hz (fun _ => eq_refl)) as (ts & Ef & F).
    rewrite H4 in Ef. injection Ef as Ef. unfold cf_estimate. cbn [option_map]. rewrite Ef. unfold grf_estimate. cbn [o_fitted negb o_data o_trees bind fst snd].
    destruct v as [|v0 v']; [easy|]. cbn [map length batches]. cbn [firstn mapX].
    assert (R : forall r, row_estimate E D ts (width (v0 :: v')) r = Err ValueError).
    { intros r. unfold row_estimate, forest_alpha. destruct ts as [|t ts].
      - exfalso. destruct P as [P1 _]. destruct (Z.to_nat (fp_n p)) eqn:Z0; [lia|]. inversion F.
      - destruct (Z.to_nat (fp_n p)) eqn:Z0; [inversion F|]. cbn [seq] in F. inversion F as [|? ? ? ? M _]; subst. destruct M as (b & rc & _ & _ & _ & _ & ->).
        cbn [mapX]. unfold tree_alpha. cbn [t_nf]. destruct (Nat.eqb_spec (fd_nf D) (width (v0 :: v'))) as [Q|Q]; [contradiction Hw; exact Q|]. reflexivity. }
    rewrite R. reflexivity.
Qed.
Print Assumptions C178_CF_transformer_refuted.
