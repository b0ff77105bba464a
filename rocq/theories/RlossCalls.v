(** Properties of RLoss, continued: C183-C188. *)
From Coq Require Import ZArith Reals Lra String.
From Verif Require Import Base ApiModel EstUtilsModel EstUtilsProps MetaModel MetaSpec MetaProofs MetaProps CrossFitModel DmlModel DmlProofs DrSpec DmlProps DmlDisc
  DrProofs DrProps DrCalls CforestProofs DmlExamples RlossModel RlossSpec RlossProofs RlossProps.
Unset Implicit Arguments.
Local Notation length := List.length.
Local Open Scope nat_scope.

(* ------------------------------------------------------------------------------------------------ *)
(** ** C183: names *)

(** C183 is false when the covariate was given as one name of several letters: the score loops over the letters and raises
    IndexError. *)
Theorem C183_RLoss_one_name_refuted Lx Ly categories cf trw trv a x s o te name treat control :
  ra_x a = XCont x -> rl_fit Lx Ly categories cf trw trv a s = (o, Ok tt) -> ra_cov a = NStr name ->
  te_cov te = NStr name -> 2 <= String.length name -> rl_score o te treat control = Err IndexError.
Proof.
  intros Ex H Ec Et Hl. destruct (rl_fit_cont _ _ _ _ _ _ _ _ _ _ Ex H) as (w & v & wv & xhat & yhat & C1 & C2 & _ & _ & _ & _ & ->).
  rewrite Ec in C2. unfold columns in C2. destruct (get_col (ra_data a) name) as [u|]; [|discriminate C2]. cbn [bind] in C2. injection C2 as <-.
  destruct name as [|c1 [|c2 name]]; cbn in Hl; try lia.
  unfold rl_score. cbn [rl_res bind]. unfold test_frame. cbn [rl_cov]. rewrite Ec, Et. reflexivity.
Qed.
Print Assumptions C183_RLoss_one_name_refuted.

(** the validation set: covariates v1 = (1, 2), v2 = (0, 0); treatment x = (1, 1), outcome y = v1 * x *)
Definition data183 : frame := [("v1", [1; 2]); ("v2", [0; 0])]%R%string.
Definition args183 (cov : list string) : rlargs :=
  mkRA data183 (NList cov) NNone (XCont [[1%R]; [1%R]]) [[1%R]; [2%R]] true.
(** a DoubleML trained with covariates [v2, v1] whose final model has the coefficients 0 (intercept), 0 (v2), 1 (v1) *)
Definition dml183 : dmlargs := mkDmlArgs (XCont [[1%R]; [1%R]]) None (Some [[0%R; 1%R]; [0%R; 2%R]]) [[1%R]; [2%R]] ANone ANone.
Definition lin183 : linear := fun _ _ => Ok [[0%R; 0%R; 1%R]].

(** C183 is false when the same covariates are listed in another order: the estimator with the exact effect has score 0
    when RLoss was fitted with covariate=['v2', 'v1'], and 5/2 when it was fitted with covariate=['v1', 'v2']. *)
Theorem C183_RLoss_order_refuted :
  exists st o1 o2 s1 s2,
    dml_fit (toyc 2) (toyc 2) lin183 None 1 dml183 (empty, dml_new 0) = (st, Ok tt) /\
    rl_fit (toyc 2) (toyc 2) None 1 None None (args183 ["v2"; "v1"]%string) (rl_new false) = (o1, Ok tt) /\
    rl_fit (toyc 2) (toyc 2) None 1 None None (args183 ["v1"; "v2"]%string) (rl_new false) = (o2, Ok tt) /\
    rl_score o1 (te_dml st false (NList ["v2"; "v1"]%string) NNone) ANone ANone = Ok s1 /\ nd_at s1 [0] = 0%R /\
    rl_score o2 (te_dml st false (NList ["v2"; "v1"]%string) NNone) ANone ANone = Ok s2 /\ nd_at s2 [0] = (5 / 2)%R.
Proof.
  eexists _, _, _, _, _. split; [run|]. split; [run|]. split; [run|]. split; [run|]. split; [cbv - [Rplus Rminus Rmult Rinv Rdiv IZR]; lra|].
  split; [run|]. cbv - [Rplus Rminus Rmult Rinv Rdiv IZR]; lra.
Qed.
Print Assumptions C183_RLoss_order_refuted.

(* ------------------------------------------------------------------------------------------------ *)
(** ** C184: the score as a loss *)

Lemma Sum_nonneg n f : (forall i, i < n -> (0 <= f i)%R) -> (0 <= Sum n f)%R.
Proof.
  intros H. unfold Sum. assert (G : forall i, In i (seq 0 n) -> (0 <= f i)%R) by (intros i Hi; apply in_seq in Hi; apply H; lia). clear H.
  induction (seq 0 n) as [|i l IH]; cbn; [lra|]. apply Rplus_le_le_0_compat; [apply G; now left|apply IH; intros; apply G; now right].
Qed.
Lemma Sum_zero n f : (forall i, i < n -> (0 <= f i)%R) -> Sum n f = 0%R -> forall i, i < n -> f i = 0%R.
Proof.
  intros H Z i Hi. unfold Sum in Z. assert (G : forall i, In i (seq 0 n) -> (0 <= f i)%R) by (intros k Hk; apply in_seq in Hk; apply H; lia). clear H.
  assert (I : In i (seq 0 n)) by (apply in_seq; lia). clear Hi. revert I. induction (seq 0 n) as [|k l IH]; [easy|]. cbn in Z.
  assert (N1 : (0 <= f k)%R) by (apply G; now left).
  assert (N2 : (0 <= fold_right Rplus 0 (map f l))%R).
  { clear - G. assert (G' : forall i, In i l -> (0 <= f i)%R) by (intros; apply G; now right). clear G.
    induction l as [|q l IH]; cbn; [lra|]. apply Rplus_le_le_0_compat; [apply G'; now left|apply IH; intros; apply G'; now right]. }
  intros [->|I]; [lra|]. apply IH; [lra|intros; apply G; now right|exact I].
Qed.

(** C184: a score is never negative, whatever the estimator answers. *)
Theorem C184_RLoss_nonneg o te treat control sc idx : rl_score o te treat control = Ok sc -> (0 <= nd_at sc idx)%R.
Proof.
  intros H. unfold rl_score in H. destruct (rl_res o) as [[x' y']|]; [|discriminate H]. cbn [bind] in H.
  destruct (test_frame o te) as [fr|]; [|discriminate H]. cbn [bind] in H.
  destruct (te_estimate te fr _ _) as [[e t]|]; [|discriminate H]. cbn [bind] in H.
  match type of H with (bind ?q _) = _ => destruct q as [ex|]; [|discriminate H] end. cbn [bind] in H.
  destruct (einsum_nij _ _) as [p|]; [|discriminate H]. cbn [bind] in H.
  destruct (bcast2 _ _ _) as [d|]; [|discriminate H]. cbn [bind] in H. unfold mean0 in H. cbn [nd_shape] in H.
  destruct (nd_shape d) as [|n r]; [discriminate H|]. injection H as <-. cbn [nd_at].
  assert (G : (0 <= Sum n (fun i => nd_at d (i :: idx) * nd_at d (i :: idx)))%R).
  { apply Sum_nonneg. intros i _. apply Rle_0_sqr. }
  unfold Sum in G. destruct n as [|n].
  - cbn. unfold Rdiv. rewrite Rmult_0_l. lra.
  - apply Rmult_le_pos; [exact G|]. left. apply Rinv_0_lt_compat. apply lt_0_INR. lia.
Qed.
Print Assumptions C184_RLoss_nonneg.

Lemma r_loss_zero n k yr xr tau j : 0 < n ->
  r_loss n k yr xr tau j = 0%R <-> forall r, r < n -> yr r j = Sum k (fun i => tau r j i * xr r i)%R.
Proof.
  intros Hn. unfold r_loss. assert (P : (0 < / INR n)%R) by (apply Rinv_0_lt_compat, lt_0_INR; lia). split.
  - intros Z r Hr. assert (Z' : Sum n (fun r => (yr r j - Sum k (fun i => tau r j i * xr r i)) ^ 2)%R = 0%R).
    { unfold Rdiv in Z. apply Rmult_integral in Z as [Z|Z]; [exact Z|lra]. }
    pose proof (Sum_zero _ _ (fun r _ => pow2_ge_0 _) Z' r Hr) as Q. cbn beta in Q.
    assert (Q' : (yr r j - Sum k (fun i => tau r j i * xr r i) = 0)%R); [|lra].
    destruct (Req_dec (yr r j - Sum k (fun i => tau r j i * xr r i))%R 0) as [|N]; [assumption|]. exfalso. apply (pow_nonzero _ 2) in N. lra.
  - intros H. replace (Sum n _) with 0%R; [unfold Rdiv; ring|]. symmetry. unfold Sum.
    assert (G : forall r, In r (seq 0 n) -> yr r j = fold_right Rplus 0%R (map (fun i => tau r j i * xr r i)%R (seq 0 k))) by (intros r Hr; apply in_seq in Hr; apply H; lia).
    clear - G. induction (seq 0 n) as [|r l IH]; cbn [map fold_right]; [reflexivity|]. rewrite <- (G r (or_introl eq_refl)).
    rewrite IH by (intros; apply G; now right). ring.
Qed.

(** C184: with the names of C181 and at least one row, an outcome's score is 0 exactly when the estimated effects explain
    every residual: y - y_hat = sum_i tau_i (x_i - x_hat_i) on every row of the validation set. *)
Theorem C184_RLoss_zero_partial Lx Ly categories cf trw trv a x s o te :
  ra_x a = XCont x -> rl_fit Lx Ly categories cf trw trv a s = (o, Ok tt) -> same_names a te ->
  let n := length (ra_y a) in 0 < n ->
  exists wv xhat yhat fr,
    first_stage Lx cf wv x (width x) xhat /\ first_stage Ly cf wv (ra_y a) (width (ra_y a)) yhat /\
    agrees fr (ra_data a) (names_of (ra_cov a) ++ names_of (ra_adj a)) /\
    forall treat control effect t,
      te_estimate te fr (if te_treat te then treat else ANone) (if te_control te then control else ANone) = Ok (effect, t) ->
      nd_shape effect = [n; width (ra_y a); width x] ->
      exists sc, rl_score o te treat control = Ok sc /\
        forall j, j < width (ra_y a) ->
          (nd_at sc [j] = 0%R <->
           forall r, r < n -> (nth j (nth r (ra_y a) []) 0 - yhat r j = Sum (width x) (fun i => nd_at effect [r; j; i] * (nth i (nth r x []) 0 - xhat r i)))%R).
Proof.
  intros Ex H HT n Hn. destruct (C181_RLoss_score_partial _ _ _ _ _ _ _ _ _ _ te Ex H HT)
    as (w & v & wv & xhat & yhat & fr & _ & _ & _ & F1 & F2 & Af & _ & K).
  exists wv, xhat, yhat, fr. do 3 (split; [assumption|]). intros treat control effect t Et Se.
  destruct (K _ _ _ _ Et Se) as (sc & E & _ & V). exists sc. split; [exact E|]. intros j Hj. rewrite (V j Hj). fold n.
  rewrite r_loss_zero by exact Hn. reflexivity.
Qed.
Print Assumptions C184_RLoss_zero_partial.

(* ------------------------------------------------------------------------------------------------ *)
(** ** C185: group numbers *)

(** C185 is false when the estimator was trained on other groups: a DoubleML trained on the treatments a, b, c scores its
    effect of b against c (which is 1 on every row); the validation set has only b and c.  With the documented
    residual 1[x = b] - 1/2 the loss would be 1/4; the score is 5/4, because group number 1 is b for the estimator
    and c for RLoss. *)
Definition args185 : rlargs :=
  mkRA [("v", [0; 0])]%R%string (NList ["v"]%string) NNone (XDisc [[LStr "b"]; [LStr "c"]]%string) [[1%R]; [0%R]] true.
Definition lin185 : linear := fun _ _ => Ok [[0%R; 0%R; 1%R; 0%R; 0%R; 0%R]].
Theorem C185_RLoss_groups_refuted :
  exists st o s1,
    dml_fit (toyc 3) (toyc 3) lin185 None 1 ex133 (empty, dml_new 0) = (st, Ok tt) /\
    rl_fit (toyc 2) (toyc 2) None 1 None None args185 (rl_new true) = (o, Ok tt) /\
    rl_score o (te_dml st true (NList ["v"]%string) NNone) (AVal (LStr "b")) (AVal (LStr "c")) = Ok s1 /\ nd_at s1 [0] = (5 / 4)%R /\
    r_loss 2 1 (fun r j => nth j (nth r [[1%R]; [0%R]] []) 0)%R
      (fun r _ => (if eqb (nth r [[LStr "b"]; [LStr "c"]]%string []) [LStr "b"%string] then 1 else 0) - / 2)%R (fun _ _ _ => 1%R) 0 = (1 / 4)%R.
Proof.
  eexists _, _, _. split; [run|]. split; [run|]. split; [run|]. split; [cbv - [Rplus Rminus Rmult Rinv Rdiv IZR]; lra|].
  cbv - [Rplus Rminus Rmult Rinv Rdiv IZR]. lra.
Qed.
Print Assumptions C185_RLoss_groups_refuted.

(* ------------------------------------------------------------------------------------------------ *)
(** ** C186: a fit that fails *)

(** C186 is false: an RLoss for the treatments b, c is fitted again on a validation set with a new treatment z.  That
    fit raises ValueError (the encoders are not fitted again), and the score afterwards is neither that of the first set
    nor an exception: it uses the residuals of the first set and the covariates of the second. *)
Definition args186 (v : list R) (t : string) : rlargs :=
  mkRA [("v"%string, v)] (NList ["v"]%string) NNone (XDisc [[LStr "b"]; [LStr t]]%string) [[1%R]; [0%R]] true.
Definition lin186 : linear := fun _ _ => Ok [[0%R; 0%R; 0%R; 1%R]].
Definition dml186 : dmlargs :=
  mkDmlArgs (XDisc [[LStr "b"]; [LStr "c"]]%string) None (Some [[0%R]; [0%R]]) [[1%R]; [0%R]] ANone ANone.
Theorem C186_RLoss_failed_fit_refuted :
  exists st o1 o2 s1 s2,
    let te := te_dml st true (NList ["v"]%string) NNone in
    dml_fit (toyc 2) (toyc 2) lin186 None 1 dml186 (empty, dml_new 0) = (st, Ok tt) /\
    rl_fit (toyc 2) (toyc 2) None 1 None None (args186 [0; 0]%R "c") (rl_new true) = (o1, Ok tt) /\
    rl_score o1 te ANone ANone = Ok s1 /\ nd_at s1 [0] = (1 / 2)%R /\
    rl_fit (toyc 2) (toyc 2) None 1 None None (args186 [2; 2]%R "z") o1 = (o2, Err ValueError) /\
    rl_score o2 te ANone ANone = Ok s2 /\ nd_at s2 [0] = (5 / 2)%R.
Proof.
  eexists _, _, _, _, _. cbn zeta. split; [run|]. split; [run|]. split; [run|]. split; [cbv - [Rplus Rminus Rmult Rinv Rdiv IZR]; lra|].
  split; [run|]. split; [run|]. cbv - [Rplus Rminus Rmult Rinv Rdiv IZR]. lra.
Qed.
Print Assumptions C186_RLoss_failed_fit_refuted.

(** C186: a fit without covariates raises and changes nothing. *)
Theorem C186_RLoss_no_covariate Lx Ly categories cf trw trv a s : ra_cov a = NNone ->
  rl_fit Lx Ly categories cf trw trv a s = (s, Err AssertionError).
Proof. intros E. unfold rl_fit. rewrite E. reflexivity. Qed.
(** C186: a successful fit of the same RLoss on continuous treatments forgets every earlier fit: the scores are those of a
    new RLoss. *)
Theorem C186_RLoss_refit Lx Ly categories cf trw trv a x s o : ra_x a = XCont x ->
  rl_fit Lx Ly categories cf trw trv a s = (o, Ok tt) ->
  exists o', rl_fit Lx Ly categories cf trw trv a (rl_new false) = (o', Ok tt) /\
    forall te treat control, rl_score o te treat control = rl_score o' te treat control.
Proof.
  intros Ex H. pose proof (cov_named _ _ _ _ _ _ _ _ _ H) as Hn.
  destruct (rl_fit_raw _ _ _ _ _ _ _ _ _ _ Ex H) as (w & v & wv & xhat & yhat & C1 & C2 & G & D1 & D2 & _ & ->).
  destruct (rl_fit_run Lx Ly categories cf trw trv a x (rl_new false) w v wv xhat yhat Ex Hn eq_refl C1 C2 G D1 D2) as (o' & E).
  exists o'. split; [exact E|]. intros te treat control.
  destruct (rl_fit_raw _ _ _ _ _ _ _ _ _ _ Ex E) as (w' & v' & wv' & xhat' & yhat' & C1' & C2' & G' & D1' & D2' & _ & ->).
  rewrite C1 in C1'. injection C1' as <-. rewrite C2 in C2'. injection C2' as <-. rewrite G in G'. injection G' as <-.
  rewrite D1 in D1'. injection D1' as <-. rewrite D2 in D2'. injection D2' as <-. reflexivity.
Qed.
Print Assumptions C186_RLoss_refit.

(* ------------------------------------------------------------------------------------------------ *)
(** ** C187: calls that must raise *)

(** C187: a score before any successful fit raises IndexError, ... *)
Theorem C187_RLoss_unfitted disc te treat control : rl_score (rl_new disc) te treat control = Err IndexError.
Proof. reflexivity. Qed.
(** ... an estimator without adjustments where RLoss has some raises TypeError (it could be scored: the adjustments are
    needed for the residuals only), ... *)
Theorem C187_RLoss_adjustment_refuted Lx Ly categories cf trw trv a x s o te treat control :
  ra_x a = XCont x -> rl_fit Lx Ly categories cf trw trv a s = (o, Ok tt) -> lists (te_cov te) (names_of (ra_cov a)) ->
  ra_adj a <> NNone -> te_adj te = NNone -> rl_score o te treat control = Err TypeError.
Proof.
  intros Ex H T1 Ha Et. pose proof (cov_named _ _ _ _ _ _ _ _ _ H) as Hn.
  destruct (rl_fit_cont _ _ _ _ _ _ _ _ _ _ Ex H) as (w & v & wv & xhat & yhat & C1 & C2 & _ & _ & _ & _ & ->).
  unfold rl_score. cbn [rl_res bind]. unfold test_frame. cbn [rl_cov rl_adj rl_v rl_w].
  destruct (place_same _ _ _ (columns_names _ _ _ C2) []) as (f1 & P1 & _).
  assert (E1 : (match ra_cov a with NNone => Ok [] | _ => do l <- iterate (te_cov te); place l v [] end) = Ok f1).
  { rewrite (lists_iterate _ _ T1). cbn [bind]. destruct (ra_cov a); [congruence|exact P1..]. }
  rewrite E1. cbn [bind]. rewrite Et. destruct (ra_adj a); [congruence|reflexivity..].
Qed.
Print Assumptions C187_RLoss_adjustment_refuted.
(** ... and for discrete treatments an estimator whose estimate leaves no attribute treat (CausalForest) has no score. *)
Theorem C187_RLoss_no_treat_refuted Lx Ly categories cf trw trv a x s o te treat control sc :
  ra_x a = XDisc x -> ra_comb a = true -> rl_fit Lx Ly categories cf trw trv a s = (o, Ok tt) ->
  (forall fr t c e q, te_estimate te fr t c = Ok (e, q) -> q = None) -> rl_score o te treat control <> Ok sc.
Proof.
  intros Ex Hc H HT F. destruct (rl_fit_disc _ _ _ _ _ _ _ _ _ _ Ex H) as (w & v & wv & e & z & xhat & yhat & _ & _ & _ & _ & _ & _ & _ & ->).
  unfold rl_score in F. cbn [rl_res bind] in F. destruct (test_frame _ te) as [fr|]; [|discriminate F]. cbn [bind] in F.
  destruct (te_estimate te fr _ _) as [[ef q]|] eqn:Et; [|discriminate F]. cbn [bind] in F. apply HT in Et. subst q.
  cbn [rl_disc rl_comb andb] in F. rewrite Hc in F. discriminate F.
Qed.
Print Assumptions C187_RLoss_no_treat_refuted.

(* ------------------------------------------------------------------------------------------------ *)
(** ** C188: a DoubleML is scored *)

Lemma rows_of_lens n cols : Forall (fun r => length r = length cols) (rows_of n cols).
Proof. apply Forall_forall. intros r Hr. apply in_map_iff in Hr as (i & <- & _). apply map_length. Qed.
Lemma rows_of_length n cols : length (rows_of n cols) = n.
Proof. unfold rows_of. now rewrite map_length, seq_length. Qed.

(** C188: a DoubleML trained on some training set with covariates named l is scored, treat=1 and control=0, on a validation
    set with the same covariates: the score is the mean of (y - y_hat - sum_i slope_i(v) (x_i - x_hat_i))^2, where slope_i(v)
    is the derivative of the DoubleML's final model in treatment i at the covariates v of the row. *)
Theorem C188_RLoss_of_DoubleML Lx Ly categories cf trw trv a x s o l adj Mx My lin cats mf am xm st0 st :
  ra_x a = XCont x -> ra_cov a = NList l -> l <> [] -> (ra_adj a <> NNone -> lists adj (names_of (ra_adj a))) ->
  Forall (fun p => length (snd p) = length (ra_y a)) (ra_data a) ->
  rl_fit Lx Ly categories cf trw trv a s = (o, Ok tt) ->
  m_x am = XCont xm -> dml_fit Mx My lin cats mf am st0 = (st, Ok tt) ->
  width xm = width x -> width (m_y am) = width (ra_y a) -> 0 < width (ra_y a) -> 0 < width x ->
  let n := length (ra_y a) in
  exists v wv xhat yhat X Y c,
    columns (ra_data a) (ra_cov a) = Ok (Some v) /\
    first_stage Lx cf wv x (width x) xhat /\ first_stage Ly cf wv (ra_y a) (width (ra_y a)) yhat /\ lin X Y = Ok c /\
    (coef_shape c (width (ra_y a)) (width x) (length l) ->
     exists sc, rl_score o (te_dml st false (NList l) adj) (ANum 1) (ANum 0) = Ok sc /\ nd_shape sc = [width (ra_y a)] /\
       forall j, j < width (ra_y a) ->
         nd_at sc [j] = r_loss n (width x) (fun r j => nth j (nth r (ra_y a) []) 0 - yhat r j)%R
                                           (fun r i => nth i (nth r x []) 0 - xhat r i)%R
                                           (fun r j i => slope (nth j c []) i (1%R :: map (fun u => nth r u 0%R) v)) j).
Proof.
  intros Ex Ecov Hl Hadj HF H Exm HM Wx Wy Hy Hx n. set (te := te_dml st false (NList l) adj).
  assert (HT : same_names a te).
  { split; [left; rewrite Ecov; reflexivity|exact Hadj]. }
  destruct (C181_RLoss_score_partial _ _ _ _ _ _ _ _ _ _ te Ex H HT) as (w & v & wv & xhat & yhat & fr & C1 & C2 & G & F1 & F2 & Af & Lf & K).
  destruct (fit_ready _ _ _ _ _ _ _ _ _ Exm HM) as (V & wvm & xh & yh & c & _ & _ & _ & _ & H5 & _ & HR).
  exists v, wv, xhat, yhat, (design xm xh V), (residuals (m_y am) yh), c. do 4 (split; [assumption|]). intros Hc.
  assert (Lv : length v = length l).
  { rewrite Ecov in C2. apply columns_names in C2. cbn [names_of] in C2. clear - C2. revert v C2. induction l as [|q l IH]; intros v C2; cbn [mapX] in C2.
    - injection C2 as <-. reflexivity.
    - destruct (get_col _ q); [|discriminate C2]. cbn [bind] in C2. destruct (mapX _ l) as [vs|]; [|discriminate C2]. cbn [bind] in C2.
      injection C2 as <-. cbn. f_equal. now apply IH. }
  fold n in Lf, HF. specialize (Lf HF).
  assert (Hf : frame_len fr = n).
  { destruct Lf as [|[q u] fr' Hu]; [|exact Hu]. exfalso. rewrite Ecov in C2, Af. destruct l as [|q l]; [congruence|].
    pose proof (Af q (or_introl eq_refl)) as E. cbn [get_col] in E. cbn [columns mapX] in C2. rewrite <- E in C2. discriminate C2. }
  assert (Hag : agrees fr (ra_data a) (names_of (ra_cov a))) by (intros q Hq; apply Af, in_or_app; now left).
  destruct (estimate_nums _ _ _ _ _ _ (Some (rows_of n v)) 1%R 0%R (HR (length l))) as (e & E & S & Ve); try lia.
  { rewrite Wx, Wy. exact Hc. }
  { cbn [data_rows]. rewrite <- Lv. apply rows_of_lens. }
  cbn [data_rows] in S, Ve. rewrite rows_of_length, Wx, Wy in *.
  assert (Et : te_estimate te fr (ANum 1%R) (ANum 0%R) = Ok (e, Some (VNum 1%R))).
  { unfold te, te_dml. cbn [te_estimate]. rewrite <- Ecov, (columns_agree _ _ _ Hag), C2. cbn [bind option_map]. rewrite Hf, E. reflexivity. }
  destruct (K (ANum 1%R) (ANum 0%R) e _ Et S) as (sc & E1 & S1 & V1). exists sc. split; [exact E1|]. split; [exact S1|].
  intros j Hj. rewrite (V1 j Hj). unfold r_loss, Sum. f_equal. f_equal. apply map_ext_in. intros r Hr. apply in_seq in Hr.
  f_equal. f_equal. f_equal. apply map_ext_in. intros i Hi. apply in_seq in Hi. f_equal. rewrite Ve by lia. unfold rows_of.
  rewrite nth_map_seq by lia. ring.
Qed.
Print Assumptions C188_RLoss_of_DoubleML.

(* ------------------------------------------------------------------------------------------------ *)
(** ** The hypotheses are met *)

(** C181, C184, C188: two folds, an adjustment variable, a transformer, the DoubleML of C183 *)
Definition args181 : rlargs :=
  mkRA [("w", [5; 6]); ("v1", [1; 2]); ("v2", [0; 0])]%R%string (NList ["v2"; "v1"]%string) (NList ["w"]%string) (XCont [[1%R]; [1%R]]) [[1%R]; [2%R]] true.
Definition te181 (st : St) : testest := te_dml st false (NList ["v2"; "v1"]%string) (NList ["w"]%string).
Example C181_case :
  exists st o sc,
    dml_fit (toyc 2) (toyc 2) lin183 None 1 dml183 (empty, dml_new 0) = (st, Ok tt) /\
    rl_fit (toyc 2) (toyc 2) None 2 None (Some (map (map (Rplus 1)))) args181 (rl_new false) = (o, Ok tt) /\
    same_names args181 (te181 st) /\ coef_shape [[0%R; 0%R; 1%R]] 1 1 2 /\
    rl_score o (te181 st) (ANum 1) (ANum 0) = Ok sc /\ nd_shape sc = [1] /\ nd_at sc [0] = 0%R.
Proof.
  eexists _, _, _. split; [run|]. split; [run|]. split; [split; [now left|intros _; now left]|].
  split; [split; [reflexivity|repeat constructor]|]. split; [run|]. split; [reflexivity|]. cbv - [Rplus Rminus Rmult Rinv Rdiv IZR]; lra.
Qed.

(** C182: the validation set of C186 *)
Example C182_case :
  exists st o sc,
    dml_fit (toyc 2) (toyc 2) lin186 None 1 dml186 (empty, dml_new 0) = (st, Ok tt) /\
    rl_fit (toyc 2) (toyc 2) None 1 None None (args186 [1; 2]%R "c") (rl_new true) = (o, Ok tt) /\
    same_names (args186 [1; 2]%R "c") (te_dml st true (NList ["v"]%string) NNone) /\
    rl_score o (te_dml st true (NList ["v"]%string) NNone) (AVal (LStr "c")) (AVal (LStr "b")) = Ok sc /\ nd_shape sc = [1].
Proof.
  eexists _, _, _. split; [run|]. split; [run|]. split; [split; [now left|intros F; destruct (F eq_refl)]|]. split; [run|]. reflexivity.
Qed.

(** C183: one name of several letters; C187: the estimator has no adjustment *)
Example C183_case :
  let a := mkRA data183 (NStr "v1") NNone (XCont [[1%R]; [1%R]]) [[1%R]; [2%R]] true in
  exists o, rl_fit (toyc 2) (toyc 2) None 1 None None a (rl_new false) = (o, Ok tt) /\ 2 <= String.length "v1" /\
    exists o', rl_fit (toyc 2) (toyc 2) None 1 None None args181 (rl_new false) = (o', Ok tt) /\
      lists (te_cov (te_dml (empty, dml_new 0) false (NList ["v2"; "v1"]%string) NNone)) (names_of (ra_cov args181)) /\ ra_adj args181 <> NNone.
Proof.
  intros a. eexists. split; [run|]. split; [cbn; lia|]. eexists. split; [run|]. split; [now left|discriminate].
Qed.
