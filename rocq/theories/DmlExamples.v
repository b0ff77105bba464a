(** The hypotheses of the DoubleML theorems are met by concrete fits. *)
From Coq Require Import ZArith Reals Lra.
From Verif Require Import Base ApiModel EstUtilsModel EstUtilsProps MetaModel MetaSpec MetaProofs MetaProps MetaRefit MetaT MetaX
  CrossFitModel CrossFitProofs DrModel DrProofs DrSpec DrProps DrCalls DrRobust DmlModel DmlProofs DmlProps DmlCalls DmlDisc.
Local Notation length := List.length.
Local Notation concat := List.concat.

Ltac run := cbv - [Rplus Rminus Rmult Rinv Rdiv INR IZR Rlt]; reflexivity.

(** a continuous treatment, one adjustment variable, one covariate; y = x * (2 + 3 v) + v *)
Definition ex126 : dmlargs :=
  mkDmlArgs (XCont [[0%R]; [1%R]; [1%R]]) (Some [[7%R]; [8%R]; [9%R]]) (Some [[0%R]; [0%R]; [1%R]]) [[0%R]; [2%R]; [6%R]] ANone ANone.
Definition lin126 : linear := fun _ _ => Ok [[2%R; 3%R]].
Definition empty : heap := fun _ => None.

Lemma ex126_coef : coef_shape [[2%R; 3%R]] (width (m_y ex126)) (width [[0%R]; [1%R]; [1%R]]) 1.
Proof. split; [reflexivity|repeat constructor]. Qed.

(** C126, C127, C130, C132, C136, C138: the fit succeeds with and without folds *)
Example C126_case :
  exists s1, dml_fit (toyc 2) toy lin126 None 1 ex126 (empty, dml_new 0) = (s1, Ok tt) /\
    coef_shape [[2%R; 3%R]] (width (m_y ex126)) 1 1 /\ Forall (fun r => length r = 1) [[5%R]] /\
    ready s1 [[2%R; 3%R]] 1 1 1 [[0%R]; [0%R]; [1%R]] /\ d_tr (snd s1) = ANone /\ d_ct (snd s1) = ANone.
Proof.
  eexists. split; [run|]. split; [exact ex126_coef|]. split; [repeat constructor|]. split; [|split; reflexivity].
  repeat split.
Qed.
Example C130_case : length (m_y ex126) = 3 /\ exists s1, dml_fit (toyc 2) toy lin126 None 2 ex126 (empty, dml_new 0) = (s1, Ok tt).
Proof. split; [reflexivity|]. eexists. run. Qed.

(** C128: these data; the treatment predictions are 0 and the outcome predictions are v, so g = v *)
Example C128_case :
  let x := [[0%R]; [1%R]; [1%R]] in let v := [[0%R]; [0%R]; [1%R]] in
  let B := fun _ : nat => [2%R; 3%R] in let g := fun r (_ : nat) => nth 0 (nth r v []) 0%R in
  let xhat := fun _ _ : nat => 0%R in let yhat := fun r (_ : nat) => nth 0 (nth r v []) 0%R in
  first_stage (toyc 2) 1 [[7%R; 0%R]; [8%R; 0%R]; [9%R; 1%R]] x 1 (fun r j => row_pred (toyc 2) tt (nth r [[7%R; 0%R]; [8%R; 0%R]; [9%R; 1%R]] []) j) /\
  (forall r, r < 3 -> row_pred (toyc 2) tt (nth r [[7%R; 0%R]; [8%R; 0%R]; [9%R; 1%R]] []) 0 = xhat r 0) /\
  (forall r, r < 3 -> row_pred toy tt (nth r [[7%R; 0%R]; [8%R; 0%R]; [9%R; 1%R]] []) 0 = yhat r 0) /\
  least_squares (design x xhat v) (residuals (m_y ex126) yhat) [[2%R; 3%R]] /\
  (forall r j, r < 3 -> j < 1 ->
     nth j (nth r (m_y ex126) []) 0%R = (rsum (fun i => nth i (nth r x []) 0 * true_effect B j i (nth r v [])) (seq 0 1) + g r j)%R) /\
  (forall r j, r < 3 -> j < 1 -> yhat r j = (rsum (fun i => xhat r i * true_effect B j i (nth r v [])) (seq 0 1) + g r j)%R) /\
  determined (design x xhat v) 1 0 [1%R].
Proof.
  intros x v B g xhat yhat. split; [|split; [|split; [|split; [|split; [|split]]]]].
  - unfold first_stage. cbn [Nat.leb]. split; [reflexivity|]. exists tt. split; [reflexivity|]. reflexivity.
  - intros r Hr. destruct r as [|[|[|r]]]; [| | |lia]; reflexivity.
  - intros r Hr. destruct r as [|[|[|r]]]; [| | |lia]; cbn; lra.
  - intros j Hj. cbn in Hj. assert (j = 0) as -> by lia. exists 0%R. intros coef' b'.
    assert (Z : sq_error (design x xhat v) (residuals (m_y ex126) yhat) 0 (nth 0 [[2%R; 3%R]] []) 0 = 0%R).
    { unfold sq_error, design, residuals, linear_part, rsum, feats, kron, resid, x, v, xhat, yhat, ex126. cbn. lra. }
    rewrite Z. unfold sq_error. rewrite <- (rsum_zero (seq 0 (length (design x xhat v)))) at 1. apply rsum_le. intros r _. apply pow2_ge_0.
  - intros r j Hr Hj. assert (j = 0) as -> by lia. unfold x, v, g, ex126, true_effect, slope, rsum.
    destruct r as [|[|[|r]]]; [| | |lia]; cbn; lra.
  - intros r j Hr Hj. assert (j = 0) as -> by lia. unfold x, v, g, yhat, xhat, true_effect, slope, rsum.
    destruct r as [|[|[|r]]]; [| | |lia]; cbn; lra.
  - exists (fun r => match r with 0 => -1 | 2 => 1 | _ => 0 end)%R. split.
    + unfold rsum, design. cbn. lra.
    + intros k Hk. cbn in Hk. unfold rsum, design, feats, kron, resid, unit_row, x, v, xhat. destruct k as [|[|k]]; [| |lia]; cbn; lra.
Qed.

(** C129: no covariates, everything before the final model succeeds *)
Definition ex129 : dmlargs :=
  mkDmlArgs (XCont [[0%R]; [1%R]; [1%R]]) (Some [[7%R]; [8%R]; [9%R]]) None [[0%R]; [2%R]; [6%R]] ANone ANone.
Example C129_case :
  get_wv [Some [[7%R]; [8%R]; [9%R]]; None] = Ok [[7%R]; [8%R]; [9%R]] /\
  snd (dml_fit (toyc 2) toy lin126 None 1 ex129 (empty, dml_new 0)) = Err AttributeError.
Proof. split; run. Qed.

(** C131: an object that was asked for several estimates in between *)
Example C131_case :
  exists s1 e, dml_fit (toyc 2) toy lin126 None 1 ex126 (empty, dml_new 0) = (s1, Ok tt) /\
    snd (dml_estimate false None (ANum 3%R) (ANum 1%R) QNone
      (fold_left (run_call false) [CEst None (ANum 7%R) ANone QATE; CEst (Some [[5%R]]) ANone ANone QNone] s1)) = Ok e /\ nd_shape e = [3; 1; 1].
Proof. eexists _, _. split; [run|]. split; [run|]. reflexivity. Qed.

(** C133: three groups given as strings; treat 'c' against control 'b' *)
Definition ex133 : dmlargs :=
  mkDmlArgs (XDisc [[LStr "a"]; [LStr "b"]; [LStr "c"]; [LStr "a"]]) None (Some [[0%R]; [1%R]; [0%R]; [1%R]])
            [[0%R]; [1%R]; [2%R]; [5%R]] ANone (AVal (LStr "b")).
Definition lin133 : linear := fun _ _ => Ok [[1%R; 2%R; 3%R; 4%R; 5%R; 6%R]].
Definition keys133 : list (list label) := [[LStr "a"]; [LStr "b"]; [LStr "c"]].
Example C133_case :
  exists s1 s2 e, dml_fit (toyc 3) toy lin133 None 1 ex133 (empty, dml_new 0) = (s1, Ok tt) /\
    groups_of 1 (dr_values None [[LStr "a"]; [LStr "b"]; [LStr "c"]; [LStr "a"]]) keys133 /\
    coef_shape [[1%R; 2%R; 3%R; 4%R; 5%R; 6%R]] 1 3 1 /\
    names 1 keys133 1 (kept (AVal (LStr "c")) (k_treat ex133)) [LStr "c"] /\ names 1 keys133 0 (kept ANone (k_control ex133)) [LStr "b"] /\
    dml_estimate true None (AVal (LStr "c")) ANone QNone s1 = (s2, Ok e) /\ nd_shape e = [4; 1] /\
    snd (dml_estimate true None (AVal (LStr "z")) ANone QNone s1) = Err ValueError.
Proof.
  eexists _, _, _. split; [run|]. split; [|split; [|split; [|split; [|split; [|split]]]]].
  - split; [repeat constructor; cbn; intuition congruence|]. intros r. split.
    + intros [<-|[<-|[<-|[]]]]; (split; [reflexivity|]); intros j Hj; (assert (j = 0) as -> by lia);
        eexists; (split; [|reflexivity]); cbn; auto.
    + intros [Hl Hv]. destruct (Hv 0 ltac:(lia)) as (r' & Ir & E). destruct r as [|a [|]]; try discriminate.
      cbn in E. subst a. cbn in Ir. destruct Ir as [<-|[<-|[<-|[<-|[]]]]]; cbn; auto.
  - split; [reflexivity|repeat constructor].
  - now constructor.
  - now constructor.
  - run.
  - reflexivity.
  - run.
Qed.

(** C134: values 0, 5: the second call without arguments raises; values 0, 1, 2 meet the partial theorem *)
Definition ex134 (z : list Z) : dmlargs :=
  mkDmlArgs (XDisc (map (fun z => [LInt z]) z)) None (Some (map (fun _ => [1%R]) z)) (map (fun _ => [2%R]) z) ANone ANone.
Definition lin134 : linear := fun _ _ => Ok [[1%R; 2%R; 3%R; 4%R]].
Example C134_case :
  (exists s1 s2 e, dml_fit (toyc 2) toy lin134 None 1 (ex134 [0; 5; 0]%Z) (empty, dml_new 0) = (s1, Ok tt) /\
     dml_estimate true None ANone ANone QNone s1 = (s2, Ok e) /\ snd (dml_estimate true None ANone ANone QNone s2) = Err ValueError) /\
  (exists s1, dml_fit (toyc 3) toy lin133 None 1 (ex134 [0; 1; 2]%Z) (empty, dml_new 0) = (s1, Ok tt) /\
     groups_of 1 (dr_values None [[LInt 0]; [LInt 1]; [LInt 2]]) [[LInt 0]; [LInt 1]; [LInt 2]]).

Proof.
  split.
  - eexists _, _, _. split; [run|]. split; [run|]. run.
  - eexists. split; [run|]. split; [repeat constructor; cbn; intuition congruence|]. intros r. split.
    + intros [<-|[<-|[<-|[]]]]; (split; [reflexivity|]); intros j Hj; (assert (j = 0) as -> by lia);
        eexists; (split; [|reflexivity]); cbn; auto.
    + intros [Hl Hv]. destruct (Hv 0 ltac:(lia)) as (r' & Ir & E). destruct r as [|a [|]]; try discriminate.
      cbn in E. subst a. cbn in Ir. destruct Ir as [<-|[<-|[<-|[]]]]; cbn; auto.
Qed.

(** C135: a data set with two columns in which (1, 1) does not occur *)
Example C135_case :
  let x := [[LInt 0; LInt 0]; [LInt 0; LInt 1]; [LInt 1; LInt 0]] in
  let a := mkDmlArgs (XDisc x) None (Some [[0%R]; [0%R]; [0%R]]) [[0%R]; [1%R]; [2%R]] ANone ANone in
  ~ In [LInt 1; LInt 1] x /\ (forall j, j < 2 -> dr_values None x j (nth j [LInt 1; LInt 1] (LInt 0))) /\
  snd (dml_fit (toyc 3) toy lin133 None 1 a (empty, dml_new 0)) = Err ValueError.
Proof.
  intros x a. split; [cbn; intuition congruence|]. split; [|run].
  intros j Hj. destruct j as [|[|j]]; [| |lia].
  - exists [LInt 1; LInt 0]. cbn. auto.
  - exists [LInt 0; LInt 1]. cbn. auto.
Qed.

(** C137: two objects with the same final model *)
Definition other137 : dmlargs :=
  mkDmlArgs (XCont [[0%R]; [1%R]; [1%R]]) None (Some [[0%R]; [0%R]; [1%R]]) [[0%R]; [2%R]; [6%R]] ANone ANone.
Example C137_case :
  exists s1 s2, dml_fit (toyc 2) toy lin126 None 1 ex126 (empty, dml_new 0) = (s1, Ok tt) /\
    dml_fit (toyc 2) toy (fun _ _ => Ok [[4%R; 5%R]]) None 1 other137 (fst s1, dml_new 0) = (s2, Ok tt) /\
    d_yx (snd s2) = d_yx (snd s1) /\ ready s1 [[2%R; 3%R]] 1 1 1 [[0%R]; [0%R]; [1%R]] /\ coef_shape [[4%R; 5%R]] 1 1 1.
Proof.
  eexists _, _. split; [run|]. split; [run|]. split; [reflexivity|]. split; [repeat split|].
  split; [reflexivity|repeat constructor].
Qed.

(** C139: strings in an ndarray *)
Example C139_case :
  exists s1 e, dml_fit (toyc 3) toy lin133 None 1 ex133 (empty, dml_new 0) = (s1, Ok tt) /\
    snd (dml_arg true (kept ANone (d_ct (snd s1))) false s1) = Ok (VCode 1%Z) /\
    snd (dml_estimate true None (AArr [LStr "c"]) ANone QNone s1) = Err IndexError /\
    snd (dml_estimate true None (AArr [LN 0; LN 2]) (AArr [LN 2; LN 0]) QNone s1) = Ok e /\ nd_shape e = [4; 1; 2].
Proof. eexists _, _. split; [run|]. split; [run|]. split; [run|]. split; [run|]. reflexivity. Qed.

(** C140: a second data set with the new value 'd', which a new object would accept *)
Definition ex140 : dmlargs :=
  mkDmlArgs (XDisc [[LStr "a"]; [LStr "b"]; [LStr "d"]]) None (Some [[1%R]; [2%R]; [3%R]]) [[0%R]; [1%R]; [2%R]] ANone ANone.
Example C140_case :
  (exists s1, dml_fit (toyc 3) toy lin133 None 1 ex133 (empty, dml_new 0) = (s1, Ok tt)) /\ ~ In [LStr "d"] keys133 /\
  snd (dml_fit (toyc 3) toy lin133 None 1 ex140 (empty, dml_new 0)) = Ok tt.
Proof. split; [eexists; run|]. split; [cbn; intuition congruence|run]. Qed.

Print Assumptions C126_DML_estimate.
Print Assumptions C127_DML_effect_of_final_model.
Print Assumptions C128_DML_recovers.
Print Assumptions C129_DML_covariate_optional_refuted.
Print Assumptions C130_DML_cross_fit.
Print Assumptions C131_DML_explicit_estimate_history.
Print Assumptions C132_DML_arrays.
Print Assumptions C133_DML_discrete_estimate.
Print Assumptions C134_DML_repeat_partial.
Print Assumptions C135_DML_missing_group_refuted.
Print Assumptions C136_DML_effect_nji.
Print Assumptions C137_DML_shared_model_refuted.
Print Assumptions C138_DML_contrasts.
Print Assumptions C139_DML_array_strings_refuted.
Print Assumptions C140_DML_refit_refuted.
Print Assumptions C140_DML_refit_cont_partial.
