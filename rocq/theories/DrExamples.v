(** The hypotheses of the DoublyRobust theorems are met by concrete fits. *)
From Coq Require Import ZArith Reals Lra.
From Verif Require Import Base ApiModel EstUtilsModel EstUtilsProps MetaModel MetaSpec MetaProofs MetaProps MetaRefit MetaT MetaX
  CrossFitModel CrossFitProofs DrModel DrProofs DrSpec DrProps DrCalls DrRobust.
Local Notation length := List.length.

Ltac run := cbv - [Rplus Rminus Rmult Rinv Rdiv INR IZR Rlt]; reflexivity.

(** C118: three groups given as strings, one covariate, treat 'c' against control 'b' *)
Definition ex118 : drargs :=
  mkDrArgs [[LStr "a"]; [LStr "b"]; [LStr "c"]; [LStr "a"]] (Some [[1%R]; [2%R]; [3%R]; [4%R]]) (Some [[0%R]; [1%R]; [0%R]; [1%R]])
           [[0%R]; [1%R]; [2%R]; [5%R]] (TVal (LStr "c")) (TVal (LStr "b")).
Definition keys118 : list (list label) := [[LStr "a"]; [LStr "b"]; [LStr "c"]].
Example C118_case :
  Forall (fun r => length r = 1) (a_x ex118) /\
  exists s1 e, dr_fit (toyc 3) toy toy None 1 ex118 (dr_new toy) = (s1, Ok tt) /\
    groups_of 1 (dr_values None (a_x ex118)) keys118 /\
    asks 1 keys118 0 (a_control ex118) [LStr "b"] /\ asks 1 keys118 1 (a_treat ex118) [LStr "c"] /\
    outputs toy (width (a_y ex118)) tt /\
    dr_estimate toy (Some [[7%R]]) QNone false (TVal (LStr "a")) s1 = (s1, Ok e) /\ nd_shape e = [1; 1].
Proof.
  split; [repeat constructor|]. eexists _, _. split; [run|]. split.
  - split; [repeat constructor; cbn; intuition congruence|]. intros r. split.
    + intros [<-|[<-|[<-|[]]]]; (split; [reflexivity|]); intros j Hj; (assert (j = 0) as -> by lia);
        eexists; (split; [|reflexivity]); cbn; auto.
    + intros [Hl Hv]. destruct (Hv 0 ltac:(lia)) as (r' & Ir & E). destruct r as [|a [|]]; try discriminate.
      cbn in E. subst a. cbn in Ir. destruct Ir as [<-|[<-|[<-|[<-|[]]]]]; cbn; auto.
  - split; [now constructor|]. split; [now constructor|]. split; [left; split; reflexivity|].
    split; [run|]. reflexivity.
Qed.

(** C120: no covariates; the effect of the treat group on the second row *)
Example C120_case :
  exists s1 e, dr_fit (toyc 2) toy toy None 1 ex124 (dr_new toy) = (s1, Ok tt) /\
    dr_estimate toy (Some [[7%R]]) QNone false TNone s1 = (s1, Ok e) /\ nd_shape e = [3; 1].
Proof. eexists _, _. split; [run|]. split; [run|]. reflexivity. Qed.

(** C121: two folds over five rows *)
Example C121_case :
  length (a_y ex119b) = length (a_x ex119b) /\ exists s1, dr_fit (toyc 2) toy toy None 2 ex119b (dr_new toy) = (s1, Ok tt).
Proof. split; [reflexivity|]. eexists. run. Qed.

(** C122: two columns, the combination (1, 1) has no row *)
Definition ex122 : drargs :=
  mkDrArgs [[LInt 0; LInt 0]; [LInt 0; LInt 1]; [LInt 1; LInt 0]] (Some [[0%R]; [0%R]; [0%R]]) None [[0%R]; [1%R]; [2%R]] TNone TNone.
Example C122_case :
  ~ In [LInt 1; LInt 1] (a_x ex122) /\ (forall j, j < 2 -> dr_values None (a_x ex122) j (nth j [LInt 1; LInt 1] (LInt 0))) /\
  snd (dr_fit (toyc 3) toy toy None 1 ex122 (dr_new toy)) = Err ValueError.
Proof.
  split; [cbn; intuition congruence|]. split; [|run].
  intros j Hj. destruct j as [|[|j]]; [| |lia].
  - exists [LInt 1; LInt 0]. cbn. auto.
  - exists [LInt 0; LInt 1]. cbn. auto.
Qed.

(** C123: the treat group has the smaller number, so its column comes first *)
Definition ex123 : drargs :=
  mkDrArgs [[LInt 0]; [LInt 1]; [LInt 1]] (Some [[0%R]; [0%R]; [0%R]]) None [[0%R]; [1%R]; [2%R]] (TVal (LInt 0)) (TVal (LInt 1)).
Example C123_case :
  exists s1 e, dr_fit (toyc 2) toy toy None 1 ex123 (dr_new toy) = (s1, Ok tt) /\ d_treat s1 = Some 0%Z /\ d_control s1 = Some 1%Z /\
    dr_estimate toy None QNone false TNone s1 = (s1, Ok e) /\ nd_shape e = [3; 1].
Proof. eexists _, _. split; [run|]. split; [run|]. split; [run|]. split; [run|]. reflexivity. Qed.

(** C125: the second data set has a new value, and would be accepted by a new object *)
Definition ex125 : drargs :=
  mkDrArgs [[LStr "a"]; [LStr "b"]; [LStr "d"]] None (Some [[1%R]; [2%R]; [3%R]]) [[0%R]; [1%R]; [2%R]] TNone TNone.
Example C125_case :
  (exists s1, dr_fit (toyc 3) toy toy None 1 ex118 (dr_new toy) = (s1, Ok tt)) /\
  occurs (a_x ex125) 0 (LStr "d") /\ ~ occurs (a_x ex118) 0 (LStr "d") /\
  snd (dr_fit (toyc 3) toy toy None 1 ex125 (dr_new toy)) = Ok tt.
Proof.
  split; [eexists; run|]. split; [exists [LStr "d"]; cbn; auto|]. split; [|run].
  intros (r & Ir & E). cbn in Ir. destruct Ir as [<-|[<-|[<-|[<-|[]]]]]; discriminate.
Qed.

Print Assumptions C118_DR_estimate.
Print Assumptions C120_DR_no_covariate.
Print Assumptions C121_DR_cross_fit.
Print Assumptions C122_DR_missing_group_refuted.
Print Assumptions C124_DR_estimate_pure_partial.
Print Assumptions C125_DR_refit_partial.
