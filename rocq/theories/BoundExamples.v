(** The hypotheses of the ApproxBound theorems are met by concrete fits. *)
From Coq Require Import ZArith Reals Lra.
From Verif Require Import Base ApiModel EstUtilsModel EstUtilsProps MetaModel MetaSpec MetaProofs MetaProps
  CrossFitModel CrossFitProofs DrModel DrProofs DrSpec DrProps DrRobust BoundModel BoundProofs BoundProps BoundCalls.
Local Notation length := List.length.
Local Notation concat := List.concat.

(** four units, two groups with string names; outcomes 1, 3 (group "b") and 0, 2 (group "a"); the model predicts the means *)
Definition ex141 : abdata := mkAbData [[LStr "b"]; [LStr "b"]; [LStr "a"]; [LStr "a"]] None [[1%R]; [3%R]; [0%R]; [2%R]].
Definition m141 : learner := fixed (fun x => (1 + nth 1 x 0)%R) (fun _ => []).
Definition keys141 : list (list label) := [[LStr "a"]; [LStr "b"]].

Example C141_case :
  exists s1, ab_fit unused m141 None false ex141 (ab_new unused m141 None) = (s1, Ok tt) /\
    Forall (fun r => length r = 1) (q_x ex141) /\ Forall (fun r => length r = 1) (q_y ex141) /\ length (q_y ex141) = length (q_x ex141) /\
    propensity unused None keys141 ex141 (fun _ g => share_of (q_x ex141) g) /\
    asks 1 keys141 1 (TVal (LStr "b")) [LStr "b"] /\ In [LStr "b"] (q_x ex141) /\
    asks 1 keys141 0 TNone [LStr "a"] /\ In [LStr "a"] (q_x ex141) /\
    snd (ab_estimate unused m141 None (TVal (LStr "b")) TNone (Some 4%R) (Some 0%R) NoAssump s1) =
      Ok (Interval [bound_lower 4 0 (2/INR 4) (2/INR 4) (1+1) (1+0)]%R [bound_upper 4 0 (2/INR 4) (2/INR 4) (1+1) (1+0)]%R).
Proof.
  eexists. split; [brun|]. split; [repeat constructor|]. split; [repeat constructor|]. split; [reflexivity|].
  split; [|split; [now constructor|split; [now left|split; [now constructor|split; [cbn; auto|]]]]].
  - split; [|reflexivity]. intros g [<-|[<-|[]]]; cbn; auto.
  - replace 2%R with (INR 2) by (cbn; lra). brun.
Qed.

(** C142: the model predicts the means of the groups *)
Example C142_case : forall g, In g keys141 -> nth 0 (l_pred m141 tt (indicator keys141 g)) 0%R = mean_of (q_x ex141) (q_y ex141) g.
Proof. intros g [<-|[<-|[]]]; cbn; unfold mean_of, members, rsum; cbn; lra. Qed.
Example C142_case_range : forall b, outcomes_of (q_x ex141) (q_y ex141) [LStr "b"] [LStr "a"] b -> (0 <= b <= 4)%R.
Proof. intros b (r & Hr & _ & ->). cbn in Hr. destruct r as [|[|[|[|r]]]]; cbn; lra || lia. Qed.

(** with a covariate and a treatment model; C143, C146 *)
Definition ex146 : abdata := mkAbData [[LInt 0]; [LInt 1]; [LInt 1]] (Some [[5%R]; [6%R]; [7%R]]) [[0%R]; [1%R]; [3%R]].
Definition mx146 : learner := fixed (fun _ => 0%R) (fun x => [1/4; 3/4]%R).
Definition new146 : abdata := mkAbData [[LInt 1]; [LInt 0]] (Some [[8%R]; [9%R]]) [[2%R]; [1%R]].
Definition keys146 : list (list label) := [[LInt 0]; [LInt 1]].
Example C146_case :
  exists s1, ab_fit mx146 m141 None false ex146 (ab_new mx146 m141 None) = (s1, Ok tt) /\
    (forall z, occurs (q_x ex146) 0 z <-> exists i, i < 2 /\ z = LInt (Z.of_nat i)) /\
    n_classes mx146 tt = length keys146 /\ Forall (fun r => In r keys146) (q_x new146) /\
    exists lo up, snd (ab_estimate mx146 m141 (Some new146) TNone TNone None None NoAssump s1) = Ok (Interval lo up) /\ length lo = 2.
Proof.
  eexists. split; [brun|]. split.
  - intros z. split.
    + intros (r & [<-|[<-|[<-|[]]]] & <-); [exists 0|exists 1|exists 1]; (split; [lia|reflexivity]).
    + intros (i & Hi & ->). destruct i as [|[|i]]; [exists [LInt 0]|exists [LInt 1]|lia]; cbn; auto.
  - split; [reflexivity|]. split; [apply Forall_forall; intros r [<-|[<-|[]]]; cbn; auto|]. eexists _, _. split; [brun|]. reflexivity.
Qed.
(** the same data with string treatments: the fit succeeds, the estimate does not *)
Example C146_case_strings :
  exists s1, ab_fit mx146 m141 None false (mkAbData [[LStr "a"]; [LStr "b"]] (Some [[5%R]; [6%R]]) [[0%R]; [1%R]]) (ab_new mx146 m141 None) = (s1, Ok tt) /\
    snd (ab_estimate mx146 m141 (Some (mkAbData [[LStr "a"]; [LStr "b"]] (Some [[5%R]; [6%R]]) [[0%R]; [1%R]])) TNone TNone None None NoAssump s1) = Err ValueError.
Proof. eexists. split; brun. Qed.

(** C149: two columns, three of the four combinations *)
Example C149_case :
  let a := mkAbData [[LInt 0; LInt 0]; [LInt 0; LInt 1]; [LInt 1; LInt 1]] None [[0%R]; [1%R]; [2%R]] in
  exists s1, ab_fit unused m141 None false a (ab_new unused m141 None) = (s1, Ok tt) /\
    snd (ab_estimate unused m141 None (TList [LInt 1; LInt 1]) TNone None None NoAssump s1) = Err IndexError.
Proof. eexists. split; brun. Qed.

Print Assumptions C141_AB_formula.
Print Assumptions C142_AB_valid_sharp.
Print Assumptions C143_AB_zero_width.
Print Assumptions C143_AB_zero_refuted.
Print Assumptions C144_AB_optimal_shape_refuted.
Print Assumptions C144_AB_optimal_refuted.
Print Assumptions C145_AB_refit_refuted.
Print Assumptions C145_AB_refit_probabilities.
Print Assumptions C146_AB_new_data_refuted.
Print Assumptions C146_AB_new_data_partial.
Print Assumptions C146_AB_new_data_coded_partial.
Print Assumptions C147_AB_discrete_covariate_refuted.
Print Assumptions C148_AB_estimate_pure.
Print Assumptions C149_AB_missing_group_refuted.
Print Assumptions C149_AB_missing_group_value_refuted.
