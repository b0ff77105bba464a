(** general_estimator (C217); FeatureImportancesSelectionTransformer and DefaultIdentifier: concrete cases, and what does not hold (C216, C218). *)
From Coq Require Import String QArith Qround Permutation Sorted.
From Verif Require Import Base EstUtilsModel MetaModel UtilsModel MapModel TransModel FistProps.
Set Implicit Arguments.
Local Notation length := List.length.
Local Open Scope string_scope.
Local Open Scope list_scope.
Local Open Scope nat_scope.

(** *** C217 *)
Section General.
Variables (lightgbm xgboost darwin : bool).
Notation general := (general_estimator lightgbm xgboost darwin).
(** the known names, as documented; any other string is no known name *)
Theorem C217_names s l : creators s = Some l <->
  In (s, l) [("gbm", LGBM); ("lgbm", LGBM); ("lightgbm", LGBM); ("xgb", XGB); ("xgboost", XGB); ("dt", DT); ("rf", RF); ("gb", GB); ("lr", LR); ("lasso", Lasso)].
Proof.
  split.
  - unfold creators. repeat match goal with |- context [String.eqb s ?a] => destruct (String.eqb_spec s a) as [->|?]; [cbn; intros H; injection H as <-; tauto|] end. cbn. discriminate.
  - cbn [In]. intros H. repeat (destruct H as [H|H]; [injection H as <- <-; reflexivity|]). destruct H.
Qed.
(** does the task ask for a regressor? *)
Definition regression (t : task_arg) : Prop := t = TBool false \/ t = TTask Regression.
Lemma create_ok l reg kw e : create lightgbm xgboost l reg kw = Ok e -> exists o, e = New l reg o /\ (l <> XGB -> incl kw o) /\ (l = XGB -> o = if reg then own XGB else own XGB ++ ["use_label_encoder"]).
Proof.
  destruct l; cbn [create]; try (destruct reg); try destruct lightgbm; try destruct xgboost; try discriminate; unfold with_kwargs; try (destruct (existsb _ _); [discriminate|]); cbn [bind]; intros H; injection H as <-; eexists; (split; [reflexivity|]);
    (split; [intros N; try contradiction; (intros k Hk; first [exact Hk|cbn; tauto])|intros E; try discriminate E; reflexivity]).
Qed.
(** an explicit task decides between regressor and classifier, a known name decides the library, keyword arguments arrive (not in XGBoost) *)
Theorem C217_explicit_task y s t kw e l : t <> TNone -> creators s = Some l -> general y (EName s) t kw = Ok e ->
  exists r o, e = New l r o /\ (r = true <-> regression t) /\ (l <> XGB -> incl kw o).
Proof.
  intros NT HC H. unfold general_estimator in H. destruct t as [|b|t]; [contradiction|..]; cbn [bind] in H; rewrite HC in H; apply create_ok in H; destruct H as (o & -> & K & _); do 2 eexists; (split; [reflexivity|]); (split; [|exact K]); unfold regression.
  - destruct b; split; try discriminate; auto. intros [E|E]; discriminate.
  - destruct t; split; try discriminate; auto; intros [E|E]; discriminate.
Qed.
(** with an explicit task: when does it fail *)
Theorem C217_refusals y s t kw l : t <> TNone -> creators s = Some l -> (l = LGBM -> lightgbm = true) -> (l = XGB -> xgboost = true) -> (l = Lasso -> regression t) -> (forall k, In k kw -> ~ In k (own l)) -> exists e, general y (EName s) t kw = Ok e.
Proof.
  intros NT HC HL HX HS HK. unfold general_estimator. assert (W : with_kwargs (own l) kw = Ok (own l ++ kw)).
  { unfold with_kwargs. destruct (existsb (fun k => mem k (own l)) kw) eqn:E; [|reflexivity]. apply existsb_exists in E. destruct E as (k & K1 & K2). exfalso. apply (HK k K1). unfold mem in K2. apply existsb_exists in K2. destruct K2 as (k' & K3 & K4). apply String.eqb_eq in K4. now subst. }
  assert (C : forall reg, (l = Lasso -> reg = true) -> exists e, create lightgbm xgboost l reg kw = Ok e).
  { intros reg R. destruct l; cbn [create]; rewrite ?W; try (rewrite HL by reflexivity); try (rewrite HX by reflexivity); try (rewrite (R eq_refl)); cbn [bind]; rewrite ?W; cbn [bind]; eauto. destruct reg; [eauto|]. rewrite ?W. cbn [bind]. eauto. }
  destruct t as [|b|t]; [contradiction|..]; cbn [bind]; rewrite HC; apply C; intros E; specialize (HS E); destruct HS as [HS|HS]; try discriminate HS; injection HS as ->; reflexivity.
Qed.
(** an estimator object, or a string that is no known name, is copied whatever the task; without estimator: XGBoost, LightGBM (not on macOS), random forest, as installed *)
Theorem C217_others y t kw e : (t <> TNone \/ exists a, y = Some (Ok a)) ->
  (forall n, general y (EObj n) t kw = Ok (Copy (EObj n))) /\ (forall s, creators s = None -> general y (EName s) t kw = Ok (Copy (EName s))) /\
  (general y ENone t kw = Ok e -> exists r o, e = New (if xgboost then XGB else if lightgbm && negb darwin then LGBM else RF) r o).
Proof.
  intros H. assert (R : exists reg, (match t with TNone => match y with None => Err AssertionError | Some r => do _ <- r; Ok false end | TBool b => Ok (negb b) | TTask t => Ok (match t with Regression => true | _ => false end) end) = Ok reg).
  { destruct t as [|b|t]; [|eauto|eauto]. destruct H as [H|((a & b) & ->)]; [contradiction|]. cbn [bind]. eauto. }
  destruct R as (reg & R). unfold general_estimator. rewrite R. cbn [bind]. split; [auto|]. split; [intros s ->; auto|]. assert (CR : forall b b' : bool, creators (if b then "xgb" else if b' then "gbm" else "rf") = Some (if b then XGB else if b' then LGBM else RF)) by (intros [] []; reflexivity). rewrite CR. intros E. apply create_ok in E. destruct E as (o & -> & _). eauto.
Qed.
(** a task inferred from y never gives a regressor (the pair of task and labels is compared with the task): wrong for every continuous y; and lasso always fails *)
Theorem C217_inferred_task_refuted y s kw l labels : y = Some (Ok (Regression, labels)) -> creators s = Some l ->
  (forall e, general y (EName s) TNone kw = Ok e -> exists o, e = New l false o) /\ (l = Lasso -> general y (EName s) TNone kw = Err AssertionError).
Proof.
  intros -> HC. unfold general_estimator. cbn [bind]. rewrite HC. split.
  - intros e H. apply create_ok in H. destruct H as (o & -> & _). eauto.
  - intros ->. reflexivity.
Qed.
(** XGBoost gets no keyword argument of the caller *)
Theorem C217_xgboost_kwargs_refuted y t kw kw' : general y (EName "xgb") t kw = general y (EName "xgb") t kw'.
Proof. unfold general_estimator. destruct (match t with TNone => _ | TBool b => _ | TTask t => _ end) as [reg|]; reflexivity. Qed.
End General.
Example general_ex : general_estimator true false false (Some (Ok (Regression, []))) ENone TNone ["boosting_type"] = Ok (New LGBM false (own LGBM ++ ["boosting_type"])).
Proof. reflexivity. Qed.
Example general_ex2 : general_estimator false false false None (EName "lr") (TBool false) ["n_jobs"] = Ok (New LR true ["n_jobs"]) /\ general_estimator false false false None (EName "gb") (TTask Binary) ["max_depth"] = Err TypeError /\ general_estimator false false false None (EName "svm") (TTask Binary) [] = Ok (Copy (EName "svm")).
Proof. repeat split. Qed.

(** *** an argsort *)
Definition le_at (l : list Q) (a b : nat) : bool := Qle_bool (nth a l 0%Q) (nth b l 0%Q).
Fixpoint insert_at (l : list Q) (a : nat) (m : list nat) : list nat := match m with [] => [a] | b :: r => if le_at l a b then a :: m else b :: insert_at l a r end.
Definition argsort1 (l : list Q) : list nat := fold_right (insert_at l) [] (seq 0 (length l)).
Lemma argsort1_ok : argsort_ok argsort1.
Proof.
  intros l. assert (P : forall m, Permutation (fold_right (insert_at l) [] m) m).
  { induction m as [|a m IH]; cbn; [auto|]. assert (I : forall a m, Permutation (insert_at l a m) (a :: m)) by (clear; induction m as [|b m IH]; cbn; [auto|destruct (le_at l a b); [auto|rewrite IH; apply perm_swap]]). rewrite I. now rewrite IH. }
  split; [apply P|]. set (R := fun a b => (nth a l 0 <= nth b l 0)%Q).
  assert (S : forall m, StronglySorted R (fold_right (insert_at l) [] m)).
  { induction m as [|a m IH]; cbn; [constructor|]. revert IH. generalize (fold_right (insert_at l) [] m). clear. intros m H. induction m as [|b m IH]; cbn; [repeat constructor|]. inversion H; subst. destruct (le_at l a b) eqn:E.
    - apply Qle_bool_iff in E. constructor; [auto|]. constructor; [exact E|]. eapply Forall_impl; [|exact H3]. intros c Hc. unfold R in *. eapply Qle_trans; eauto.
    - assert (Lba : R b a). { unfold R. apply Qlt_le_weak, Qnot_le_lt. intros K. apply Qle_bool_iff in K. unfold le_at in E. congruence. }
      constructor; [auto|]. assert (I : Permutation (a :: m) (insert_at l a m)) by (clear; induction m as [|b m IH]; cbn; [auto|destruct (le_at l a b); [auto|rewrite <- IH; apply perm_swap]]). eapply Permutation_Forall; [exact I|]. constructor; auto. }
  intros i j Hij Hj. assert (N : forall m i j, StronglySorted R m -> i < j -> j < length m -> R (nth i m 0) (nth j m 0)).
  { clear. intros m i j H. revert i j. induction H as [|a m H IH F]; intros i j Hij Hj; [cbn in Hj; lia|]. destruct j as [|j]; [lia|]. cbn in Hj. destruct i as [|i]; cbn [nth]; [|apply IH; lia]. rewrite Forall_forall in F. apply F, nth_In. lia. }
  apply (N (argsort1 l) i j (S _) Hij). unfold argsort1. rewrite (Permutation_length (P _)), seq_length. exact Hj.
Qed.
Definition imps5 : list Q := [3 # 1; 0; 5 # 1; 3 # 1; 1]%Q.
Example number_ex : select argsort1 imps5 (mkSP None None None (Some (mkN false (2 # 1)))) = Ok [2; 3] /\ select argsort1 imps5 (mkSP None None None (Some (mkN true (5 # 10)))) = Ok [0; 2; 3] /\ select argsort1 imps5 (mkSP None None None (Some (mkN false (9 # 1)))) = Ok [0; 1; 2; 3; 4].
Proof. repeat split; vm_compute; reflexivity. Qed.
Example threshold_ex : select argsort1 imps5 (mkSP None (Some (3 # 1)) None None) = Ok [0; 2; 3] /\ select argsort1 imps5 (mkSP None None None None) = Ok [0; 2; 3; 4].
Proof. repeat split; vm_compute; reflexivity. Qed.
Example quantile_ex : select argsort1 imps5 (mkSP None None (Some (1 # 2)) None) = Ok [0; 2; 3] /\ (quantile imps5 (1 # 2) == (3 # 1))%Q /\ select argsort1 imps5 (mkSP (Some SQuantile) None (Some (1 # 1)) None) = Err AssertionError.
Proof. repeat split; vm_compute; reflexivity. Qed.

(** *** what does not hold of fit *)
Definition md5x (s : string) := "#".
Definition numx (n : nat) := match n with 0 => "0" | 1 => "1" | _ => "2" end.
Definition score_of (f : string -> Q) (l : list string) : list Q := map f l.
Definition byname (c : string) : Q := if String.eqb c "n" then (7 # 1)%Q else if String.eqb c "s" then (2 # 1)%Q else 1%Q.
Example fit_ex : fist_fit argsort1 md5x numx (mkSP None (Some (2 # 1)) None None) ["n"; "const"; "s"; "b"] [("n", KNum); ("s", KCat); ("b", KBool)] (score_of byname) = Ok (["s"; "n"], [7 # 1; 0; 2 # 1; 1]%Q).
Proof. vm_compute. reflexivity. Qed.
(** with no column left out the importances come in the order of the preprocessed columns: here n is said to have the importance of s *)
Theorem C216_importances_refuted : forall argsort, argsort_ok argsort -> exists (columns_in : list string) (cleaned : list (string * ckind)) selected imps, plain cleaned /\ NoDup (map fst cleaned) /\ map fst cleaned = columns_in /\
  fist_fit argsort md5x numx (mkSP None (Some (1 # 1)) None None) columns_in cleaned (score_of byname) = Ok (selected, imps) /\ exists i c, nth_error columns_in i = Some c /\ nth i imps 0%Q <> byname c.
Proof.
  intros argsort AS. exists ["n"; "s"], [("n", KNum); ("s", KCat)]. do 2 eexists. split; [intros c k [E|[E|[]]]; injection E as <- <-; split; [cbn; lia|discriminate|cbn; lia|discriminate]|]. split; [repeat constructor; cbn; intuition congruence|]. split; [reflexivity|].
  split; [vm_compute; reflexivity|]. exists 0, "n". split; [reflexivity|vm_compute; discriminate].
Qed.
Definition long := "a123456789b123456789c123456789d123456789e123456789f123456789g123456789".
(** the only column of its kind with a name of more than 64 characters, or a number column without any value: the selected names are not columns of X *)
Theorem C216_names_refuted : forall argsort, argsort_ok argsort ->
  (exists X selected imps, NoDup (map fst X) /\ fist_fit argsort md5x numx (mkSP None (Some (1 # 1)) None None) (map fst X) X (score_of byname) = Ok (selected, imps) /\ fist_transform selected X = Err KeyError /\ forall c k, In (c, k) X -> k = KNum) /\
  (exists X selected imps, NoDup (map fst X) /\ fist_fit argsort md5x numx (mkSP None (Some (1 # 1)) None None) (map fst X) X (score_of byname) = Ok (selected, imps) /\ fist_transform selected X = Err KeyError /\ forall c k, In (c, k) X -> String.length c = 1).
Proof.
  intros argsort AS. split.
  - exists [(long, KNum)]. do 2 eexists. split; [repeat constructor; cbn; intuition congruence|]. split; [vm_compute; reflexivity|]. split; [vm_compute; reflexivity|]. intros c k [E|[]]. now injection E.
  - exists [("a", KNum); ("b", KNum); ("c", KNumNan)]. do 2 eexists. split; [repeat constructor; cbn; intuition congruence|]. split; [vm_compute; reflexivity|]. split; [vm_compute; reflexivity|]. intros c k [E|[E|[E|[]]]]; now injection E as <- <-.
Qed.
(** fit keeps the task it inferred from the first y: a later fit on another y uses the old one *)
Theorem C216_task_sticks_refuted labels : exists t, fist_task None (Ok (Binary, labels)) = Ok t /\ fist_task (Some t) (Ok (Regression, [])) = Ok Binary.
Proof. exists Binary. split; reflexivity. Qed.
(** the treatment found is not the most important column *)
Theorem C218_most_important_refuted : forall argsort, argsort_ok argsort -> exists (X : list (string * ckind)) (score : list string -> list Q) t, plain X /\ (forall l, length (score l) = length l) /\
  identify_treatment argsort md5x numx (fun _ => true) X score (Some true) 1 [] = Ok [t] /\ exists j k, In (j, k) X /\ (byname t < byname j)%Q /\ score = score_of byname.
Proof.
  intros argsort AS. exists [("n", KNum); ("s", KCat)], (score_of byname), "s". assert (PL : plain [("n", KNum); ("s", KCat)]) by (intros c k [E|[E|[]]]; injection E as <- <-; split; [cbn; lia|discriminate|cbn; lia|discriminate]).
  assert (SC : forall l, length (score_of byname l) = length l) by (intros l; apply map_length). split; [auto|]. split; [auto|]. split; [|exists "n", KNum; split; [now left|split; reflexivity]].
  rewrite (@C218_identify_treatment_partial argsort AS md5x numx (fun _ => true) _ (score_of byname) (Some true) 1 [] PL SC) by (cbn; discriminate). reflexivity.
Qed.
Print Assumptions C216_number.
Print Assumptions C216_threshold.
Print Assumptions C216_quantile.
Print Assumptions C216_select_total.
Print Assumptions C216_fit_partial.
Print Assumptions C216_importances_refuted.
Print Assumptions C216_names_refuted.
Print Assumptions C216_task_sticks_refuted.
Print Assumptions C217_names.
Print Assumptions C217_explicit_task.
Print Assumptions C217_refusals.
Print Assumptions C217_others.
Print Assumptions C217_inferred_task_refuted.
Print Assumptions C217_xgboost_kwargs_refuted.
Print Assumptions C218_identify_treatment_partial.
Print Assumptions C218_most_important_refuted.
