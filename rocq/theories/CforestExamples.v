(** The hypotheses of the CausalForest theorems are met by concrete fits. *)
From Coq Require Import ZArith Reals Lra.
From Verif Require Import Base ApiModel EstUtilsModel EstUtilsProps MetaModel MetaSpec MetaProofs MetaProps MetaRefit MetaT MetaX
  CrossFitModel CrossFitProofs DrModel DrProofs DrSpec DrProps DrCalls DrRobust DmlModel DmlProofs DmlProps DmlCalls DmlDisc
  TreeCritModel TreeCritProps SplitterModel SplitterSpec TreeSpec BestFirstModel BestFirstProps GrfCritModel GrfCritSpec GrfModel GrfSpec GrfProofs GrfExamples GrfProps
  GrfRefuted GrfApiProps CforestModel CforestProofs CforestProps CforestCalls.
Unset Implicit Arguments.
Local Notation length := List.length.
Local Open Scope nat_scope.

(** the first stage leads to the second, which cannot fail if there are enough rows *)
Lemma cf_fit_runs Lx Ly E categories cf trf a p m h v x z e o1 wv xhat yhat keep :
  usable E -> proper p -> m_v a = Some v ->
  match m_x a with XCont x0 => x = x0 /\ z = None /\ e = no_encs
                 | XDisc x0 => exists q, sl_comp false x0 categories no_encs = (e, Ok q) /\ x = to_rows q /\ z = Some q end ->
  get_wv [m_w a; transformed trf (m_v a)] = Ok wv ->
  match z with None => dml_cross Lx wv x (width x) cf | Some z => dml_cross_disc Lx wv z (width x) cf end = Ok xhat ->
  dml_cross Ly wv (m_y a) (width (m_y a)) cf = Ok yhat ->
  cf_columns (match z with Some _ => true | None => false end) (grf_init p, before_columns a e (width x)) = ((grf_init p, o1), Ok keep) ->
  sizes p (length x) m h -> enough (length x) m h ->
  exists s1, cf_fit Lx Ly E categories cf trf a (cf_new p) = (s1, Ok tt).
Proof.
  intros U P Ev Hx A5 A6 A7 A9 Hz Hn.
  assert (T : exists tv, transformed trf (m_v a) = Some tv) by (rewrite Ev; destruct trf; cbn; eauto). destruct T as [tv Tv].
  destruct (fit_fresh E p (cf_data x xhat keep (m_y a) yhat (Some tv)) (fun i => fn_row (nth i tv [])) None m h U P Hn eq_refl (grf_init p) eq_refl eq_refl Hz (fun _ => eq_refl))
    as (ts & Ef & _).
  set (rest := fun (q : list row * option (list (list Z))) => let '(x, z) := q in
      mdo _ <- on_dml (obj_set (dml_nx (width x)));
      mdo wv <- mlift (get_wv [m_w a; transformed trf (m_v a)]);
      mdo xhat <- mlift (match z with None => dml_cross Lx wv x (width x) cf | Some z => dml_cross_disc Lx wv z (width x) cf end);
      mdo yhat <- mlift (dml_cross Ly wv (m_y a) (width (m_y a)) cf);
      mdo _ <- on_dml (obj_set dml_stage1);
      mdo keep <- cf_columns (match z with Some _ => true | None => false end);
      mdo _ <- on_forest (grf_fit E (cf_data x xhat keep (m_y a) yhat (transformed trf (m_v a))) None);
      on_dml (obj_set dml_done)).
  set (o2 := let o := cf_begin a (dml_new 0) in mkDML (d_yx o) (d_isf o) (d_stage1 o) e (d_tv o) (d_named o) (d_nx o) (d_ny o) (d_tr o) (d_ct o)).
  assert (G : exists s1, rest (x, z) (grf_init p, o2) = (s1, Ok tt)).
  { unfold rest. unfold mbind at 1. unfold on_dml at 1, obj_set at 1. cbn [fst snd].
    unfold mbind at 1. rewrite A5. unfold mlift at 1. unfold mbind at 1. rewrite A6. unfold mlift at 1.
    unfold mbind at 1. rewrite A7. unfold mlift at 1. unfold mbind at 1. unfold on_dml at 1, obj_set at 1. cbn [fst snd].
    unfold mbind at 1. change (dml_stage1 (dml_nx (width x) o2)) with (before_columns a e (width x)). rewrite A9.
    unfold mbind at 1. unfold on_forest at 1. cbn [fst snd]. rewrite Tv, Ef. eexists. reflexivity. }
  destruct G as [s1 G]. exists s1. rewrite <- G. unfold cf_fit. rewrite Ev. clear G.
  assert (B : forall B0 : M CSt unit, match m_w a with Some _ | None => B0 end = B0) by (intros; destruct (m_w a); reflexivity).
  destruct (m_x a) as [x0|x0].
  - destruct Hx as (-> & -> & ->). destruct (m_w a); unfold rest, transformed; rewrite Ev; reflexivity.
  - destruct Hx as (q & Ez & -> & ->).
    destruct (m_w a); unfold rest, transformed; rewrite Ev; unfold mbind at 1; unfold on_dml at 1, obj_set at 1; cbn [fst snd cf_new];
    unfold mbind at 1; unfold on_dml at 1, obj_get at 1; cbn [fst snd];
    unfold mbind at 1; unfold mbind at 1; unfold on_dml at 1, dml_enc at 1; cbn [fst snd];
    change (d_encs (cf_begin a (dml_new 0))) with no_encs; change (d_isf (cf_begin a (dml_new 0))) with false; rewrite Ez; reflexivity.
Qed.

(** trees of one node on three rows; y = 2 x, predictions of the first stage 0 *)
Definition zero : learner := toyc 2.
Definition ex173 : dmlargs :=
  mkDmlArgs (XCont [[0%R]; [1%R]; [2%R]]) None (Some [[0%R]; [1%R]; [2%R]]) [[0%R]; [2%R]; [4%R]] ANone ANone.
Ltac run := cbv - [Rplus Rminus Rmult Rinv Rdiv INR IZR Rlt]; reflexivity.


Definition twice : list row -> list row := map (fun r => r ++ r).
Example C173_case :
  (exists s1, cf_fit zero zero E1 None 1 None ex173 (cf_new p3) = (s1, Ok tt)) /\
  (exists s1, cf_fit zero zero E1 None 1 (Some twice) ex173 (cf_new p3) = (s1, Ok tt)) /\
  proper p3 /\ sizes p3 3 2 None /\ enough 3 2 None /\ fp_mln p3 = Some 1 /\ (forall i, (i < 3)%nat -> nth 0 (nth i (m_y ex173) []) 0 = 0 + 2 * nth 0 (nth i [[0]; [1]; [2]] []) 0)%R.
Proof.
  assert (X : forall trf, trf = None \/ trf = Some twice -> exists s1, cf_fit zero zero E1 None 1 trf ex173 (cf_new p3) = (s1, Ok tt)).
  { intros trf Ht. destruct Ht as [-> | ->]; eapply (cf_fit_runs zero zero E1 None 1 _ ex173 p3 2 None [[0%R]; [1%R]; [2%R]] [[0%R]; [1%R]; [2%R]] None no_encs).
    all: try exact C160_usable; try exact proper3; try exact sizes3; try exact enough3; try reflexivity; repeat split. }
  split; [apply X; auto|]. split; [apply X; auto|]. split; [exact proper3|]. split; [exact sizes3|]. split; [exact enough3|]. split; [reflexivity|].
  intros i Hi. destruct i as [|[|[|i]]]; cbn; try lra. lia.
Qed.

(** the estimate is below 2 * 0.67 for every row *)
Example C175_case : exists s1, cf_fit zero zero E1 None 1 None ex173 (cf_new p3) = (s1, Ok tt) /\
  forall data t c q, data <> [] -> width data = 1 ->
  exists theta, cf_estimate E1 s1 (Some data) t c q = Ok (repeat [theta] (length data)) /\ (theta < 134 / 100)%R.
Proof.
  destruct C173_case as [[s1 H] _]. exists s1. split; [exact H|]. intros data t c q Hd Hw.
  destruct (C175_CF_attenuated_refuted zero zero E1 None 1 ex173 [[0%R]; [1%R]; [2%R]] p3 s1 2 None [[0%R]; [1%R]; [2%R]] C160_usable proper3 eq_refl eq_refl eq_refl eq_refl eq_refl sizes3 enough3 H)
    as (wv & xhat & yhat & H1 & H2 & H3 & H4).
  assert (Z : forall h t0, first_stage zero 1 wv t0 1 h -> forall r, h r 0 = 0%R).
  { intros h t0 HF r. unfold first_stage in HF. cbn in HF. destruct HF as (_ & mm & _ & HF). apply HF. }
  change (width (m_y ex173)) with 1 in H3. pose proof (Z _ _ H2) as Zx. pose proof (Z _ _ H3) as Zy.
  cbv zeta in H4. specialize (H4 2%R 0%R). rewrite H4 with (data := Some data); auto.
  - eexists. split; [reflexivity|]. unfold mean. cbn [length seq map]. rewrite !Rsum_cons. cbn [Rsum fold_right nth]. rewrite !Zx. cbn [INR].
    match goal with |- context[(2 * ?V / (?V + _))%R] => replace V with (2 / 3)%R by field end. lra.
  - intros i Hi. rewrite Zx, Zy. destruct i as [|[|[|i]]]; cbn; try lra. cbn in Hi. lia.
Qed.

(** treatment values 1 and 2: control=1, control=np.array([1]), control=7 *)
Definition ex174 (t : dtarg) : dmlargs :=
  mkDmlArgs (XDisc [[LInt 1]; [LInt 2]; [LInt 1]]) None (Some [[0%R]; [1%R]; [2%R]]) [[0%R]; [2%R]; [4%R]] ANone t.
Definition keys174 : list (list label) := [[LInt 1]; [LInt 2]].
Example C174_case : exists e o1 o2,
  (forall t, t = ANone \/ t = AVal (LInt 1) \/ t = AArr [LInt 1] -> exists s1, cf_fit zero zero E1 None 1 None (ex174 t) (cf_new p3) = (s1, Ok tt)) /\
  groups_of 1 (dr_values None [[LInt 1]; [LInt 2]; [LInt 1]]) keys174 /\
  names 1 keys174 0 (AVal (LInt 1)) [LInt 1] /\ In [LInt 1] keys174 /\
  (** the columns kept are different *)
  cf_columns true (grf_init p3, before_columns (ex174 (AVal (LInt 1))) e 2) = ((grf_init p3, o1), Ok (Some [1])) /\
  cf_columns true (grf_init p3, before_columns (ex174 (AArr [LInt 1])) e 2) = ((grf_init p3, o2), Ok (Some [0])) /\
  names 1 keys174 0 (AVal (LInt 7)) [LInt 7] /\ ~ In [LInt 7] keys174.
Proof.
  eexists (fst (sl_comp false [[LInt 1]; [LInt 2]; [LInt 1]] None no_encs)), _, _. split; [|split; [|split; [|split; [|split; [|split; [|split]]]]]].
  - intros t Ht. destruct Ht as [-> | [-> | ->]]; eapply (cf_fit_runs zero zero E1 None 1 None (ex174 _) p3 2 None [[0%R]; [1%R]; [2%R]] [[1; 0]; [0; 1]; [1; 0]]%R (Some [[1; 0]; [0; 1]; [1; 0]]%Z)
       (fst (sl_comp false [[LInt 1]; [LInt 2]; [LInt 1]] None no_encs)));
    try exact C160_usable; try exact proper3; try exact sizes3; try exact enough3; try reflexivity;
    cbn [ex174 m_x]; exists [[1; 0]; [0; 1]; [1; 0]]%Z; (split; [vm_compute; reflexivity|]); split; reflexivity.
  - split; [repeat constructor; cbn; intuition congruence|]. intros r. split.
    + intros [<-|[<-|[]]]; (split; [reflexivity|]); intros j Hj; (assert (j = 0) as -> by lia); eexists; (split; [|reflexivity]); cbn; auto.
    + intros [Hl Hv]. destruct (Hv 0 ltac:(lia)) as (r' & Ir & E). destruct r as [|b [|]]; try discriminate.
      cbn in E. subst b. cbn in Ir. destruct Ir as [<-|[<-|[<-|[]]]]; cbn; auto.
  - now constructor.
  - left; reflexivity.
  - vm_compute; reflexivity.
  - vm_compute; reflexivity.
  - now constructor.
  - cbn. intuition congruence.
Qed.
