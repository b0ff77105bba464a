(** C114 (XLearner and SLearner with separate treatments), C117: quantity='ATE' is the mean over the rows. *)
From Coq Require Import ZArith Reals Sorting.Sorted Lra.
From Verif Require Import Base ApiModel EstUtilsModel EstUtilsProps MetaModel MetaSpec MetaProofs MetaProps MetaRefit MetaT MetaX.
Local Notation length := List.length.
Local Notation concat := List.concat.

(** a loop that appends one pair of models per iteration *)
Lemma mapM_sepx (L : learner) (f : list nat -> res (Mdl L * Mdl L)) (body : list nat -> M (tlearner L) unit) arrays :
  (forall tr s s', body tr s = (s', Ok tt) ->
     exists p old, f tr = Ok p /\ t_sepx s = Some old /\ s' = tl_set_sepx (old ++ [p]) s) ->
  forall s s' us old, t_sepx s = Some old -> mapM body arrays s = (s', Ok us) ->
  exists ps, Forall2 (fun tr p => f tr = Ok p) arrays ps /\ s' = tl_set_sepx (old ++ ps) s.
Proof.
  intros HB. induction arrays as [|tr arrays IH]; intros s s' us old Hs H; cbn [mapM] in H.
  - unfold mret in H. injection H as <- _. exists []. split; [constructor|]. rewrite app_nil_r.
    unfold tl_set_sepx. destruct s. cbn in *. now rewrite Hs.
  - apply mbind_inv in H as (s2 & [] & H1 & H2). apply HB in H1 as (p & old' & Ef & Eo & ->).
    rewrite Hs in Eo. injection Eo as <-.
    apply mbind_inv in H2 as (s3 & us' & H1 & H2).
    destruct (IH (tl_set_sepx (old ++ [p]) s) s3 us' (old ++ [p]) eq_refl H1) as (ps & F & E).
    unfold mret in H2. injection H2 as <- _. exists (p :: ps). split; [constructor; auto|].
    rewrite E. unfold tl_set_sepx. cbn. now rewrite <- app_assoc.
Qed.

(** the two effect models of a group [g] against the group [k]: C112's description for one pair of groups *)
Definition effect_models (L : learner) (x : list (list label)) (wv y : list row) (g k : list label)
    (p : Mdl L * Mdl L) : Prop :=
  let Xt := rows_of g x wv in let yt := squeeze (nd_rows (rows_of g x y)) in
  let X0 := rows_of k x wv in let y0 := squeeze (nd_rows (rows_of k x y)) in
  exists ft f0 ht h0,
    l_fit L Xt yt = Ok ft /\ l_fit L X0 y0 = Ok f0 /\
    entrywise Rminus yt (predict L f0 Xt) ht /\ entrywise Rminus (predict L ft X0) y0 h0 /\
    l_fit L Xt ht = Ok (fst p) /\ l_fit L X0 h0 = Ok (snd p).

(** C114, XLearner: a fit with separate treatments trains one pair of effect models per group other than the first *)
Theorem C114_X_separate_models L c a s1 wv d :
  c_categories c = None -> f_comb a = false -> f_wv a = Some wv -> Forall (fun r => length r = d) (f_x a) ->
  xl_fit L c a (tl_new L) = (s1, Ok tt) ->
  exists k keys ps, groups_of d (occurs (f_x a)) (k :: keys) /\ (d = 1 -> increasing (k :: keys)) /\
    t_sepx s1 = Some ps /\ Forall2 (fun g p => effect_models L (f_x a) wv (f_y a) g k p) keys ps /\
    t_fitted s1 = true /\ t_comb s1 = false /\ t_wv s1 = Some wv /\ t_yd s1 = width (f_y a).
Proof.
  intros HN Hc Hw HL H. unfold xl_fit in H. rewrite Hw, Hc, HN in H.
  apply mbind_inv in H as (s2 & [] & H0 & H). unfold mset in H0. injection H0 as <-.
  apply mbind_inv in H as (s3 & [] & H0 & H). unfold mset in H. injection H as <-.
  apply mbind_inv in H0 as (s4 & cats & H1 & H0). unfold mlift in H1. injection H1 as <- Ef.
  apply mbind_inv in H0 as (s4 & xo & H1 & H0). unfold mlift in H1. injection H1 as <- Eo.
  apply mbind_inv in H0 as (s4 & [] & H1 & H0). unfold mset in H1. injection H1 as <-.
  apply mbind_inv in H0 as (s4 & arrays & H1 & H0). unfold mlift in H1. injection H1 as <- Ea.
  destruct arrays as [|ctrl rest]; [easy|].
  apply mbind_inv in H0 as (s4 & g0 & H1 & H0). unfold mlift in H1. injection H1 as <- Eg0.
  apply mbind_inv in H0 as (s4 & f0 & H1 & H0). unfold mlift in H1. injection H1 as <- Ef0.
  apply mbind_inv in H0 as (s4 & us & H1 & H0). unfold mret in H0. injection H0 as <-.
  set (ff := fun treat =>
     do g <- groups (map Z.of_nat treat) (map (map Z.of_nat) xo) false wv (f_y a);
     do ft <- l_fit L (fst g) (squeeze (nd_rows (snd g)));
     do ht <- zip_nd Rminus (squeeze (nd_rows (snd g))) (predict L f0 (fst g));
     do h0 <- zip_nd Rminus (predict L ft (fst g0)) (squeeze (nd_rows (snd g0)));
     do kt <- l_fit L (fst g) ht;
     do k0 <- l_fit L (fst g0) h0; Ok (kt, k0)).
  assert (H1' : exists ps, Forall2 (fun tr p => ff tr = Ok p) rest ps /\ s4 = tl_set_sepx ([] ++ ps) (tl_set_sepx [] (tl_begin wv (width (f_y a)) false (tl_new L)))).
  { eapply mapM_sepx with (f := ff); [|reflexivity|exact H1]. clear. intros tr s s' H. unfold ff. unfold mbind, mlift, mget, attr, mset in H.
      destruct (groups _ _ _ _ _) as [g|]; [|easy]. cbn [bind].
      destruct (l_fit L (fst g) _) as [ft|]; [|easy]. cbn [bind].
      destruct (zip_nd Rminus (squeeze (nd_rows (snd g))) _) as [ht|]; [|easy]. cbn [bind].
      destruct (zip_nd Rminus (predict L ft _) _) as [h0|]; [|easy]. cbn [bind].
      destruct (l_fit L (fst g) ht) as [kt|]; [|easy]. cbn [bind].
      destruct (l_fit L (fst g0) h0) as [k0|]; [|easy]. cbn [bind].
      unfold mlift in H. destruct (t_sepx s) as [old|] eqn:Eo; [|easy]. injection H as <-. eauto 6. }
  destruct H1' as (ps & F & E).
  cbn [app] in E.
  destruct (@enc_fit_spec _ _ _ _ HL Ef) as (Hx & Hd & Hlen & _ & Hnone & _).
  destruct (Hnone eq_refl) as [HS _].
  assert (NDc : Forall (@NoDup label) cats) by (eapply Forall_impl; [|exact HS]; intros l; apply ssort_NoDup).
  assert (Hne : cats <> []) by (intros ->; cbn in Hlen; lia).
  destruct (labels_spec Hne Ea) as [NDa Ha].
  set (arrays := ctrl :: rest) in *.
  assert (Ek : map (decode cats) arrays = map (fun p => decode cats (nth p arrays [])) (seq 0 (length arrays))).
  { rewrite <- (map_map (fun p => nth p arrays []) (decode cats)). f_equal.
    clear. induction arrays as [|r l IH]; cbn; auto. f_equal. rewrite <- seq_shift, map_map. exact IH. }
  exists (decode cats ctrl), (map (decode cats) rest), ps.
  change (decode cats ctrl :: map (decode cats) rest) with (map (decode cats) arrays).
  assert (NDk : NoDup (map (decode cats) arrays)).
  { assert (G : forall l, NoDup l -> (forall i, In i l -> In i arrays) -> NoDup (map (decode cats) l)).
    { induction 1 as [|i l Hi Hl IH]; intros Hs; cbn; constructor.
      - intros Hin. apply in_map_iff in Hin as (i' & E' & Hi').
        assert (i' = i); [|congruence].
        apply (@decode_inj cats); auto; apply Ha, Hs; [now right|now left].
      - apply IH. intros; apply Hs; now right. }
    apply G; auto. }
  assert (HL' : Forall (fun r => length r = length cats) (f_x a)) by (now rewrite Hlen).
  assert (GG : forall tr u, In tr arrays -> groups (map Z.of_nat tr) (map (map Z.of_nat) xo) false wv (f_y a) = Ok u ->
             u = (rows_of (decode cats tr) (f_x a) wv, rows_of (decode cats tr) (f_x a) (f_y a))).
  { intros tr u Hin Eu. apply groups_inv in Eu as [G1 G2].
    assert (Htr : Forall2 (fun i (c : list label) => i < length c) tr cats) by (now apply Ha).
    destruct (ord_groups cats (f_x a) xo tr wv _ Hne NDc HL' Eo Htr G1) as [_ E1].
    destruct (ord_groups cats (f_x a) xo tr (f_y a) _ Hne NDc HL' Eo Htr G2) as [_ E2].
    destruct u. cbn [fst snd] in *. now rewrite E1, E2. }
  split; [|split; [|split; [|split]]].
  - apply (groups_product (f_x a) d cats _ None HL Ef NDk). intros r. rewrite Ek. apply (keys_all Hne NDc Ea).
  - intros Hd1. rewrite Hd1 in Hlen. destruct cats as [|c0 [|]]; cbn in Hlen; try lia.
    exists c0. split; [|now inversion HS].
    cbn [map] in Ea. rewrite cartesian_one in Ea. injection Ea as <-. rewrite map_map. unfold decode. cbn.
    clear. transitivity (map (fun i => [nth i c0 (LInt 0)]) (seq 0 (length c0))); [reflexivity|].
    rewrite <- (map_map (fun i => nth i c0 (LInt 0)) (fun v => [v])). f_equal.
    induction c0 as [|v c0 IH]; cbn; auto. f_equal. rewrite <- seq_shift, map_map. exact IH.
  - rewrite E. reflexivity.
  - apply (GG ctrl) in Eg0; [|now left]. subst g0. cbn [fst snd] in *.
    assert (Hsub : forall i, In i rest -> In i arrays) by (intros; now right).
    revert Hsub. clear E. revert F. generalize rest ps. unfold ff. cbn [fst snd].
    induction 1 as [|tr p l ns Ep F' IH]; intros Hs; cbn [map]; constructor.
    + destruct (groups _ _ _ _ _) as [g|] eqn:Eg; [|easy]. cbn [bind] in Ep.
      apply (GG tr) in Eg; [|apply Hs; now left]. subst g. cbn [fst snd] in Ep. unfold effect_models.
      destruct (l_fit L (rows_of (decode cats tr) _ _) _) as [ft|]; [|easy]. cbn [bind] in Ep.
      destruct (zip_nd Rminus _ (predict L f0 _)) as [ht|] eqn:Z1; [|easy]. cbn [bind] in Ep.
      destruct (zip_nd Rminus (predict L ft _) _) as [h0|] eqn:Z2; [|easy]. cbn [bind] in Ep.
      destruct (l_fit L _ ht) as [kt|] eqn:K1; [|easy]. cbn [bind] in Ep.
      destruct (l_fit L _ h0) as [k0|] eqn:K2; [|easy]. cbn [bind] in Ep. injection Ep as <-.
      apply zip_nd_inv in Z1, Z2. exists ft, f0, ht, h0. cbn [fst snd]. repeat (split; auto).
    + apply IH. intros; apply Hs; now right.
  - rewrite E. cbn. auto.
Qed.

Lemma out_at_mix rho a b e i j : zip_nd (mix rho) a b = Ok e ->
  out_at e i j = (rho * out_at a i j + (1 - rho) * out_at b i j)%R.
Proof.
  intros H. apply zip_nd_inv in H as (H1 & H2 & H3). unfold out_at. rewrite <- H1, <- H2.
  destruct (nd_shape e) as [|? [|]]; apply H3.
Qed.

(** C114, XLearner: the estimate with separate treatments *)
Theorem C114_X_separate_estimate L c data rho s ps wv s' e :
  c_disc_out c = false -> t_fitted s = true -> t_comb s = false -> t_wv s = Some wv -> t_sepx s = Some ps ->
  xl_estimate L c data rho QNone s = (s', Ok e) ->
  let D := match data with Some x => x | None => wv end in
  exists f, e = squeeze f /\ nd_shape f = [length D; t_yd s; length ps] /\
    forall i j k kt k0, nth_error ps k = Some (kt, k0) ->
      nd_at f [i; j; k] = (rho * out_at (predict L kt D) i j + (1 - rho) * out_at (predict L k0 D) i j)%R.
Proof.
  intros Hd H1 H2 H3 H4 H D.
  unfold xl_estimate, mbind, mret, xl_outcome_classes, mget in H. rewrite Hd in H. unfold mbind, mret, mlift in H.
  unfold xl_prepare, mbind, mget in H. rewrite H1 in H. cbn [negb] in H.
  assert (ED : (match data with Some d0 => mret d0 | None => attr (t_wv s) end) s = (s, Ok D)).
  { unfold D, mret, attr, mlift. rewrite H3. now destruct data. }
  rewrite ED, H2 in H. unfold attr, mlift in H. rewrite H4 in H.
  destruct (mapX _ ps) as [cols|] eqn:Em; [|easy]. cbn [bind] in H. injection H as <- <-.
  apply mapX_inv in Em. exists (stack2 (length D) (t_yd s) cols). split; auto. split.
  - cbn. now rewrite (F2_length Em).
  - intros i j k kt k0 Hk.
    assert (Hlt : k < length ps) by (apply nth_error_Some; congruence).
    pose proof (@Forall2_nth _ _ _ _ _ (kt, k0) (mkNd [] (fun _ => 0%R)) Em k Hlt) as Hc.
    rewrite (nth_error_nth _ _ (kt, k0) Hk) in Hc. cbn beta in Hc. cbn [fst snd] in Hc.
    rewrite stack_entry by (now rewrite <- (F2_length Em)).
    destruct (zip_nd (mix rho) _ _) as [dd|] eqn:Ez; [|easy]. cbn [bind] in Hc.
    apply as_n_yd_inv in Hc as [_ Hc]. rewrite Hc. now apply out_at_mix.
Qed.

(** C114, SLearner with one treatment column: the model is trained on covariates and the group indicator, and the
    estimate for group k+1 is its difference to the first (smallest) group *)
Theorem C114_S_one_column L c a s1 wv :
  c_categories c = None -> f_comb a = false -> f_wv a = Some wv -> c_proba c = false ->
  Forall (fun r => length r = 1) (f_x a) ->
  sl_fit L c a (sl_new L) = (s1, Ok tt) ->
  exists k0 keys m, groups_of 1 (occurs (f_x a)) (k0 :: keys) /\ increasing (k0 :: keys) /\
    length wv = length (f_x a) /\
    l_fit L (map (fun p => features (k0 :: keys) (snd p) (fst p)) (combine wv (f_x a))) (squeeze (nd_rows (f_y a))) = Ok m /\
    forall data s2 e, sl_estimate L c data QNone None s1 = (s2, Ok e) ->
    let D := match data with Some x => x | None => wv end in
    exists f, e = squeeze f /\ nd_shape f = [length D; width (f_y a); length keys] /\
      forall i j k g, nth_error keys k = Some g ->
        nd_at f [i; j; k] = (out_at (predict L m (map (features (k0 :: keys) g) D)) i j -
                             out_at (predict L m (map (features (k0 :: keys) k0) D)) i j)%R.
Proof.
  intros HN Hc Hw Hp HL H. unfold sl_fit in H. rewrite Hw, Hc, HN in H.
  unfold mbind, mset, mget, mlift, sl_begin, sl_new in H. cbn [s_enc s_fitted] in H.
  destruct (enc_fit None (f_x a)) as [cats|] eqn:Ef; [|easy].
  destruct (oh_transform cats (f_x a)) as [x|] eqn:Eo; [|easy].
  unfold mset, mret, sl_set_x, sl_set_model in H. cbn [s_enc s_fitted s_treat s_control s_wv s_yd s_comb s_model s_xd] in H.
  destruct (hcat [wv; to_rows x]) as [X|] eqn:EX; [|easy]. destruct (l_fit _ _ _) as [m|] eqn:Em; [|easy].
  injection H as <-. apply hcat2 in EX as [El ->].
  destruct (@enc_fit_spec _ _ _ _ HL Ef) as (Hx & Hd & Hlen & Hin & Hnone & _).
  destruct (Hnone eq_refl) as [HS Hocc].
  destruct cats as [|c0 [|]]; cbn in Hlen; try lia.
  inversion HS as [|? ? S0 _]; subst.
  pose proof (ssort_NoDup S0) as ND0.
  set (K := map (fun v : label => [v]) c0).
  assert (NDK : NoDup K).
  { unfold K. clear - ND0. induction ND0 as [|v l Hv Hl IH]; cbn; constructor; auto.
    intros Hin. apply in_map_iff in Hin as (w & [= ->] & Hw). auto. }
  (* the codes of the rows are the indicators of their groups *)
  assert (Ex : x = map (ind K) (f_x a)).
  { rewrite (@oh_transform_1 c0 (f_x a) (fun r => match index_of (nth 0 r (LInt 0)) c0 with Some i => i | None => 0 end) Hx) in Eo.
    - injection Eo as <-. apply map_ext_in. intros r Hr.
      rewrite Forall_forall in HL. pose proof (HL r Hr) as Lr. destruct r as [|v [|]]; cbn in Lr; try lia.
      specialize (Hin _ Hr). inversion Hin as [|? ? ? ? Iv _]; subst. cbn [nth].
      destruct (index_of_In v c0 Iv) as (i & Ei). rewrite Ei. unfold pos_vec.
      replace (length c0) with (length K) by (unfold K; apply map_length).
      apply ind_pos; auto. unfold K. rewrite nth_error_map.
      apply index_of_Some in Ei. now rewrite Ei.
    - intros r Hr. rewrite Forall_forall in HL. pose proof (HL r Hr) as Lr. destruct r as [|v [|]]; cbn in Lr; try lia.
      exists v. split; auto. specialize (Hin _ Hr). inversion Hin as [|? ? ? ? Iv _]; subst. cbn [nth].
      destruct (index_of_In v c0 Iv) as (i & Ei). now rewrite Ei. }
  assert (GK : groups_of 1 (occurs (f_x a)) K).
  { split; auto. intros r. unfold K. rewrite in_map_iff. split.
    - intros (v & <- & Iv). split; auto. intros j Hj. assert (j = 0) by lia. subst j. cbn [nth].
      apply (Hocc 0 ltac:(lia)). exact Iv.
    - intros [Lr Hr]. destruct r as [|v [|]]; cbn in Lr; try lia. exists v. split; auto.
      apply (Hocc 0 ltac:(lia)). apply (Hr 0). lia. }
  assert (HK : exists k0 keys, K = k0 :: keys).
  { destruct K as [|k0 keys] eqn:EK; [|eauto]. exfalso. destruct (f_x a) as [|r x'] eqn:E; [easy|].
    assert (In r []); [|easy]. apply GK. rewrite Forall_forall in HL. split; [apply HL; now left|].
    intros j Hj. exists r. split; [now left|reflexivity]. }
  destruct HK as (k0 & keys & EK). exists k0, keys, m. rewrite <- EK.
  split; auto. split; [exists c0; auto|].
  subst x. rewrite to_rows_ind in *. rewrite map_length in El. split; [auto|].
  rewrite features_combine in Em. split; [exact Em|].
  intros data s2 e H D.
  unfold sl_estimate, mbind, mret in H. unfold sl_prepare, mbind, mget in H. cbn [s_fitted negb s_wv s_comb] in H.
  assert (ED : forall s : slearner L, (match data with Some d0 => mret d0 | None => attr (Some wv) end) s = (s, Ok D)).
  { intros s. unfold D, mret, attr, mlift. now destruct data. }
  rewrite ED in H. unfold sl_prepare_separate, mbind, mget, attr, mlift in H. cbn [s_xd s_model s_yd] in H. rewrite Hp in H.
  rewrite (width_map_ind K (f_x a) Hx) in H.
  change 0%Z with (Z.of_nat 0) in H. rewrite (unit_vec_ok K k0 0 NDK) in H by (now rewrite EK). cbn [bind] in H.
  destruct (mapX _ (seq 0 (length K - 1))) as [cols|] eqn:Ec; [|easy]. cbn [bind] in H. injection H as <- <-.
  apply mapX_inv in Ec. pose proof (F2_length Ec) as Elc. rewrite seq_length in Elc.
  exists (stack2 (length D) (width (f_y a)) cols). split; auto.
  assert (Lk : length K - 1 = length keys) by (rewrite EK; cbn; lia).
  split; [cbn; now rewrite <- Elc, Lk|].
  intros i j k g Hk. assert (Hlt : k < length keys) by (apply nth_error_Some; congruence).
  pose proof (@Forall2_nth _ _ _ _ _ 0 (mkNd [] (fun _ => 0%R)) Ec k ltac:(rewrite seq_length; lia)) as Hc'.
  rewrite seq_nth in Hc' by lia. cbn [Nat.add] in Hc'.
  rewrite stack_entry by lia.
  rewrite (unit_vec_ok K g (S k) NDK) in Hc' by (now rewrite EK). cbn [bind] in Hc'.
  rewrite !with_row_features in Hc'.
  unfold pred_func in Hc'. destruct (zip_nd Rminus _ _) as [dd|] eqn:Ez; [|easy]. cbn [bind] in Hc'.
  apply as_n_yd_inv in Hc' as [_ Hc']. rewrite Hc'. exact (out_at_zip _ _ _ i j Ez).
Qed.

(* ------------------------------------------------------------------------------------------------ *)
(** ** C117: the average effect *)

(** [m] is the mean of [e] over its first axis *)
Definition row_mean (e m : nd R) : Prop :=
  exists n sh, nd_shape e = n :: sh /\ nd_shape m = sh /\
    forall idx, (INR n * nd_at m idx = fold_right Rplus 0 (map (fun i => nd_at e (i :: idx)) (seq 0 n)))%R.

Lemma mean0_spec e : 
  match nd_shape e with
  | [] => mean0 e = Err ValueError
  | 0 :: _ => True
  | _ => exists m, mean0 e = Ok m /\ row_mean e m
  end.
Proof.
  unfold mean0. destruct (nd_shape e) as [|[|n] sh] eqn:E; auto.
  eexists. split; [reflexivity|]. exists (S n), sh. split; auto. split; auto. intros idx. cbn [nd_at].
  field. apply not_0_INR. lia.
Qed.

Definition ex114 : fitargs :=
  mkFitArgs [[LInt 0]; [LInt 1]; [LInt 2]; [LInt 1]; [LInt 2]; [LInt 0]]
            (Some [[5%R]; [6%R]; [7%R]; [8%R]; [9%R]; [4%R]]) [[1%R]; [0%R]; [2%R]; [3%R]; [5%R]; [6%R]] TNone TNone false.

(** C117: for every learner and state, estimate(quantity='ATE') raises when estimate() raises, and otherwise returns the mean over
    the rows of the array that estimate() returns (of at least one row), with the same effect on the learner *)
Theorem C117_average L c data target rho :
  (forall s, match sl_estimate L c data QNone target s with
   | (s', Err x) => sl_estimate L c data QATE target s = (s', Err x)
   | (s', Ok e) => hd 0 (nd_shape e) <> 0 -> exists m, sl_estimate L c data QATE target s = (s', Ok m) /\ row_mean e m
   end) /\
  (forall s, match tl_estimate L c data QNone target s with
   | (s', Err x) => tl_estimate L c data QATE target s = (s', Err x)
   | (s', Ok e) => hd 0 (nd_shape e) <> 0 -> exists m, tl_estimate L c data QATE target s = (s', Ok m) /\ row_mean e m
   end) /\
  (forall s, match xl_estimate L c data rho QNone s with
   | (s', Err x) => xl_estimate L c data rho QATE s = (s', Err x)
   | (s', Ok e) => hd 0 (nd_shape e) <> 0 -> exists m, xl_estimate L c data rho QATE s = (s', Ok m) /\ row_mean e m
   end).
Proof.
  set (Avg := fun (St : Type) (m1 m2 : M St (nd R)) => forall s,
    match m1 s with
    | (s', Err x) => m2 s = (s', Err x)
    | (s', Ok e) => hd 0 (nd_shape e) <> 0 -> exists m, m2 s = (s', Ok m) /\ row_mean e m
    end).
  assert (G : forall (St : Type) (p : M St (nd R)), Avg St (mdo e <- p; mret e) (mdo e <- p; mlift (mean0 e))).
  { intros St p s. unfold mbind, mret, mlift. destruct (p s) as [s' [e|x]]; auto. intros Hn.
    pose proof (mean0_spec e) as Hm. destruct (nd_shape e) as [|[|n] sh]; cbn in Hn; try lia.
    destruct Hm as (m & -> & Hm). eauto. }
  assert (B : forall (St A : Type) (p : M St A) (f g : A -> M St (nd R)), (forall a, Avg St (f a) (g a)) ->
     Avg St (mbind p f) (mbind p g)).
  { intros St A p f g H s. unfold mbind. destruct (p s) as [s' [t|x]]; auto. apply H. }
  change (Avg _ (sl_estimate L c data QNone target) (sl_estimate L c data QATE target) /\
          Avg _ (tl_estimate L c data QNone target) (tl_estimate L c data QATE target) /\
          Avg _ (xl_estimate L c data rho QNone) (xl_estimate L c data rho QATE)).
  split; [|split]; [unfold sl_estimate|unfold tl_estimate|unfold xl_estimate]; repeat (first [apply G|apply B; intros ?]).
Qed.

(** three groups, six rows, X-learner; S-learner with one column and three groups *)
Example C114_X_case :
  exists s1 e m, xl_fit toy plain ex114 (tl_new toy) = (s1, Ok tt) /\
    xl_estimate toy plain None (1 / 2)%R QNone s1 = (s1, Ok e) /\ nd_shape e = [6; 2] /\
    xl_estimate toy plain None (1 / 2)%R QATE s1 = (s1, Ok m) /\ nd_shape m = [2].
Proof. eexists _, _, _. repeat split. Qed.
Example C114_S_one_case :
  exists s1 s2 e, sl_fit toy plain ex114 (sl_new toy) = (s1, Ok tt) /\
    sl_estimate toy plain None QNone None s1 = (s2, Ok e) /\ nd_shape e = [6; 2].
Proof. eexists _, _, _. repeat split. Qed.

Print Assumptions C114_X_separate_models.
Print Assumptions C114_X_separate_estimate.
Print Assumptions C114_S_one_column.
Print Assumptions C117_average.
