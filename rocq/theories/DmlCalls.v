(** C129-C132, C137, C138: calls of a DoubleML object. *)
From Coq Require Import ZArith Reals Lra.
From Verif Require Import Base ApiModel EstUtilsModel EstUtilsProps MetaModel MetaSpec MetaProofs MetaProps MetaRefit MetaT MetaX
  CrossFitModel CrossFitProofs DrModel DrProofs DrSpec DrProps DrCalls DrRobust DmlModel DmlProofs DmlProps.
Local Notation length := List.length.
Local Notation concat := List.concat.

(* ------------------------------------------------------------------------------------------------ *)
(** ** C129: no covariates *)

(** C129 is false: covariate is optional, but without covariates no call of fit ever succeeds, whatever the data, the
    models and the history; after the first stage it is an AttributeError. *)
Theorem C129_DML_covariate_optional_refuted Lx Ly lin categories cf a s :
  m_v a = None ->
  snd (dml_fit Lx Ly lin categories cf a s) <> Ok tt /\
  forall x wv xhat yhat, m_x a = XCont x -> m_w a = Some wv -> width wv <> 0 ->
    dml_cross Lx wv x (width x) cf = Ok xhat -> dml_cross Ly wv (m_y a) (width (m_y a)) cf = Ok yhat ->
    get_wv [Some wv; None] = Ok wv ->
    snd (dml_fit Lx Ly lin categories cf a s) = Err AttributeError.
Proof.
  intros Hv. split.
  - destruct (dml_fit_no_covariate Lx Ly lin categories cf a s Hv) as (s1 & er & E). rewrite E. discriminate.
  - intros x wv xhat yhat Ex Ew _ E1 E2 E3. unfold dml_fit. rewrite Hv, Ew, Ex.
    unfold mbind, obj_set, obj_get, mret, attr, mlift. cbn [fst snd]. rewrite E3, E1, E2. reflexivity.
Qed.

(* ------------------------------------------------------------------------------------------------ *)
(** ** C130: cross fitting *)

(** C130: with cf_fold = k >= 2, the residuals of every training row r that the final model is fitted on come from models
    that were fitted on the rows outside a fold of n/k or n/k+1 consecutive rows that contains r. *)
Theorem C130_DML_cross_fit Lx Ly lin categories k a x s s1 :
  m_x a = XCont x -> 1 < k -> length (m_y a) = length x ->
  dml_fit Lx Ly lin categories k a s = (s1, Ok tt) ->
  exists v wv xhat yhat c,
    m_v a = Some v /\ get_wv [m_w a; m_v a] = Ok wv /\
    lin (design x xhat v) (residuals (m_y a) yhat) = Ok c /\
    let n := length x in
    forall r, r < n ->
    (exists F m, fold_of n k r F /\ ~ In r (outside n F) /\
       l_fit Lx (take_rows [] (outside n F) wv) (target_nd (width x) (take_rows [] (outside n F) x)) = Ok m /\
       ((forall i, xhat r i = row_pred Lx m (nth r wv []) i) \/ (l_dim Lx m = Some 1 /\ forall i, xhat r i = row_pred Lx m (nth r wv []) 0))) /\
    (exists F m, fold_of n k r F /\ ~ In r (outside n F) /\
       l_fit Ly (take_rows [] (outside n F) wv) (target_nd (width (m_y a)) (take_rows [] (outside n F) (m_y a))) = Ok m /\
       ((forall j, yhat r j = row_pred Ly m (nth r wv []) j) \/ (l_dim Ly m = Some 1 /\ forall j, yhat r j = row_pred Ly m (nth r wv []) 0))).
Proof.
  intros Ex Hk Hly H. destruct (fit_ready _ _ _ _ _ _ _ _ _ Ex H) as (v & wv & xhat & yhat & c & H1 & H2 & H3 & H4 & H5 & _).
  exists v, wv, xhat, yhat, c. do 3 (split; [assumption|]). unfold first_stage in H3, H4. rewrite (proj2 (Nat.leb_gt k 1) Hk) in H3, H4.
  cbn zeta in H3, H4 |- *. rewrite Hly in H4. intros r Hr. split; auto.
Qed.

(* ------------------------------------------------------------------------------------------------ *)
(** ** C131: earlier calls *)

(** a call of estimate or effect_nji *)
Inductive dcall := CEst (data : option (list row)) (treat control : dtarg) (q : quantity) | CNji (data : option (list row)) (control : dtarg).
Definition run_call (disc : bool) (s : St) (c : dcall) : St :=
  match c with
  | CEst data t k q => fst (dml_estimate disc data t k q s)
  | CNji data k => fst (dml_effect_nji disc data k s)
  end.

Lemma dml_prepare_pure data s : fst (dml_prepare data s) = s.
Proof.
  unfold dml_prepare, mbind at 1. destruct (negb _); [reflexivity|]. unfold mbind, attr, mlift, mret.
  destruct (match data with None => _ | Some d => _ end); [|reflexivity]. destruct (fst s _); [|reflexivity].
  destruct (if 1 <? d_ny (snd s) then _ else _); reflexivity.
Qed.

Lemma dml_enc_pure {A} (m : M encs A) s : (exists r, m (d_encs (snd s)) = (d_encs (snd s), r)) -> fst (dml_enc m s) = s.
Proof. intros [r E]. unfold dml_enc. rewrite E. destruct s as [h o]; destruct o; reflexivity. Qed.

Lemma tr_ctrl_pure_true t e (treat : bool) : exists r, get_tr_ctrl t (fun v => sl_comp true v None) treat e = (e, r).
Proof. apply get_tr_ctrl_pure. intros x. rewrite sl_comp_ready. apply comp_ready_pure. Qed.

Lemma dml_arg_pure disc t treat s : d_isf (snd s) = true -> fst (dml_arg disc t treat s) = s.
Proof.
  intros Hi. unfold dml_arg, mbind at 1, obj_get. cbn [snd]. rewrite Hi.
  destruct t, disc; try reflexivity; unfold mbind.
  - pose proof (dml_enc_pure (get_tr_ctrl (TVal l) (fun v => sl_comp true v None) treat) s (tr_ctrl_pure_true _ _ _)) as P.
    destruct (dml_enc _ s) as [s' [z|er]]; cbn in P; subst s'; reflexivity.
  - pose proof (dml_enc_pure (get_tr_ctrl (TList l) (fun v => sl_comp true v None) treat) s (tr_ctrl_pure_true _ _ _)) as P.
    destruct (dml_enc _ s) as [s' [z|er]]; cbn in P; subst s'; reflexivity.
Qed.

Lemma dml_treat_treat a b o : dml_treat a (dml_treat b o) = dml_treat a o.
Proof. reflexivity. Qed.
Lemma dml_treat_same o : dml_treat (d_tr o) o = o.
Proof. destruct o; reflexivity. Qed.

(** after any call only the attribute treat may differ *)
Lemma run_call_treat disc s c : d_isf (snd s) = true -> exists t, run_call disc s c = (fst s, dml_treat t (snd s)).
Proof.
  intros Hi. assert (S0 : s = (fst s, dml_treat (d_tr (snd s)) (snd s))) by (rewrite dml_treat_same; now destruct s).
  destruct c as [data t k q|data k]; cbn [run_call].
  - unfold dml_estimate, mbind. pose proof (dml_prepare_pure data s) as P0. destruct (dml_prepare data s) as [s' [fij|er]]; cbn in P0; subst s'; [|eauto].
    unfold obj_get. set (t' := match t with ANone => _ | _ => _ end). set (k' := match k with ANone => _ | _ => _ end).
    pose proof (dml_arg_pure disc t' true s Hi) as P1. destruct (dml_arg disc t' true s) as [s' [tv|er]]; cbn in P1; subst s'; [|eauto].
    pose proof (dml_arg_pure disc k' false s Hi) as P2. destruct (dml_arg disc k' false s) as [s' [kv|er]]; cbn in P2; subst s'; [|eauto].
    unfold obj_set, mlift. exists (as_attr tv).
    destruct (if disc then _ else _) as [e|er]; [|reflexivity]. destruct q; reflexivity.
  - unfold dml_effect_nji, mbind. pose proof (dml_prepare_pure data s) as P0. destruct (dml_prepare data s) as [s' [fij|er]]; cbn in P0; subst s'; [|eauto].
    destruct disc; [|unfold mret; eauto]. unfold obj_get. rewrite Hi.
    set (m := match _ with ANone => _ | _ => _ end).
    assert (P : fst (dml_enc m s) = s).
    { apply dml_enc_pure. unfold m. destruct (match k with ANone => _ | _ => _ end); try apply tr_ctrl_pure_true; unfold mlift; eauto. }
    destruct (dml_enc m s) as [s' [z|er]]; cbn in P; subst s'; [|eauto]. unfold mlift. destruct (nd_shape fij) as [|? [|? [|? []]]]; cbn; eauto.
Qed.

(** the attribute treat does not matter for a call with explicit arguments *)
Lemma dml_arg_treat disc t treat h o a : d_isf o = true ->
  snd (dml_arg disc t treat (h, dml_treat a o)) = snd (dml_arg disc t treat (h, o)).
Proof.
  intros Hi. unfold dml_arg, mbind, obj_get. cbn [snd]. change (d_isf (dml_treat a o)) with (d_isf o). rewrite !Hi.
  destruct t, disc; try reflexivity; unfold mbind, dml_enc; cbn [snd fst]; change (d_encs (dml_treat a o)) with (d_encs o);
    destruct (get_tr_ctrl _ _ _ (d_encs o)) as [e [z|er]]; reflexivity.
Qed.
Lemma dml_prepare_treat data h o a : snd (dml_prepare data (h, dml_treat a o)) = snd (dml_prepare data (h, o)).
Proof.
  unfold dml_prepare, mbind. cbn [snd fst].
  change (d_stage1 (dml_treat a o)) with (d_stage1 o). change (d_isf (dml_treat a o)) with (d_isf o).
  change (d_tv (dml_treat a o)) with (d_tv o). change (d_named (dml_treat a o)) with (d_named o).
  change (d_yx (dml_treat a o)) with (d_yx o). change (d_nx (dml_treat a o)) with (d_nx o). change (d_ny (dml_treat a o)) with (d_ny o).
  destruct (negb _); [reflexivity|]. unfold attr, mlift, mret.
  destruct (match data with None => _ | Some d => _ end); [|reflexivity]. destruct (h _); [|reflexivity].
  destruct (if 1 <? d_ny o then _ else _); reflexivity.
Qed.
Lemma pair_snd {A B} (p : A * B) a : fst p = a -> p = (a, snd p).
Proof. destruct p; cbn; congruence. Qed.

Lemma estimate_explicit disc data t k q h o a : d_isf o = true -> t <> ANone -> k <> ANone ->
  snd (dml_estimate disc data t k q (h, dml_treat a o)) = snd (dml_estimate disc data t k q (h, o)).
Proof.
  intros Hi Ht Hk. unfold dml_estimate.
  assert (Et : forall d : dtarg, match t with ANone => d | _ => t end = t) by (intros d; destruct t; easy).
  assert (Ek : forall d : dtarg, match k with ANone => d | _ => k end = k) by (intros d; destruct k; easy).
  unfold mbind.
  rewrite (pair_snd (dml_prepare data (h, dml_treat a o)) _ (dml_prepare_pure _ _)), (pair_snd (dml_prepare data (h, o)) _ (dml_prepare_pure _ _)).
  rewrite dml_prepare_treat. destruct (snd (dml_prepare data (h, o))) as [fij|er]; [|reflexivity].
  unfold obj_get. cbn [snd]. rewrite !Et, !Ek.
  rewrite (pair_snd (dml_arg disc t true (h, dml_treat a o)) (h, dml_treat a o)) by (now apply dml_arg_pure).
  rewrite (pair_snd (dml_arg disc t true (h, o)) (h, o)) by (now apply dml_arg_pure).
  rewrite dml_arg_treat by auto. destruct (snd (dml_arg disc t true (h, o))) as [tv|er]; [|reflexivity].
  rewrite (pair_snd (dml_arg disc k false (h, dml_treat a o)) (h, dml_treat a o)) by (now apply dml_arg_pure).
  rewrite (pair_snd (dml_arg disc k false (h, o)) (h, o)) by (now apply dml_arg_pure).
  rewrite dml_arg_treat by auto. destruct (snd (dml_arg disc k false (h, o))) as [kv|er]; [|reflexivity].
  unfold obj_set, mlift. cbn [snd fst]. change (d_nx (dml_treat a o)) with (d_nx o).
  destruct (if disc then _ else _) as [e|er]; [|reflexivity]. destruct q; reflexivity.
Qed.

(** C131: after a successful fit, an estimate whose treat and control are given does not depend on which calls of
    estimate and effect_nji were made before it. *)
Theorem C131_DML_explicit_estimate_history Lx Ly lin categories cf a s s1 calls disc data t k q :
  dml_fit Lx Ly lin categories cf a s = (s1, Ok tt) -> t <> ANone -> k <> ANone ->
  snd (dml_estimate disc data t k q (fold_left (run_call disc) calls s1)) = snd (dml_estimate disc data t k q s1).
Proof.
  intros H Ht Hk.
  assert (Hi : d_isf (snd s1) = true).
  { destruct (m_x a) as [x|x] eqn:Ex.
    - destruct (dml_fit_cont _ _ _ _ _ _ _ _ _ Ex H) as (? & ? & ? & ? & ? & _ & _ & _ & _ & _ & ->). reflexivity.
    - destruct (dml_fit_disc _ _ _ _ _ _ _ _ _ Ex H) as (? & ? & ? & ? & ? & ? & ? & _ & _ & _ & _ & _ & _ & ->). reflexivity. }
  assert (G : forall calls s, d_isf (snd s) = true -> exists t, fold_left (run_call disc) calls s = (fst s, dml_treat t (snd s))).
  { clear. induction calls as [|c calls IH]; intros s Hi.
    - exists (d_tr (snd s)). rewrite dml_treat_same. now destruct s.
    - cbn [fold_left]. destruct (run_call_treat disc s c Hi) as (t1 & E). rewrite E.
      destruct (IH (fst s, dml_treat t1 (snd s)) Hi) as (t2 & E2). exists t2. exact E2. }
  destruct (G calls s1 Hi) as (t1 & ->). destruct s1 as [h o]. cbn [fst snd]. now apply estimate_explicit.
Qed.

(** C131 is false without the arguments: estimate(treat=t) makes t the default treat of later calls.  In every fitted object
    whose treat and control were never set, estimate() is the effect of treat 1 against 0; after estimate(treat=t) it is
    the effect of t against 0. *)
Theorem C131_DML_default_history_refuted s c y_d x_d v_d V t :
  ready s c y_d x_d v_d V -> 0 < y_d -> 0 < x_d -> coef_shape c y_d x_d v_d -> Forall (fun r => length r = v_d) V ->
  d_tr (snd s) = ANone -> d_ct (snd s) = ANone ->
  exists e e', snd (dml_estimate false None ANone ANone QNone s) = Ok e /\
    snd (dml_estimate false None ANone ANone QNone (run_call false s (CEst None (ANum t) ANone QNone))) = Ok e' /\
    forall r j i, r < length V -> j < y_d -> i < x_d ->
      nd_at e [r; j; i] = slope (nth j c []) i (1%R :: nth r V []) /\
      nd_at e' [r; j; i] = (slope (nth j c []) i (1 :: nth r V []) * t)%R.
Proof.
  intros HR Hy Hx Hc HV Ht Hk.
  assert (G : forall s', ready s' c y_d x_d v_d V -> forall arg t', d_ct (snd s') = ANone ->
     match arg with ANone => match d_tr (snd s') with ANone => t' = 1%R | ANum u => u = t' | _ => False end | ANum u => u = t' | _ => False end ->
     dml_estimate false None arg ANone QNone s' = dml_estimate false None (ANum t') (ANum 0%R) QNone s').
  { intros s' HR' arg t' Hk' Ha.
    destruct (dml_prepare_ok _ _ _ _ _ _ None HR' Hy Hx Hc HV) as (f & E & _).
    unfold dml_estimate, mbind. rewrite E. unfold obj_get, dml_arg, mbind, obj_get, mret, mlift, obj_set. cbn [fst snd]. rewrite Hk'.
    destruct arg; try easy; [|now subst]. destruct (d_tr (snd s')); try easy; now subst. }
  destruct (estimate_nums _ _ _ _ _ _ None 1%R 0%R HR Hy Hx Hc HV) as (e & E & S & Ve).
  destruct (estimate_nums _ _ _ _ _ _ None t 0%R HR Hy Hx Hc HV) as (e1 & E1 & _ & _).
  set (s' := (fst s, dml_treat (ANum t) (snd s))) in *.
  assert (HR' : ready s' c y_d x_d v_d V) by exact HR.
  destruct (estimate_nums _ _ _ _ _ _ None t 0%R HR' Hy Hx Hc HV) as (e' & E' & S' & Ve').
  exists e, e'. split; [|split].
  - rewrite (G s HR ANone 1%R Hk) by (now rewrite Ht). now rewrite E.
  - cbn [run_call]. rewrite (G s HR (ANum t) t Hk) by reflexivity. rewrite E1. cbn [fst].
    rewrite (G s' HR' ANone t Hk) by reflexivity. now rewrite E'.
  - intros r j i Hr Hj Hi. rewrite Ve, Ve' by auto. cbn [data_rows]. split; lra.
Qed.

(* ------------------------------------------------------------------------------------------------ *)
(** ** C132: arrays as treat and control *)

Lemma cont_nd_arr m x_d l : 0 < x_d -> 0 < m -> length l = m * x_d ->
  exists f, cont_nd x_d (VArrR l) = Ok (mkNd [m; x_d] f) /\ forall r i, r < m -> i < x_d -> f [r; i] = nth (r * x_d + i) l 0%R.
Proof.
  intros Hx Hm Hl. unfold cont_nd, reshape_k. rewrite (proj2 (Nat.eqb_neq x_d 0)) by lia. rewrite Hl, Nat.mod_mul by lia.
  cbn [Nat.eqb negb orb bind]. destruct (chunks_nth x_d m Hx (m * x_d) l 0 Hl) as [E _]; [nia|lia|]. rewrite E.
  eexists. split; [reflexivity|]. intros r i Hr Hi. cbn [nth]. destruct (chunks_nth x_d m Hx (m * x_d) l r Hl) as [_ ->]; [nia|lia|].
  rewrite nth_firstn2 by auto. now rewrite nth_skipn2.
Qed.

Lemma F2_two a b n m : a < n -> b < m -> Forall2 (fun i d => i < d) [a; b] [n; m].
Proof. intros; repeat constructor; auto. Qed.

(** C132: treat and control as arrays, both with one row of x_d entries for all units (m = 1) or both with one row per
    unit (m = n): the effect of treatment i on row r is that of moving from the row's control to the row's treat. *)
Theorem C132_DML_arrays Lx Ly lin categories cf a x s s1 :
  m_x a = XCont x -> dml_fit Lx Ly lin categories cf a s = (s1, Ok tt) ->
  exists v X Y c, m_v a = Some v /\ lin X Y = Ok c /\
    forall v_d data m t ct, coef_shape c (width (m_y a)) (width x) v_d -> 0 < width (m_y a) -> 0 < width x ->
      let D := match data with Some d => d | None => v end in
      Forall (fun r => length r = v_d) D -> 0 < length D -> m = 1 \/ m = length D ->
      length t = m * width x -> length ct = m * width x ->
      exists s2 e, dml_estimate false data (AArrR t) (AArrR ct) QNone s1 = (s2, Ok e) /\
        nd_shape e = [length D; width (m_y a); width x] /\
        forall r j i, r < length D -> j < width (m_y a) -> i < width x ->
          let k := (if m =? 1 then 0 else r) * width x + i in
          nd_at e [r; j; i] = (slope (nth j c []) i (1 :: nth r D []) * (nth k t 0 - nth k ct 0))%R.
Proof.
  intros Ex H. destruct (fit_ready _ _ _ _ _ _ _ _ _ Ex H) as (v & wv & xhat & yhat & c & H1 & H2 & H3 & H4 & H5 & _ & HR).
  exists v, (design x xhat v), (residuals (m_y a) yhat), c. do 2 (split; [assumption|]).
  intros v_d data m t ct Hc Hy Hx D HD Hn Hm Ht Hct.
  destruct (dml_prepare_ok _ _ _ _ _ _ data (HR v_d) Hy Hx Hc HD) as (f & E & Hf). change (data_rows data v) with D in E, Hf.
  assert (Hm0 : 0 < m) by lia.
  destruct (cont_nd_arr m (width x) t Hx Hm0 Ht) as (ft & Et & Vt). destruct (cont_nd_arr m (width x) ct Hx Hm0 Hct) as (fc & Ec & Vc).
  destruct (bcast_same Rminus (mkNd [m; width x] ft) (mkNd [m; width x] fc) eq_refl) as (df & Ed & Sd & Vd). cbn [nd_shape nd_at] in Sd, Vd.
  assert (Hs : d_nx (snd s1) = width x) by apply (HR 0).
  eexists _, _. split.
  - unfold dml_estimate, mbind. rewrite E. unfold obj_get, dml_arg, mbind, obj_get, mret, mlift, obj_set. cbn [fst snd as_attr].
    rewrite Hs. unfold cont_effect. rewrite Et, Ec. cbn [bind]. rewrite Ed. cbn [bind nd_shape]. rewrite Sd, Nat.eqb_refl, andb_true_r.
    replace ((m =? length D) || (m =? 1)) with true by (symmetry; apply orb_true_iff; rewrite !Nat.eqb_eq; lia).
    reflexivity.
  - cbn [nd_shape nd_at]. split; [reflexivity|]. intros r j i Hr Hj Hi. cbn [nth]. rewrite Hf by auto. f_equal.
    destruct (Nat.eqb_spec m 1) as [->|Nm].
    + rewrite Vd by (apply F2_two; lia). now rewrite Vt, Vc by lia.
    + rewrite Vd by (apply F2_two; lia). now rewrite Vt, Vc by lia.
Qed.

(** C132 is false when only treat is an array with one row per unit: with one outcome the result has a row for every pair
    of units, (n, n, x_d), where entry (r, r') applies the treat of unit r' to unit r. *)
Theorem C132_DML_array_treat_refuted s c x_d v_d V t :
  ready s c 1 x_d v_d V -> 0 < x_d -> coef_shape c 1 x_d v_d -> Forall (fun r => length r = v_d) V ->
  2 <= length V -> length t = length V * x_d -> d_ct (snd s) = ANone ->
  exists e, snd (dml_estimate false None (AArrR t) ANone QNone s) = Ok e /\
    nd_shape e = [length V; length V; x_d] /\
    forall r r' i, r < length V -> r' < length V -> i < x_d ->
      nd_at e [r; r'; i] = (slope (nth 0 c []) i (1 :: nth r V []) * nth (r' * x_d + i) t 0)%R.
Proof.
  intros HR Hx Hc HV Hn Ht Hct.
  destruct (dml_prepare_ok _ _ _ _ _ _ None HR Nat.lt_0_1 Hx Hc HV) as (f & E & Hf). cbn [data_rows] in E, Hf.
  destruct (cont_nd_arr (length V) x_d t Hx ltac:(lia) Ht) as (ft & Et & Vt).
  destruct (bcast_scalar Rminus (mkNd [length V; x_d] ft) 0%R) as (df & Ed & Sd & Vd). cbn [nd_shape nd_at] in Sd, Vd.
  assert (Hs : d_nx (snd s) = x_d) by apply HR.
  destruct df as [sh fd]. cbn [nd_shape nd_at] in Sd, Vd. subst sh.
  assert (EB : bcast2 Rmult (mkNd [length V; 1; x_d] f) (mkNd [length V; x_d] fd) =
    Ok (mkNd [length V; length V; x_d] (fun idx =>
      Rmult (f (rev (bindex [x_d; 1; length V] (rev idx)))) (fd (rev (bindex [x_d; length V] (rev idx))))))).
  { unfold bcast2. cbn [nd_shape rev app]. 
    assert (bshape [x_d; 1; length V] [x_d; length V] = Ok [x_d; length V; length V]) as ->; [|reflexivity].
    cbn [bshape bind]. replace (1 =? length V) with false by (symmetry; apply Nat.eqb_neq; lia). cbn [Nat.eqb bind]. now rewrite Nat.eqb_refl. }
  eexists. split.
  - unfold dml_estimate, mbind. rewrite E. unfold obj_get, dml_arg, mbind, obj_get, mret, mlift, obj_set. cbn [fst snd as_attr].
    rewrite Hct, Hs. unfold cont_effect. rewrite Et. cbn [cont_nd bind]. rewrite Ed. cbn [bind]. rewrite EB. reflexivity.
  - cbn [nd_shape nd_at]. split; [reflexivity|]. intros r r' i Hr Hr' Hi. cbn [rev app bindex Nat.eqb].
    replace (length V =? 1) with false by (symmetry; apply Nat.eqb_neq; lia).
    assert ((if x_d =? 1 then 0 else i) = i) as -> by (destruct (Nat.eqb_spec x_d 1); lia).
    rewrite Hf by lia. rewrite Vd by (apply F2_two; lia). rewrite Vt by lia. lra.
Qed.

(* ------------------------------------------------------------------------------------------------ *)
(** ** C137: objects that share the final model *)

Lemma dml_fit_cells Lx Ly lin categories cf a s k : k <> d_yx (snd s) -> fst (fst (dml_fit Lx Ly lin categories cf a s)) k = fst s k.
Proof.
  intros Hk. destruct (dml_fit Lx Ly lin categories cf a s) as [s1 [[]|er]] eqn:E.
  - assert (G : exists c o, s1 = (upd (d_yx (snd s)) c (fst s), o)).
    { destruct (m_x a) as [x|x] eqn:Ex.
      - destruct (dml_fit_cont _ _ _ _ _ _ _ _ _ Ex E) as (? & ? & ? & ? & c & _ & _ & _ & _ & _ & ->). eauto.
      - destruct (dml_fit_disc _ _ _ _ _ _ _ _ _ Ex E) as (? & ? & ? & ? & ? & ? & c & _ & _ & _ & _ & _ & _ & ->). eauto. }
    destruct G as (c & o & ->). cbn [fst]. unfold upd. now rewrite (proj2 (Nat.eqb_neq _ _) Hk).
  - cbn [fst]. assert (fst s1 = fst s) as ->; [|reflexivity].
    destruct s as [h o]. unfold dml_fit in E. cbn [fst snd] in *.
    destruct (m_w a) as [w|] eqn:Ew, (m_v a) as [v|] eqn:Ev; [| | |injection E as <- _; reflexivity];
    (unfold mbind, obj_set, obj_get, mret, attr, mlift, dml_enc in E; cbn [fst snd] in E;
     destruct (m_x a) as [x|x];
     [|destruct (sl_comp _ x categories _) as [e0 [z|]]; [|injection E as <- _; reflexivity]];
     cbn [fst snd] in E;
     (destruct (get_wv _); [|injection E as <- _; reflexivity]);
     (destruct (dml_cross Lx _ _ _ _) as [xh|] || destruct (dml_cross_disc Lx _ _ _ _) as [xh|]); try (injection E as <- _; reflexivity);
     (destruct (dml_cross Ly _ _ _ _) as [yh|]; [|injection E as <- _; reflexivity]);
     try (injection E as <- _; reflexivity);
     (destruct (lin _ _); [discriminate E|injection E as <- _; reflexivity])).
Qed.

Lemma dml_prepare_heap data h h' o : h (d_yx o) = h' (d_yx o) -> snd (dml_prepare data (h, o)) = snd (dml_prepare data (h', o)).
Proof.
  intros E. unfold dml_prepare, mbind. cbn [snd fst]. rewrite E. destruct (negb _); [reflexivity|]. unfold attr, mlift, mret.
  destruct (match data with None => _ | Some d => _ end); [|reflexivity]. destruct (h' _); [|reflexivity].
  destruct (if 1 <? d_ny o then _ else _); reflexivity.
Qed.
Lemma dml_arg_heap disc t treat o : exists o1 r, forall h : heap, dml_arg disc t treat (h, o) = ((h, o1), r).
Proof.
  unfold dml_arg, mbind, obj_get. cbn [snd].
  destruct t, disc; try (eexists _, _; reflexivity); unfold dml_enc; cbn [snd fst];
    destruct (get_tr_ctrl _ _ _ (d_encs o)) as [e [z|er]]; eexists _, _; reflexivity.
Qed.

Lemma estimate_heap disc data t k q h h' o : h (d_yx o) = h' (d_yx o) ->
  snd (dml_estimate disc data t k q (h, o)) = snd (dml_estimate disc data t k q (h', o)).
Proof.
  intros E. unfold dml_estimate, mbind.
  rewrite (pair_snd (dml_prepare data (h, o)) _ (dml_prepare_pure _ _)), (pair_snd (dml_prepare data (h', o)) _ (dml_prepare_pure _ _)).
  rewrite (dml_prepare_heap data h h' o E). destruct (snd (dml_prepare data (h', o))) as [fij|er]; [|reflexivity].
  unfold obj_get. cbn [snd]. set (t' := match t with ANone => _ | _ => _ end). set (k' := match k with ANone => _ | _ => _ end).
  destruct (dml_arg_heap disc t' true o) as (o1 & r1 & A1). rewrite !A1. destruct r1 as [tv|er]; [|reflexivity].
  destruct (dml_arg_heap disc k' false o1) as (o2 & r4 & A2). rewrite !A2.
  destruct r4 as [kv|er]; [|reflexivity]. unfold obj_set, mlift. cbn [snd fst].
  destruct (if disc then _ else _) as [e|er]; [|reflexivity]. destruct q; reflexivity.
Qed.

(** C137: when another object has a final model of its own, fitting it (successfully or not) changes no estimate of this
    object *)
Theorem C137_DML_separate_models Lx Ly lin categories cf a h o other disc data t k q :
  d_yx other <> d_yx o ->
  let h' := fst (fst (dml_fit Lx Ly lin categories cf a (h, other))) in
  snd (dml_estimate disc data t k q (h', o)) = snd (dml_estimate disc data t k q (h, o)).
Proof.
  intros Hne h'. apply estimate_heap. apply (dml_fit_cells Lx Ly lin categories cf a (h, other)). cbn [snd]. congruence.
Qed.

(** C137 is false for objects built with one yx_model, which is not cloned: after the second object is fitted, the first
    one estimates with the coefficients of the second. *)
Theorem C137_DML_shared_model_refuted Lx Ly lin categories cf a x h o other s1 :
  d_yx other = d_yx o -> m_x a = XCont x ->
  dml_fit Lx Ly lin categories cf a (h, other) = (s1, Ok tt) ->
  exists c2, fst s1 (d_yx o) = Some c2 /\
    forall c1 y_d x_d v_d V t ct, ready (h, o) c1 y_d x_d v_d V -> 0 < y_d -> 0 < x_d -> coef_shape c1 y_d x_d v_d -> coef_shape c2 y_d x_d v_d ->
      Forall (fun r => length r = v_d) V ->
      exists e1 e2, snd (dml_estimate false None (ANum t) (ANum ct) QNone (h, o)) = Ok e1 /\
        snd (dml_estimate false None (ANum t) (ANum ct) QNone (fst s1, o)) = Ok e2 /\
        forall r j i, r < length V -> j < y_d -> i < x_d ->
          nd_at e1 [r; j; i] = (slope (nth j c1 []) i (1 :: nth r V []) * (t - ct))%R /\
          nd_at e2 [r; j; i] = (slope (nth j c2 []) i (1 :: nth r V []) * (t - ct))%R.
Proof.
  intros Hs Ex H. destruct (fit_ready _ _ _ _ _ _ _ _ _ Ex H) as (v & wv & xhat & yhat & c & _ & _ & _ & _ & _ & Hcell & _).
  exists c. split; [rewrite Hcell; cbn [snd]; now rewrite Hs, Nat.eqb_refl|].
  intros c1 y_d x_d v_d V t ct HR Hy Hx Hc1 Hc2 HV.
  assert (HR2 : ready (fst s1, o) c y_d x_d v_d V).
  { destruct HR as (A1 & A2 & A3 & A4 & A5 & A6 & A7). cbn [snd fst] in *. unfold ready. cbn [snd fst]. do 6 (split; [assumption|]).
    rewrite Hcell. cbn [snd]. now rewrite Hs, Nat.eqb_refl. }
  destruct (estimate_nums _ _ _ _ _ _ None t ct HR Hy Hx Hc1 HV) as (e1 & E1 & S1 & V1).
  destruct (estimate_nums _ _ _ _ _ _ None t ct HR2 Hy Hx Hc2 HV) as (e2 & E2 & S2 & V2).
  exists e1, e2. rewrite E1, E2. split; [reflexivity|]. split; [reflexivity|]. intros r j i Hr Hj Hi. now rewrite V1, V2.
Qed.

(* ------------------------------------------------------------------------------------------------ *)
(** ** C138: contrasts *)

(** C138: estimates are contrasts: no effect of moving from t to t; exchanging treat and control changes the sign; the
    effect of moving from b to c plus that of moving from c to t is the effect of moving from b to t. *)
Theorem C138_DML_contrasts Lx Ly lin categories cf a x s s1 :
  m_x a = XCont x -> dml_fit Lx Ly lin categories cf a s = (s1, Ok tt) ->
  exists v X Y co, m_v a = Some v /\ lin X Y = Ok co /\
    forall v_d data t c b, coef_shape co (width (m_y a)) (width x) v_d -> 0 < width (m_y a) -> 0 < width x ->
      let D := match data with Some d => d | None => v end in
      Forall (fun r => length r = v_d) D ->
      exists tt_ tc ct cb tb,
        snd (dml_estimate false data (ANum t) (ANum t) QNone s1) = Ok tt_ /\
        snd (dml_estimate false data (ANum t) (ANum c) QNone s1) = Ok tc /\
        snd (dml_estimate false data (ANum c) (ANum t) QNone s1) = Ok ct /\
        snd (dml_estimate false data (ANum c) (ANum b) QNone s1) = Ok cb /\
        snd (dml_estimate false data (ANum t) (ANum b) QNone s1) = Ok tb /\
        forall r j i, r < length D -> j < width (m_y a) -> i < width x ->
          nd_at tt_ [r; j; i] = 0%R /\ nd_at ct [r; j; i] = (- nd_at tc [r; j; i])%R /\
          nd_at tb [r; j; i] = (nd_at tc [r; j; i] + nd_at cb [r; j; i])%R.
Proof.
  intros Ex H. destruct (fit_ready _ _ _ _ _ _ _ _ _ Ex H) as (v & wv & xhat & yhat & co & H1 & H2 & H3 & H4 & H5 & _ & HR).
  exists v, (design x xhat v), (residuals (m_y a) yhat), co. do 2 (split; [assumption|]). intros v_d data t c b Hc Hy Hx D HD.
  pose proof (fun p q => estimate_nums _ _ _ _ _ _ data p q (HR v_d) Hy Hx Hc HD) as G.
  destruct (G t t) as (e1 & E1 & _ & V1), (G t c) as (e2 & E2 & _ & V2), (G c t) as (e3 & E3 & _ & V3),
    (G c b) as (e4 & E4 & _ & V4), (G t b) as (e5 & E5 & _ & V5).
  exists e1, e2, e3, e4, e5. rewrite E1, E2, E3, E4, E5. do 5 (split; [reflexivity|]). intros r j i Hr Hj Hi.
  rewrite V1, V2, V3, V4, V5 by auto. repeat split; lra.
Qed.
