(** Lemmas about the DoubleML model: the features of the final model, what prepare returns, what a successful fit has done. *)
From Coq Require Import ZArith Reals Lra.
From Verif Require Import Base ApiModel EstUtilsModel EstUtilsProps MetaModel MetaSpec MetaProofs MetaProps MetaRefit MetaT MetaX
  CrossFitModel CrossFitProofs DrModel DrProofs DrSpec DrProps DrCalls DrRobust DmlModel.
Local Notation length := List.length.
Local Notation concat := List.concat.

(* ------------------------------------------------------------------------------------------------ *)
(** ** Specification vocabulary *)

(** the coefficient of treatment number i in a row whose covariates with a leading 1 are z: the block of length z
    coefficients number i, applied to z *)
Definition slope (coef : row) (i : nat) (z : row) : R :=
  rsum (fun k => nth (i * length z + k) coef 0 * nth k z 0)%R (seq 0 (length z)).
(** the coefficients have the shape for y_d outcomes, x_d treatments, v_d covariates *)
Definition coef_shape (c : list row) (y_d x_d v_d : nat) : Prop :=
  length c = y_d /\ Forall (fun r => length r = x_d * S v_d) c.
(** the prediction of the final model, up to its intercept *)
Definition linear_part (coef z : row) : R := rsum (fun k => nth k coef 0 * nth k z 0)%R (seq 0 (length z)).
(** the features of the final model for treatment residuals x and covariates v *)
Definition feats (x v : row) : row := kron x (1%R :: v).

(* ------------------------------------------------------------------------------------------------ *)
Lemma rsum_shift f a n : rsum f (seq a n) = rsum (fun k => f (a + k)) (seq 0 n).
Proof.
  unfold rsum. f_equal. 
  revert a. induction n as [|n IH]; intros a; cbn [seq map]; auto. f_equal; [now rewrite Nat.add_0_r|].
  rewrite IH. rewrite <- (seq_shift n 0), map_map. apply map_ext. intros k. f_equal. lia.
Qed.
Lemma rsum_app f l m : rsum f (l ++ m) = (rsum f l + rsum f m)%R.
Proof. unfold rsum. rewrite map_app. induction (map f l) as [|a r IH]; cbn; [lra|]. rewrite IH. lra. Qed.
Lemma rsum_S f n : rsum f (seq 0 (S n)) = (f 0%nat + rsum (fun k => f (S k)) (seq 0 n))%R.
Proof. change (seq 0 (S n)) with (0 :: seq 1 n). cbn [rsum map fold_right]. rewrite <- (seq_shift n 0). unfold rsum. now rewrite map_map. Qed.

Lemma dotr_sum a b : length a = length b -> dotr a b = rsum (fun k => nth k a 0 * nth k b 0)%R (seq 0 (length b)).
Proof.
  revert b. induction a as [|x a IH]; intros [|y b] H; try easy. cbn [length] in H. injection H as H.
  unfold dotr. cbn [combine map fold_right fst snd]. fold (dotr a b). rewrite IH by auto.
  change (length (y :: b)) with (S (length b)). rewrite rsum_S. reflexivity.
Qed.

(** blocks *)
Lemma skipn_skipn2 {A} a b (l : list A) : skipn a (skipn b l) = skipn (b + a) l.
Proof. revert l. induction b as [|b IH]; intros l; auto. destruct l; [now rewrite !skipn_nil|]. cbn. apply IH. Qed.
Lemma nth_skipn2 {A} (d : A) a b l : nth a (skipn b l) d = nth (b + a) l d.
Proof. revert l. induction b as [|b IH]; intros l; auto. destruct l; [now destruct a|]. cbn. apply IH. Qed.
Lemma nth_firstn2 {A} (d : A) a b l : a < b -> nth a (firstn b l) d = nth a l d.
Proof. revert a l. induction b as [|b IH]; intros a l H; [lia|]. destruct l; [now destruct a|]. destruct a; auto. cbn. apply IH. lia. Qed.
Lemma chunks_nth k m : 0 < k -> forall fuel l i, length l = m * k -> m <= fuel -> i < m ->
  length (chunks fuel k l) = m /\ nth i (chunks fuel k l) [] = firstn k (skipn (i * k) l).
Proof.
  intros Hk. induction m as [|m IH]; intros fuel l i Hl Hf Hi; [lia|].
  destruct fuel as [|fuel]; [lia|]. cbn [chunks]. destruct l as [|a l]; [cbn in Hl; lia|]. set (L := a :: l) in *.
  assert (Hs : length (skipn k L) = m * k) by (rewrite skipn_length, Hl; lia).
  destruct i as [|i].
  - split; [|reflexivity]. cbn [length]. f_equal. destruct m as [|m'].
    + destruct (skipn k L) as [|b t]; [|cbn in Hs; lia]. now destruct fuel.
    + apply (IH fuel (skipn k L) 0); auto; lia.
  - destruct (IH fuel (skipn k L) i Hs ltac:(lia) ltac:(lia)) as [E1 E2]. split; [cbn [length]; now f_equal|].
    cbn [nth]. rewrite E2. f_equal. rewrite skipn_skipn2. f_equal; lia.
Qed.

Lemma row_effects_ok x_d coef z : z <> [] -> 0 < x_d -> length coef = x_d * length z ->
  row_effects x_d coef z = Ok (map (fun i => slope coef i z) (seq 0 x_d)).
Proof.
  intros Hz Hx Hl. unfold row_effects, reshape_k. assert (Hk : 0 < length z) by (destruct z; [easy|cbn; lia]).
  rewrite (proj2 (Nat.eqb_neq (length z) 0)) by lia. rewrite Hl, Nat.mod_mul by lia. cbn [Nat.eqb negb orb bind].
  assert (C : chunks (x_d * length z) (length z) coef = map (fun i => firstn (length z) (skipn (i * length z) coef)) (seq 0 x_d)).
  { apply (nth_ext _ _ [] []).
    - rewrite map_length, seq_length. apply (chunks_nth (length z) x_d Hk _ _ 0); auto; nia.
    - intros i Hi. assert (Hi' : i < x_d).
      { destruct (chunks_nth (length z) x_d Hk (x_d * length z) coef 0 Hl) as [E _]; [nia|lia|]. rewrite E in Hi. auto. }
      rewrite (nth_map_in _ _ 0 []) by (now rewrite seq_length). rewrite seq_nth by auto.
      apply (chunks_nth (length z) x_d Hk _ _ i); auto; nia. }
  rewrite C, map_map, map_length, seq_length, Nat.eqb_refl. f_equal. apply map_ext_in. intros i Hi. apply in_seq in Hi.
  unfold slope. rewrite dotr_sum.
  - apply rsum_ext. intros k Hk'. apply in_seq in Hk'. rewrite nth_firstn2 by lia. now rewrite nth_skipn2.
  - rewrite firstn_length, skipn_length, Hl. nia.
Qed.

(** the final model is linear in the treatment residuals, with the slopes as coefficients *)
Lemma kron_length x v : length (kron x v) = length x * length v.
Proof. unfold kron. induction x as [|a x IH]; cbn; auto. now rewrite app_length, map_length, IH. Qed.
Lemma linear_kron_gen coef z : forall x off,
  rsum (fun k => nth (off * length z + k) coef 0 * nth k (kron x z) 0)%R (seq 0 (length x * length z)) =
  rsum (fun i => nth i x 0 * slope coef (off + i) z)%R (seq 0 (length x)).
Proof.
  induction x as [|a x IH]; intros off; [reflexivity|].
  change (length (a :: x) * length z) with (length z + length x * length z). rewrite seq_app, rsum_app. cbn [Nat.add].
  change (length (a :: x)) with (S (length x)). rewrite rsum_S. f_equal.
  - unfold slope. rewrite <- rsum_scal. apply rsum_ext. intros k Hk. apply in_seq in Hk. rewrite Nat.add_0_r.
    unfold kron. cbn [flat_map]. rewrite app_nth1 by (rewrite map_length; lia). rewrite (nth_map_in _ _ 0%R 0%R) by lia.
    cbn [nth]. lra.
  - rewrite rsum_shift. etransitivity; [|etransitivity; [exact (IH (S off))|]].
    + apply rsum_ext. intros k _. f_equal; [f_equal; cbn; lia|]. unfold kron. cbn [flat_map]. fold (kron x z).
      rewrite app_nth2 by (rewrite map_length; lia). rewrite map_length. f_equal. lia.
    + apply rsum_ext. intros i _. cbn [nth]. now replace (off + S i) with (S off + i) by lia.
Qed.
Lemma linear_kron coef x z : linear_part coef (kron x z) = rsum (fun i => nth i x 0 * slope coef i z)%R (seq 0 (length x)).
Proof. unfold linear_part. rewrite kron_length. exact (linear_kron_gen coef z x 0). Qed.

(* ------------------------------------------------------------------------------------------------ *)
(** ** prepare *)

(** an object after a successful fit on training covariates V, with coefficients c *)
Definition ready (s : St) (c : list row) (y_d x_d v_d : nat) (V : list row) : Prop :=
  d_stage1 (snd s) = true /\ d_isf (snd s) = true /\ d_nx (snd s) = x_d /\ d_ny (snd s) = y_d /\
  d_tv (snd s) = Some V /\ d_named (snd s) = true /\ fst s (d_yx (snd s)) = Some c.

Definition data_rows (data : option (list row)) (V : list row) : list row := match data with Some d => d | None => V end.

Lemma dml_prepare_ok s c y_d x_d v_d V data :
  ready s c y_d x_d v_d V -> 0 < y_d -> 0 < x_d -> coef_shape c y_d x_d v_d ->
  Forall (fun r => length r = v_d) (data_rows data V) ->
  exists f, dml_prepare data s = (s, Ok (mkNd [length (data_rows data V); y_d; x_d] f)) /\
    forall r j i, r < length (data_rows data V) -> j < y_d -> i < x_d ->
      f [r; j; i] = slope (nth j c []) i (1%R :: nth r (data_rows data V) []).
Proof.
  intros (H1 & H2 & H3 & H4 & H5 & H6 & H7) Hy Hx [Hc1 Hc2] HV.
  unfold dml_prepare, mbind at 1. rewrite H1, H2. cbn [andb negb]. rewrite H3, H4, H5, H6, H7.
  assert (E : match data with Some d => Some d | None => Some V end = Some (data_rows data V)) by now destruct data.
  rewrite E. cbn [attr mlift]. unfold mbind at 1, attr at 1, mlift at 1. unfold mbind at 1, attr at 1, mlift at 1. cbn iota beta.
  set (D := data_rows data V) in *.
  pose (T := map (fun v => map (fun j => map (fun i => slope (nth j c []) i (with_one v)) (seq 0 x_d)) (seq 0 y_d)) D).
  assert (R : forall v j, In v D -> j < y_d -> row_effects x_d (nth j c []) (with_one v) =
                                                 Ok (map (fun i => slope (nth j c []) i (with_one v)) (seq 0 x_d))).
  { intros v j Hv Hj. apply row_effects_ok; [easy|auto|]. rewrite Forall_forall in HV, Hc2.
    rewrite (Hc2 (nth j c [])) by (apply nth_In; lia). unfold with_one. cbn [length]. now rewrite (HV v Hv). }
  assert (ET : (if 1 <? y_d
                then mapX (fun vn => mapX (fun j => match nth_error c j with Some c0 => row_effects x_d c0 vn | None => Err IndexError end) (seq 0 y_d)) (map with_one D)
                else mapX (fun vn => do r <- row_effects x_d (concat c) vn; Ok [r]) (map with_one D)) = Ok T).
  { unfold T. clear T E H5. clearbody D. destruct (1 <? y_d) eqn:Ey.
    - induction D as [|v D IH]; [reflexivity|]. cbn [map mapX]. rewrite IH; [|now inversion HV|intros; apply R; auto; now right].
      assert (EJ : forall js, (forall j, In j js -> j < y_d) ->
         mapX (fun j => match nth_error c j with Some c0 => row_effects x_d c0 (with_one v) | None => Err IndexError end) js =
         Ok (map (fun j => map (fun i => slope (nth j c []) i (with_one v)) (seq 0 x_d)) js)).
      { induction js as [|j js IJ]; intros Hj; [reflexivity|]. cbn [map mapX].
        destruct (nth_error c j) as [cj|] eqn:Ej; [|apply nth_error_None in Ej; specialize (Hj j (or_introl eq_refl)); lia].
        rewrite IJ by (intros; apply Hj; now right). rewrite <- (nth_error_nth _ _ [] Ej).
        rewrite R; [reflexivity|now left|apply Hj; now left]. }
      rewrite EJ by (intros j Hj; apply in_seq in Hj; lia). reflexivity.
    - apply Nat.ltb_ge in Ey. assert (y_d = 1) as -> by lia. destruct c as [|c0 [|? ?]]; try easy. cbn [concat]. rewrite app_nil_r.
      induction D as [|v D IH]; [reflexivity|]. cbn [map mapX]. rewrite IH; [|now inversion HV|intros; apply R; auto; now right].
      pose proof (R v 0 (or_introl eq_refl) ltac:(lia)) as R0. cbn [nth] in R0. rewrite R0. reflexivity. }
  unfold mbind, mlift. rewrite ET. unfold mret. eexists. split; [reflexivity|].
  intros r j i Hr Hj Hi. cbn [nth]. unfold T. rewrite (nth_map_in _ _ [] []) by auto.
  rewrite (nth_map_in _ _ 0 []) by (now rewrite seq_length). rewrite seq_nth by auto.
  rewrite (nth_map_in _ _ 0 0%R) by (now rewrite seq_length). rewrite seq_nth by auto. reflexivity.
Qed.

(* ------------------------------------------------------------------------------------------------ *)
(** ** fit *)

(** the first-stage predictions of one row: without cross fitting from the model fitted on all rows, with k folds from a
    model fitted on the rows outside a fold that contains the row *)
Definition first_stage (L : learner) (cf : nat) (wv t : list row) (d : nat) (h : nat -> nat -> R) : Prop :=
  if cf <=? 1
  then length wv = length t /\ exists m, l_fit L wv (target_nd d t) = Ok m /\ forall r j, h r j = row_pred L m (nth r wv []) j
  else let n := length t in
       forall r, r < n -> exists F m, fold_of n cf r F /\ ~ In r (outside n F) /\
         l_fit L (take_rows [] (outside n F) wv) (target_nd d (take_rows [] (outside n F) t)) = Ok m /\
         ((forall j, h r j = row_pred L m (nth r wv []) j) \/
          (l_dim L m = Some 1 /\ forall j, h r j = row_pred L m (nth r wv []) 0)).

Lemma fold_not_outside n k r F : fold_of n k r F -> ~ In r (outside n F).
Proof. intros [Hr _] Ho. apply filter_In in Ho as [_ Ho]. rewrite (proj2 (mem_In r F) Hr) in Ho. easy. Qed.

(** a loop over folds, row by row *)
Lemma folds_row {A} (step : list nat * list nat -> res (nat -> A)) n k folds out0 h r :
  kfold n k = Ok folds -> r < n ->
  fold_left (fun acc f => do o <- acc; do v <- step f; Ok (put_rows o (snd f) v)) folds (Ok out0) = Ok h ->
  exists F v pos, fold_of n k r F /\ ~ In r (outside n F) /\ nth_error F pos = Some r /\ step (outside n F, F) = Ok v /\ h r = v pos.
Proof.
  intros EK Hr H. pose proof (kfold_cover _ _ _ EK) as C.
  destruct (cross_loop step folds _ _ H ltac:(rewrite C; apply seq_NoDup)) as (vs & FV & G & _).
  destruct (kfold_row _ _ _ _ EK Hr) as (q & f & pos & Hq & Hp & Hf & _).
  destruct (kfold_fold _ _ _ _ _ EK Hf (nth_error_In _ _ Hp)) as [HF ET].
  destruct (nth_error vs q) as [v|] eqn:Ev.
  2:{ apply nth_error_None in Ev. rewrite <- (F2_length FV) in Ev. apply nth_error_None in Ev. congruence. }
  specialize (G q f v pos r Hq Ev Hp).
  assert (Hs : step f = Ok v).
  { assert (Lq : q < length folds) by (apply nth_error_Some; congruence).
    pose proof (@Forall2_nth _ _ _ _ _ f v FV q Lq) as S. rewrite (nth_error_nth _ _ f Hq), (nth_error_nth _ _ v Ev) in S. exact S. }
  exists (snd f), v, pos. split; auto. split; [now apply fold_not_outside with k|]. split; auto.
  destruct f as [f1 f2]. cbn [fst snd] in *. rewrite <- ET. auto.
Qed.

Lemma dml_cross_first L wv t d cf h : dml_cross L wv t d cf = Ok h -> first_stage L cf wv t d h.
Proof.
  unfold dml_cross, first_stage. intros H. destruct (cf <=? 1) eqn:Ec.
  - destruct (l_fit L wv _) as [m|] eqn:Em; [|easy]. cbn [bind] in H.
    destruct (as_n_yd _ _ _) as [p|] eqn:Ep; [|easy]. cbn [bind] in H. injection H as <-.
    assert (El : length wv = length t).
    { unfold as_n_yd, predict in Ep. destruct (l_dim L m); cbn [nd_shape] in Ep;
      destruct (Nat.eqb_spec (length wv) (length t)); auto; easy. }
    split; auto. exists m. split; auto. intros r j. rewrite <- El in Ep. apply as_n_yd_row in Ep as [_ Ep]. apply Ep.
  - destruct (kfold (length t) cf) as [folds|] eqn:EK; [|easy]. cbn [bind] in H. intros r Hr. set (n := length t) in *.
    set (step := fun f : list nat * list nat =>
      do m <- l_fit L (take_rows [] (fst f) wv) (target_nd d (take_rows [] (fst f) t));
      (let p := predict L m (take_rows [] (snd f) wv) in
               match l_dim L m with
               | None => if d =? 1 then Ok (fun r (j : nat) => nd_at p [r]) else Err ValueError
               | Some k => if d =? 1 then Err ValueError
                           else if k =? d then Ok (fun r j => nd_at p [r; j])
                           else if k =? 1 then Ok (fun r (j : nat) => nd_at p [r; 0]) else Err ValueError
               end)).
    assert (H' : fold_left (fun acc f => do o <- acc; do v <- step f; Ok (put_rows o (snd f) v)) folds (Ok (fun _ _ => 0%R)) = Ok h).
    { rewrite <- H. clear H. generalize (@Ok (nat -> nat -> R) (fun _ _ => 0%R)). clear EK.
      induction folds as [|f folds IH]; intros acc; cbn [fold_left]; auto. rewrite <- IH. f_equal.
      destruct acc as [o|]; cbn [bind]; auto. unfold step. destruct (l_fit L _ _) as [m|]; cbn [bind]; auto. }
    destruct (folds_row step _ _ _ _ _ _ EK Hr H') as (F & v & pos & HF & HN & Hp & Hs & Hv). fold n in HF, HN, Hs.
    unfold step in Hs. cbn [fst snd] in Hs. destruct (l_fit L _ _) as [m|] eqn:Em; [|easy]. cbn [bind] in Hs. cbn zeta in Hs.
    exists F, m. do 3 (split; [assumption|]). rewrite Hv. unfold predict in Hs. 
    destruct (l_dim L m) as [k|] eqn:Ek.
    + destruct (d =? 1); [easy|]. destruct (Nat.eqb_spec k d).
      * injection Hs as <-. left. intros j. cbn [nd_at nth]. unfold row_pred. rewrite Ek. now rewrite (take_rows_nth _ _ _ _ _ Hp).
      * destruct (Nat.eqb_spec k 1) as [->|]; [|easy]. injection Hs as <-. right. split; auto.
        intros j. cbn [nd_at nth]. unfold row_pred. rewrite Ek. now rewrite (take_rows_nth _ _ _ _ _ Hp).
    + destruct (d =? 1); [|easy]. injection Hs as <-. left. intros j. cbn [nd_at nth]. unfold row_pred. rewrite Ek.
      now rewrite (take_rows_nth _ _ _ _ _ Hp).
Qed.

(** attribute values after fit *)
Definition kept (new old : dtarg) : dtarg := match new with ANone => old | t => t end.

(** fit on a continuous treatment, whatever the object has been through *)
Lemma dml_fit_cont Lx Ly lin categories cf a x s s1 :
  m_x a = XCont x -> dml_fit Lx Ly lin categories cf a s = (s1, Ok tt) ->
  exists v wv xhat yhat c,
    m_v a = Some v /\ get_wv [m_w a; m_v a] = Ok wv /\
    first_stage Lx cf wv x (width x) xhat /\ first_stage Ly cf wv (m_y a) (width (m_y a)) yhat /\
    lin (x_prime x xhat v) (y_prime (m_y a) yhat) = Ok c /\
    s1 = (upd (d_yx (snd s)) c (fst s),
          mkDML (d_yx (snd s)) true true (d_encs (snd s)) (Some v) true (width x) (width (m_y a))
                (kept (k_treat a) (d_tr (snd s))) (kept (k_control a) (d_ct (snd s)))).
Proof.
  intros Ex H. destruct s as [h o]. unfold dml_fit in H.
  destruct (m_v a) as [v|] eqn:Ev.
  2:{ exfalso. destruct (m_w a) as [w|]; [|discriminate H].
      rewrite Ex in H. unfold mbind, obj_set, obj_get, mret, attr, mlift in H. cbn [fst snd] in H.
      destruct (get_wv _); [|discriminate H]. destruct (dml_cross Lx _ _ _ _); [|discriminate H].
      destruct (dml_cross Ly _ _ _ _); discriminate H. }
  assert (H' : (let s0 := (h, dml_nx (width x) (dml_begin a o)) in
     match get_wv [m_w a; Some v] with Ok wv =>
       match dml_cross Lx wv x (width x) cf with Ok xhat =>
         match dml_cross Ly wv (m_y a) (width (m_y a)) cf with Ok yhat =>
           match lin (x_prime x xhat v) (y_prime (m_y a) yhat) with Ok c =>
             ((upd (d_yx o) c h, dml_done (dml_stage1 (snd s0))), Ok tt)
           | Err e => ((h, dml_stage1 (snd s0)), Err e) end
         | Err e => (s0, Err e) end
       | Err e => (s0, Err e) end
     | Err e => (s0, Err e) end) = (s1, Ok tt)).
  { rewrite <- H. destruct (m_w a) as [w|]; rewrite Ex; unfold mbind, obj_set, obj_get, mret, attr, mlift; cbn [fst snd];
    (destruct (get_wv _); [|reflexivity]; destruct (dml_cross Lx _ _ _ _); [|reflexivity];
     destruct (dml_cross Ly _ _ _ _); [|reflexivity]; destruct (lin _ _); reflexivity). }
  clear H. cbn zeta in H'. destruct (get_wv _) as [wv|] eqn:Ew; [|discriminate H'].
  destruct (dml_cross Lx _ _ _ _) as [xhat|] eqn:E1; [|discriminate H'].
  destruct (dml_cross Ly _ _ _ _) as [yhat|] eqn:E2; [|discriminate H'].
  destruct (lin _ _) as [c|] eqn:E3; [|discriminate H'].
  exists v, wv, xhat, yhat, c. split; auto. split; auto. split; [now apply dml_cross_first|]. split; [now apply dml_cross_first|].
  split; auto. injection H' as <-. cbn [snd fst]. unfold dml_done, dml_stage1, dml_nx, dml_begin.
  cbn [d_yx d_isf d_stage1 d_encs d_tv d_named d_nx d_ny d_tr d_ct]. rewrite Ev.
  destruct (k_treat a), (k_control a); reflexivity.
Qed.

(** fit on a discrete treatment *)
Lemma dml_fit_disc Lx Ly lin categories cf a x s s1 :
  m_x a = XDisc x -> dml_fit Lx Ly lin categories cf a s = (s1, Ok tt) ->
  exists e z v wv xhat yhat c,
    sl_comp (d_isf (snd s)) x categories (d_encs (snd s)) = (e, Ok z) /\
    m_v a = Some v /\ get_wv [m_w a; m_v a] = Ok wv /\
    dml_cross_disc Lx wv z (width (to_rows z)) cf = Ok xhat /\ first_stage Ly cf wv (m_y a) (width (m_y a)) yhat /\
    lin (x_prime (to_rows z) xhat v) (y_prime (m_y a) yhat) = Ok c /\
    s1 = (upd (d_yx (snd s)) c (fst s),
          mkDML (d_yx (snd s)) true true e (Some v) true (width (to_rows z)) (width (m_y a))
                (kept (k_treat a) (d_tr (snd s))) (kept (k_control a) (d_ct (snd s)))).
Proof.
  intros Ex H. destruct s as [h o]. unfold dml_fit in H. cbn [fst snd].
  assert (Hob : d_isf (dml_begin a o) = d_isf o) by reflexivity.
  assert (Hoe : d_encs (dml_begin a o) = d_encs o) by reflexivity.
  destruct (sl_comp (d_isf o) x categories (d_encs o)) as [e [z|er]] eqn:Ez.
  2:{ exfalso. destruct (m_w a), (m_v a); try discriminate H;
      rewrite Ex in H; unfold mbind, obj_set, obj_get, mret, attr, mlift, dml_enc in H; cbn [fst snd] in H;
      rewrite Hob, Hoe, Ez in H; discriminate H. }
  destruct (m_v a) as [v|] eqn:Ev.
  2:{ exfalso. destruct (m_w a) as [w|]; [|discriminate H].
      rewrite Ex in H. unfold mbind, obj_set, obj_get, mret, attr, mlift, dml_enc in H. cbn [fst snd] in H.
      rewrite Hob, Hoe, Ez in H.
      destruct (get_wv _); [|discriminate H]. destruct (dml_cross_disc Lx _ _ _ _); [|discriminate H].
      destruct (dml_cross Ly _ _ _ _); discriminate H. }
  pose (o1 := let o := dml_begin a o in mkDML (d_yx o) (d_isf o) (d_stage1 o) e (d_tv o) (d_named o) (d_nx o) (d_ny o) (d_tr o) (d_ct o)).
  assert (H' : (let s0 := (h, dml_nx (width (to_rows z)) o1) in
     match get_wv [m_w a; Some v] with Ok wv =>
       match dml_cross_disc Lx wv z (width (to_rows z)) cf with Ok xhat =>
         match dml_cross Ly wv (m_y a) (width (m_y a)) cf with Ok yhat =>
           match lin (x_prime (to_rows z) xhat v) (y_prime (m_y a) yhat) with Ok c =>
             ((upd (d_yx o) c h, dml_done (dml_stage1 (snd s0))), Ok tt)
           | Err e => ((h, dml_stage1 (snd s0)), Err e) end
         | Err e => (s0, Err e) end
       | Err e => (s0, Err e) end
     | Err e => (s0, Err e) end) = (s1, Ok tt)).
  { rewrite <- H. destruct (m_w a) as [w|]; rewrite Ex; unfold mbind, obj_set, obj_get, mret, attr, mlift, dml_enc; cbn [fst snd];
    rewrite Hob, Hoe, Ez;
    (destruct (get_wv _); [|reflexivity]; destruct (dml_cross_disc Lx _ _ _ _); [|reflexivity];
     destruct (dml_cross Ly _ _ _ _); [|reflexivity]; destruct (lin _ _); reflexivity). }
  clear H. cbn zeta in H'. destruct (get_wv _) as [wv|] eqn:Ew; [|discriminate H'].
  destruct (dml_cross_disc Lx _ _ _ _) as [xhat|] eqn:E1; [|discriminate H'].
  destruct (dml_cross Ly _ _ _ _) as [yhat|] eqn:E2; [|discriminate H'].
  destruct (lin _ _) as [c|] eqn:E3; [|discriminate H'].
  exists e, z, v, wv, xhat, yhat, c. split; auto. split; auto. split; auto. split; auto. split; [now apply dml_cross_first|].
  split; auto. injection H' as <-. cbn [snd fst]. unfold dml_done, dml_stage1, dml_nx, o1, dml_begin. cbn zeta.
  cbn [d_yx d_isf d_stage1 d_encs d_tv d_named d_nx d_ny d_tr d_ct]. rewrite Ev.
  destruct (k_treat a), (k_control a); reflexivity.
Qed.

(** fit fails whenever there is no covariate *)
Lemma dml_fit_no_covariate Lx Ly lin categories cf a s : m_v a = None ->
  exists s1 er, dml_fit Lx Ly lin categories cf a s = (s1, Err er).
Proof.
  intros Ev. destruct (dml_fit Lx Ly lin categories cf a s) as [s1 [[]|er]] eqn:E; [|eauto].
  destruct (m_x a) as [x|x] eqn:Ex.
  - destruct (dml_fit_cont _ _ _ _ _ _ _ _ _ Ex E) as (v & _ & _ & _ & _ & H & _). congruence.
  - destruct (dml_fit_disc _ _ _ _ _ _ _ _ _ Ex E) as (_ & _ & v & _ & _ & _ & _ & _ & H & _). congruence.
Qed.
