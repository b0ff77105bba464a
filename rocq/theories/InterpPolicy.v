(** PolicyInterpreter: lemmas from fit to interpret. *)
From Coq Require Import ZArith Reals Lra String FunctionalExtensionality.
From Verif Require Import Base EstUtilsModel MetaProofs TreeCritModel TreeCritProps SplitterModel SplitterSpec TreeSpec SplitterProofs CritOk TreeProps
  BestFirstModel BestFirstProofs BestFirstShape BestFirstProps PolicyModel PolicyProps RlossModel InterpModel InterpSpec InterpProofs.
Set Implicit Arguments.
Local Notation length := List.length.
Local Open Scope nat_scope.

(** *** decision_path and apply on all rows *)
Lemma paths_ok nodes m rows : (forall x, exists p, tree_path nodes x = Ok p /\ length p <= 1 + m) ->
  exists ps, decision_path nodes m rows = Ok ps /\ length ps = length rows /\
    forall i x, nth_error rows i = Some x -> tree_path nodes x = Ok (nth i ps []).
Proof.
  intros P.
  assert (G : forall rows acc, exists ps,
    fold_left (fun acc x => do l <- acc ; do p <- tree_path nodes x ; Ok (l ++ [p])) rows (Ok acc) = Ok (acc ++ ps) /\
    length ps = length rows /\ length (List.concat ps) <= length rows * (1 + m) /\
    forall i x, nth_error rows i = Some x -> tree_path nodes x = Ok (nth i ps [])).
  { clear rows. induction rows as [|x rows IH]; intros acc.
    - exists []. cbn. rewrite app_nil_r. split; [auto|]. split; [auto|]. split; [lia|]. intros [|k] x; discriminate.
    - destruct (P x) as (p & Ep & Lp). cbn [fold_left]. rewrite Ep. cbn [bind].
      destruct (IH (acc ++ [p])) as (ps & E1 & E2 & E3 & E4). exists (p :: ps). rewrite E1, <- app_assoc. cbn [app].
      split; [auto|]. split; [cbn; lia|]. split.
      + cbn [List.concat length]. rewrite app_length. lia.
      + intros [|k] y Hy; cbn in Hy |- *; [injection Hy as <-; auto|auto]. }
  destruct (G rows []) as (ps & E1 & E2 & E3 & E4). exists ps. unfold decision_path. rewrite E1. cbn [bind app].
  apply Nat.leb_le in E3. rewrite E3. auto.
Qed.

Lemma applies_ok nodes rows : (forall x, exists p, tree_path nodes x = Ok p) ->
  exists ls, mapX (tree_apply nodes) rows = Ok ls /\ length ls = length rows /\
    forall i x, nth_error rows i = Some x -> tree_apply nodes x = Ok (nth i ls 0).
Proof.
  intros P. induction rows as [|x rows (ls & E & L & H)].
  - exists []. split; [reflexivity|]. split; [reflexivity|]. intros [|i] x; discriminate.
  - destruct (P x) as (p & Hp). destruct (tree_path_apply _ _ Hp) as (_ & j & _ & A & _).
    exists (j :: ls). cbn [mapX]. rewrite A, E. cbn [bind]. split; [reflexivity|]. split; [cbn; lia|].
    intros [|i] y Hy; cbn in Hy |- *; [injection Hy as <-; auto|auto].
Qed.

Lemma all_lines_nth nodes v leaves paths i x : nth_error v i = Some x ->
  nth i (all_lines nodes v leaves paths) [] = row_lines nodes i x (nth i leaves 0) (nth i paths []).
Proof.
  intros H. assert (Hi : i < length v) by (apply nth_error_Some; congruence). unfold all_lines.
  rewrite (nth_indep _ [] (row_lines nodes 0 (nth 0 v (fun _ => 0%R)) (nth 0 leaves 0) (nth 0 paths []))) by (rewrite map_length, seq_length; auto).
  rewrite (map_nth (fun i => row_lines nodes i (nth i v (fun _ => 0%R)) (nth i leaves 0) (nth i paths []))). rewrite seq_nth by auto. cbn [plus].
  now rewrite (nth_error_nth _ _ (fun _ => 0%R) H).
Qed.

Lemma nth_error_mapseq {A} (f : nat -> A) n i y : nth_error (map f (seq 0 n)) i = Some y -> i < n /\ y = f i.
Proof.
  intros H. assert (Hi : i < n). { assert (i < length (map f (seq 0 n))) by (apply nth_error_Some; congruence). now rewrite map_length, seq_length in *. }
  split; [auto|]. rewrite nth_error_map in H.
  rewrite (nth_error_nth' (seq 0 n) 0) in H by now rewrite seq_length. rewrite seq_nth in H by auto. cbn in H. congruence.
Qed.

Lemma cast_idem f32 rows : (forall x, f32 (f32 x) = f32 x) -> cast f32 (cast f32 rows) = cast f32 rows.
Proof. intros H. unfold cast. rewrite map_map. apply map_ext. intros r. apply functional_extensionality. intros f. apply H. Qed.

Section Fit.
Variables (Frame Names : Type).
Variable cols : Frame -> Names -> list (nat -> R).
Variable f32 : R -> R.
Notation fit := (pt_fit cols f32).
Notation pX := (pt_X f32).

Lemma counted_all mln n : counted mln None n = seq 0 n.
Proof.
  unfold counted. apply filter_all. intros i _. unfold weight_of. destruct mln; destruct (Req_EM_T 1 0); auto; lra.
Qed.

(** the trees of pt_fit without weights *)
Lemma fit_binary prev cn e g pick mln df cov src out ce n_ce nf p :
  sane e -> takes_largest pick -> 1 <= g_min_samples_leaf g -> (forall m, mln = Some m -> 1 <= m) ->
  fit prev cn e g pick mln df cov src out ce n_ce None nf = Ok p -> pt_v p <> [] ->
  binary_tree (b_nodes (pt_tree p)) (map (pX (pt_v p)) (seq 0 (length (pt_v p)))) /\
  forall x, exists q, tree_path (b_nodes (pt_tree p)) x = Ok q /\ length q <= 1 + b_max (pt_tree p).
Proof.
  intros He Hp Hm HM E Hv. unfold pt_fit in E. destruct (pt_covariates cols prev df cov src) as [[c v] t] eqn:Ec.
  destruct (n_ce =? length v); cbn [negb] in E; [|discriminate].
  destruct (pt_build _ _ _ _ _ _ _ _ _) as [b|] eqn:Eb; [|discriminate]. cbn [bind] in E. injection E as <-.
  cbn [pt_v pt_tree] in *. set (n := length v). assert (Hn : 1 <= n) by (unfold n; destruct v; [congruence|cbn; lia]).
  set (d0 := pt_data out ce None) in *.
  assert (K : kept_samples d0 n = seq 0 n).
  { pose proof (@counted_kept None None out ce n) as Q. cbn [seen_data] in Q. rewrite counted_all in Q. exact Q. }
  assert (KN : kept_samples d0 n <> []) by (rewrite K; destruct n; [lia|discriminate]).
  assert (FIN : (forall x, exists q, tree_path (b_nodes b) x = Ok q /\ length q <= 1 + b_max b) ->
     (forall j nd, nth_error (b_nodes b) j = Some nd -> passing (b_nodes b) (pX v) j (seq 0 n) <> []) ->
     length (b_nodes b) + 1 = 2 * n_leaves (b_nodes b) ->
     binary_tree (b_nodes b) (map (pX v) (seq 0 n)) /\ forall x, exists q, tree_path (b_nodes b) x = Ok q /\ length q <= 1 + b_max b).
  { intros P1 P2 P3. split; [|auto]. constructor; auto.
    - intros x. destruct (P1 x) as (q & Q & _). eauto.
    - intros j Hj. destruct (nth_error (b_nodes b) j) as [nd|] eqn:Ej; [|apply nth_error_None in Ej; lia].
      specialize (P2 j nd Ej). destruct (passing (b_nodes b) (pX v) j (seq 0 n)) as [|i s] eqn:Ep; [congruence|].
      assert (Hi : In i (passing (b_nodes b) (pX v) j (seq 0 n))) by (rewrite Ep; now left).
      unfold passing in Hi. apply filter_In in Hi. destruct Hi as [Hi Hb].
      destruct (tree_path (b_nodes b) (pX v i)) as [q|] eqn:Eq; [|discriminate]. apply existsb_exists in Hb. destruct Hb as (y & Hy & Ey).
      apply Nat.eqb_eq in Ey. subst y. exists (pX v i), q. split; [now apply in_map|auto]. }
  unfold pt_build in Eb.
  assert (G : forall C (cr : crit C (nat -> R)) sp, computes d0 (weighted_n d0 n) cr sp ->
     grow cr e g (pX v) d0 n nf = Ok b ->
     binary_tree (b_nodes b) (map (pX v) (seq 0 n)) /\ forall x, exists q, tree_path (b_nodes b) x = Ok q /\ length q <= 1 + b_max b).
  { intros C cr sp Hc Eg. apply FIN.
    - destruct (@C91_depth _ _ cr sp e g (pX v) d0 n nf b Hc He Hm KN Eg) as (_ & P & _). exact P.
    - intros j nd Hj. rewrite <- K. now destruct (@C91_nodes _ _ cr sp e g (pX v) d0 n nf b Hc He Hm KN Eg j nd Hj) as (P & _).
    - exact (@C91_leaves _ _ cr sp e g (pX v) d0 n nf b Hc He Hm KN Eg). }
  assert (G' : forall C (mk : data -> crit C (nat -> R)) sp m, let u := without_weights d0 in
     computes u (weighted_n u n) (mk u) sp -> mln = Some m ->
     bf_grow mk e g pick m (pX v) d0 n nf = Ok b ->
     binary_tree (b_nodes b) (map (pX v) (seq 0 n)) /\ forall x, exists q, tree_path (b_nodes b) x = Ok q /\ length q <= 1 + b_max b).
  { intros C mk sp m u Hc Hn' Eg. specialize (HM m Hn'). apply FIN.
    - destruct (@C97_depth _ _ mk sp e g pick m (pX v) d0 n nf b Hc He Hp Hm Hn HM Eg) as (_ & P & _). exact P.
    - intros j nd Hj. now destruct (@C97_nodes _ _ mk sp e g pick m (pX v) d0 n nf b Hc He Hp Hm Hn HM Eg j nd Hj) as (P & _).
    - destruct (@C97_max_leaf_nodes _ _ mk sp e g pick m (pX v) d0 n nf Hc He Hp Hm Hn HM) as (b' & E' & _ & P & _). congruence. }
  destruct mln as [m|]; destruct cn.
  - eapply G'; [|reflexivity|exact Eb]; constructor; constructor.
  - eapply G'; [|reflexivity|exact Eb]; constructor; constructor.
  - eapply G'; [|reflexivity|exact Eb]; apply co_preg1.
  - eapply G; [|exact Eb]; constructor; constructor.
  - eapply G; [|exact Eb]; constructor; constructor.
  - eapply G; [|exact Eb]; apply co_preg1.
Qed.
End Fit.

Section Interp.
Variables (Frame Names T : Type).
Variable cols : Frame -> Names -> list (nat -> R).
Variable eff_cols : Frame -> Names -> effects.
Variable f32 : R -> R.
Variable ncov : Names -> nat.
Notation fit := (@pi_fit Frame Names T cols eff_cols f32 ncov).
Notation rows_of_query := (rows_of_query cols f32).

Lemma pi_fit_inv cf o a o' : fit cf o a = (o', Ok tt) ->
  exists c src ce nf p, named_cov a = Some c /\ the_effects eff_cols a = Some ce /\ pi_source eff_cols ncov a c = Ok (src, ce, nf) /\
    pt_fit cols f32 None (cf_crit cf) (cf_env cf) (cf_set cf) (cf_pick cf) (cf_mln cf) (pa_data a) c src
           (ef_out ce) (ef_ce ce) (ef_n ce) None nf = Ok p /\
    o' = mkPI true (Some c) (Some p) (pa_names a) /\ forall q, pt_features cols f32 p q = rows_of_query a q.
Proof.
  unfold pi_fit. intros H.
  set (cv := match pa_cov a with Some c => Ok (Some c) | None => match pa_est a with Some m => Ok (es_cov m) | None => Err AttributeError end end) in H.
  assert (NC : forall c, cv = Ok (Some c) -> named_cov a = Some c).
  { unfold cv, named_cov. intros c. destruct (pa_cov a); [congruence|]. destruct (pa_est a); congruence. }
  destruct cv as [[c|]|]; [|now inversion H|now inversion H]. specialize (NC c eq_refl).
  destruct (match pa_est a with Some m => negb (es_fitted m) | None => false end); [now inversion H|].
  destruct (pi_source eff_cols ncov a c) as [[[src ce] nf]|] eqn:Es; [|now inversion H].
  destruct (pt_fit _ _ _ _ _ _ _ _ _ _ _ _ _ _ _) as [p|] eqn:Ef; [|now inversion H]. injection H as <-.
  exists c, src, ce, nf, p. split; [auto|].
  assert (CASES : (own_effects a = true /\ src = Given /\ the_effects eff_cols a = Some ce) \/
            (own_effects a = false /\ exists m c', pa_est a = Some m /\ es_cov m = Some c' /\ src = FromModel c' (option_map snd (es_trans m)) /\
               the_effects eff_cols a = Some ce)).
  { unfold pi_source in Es. unfold own_effects, the_effects. destruct (pa_array a) as [ar|]; [injection Es as <- <- <-; auto|].
    destruct (pa_effect a) as [en|]; [injection Es as <- <- <-; auto|]. right. split; [auto|].
    destruct (pa_est a) as [m|]; [|discriminate]. destruct (negb (es_fitted m)); [discriminate|].
    destruct (es_cov m) as [c'|] eqn:Ec; [|discriminate]. injection Es as <- <- <-. exists m, c'. auto. }
  split; [destruct CASES as [(_ & _ & Q)|(_ & ? & ? & _ & _ & _ & Q)]; exact Q|]. split; [auto|]. split; [auto|]. split; [auto|].
  intros q. unfold pt_fit in Ef. destruct (pt_covariates cols None (pa_data a) c src) as [[c1 v1] t1] eqn:Ev.
  destruct (negb _); [discriminate|]. destruct (pt_build _ _ _ _ _ _ _ _ _); [|discriminate]. cbn [bind] in Ef. injection Ef as <-.
  unfold pt_features. cbn [pt_v pt_trans pt_cov]. unfold InterpSpec.rows_of_query, rows_of_frame.
  destruct CASES as [(-> & -> & _)|(-> & m & c' & -> & Ec & -> & _)].
  - cbn [pt_covariates] in Ev. injection Ev as <- <- <-. rewrite NC. now destruct q.
  - rewrite Ec. cbn [pt_covariates] in Ev. destruct (es_trans m) as [[k t]|]; cbn [option_map snd] in Ev; injection Ev as <- <- <-; now destruct q.
Qed.

(** everything about a run of interpret, decide and predict *)
Lemma interp_run cf o a o' ce : sane (cf_env cf) -> takes_largest (cf_pick cf) -> 1 <= g_min_samples_leaf (cf_set cf) ->
  (forall m, cf_mln cf = Some m -> 1 <= m) -> (forall x, f32 (f32 x) = f32 x) -> cf_crit cf = PolicyReg ->
  fit cf o a = (o', Ok tt) -> the_effects eff_cols a = Some ce -> 2 <= ef_out ce -> rows_of_query a None <> [] ->
  exists nodes, binary_tree nodes (rows_of_query a None) /\ forall q, exists es pr,
    pi_interpret cols f32 cf o' q = Ok es /\ length es = length (rows_of_query a q) /\
    (pi_decide cols f32 cf o' q = match pa_names a with
       | None => Ok (Numbers (map ex_treat es))
       | Some names => do l <- mapX (fun k => match nth_error names k with Some t => Ok t | None => Err IndexError end) (map ex_treat es); Ok (Named l)
       end) /\
    pi_predict cols f32 cf o' q = Ok (Mat pr) /\ length pr = length es /\
    forall i e, nth_error es i = Some e -> exists x p leaf r,
      nth_error (rows_of_query a q) i = Some x /\ tree_path nodes x = Ok p /\ tree_apply nodes x = Ok leaf /\
      ex_lines e = row_lines nodes i x leaf p /\ nth_error pr i = Some r /\ length r = ef_out ce /\ ex_value e = nth (ex_treat e) r 0%R /\
      let s := filter (fun i => match tree_apply nodes (nth i (rows_of_query a None) (fun _ => 0%R)) with Ok k => k =? leaf | Err _ => false end)
                      (seq 0 (length (rows_of_query a None))) in
      let m k := mean (fun r => ef_ce ce r k) s in
      s <> [] /\ ex_treat e < ef_out ce /\ ex_value e = m (ex_treat e) /\ (forall k, k < ef_out ce -> nth k r 0%R = m k /\ (m k <= m (ex_treat e))%R) /\
      (forall k, k < ex_treat e -> (m k < m (ex_treat e))%R).
Proof.
  intros He Hp Hm HM Hf Hc E Hce Ho Hr.
  destruct (pi_fit_inv _ _ _ E) as (c & src & ce' & nf & p & NC & Hce' & _ & Ef & -> & FT).
  assert (ce' = ce) as -> by congruence. clear Hce'. rewrite Hc in Ef.
  assert (Lv : cast f32 (pt_v p) = rows_of_query a None) by (rewrite <- FT; reflexivity).
  assert (Hv : pt_v p <> []) by (intros Z; rewrite Z in Lv; cbn in Lv; congruence).
  destruct (@fit_binary Frame Names cols f32 _ _ _ _ _ _ _ _ _ _ _ _ _ _ He Hp Hm HM Ef Hv) as [BT PL].
  set (n := length (pt_v p)) in *. set (b := pt_tree p) in *.
  assert (XV : forall i, i < n -> pt_X f32 (pt_v p) i = nth i (rows_of_query a None) (fun _ => 0%R)).
  { intros i Hi. rewrite <- Lv. unfold cast. rewrite (nth_indep _ _ ((fun r f => f32 (r f)) (fun _ => 0%R))) by (rewrite map_length; auto).
    now rewrite (map_nth (fun r f => f32 (r f))). }
  assert (LN : length (rows_of_query a None) = n) by (rewrite <- Lv; unfold cast; now rewrite map_length).
  assert (TR : map (pt_X f32 (pt_v p)) (seq 0 n) = rows_of_query a None).
  { apply nth_ext with (d := pt_X f32 (pt_v p) 0) (d' := fun _ => 0%R); [rewrite map_length, seq_length; auto|].
    intros i Hi. rewrite map_length, seq_length in Hi. rewrite map_nth, seq_nth by auto. apply XV. auto. }
  rewrite TR in BT.
  assert (CA : counted (cf_mln cf) None n = seq 0 n) by apply counted_all.
  assert (CN : counted (cf_mln cf) None n <> []) by (rewrite CA; unfold n; destruct (pt_v p); [congruence|discriminate]).
  assert (W : forall i, i < n -> (0 <= weight_of (cf_mln cf) None i)%R) by (intros; unfold weight_of; destruct (cf_mln cf); lra).
  exists (b_nodes b). split; [auto|]. intros q.
  destruct (@C100_best_treatment Frame Names cols f32 None _ _ _ _ _ _ _ _ _ _ None _ _ q He Hp Hm HM Ef W CN Ho) as (ks & Ek & Lk & Bk).
  destruct (@C101_opt_effect_partial Frame Names cols f32 None _ _ _ _ _ _ _ _ _ _ None _ _ q He Hp Hm HM Ef CN Ho) as (pr & ks' & Epr & Ek' & Bpr).
  assert (ks' = ks) as -> by congruence. clear Ek'.
  destruct (@C101_opt_effect_refuted Frame Names cols f32 None _ _ _ _ _ _ _ _ _ _ None _ _ q He Hp Hm HM Ef CN Ho) as (pr' & Epr' & Lpr & Wpr).
  assert (pr' = pr) as -> by congruence. clear Epr'.
  rewrite !FT in *. set (rows := rows_of_query a q) in *.
  assert (CI : cast f32 rows = rows) by (unfold rows, InterpSpec.rows_of_query, rows_of_frame; now apply cast_idem).
  destruct (@paths_ok (b_nodes b) (b_max b) rows PL) as (ps & Eps & Lps & Hps).
  destruct (@applies_ok (b_nodes b) rows) as (ls & Els & Lls & Hls). { intros x. destruct (PL x) as (u & Hu & _). eauto. }
  assert (AK : argmax1 (Mat pr) = Ok ks).
  { unfold predict_ind in Ek. unfold predict_opt_effect in Epr. rewrite Epr in Ek. exact Ek. }
  assert (NE : existsb (fun r : list R => match r with [] => true | _ => false end) pr = false).
  { unfold argmax1 in AK. destruct (existsb _ pr); [discriminate|auto]. }
  assert (KS : ks = map argmax pr) by (unfold argmax1 in AK; rewrite NE in AK; congruence).
  assert (MX : max1 (Mat pr) = Ok (map max_of pr)) by (unfold max1; now rewrite NE).
  exists (map (fun i => mkExp (nth i (all_lines (b_nodes b) rows ls ps) []) (nth i ks 0) (nth i (map max_of pr) 0%R)) (seq 0 (length rows))), pr.
  split.
  { unfold pi_interpret, pi_ready. cbn [pi_fitted pi_tree bind]. rewrite FT. fold rows. rewrite Hc, Epr. cbn [bind]. rewrite MX, AK. cbn [bind].
    fold b. rewrite CI, Eps, Els. cbn [bind]. reflexivity. }
  split; [now rewrite map_length, seq_length|].
  assert (ET : map ex_treat (map (fun i => mkExp (nth i (all_lines (b_nodes b) rows ls ps) []) (nth i ks 0) (nth i (map max_of pr) 0%R)) (seq 0 (length rows))) = ks).
  { rewrite map_map. cbn [ex_treat]. apply nth_ext with (d := nth 0 ks 0) (d' := 0); [rewrite map_length, seq_length; auto|].
    intros i Hi. rewrite map_length, seq_length in Hi. rewrite (map_nth (fun i => nth i ks 0)), seq_nth by auto. reflexivity. }
  split. { unfold pi_decide, pi_ready. cbn [pi_fitted pi_tree bind pi_names]. rewrite Hc, Ek. cbn [bind]. rewrite ET. destruct (pa_names a); reflexivity. }
  split. { unfold pi_predict, pi_ready. cbn [pi_fitted pi_tree bind]. rewrite Hc. exact Epr. }
  split; [rewrite map_length, seq_length; auto|].
  intros i e Hi. apply nth_error_mapseq in Hi. destruct Hi as [Hi ->]. cbn [ex_lines ex_treat ex_value].
  destruct (nth_error rows i) as [x|] eqn:Ex; [|apply nth_error_None in Ex; lia].
  destruct (nth_error ks i) as [k|] eqn:Eki; [|apply nth_error_None in Eki; lia].
  destruct (nth_error pr i) as [r|] eqn:Er; [|apply nth_error_None in Er; lia].
  destruct (Bk i k Eki) as (B1 & x1 & j & B2 & B3 & B4 & B5 & B6). assert (x1 = x) as -> by congruence. fold b in B3, B4, B5, B6.
  assert (Ki : nth i ks 0 = k) by now apply nth_error_nth. rewrite Ki.
  assert (kr : k = argmax r).
  { rewrite KS in Eki. rewrite nth_error_map, Er in Eki. cbn in Eki. congruence. }
  assert (Lr : length r = ef_out ce) by (apply Wpr; eapply nth_error_In; eauto).
  assert (Vi : nth i (map max_of pr) 0%R = nth k r 0%R).
  { assert (Q : nth_error (map max_of pr) i = Some (max_of r)) by (rewrite nth_error_map, Er; reflexivity).
    rewrite (nth_error_nth _ _ 0%R Q). unfold max_of. now rewrite kr. }
  exists x, (nth i ps []), j, r. split; [auto|]. split; [apply Hps; auto|]. split; [auto|]. split.
  { rewrite (@all_lines_nth _ _ _ _ _ _ Ex). f_equal. specialize (Hls i x Ex). congruence. }
  split; [auto|]. split; [auto|]. split; [auto|]. cbv zeta.
  set (s := filter _ _).
  assert (ES : samples_at (b_nodes b) (pt_X f32 (pt_v p)) j (counted (cf_mln cf) None n) = s).
  { unfold samples_at, s. fold n in CA. rewrite CA, LN. apply filter_ext_in. intros i' Hi'. apply in_seq in Hi'. rewrite XV by lia. reflexivity. }
  fold n in B4, B5, B6. cbv zeta in B4, B5, B6. rewrite ES in B4, B5, B6.
  assert (TOT : forall k', total (cf_mln cf) None (ef_ce ce) s k' = (mean (fun r => ef_ce ce r k') s * INR (length s))%R).
  { intros k'. unfold mean, total. assert (0 < length s) by (destruct s; [congruence|cbn; lia]). apply lt_INR in H. cbn [INR] in H.
    field_simplify; [|lra]. unfold Rsum. f_equal. apply map_ext. intros i'. unfold weight_of. destruct (cf_mln cf); ring. }
  assert (PS : (0 < INR (length s))%R) by (apply lt_0_INR; destruct s; [congruence|cbn; lia]).
  (* the values of the leaf *)
  assert (RV : forall k', k' < ef_out ce -> nth k' r 0%R = mean (fun r => ef_ce ce r k') s).
  { assert (FT' : tree_predict (fun _ => 0%R) b x = Ok (wmean (seen_data (cf_mln cf) (pt_data (ef_out ce) (ef_ce ce) None)) s)).
    { pose proof (@fit_tree Frame Names cols f32 None PolicyReg _ _ _ _ _ _ _ _ _ _ None _ _ He Hp Hm HM Ef) as F. cbv zeta in F.
      rewrite counted_kept in F. destruct (F CN) as (_ & _ & F'). destruct (F' x) as (j' & J1 & J2 & _).
      fold b in J1, J2. assert (j' = j) as -> by congruence. fold n in J2. rewrite ES in J2. exact J2. }
    assert (PT : exists vs, tree_predicts b rows = Ok vs /\ pr = map (fun v => map v (seq 0 (ef_out ce))) vs).
    { unfold predict_opt_effect, pt_prepare in Epr. rewrite FT in Epr. fold rows b in Epr. destruct (tree_predicts b rows) as [vs|]; [|discriminate].
      cbn [bind] in Epr. assert (Po : pt_out p = ef_out ce).
      { pose proof (@fit_tree Frame Names cols f32 None PolicyReg _ _ _ _ _ _ _ _ _ _ None _ _ He Hp Hm HM Ef) as F. cbv zeta in F.
        rewrite counted_kept in F. now destruct (F CN) as (_ & F2 & _). }
      rewrite Po in Epr. destruct (Nat.eqb_spec (ef_out ce) 1); [lia|]. exists vs. split; [auto|congruence]. }
    destruct PT as (vs & Evs & ->). destruct (@tree_predicts_ok b rows) as (vs' & Evs' & Lvs & Hvs).
    { intros y. pose proof (@fit_tree Frame Names cols f32 None PolicyReg _ _ _ _ _ _ _ _ _ _ None _ _ He Hp Hm HM Ef) as F. cbv zeta in F.
      rewrite counted_kept in F. destruct (F CN) as (_ & _ & F'). destruct (F' y) as (j' & _ & J2 & _). eauto. }
    assert (vs' = vs) as -> by congruence. rewrite nth_error_map in Er. destruct (nth_error vs i) as [v|] eqn:Ev; [|discriminate].
    cbn in Er. injection Er as <-. destruct (Hvs i v Ev) as (y & Ey & Py). assert (y = x) as -> by congruence. rewrite FT' in Py. injection Py as <-.
    intros k' Hk'. set (w := wmean _ s). rewrite (nth_indep _ 0%R (w 0)) by (rewrite map_length, seq_length; auto).
    rewrite map_nth, seq_nth by auto. cbn [plus]. unfold w, wmean. rewrite total_wy by auto.
    assert (WS : w_sum (seen_data (cf_mln cf) (pt_data (ef_out ce) (ef_ce ce) None)) s = INR (length s)).
    { unfold w_sum. clear. induction s as [|i s IH]; [reflexivity|]. cbn [map Rsum fold_right]. change (fold_right Rplus 0%R ?l) with (Rsum l). rewrite IH.
      rewrite weight_wt. cbn [length]. rewrite S_INR. unfold weight_of. destruct (cf_mln cf); lra. }
    rewrite WS, TOT. field. lra. }
  split; [auto|]. split; [auto|]. split; [rewrite Vi; apply RV; auto|]. split.
  - intros k' Hk'. split; [auto|]. specialize (B5 k' Hk'). rewrite !TOT in B5. eapply Rmult_le_reg_r; eauto.
  - intros k' Hk'. specialize (B6 k' Hk'). rewrite !TOT in B6. eapply Rmult_lt_reg_r; eauto.
Qed.
End Interp.
