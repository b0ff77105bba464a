(** C118, C120-C125: what fitting and estimating with DoublyRobust compute. *)
From Coq Require Import ZArith Reals Lra.
From Verif Require Import Base ApiModel EstUtilsModel EstUtilsProps MetaModel MetaSpec MetaProofs MetaProps MetaRefit MetaT MetaX
  CrossFitModel CrossFitProofs DrModel DrProofs DrSpec.
Local Notation length := List.length.
Local Notation concat := List.concat.

(** the probability of class number i for one row *)
Definition row_prob (L : learner) (m : Mdl L) (x : row) (i : nat) : R := nth i (l_proba L m x) 0%R.

(** predictions of the model have the shape of y_d outcomes *)
Definition outputs (L : learner) (y_d : nat) (m : Mdl L) : Prop :=
  (l_dim L m = None /\ y_d = 1) \/ l_dim L m = Some y_d.

(** [m] was fitted to [v] with, at every row r < n and outcome j, the target f r j *)
Definition fitted_to (L : learner) (v : list row) (n y_d : nat) (f : nat -> nat -> R) (m : Mdl L) : Prop :=
  exists g, (forall r j, r < n -> g r j = f r j) /\ l_fit L v (effect_target n y_d g) = Ok m.

Lemma as_n_yd_predict L y_d m X : outputs L y_d m ->
  exists b, as_n_yd (length X) y_d (predict L m X) = Ok b.
Proof.
  intros [[E ->]|E]; unfold as_n_yd, predict; rewrite E; cbn [nd_shape]; rewrite !Nat.eqb_refl; cbn; eauto.
Qed.
Lemma as_n_yd_row L y_d m X b : as_n_yd (length X) y_d (predict L m X) = Ok b ->
  nd_shape b = [length X; y_d] /\ forall r j, nd_at b [r; j] = row_pred L m (nth r X []) j.
Proof. intros H. apply as_n_yd_inv in H as [H1 H2]. split; auto. intros r j. now rewrite H2, out_at_predict. Qed.

Lemma mapX_total {X Y} (f : X -> res Y) l : (forall x, In x l -> exists y, f x = Ok y) -> exists ys, mapX f l = Ok ys.
Proof.
  induction l as [|x l IH]; intros H; [exists []; reflexivity|]. destruct (H x (or_introl eq_refl)) as (y & E).
  destruct IH as (ys & Es); [intros z Hz; apply H; now right|]. exists (y :: ys). cbn. now rewrite E, Es.
Qed.

Lemma dr_cross_x_one Lx wv label x_d cf p : cf <= 1 -> dr_cross_x Lx wv label x_d cf = Ok p ->
  exists m, l_fit Lx wv (nd_vec label) = Ok m /\ n_classes Lx m = x_d /\ forall r i, p r i = row_prob Lx m (nth r wv []) i.
Proof.
  intros Hc H. unfold dr_cross_x in H. rewrite (proj2 (Nat.leb_le cf 1) Hc) in H.
  destruct (l_fit Lx wv _) as [m|]; [|easy]. cbn [bind] in H. destruct (Nat.eqb_spec (n_classes Lx m) x_d); [|easy].
  injection H as <-. exists m. auto.
Qed.
Lemma dr_cross_y_one Ly wvx y x_d cf h : cf <= 1 -> dr_cross_y Ly wvx y x_d cf = Ok h ->
  exists m, l_fit Ly wvx (squeeze (nd_rows y)) = Ok m /\
    forall r j i, r < length wvx -> i < x_d ->
      h r j i = row_pred Ly m (firstn (length (nth r wvx []) - x_d) (nth r wvx []) ++ repeat 0%R x_d) j.
Proof.
  intros Hc H. unfold dr_cross_y in H. rewrite (proj2 (Nat.leb_le cf 1) Hc) in H.
  destruct (l_fit Ly wvx _) as [m|]; [|easy]. cbn [bind] in H. exists m. split; auto. intros r j i. now apply yw_predict_spec with (1 := H).
Qed.

Lemma at_treat_ok a n y x q : nd_shape a = [n; y; x] -> q < x ->
  at_treat (Z.of_nat q) a = Ok (mkNd [n; y] (fun idx => nd_at a [nth 0 idx 0; nth 1 idx 0; q])).
Proof.
  intros E H. unfold at_treat. rewrite E. rewrite (proj2 (Z.leb_le _ _)) by lia. rewrite (proj2 (Z.ltb_lt _ _)) by lia.
  cbn [andb]. now rewrite Nat2Z.id.
Qed.

Lemma pseudo_effect_ext keys x y p p' h h' c i r j :
  (forall k, p r k = p' r k) -> (forall k, k = c \/ k = i -> h r j k = h' r j k) ->
  pseudo_effect keys x y p h c i r j = pseudo_effect keys x y p' h' c i r j.
Proof. intros Hp Hh. unfold pseudo_effect, pseudo. now rewrite !Hp, !Hh by auto. Qed.

(** the code an argument of estimate stands for *)
Lemma dr_prepare_code Lf data treat s d keys e rt0 rt :
  d_enc s = e -> Enc e d keys -> d_treat s = Some (Z.of_nat (group_no keys rt0)) ->
  (match treat with TNone => rt = rt0 | _ => asks d keys 1 treat rt end) -> In rt keys ->
  dr_prepare Lf data false treat s =
  match dr_effects Lf data s with
  | (s', Ok a) => if true then (s', at_treat (Z.of_nat (group_no keys rt)) a) else (s', Ok a)
  | (s', Err er) => (s', Err er)
  end.
Proof.
  intros <- HE Ht Ha It. unfold dr_prepare, mbind at 1.
  assert (E : fst (dr_effects Lf data s) = s).
  { unfold dr_effects, mbind, mget, attr, mlift, mret. destruct (d_final s) as [f|]; [|reflexivity].
    destruct (negb (d_first s)); [reflexivity|].
    destruct (match data with Some d0 => _ | None => _ end); destruct f; try reflexivity. destruct (mapX _ _); reflexivity. }
  destruct (dr_effects Lf data s) as [s' [a|er]]; [|reflexivity]. cbn in E. subst s'.
  destruct (group_no_lt _ _ It) as [_ Nt].
  destruct treat as [|l|l|l|l]; [subst rt; unfold mbind, mget, attr, mlift; now rewrite Ht| | | |];
  (unfold mbind, dr_enc; rewrite (dr_tr_ok _ _ _ true _ _ _ HE Ha Nt); cbn; destruct s; reflexivity).
Qed.

(** C118: fit a DoublyRobust object for the first time without cross fitting, with covariates.  There is a list [keys]
    of groups -- all tuples of treatment values, each once, increasing for one column -- such that: the treatment model
    is trained on w and v with the group numbers; the outcome model is trained on w, v and the indicator of the row's own
    group; the effect model of group i is trained on v with, for row r, the doubly robust pseudo outcome of group i minus
    that of the control group; an estimate for treat is the prediction of the effect model of the treat group, and leaves
    the object as it was.  The outcome predictions inside the pseudo outcomes are those of C118_outcome_refuted below. *)
Theorem C118_DR_estimate Lx Ly Lf categories cf a s1 d v :
  Forall (fun r => length r = d) (a_x a) -> (forall cs, categories = Some cs -> Forall (@NoDup label) cs) ->
  cf <= 1 -> a_v a = Some v ->
  dr_fit Lx Ly Lf categories cf a (dr_new Lf) = (s1, Ok tt) ->
  exists keys wv mx my,
    groups_of d (dr_values categories (a_x a)) keys /\ (d = 1 -> categories = None -> increasing keys) /\
    get_wv [a_w a; a_v a] = Ok wv /\ length wv = length (a_x a) /\
    l_fit Lx wv (nd_vec (group_nos keys (a_x a))) = Ok mx /\ n_classes Lx mx = length keys /\
    l_fit Ly (own_features keys wv (a_x a)) (squeeze (nd_rows (a_y a))) = Ok my /\
    let p := fun r i => row_prob Lx mx (nth r wv []) i in
    let h := fun r j i => row_pred Ly my (nth r wv [] ++ repeat 0%R (length keys)) j in
    forall rc rt0, asks d keys 0 (a_control a) rc -> In rc keys -> asks d keys 1 (a_treat a) rt0 -> In rt0 keys ->
    exists ms, length ms = length keys /\
      (forall i m, nth_error ms i = Some m ->
         fitted_to Lf v (length (a_x a)) (width (a_y a)) (pseudo_effect keys (a_x a) (a_y a) p h (group_no keys rc) i) m) /\
      (forall data treat rt, (match treat with TNone => rt = rt0 | _ => asks d keys 1 treat rt end) -> In rt keys ->
         (forall m, In m ms -> outputs Lf (width (a_y a)) m) ->
         let V := match data with Some x => x | None => v end in
         exists m e, nth_error ms (group_no keys rt) = Some m /\ dr_estimate Lf data QNone false treat s1 = (s1, Ok e) /\
           nd_shape e = [length V; width (a_y a)] /\ forall r j, nd_at e [r; j] = row_pred Lf m (nth r V []) j).
Proof.
  intros HL HN Hcf Hv H.
  destruct (dr_fit_spec _ _ _ _ _ _ _ _ HL HN H) as (keys & wv & p & h & Hg & Hi & Hall & Hx & Hk & Ew & El & Ep & Eh & Hs).
  destruct (dr_cross_x_one _ _ _ _ _ _ Hcf Ep) as (mx & Emx & Encl & Hp).
  destruct (dr_cross_y_one _ _ _ _ _ _ Hcf Eh) as (my & Emy & Hh).
  exists keys, wv, mx, my. do 7 (split; [assumption|]). cbn zeta. intros rc rt0 Ac Ic At It0.
  destruct (Hs rc rt0 Ac Ic At It0) as (e & f & HE & -> & Hf). clear Hs. rewrite Hv in *. cbn zeta in Hf.
  destruct Hf as (ms & -> & Elm & Hm). exists ms. split; auto. split.
  - intros i m Em. specialize (Hm i m Em). eexists. split; [|exact Hm].
    assert (i < length keys) by (rewrite <- Elm; apply nth_error_Some; congruence).
    intros r j Hr. apply pseudo_effect_ext; [intros k; apply Hp|]. intros k Hki.
    rewrite Hh; [|rewrite own_features_length by lia; exact Hr|destruct Hki as [->| ->]; auto; apply (group_no_lt _ _ Ic)].
    rewrite own_features_nth by auto. now rewrite strip_features.
  - intros data treat rt Ha It Ho. set (V := match data with Some x => x | None => v end). destruct (group_no_lt _ _ It) as [Lt Nt].
    destruct (nth_error ms (group_no keys rt)) as [m|] eqn:Em; [|apply nth_error_None in Em; lia].
    set (s := mkDR _ _ _ _ _ _ _ _ _ _).
    pose proof (dr_prepare_code Lf data treat s d keys e rt0 rt eq_refl HE eq_refl Ha It) as P.
    assert (C : exists cols, mapX (fun i => match nth_error ms i with
                                              | Some m => as_n_yd (length V) (width (a_y a)) (predict Lf m V)
                                              | None => Err IndexError
                                              end) (seq 0 (length keys)) = Ok cols).
    { apply mapX_total. intros i Hin. apply in_seq in Hin.
      destruct (nth_error ms i) as [m'|] eqn:Em'; [|apply nth_error_None in Em'; lia].
      apply as_n_yd_predict. apply Ho. exact (nth_error_In _ _ Em'). }
    destruct C as (cols & C).
    assert (E : dr_effects Lf data s = (s, Ok (mkNd [length V; width (a_y a); length keys]
                       (fun idx => nd_at (nth (nth 2 idx 0) cols (mkNd [] (fun _ => 0%R))) [nth 0 idx 0; nth 1 idx 0])))).
    { unfold dr_effects, mbind, mget, attr, mlift, mret, s. cbn [d_final d_first d_cov d_v negb d_yd d_xd].
      unfold V in C |- *. destruct data as [D|]; cbv beta iota; rewrite C; reflexivity. }
    rewrite E in P. erewrite at_treat_ok in P; [|reflexivity|exact Lt].
    eexists m, _. split; [reflexivity|]. split; [unfold dr_estimate, mbind; rewrite P; reflexivity|]. split; [reflexivity|].
    intros r j. cbn [nd_at nth]. apply mapX_inv in C.
    pose proof (@Forall2_nth _ _ _ _ _ 0 (mkNd [] (fun _ => 0%R)) C (group_no keys rt) ltac:(now rewrite seq_length)) as G.
    rewrite seq_nth in G by auto. cbn [Nat.add] in G. rewrite Em in G. apply as_n_yd_row in G as [_ G]. apply G.
Qed.

(** ... where the block of treatment indicators is zero, for every group i: a combination the outcome model was never
    trained on, because the indicator of a group is never zero *)
Theorem C118_outcome_block_refuted keys g w w' :
  In g keys -> features keys g w <> w' ++ repeat 0%R (length keys).
Proof.
  intros Hg E. destruct (In_nth_error _ _ Hg) as (q & Hq).
  assert (Hl : length w = length w').
  { apply (f_equal (@List.length R)) in E. unfold features in E. rewrite !app_length, indicator_length, repeat_length in E. lia. }
  assert (Hlt : q < length keys) by (apply nth_error_Some; congruence).
  apply (f_equal (fun l => nth (length w + q) l 0%R)) in E. unfold features in E.
  rewrite app_nth2_plus in E. rewrite Hl, app_nth2_plus in E. rewrite nth_repeat in E. unfold indicator in E.
  rewrite (nth_map_in _ _ [] 0%R) in E by auto. rewrite (nth_error_nth _ _ [] Hq) in E.
  rewrite eqb_refl in E. lra.
Qed.

(* ------------------------------------------------------------------------------------------------ *)
(** ** C120: no covariates *)

(** C120: without covariates there is no effect model: for any cf_fold and any data argument the estimate is the
    difference of the pseudo outcomes of the training rows; the effect of the control group is exactly 0. *)
Theorem C120_DR_no_covariate Lx Ly Lf categories cf a s1 d :
  Forall (fun r => length r = d) (a_x a) -> (forall cs, categories = Some cs -> Forall (@NoDup label) cs) ->
  a_v a = None ->
  dr_fit Lx Ly Lf categories cf a (dr_new Lf) = (s1, Ok tt) ->
  exists keys p h,
    groups_of d (dr_values categories (a_x a)) keys /\ (d = 1 -> categories = None -> increasing keys) /\
    forall rc rt0, asks d keys 0 (a_control a) rc -> In rc keys -> asks d keys 1 (a_treat a) rt0 -> In rt0 keys ->
    forall data treat rt, (match treat with TNone => rt = rt0 | _ => asks d keys 1 treat rt end) -> In rt keys ->
    exists e, dr_estimate Lf data QNone false treat s1 = (s1, Ok e) /\ nd_shape e = [length (a_x a); width (a_y a)] /\
      (forall r j, nd_at e [r; j] = pseudo_effect keys (a_x a) (a_y a) p h (group_no keys rc) (group_no keys rt) r j) /\
      (rt = rc -> forall r j, nd_at e [r; j] = 0%R).
Proof.
  intros HL HN Hv H.
  destruct (dr_fit_spec _ _ _ _ _ _ _ _ HL HN H) as (keys & wv & p & h & Hg & Hi & Hall & Hx & Hk & Ew & El & Ep & Eh & Hs).
  exists keys, p, h. do 2 (split; [assumption|]). intros rc rt0 Ac Ic At It0 data treat rt Ha It.
  destruct (Hs rc rt0 Ac Ic At It0) as (e & f & HE & -> & Hf). clear Hs. rewrite Hv in *. cbn zeta in Hf.
  destruct Hf as (g & -> & Hgg). destruct (group_no_lt _ _ It) as [Lt Nt].
  set (s := mkDR _ _ _ _ _ _ _ _ _ _).
  pose proof (dr_prepare_code Lf data treat s d keys e rt0 rt eq_refl HE eq_refl Ha It) as P.
  assert (E : dr_effects Lf data s = (s, Ok (mkNd [length (a_x a); width (a_y a); length keys]
                     (fun idx => g (nth 0 idx 0) (nth 1 idx 0) (nth 2 idx 0))))).
  { unfold dr_effects, mbind, mget, attr, mlift, mret, s. cbn [d_final d_first d_cov d_v negb d_yd d_xd].
    destruct data; reflexivity. }
  rewrite E in P. erewrite at_treat_ok in P; [|reflexivity|exact Lt].
  eexists. split; [unfold dr_estimate, mbind; rewrite P; reflexivity|]. split; [reflexivity|]. cbn [nd_at nth].
  split; [intros r j; now apply Hgg|]. intros -> r j. rewrite Hgg by auto. unfold pseudo_effect. lra.
Qed.

(* ------------------------------------------------------------------------------------------------ *)
(** ** C121: cross fitting *)

(** [F] is the test fold of row r among k folds of n rows: consecutive rows, n/k or n/k + 1 of them *)
Definition fold_of (n k r : nat) (F : list nat) : Prop :=
  In r F /\ (exists lo len, F = seq lo len /\ lo + len <= n /\ n / k <= len <= n / k + 1).
(** the rows outside F, in order *)
Definition outside (n : nat) (F : list nat) : list nat := filter (fun i => negb (mem i F)) (seq 0 n).

Lemma fold_bounds_size start sizes b : In b (fold_bounds start sizes) -> In (snd b - fst b) sizes.
Proof.
  revert start. induction sizes as [|s r IH]; intros start H; cbn [fold_bounds] in H; [easy|].
  destruct H as [<-|H]; [left; cbn; lia|right; eapply IH; eauto].
Qed.
Lemma kfold_fold n k folds f r : kfold n k = Ok folds -> In f folds -> In r (snd f) ->
  fold_of n k r (snd f) /\ fst f = outside n (snd f).
Proof.
  intros H Hf Hr. split; [|eapply kfold_train; eauto]. split; auto.
  unfold kfold in H. destruct ((k <? 2) || (n <? k)) eqn:E; [easy|]. injection H as <-.
  apply orb_false_iff in E as [E1 E2]. apply Nat.ltb_ge in E1, E2.
  apply in_map_iff in Hf as (b & <- & Hb). cbn [snd] in *.
  exists (fst b), (snd b - fst b). split; auto.
  pose proof (fold_bounds_in _ _ _ Hb) as [B1 B2]. rewrite fold_sizes_sum in B2 by lia. split; [lia|].
  apply fold_bounds_size in Hb. unfold fold_sizes in Hb. apply in_map_iff in Hb as (i & Ei & _).
  destruct (i <? n mod k); lia.
Qed.
(** both models use the same fold of a row *)
Lemma kfold_fold_unique n k folds f f' r : kfold n k = Ok folds -> In f folds -> In f' folds ->
  In r (snd f) -> In r (snd f') -> snd f = snd f'.
Proof.
  intros H Hf Hf' Hr Hr'. pose proof (kfold_cover _ _ _ H) as C.
  assert (ND : NoDup (concat (map snd folds))) by (rewrite C; apply seq_NoDup).
  clear C H. induction folds as [|f0 folds IH]; [easy|]. cbn [map concat] in ND.
  assert (D : forall i, In i (snd f0) -> ~ In i (concat (map snd folds))).
  { clear - ND. intros i Hi Hj. revert ND Hi. induction (snd f0) as [|a l IH]; cbn; [easy|]. intros H Hi. inversion H; subst.
    destruct Hi as [->|Hi]; [|auto]. apply H2. apply in_or_app. now right. }
  assert (ND2 : NoDup (concat (map snd folds))).
  { clear - ND. revert ND. induction (snd f0) as [|a l IH]; cbn; auto. intros H. inversion H; auto. }
  assert (I : forall g, In g folds -> In r (snd g) -> In r (concat (map snd folds))).
  { intros g Hg Hrg. apply in_concat. exists (snd g). split; auto. now apply in_map. }
  destruct Hf as [<-|Hf], Hf' as [<-|Hf']; auto.
  - exfalso. exact (D r Hr (I _ Hf' Hr')).
  - exfalso. exact (D r Hr' (I _ Hf Hr)).
Qed.

Lemma dr_cross_x_folds Lx wv label x_d cf p : 1 < cf -> dr_cross_x Lx wv label x_d cf = Ok p ->
  forall r, r < length wv -> exists F m, fold_of (length wv) cf r F /\
    l_fit Lx (take_rows [] (outside (length wv) F) wv) (nd_vec (take_rows 0%R (outside (length wv) F) label)) = Ok m /\
    ((n_classes Lx m = x_d /\ forall i, p r i = row_prob Lx m (nth r wv []) i) \/
     (n_classes Lx m = 1 /\ forall i, p r i = row_prob Lx m (nth r wv []) 0)).
Proof.
  intros Hc H r Hr. unfold dr_cross_x in H. rewrite (proj2 (Nat.leb_gt cf 1) Hc) in H.
  destruct (kfold (length wv) cf) as [folds|] eqn:EK; [|easy]. cbn [bind] in H.
  set (step := fun f : list nat * list nat =>
      do m <- l_fit Lx (take_rows [] (fst f) wv) (nd_vec (take_rows 0%R (fst f) label));
      let p := predict_proba Lx m (take_rows [] (snd f) wv) in
      if n_classes Lx m =? x_d then Ok (fun r i => nd_at p [r; i])
      else if n_classes Lx m =? 1 then Ok (fun r (i : nat) => nd_at p [r; 0])
      else Err ValueError).
  assert (H' : fold_left (fun acc f => do o <- acc; do v <- step f; Ok (put_rows o (snd f) v)) folds (Ok (fun _ _ => 0%R)) = Ok p).
  { rewrite <- H. clear H. generalize (@Ok (nat -> nat -> R) (fun _ _ => 0%R)). clear EK.
    induction folds as [|f folds IH]; intros acc; cbn [fold_left]; auto. rewrite <- IH. f_equal.
    destruct acc as [o|]; cbn [bind]; auto. unfold step. destruct (l_fit Lx _ _) as [m|]; cbn [bind]; auto. cbn zeta.
    destruct (n_classes Lx m =? x_d); auto. destruct (n_classes Lx m =? 1); auto. }
  pose proof (kfold_cover _ _ _ EK) as C.
  destruct (cross_loop step folds _ _ H' ltac:(rewrite C; apply seq_NoDup)) as (vs & FV & G & _).
  destruct (kfold_row _ _ _ _ EK Hr) as (q & f & pos & Hq & Hp & Hf & _).
  destruct (kfold_fold _ _ _ _ _ EK Hf (nth_error_In _ _ Hp)) as [HF ET].
  destruct (nth_error vs q) as [v|] eqn:Ev.
  2:{ apply nth_error_None in Ev. rewrite <- (F2_length FV) in Ev. apply nth_error_None in Ev. congruence. }
  specialize (G q f v pos r Hq Ev Hp).
  assert (Hs : step f = Ok v).
  { assert (Lq : q < length folds) by (apply nth_error_Some; congruence).
    pose proof (@Forall2_nth _ _ _ _ _ f v FV q Lq) as S. rewrite (nth_error_nth _ _ f Hq), (nth_error_nth _ _ v Ev) in S. exact S. }
  unfold step in Hs. rewrite ET in Hs. destruct (l_fit Lx _ _) as [m|] eqn:Em; [|easy]. cbn [bind] in Hs. cbn zeta in Hs.
  exists (snd f), m. split; auto. split; auto.
  assert (RP : forall i, nd_at (predict_proba Lx m (take_rows [] (snd f) wv)) [pos; i] = row_prob Lx m (nth r wv []) i).
  { intros i. unfold predict_proba, row_prob. cbn [nd_at nth]. now rewrite (take_rows_nth _ _ _ _ _ Hp). }
  destruct (Nat.eqb_spec (n_classes Lx m) x_d).
  - left. split; auto. intros i. rewrite G. injection Hs as <-. apply RP.
  - destruct (Nat.eqb_spec (n_classes Lx m) 1); [|easy]. right. split; auto. intros i. rewrite G. injection Hs as <-. apply RP.
Qed.

Lemma dr_cross_y_folds Ly wvx y x_d cf h : 1 < cf -> length wvx = length y -> dr_cross_y Ly wvx y x_d cf = Ok h ->
  forall r, r < length y -> exists F m, fold_of (length y) cf r F /\
    l_fit Ly (take_rows [] (outside (length y) F) wvx) (y_rows (outside (length y) F) y) = Ok m /\
    forall j i, i < x_d -> h r j i = row_pred Ly m (firstn (length (nth r wvx []) - x_d) (nth r wvx []) ++ repeat 0%R x_d) j.
Proof.
  intros Hc Hl H r Hr. unfold dr_cross_y in H. rewrite (proj2 (Nat.leb_gt cf 1) Hc) in H.
  destruct (kfold (length y) cf) as [folds|] eqn:EK; [|easy]. cbn [bind] in H.
  set (step := fun f : list nat * list nat =>
      do m <- l_fit Ly (take_rows [] (fst f) wvx) (y_rows (fst f) y);
      yw_predict Ly m x_d (width y) (take_rows [] (snd f) wvx)).
  assert (H' : fold_left (fun acc f => do o <- acc; do v <- step f; Ok (put_rows o (snd f) v)) folds (Ok (fun _ _ _ => 0%R)) = Ok h).
  { rewrite <- H. clear H. generalize (@Ok (nat -> nat -> nat -> R) (fun _ _ _ => 0%R)). clear EK.
    induction folds as [|f folds IH]; intros acc; cbn [fold_left]; auto. rewrite <- IH. f_equal.
    destruct acc as [o|]; cbn [bind]; auto. unfold step. destruct (l_fit Ly _ _) as [m|]; cbn [bind]; auto. }
  pose proof (kfold_cover _ _ _ EK) as C.
  destruct (cross_loop step folds _ _ H' ltac:(rewrite C; apply seq_NoDup)) as (vs & FV & G & _).
  destruct (kfold_row _ _ _ _ EK Hr) as (q & f & pos & Hq & Hp & Hf & _).
  destruct (kfold_fold _ _ _ _ _ EK Hf (nth_error_In _ _ Hp)) as [HF ET].
  destruct (nth_error vs q) as [v|] eqn:Ev.
  2:{ apply nth_error_None in Ev. rewrite <- (F2_length FV) in Ev. apply nth_error_None in Ev. congruence. }
  specialize (G q f v pos r Hq Ev Hp).
  assert (Hs : step f = Ok v).
  { assert (Lq : q < length folds) by (apply nth_error_Some; congruence).
    pose proof (@Forall2_nth _ _ _ _ _ f v FV q Lq) as S. rewrite (nth_error_nth _ _ f Hq), (nth_error_nth _ _ v Ev) in S. exact S. }
  unfold step in Hs. rewrite ET in Hs. destruct (l_fit Ly _ _) as [m|] eqn:Em; [|easy]. cbn [bind] in Hs.
  exists (snd f), m. split; auto. split; auto. intros j i Hi. rewrite G.
  rewrite (yw_predict_spec _ _ _ _ _ _ Hs) by (auto; rewrite take_rows_length; apply nth_error_Some; congruence).
  now rewrite !(take_rows_nth _ _ _ _ _ Hp).
Qed.

(** folds of a row are unique *)
Lemma fold_of_kfold n k folds r : kfold n k = Ok folds -> r < n -> exists f, In f folds /\ In r (snd f).
Proof. intros H Hr. destruct (kfold_row _ _ _ _ H Hr) as (q & f & p & _ & Hp & Hf & _). exists f. split; auto. exact (nth_error_In _ _ Hp). Qed.

(** C121: with cf_fold = k >= 2, the nuisance predictions of every training row r -- the propensities p and the outcome
    predictions h its pseudo outcomes are made of -- come from models fitted on the rows outside a fold of n/k or n/k+1
    consecutive rows that contains r: the row itself is never used.  Without covariates the estimates are these pseudo
    outcomes; with covariates the effect models are fitted to them. *)
Theorem C121_DR_cross_fit Lx Ly Lf categories k a s1 d :
  Forall (fun r => length r = d) (a_x a) -> (forall cs, categories = Some cs -> Forall (@NoDup label) cs) ->
  1 < k -> length (a_y a) = length (a_x a) ->
  dr_fit Lx Ly Lf categories k a (dr_new Lf) = (s1, Ok tt) ->
  exists keys wv p h,
    groups_of d (dr_values categories (a_x a)) keys /\ get_wv [a_w a; a_v a] = Ok wv /\ length wv = length (a_x a) /\
    (let n := length (a_x a) in
     forall r, r < n ->
     (exists F m, fold_of n k r F /\ ~ In r (outside n F) /\
        l_fit Lx (take_rows [] (outside n F) wv) (nd_vec (take_rows 0%R (outside n F) (group_nos keys (a_x a)))) = Ok m /\
        ((n_classes Lx m = length keys /\ forall i, p r i = row_prob Lx m (nth r wv []) i) \/
         (n_classes Lx m = 1 /\ forall i, p r i = row_prob Lx m (nth r wv []) 0))) /\
     (exists F m, fold_of n k r F /\ ~ In r (outside n F) /\
        l_fit Ly (take_rows [] (outside n F) (own_features keys wv (a_x a))) (y_rows (outside n F) (a_y a)) = Ok m /\
        forall j i, i < length keys -> h r j i = row_pred Ly m (nth r wv [] ++ repeat 0%R (length keys)) j)) /\
    forall rc rt, asks d keys 0 (a_control a) rc -> In rc keys -> asks d keys 1 (a_treat a) rt -> In rt keys ->
    match a_v a with
    | None => forall data, exists e, dr_estimate Lf data QNone false TNone s1 = (s1, Ok e) /\
                forall r j, nd_at e [r; j] = pseudo_effect keys (a_x a) (a_y a) p h (group_no keys rc) (group_no keys rt) r j
    | Some v => exists ms, d_final s1 = Some (FModels ms) /\ length ms = length keys /\ forall i m, nth_error ms i = Some m ->
                l_fit Lf v (effect_target (length (a_x a)) (width (a_y a))
                              (pseudo_effect keys (a_x a) (a_y a) p h (group_no keys rc) i)) = Ok m
    end.
Proof.
  intros HL HN Hk Hy H.
  destruct (dr_fit_spec _ _ _ _ _ _ _ _ HL HN H) as (keys & wv & p & h & Hg & Hi & Hall & Hx & Hne & Ew & El & Ep & Eh & Hs).
  assert (NR : forall r F, fold_of (length (a_x a)) k r F -> ~ In r (outside (length (a_x a)) F)).
  { intros r F [Hr _] Ho. apply filter_In in Ho as [_ Ho]. rewrite (proj2 (mem_In r F) Hr) in Ho. easy. }
  exists keys, wv, p, h. split; [assumption|]. split; [assumption|]. split; [assumption|]. split.
  - intros n r Hr. split.
    + destruct (dr_cross_x_folds _ _ _ _ _ _ Hk Ep r ltac:(lia)) as (F & m & HF & Em & Hm). rewrite El in HF, Em.
      exists F, m. split; auto.
    + assert (Lw : length (own_features keys wv (a_x a)) = length (a_y a)) by (rewrite own_features_length; lia).
      destruct (dr_cross_y_folds _ _ _ _ _ _ Hk Lw Eh r ltac:(unfold n in Hr; lia)) as (F & m & HF & Em & Hm).
      rewrite Hy in HF, Em. exists F, m. split; auto. split; auto. split; auto. intros j i Hi'. rewrite Hm by auto.
      rewrite own_features_nth by auto. now rewrite strip_features.
  - intros rc rt Ac Ic At It. destruct (Hs rc rt Ac Ic At It) as (e & f & HE & -> & Hf). clear Hs. cbn zeta in Hf.
    destruct (group_no_lt _ _ It) as [Lt Nt].
    destruct (a_v a) as [v|].
    + destruct Hf as (ms & -> & Elm & Hm). exists ms. cbn [d_final]. auto.
    + destruct Hf as (g & -> & Hgg). intros data. set (s := mkDR _ _ _ _ _ _ _ _ _ _).
      pose proof (dr_prepare_code Lf data TNone s d keys e rt rt eq_refl HE eq_refl eq_refl It) as P.
      assert (E : dr_effects Lf data s = (s, Ok (mkNd [length (a_x a); width (a_y a); length keys]
                         (fun idx => g (nth 0 idx 0) (nth 1 idx 0) (nth 2 idx 0))))).
      { unfold dr_effects, mbind, mget, attr, mlift, mret, s. cbn [d_final d_first d_cov d_v negb d_yd d_xd].
        destruct data; reflexivity. }
      rewrite E in P. erewrite at_treat_ok in P; [|reflexivity|exact Lt].
      eexists. split; [unfold dr_estimate, mbind; rewrite P; reflexivity|]. cbn [nd_at nth]. intros r j. now apply Hgg.
Qed.
