(** The criterion of the generalized random forest satisfies the interface the splitter relies on. *)
From Coq Require Import ZArith Reals Lra FunctionalExtensionality.
From Verif Require Import Base TreeCritModel TreeCritProps SplitterModel SplitterSpec CritOk GrfCritModel GrfCritSpec.
Set Implicit Arguments.
Local Notation length := List.length.
Open Scope R_scope.

Ltac gcbn := cbn [cstart cend cpos cwn cwl cwr ctot crho csr csl csrr gc_reset gc_reverse_reset fst snd].

(** the quantities of the code are those of the specification *)
Lemma node_w_sum d l : node_w d l = w_sum d l.
Proof. unfold node_w, w_sum. rewrite (fold_Rsum (wt d)). lra. Qed.
Lemma node_tot_sum d l k : node_tot d l k = wy_sum d l k.
Proof. unfold node_tot, wy_sum. rewrite (fold_Rsum (fun i => wt d i * y_at d i k)). lra. Qed.
Lemma mean_tr_tbar d tr l k : mean_tr d tr l k = tbar d tr l k.
Proof. unfold mean_tr, tbar. rewrite (fold_Rsum (fun i => wt d i * tr i k)), node_w_sum, Rplus_0_l. reflexivity. Qed.
Lemma tr_dif_tdev d tr l i k : tr_dif d tr l i k = tdev d tr l i k.
Proof. unfold tr_dif, tdev. now rewrite mean_tr_tbar. Qed.
Lemma resid_residual la d p tr l i : resid la d p tr l i = residual la d p tr l i.
Proof.
  unfold resid, residual. rewrite (fold_Rsub (fun k => tr_dif d tr l i k * ls_coef la d p tr l k)).
  unfold mean_y, ybar. rewrite node_tot_sum, node_w_sum. f_equal. f_equal. apply map_ext. intros k. now rewrite tr_dif_tdev.
Qed.
Lemma f_grad_moment d tr l k j : f_grad d tr l k j = second_moment d tr l k j.
Proof.
  unfold f_grad, second_moment. rewrite (fold_Rsum (fun i => tr_dif d tr l i k * tr_dif d tr l i j / INR (length l))), Rplus_0_l.
  f_equal. f_equal. apply map_ext. intros i. now rewrite !tr_dif_tdev.
Qed.
Lemma fold_fold_Rsum {A B} (f : A -> B -> R) (m : list B) (l : list A) : forall a,
  fold_left (fun a k => fold_left (fun b j => b + f k j) m a) l a = a + Rsum (map (fun k => Rsum (map (f k) m)) l).
Proof.
  induction l as [|k l IH]; intros a; cbn [fold_left map]; [rewrite Rsum_nil; lra|].
  rewrite IH, (fold_Rsum (f k)), Rsum_cons. lra.
Qed.
Lemma rho_pseudo la d p tr l i : rho_of la d p tr l i = pseudo la d p tr l i.
Proof.
  unfold rho_of, pseudo. cbv zeta.
  rewrite (fold_fold_Rsum (fun k j => la_pinv la p (f_grad d tr l) j k * (tr_dif d tr l i j * resid la d p tr l i))), Rplus_0_l.
  f_equal. apply map_ext. intros k. f_equal. apply map_ext. intros j. rewrite tr_dif_tdev, resid_residual.
  replace (f_grad d tr l) with (second_moment d tr l); [reflexivity|].
  apply functional_extensionality. intros a. apply functional_extensionality. intros b. now rewrite f_grad_moment.
Qed.

(** nothing depends on the order of the samples *)
Section Perm.
Variables (la : linalg) (d : data) (p : nat) (tr : nat -> nat -> R) (s s' : list nat).
Hypotheses (LA : order_free la) (P : Permutation s s').
Lemma Rsum_map_perm {A} (f : A -> R) l l' : Permutation l l' -> Rsum (map f l) = Rsum (map f l').
Proof. intros Q. now apply Rsum_perm, Permutation_map. Qed.
Lemma tbar_perm j : tbar d tr s j = tbar d tr s' j.
Proof. unfold tbar. now rewrite (Rsum_map_perm _ P), (w_sum_perm d P). Qed.
Lemma tdev_perm i j : tdev d tr s i j = tdev d tr s' i j.
Proof. unfold tdev. now rewrite tbar_perm. Qed.
Lemma residual_perm i : residual la d p tr s i = residual la d p tr s' i.
Proof.
  unfold residual, ybar, beta. rewrite (wy_sum_perm d 0 P), (w_sum_perm d P).
  rewrite (LA p (Permutation_map (fun i => (map (fun k => wt d i * tr i k) (seq 0 p), wt d i * y_at d i 0)) P)).
  f_equal. f_equal. apply map_ext. intros k. now rewrite tdev_perm.
Qed.
Lemma moment_perm : second_moment d tr s = second_moment d tr s'.
Proof.
  apply functional_extensionality. intros k. apply functional_extensionality. intros j. unfold second_moment.
  rewrite (Permutation_length P), (Rsum_map_perm _ P). f_equal. f_equal. apply map_ext. intros i. now rewrite !tdev_perm.
Qed.
Lemma pseudo_perm i : pseudo la d p tr s i = pseudo la d p tr s' i.
Proof.
  unfold pseudo. rewrite moment_perm. f_equal. apply map_ext. intros k. f_equal. apply map_ext. intros j.
  now rewrite tdev_perm, residual_perm.
Qed.
Lemma psum_perm m m' : Permutation m m' -> psum la d p tr s m = psum la d p tr s' m'.
Proof. intros Q. unfold psum. rewrite (Rsum_map_perm _ Q). f_equal. apply map_ext. intros i. now rewrite pseudo_perm. Qed.
End Perm.

Lemma psum_app la d p tr s l m : psum la d p tr s (l ++ m) = psum la d p tr s l + psum la d p tr s m.
Proof. unfold psum. now rewrite map_app, Rsum_app. Qed.

Definition grel (la : linalg) (d : data) (p : nat) (tr : nat -> nat -> R) (start end_ : nat) (node : list nat) (c : gc) (s : list nat) (q : nat) : Prop :=
  cstart c = start /\ cend c = end_ /\ cpos c = q /\ (start <= q <= end_)%nat /\ (end_ <= length s)%nat /\
  Permutation (slice s start end_) node /\
  (forall k, ctot c k = wy_sum d node k) /\ cwn c = w_sum d node /\ (forall i, crho c i = pseudo la d p tr node i) /\
  csr c = psum la d p tr node node /\
  csl c = psum la d p tr node (slice s start q) /\ csrr c = psum la d p tr node (slice s q end_) /\
  cwl c = w_sum d (slice s start q) /\ cwr c = w_sum d (slice s q end_).

Lemma gc_up_fold d rho l : forall s,
  fst (fold_left (fun s i => (fst s + wt d i * rho i, snd s + wt d i)) l s) = fst s + Rsum (map (fun i => wt d i * rho i) l) /\
  snd (fold_left (fun s i => (fst s + wt d i * rho i, snd s + wt d i)) l s) = snd s + w_sum d l.
Proof.
  induction l as [|i l IH]; intros [a b]; cbn [fold_left map fst snd]; unfold w_sum; cbn [map]; rewrite ?Rsum_nil, ?Rsum_cons; [lra|].
  destruct (IH (a + wt d i * rho i, b + wt d i)) as [E1 E2]. cbn [fst snd] in *. rewrite E1, E2. unfold w_sum. lra.
Qed.
Lemma gc_dn_fold d rho l : forall s,
  fst (fold_left (fun s i => (fst s - wt d i * rho i, snd s - wt d i)) l s) = fst s - Rsum (map (fun i => wt d i * rho i) l) /\
  snd (fold_left (fun s i => (fst s - wt d i * rho i, snd s - wt d i)) l s) = snd s - w_sum d l.
Proof.
  induction l as [|i l IH]; intros [a b]; cbn [fold_left map fst snd]; unfold w_sum; cbn [map]; rewrite ?Rsum_nil, ?Rsum_cons; [lra|].
  destruct (IH (a - wt d i * rho i, b - wt d i)) as [E1 E2]. cbn [fst snd] in *. rewrite E1, E2. unfold w_sum. lra.
Qed.

Lemma grf_ok la d p tr N : order_free la -> crit_ok (grf_crit la p tr d) (grf_spec la p tr d) N (grel la d p tr).
Proof.
  intros LA. constructor.
  - intros l l' r r' P1 P2. cbn [cs_proxy cs_wl cs_wr cs_wn cs_node cs_children cs_improve cs_value grf_spec].
    pose proof (Permutation_app P1 P2) as P.
    rewrite (@psum_perm la d p tr _ _ LA P _ _ P1), (@psum_perm la d p tr _ _ LA P _ _ P2), (w_sum_perm d P1), (w_sum_perm d P2).
    repeat (split; [reflexivity|]). apply functional_extensionality. intros k. unfold wmean. now rewrite (wy_sum_perm d k P1), (w_sum_perm d P1).
  - intros s a b H. cbn [cr_init grf_crit]. unfold grel, gc_init. gcbn. rewrite at_range_slice by lia.
    rewrite slice_nil. split; [auto|]. split; [auto|]. split; [auto|]. split; [lia|]. split; [lia|]. split; [auto|].
    split; [intros; apply node_tot_sum|]. split; [apply node_w_sum|]. split; [intros; apply rho_pseudo|].
    assert (E : fold_left (fun a0 i => a0 + wt d i * rho_of la d p tr (slice s a b) i) (slice s a b) 0 = psum la d p tr (slice s a b) (slice s a b)).
    { rewrite (fold_Rsum (fun i => wt d i * rho_of la d p tr (slice s a b) i)), Rplus_0_l. unfold psum. f_equal. apply map_ext. intros i. now rewrite rho_pseudo. }
    rewrite E, node_w_sum. repeat split; reflexivity.
  - intros a b node c s q s' (S1 & S2 & S3 & S4 & S5 & S6 & S7 & S8 & S9 & S10 & S11 & S12 & S13 & S14) HL P.
    cbn [cr_reset grf_crit]. unfold grel. gcbn. rewrite S1, slice_nil. split; [auto|]. split; [auto|]. split; [auto|]. split; [lia|]. split; [lia|].
    split; [auto|]. split; [auto|]. split; [auto|]. split; [auto|]. split; [auto|]. split; [reflexivity|].
    split; [rewrite S10; symmetry; apply (@psum_perm la d p tr _ _ LA (Permutation_refl node) _ _ P)|]. split; [reflexivity|].
    now rewrite S8, (w_sum_perm d P).
  - intros a b node c s q q' (S1 & S2 & S3 & S4 & S5 & S6 & S7 & S8 & S9 & S10 & S11 & S12 & S13 & S14) Hq.
    cbn [cr_update grf_crit]. exists (gc_update d c s q'). split; [reflexivity|].
    assert (T1 : psum la d p tr node node = psum la d p tr node (slice s a q') + psum la d p tr node (slice s q' b)).
    { rewrite <- psum_app, <- slice_app by lia. symmetry. apply (@psum_perm la d p tr _ _ LA (Permutation_refl node) _ _ S6). }
    assert (T2 : w_sum d node = w_sum d (slice s a q') + w_sum d (slice s q' b)).
    { rewrite <- w_sum_app, <- slice_app by lia. symmetry. now apply w_sum_perm. }
    assert (PS : forall m, Rsum (map (fun i => wt d i * crho c i) m) = psum la d p tr node m).
    { intros m. unfold psum. f_equal. apply map_ext. intros i. now rewrite S9. }
    assert (K : forall sl wl, sl = psum la d p tr node (slice s a q') -> wl = w_sum d (slice s a q') ->
      grel la d p tr a b node (mkGc (cstart c) b q' (cwn c) wl (cwn c - wl) (ctot c) (crho c) (csr c) sl (csr c - sl)) s q').
    { intros sl wl -> ->. unfold grel. gcbn. repeat (split; [solve [auto | lia]|]). split; [rewrite S10, T1; lra|]. split; [reflexivity|].
      rewrite S8, T2. lra. }
    unfold gc_update. rewrite S2, S3. destruct (near q q' b).
    + rewrite at_range_slice by lia. destruct (gc_up_fold d (crho c) (slice s q q') (csl c, cwl c)) as [E1 E2].
      destruct (fold_left _ (slice s q q') (csl c, cwl c)) as [sl wl]. cbn [fst snd] in E1, E2.
      apply K; [rewrite E1, S11, PS, <- psum_app, <- slice_app by lia; reflexivity|].
      rewrite E2, S13, <- w_sum_app, <- slice_app by lia. reflexivity.
    + rewrite at_range_slice by lia. cbv zeta.
      destruct (gc_dn_fold d (crho c) (rev (slice s q' b)) (csl (gc_reverse_reset c), cwl (gc_reverse_reset c))) as [E1 E2].
      destruct (fold_left _ (rev (slice s q' b)) (csl (gc_reverse_reset c), cwl (gc_reverse_reset c))) as [sl wl]. cbn [fst snd] in E1, E2.
      pose proof (Permutation_sym (Permutation_rev (slice s q' b))) as PR.
      apply K.
      * rewrite E1, PS. gcbn. rewrite S10, T1, (@psum_perm la d p tr _ _ LA (Permutation_refl node) _ _ PR). lra.
      * rewrite E2. gcbn. rewrite S8, T2, (w_sum_perm d PR). lra.
  - intros a b node c s q (S1 & S2 & S3 & S4 & S5 & S6 & S7 & S8 & S9 & S10 & S11 & S12 & S13 & S14). cbv zeta.
    cbn [cs_proxy cs_wl cs_wr cs_wn cs_node cs_children cs_improve cs_value grf_spec cr_wn cr_wl cr_wr cr_proxy cr_node cr_children cr_improve cr_value grf_crit].
    assert (P' : Permutation node (slice s a q ++ slice s q b)) by (rewrite <- slice_app by lia; now symmetry).
    assert (El : psum la d p tr node (slice s a q) = psum la d p tr (slice s a q ++ slice s q b) (slice s a q))
      by apply (@psum_perm la d p tr _ _ LA P' _ _ (Permutation_refl _)).
    assert (Er : psum la d p tr node (slice s q b) = psum la d p tr (slice s a q ++ slice s q b) (slice s q b))
      by apply (@psum_perm la d p tr _ _ LA P' _ _ (Permutation_refl _)).
    assert (PC : fold_left (fun a0 i => a0 + wt d i * crho c i) (at_range s (cstart c) (cpos c)) 0 = psum la d p tr node (slice s a q)).
    { rewrite S1, S3, at_range_slice by lia. rewrite (fold_Rsum (fun i => wt d i * crho c i)), Rplus_0_l. unfold psum. f_equal. apply map_ext. intros i. now rewrite S9. }
    assert (PQ : psum la d p tr node node - psum la d p tr node (slice s a q) = psum la d p tr node (slice s q b)).
    { rewrite (@psum_perm la d p tr _ _ LA (Permutation_refl node) _ _ P'), psum_app. lra. }
    do 5 (split; [solve [auto | lia]|]). split; [apply functional_extensionality; intros k; unfold gc_value, wmean; now rewrite S7, S8|].
    split; [auto|]. split; [auto|]. split; [unfold gc_proxy; rewrite S11, S12, S13, S14, El, Er; cbn [pow]; now rewrite !Rmult_1_r|].
    split; [|reflexivity]. unfold gc_children. cbv zeta. rewrite PC, S10, PQ, S13, S14, El, Er. cbn [pow]. now rewrite !Rmult_1_r.
Qed.
