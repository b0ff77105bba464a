(** Theorems about the generalized random forest (GRForest): C162 - C172. *)
From Coq Require Import ZArith Reals Lra FunctionalExtensionality.
From Verif Require Import Base EstUtilsModel MetaModel TreeCritModel TreeCritProps SplitterModel SplitterSpec TreeSpec TreeProps
  BestFirstModel BestFirstProps GrfCritModel GrfCritSpec GrfModel GrfSpec MetaProofs GrfProofs GrfExamples GrfProps GrfRefuted.
Unset Implicit Arguments.
Local Notation length := List.length.
Local Open Scope R_scope.

(* ------------------------------------------------------------------------------------------------ *)
(** ** C162: estimate works row by row *)

(** Whatever the number of rows (they are processed in batches of 100), the result is the results of the single rows. *)
Theorem C162_rowwise E o nf xs out : o_fitted o = true -> xs <> [] ->
  (grf_estimate E o (Some (nf, xs)) = Ok out <-> Forall2 (fun x r => grf_estimate E o (Some (nf, [x])) = Ok [r]) xs out).
Proof.
  intros F N. rewrite estimate_rows by auto. unfold with_rows.
  assert (O : forall x r, grf_estimate E o (Some (nf, [x])) = Ok [r] <->
    (match o_data o, o_trees o with Some d, Some ts => row_estimate E d ts nf x | _, _ => Err AttributeError end) = Ok r).
  { intros x r. rewrite estimate_rows by (auto; discriminate). unfold with_rows. destruct (o_data o) as [d|]; [|split; discriminate].
    destruct (o_trees o) as [ts|]; [|split; discriminate]. cbn [mapX]. destruct (row_estimate E d ts nf x); cbn [bind]; [|split; discriminate].
    split; intros [= <-]; reflexivity. }
  split.
  - intros H. destruct (o_data o) as [d|] eqn:Ed; [|discriminate]. destruct (o_trees o) as [ts|] eqn:Et; [|discriminate].
    apply mapX_inv in H. eapply Forall2_weaken; [|exact H]. intros x r Hr. apply O. rewrite ?Ed, ?Et. exact Hr.
  - intros H. destruct xs as [|x0 xs]; [congruence|]. inversion H as [|? r0 ? rs H0 H1]; subst. apply O in H0.
    destruct (o_data o) as [d|] eqn:Ed; [|discriminate]. destruct (o_trees o) as [ts|] eqn:Et; [|discriminate].
    apply forall2_mapX. eapply Forall2_weaken; [|exact H]. intros x r Hr. apply O in Hr. rewrite ?Ed, ?Et in Hr. exact Hr.
Qed.
Print Assumptions C162_rowwise.
Theorem C162_no_rows_refuted E o nf d ts : o_fitted o = true -> o_data o = Some d -> o_trees o = Some ts ->
  grf_estimate E o (Some (nf, [])) = Err ValueError.
Proof. intros F D T. unfold grf_estimate. now rewrite F, D, T. Qed.
Print Assumptions C162_no_rows_refuted.
Theorem C162_unfitted E p data : grf_estimate E (grf_init p) data = Err AssertionError.
Proof. reflexivity. Qed.
Print Assumptions C162_unfitted.
Example C162_example y x x' : exists o t t', grf_fit E1 (d3 y) None (grf_init p3) = (o, Ok tt) /\
  grf_estimate E1 o (Some (1%nat, [x; x'])) = Ok [[t]; [t']].
Proof.
  destruct (single_estimate y x) as (o & t & A & B & _). destruct (single_estimate y x') as (o' & t' & A' & B' & _).
  assert (o' = o) by congruence. subst o'. exists o, t, t'. split; [auto|]. apply C162_rowwise.
  - clear - A. destruct (fit_fresh E1 p3 (d3 y) tr3 None 2 None C160_usable proper3 enough3 eq_refl (grf_init p3) eq_refl eq_refl sizes3 (fun _ => eq_refl)) as (ts & E & _).
    rewrite E in A. now injection A as <-.
  - discriminate.
  - constructor; [auto|]. constructor; [auto|constructor].
Qed.

(* ------------------------------------------------------------------------------------------------ *)
(** ** C163: sample weights *)

Lemma mapX_ext {X Y} (f g : X -> res Y) l : (forall x, f x = g x) -> mapX f l = mapX g l.
Proof. intros H. induction l; cbn; [auto|]. rewrite H. destruct (g a); cbn; [|auto]. now rewrite IHl. Qed.
Lemma mbind_ext {St A B} (m : M St A) (k k' : A -> M St B) s : (forall a s, k a s = k' a s) -> mbind m k s = mbind m k' s.
Proof. intros H. unfold mbind. destruct (m s) as [s' [a|]]; auto. Qed.

(** fit sees the trees only through grow_tree *)
Lemma fit_grow_ext E d sw sw' o :
  (forall h seed s, grow_tree E (o_par o) d sw h seed s = grow_tree E (o_par o) d sw' h seed s) -> grf_fit E d sw o = grf_fit E d sw' o.
Proof.
  intros H. unfold grf_fit, mbind, mset, mget, mlift. cbn [o_par o_random o_trees o_data o_fitted].
  destruct (sub_samples_num _ _) as [sub|]; [|reflexivity]. destruct (honest_num _ _) as [h|]; [|reflexivity].
  destruct (_ <=? 0)%Z; [reflexivity|]. destruct (_ <? _)%Z; [reflexivity|].
  destruct (mapX _ _) as [ss|]; [|reflexivity].
  rewrite (mapX_ext (fun q => grow_tree E (o_par o) d sw h (fst q) (snd q)) (fun q => grow_tree E (o_par o) d sw' h (fst q) (snd q))); [reflexivity|].
  intros; apply H.
Qed.

(** Unless min_weight_fraction_leaf is set, the result of fit - and so every estimate - does not depend on sample_weight. *)
Theorem C163_ignored_refuted E d sw o : fp_mwf (o_par o) = 0 -> grf_fit E d sw o = grf_fit E d None o.
Proof.
  intros H. apply fit_grow_ext. intros h seed s. unfold grow_tree. destruct (fd_v d) as [v|]; [|reflexivity].
  assert (T : forall l, grf_tree E (o_par o) d v sw seed l = grf_tree E (o_par o) d v None seed l).
  { intros [|r0 l]; [reflexivity|]. unfold grf_tree, min_weight. rewrite H, !Rmult_0_l. reflexivity. }
  now rewrite T.
Qed.
Print Assumptions C163_ignored_refuted.
(** In general only the sum of the weights of the growing rows of each tree matters, through the bound min_weight_leaf,
    which is compared with the number of rows. *)
Theorem C163_sum_only_refuted E p d sw sw' m h : sizes p (fd_n d) m h -> enough (fd_n d) m h -> (1 <= fp_n p)%Z ->
  (forall k, Rsum (map sw (growing h (sample_of E (fd_n d) m k))) = Rsum (map sw' (growing h (sample_of E (fd_n d) m k)))) ->
  grf_fit E d (Some sw) (grf_init p) = grf_fit E d (Some sw') (grf_init p).
Proof.
  intros Hz Hn HN H.
  rewrite !(fit_run E d _ (grf_init p) m h eq_refl); auto; try (unfold fresh_trees; cbn; destruct (fp_warm p); cbn; lia).
  cbn [grf_init o_par base_est_init base_forest_init].
  rewrite (mapX_ext (fun k => grow_tree E p d (Some sw) (hZ h) (seed_of E k) (sample_of E (fd_n d) m k))
                    (fun k => grow_tree E p d (Some sw') (hZ h) (seed_of E k) (sample_of E (fd_n d) m k))); [reflexivity|].
  intros k. unfold grow_tree. destruct (fd_v d) as [v|]; [|reflexivity].
  replace (match hZ h with None => sample_of E (fd_n d) m k | Some h0 => skipn (Z.to_nat h0) (sample_of E (fd_n d) m k) end)
    with (growing h (sample_of E (fd_n d) m k)) by (destruct h; cbn; now rewrite ?Nat2Z.id).
  specialize (H k). destruct (growing h (sample_of E (fd_n d) m k)) as [|r0 l]; [reflexivity|].
  assert (T : grf_tree E p d v (Some sw) (seed_of E k) (r0 :: l) = grf_tree E p d v (Some sw') (seed_of E k) (r0 :: l)).
  { unfold grf_tree, min_weight. rewrite !fold_Rsum, H. reflexivity. }
  now rewrite T.
Qed.
Print Assumptions C163_sum_only_refuted.

(* ------------------------------------------------------------------------------------------------ *)
(** ** C164: honest trees *)

(** two data sets with the same rows, treatments counted, covariates; they agree on the rows l *)
Definition same_shape (d d' : fdata) : Prop := fd_n d = fd_n d' /\ fd_p d = fd_p d' /\ fd_nf d = fd_nf d' /\ fd_v d = fd_v d'.
Definition agree_on (d d' : fdata) (l : list nat) : Prop := forall i, In i l -> fd_y d i = fd_y d' i /\ forall j, fd_x d i j = fd_x d' i j.

Lemma nth_in {A} (l : list A) a l' i : l = a :: l' -> In (nth i l a) l.
Proof. intros ->. destruct (nth_in_or_default i (a :: l') a) as [H| ->]; [auto|now left]. Qed.

Lemma grow_tree_local E p d d' sw h seed s : same_shape d d' -> agree_on d d' (growing h s) ->
  grow_tree E p d sw (hZ h) seed s = grow_tree E p d' sw (hZ h) seed s.
Proof.
  intros (S1 & S2 & S3 & S4) A. unfold grow_tree. rewrite <- S4. destruct (fd_v d) as [v|]; [|reflexivity].
  replace (match hZ h with None => s | Some h0 => skipn (Z.to_nat h0) s end) with (growing h s)
    by (destruct h; cbn; now rewrite ?Nat2Z.id).
  assert (T : grf_tree E p d v sw seed (growing h s) = grf_tree E p d' v sw seed (growing h s)).
  { unfold grf_tree. destruct (growing h s) as [|r0 l] eqn:Eg; [reflexivity|]. rewrite <- S2, <- S3.
    assert (Ex : (fun i => fd_x d (nth i (r0 :: l) r0)) = (fun i => fd_x d' (nth i (r0 :: l) r0))).
    { apply functional_extensionality. intros i. apply functional_extensionality. intros j. apply A. now apply (nth_in _ r0 l). }
    assert (Ey : (fun i => fd_y d (nth i (r0 :: l) r0)) = (fun i => fd_y d' (nth i (r0 :: l) r0))).
    { apply functional_extensionality. intros i. apply A. now apply (nth_in _ r0 l). }
    cbv zeta. now rewrite Ex, Ey. }
  rewrite T, <- S1, <- S3. reflexivity.
Qed.

(** The structure and the labels of the k-th tree depend on outcomes and treatments only through its growing rows: the
    outcomes of its labelling rows do not matter. *)
Theorem C164_honest E p d d' sw m h o o' ts ts' :
  sizes p (fd_n d) m h -> enough (fd_n d) m h -> (1 <= fp_n p)%Z -> same_shape d d' ->
  grf_fit E d sw (grf_init p) = (o, Ok tt) -> grf_fit E d' sw (grf_init p) = (o', Ok tt) ->
  o_trees o = Some ts -> o_trees o' = Some ts' ->
  forall k, agree_on d d' (growing h (sample_of E (fd_n d) m k)) -> nth_error ts k = nth_error ts' k.
Proof.
  intros Hz Hn HN Sh F F' T T' k A. pose proof Sh as (S1 & _).
  rewrite (fit_run E d sw (grf_init p) m h eq_refl) in F; [|exact Hz|exact Hn|exact HN|unfold fresh_trees; cbn; destruct (fp_warm p); cbn; lia].
  rewrite (fit_run E d' sw (grf_init p) m h eq_refl) in F'; [|cbn [grf_init o_par base_est_init base_forest_init]; rewrite <- S1; exact Hz|rewrite <- S1; exact Hn|exact HN|unfold fresh_trees; cbn; destruct (fp_warm p); cbn; lia].
  rewrite <- S1 in F'.
  assert (F0 : fresh_trees (grf_init p) = []) by (unfold fresh_trees; cbn; now destruct (fp_warm p)). rewrite F0 in F, F'. cbn [app length] in F, F'.
  cbn [grf_init o_par base_est_init base_forest_init] in F, F'. set (N := (Z.to_nat (fp_n p) - 0)%nat) in *.
  destruct (mapX (fun k => grow_tree E p d _ _ _ _) (seq 0 N)) as [us|] eqn:Eu; [|discriminate]. injection F as <-. cbn in T. injection T as <-.
  destruct (mapX (fun k => grow_tree E p d' _ _ _ _) (seq 0 N)) as [us'|] eqn:Eu'; [|discriminate]. injection F' as <-. cbn in T'. injection T' as <-.
  assert (G : forall N a us us', mapX (fun k => grow_tree E p d sw (hZ h) (seed_of E k) (sample_of E (fd_n d) m k)) (seq a N) = Ok us ->
     mapX (fun k => grow_tree E p d' sw (hZ h) (seed_of E k) (sample_of E (fd_n d) m k)) (seq a N) = Ok us' ->
     forall k, agree_on d d' (growing h (sample_of E (fd_n d) m (a + k))) -> nth_error us k = nth_error us' k).
  { clear - Sh. induction N as [|N IH]; intros a us us' Eu Eu' k A; cbn [seq mapX] in *; [congruence|].
    destruct (grow_tree E p d _ _ _ _) as [t|] eqn:Et; [|discriminate]. cbn [bind] in Eu. destruct (mapX _ _) as [r|] eqn:Er in Eu; [|discriminate].
    cbn [bind] in Eu. injection Eu as <-.
    destruct (grow_tree E p d' _ _ _ _) as [t'|] eqn:Et'; [|discriminate]. cbn [bind] in Eu'. destruct (mapX _ _) as [r'|] eqn:Er' in Eu'; [|discriminate].
    cbn [bind] in Eu'. injection Eu' as <-. destruct k as [|k]; cbn [nth_error].
    - rewrite Nat.add_0_r in A. rewrite (grow_tree_local E p d d' sw h _ _ Sh A) in Et. congruence.
    - apply (IH (S a) r r' Er Er'). now replace (S a + k)%nat with (a + S k)%nat by lia. }
  apply (G N 0%nat us us' Eu Eu' k A).
Qed.
Print Assumptions C164_honest.

(** An integer honest_subsample_num never works. *)
Theorem C164_int_refuted E d sw o k m : fp_honest (o_par o) = Some (NInt k) -> sub_samples_num (fd_n d) (fp_sub (o_par o)) = Ok m ->
  snd (grf_fit E d sw o) = Err AttributeError.
Proof.
  intros H Hm. unfold grf_fit, mbind, mset, mget, mlift. cbn [o_par]. rewrite Hm, H. reflexivity.
Qed.
Print Assumptions C164_int_refuted.
(** A float is the share of the rows that label, not of those that grow, as documented. *)
Theorem C164_swapped_refuted E p d m h r k : usable E -> sizes p (fd_n d) m (Some h) -> enough (fd_n d) m (Some h) -> fp_honest p = Some (NReal r) ->
  nearest (r * INR m) (Z.of_nat (length (labelling (Some h) (sample_of E (fd_n d) m k)))) /\
  (length (growing (Some h) (sample_of E (fd_n d) m k)) = m - length (labelling (Some h) (sample_of E (fd_n d) m k)))%nat.
Proof.
  intros U [_ Hz] Hn Hh. destruct (sample_ok E d m (Some h) U Hn k) as (L & _). rewrite Hh in Hz. destruct Hn as [Hn Hm].
  cbn [growing labelling]. rewrite firstn_length, skipn_length, L, Nat.min_l by lia. auto.
Qed.
Print Assumptions C164_swapped_refuted.
Example C164_example y y' t : (forall i, i <> 0%nat -> y i = y' i) ->
  exists o o' ts, grf_fit E1 (dh 1 y t) None (grf_init ph) = (o, Ok tt) /\ grf_fit E1 (dh 1 y' t) None (grf_init ph) = (o', Ok tt) /\
    o_trees o = Some ts /\ o_trees o' = Some ts /\ length ts = 1%nat.
Proof.
  intros H.
  destruct (fit_fresh E1 ph (dh 1 y t) cov None 3 (Some 1%nat) C160_usable properh enoughh eq_refl (grf_init ph) eq_refl eq_refl sizesh (fun _ => eq_refl)) as (ts & F & L).
  destruct (fit_fresh E1 ph (dh 1 y' t) cov None 3 (Some 1%nat) C160_usable properh enoughh eq_refl (grf_init ph) eq_refl eq_refl sizesh (fun _ => eq_refl)) as (ts' & F' & L').
  assert (N : nth_error ts 0 = nth_error ts' 0).
  { apply (C164_honest E1 ph (dh 1 y t) (dh 1 y' t) None 3 (Some 1%nat) _ _ ts ts' sizesh enoughh ltac:(cbn; lia) ltac:(repeat split) F F' eq_refl eq_refl).
    intros i Hi. cbn in Hi. split; [apply H|reflexivity]. destruct Hi as [<-|[<-|[]]]; discriminate. }
  change (Z.to_nat (fp_n ph)) with 1%nat in L, L'. inversion L as [|? t1 ? l1 _ L1]; subst. inversion L1; subst.
  inversion L' as [|? t1' ? l1' _ L1']; subst. inversion L1'; subst. cbn in N. injection N as <-.
  exists (mkF ph 2022 (Some [t1]) (Some (dh 1 y t)) true), (mkF ph 2022 (Some [t1]) (Some (dh 1 y' t)) true), [t1]. auto.
Qed.

(* ------------------------------------------------------------------------------------------------ *)
(** ** C165: random_state *)

Definition with_random (p : fparams) (r : option Z) : fparams :=
  mkFp (fp_n p) (fp_sub p) (fp_honest p) r (fp_warm p) (fp_mwf p) (fp_mln p) (fp_set p).
(** Every random_state gives the same trees, errors and estimates. *)
Theorem C165_ignored_refuted E p d sw r r' data :
  let a := grf_fit E d sw (grf_init (with_random p r)) in let b := grf_fit E d sw (grf_init (with_random p r')) in
  snd a = snd b /\ o_trees (fst a) = o_trees (fst b) /\ grf_estimate E (fst a) data = grf_estimate E (fst b) data.
Proof.
  cbv zeta. unfold grf_fit, mbind, mset, mget, mlift. cbn [o_par o_random o_trees o_data o_fitted grf_init base_est_init base_forest_init with_random fp_sub fp_honest fp_n fp_warm].
  destruct (sub_samples_num _ _) as [sub|]; [|auto]. destruct (honest_num _ _) as [h|]; [|auto].
  destruct (_ <=? 0)%Z; [auto|]. destruct (_ <? _)%Z; [auto|].
  destruct (mapX _ _) as [ss|]; [|auto].
  change (fun q => grow_tree E (with_random p r') d sw h (fst q) (snd q)) with (fun q => grow_tree E p d sw h (fst q) (snd q)).
  change (fun q => grow_tree E (with_random p r) d sw h (fst q) (snd q)) with (fun q => grow_tree E p d sw h (fst q) (snd q)).
  destruct (mapX _ _) as [ts|]; auto.
Qed.
Print Assumptions C165_ignored_refuted.
(** fit is a function of its arguments and the object: the same call on the same object gives the same trees (model). *)

(* ------------------------------------------------------------------------------------------------ *)
(** ** C166: methods that never work *)

Lemma mapX_len {X Y} (f : X -> res Y) l ys : mapX f l = Ok ys -> length ys = length l.
Proof. intros H. apply mapX_inv in H. induction H; cbn; auto. Qed.
Lemma fit_trees E d sw p o : grf_fit E d sw (grf_init p) = (o, Ok tt) ->
  exists t ts, o_trees o = Some (t :: ts) /\ o_fitted o = true /\ o_par o = p /\ o_random o = 2022%Z /\ o_data o = Some d.
Proof.
  unfold grf_fit, mbind, mset, mget, mlift. cbn [o_par o_random o_trees o_data o_fitted grf_init base_est_init base_forest_init].
  destruct (sub_samples_num _ _) as [sub|]; [|discriminate]. destruct (honest_num _ _) as [h|]; [|discriminate].
  destruct (Z.leb_spec (fp_n p) 0); [discriminate|].
  replace (if fp_warm p then some_or None [] else []) with (@nil gtree) by now destruct (fp_warm p). cbn [length].
  destruct (_ <? _)%Z; [discriminate|].
  destruct (mapX _ (map _ _)) as [ss|] eqn:Es; [|discriminate].
  destruct (mapX _ (combine _ _)) as [ts|] eqn:Et; [|discriminate]. intros [= <-]. cbn [o_trees app].
  apply mapX_len in Es, Et. rewrite map_length, seq_length in Es. rewrite combine_length, Es, map_length, seq_length in Et.
  destruct ts as [|t ts]; [cbn in Et; lia|]. exists t, ts. cbn. auto.
Qed.
Theorem C166_apply_refuted E d sw p o rows : grf_fit E d sw (grf_init p) = (o, Ok tt) -> grf_apply o rows = Err TypeError.
Proof. intros H. destruct (fit_trees _ _ _ _ _ H) as (t & ts & T & _). unfold grf_apply. now rewrite T. Qed.
Print Assumptions C166_apply_refuted.
Theorem C166_effect_nji_refuted : grf_effect_nji = Err NotImplementedError.
Proof. reflexivity. Qed.
Print Assumptions C166_effect_nji_refuted.
(** feature_importance of a forest whose trees are single nodes, e.g. with max_leaf_nodes = 1 *)
Theorem C166_importance_refuted E p d v sw m h : usable E -> proper p -> sizes p (fd_n d) m h -> enough (fd_n d) m h -> fd_v d = Some v ->
  fp_mln p = Some 1%nat -> exists o, grf_fit E d sw (grf_init p) = (o, Ok tt) /\ grf_importances o = Err AttributeError.
Proof.
  intros U P Hz Hn Hv M.
  destruct (fit_fresh E p d v sw m h U P Hn Hv (grf_init p) eq_refl eq_refl Hz (fun _ => eq_refl)) as (ts & F & L).
  exists (mkF p 2022 (Some ts) (Some d) true). split; [exact F|]. unfold grf_importances. cbn [o_trees].
  replace (filter (fun t => (1 <? length (t_nodes t))%nat) ts) with (@nil gtree); [reflexivity|]. symmetry.
  assert (A : forall t, In t ts -> length (t_nodes t) = 1%nat).
  { clear F. intros t Ht. induction L as [|k t' l l' Hm L IH]; [destruct Ht|]. destruct Ht as [->|Ht]; [|auto].
    destruct Hm as (b & f & Eb & -> & _). exact (single_node E p d v sw _ _ b U P M Eb). }
  clear - A. induction ts as [|t ts IH]; [reflexivity|]. cbn [filter]. rewrite (A t) by now left. cbn. apply IH. intros; apply A; now right.
Qed.
Print Assumptions C166_importance_refuted.
Example C166_example : exists o, grf_fit E1 (d3 INR) None (grf_init p3) = (o, Ok tt) /\ grf_importances o = Err AttributeError /\ grf_apply o [] = Err TypeError.
Proof.
  destruct (C166_importance_refuted E1 p3 (d3 INR) tr3 None 2 None C160_usable proper3 sizes3 enough3 eq_refl eq_refl) as (o & A & B).
  exists o. split; [auto|]. split; [auto|]. eapply C166_apply_refuted; eauto.
Qed.

(* ------------------------------------------------------------------------------------------------ *)
(** ** C167: warm_start *)

Definition with_n (p : fparams) (n : Z) : fparams :=
  mkFp n (fp_sub p) (fp_honest p) (fp_random p) (fp_warm p) (fp_mwf p) (fp_mln p) (fp_set p).
(** forest.n_estimators = n *)
Definition set_n (o : forest) (n : Z) : forest := mkF (with_n (o_par o) n) (o_random o) (o_trees o) (o_data o) (o_fitted o).

(** With warm_start, fitting n1 trees and then n2 >= n1 trees on the same data gives the object of fitting n2 trees at once. *)
Theorem C167_warm_start E p d sw m h n1 n2 o2 :
  fp_warm p = true -> sizes p (fd_n d) m h -> enough (fd_n d) m h -> (1 <= n1 <= n2)%Z ->
  grf_fit E d sw (grf_init (with_n p n2)) = (o2, Ok tt) ->
  exists o1, grf_fit E d sw (grf_init (with_n p n1)) = (o1, Ok tt) /\ grf_fit E d sw (set_n o1 n2) = (o2, Ok tt).
Proof.
  intros Hw Hz Hn H12 F2.
  assert (R : forall n o, o_par o = with_n p n -> o_random o = 2022%Z -> (1 <= n)%Z -> (length (fresh_trees o) <= Z.to_nat n)%nat ->
    grf_fit E d sw o = match mapX (fun k => grow_tree E p d sw (hZ h) (seed_of E k) (sample_of E (fd_n d) m k))
             (seq (length (fresh_trees o)) (Z.to_nat n - length (fresh_trees o))) with
      | Ok ts => (mkF (with_n p n) 2022 (Some (fresh_trees o ++ ts)) (Some d) true, Ok tt)
      | Err e => (mkF (with_n p n) 2022 (Some (fresh_trees o)) (Some d) (o_fitted o), Err e) end).
  { intros n o Ho Hr H1 Hl. rewrite (fit_run E d sw o m h Hr); rewrite ?Ho; auto. }
  assert (F0 : forall n, fresh_trees (grf_init (with_n p n)) = []) by (intros; unfold fresh_trees; cbn; now destruct (fp_warm p)).
  rewrite (R n2) in F2; auto; [|lia|rewrite F0; cbn; lia]. rewrite F0 in F2. cbn [length app] in F2. rewrite Nat.sub_0_r in F2.
  destruct (mapX _ (seq 0 (Z.to_nat n2))) as [ts|] eqn:Et; [|discriminate]. injection F2 as <-.
  assert (Sq : seq 0 (Z.to_nat n2) = seq 0 (Z.to_nat n1) ++ seq (Z.to_nat n1) (Z.to_nat n2 - Z.to_nat n1)).
  { rewrite <- seq_app. f_equal. lia. }
  rewrite Sq, mapX_app in Et. destruct (mapX _ (seq 0 (Z.to_nat n1))) as [t1|] eqn:E1; [|discriminate]. cbn [bind] in Et.
  destruct (mapX _ (seq (Z.to_nat n1) _)) as [t2|] eqn:E2; [|discriminate]. cbn [bind] in Et. injection Et as <-.
  exists (mkF (with_n p n1) 2022 (Some t1) (Some d) true). split.
  - rewrite (R n1); auto; [|lia|rewrite F0; cbn; lia]. rewrite F0. cbn [length app]. now rewrite Nat.sub_0_r, E1.
  - assert (L1 : length t1 = Z.to_nat n1) by (apply mapX_len in E1; now rewrite seq_length in E1).
    set (o := set_n _ n2). assert (Fo : fresh_trees o = t1) by (unfold fresh_trees, o, set_n; cbn; now rewrite Hw).
    rewrite (R n2 o); auto; [|lia|rewrite Fo, L1; lia]. now rewrite Fo, L1, E2.
Qed.
Print Assumptions C167_warm_start.

(** But if n_estimators does not grow, no tree is fitted to new data: fit keeps the old trees and replaces the data. *)
Theorem C167_stale_refuted E d sw m h o ts :
  fp_warm (o_par o) = true -> o_trees o = Some ts -> fp_n (o_par o) = Z.of_nat (length ts) -> (1 <= length ts)%nat -> o_random o = 2022%Z ->
  sizes (o_par o) (fd_n d) m h -> enough (fd_n d) m h ->
  grf_fit E d sw o = (mkF (o_par o) 2022 (Some ts) (Some d) true, Ok tt).
Proof.
  intros Hw Ht Hl H1 Hr Hz Hn. assert (Fo : fresh_trees o = ts) by (unfold fresh_trees; now rewrite Hw, Ht).
  rewrite (fit_run E d sw o m h Hr); auto; [|lia|rewrite Fo; lia]. rewrite Fo, Hl, Nat2Z.id, Nat.sub_diag. cbn [seq mapX]. now rewrite app_nil_r.
Qed.
Print Assumptions C167_stale_refuted.

(** ... and if there are fewer rows, estimate may then fail: a forest of single nodes fitted to three rows, then to two *)
Definition pw : fparams := mkFp 1 (Some (NInt 2)) None None true 0 (Some 1%nat) (fun _ _ => set3).
Definition d2 (y : nat -> R) : fdata := mkFd 2 1 1 y tr3 (Some tr3).
Theorem C167_index_refuted y y' x : exists o o',
  grf_fit E1 (d3 y) None (grf_init pw) = (o, Ok tt) /\ grf_fit E1 (d2 y') None o = (o', Ok tt) /\
  grf_estimate E1 o' (Some (1%nat, [x])) = Err IndexError.
Proof.
  assert (Pw : proper pw) by (split; [cbn; lia|]; split; [intros; cbn; lia|]; intros m [= <-]; lia).
  assert (Sz : sizes pw 3 2 None) by (split; [reflexivity|exact I]). assert (Sz' : sizes pw 2 2 None) by (split; [reflexivity|exact I]).
  assert (En' : enough 2 2 None) by (unfold enough; split; lia).
  destruct (fit_fresh E1 pw (d3 y) tr3 None 2 None C160_usable Pw enough3 eq_refl (grf_init pw) eq_refl eq_refl Sz (fun _ => eq_refl)) as (ts & F & L).
  change (Z.to_nat (fp_n pw)) with 1%nat in L. inversion L as [|? t1 ? l1 Hm L1]; subst. inversion L1; subst.
  destruct Hm as (b & f & Eb & _ & Gb & Ef & ->). pose proof (single_node _ _ _ _ _ _ _ _ C160_usable Pw eq_refl Eb) as Len.
  set (t1 := mkT (b_nodes b) _ _) in *. set (o := mkF pw 2022 (Some [t1]) (Some (d3 y)) true) in *.
  exists o, (mkF pw 2022 (Some [t1]) (Some (d2 y')) true). split; [exact F|]. split.
  - exact (C167_stale_refuted E1 (d2 y') None 2 None o [t1] eq_refl eq_refl eq_refl (le_n 1) eq_refl Sz' En').
  - rewrite estimate_rows by (auto; discriminate). unfold with_rows. cbn [o_data o_trees mapX]. unfold row_estimate, forest_alpha. cbn [mapX].
    assert (A : tree_alpha t1 (fd_n (d2 y')) 1 x = Err IndexError); [|now rewrite A].
    unfold tree_alpha. cbn [t1 t_nf t_nodes t_rec d3 fd_nf Nat.eqb negb fd_n d2]. rewrite Ef. cbn [bind].
    assert (Z : forall z, f z = 0%nat). { intros z. destruct (Gb z) as (j & J1 & J2 & _). rewrite Ef in J1. injection J1 as ->. now apply J2. }
    rewrite Z. change (labelling None (sample_of E1 3 2 0)) with [0; 1]%nat. cbn [map]. rewrite !Z. reflexivity.
Qed.
Print Assumptions C167_index_refuted.

(* ------------------------------------------------------------------------------------------------ *)
(** ** C168: fitting again *)

(** Without warm_start, a fit that succeeds does not depend on what the object did before. *)
Theorem C168_refit E d sw o : fp_warm (o_par o) = false -> o_random o = 2022%Z ->
  snd (grf_fit E d sw o) = snd (grf_fit E d sw (grf_init (o_par o))) /\
  (snd (grf_fit E d sw o) = Ok tt -> grf_fit E d sw o = grf_fit E d sw (grf_init (o_par o))).
Proof.
  intros Hw Hr. unfold grf_fit, mbind, mset, mget, mlift. cbn [o_par o_random o_trees o_data o_fitted grf_init base_est_init base_forest_init].
  destruct (sub_samples_num _ _) as [sub|]; [|cbn; split; [reflexivity|discriminate]].
  destruct (honest_num _ _) as [h|]; [|cbn; split; [reflexivity|discriminate]].
  destruct (_ <=? 0)%Z; [cbn; split; [reflexivity|discriminate]|]. rewrite Hw, Hr. cbn [length].
  destruct (_ <? _)%Z; [cbn; split; [reflexivity|discriminate]|].
  destruct (mapX _ (map _ _)) as [ss|]; [|cbn; split; [reflexivity|discriminate]].
  destruct (mapX _ (combine _ _)) as [ts|]; cbn; split; auto; discriminate.
Qed.
Print Assumptions C168_refit.

(** A fit that fails because sub_sample_num is larger than the new data leaves a fitted object: the old trees, the new
    data. *)
Theorem C168_failed_refit_refuted E d sw o k : fp_sub (o_par o) = Some (NInt k) -> (Z.of_nat (fd_n d) < k)%Z ->
  grf_fit E d sw o = (mkF (o_par o) (o_random o) (o_trees o) (Some d) (o_fitted o), Err ValueError).
Proof.
  intros Hk Hl. unfold grf_fit, mbind, mset, mget, mlift. cbn [o_par]. rewrite Hk. cbn [sub_samples_num].
  destruct (Z.ltb_spec (Z.of_nat (fd_n d)) k); [reflexivity|lia].
Qed.
Print Assumptions C168_failed_refit_refuted.

(** ... so that estimate still answers, with the new outcomes *)
Definition p4 : fparams := mkFp 1 (Some (NInt 3)) None None false 0 (Some 1%nat) (fun _ _ => set3).
Example C168_example y x : exists o e, grf_fit E1 (d3 y) None (grf_init p4) = (o, Ok tt) /\
  snd (grf_fit E1 (d2 y) None o) = Err ValueError /\ grf_estimate E1 (fst (grf_fit E1 (d2 y) None o)) (Some (1%nat, [x])) = Err e /\
  o_fitted (fst (grf_fit E1 (d2 y) None o)) = true.
Proof.
  assert (P4 : proper p4) by (split; [cbn; lia|]; split; [intros; cbn; lia|]; intros m [= <-]; lia).
  assert (Sz : sizes p4 3 3 None) by (split; [reflexivity|exact I]). assert (En : enough 3 3 None) by (unfold enough; split; lia).
  destruct (fit_fresh E1 p4 (d3 y) tr3 None 3 None C160_usable P4 En eq_refl (grf_init p4) eq_refl eq_refl Sz (fun _ => eq_refl)) as (ts & F & L).
  change (Z.to_nat (fp_n p4)) with 1%nat in L. inversion L as [|? t1 ? l1 Hm L1]; subst. inversion L1; subst.
  destruct Hm as (b & f & Eb & _ & Gb & Ef & ->). pose proof (single_node _ _ _ _ _ _ _ _ C160_usable P4 eq_refl Eb) as Len.
  set (t1 := mkT (b_nodes b) _ _) in *. set (o := mkF p4 2022 (Some [t1]) (Some (d3 y)) true) in *.
  exists o, IndexError. split; [exact F|].
  rewrite (C168_failed_refit_refuted E1 (d2 y) None o 3 eq_refl ltac:(cbn; lia)). cbn [fst snd]. split; [reflexivity|]. split; [|reflexivity].
  rewrite estimate_rows by (auto; discriminate). unfold with_rows. cbn [o_data o_trees o mapX]. unfold row_estimate, forest_alpha. cbn [mapX].
  assert (A : tree_alpha t1 (fd_n (d2 y)) 1 x = Err IndexError); [|now rewrite A].
  unfold tree_alpha. cbn [t1 t_nf t_nodes t_rec d3 fd_nf Nat.eqb negb fd_n d2]. rewrite Ef. cbn [bind].
  assert (Z : forall z, f z = 0%nat). { intros z. destruct (Gb z) as (j & J1 & J2 & _). rewrite Ef in J1. injection J1 as ->. now apply J2. }
  rewrite Z. change (labelling None (sample_of E1 3 3 0)) with [0; 1; 2]%nat. cbn [map]. rewrite !Z. reflexivity.
Qed.

(* ------------------------------------------------------------------------------------------------ *)
(** ** C169: the memory of init_criterion *)

(** every access of init_criterion for a node with m samples is inside the memory it allocated *)
Definition in_bounds (d_y p m : nat) : Prop :=
  forall q, In q (solve_writes d_y p m ++ solve_reads d_y p m ++ other_accesses d_y p m) -> (q < work_size d_y p m)%nat.

Theorem C169_bounds_partial p m : (1 <= p)%nat -> (in_bounds 1 p m <-> (p <= m)%nat).
Proof.
  intros Hp. unfold in_bounds, work_size. split.
  - intros H. specialize (H (y_node_cpy 1 p m + (p - 1))%nat). unfold y_node_cpy in H.
    assert (Hi : In (m * 1 + m * p + 1 * p + p * p + m * p + m * 1 + m * p + (p - 1))%nat
                  (solve_writes 1 p m ++ solve_reads 1 p m ++ other_accesses 1 p m)).
    { apply in_or_app. left. unfold solve_writes. apply in_map_iff. exists (p - 1)%nat. split; [reflexivity|]. apply in_seq. lia. }
    specialize (H Hi). lia.
  - intros Hm q Hq. assert (p * p <= m * p)%nat as _ by nia.
    assert (Gr : forall a rows cols stride q, In q (flat_map (fun r => map (fun c => (a + (r + stride * c))%nat) (seq 0 cols)) (seq 0 rows)) ->
      (rows <= stride)%nat -> (a <= q < a + stride * cols)%nat).
    { clear. intros a rows cols stride q H Hs. apply in_flat_map in H. destruct H as (r & Hr & H). apply in_map_iff in H.
      destruct H as (c & <- & Hc). apply in_seq in Hr, Hc. nia. }
    apply in_app_or in Hq; destruct Hq as [Hq|Hq]; [|apply in_app_or in Hq; destruct Hq as [Hq|Hq]].
    + unfold solve_writes, y_node_cpy in Hq. apply in_map_iff in Hq. destruct Hq as (c & <- & Hc). apply in_seq in Hc. lia.
    + unfold solve_reads, y_node_cpy in Hq. apply in_flat_map in Hq. destruct Hq as (r & Hr & Hq). apply in_map_iff in Hq.
      destruct Hq as (c & <- & Hc). apply in_seq in Hr, Hc. assert (c = 0%nat) as -> by lia. lia.
    + unfold other_accesses in Hq. repeat (apply in_app_or in Hq; destruct Hq as [Hq|Hq]); apply Gr in Hq; lia.
Qed.
Print Assumptions C169_bounds_partial.

(** So the nodes of a tree are safe if there are at most min_samples_leaf treatment columns, and the root has as many rows. *)
Theorem C169_tree_safe_partial E p d v sw seed s b : usable E -> proper p -> grf_tree E p d v sw seed s = Ok b ->
  (1 <= fd_p d <= length s)%nat -> (fd_p d <= g_min_samples_leaf (fp_set p (length s) (fd_nf d)))%nat ->
  forall j nd, nth_error (b_nodes b) j = Some nd -> in_bounds 1 (fd_p d) (nd_n nd).
Proof.
  intros U P Eb H1 H2 j nd Hj. apply C169_bounds_partial; [lia|].
  destruct (tree_counts E p d v sw seed s b U P Eb j nd Hj) as (_ & A & B & _).
  destruct (Nat.eq_dec j 0) as [Z|Z]; [rewrite A by auto; lia|]. specialize (B Z). cbn [tree_settings with_min_weight g_min_samples_leaf] in B. lia.
Qed.
Print Assumptions C169_tree_safe_partial.

(** With the default min_samples_leaf = 1 and two treatment columns, a tree is grown that has nodes for which the solution is
    written past the end. *)
Theorem C169_overflow_refuted y t seed : exists b j nd,
  grf_tree E1 ph (dh 2 y t) cov None seed [1; 2]%nat = Ok b /\ nth_error (b_nodes b) j = Some nd /\ ~ in_bounds 1 2 (nd_n nd).
Proof.
  destruct (grf_tree_ok E1 ph (dh 2 y t) cov None seed C160_usable properh [1; 2]%nat ltac:(discriminate)) as (b & Eb & Gb).
  destruct (splits_two _ _ _ _ _ Eb) as [N1 N2]. exists b.
  assert (Rk : computes (tree_data (dh 2 y t) [1; 2]%nat) (weighted_n (tree_data (dh 2 y t) [1; 2]%nat) 2)
     (grf_crit (v_la E1) 2 (rows_of t [1; 2]%nat) (tree_data (dh 2 y t) [1; 2]%nat)) (tree_spec E1 (dh 2 y t) [1; 2]%nat)).
  { apply (tree_computes E1 (dh 2 y t) [1; 2]%nat C160_usable). }
  destruct (@C97_predict _ _ (grf_crit (v_la E1) 2 (rows_of t [1; 2]%nat)) (tree_spec E1 (dh 2 y t) [1; 2]%nat) (v_tree E1 seed)
     (tree_settings ph (dh 2 y t) None [1; 2]%nat) (v_pick E1) 1000 X2 (mkData 1 (rows_of y [1; 2]%nat) None) 2 1 b (fun _ => 0) Rk
     (us_tree _ C160_usable seed) (us_pick _ C160_usable) ltac:(cbn; lia) ltac:(lia) ltac:(lia)
     (tree_grow E1 ph (dh 2 y t) cov None seed [1; 2]%nat b Eb) (X2 0)) as (j & nd & A1 & A2 & A3 & _ & A5 & _).
  exists j, nd. split; [exact Eb|]. split; [exact A2|]. intros B. apply C169_bounds_partial in B; [|lia].
  rewrite A5 in B. unfold samples_at in B. cbn [seq filter] in B. rewrite A1 in B.
  change (X2 0) with (cov 1) in *. change (X2 1) with (cov 2) in *. rewrite A1 in N2. rewrite Nat.eqb_refl in B.
  destruct (tree_apply (b_nodes b) (cov 2)) as [k|]; [|cbn in B; lia]. destruct (Nat.eqb_spec k j); [congruence|cbn in B; lia].
Qed.
Print Assumptions C169_overflow_refuted.

(* ------------------------------------------------------------------------------------------------ *)
(** ** C170: the splits of a tree *)

(** the improvement of a split of the rows s (numbers of rows in the tree's data) *)
Definition score (E : fenv) (d : fdata) (rows : list nat) (X : nat -> nat -> R) (f : nat) (t : R) (s : list nat) : R :=
  let l := left_of X f t s in let r := right_of X f t s in
  let S := psum (v_la E) (tree_data d rows) (fd_p d) (rows_of (fd_x d) rows) (l ++ r) in
  S l ^ 2 / INR (length l) + S r ^ 2 / INR (length r).
Lemma w_sum_unit d rows l : w_sum (tree_data d rows) l = INR (length l).
Proof. induction l as [|a l IH]; [reflexivity|]. unfold w_sum in *. cbn [map length]. rewrite Rsum_cons, IH, S_INR. unfold wt. cbn. lra. Qed.

(** Every split of a tree, if all features are examined, is allowed and no other allowed split has a larger sum over the two
    sides of (sum of pseudo-outcomes)^2 / number of rows. *)
Theorem C170_best_split E p d v sw seed s b : usable E -> proper p -> grf_tree E p d v sw seed s = Ok b ->
  let g := fp_set p (length s) (fd_nf d) in let X := rows_of v s in
  (fd_nf d <= g_max_features g)%nat ->
  forall j nd a, nth_error (b_nodes b) j = Some nd -> nd_left nd = To a ->
  let node := passing (b_nodes b) X j (seq 0 (length s)) in
  let msl := g_min_samples_leaf g in let mwl := min_weight p sw s in let sp := tree_spec E d s in
  allowed sp X msl mwl (nd_feature nd) (nd_thr nd) node /\ separated X (nd_feature nd) (nd_thr nd) node /\
  g_min_decrease g <= score E d s X (nd_feature nd) (nd_thr nd) node + EPSILON /\
  forall f t, (f < fd_nf d)%nat -> allowed sp X msl mwl f t node -> separated X f t node ->
    score E d s X f t node <= score E d s X (nd_feature nd) (nd_thr nd) node.
Proof.
  intros U P Eb g X Hf j nd a Hj Ha node msl mwl sp.
  assert (Sc : forall i f t l, gain sp X i f t l = score E d s X f t l).
  { intros. unfold gain, score, sp, tree_spec. cbn [grf_spec cs_improve cs_children fst snd]. now rewrite !w_sum_unit. }
  pose proof (@C98_best_first _ _ (grf_crit (v_la E) (fd_p d) (rows_of (fd_x d) s)) sp (v_tree E seed) (tree_settings p d sw s) (v_pick E) (some_or (fp_mln p) 1000%nat)
     X (mkData 1 (rows_of (fd_y d) s) (option_map (fun w => rows_of w s) sw)) (length s) (fd_nf d) b (tree_ranking E d s U) (us_tree _ U seed) (us_pick _ U)
     (tree_leaf p d sw s P) (tree_rows E p d v sw seed s b Eb) (mln_pos p P) eq_refl Hf (tree_grow E p d v sw seed s b Eb) j nd Hj) as B.
  cbv zeta in B. rewrite Ha in B. destruct B as (B1 & B2 & B3 & B4). rewrite Sc in B4. fold node in B1, B2, B3, B4.
  split; [exact B1|]. split; [exact B2|]. split; [exact B4|]. intros f t Ff Al Sp. specialize (B3 f t Ff Al Sp). now rewrite !Sc in B3.
Qed.
Print Assumptions C170_best_split.

(* ------------------------------------------------------------------------------------------------ *)
(** ** C171: adding a constant to the outcome *)

(** The pseudo-outcomes use a regression without intercept, so they need not sum to 0 and change when a constant is added to
    the outcome.  Two rows with treatments 1 and 2, min_impurity_decrease = 1/2: with outcomes 0 and 1 the tree is split, with
    1 and 2 it is a single node. *)
Definition set5 : settings := mkSettings 1 1 0 2 3 (1 / 2) false.
Definition p5 : fparams := mkFp 1 (Some (NInt 3)) (Some (NReal (1 / 3))) None false 0 None (fun _ _ => set5).
Lemma proper5 : proper p5.
Proof. split; [cbn; lia|]. split; [intros; cbn; lia|]. discriminate. Qed.
Definition d5 (c : R) : fdata := dh 1 (fun i => INR i - 1 + c) tr3.

Lemma pseudo5 c i : (i < 2)%nat ->
  pseudo la1 (tree_data (d5 c) [1; 2]%nat) 1 (rows_of tr3 [1; 2]%nat) [0; 1]%nat i = 3 / 20 * (1 - c) / (1 / 4 + / 10000000).
Proof.
  intros Hi. unfold pseudo, second_moment, residual, tdev, beta, tbar, ybar, wy_sum, w_sum, wt, y_at, tree_data, rows_of, d5, dh, tr3, la1.
  destruct i as [|[|]]; [| |lia];
    cbn [seq map Rsum fold_right nth hd d_w d_y d_out fd_y la_solve la_pinv fst snd length Nat.eqb Nat.mul Nat.add INR]; field.
Qed.
Lemma score5 c : let S := psum la1 (tree_data (d5 c) [1; 2]%nat) 1 (rows_of tr3 [1; 2]%nat) [0; 1]%nat in
  S [0%nat] = 3 / 20 * (1 - c) / (1 / 4 + / 10000000) /\ S [1%nat] = 3 / 20 * (1 - c) / (1 / 4 + / 10000000).
Proof.
  cbv zeta. unfold psum. cbn [map]. rewrite !Rsum_cons. rewrite !pseudo5 by lia. unfold wt. cbn [tree_data d_w Rsum fold_right]. split; lra.
Qed.
Lemma cut_any f t : left_of X2 f t (seq 0 2) <> [] -> right_of X2 f t (seq 0 2) <> [] ->
  left_of X2 f t (seq 0 2) = [0%nat] /\ right_of X2 f t (seq 0 2) = [1%nat].
Proof.
  assert (X00 : X2 0%nat f = 0) by reflexivity. assert (X10 : X2 1%nat f = 1) by reflexivity.
  unfold left_of, right_of. cbn [seq filter]. rewrite X00, X10.
  destruct (Rle_dec 0 t), (Rle_dec 1 t); try (exfalso; lra); intros A B; try congruence; auto.
Qed.

Theorem C171_shift_refuted seed : exists b b',
  grf_tree E1 p5 (d5 0) cov None seed [1; 2]%nat = Ok b /\ grf_tree E1 p5 (d5 1) cov None seed [1; 2]%nat = Ok b' /\
  (forall i, fd_y (d5 1) i = fd_y (d5 0) i + 1) /\ length (b_nodes b) <> 1%nat /\ length (b_nodes b') = 1%nat /\
  psum la1 (tree_data (d5 0) [1; 2]%nat) 1 (rows_of tr3 [1; 2]%nat) [0; 1]%nat [0; 1]%nat <> 0.
Proof.
  destruct (grf_tree_ok E1 p5 (d5 0) cov None seed C160_usable proper5 [1; 2]%nat ltac:(discriminate)) as (b & Eb & _).
  destruct (grf_tree_ok E1 p5 (d5 1) cov None seed C160_usable proper5 [1; 2]%nat ltac:(discriminate)) as (b' & Eb' & _).
  exists b, b'. split; [exact Eb|]. split; [exact Eb'|]. split; [intros; cbn; lra|].
  assert (G0 : forall c, g_min_weight_leaf (tree_settings p5 (d5 c) None [1; 2]%nat) = 0)
    by (intros; cbn [tree_settings with_min_weight g_min_weight_leaf]; unfold min_weight; cbn [p5 fp_mwf]; apply Rmult_0_l).
  assert (W2 : forall c i, w_sum (tree_data (d5 c) [1; 2]%nat) [i] = 1) by (intros; unfold w_sum, wt; cbn; lra).
  assert (Gn : forall c f t, left_of X2 f t (seq 0 2) = [0%nat] -> right_of X2 f t (seq 0 2) = [1%nat] ->
     gain (tree_spec E1 (d5 c) [1; 2]%nat) X2 1 f t (seq 0 2) = 2 * (3 / 20 * (1 - c) / (1 / 4 + / 10000000)) ^ 2).
  { intros c f t Lf Rg. unfold gain. rewrite Lf, Rg. unfold tree_spec. cbn [grf_spec cs_improve cs_children fst snd app d5 dh fd_p fd_x].
    fold (d5 c). destruct (score5 c) as [A B]. cbn [E1 v_la]. rewrite A, B, !W2. lra. }
  destruct cut_two as [Lf Rg]. split; [|split].
  - apply (root_split E1 p5 (d5 0) cov None seed [1; 2]%nat b C160_usable proper5 Eb 0%nat (1 / 2)); try (cbn; lia); auto.
    + unfold allowed. cbn [length] in *. fold X2. rewrite Lf, Rg. cbn [length]. rewrite G0.
      repeat split; try discriminate; try (cbn; lia);
        [change (cs_wl (tree_spec E1 (d5 0) [1; 2]%nat) [0%nat] [1%nat]) with (w_sum (tree_data (d5 0) [1; 2]%nat) [0%nat])
        |change (cs_wr (tree_spec E1 (d5 0) [1; 2]%nat) [0%nat] [1%nat]) with (w_sum (tree_data (d5 0) [1; 2]%nat) [1%nat])];
        rewrite W2; lra.
    + unfold separated. cbn [length]. fold X2. rewrite Lf, Rg. intros i j [<-|[]] [<-|[]]. unfold FT, X2, rows_of, cov. cbn. lra.
    + cbn [length]. fold X2. rewrite (Gn 0 0%nat (1 / 2) Lf Rg). change (g_min_decrease (tree_settings p5 (d5 0) None [1; 2]%nat)) with (1 / 2).
      unfold EPSILON.
      assert (H : 59 / 100 <= 3 / 20 * (1 - 0) / (1 / 4 + / 10000000)) by lra.
      set (z := 3 / 20 * (1 - 0) / (1 / 4 + / 10000000)) in *. clearbody z. assert (59 / 100 * (59 / 100) <= z * z) by nra. lra.
  - apply (root_kept E1 p5 (d5 1) cov None seed [1; 2]%nat b' C160_usable proper5 Eb'); try (cbn; lia); auto.
    intros f t (A1 & A2 & _) _. cbn [length] in *. fold X2 in *. destruct (cut_any f t A1 A2) as [Lf' Rg'].
    rewrite (Gn 1 f t Lf' Rg'). change (g_min_decrease (tree_settings p5 (d5 1) None [1; 2]%nat)) with (1 / 2). unfold EPSILON. lra.
  - unfold psum. cbn [map]. rewrite !Rsum_cons. rewrite !pseudo5 by lia. unfold wt. cbn [tree_data d_w Rsum fold_right]. lra.
Qed.
Print Assumptions C171_shift_refuted.

(* ------------------------------------------------------------------------------------------------ *)
(** ** C172: fit without covariates *)

(** covariate = None is the default of fit, but then fit raises TypeError. *)
Theorem C172_no_covariate_refuted E p d sw m h : sizes p (fd_n d) m h -> enough (fd_n d) m h -> (1 <= fp_n p)%Z -> fd_v d = None ->
  snd (grf_fit E d sw (grf_init p)) = Err TypeError.
Proof.
  intros Hz Hn HN Hv. assert (F0 : fresh_trees (grf_init p) = []) by (unfold fresh_trees; cbn; now destruct (fp_warm p)).
  rewrite (fit_run E d sw (grf_init p) m h eq_refl); auto; [|rewrite F0; cbn; lia].
  rewrite F0. cbn [length grf_init o_par base_est_init base_forest_init]. destruct (Z.to_nat (fp_n p) - 0)%nat as [|N] eqn:EN; [lia|].
  cbn [seq mapX]. unfold grow_tree. rewrite Hv. reflexivity.
Qed.
Print Assumptions C172_no_covariate_refuted.
Example C172_example : snd (grf_fit E1 (mkFd 3 1 1 INR tr3 None) None (grf_init p3)) = Err TypeError.
Proof. apply (C172_no_covariate_refuted E1 p3 (mkFd 3 1 1 INR tr3 None) None 2 None sizes3 enough3); [cbn; lia|reflexivity]. Qed.
