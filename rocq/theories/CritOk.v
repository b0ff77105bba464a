(** The five criteria satisfy the interface the splitter relies on. *)
From Coq Require Import ZArith Reals Lra FunctionalExtensionality.
From Verif Require Import Base TreeCritModel TreeCritProps SplitterModel SplitterSpec.
Set Implicit Arguments.
Local Notation length := List.length.
Open Scope R_scope.

Definition hrel (d : data) (N : R) (start end_ : nat) (node : list nat) (c : hc) (s : list nat) (p : nat) : Prop :=
  hc_consistent d start end_ node c s /\ hpos c = p /\ hwl c = 0 /\ hwr c = 0 /\ hwn c = w_sum d node /\ hN c = N.

Lemma gn_stats d l : gn (stats_of d l) = cnt l.
Proof. unfold gn, cnt. now rewrite stats_count, <- INR_IZR_INZ. Qed.

Lemma hc_update_frame d c s p c' : hc_update d c s p = Ok c' -> hwl c' = hwl c /\ hwr c' = hwr c /\ hwn c' = hwn c /\ hN c' = hN c.
Proof.
  unfold hc_update. destruct (on_update _ _ _ _ _) as [g|e]; cbn [bind]; [|discriminate]. intros [= <-]. hcbn. auto.
Qed.

Lemma causal_ok d w N imp e impr :
  d_out d = 1%nat -> d_w d = Some w ->
  (forall c p il ir, impr c p il ir =
     p - gn (hright c) / (gn (htot c) + e) * ir - gn (hleft c) / (gn (htot c) + e) * il) ->
  crit_ok (mkCrit (hc_init d) hc_reset (hc_update d) hwn hwl hwr (hc_proxy imp) (fun c => imp (htot c))
                  (fun c _ => (imp (hleft c), imp (hright c))) impr hc_value)
          (causal_spec imp e d) N (hrel d N).
Proof.
  intros H1 H2 HI. constructor.
  - intros l l' r r' P1 P2. unfold causal_spec. cbn [cs_proxy cs_wl cs_wr cs_wn cs_node cs_children cs_improve cs_value].
    assert (E1 : cnt l = cnt l') by (unfold cnt; now rewrite (Permutation_length P1)).
    assert (E2 : cnt r = cnt r') by (unfold cnt; now rewrite (Permutation_length P2)).
    assert (E3 : cnt (l ++ r) = cnt (l' ++ r')) by (unfold cnt; now rewrite !app_length, (Permutation_length P1), (Permutation_length P2)).
    rewrite (stats_perm d P1), (stats_perm d P2), E1, E2, E3, (w_sum_perm d P1). intuition auto.
  - intros s a b H. cbn [cr_init]. unfold hrel. pose proof (hc_init_ok d N s H) as K. split; [exact K|].
    unfold hc_init, hc_reset. hcbn. rewrite at_range_slice by lia.
    rewrite (fold_Rsum (wt d)). unfold w_sum. intuition (auto; try lra).
  - intros a b node c s p s' ((S1 & S2 & S3 & S4 & S5 & S6 & S7 & S8) & E1 & E2 & E3 & E4 & E5) HL P.
    cbn [cr_reset]. unfold hrel, hc_consistent, hc_reset. hcbn.
    rewrite S1, S2, slice_nil, stats_nil, S6, (stats_perm d P). intuition (auto; lia).
  - intros a b node c s p q (K & E1 & E2 & E3 & E4 & E5) Hq. cbn [cr_update].
    destruct (@hc_update_ok d w a b node c s q H1 H2 K) as (c' & U & K' & E'); [lia|].
    exists c'. split; [exact U|]. destruct (hc_update_frame _ _ _ _ U) as (F1 & F2 & F3 & F4).
    unfold hrel. rewrite F1, F2, F3, F4. split; [exact K'|]. intuition auto.
  - intros a b node c s p (K & E1 & E2 & E3 & E4 & E5). cbv zeta.
    destruct K as (S1 & S2 & S3 & S4 & S5 & S6 & S7 & S8). subst p.
    unfold causal_spec. cbn [cs_proxy cs_wl cs_wr cs_wn cs_node cs_children cs_improve cs_value
                             cr_wn cr_wl cr_wr cr_proxy cr_node cr_children cr_improve cr_value].
    unfold hc_proxy, hc_value. rewrite S6, S7, S8, !gn_stats.
    do 10 (split; [now auto|]). intros x y z. rewrite HI, S6, S7, S8, !gn_stats.
    assert (E : cnt node = cnt (slice s a (hpos c) ++ slice s (hpos c) b)).
    { rewrite <- slice_app by lia. unfold cnt. now rewrite (Permutation_length S5). }
    now rewrite E.
Qed.

Lemma honest_ok d w N : d_out d = 1%nat -> d_w d = Some w ->
  crit_ok (honest_crit d) (causal_spec honest_impurity eps d) N (hrel d N).
Proof. intros H1 H2. apply (@causal_ok d w N honest_impurity eps honest_improvement H1 H2). reflexivity. Qed.
Lemma cmse_ok d w N : d_out d = 1%nat -> d_w d = Some w ->
  crit_ok (cmse_crit d) (causal_spec cmse_impurity 0 d) N (hrel d N).
Proof.
  intros H1 H2. apply (@causal_ok d w N cmse_impurity 0 cmse_improvement H1 H2).
  intros. unfold cmse_improvement. now rewrite Rplus_0_r.
Qed.

Definition rrel (d : data) (N : R) (start end_ : nat) (node : list nat) (c : rc) (s : list nat) (p : nat) : Prop :=
  rc_consistent d start end_ node c s /\ rpos c = p /\ rN c = N.

Lemma rc_update_N d c s p : rN (rc_update d c s p) = rN c.
Proof. unfold rc_update. destruct (if near _ _ _ then _ else _). reflexivity. Qed.

Lemma wy_sum_fun d l l' : Permutation l l' -> wy_sum d l = wy_sum d l'.
Proof. intros P. apply functional_extensionality. intros k. now apply wy_sum_perm. Qed.

Lemma rel_reg_ok d N (cr : crit rc (nat -> R)) (sp : cspec (nat -> R)) :
  cr_init cr = rc_init d -> cr_reset cr = rc_reset -> cr_update cr = (fun c s p => Ok (rc_update d c s p)) ->
  cr_wn cr = rwn -> cr_wl cr = rwl -> cr_wr cr = rwr -> cr_improve cr = std_improvement -> cr_value cr = rc_value ->
  cs_wl sp = (fun l _ => w_sum d l) -> cs_wr sp = (fun _ r => w_sum d r) -> cs_wn sp = w_sum d ->
  cs_improve sp = std_spec_improve d N -> cs_value sp = wmean d ->
  (forall l l' r r', Permutation l l' -> Permutation r r' ->
     cs_proxy sp l r = cs_proxy sp l' r' /\ cs_node sp l = cs_node sp l' /\ cs_children sp l r = cs_children sp l' r') ->
  (forall start end_ node c s, rc_consistent d start end_ node c s ->
     let l := slice s start (rpos c) in let r := slice s (rpos c) end_ in
     rtot c = wy_sum d node -> rleft c = wy_sum d l -> rright c = wy_sum d r -> rwl c = w_sum d l -> rwr c = w_sum d r ->
     rwn c = w_sum d node -> rsq c = wy2_sum d node -> mse_sq_left d c s = wy2_sum d l ->
     rsq c - mse_sq_left d c s = wy2_sum d r ->
     cr_proxy cr c = cs_proxy sp l r /\ cr_node cr c = cs_node sp node /\ cr_children cr c s = cs_children sp l r) ->
  crit_ok cr sp N (rrel d N).
Proof.
  intros I1 I2 I3 I4 I5 I6 I7 I8 J1 J2 J3 J4 J5 HP HF. constructor.
  - intros l l' r r' P1 P2. destruct (HP _ _ _ _ P1 P2) as (-> & -> & ->). rewrite J1, J2, J3, J4, J5.
    unfold std_spec_improve, wmean.
    rewrite (w_sum_perm d P1), (w_sum_perm d P2), (w_sum_perm d (Permutation_app P1 P2)).
    assert (V : (fun k => wy_sum d l k / w_sum d l') = (fun k => wy_sum d l' k / w_sum d l')) by now rewrite (wy_sum_fun d P1).
    repeat (split; [reflexivity|]).
    apply functional_extensionality. intros k. now rewrite (wy_sum_perm d k P1).
  - intros s a b H. rewrite I1. split; [now apply rc_init_ok|]. split; reflexivity.
  - intros a b node c s p s' (C & E1 & E2) HL P. rewrite I2.
    destruct C as (S1 & S2 & S3 & S4 & S5 & S6 & S7 & S8 & _).
    assert (Z1 : forall k, wy_sum d [] k = 0) by reflexivity.
    assert (Z2 : w_sum d [] = 0) by reflexivity.
    split; [|split; [cbn; auto|cbn; auto]].
    unfold rc_consistent, rc_reset. rcbn.
    rewrite S1, S2, slice_nil. repeat (split; [intuition (auto; lia)|]).
    split; [intros k; now rewrite S6, (wy_sum_perm d k P)|]. split; [auto|]. now rewrite S7, (w_sum_perm d P).
  - intros a b node c s p q (C & E1 & E2) Hq. rewrite I3. exists (rc_update d c s q). split; [reflexivity|].
    destruct (@rc_update_ok d a b node c s q C) as [K1 K2]; [lia|].
    split; [exact K1|]. split; [exact K2|]. now rewrite rc_update_N.
  - intros a b node c s p (C & E1 & E2). cbv zeta. subst p.
    pose proof C as (S1 & S2 & S3 & S4 & S5 & S6 & S7 & S8 & S9 & S10 & S11 & S12).
    assert (F1 : rtot c = wy_sum d node) by (apply functional_extensionality; auto).
    assert (F2 : rleft c = wy_sum d (slice s a (rpos c))) by (apply functional_extensionality; auto).
    assert (F3 : rright c = wy_sum d (slice s (rpos c) b)) by (apply functional_extensionality; auto).
    assert (Q : mse_sq_left d c s = wy2_sum d (slice s a (rpos c))).
    { unfold mse_sq_left. rewrite rc_sq_fold, S1, at_range_slice by lia. lra. }
    assert (QR : rsq c - mse_sq_left d c s = wy2_sum d (slice s (rpos c) b)).
    { rewrite Q, S8, <- (wy2_sum_perm d S5), (@slice_app _ s a (rpos c) b) by lia. rewrite wy2_sum_app. lra. }
    destruct (HF a b node c s C F1 F2 F3 S11 S12 S7 S8 Q QR) as (G1 & G2 & G3).
    rewrite G1, G2, G3, I4, I5, I6, I7, I8, J1, J2, J3, J4, J5.
    repeat (split; [now auto|]). split; [|split; [auto|split; [auto|split; [auto|split; [auto|]]]]].
    + apply functional_extensionality. intros k. unfold rc_value, wmean. now rewrite F1, S7.
    + intros x y z. unfold std_improvement, std_spec_improve. rewrite S7, S11, S12, E2.
      assert (E : w_sum d node = w_sum d (slice s a (rpos c) ++ slice s (rpos c) b)).
      { rewrite <- slice_app by lia. now rewrite <- (w_sum_perm d S5). }
      now rewrite E.
Qed.

Lemma fold_sub_ksum n f a : fold_left (fun a k => a - f k) (seq 0 n) a = a - ksum n f.
Proof. now rewrite fold_Rsub, ksum_Rsum. Qed.

Lemma variance_sum_perm d l l' : Permutation l l' -> variance_sum d l = variance_sum d l'.
Proof. intros P. unfold variance_sum, wmean. now rewrite (wy2_sum_perm d P), (w_sum_perm d P), (wy_sum_fun d P). Qed.

Lemma mse_ok d N : crit_ok (mse_crit d) (mse_spec d N) N (rrel d N).
Proof.
  apply rel_reg_ok; try reflexivity.
  - intros l l' r r' P1 P2. cbn [cs_proxy cs_node cs_children mse_spec].
    rewrite (variance_sum_perm d P1), (variance_sum_perm d P2), (wy_sum_fun d P1), (wy_sum_fun d P2),
      (w_sum_perm d P1), (w_sum_perm d P2). auto.
  - intros a b node c s C. cbv zeta. intros F1 F2 F3 F4 F5 F6 F7 F8 F9.
    cbn [cs_proxy cs_node cs_children mse_spec cr_proxy cr_node cr_children mse_crit].
    unfold mse_proxy, mse_impurity, mse_children, variance_sum, wmean.
    rewrite F9, F8, F1, F2, F3, F4, F5, F6, F7.
    rewrite (fold_sub_ksum _ (fun k => (wy_sum d node k / w_sum d node) ^ 2)).
    rewrite (fold_sub_ksum _ (fun k => (wy_sum d (slice s a (rpos c)) k / w_sum d (slice s a (rpos c))) ^ 2)).
    rewrite (fold_sub_ksum _ (fun k => (wy_sum d (slice s (rpos c) b) k / w_sum d (slice s (rpos c) b)) ^ 2)). auto.
Qed.

Lemma preg_ok d N : crit_ok (preg_crit d) (preg_spec false d N) N (rrel d N).
Proof.
  apply rel_reg_ok; try reflexivity.
  - intros l l' r r' P1 P2. cbn [cs_proxy cs_node cs_children preg_spec].
    rewrite (wy_sum_fun d P1), (wy_sum_fun d P2), (w_sum_perm d P1), (w_sum_perm d P2). auto.
  - intros a b node c s C. cbv zeta. intros F1 F2 F3 F4 F5 F6 F7 F8 F9.
    cbn [cs_proxy cs_node cs_children preg_spec cr_proxy cr_node cr_children preg_crit].
    unfold preg_proxy, preg_impurity, preg_children. rewrite F1, F2, F3, F4, F5, F6. auto.
Qed.
Lemma preg1_ok d N : crit_ok (preg1_crit d) (preg_spec true d N) N (rrel d N).
Proof.
  apply rel_reg_ok; try reflexivity.
  - intros l l' r r' P1 P2. cbn [cs_proxy cs_node cs_children preg_spec].
    rewrite (wy_sum_fun d P1), (wy_sum_fun d P2), (w_sum_perm d P1), (w_sum_perm d P2). auto.
  - intros a b node c s C. cbv zeta. intros F1 F2 F3 F4 F5 F6 F7 F8 F9.
    cbn [cs_proxy cs_node cs_children preg_spec cr_proxy cr_node cr_children preg1_crit].
    unfold preg1_proxy, preg_impurity, preg_children. rewrite F1, F2, F3, F4, F5, F6. auto.
Qed.
