(** C122-C125: missing groups, effect_nji, repeated calls and fitting again, for DoublyRobust. *)
From Coq Require Import ZArith Reals Lra.
From Verif Require Import Base ApiModel EstUtilsModel EstUtilsProps MetaModel MetaSpec MetaProofs MetaProps MetaRefit MetaT MetaX
  CrossFitModel CrossFitProofs DrModel DrProofs DrSpec DrProps.
Local Notation length := List.length.
Local Notation concat := List.concat.

(* ------------------------------------------------------------------------------------------------ *)
(** ** C122: combinations of treatment values without a row *)

(** sklearn's contract for classifiers: one class per distinct target value *)
Definition counts_classes (L : learner) : Prop :=
  forall X l m, l_fit L X (nd_vec l) = Ok m -> n_classes L m = length (nodup Req_EM_T l).

(** C122 is false: with several treatment columns the groups are all combinations of the values that occur; when one of
    them has no row (or a given category has none), fit without cross fitting never succeeds, whatever the three models
    are, because the treatment model has fewer classes than there are groups. *)
Theorem C122_DR_missing_group_refuted Lx Ly Lf categories cf a d g :
  Forall (fun r => length r = d) (a_x a) -> (forall cs, categories = Some cs -> Forall (@NoDup label) cs) ->
  cf <= 1 -> counts_classes Lx ->
  length g = d -> (forall j, j < d -> dr_values categories (a_x a) j (nth j g (LInt 0))) -> ~ In g (a_x a) ->
  snd (dr_fit Lx Ly Lf categories cf a (dr_new Lf)) <> Ok tt.
Proof.
  intros HL HN Hcf HC Hl Hv Hn H.
  destruct (dr_fit Lx Ly Lf categories cf a (dr_new Lf)) as [s1 r] eqn:E. cbn in H. subst r.
  destruct (dr_fit_spec _ _ _ _ _ _ _ _ HL HN E) as (keys & wv & p & h & Hg & Hi & Hall & Hx & Hk & Ew & El & Ep & Eh & _).
  destruct (dr_cross_x_one _ _ _ _ _ _ Hcf Ep) as (mx & Emx & Encl & Hp). rewrite (HC _ _ _ Emx) in Encl.
  destruct Hg as [ND Hg]. assert (Ig : In g keys) by (apply Hg; auto).
  assert (Inj : forall r, In r keys -> group_no keys r = group_no keys g -> r = g).
  { intros r Ir Eq. destruct (group_no_lt _ _ Ir) as [_ E1]. destruct (group_no_lt _ _ Ig) as [_ E2]. congruence. }
  assert (NI : ~ In (INR (group_no keys g)) (nodup Req_EM_T (group_nos keys (a_x a)))).
  { intros I. apply nodup_In in I. unfold group_nos in I. apply in_map_iff in I as (r & E1 & Ir).
    apply INR_eq in E1. apply Hn. rewrite <- (Inj r (Hall r Ir) E1). exact Ir. }
  assert (S : length (INR (group_no keys g) :: nodup Req_EM_T (group_nos keys (a_x a))) <= length (map INR (seq 0 (length keys)))).
  { apply NoDup_incl_length; [constructor; auto; apply NoDup_nodup|].
    intros z [<-|Iz].
    - apply in_map, in_seq. destruct (group_no_lt _ _ Ig). lia.
    - apply nodup_In in Iz. unfold group_nos in Iz. apply in_map_iff in Iz as (r & <- & Ir).
      apply in_map, in_seq. destruct (group_no_lt _ _ (Hall r Ir)). lia. }
  cbn in S. rewrite map_length, seq_length in S. lia.
Qed.

(* ------------------------------------------------------------------------------------------------ *)
(** ** C123: effect_nji *)

(** C123: effect_nji has one column for the treat group and one for the control group, in the order of the group numbers;
    the control column is 0 and the treat column is what estimate returns *)
Theorem C123_DR_effect_nji Lf data s s' e n t c y :
  d_treat s = Some t -> d_control s = Some c ->
  dr_estimate Lf data QNone false TNone s = (s', Ok e) -> nd_shape e = n :: y ->
  exists e', dr_effect_nji Lf data s = (s, Ok e') /\ nd_shape e' = [n; d_yd s; 2] /\
    forall r j, nd_at e' [r; j; if (c <? t)%Z then 1 else 0] = nd_at e [r; j] /\ nd_at e' [r; j; if (c <? t)%Z then 0 else 1] = 0%R.
Proof.
  intros Ht Hc H Hs. unfold dr_estimate, mbind in H. unfold dr_effect_nji, mbind, mget, attr, mlift.
  assert (S : fst (dr_prepare Lf data false TNone s) = s).
  { unfold dr_prepare, dr_effects, mbind, mget, attr, mlift, mret. destruct (d_final s) as [f|]; [|reflexivity].
    destruct (negb (d_first s)); [reflexivity|].
    destruct (match data with Some d0 => _ | None => _ end); destruct f; try reflexivity; [|now rewrite Ht].
    destruct (mapX _ _); [|reflexivity]. now rewrite Ht. }
  destruct (dr_prepare Lf data false TNone s) as [s2 [e2|er]]; [|easy]. cbn in S. subst s2.
  unfold mret in H. injection H as <- <-. rewrite Ht, Hc, Hs. eexists. split; [reflexivity|]. split; [reflexivity|].
  intros r j. cbn [nd_at nth]. destruct (c <? t)%Z; cbn; auto.
Qed.

(* ------------------------------------------------------------------------------------------------ *)
(** ** C124: repeated calls *)

(** the number of treatment values an argument gives (None: nothing to encode) *)
Definition arg_width (t : targ) : option nat :=
  match t with TNone => None | TVal _ => Some 1 | TList l => Some (length l) | TArr1 _ => None | TArr2 rows => Some (width rows) end.

Lemma np_scalars_length l : length (np_scalars l) = length l.
Proof. unfold np_scalars. destruct (existsb is_str l); auto. apply map_length. Qed.

Lemma dr_tr_keeps e d keys t treat : Enc e d keys -> (forall k, arg_width t = Some k -> k = d \/ k <= 1) ->
  fst (get_tr_ctrl t (fun v => dr_comp v None) treat e) = e.
Proof.
  intros HE Hw.
  assert (G : forall x, (width x = d \/ width x <= 1) ->
     fst ((mdo oh <- dr_comp x None;
           mlift (match convert4onehot [concat oh] with i :: _ => Ok i | [] => Err IndexError end)) e) = e).
  { intros x Hx. unfold mbind. rewrite (dr_comp_Enc _ _ _ _ None HE Hx). destruct (comp_ready_pure x e) as [[oh|er] ->]; reflexivity. }
  destruct t; cbn [get_tr_ctrl]; [reflexivity| | |reflexivity|]; apply G; cbn [width]; rewrite ?np_scalars_length;
    try (apply Hw; reflexivity).

Qed.

(** C124, proved part: after a fit, an estimate -- any data, quantity, all_tr_effects, any treat that has one value or one
    per treatment column, known or not, successful or not -- leaves the object as it was *)
Theorem C124_DR_estimate_pure_partial Lx Ly Lf categories cf a s1 d :
  Forall (fun r => length r = d) (a_x a) -> (forall cs, categories = Some cs -> Forall (@NoDup label) cs) ->
  (forall k, arg_width (a_control a) = Some k -> k = d \/ k <= 1) -> (forall k, arg_width (a_treat a) = Some k -> k = d \/ k <= 1) ->
  dr_fit Lx Ly Lf categories cf a (dr_new Lf) = (s1, Ok tt) ->
  forall data q all_tr treat, (forall k, arg_width treat = Some k -> k = d \/ k <= 1) ->
    fst (dr_estimate Lf data q all_tr treat s1) = s1 /\ fst (dr_effect_nji Lf data s1) = s1.
Proof.
  intros HL HN Wc Wt H data q all_tr treat Hw.
  destruct (dr_fit_inv _ _ _ _ _ _ _ _ HL HN H)
    as (e & keys & wv & p & h & e2 & e3 & c & t & Hg & Hi & Hall & Hx & HE & Ew & El & Ep & Eh & Ec & Et & f & Es & _).
  pose proof (dr_tr_keeps e d keys _ false HE Wc) as K. rewrite Ec in K. cbn in K. subst e2.
  pose proof (dr_tr_keeps e d keys _ true HE Wt) as K. rewrite Et in K. cbn in K. subst e3.
  assert (Ed : d_enc s1 = e) by (now rewrite Es).
  assert (P : forall data all_tr treat, (forall k, arg_width treat = Some k -> k = d \/ k <= 1) ->
     fst (dr_prepare Lf data all_tr treat s1) = s1).
  { clear data all_tr treat Hw. intros data all_tr treat Hw. unfold dr_prepare, mbind at 1.
    assert (E : fst (dr_effects Lf data s1) = s1).
    { unfold dr_effects, mbind, mget, attr, mlift, mret. destruct (d_final s1) as [f'|]; [|reflexivity].
      destruct (negb (d_first s1)); [reflexivity|].
      destruct (match data with Some d0 => _ | None => _ end); destruct f'; try reflexivity. destruct (mapX _ _); reflexivity. }
    destruct (dr_effects Lf data s1) as [s' [u|er]]; [|exact E]. cbn in E. subst s'. destruct all_tr; [reflexivity|].
    assert (G : fst ((mdo t <- dr_enc (get_tr_ctrl treat (fun v => dr_comp v None) true); mlift (at_treat t u)) s1) = s1).
    { pose proof (dr_tr_keeps e d keys treat true HE Hw) as K. unfold mbind, dr_enc. rewrite Ed.
      destruct (get_tr_ctrl treat _ true e) as [e' [z|er]]; cbn in K; subst e'; cbn; rewrite Es; reflexivity. }
    destruct treat; auto. unfold mbind, mget, attr, mlift. destruct (d_treat s1); reflexivity. }
  split.
  - unfold dr_estimate, mbind. specialize (P data all_tr treat Hw). destruct (dr_prepare Lf data all_tr treat s1) as [s' [u|er]]; auto.
    cbn in P. subst s'. destruct q; reflexivity.
  - unfold dr_effect_nji, mbind. specialize (P data false TNone ltac:(easy)).
    destruct (dr_prepare Lf data false TNone s1) as [s' [u|er]]; auto. cbn in P. subst s'. unfold mget, attr, mlift.
    destruct (d_treat s1), (d_control s1); reflexivity.
Qed.

(** toy models: an outcome model that adds weighted columns, a classifier with k classes that gives each 1/k *)
Definition toyc (k : nat) : learner :=
  @mkLearner unit (fun _ _ => Ok tt) (fun _ _ => [0%R]) (fun _ => None)
             (fun _ => Some (map (fun i => LInt (Z.of_nat i)) (seq 0 k))) (fun _ _ => repeat (/ INR k)%R k).
Definition ex124 : drargs :=
  mkDrArgs [[LInt 0]; [LInt 1]; [LInt 1]] (Some [[0%R]; [0%R]; [0%R]]) None [[0%R]; [1%R]; [2%R]] TNone TNone.

(** C124 is false for other arguments: an object with one treatment column of values 0 and 1 accepts treat=[7, 9], answers
    with the effect of the group 0, and is changed: it now has an encoder for two columns. *)
Theorem C124_DR_two_values_refuted :
  exists s1 s2 e, dr_fit (toyc 2) toy toy None 1 ex124 (dr_new toy) = (s1, Ok tt) /\
    dr_estimate toy None QNone false (TList [LInt 7; LInt 9]) s1 = (s2, Ok e) /\
    dr_estimate toy None QNone false (TVal (LInt 0)) s1 = (s1, Ok e) /\
    e_ord (d_enc s1) = None /\ e_ord (d_enc s2) = Some (Some [[LInt 7]; [LInt 9]]).
Proof.
  eexists _, _, _. split; [cbv - [Rplus Rminus Rmult Rinv Rdiv INR IZR]; reflexivity|].
  split; [cbv - [Rplus Rminus Rmult Rinv Rdiv INR IZR]; reflexivity|].
  split; [cbv - [Rplus Rminus Rmult Rinv Rdiv INR IZR]; reflexivity|]. split; reflexivity.
Qed.

(* ------------------------------------------------------------------------------------------------ *)
(** ** C125: fitting again *)

Lemma width_or {A} (x : list (list A)) d : Forall (fun r => length r = d) x -> width x = d \/ width x <= 1.
Proof. intros H. destruct x as [|r x]; [right; cbn; lia|left; cbn; now inversion H]. Qed.

Lemma dr_fit_enc Lx Ly Lf categories cf a s s1 :
  dr_fit Lx Ly Lf categories cf a s = (s1, Ok tt) ->
  exists e x', dr_comp (a_x a) categories (d_enc s) = (e, Ok x') /\
    d_enc s1 = fst (get_tr_ctrl (a_treat a) (fun v => dr_comp v None) true
                     (fst (get_tr_ctrl (a_control a) (fun v => dr_comp v None) false e))).
Proof.
  intros H. unfold dr_fit in H.
  destruct (dr_comp (a_x a) categories (d_enc s)) as [e [x'|er]] eqn:E.
  - exists e, x'. split; auto.
    destruct (a_w a) as [w|], (a_v a) as [v|]; [| | |discriminate H];
    (unfold mbind, mset, dr_enc, dr_begin in H; cbn [d_enc d_v d_cov d_xd d_yd d_first d_final d_treat d_control] in H; rewrite E in H;
     unfold mlift, dr_dims, dr_first_done, dr_codes, dr_result in H; cbn [d_enc d_v d_cov d_xd d_yd d_first d_final d_treat d_control] in H;
     destruct (get_wv _) as [wv|]; [|discriminate H]; destruct (hcat _) as [wvx|]; [|discriminate H];
     destruct (dr_cross_x _ _ _ _ _) as [p|]; [|discriminate H]; destruct (dr_cross_y _ _ _ _ _) as [h|]; [|discriminate H]; cbn [d_enc d_v d_cov d_xd d_yd d_first d_final d_treat d_control] in H;
     destruct (get_tr_ctrl (a_control a) _ false e) as [e2 [c|]]; [|discriminate H]; cbn [d_enc d_v d_cov d_xd d_yd d_first d_final d_treat d_control] in H;
     destruct (get_tr_ctrl (a_treat a) _ true e2) as [e3 [t|]] eqn:Et; [|discriminate H]; cbn [fst]; rewrite Et; cbn [fst];
     try (destruct (mapX _ _); [|discriminate H]); unfold mret in H; injection H as <-; reflexivity).
  - exfalso. destruct (a_w a) as [w|], (a_v a) as [v|]; [| | |discriminate H];
    (unfold mbind, mset, dr_enc, dr_begin in H; cbn [d_enc d_v d_cov d_xd d_yd d_first d_final d_treat d_control] in H; rewrite E in H; discriminate H).
Qed.

(** C125, proved part: when the new data have in every treatment column the same values as the data of the first fit,
    fitting again (automatic categories) has the same outcome as fitting a new object and leaves it in the same state. *)
Theorem C125_DR_refit_partial Lx Ly Lf cf a s1 d a2 :
  Forall (fun r => length r = d) (a_x a) -> Forall (fun r => length r = d) (a_x a2) ->
  (forall k, arg_width (a_control a) = Some k -> k = d \/ k <= 1) -> (forall k, arg_width (a_treat a) = Some k -> k = d \/ k <= 1) ->
  (forall j v, j < d -> (occurs (a_x a) j v <-> occurs (a_x a2) j v)) ->
  dr_fit Lx Ly Lf None cf a (dr_new Lf) = (s1, Ok tt) ->
  let again := dr_fit Lx Ly Lf None cf a2 s1 in
  let fresh := dr_fit Lx Ly Lf None cf a2 (dr_new Lf) in
  snd again = snd fresh /\ (snd fresh = Ok tt -> fst again = fst fresh).
Proof.
  intros HL HL2 Wc Wt Hs H again fresh.
  destruct (dr_fit_enc _ _ _ _ _ _ _ _ H) as (e & x' & E & Ed). cbn [dr_new d_enc] in E. rewrite dr_comp_fresh in E.
  destruct (sl_comp_again _ _ _ _ _ HL HL2 Hs E) as (r & R1 & R2).
  destruct (@sl_comp_fresh _ None _ _ _ _ HL ltac:(congruence) E) as (keys & cats & Ef & HE & _).
  rewrite (dr_tr_keeps e d keys _ false HE Wc), (dr_tr_keeps e d keys _ true HE Wt) in Ed.
  unfold again, fresh, dr_fit. clear again fresh.
  destruct (a_w a2) as [w2|], (a_v a2) as [v2|]; [| | |cbn; split; [auto|easy]];
  (unfold mbind, mset, dr_enc, dr_begin, dr_new; cbn [d_enc d_v d_cov d_xd d_yd d_first d_final d_treat d_control]; rewrite Ed, dr_comp_fresh, R1;
   assert (CR : dr_comp (a_x a2) None e = (e, r));
   [rewrite (dr_comp_Enc e d keys _ None HE (width_or _ _ HL2)); exact R2|];
   rewrite CR; destruct r as [x2|er]; [|cbn; split; [auto|easy]];
   unfold mlift, dr_dims, dr_first_done, dr_codes, dr_result; cbn [d_enc d_v d_cov d_xd d_yd d_first d_final d_treat d_control];
   destruct (get_wv _) as [wv|]; [|cbn; split; [auto|easy]]; destruct (hcat _) as [wvx|]; [|cbn; split; [auto|easy]];
   destruct (dr_cross_x _ _ _ _ _) as [p|]; [|cbn; split; [auto|easy]];
   destruct (dr_cross_y _ _ _ _ _) as [h|]; [|cbn; split; [auto|easy]];
   cbn [d_enc d_v d_cov d_xd d_yd d_first d_final d_treat d_control];
   destruct (get_tr_ctrl (a_control a2) _ false e) as [e2 [c|]]; [|cbn; split; [auto|easy]];
   cbn [d_enc d_v d_cov d_xd d_yd d_first d_final d_treat d_control];
   destruct (get_tr_ctrl (a_treat a2) _ true e2) as [e3 [t|]]; [|cbn; split; [auto|easy]];
   cbn [d_enc d_v d_cov d_xd d_yd d_first d_final d_treat d_control];
   try (destruct (mapX _ _); [|cbn; split; [auto|easy]]); unfold mret; cbn; split; auto).
Qed.

(** C125 is false in general: with a treatment row outside the groups of the first fit, every later fit raises
    ValueError (a new object would accept the data), and the object is left with the new covariates and the old effect
    models: the estimate for the training data is then that of the old models for the rows of the refused data. *)
Theorem C125_DR_refit_new_value_refuted Lx Ly Lf cf a s1 d a2 :
  Forall (fun r => length r = d) (a_x a) -> Forall (fun r => length r = d) (a_x a2) ->
  (forall k, arg_width (a_control a) = Some k -> k = d \/ k <= 1) -> (forall k, arg_width (a_treat a) = Some k -> k = d \/ k <= 1) ->
  dr_fit Lx Ly Lf None cf a (dr_new Lf) = (s1, Ok tt) ->
  (exists j v, j < d /\ occurs (a_x a2) j v /\ ~ occurs (a_x a) j v) -> (a_w a2 <> None \/ a_v a2 <> None) ->
  exists s2, dr_fit Lx Ly Lf None cf a2 s1 = (s2, Err ValueError) /\
    (forall v v2 q all_tr treat, a_v a = Some v -> a_v a2 = Some v2 ->
       snd (dr_estimate Lf None q all_tr treat s2) = snd (dr_estimate Lf (Some v2) q all_tr treat s1)).
Proof.
  intros HL HL2 Wc Wt H (j & v & Hj & (r & Hr & Ev) & Hn) Hw2.
  destruct (dr_fit_enc _ _ _ _ _ _ _ _ H) as (e & x' & E & Ed). cbn [dr_new d_enc] in E. rewrite dr_comp_fresh in E.
  destruct (@sl_comp_fresh _ None _ _ _ _ HL ltac:(congruence) E) as (keys & cats & Ef & HE & _ & Hk & _).
  rewrite (dr_tr_keeps e d keys _ false HE Wc), (dr_tr_keeps e d keys _ true HE Wt) in Ed.
  destruct (@enc_fit_spec _ _ _ _ HL Ef) as (_ & _ & Hlen & _ & Hnone & _).
  destruct (Hnone eq_refl) as [_ Hin].
  assert (Nr : ~ In r keys).
  { intros Ir. apply Hk in Ir. apply Hn. apply (Hin j Hj). rewrite <- Ev.
    pose proof (@Forall2_nth _ _ _ _ _ (LInt 0) (@nil label) Ir j) as F. apply F.
    rewrite Forall_forall in HL2. rewrite (HL2 r Hr). exact Hj. }
  assert (CR : dr_comp (a_x a2) None e = (e, Err ValueError)).
  { rewrite (dr_comp_Enc e d keys _ None HE (width_or _ _ HL2)).
    exact (@comp_ready_unknown_any e d keys (a_x a2) r HE HL2 Hr Nr). }
  exists (dr_begin (a_v a2) s1). split.
  - unfold dr_fit. destruct (a_w a2) as [w2|], (a_v a2) as [v2|]; [| | |exfalso; destruct Hw2; easy];
    (unfold mbind, mset, dr_enc; cbn [d_enc dr_begin]; rewrite Ed, CR; unfold dr_begin; destruct s1; cbn in Ed |- *; subst; reflexivity).
  - intros v1 v2 q all_tr treat Hv Hv2.
    assert (C : d_cov s1 = true).
    { destruct (dr_fit_inv Lx Ly Lf None cf a s1 d HL ltac:(congruence) H)
        as (e' & keys' & wv & p & h & e2 & e3 & c & t & _ & _ & _ & _ & _ & _ & _ & _ & _ & _ & _ & f & Es & _).
      rewrite Es. cbn. now rewrite Hv. }
    assert (D : snd (dr_effects Lf None (dr_begin (a_v a2) s1)) = snd (dr_effects Lf (Some v2) s1) /\
                fst (dr_effects Lf None (dr_begin (a_v a2) s1)) = dr_begin (a_v a2) s1 /\ fst (dr_effects Lf (Some v2) s1) = s1).
    { unfold dr_effects, mbind, mget, attr, mlift, mret. cbn [d_final d_first d_v d_cov dr_begin d_yd d_xd]. rewrite C, Hv2.
      destruct (d_final s1) as [f|]; [|auto]. destruct (negb (d_first s1)); auto. destruct f; auto. destruct (mapX _ _); auto. }
    destruct D as (D1 & D2 & D3).
    unfold dr_estimate, dr_prepare, mbind.
    destruct (dr_effects Lf None (dr_begin (a_v a2) s1)) as [sa ra]. destruct (dr_effects Lf (Some v2) s1) as [sb rb].
    cbn in D1, D2, D3. subst sa sb rb. destruct ra as [u|er]; [|reflexivity].
    destruct all_tr; [destruct q; reflexivity|].
    destruct treat as [|l|l|l|l];
    [unfold mget, attr, mlift; cbn [d_treat dr_begin]; destruct (d_treat s1) as [z|]; [|reflexivity];
     destruct (at_treat z u); [|reflexivity]; destruct q; reflexivity|..];
    (unfold dr_enc; cbn [d_enc dr_begin]; destruct (get_tr_ctrl _ _ true (d_enc s1)) as [e' [z|er]]; [|reflexivity];
     unfold mlift; destruct (at_treat z u); [|reflexivity]; destruct q; reflexivity).
Qed.
