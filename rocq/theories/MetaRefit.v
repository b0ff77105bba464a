(** C106, C107: fitting an SLearner again, and the documented forms of treat and control. *)
From Coq Require Import ZArith Reals Sorting.Sorted Lra DecimalString.
From Verif Require Import Base ApiModel EstUtilsModel EstUtilsProps MetaModel MetaSpec MetaProofs MetaProps.
Local Notation length := List.length.
Local Notation concat := List.concat.

(* ------------------------------------------------------------------------------------------------ *)
(** ** Lemmas *)

Lemma column_In j x a : In a (column j x) <-> occurs x j a.
Proof. unfold column, occurs. rewrite in_map_iff. firstorder. Qed.

Lemma unique_labels_same col col' cats :
  unique_labels col = Ok cats -> (forall a, In a col <-> In a col') -> unique_labels col' = Ok cats.
Proof.
  intros H E.
  assert (H' : exists cats', unique_labels col' = Ok cats').
  { unfold unique_labels in *.
    assert (G : forall f, forallb f col' = forallb f col).
    { intros f. destruct (forallb f col) eqn:Ef.
      - apply forallb_forall. intros a Ha. rewrite forallb_forall in Ef. apply Ef, E, Ha.
      - destruct (forallb f col') eqn:Ef'; auto. rewrite <- Ef. symmetry. apply forallb_forall. intros a Ha.
        rewrite forallb_forall in Ef'. apply Ef', E, Ha. }
    rewrite !G. destruct (_ || _); [eauto|easy]. }
  destruct H' as (cats' & H'). rewrite H'. f_equal.
  apply unique_labels_spec in H as [S1 I1]. apply unique_labels_spec in H' as [S2 I2].
  apply sorted_unique; auto. intros a. now rewrite I1, I2, E.
Qed.

Lemma enc_fit_same x x2 d cats :
  Forall (fun r => length r = d) x -> Forall (fun r => length r = d) x2 ->
  (forall j a, j < d -> (occurs x j a <-> occurs x2 j a)) ->
  enc_fit None x = Ok cats -> enc_fit None x2 = Ok cats.
Proof.
  intros HL HL2 Hs Ef. destruct (@enc_fit_spec _ _ _ _ HL Ef) as (Hx & Hd & Hlen & _ & _ & _).
  assert (Hx2 : x2 <> []).
  { destruct x as [|r x]; [easy|]. assert (O : occurs (r :: x) 0 (nth 0 r (LInt 0))) by (exists r; cbn; auto).
    apply Hs in O; [|lia]. destruct O as (r' & Hr' & _). intros ->. easy. }
  unfold enc_fit in *. rewrite (width_all Hx HL) in Ef. rewrite (width_all Hx2 HL2).
  rewrite (@check_X_ok _ d x) in Ef by auto. rewrite (@check_X_ok _ d x2) by auto. cbn [bind] in *.
  rewrite <- Ef. apply mapX_inv in Ef.
  assert (G : forall l cs, Forall2 (fun j y => unique_labels (column j x) = Ok y) l cs -> (forall j, In j l -> j < d) ->
                mapX (fun j => unique_labels (column j x2)) l = mapX (fun j => unique_labels (column j x)) l).
  { induction 1 as [|j c l cs H HF IH]; intros Hl; cbn; auto.
    rewrite IH by (intros; apply Hl; now right). rewrite H.
    rewrite (unique_labels_same _ (column j x2) _ H); auto.
    intros a. rewrite !column_In. apply Hs, Hl. now left. }
  apply (G _ _ Ef). intros j Hj. apply in_seq in Hj. lia.
Qed.

(** the encoders made by the first fit, from the categories *)
Definition fresh_encs (e : encs) (d : nat) (cats : list (list label)) (labels : list (list nat)) : encs :=
  if d =? 1 then mkEncs (e_ord e) (e_dict e) (Some (Some cats))
  else mkEncs (Some (Some cats)) (Some labels) (Some (Some [map LN (seq 0 (length labels))])).

Lemma sl_comp_inv x e e1 x' d :
  Forall (fun r => length r = d) x -> sl_comp false x None e = (e1, Ok x') ->
  exists cats labels, enc_fit None x = Ok cats /\
    (d <> 1 -> cartesian 0 (map (fun c => seq 0 (length c)) cats) = Ok labels) /\ e1 = fresh_encs e d cats labels.
Proof.
  intros HL H. pose proof H as H0. unfold sl_comp in H. cbn [negb] in H.
  destruct (@sl_comp_fresh x None e e1 x' d HL ltac:(congruence) H0) as (_ & cats0 & Ef & _).
  destruct (@enc_fit_spec _ _ _ _ HL Ef) as (Hx & Hd & Hlen & _ & _ & _).
  rewrite (width_all Hx HL) in H.
  destruct (1 <? d) eqn:W.
  - apply Nat.ltb_lt in W.
    apply mbind_inv in H as (e3 & [x1 cats1] & H1 & H).
    apply mbind_inv in H1 as (e2 & co & H1 & H2).
    apply mbind_inv in H1 as (e2' & c & H1 & H1'). unfold mret in H1'. injection H1' as -> <-.
    apply mbind_inv in H2 as (e3' & x1' & H2 & H2'). unfold mret in H2'. injection H2' as -> -> <-.
    apply mbind_inv in H as (e4 & [] & H3 & H4).
    apply make_ord_inv in H1 as (cats & labels & Ef' & Ec & -> & ->).
    exists cats, labels. split; auto. split; auto.
    unfold fresh_encs. destruct (Nat.eqb_spec d 1); [lia|].
    destruct (combine_labels_pure x (mkEncs (Some (Some cats)) (Some labels) (e_oh e))) as [r Er].
    rewrite Er in H2. injection H2 as <- ->.
    apply make_oh_inv in H3 as (ohc & Eo & ->). cbn [e_ord e_dict] in *.
    assert (ohc = [map LN (seq 0 (length labels))]) as ->.
    { unfold enc_fit in Eo. destruct (check_X _ _); [|easy]. cbn [bind length] in Eo.
      destruct (Nat.eqb_spec 1 (width x1)) as [Ew|]; [|easy]. cbn [negb] in Eo. rewrite <- Ew in Eo. cbn [seq mapX nth] in Eo.
      destruct (_ && _); [easy|]. destruct (forallb _ _); [|easy]. cbn in Eo. congruence. }
    destruct (apply_oh_pure x1 (mkEncs (Some (Some cats)) (Some labels) (Some (Some [map LN (seq 0 (length labels))])))) as [r Er'].
    congruence.
  - apply Nat.ltb_ge in W. assert (d = 1) as -> by lia.
    apply mbind_inv in H as (e3 & [x1 cats1] & H1 & H). unfold mret in H1. injection H1 as <- <- <-.
    apply mbind_inv in H as (e4 & [] & H3 & H4).
    apply make_oh_inv in H3 as (cats & Ef' & ->). exists cats, []. split; auto. split; [easy|].
    cbn [fresh_encs Nat.eqb].
    destruct (apply_oh_pure x (mkEncs (e_ord e) (e_dict e) (Some (Some cats)))) as [r Er']. unfold fresh_encs. cbn [Nat.eqb]. congruence.
Qed.

(** a fresh fit on data with the same values in every column makes the same encoders *)
Lemma sl_comp_again x x2 e1 x' d :
  Forall (fun r => length r = d) x -> Forall (fun r => length r = d) x2 ->
  (forall j a, j < d -> (occurs x j a <-> occurs x2 j a)) ->
  sl_comp false x None no_encs = (e1, Ok x') ->
  exists r, sl_comp false x2 None no_encs = (e1, r) /\ comp_ready x2 e1 = (e1, r).
Proof.
  intros HL HL2 Hs H.
  destruct (sl_comp_inv _ _ _ _ _ HL H) as (cats & labels & Ef & Ec & E1).
  destruct (@sl_comp_fresh _ None _ _ _ _ HL ltac:(congruence) H) as (keys & cats' & Ef' & HE & -> & Hk & _).
  assert (cats' = cats) as -> by congruence. clear Ef'.
  pose proof (enc_fit_same _ _ _ _ HL HL2 Hs Ef) as Ef2.
  destruct (@enc_fit_spec _ _ _ _ HL2 Ef2) as (Hx2 & Hd & Hlen & Hin & _ & _).
  assert (CR : comp_ready x2 e1 = (e1, Ok (map (ind keys) x2))).
  { apply (@comp_ready_ok _ d); auto. apply Forall_forall. intros r Hr. apply Hk. auto. }
  exists (Ok (map (ind keys) x2)). split; auto.
  unfold comp_ready in CR. unfold sl_comp. cbn [negb]. rewrite (width_all Hx2 HL2) in *.
  destruct (1 <? d) eqn:W.
  - apply Nat.ltb_lt in W. unfold fresh_encs in E1. destruct (Nat.eqb_spec d 1) as [|Hd1]; [lia|].
    specialize (Ec Hd1).
    assert (MO : make_ord None x2 no_encs = (mkEncs (Some (Some cats)) (Some labels) None, Ok [map LN (seq 0 (length labels))])).
    { unfold make_ord, mbind, mset, mlift, mret. rewrite Ef2, Ec. reflexivity. }
    apply mbind_inv in CR as (e1' & x1 & C1 & C2).
    destruct (combine_labels_pure x2 e1) as [r Er]. rewrite Er in C1. injection C1 as <- ->.
    assert (C1 : combine_labels x2 (mkEncs (Some (Some cats)) (Some labels) None) = (mkEncs (Some (Some cats)) (Some labels) None, Ok x1)).
    { destruct (combine_labels_pure x2 (mkEncs (Some (Some cats)) (Some labels) None)) as [r' Er']. rewrite Er'. f_equal.
      pose proof (@combine_labels_dep x2 e1 (mkEncs (Some (Some cats)) (Some labels) None)) as D.
      rewrite Er, Er' in D. symmetry. apply D; rewrite E1; reflexivity. }
    assert (MH : make_oh (Some [map LN (seq 0 (length labels))]) x1 (mkEncs (Some (Some cats)) (Some labels) None) = (e1, Ok tt)).
    { unfold make_oh, mbind, mset, mlift.
      assert (EF : enc_fit (Some [map LN (seq 0 (length labels))]) x1 = Ok [map LN (seq 0 (length labels))]).
      2:{ rewrite EF, E1. reflexivity. }
      unfold apply_oh, mbind, mget, attr, fitted, mlift in C2. rewrite E1 in C2. cbn [e_oh] in C2.
      injection C2 as C2. unfold oh_transform in C2.
      destruct (check_X (length [map LN (seq 0 (length labels))]) x1) as [[]|] eqn:CX; [|easy].
      cbn [bind] in C2. apply check_X_inv in CX as (Hx1 & _ & Hw1). cbn [length] in Hw1.
      unfold enc_fit. rewrite Hw1. cbn [length Nat.eqb negb seq mapX nth].
      assert (CX : check_X 1 x1 = Ok tt).
      { unfold check_X. rewrite Hw1. destruct x1; [easy|]. reflexivity. }
      rewrite CX. cbn [bind].
      assert (Srt : sorted_lab (map LN (seq 0 (length labels))) = true).
      { generalize 0 as s. generalize (length labels) as n. clear. induction n as [|n IH]; intros s; [reflexivity|].
        cbn [seq map]. specialize (IH (Datatypes.S s)). destruct n as [|n]; [reflexivity|].
        cbn [seq map] in *.
        change (negb (label_ltb (LN (Datatypes.S s)) (LN s)) && sorted_lab (LN (Datatypes.S s) :: map LN (seq (Datatypes.S (Datatypes.S s)) n)) = true).
        rewrite IH, andb_true_r. unfold label_ltb, LN.
        apply negb_true_iff, Z.ltb_ge. lia. }
      rewrite Srt, andb_false_r.
      assert (FB : forallb (fun a => mem a (map LN (seq 0 (length labels)))) (column 0 x1) = true).
      { apply forallb_forall. intros a Ha. unfold column in Ha. apply in_map_iff in Ha as (r & <- & Hr).
        apply mapX_inv in C2. destruct (@combine_In _ _ _ _ _ _ C2 Hr) as (v & _ & Ev).
        destruct r as [|b r]; cbn [combine nth] in *.
        - exfalso.
          assert (Hl1 : Forall2 (fun (_ : list label) (r1 : list label) => length r1 = 1) x2 x1).
          { revert C1. unfold combine_labels, mbind, mget, attr, fitted, mlift. cbn [e_ord e_dict].
            destruct (ord_transform cats x2) as [rows|] eqn:Eo; [|easy].
            destruct rows as [|row0 rows]; [intros E0; apply (f_equal snd) in E0; cbn in E0; injection E0 as <-; easy|].
            intros E0. apply (f_equal snd) in E0. cbn [snd] in E0. apply mapX_inv in E0.
            unfold ord_transform in Eo. destruct (check_X (length cats) x2); [|easy]. cbn [bind] in Eo. apply mapX_inv in Eo.
            revert E0. revert Eo. generalize (row0 :: rows). generalize x2. clear.
            intros x2 rows Eo. revert x1. induction Eo as [|u v ? ? ? ? IH]; intros x1 E0; inversion E0 as [|? b0 ? ? Hb]; subst; constructor; auto.
            destruct (index_of v labels); [|easy]. injection Hb as <-. reflexivity. }
          destruct (@combine_In_r _ _ _ _ _ _ Hl1 Hr) as (? & _ & E0). cbn in E0. lia.
        - cbn in Ev. unfold enc_value in Ev. destruct (index_of b _) as [i|] eqn:Ei; [|easy].
          apply mem_In. apply index_of_Some in Ei. exact (nth_error_In _ _ Ei). }
      rewrite FB. reflexivity. }
    unfold mbind, mret. rewrite MO, C1, MH. exact C2.
  - apply Nat.ltb_ge in W. assert (d = 1) as -> by lia. cbn [fresh_encs Nat.eqb e_ord e_dict no_encs] in E1.
    unfold mbind, mret, make_oh, mset, mlift. unfold mbind, mset, mlift. rewrite Ef2.
    unfold fresh_encs in E1. cbn [Nat.eqb] in E1. rewrite E1 in CR |- *. exact CR.
Qed.

(** estimates never touch the encoders of a fitted learner *)
Lemma sl_comp_true_pure x c e : exists r, sl_comp true x c e = (e, r).
Proof. rewrite sl_comp_ready. apply comp_ready_pure. Qed.

Definition same_learned {L : learner} (s s' : slearner L) : Prop :=
  s_fitted s' = s_fitted s /\ s_enc s' = s_enc s /\ s_model s' = s_model s /\ s_xd s' = s_xd s /\ s_comb s' = s_comb s /\
  s_wv s' = s_wv s.

Lemma sl_prepare_keeps L c data target s : s_fitted s = true -> same_learned s (fst (sl_prepare L c data target s)).
Proof.
  intros Hf. unfold sl_prepare, mbind, mget. rewrite Hf. cbn [negb].
  assert (SR : forall s0 : slearner L, same_learned s0 s0) by (intros; repeat split).
  destruct data as [d|]; unfold mret, attr, mlift; [|destruct (s_wv s) as [d|]; [|apply SR]].
  all: destruct (s_comb s);
    [|unfold sl_prepare_separate, mbind, mget, attr, mlift; destruct (s_xd s); [|apply SR]; destruct (s_model s); apply SR].
  all: unfold sl_prepare_combined, mbind, mget, attr, mlift; destruct (s_treat s) as [tr|]; [|apply SR];
    rewrite Hf; unfold sl_enc;
    destruct (@get_tr_ctrl_pure (s_enc s) tr (fun x => sl_comp true x None) true (fun x => sl_comp_true_pure x None (s_enc s))) as [[t|er] ->];
    [|unfold same_learned; cbn; auto 10];
    unfold mset; cbn [s_control s_fitted s_enc s_xd s_treat s_wv s_yd s_comb s_model sl_set_treat];
    destruct (s_control s) as [ct|]; [|unfold same_learned; cbn; auto 10];
    cbn [s_control s_fitted s_enc s_xd s_treat s_wv s_yd s_comb s_model sl_set_treat];
    destruct (@get_tr_ctrl_pure (s_enc s) ct (fun x => sl_comp true x None) false (fun x => sl_comp_true_pure x None (s_enc s))) as [[k|er] ->];
    [|unfold same_learned; cbn; auto 10];
    destruct (s_xd s) eqn:Ex; [|unfold same_learned; cbn; auto 10];
    destruct (unit_vec _ t); [|unfold same_learned; cbn; auto 10];
    destruct (unit_vec _ k); [|unfold same_learned; cbn; auto 10];
    destruct (s_model s) eqn:Em; [|unfold same_learned; cbn; auto 10];
    destruct target; unfold same_learned; cbn; auto 10.
Qed.
Lemma s_do_keeps L c k s : s_fitted s = true -> same_learned s (fst (s_do L c k s)).
Proof.
  intros Hf. assert (SR : forall s0 : slearner L, same_learned s0 s0) by (intros; repeat split).
  destruct k as [data q target|data]; cbn [s_do].
  - unfold sl_estimate, mbind.
    assert (P : forall t, same_learned s (fst (match sl_prepare L c data t s with
                 | (s'0, Ok a) => match q with QNone => mret a | QATE => mlift (mean0 a) end s'0
                 | (s'0, Err e) => (s'0, Err e) end))).
    { intros t. pose proof (sl_prepare_keeps L c data t s Hf) as K.
      destruct (sl_prepare L c data t s) as [s' [v|]]; auto. destruct q; auto. }
    destruct target as [cl|]; [|apply P].
    destruct (c_proba c); [|apply SR]. unfold mget, attr, mlift. destruct (s_model s); [|apply SR].
    destruct (l_classes L m); [|apply SR]. destruct (check_classes _ _); [apply P|apply SR].
  - unfold sl_effect_nji, mbind. pose proof (sl_prepare_keeps L c data None s Hf) as K.
    destruct (sl_prepare L c data None s) as [s' [v|]]; auto.
Qed.
Lemma s_after_keeps L c h s : s_fitted s = true -> same_learned s (s_after L c h s).
Proof.
  revert s. induction h as [|k h IH]; intros s Hf; [repeat split|].
  change (s_after L c (k :: h) s) with (s_after L c h (fst (s_do L c k s))).
  pose proof (s_do_keeps L c k s Hf) as K. assert (Hf' : s_fitted (fst (s_do L c k s)) = true) by (destruct K; congruence).
  specialize (IH _ Hf'). unfold same_learned in *. intuition congruence.
Qed.

(* ------------------------------------------------------------------------------------------------ *)
(** ** C106: fitting again *)

(** C106, proved part: when the new data have in every treatment column the same set of values as the data of the
    first fit, fitting again -- after any history of estimates -- has the same outcome as fitting a new learner,
    and leaves the learner in the same state. *)
Theorem C106_refit_partial L c a s1 wv d h a2 :
  c_categories c = None -> f_comb a = true -> f_wv a = Some wv -> Forall (fun r => length r = d) (f_x a) ->
  sl_fit L c a (sl_new L) = (s1, Ok tt) ->
  f_comb a2 = true -> Forall (fun r => length r = d) (f_x a2) ->
  (forall j v, j < d -> (occurs (f_x a) j v <-> occurs (f_x a2) j v)) ->
  let again := sl_fit L c a2 (s_after L c h s1) in
  let fresh := sl_fit L c a2 (sl_new L) in
  snd again = snd fresh /\ (snd fresh = Ok tt -> fst again = fst fresh).
Proof.
  intros HN Hc Hw HL H Hc2 HL2 Hs again fresh.
  destruct (sl_fit_inv _ _ _ _ _ _ Hw Hc H) as (e1 & x' & X & m & E & _ & _ & E1). rewrite HN in E.
  destruct (sl_comp_again _ _ _ _ _ HL HL2 Hs E) as (r & R1 & R2).
  pose proof (s_after_keeps L c h s1 ltac:(now rewrite E1)) as K.
  set (s := s_after L c h s1) in *. clearbody s.
  destruct K as (K1 & K2 & _). rewrite E1 in K1, K2. cbn [s_fitted s_enc] in K1, K2.
  unfold again, fresh, sl_fit. destruct (f_wv a2) as [wv2|]; [|cbn; split; [auto|easy]].
  rewrite Hc2, HN. unfold mbind, mset, mget, sl_enc, sl_begin, sl_new. cbn [s_enc s_fitted].
  rewrite K1, K2, sl_comp_ready, R2, R1.
  destruct r as [x2'|er]; [|cbn; split; [auto|easy]].
  unfold mset, mlift, mret, sl_set_x, sl_set_model. cbn [s_enc s_fitted s_xd s_treat s_control s_wv s_yd s_comb s_model].
  destruct (hcat [wv2; to_rows x2']) as [X2|er]; [|cbn; split; [auto|easy]].
  destruct (l_fit L X2 _) as [m2|er]; cbn; split; auto. easy.
Qed.

(** C106 is false in general: a treatment value that was not in the data of the first fit makes every later
    fit with combined treatments raise ValueError, whatever was done in between. *)
Theorem C106_refit_new_value_refuted L c a s1 wv d h :
  c_categories c = None -> f_comb a = true -> f_wv a = Some wv -> Forall (fun r => length r = d) (f_x a) ->
  sl_fit L c a (sl_new L) = (s1, Ok tt) ->
  forall a2, f_comb a2 = true -> f_wv a2 <> None -> Forall (fun r => length r = d) (f_x a2) ->
    (exists j v, j < d /\ occurs (f_x a2) j v /\ ~ occurs (f_x a) j v) ->
    snd (sl_fit L c a2 (s_after L c h s1)) = Err ValueError.
Proof.
  intros HN Hc Hw HL H a2 Hc2 Hw2 HL2 (j & v & Hj & (r & Hr & Ev) & Hn).
  destruct (sl_fit_inv _ _ _ _ _ _ Hw Hc H) as (e1 & x' & X & m & E & _ & _ & E1). rewrite HN in E.
  destruct (@sl_comp_fresh _ None _ _ _ _ HL ltac:(congruence) E) as (keys & cats & Ef & HE & _ & Hk & _).
  destruct (@enc_fit_spec _ _ _ _ HL Ef) as (_ & _ & Hlen & _ & Hnone & _).
  destruct (Hnone eq_refl) as [_ Hin].
  assert (Nr : ~ In r keys).
  { intros Ir. apply Hk in Ir. apply Hn. apply (Hin j Hj). rewrite <- Ev.
    pose proof (@Forall2_nth _ _ _ _ _ (LInt 0) (@nil label) Ir j) as F. apply F.
    rewrite Forall_forall in HL2. rewrite (HL2 r Hr). exact Hj. }
  pose proof (s_after_keeps L c h s1 ltac:(now rewrite E1)) as K.
  set (s := s_after L c h s1) in *. clearbody s.
  destruct K as (K1 & K2 & _). rewrite E1 in K1, K2. cbn [s_fitted s_enc] in K1, K2.
  unfold sl_fit. destruct (f_wv a2) as [wv2|]; [|easy].
  rewrite Hc2, HN. unfold mbind, mset, mget, sl_enc, sl_begin. cbn [s_enc s_fitted].
  rewrite K1, K2, sl_comp_ready, (@comp_ready_unknown_any e1 d keys (f_x a2) r HE HL2 Hr Nr). reflexivity.
Qed.

(** ... and after a fit with separate treatments every fit with combined treatments raises AttributeError *)
Theorem C106_separate_then_combined_refuted L c a s1 h a2 :
  f_comb a = false -> sl_fit L c a (sl_new L) = (s1, Ok tt) ->
  f_comb a2 = true -> f_wv a2 <> None ->
  snd (sl_fit L c a2 (s_after L c h s1)) = Err AttributeError.
Proof.
  intros Hc H Hc2 Hw2.
  assert (F : s_fitted s1 = true /\ s_enc s1 = no_encs).
  { unfold sl_fit in H. destruct (f_wv a) as [wv|]; [|easy]. rewrite Hc in H.
    unfold mbind, mset, mget, mlift, sl_begin, sl_new in H. cbn [s_enc s_fitted] in H.
    destruct (enc_fit (c_categories c) (f_x a)) as [cats|]; [|easy].
    destruct (oh_transform cats (f_x a)) as [x|]; [|easy].
    unfold mset, mret, sl_set_x, sl_set_model in H. cbn [s_enc s_fitted s_treat s_control s_wv s_yd s_comb s_model s_xd] in H.
    destruct (hcat _) as [X|]; [|easy]. destruct (l_fit _ _ _) as [m|]; [|easy]. injection H as <-. auto. }
  destruct F as [F1 F2].
  pose proof (s_after_keeps L c h s1 F1) as K.
  set (s := s_after L c h s1) in *. clearbody s.
  destruct K as (K1 & K2 & _). rewrite F1 in K1. rewrite F2 in K2.
  unfold sl_fit. destruct (f_wv a2) as [wv2|]; [|easy].
  rewrite Hc2. unfold mbind, mset, mget, sl_enc, sl_begin. cbn [s_enc s_fitted].
  rewrite K1, K2, sl_comp_ready. unfold comp_ready, mbind, mret.
  destruct (1 <? width (f_x a2)).
  - unfold combine_labels, mbind, mget, attr, mlift. cbn. reflexivity.
  - unfold apply_oh, mbind, mget, attr, mlift. cbn. reflexivity.
Qed.

(** the hypotheses are met, and the refused fits succeed on a new learner *)
Example C106_case :
  exists s1 s1b, sl_fit toy plain ex104 (sl_new toy) = (s1, Ok tt) /\
    (forall j v, j < 1 -> (occurs (f_x ex104) j v <->
                           occurs [[LInt 1]; [LInt 0]; [LInt 2]; [LInt 1]] j v)) /\
    sl_fit toy plain (mkFitArgs [[LInt 1]; [LInt 3]] (Some [[0%R]; [1%R]]) [[0%R]; [1%R]] TNone TNone true) (sl_new toy)
    = (s1b, Ok tt) /\
    snd (sl_fit toy plain (mkFitArgs [[LInt 1]; [LInt 3]] (Some [[0%R]; [1%R]]) [[0%R]; [1%R]] TNone TNone true) s1)
    = Err ValueError.
Proof.
  eexists _, _. repeat split.
  - intros (r & Hr & <-). cbn in Hr. replace j with 0 by lia.
    destruct Hr as [<-|[<-|[<-|[]]]]; [exists [LInt 2]|exists [LInt 0]|exists [LInt 1]]; cbn; auto.
  - intros (r & Hr & <-). cbn in Hr. replace j with 0 by lia.
    destruct Hr as [<-|[<-|[<-|[<-|[]]]]]; [exists [LInt 1]|exists [LInt 0]|exists [LInt 2]|exists [LInt 1]]; cbn; auto.
Qed.
Definition ex106s : fitargs :=
  mkFitArgs [[LInt 0]; [LInt 1]] (Some [[0%R]; [1%R]]) [[0%R]; [1%R]] TNone TNone false.
Example C106_separate_case :
  exists s1 s1b, sl_fit toy plain ex106s (sl_new toy) = (s1, Ok tt) /\
    sl_fit toy plain (mkFitArgs [[LInt 0]; [LInt 1]] (Some [[0%R]; [1%R]]) [[0%R]; [1%R]] TNone TNone true) (sl_new toy)
    = (s1b, Ok tt).
Proof. eexists _, _. repeat split. Qed.

(* ------------------------------------------------------------------------------------------------ *)
(** ** C107: the documented forms of treat and control *)

Lemma sl_prepare_treat_err L c s er tr data target :
  s_fitted s = true -> s_comb s = true -> s_wv s <> None -> s_treat s = Some tr ->
  get_tr_ctrl tr (fun x => sl_comp true x None) true (s_enc s) = (s_enc s, Err er) ->
  sl_prepare L c data target s = (s, Err er).
Proof.
  intros H1 H2 H3 H4 G. unfold sl_prepare, mbind, mget. rewrite H1. cbn [negb].
  assert (ED : exists D, (match data with Some d0 => mret d0 | None => attr (s_wv s) end) s = (s, Ok D)).
  { unfold mret, attr, mlift. destruct data; [eauto|]. destruct (s_wv s); [eauto|easy]. }
  destruct ED as (D & ->). rewrite H2. unfold sl_prepare_combined, mbind, mget, attr, mlift. rewrite H4, H1.
  unfold sl_enc. rewrite G. destruct s; reflexivity.
Qed.
Lemma s_do_treat_err L c s er tr :
  s_fitted s = true -> s_comb s = true -> s_wv s <> None -> s_treat s = Some tr ->
  get_tr_ctrl tr (fun x => sl_comp true x None) true (s_enc s) = (s_enc s, Err er) ->
  (forall k, fst (s_do L c k s) = s) /\
  (forall data q, snd (sl_estimate L c data q None s) = Err er) /\ (forall data, snd (sl_effect_nji L c data s) = Err er).
Proof.
  intros H1 H2 H3 H4 G.
  assert (P : forall data target, sl_prepare L c data target s = (s, Err er))
    by (intros; now apply (sl_prepare_treat_err L c s er tr)).
  split; [|split].
  - intros [data q target|data]; cbn [s_do].
    + unfold sl_estimate, mbind. destruct target as [cl|]; unfold mret; [|now rewrite P].
      destruct (c_proba c); [|reflexivity]. unfold mget, attr, mlift. destruct (s_model s); [|reflexivity].
      destruct (l_classes L m); [|reflexivity]. destruct (check_classes _ _); [now rewrite P|reflexivity].
    + unfold sl_effect_nji, mbind. now rewrite P.
  - intros data q. unfold sl_estimate, mbind, mret. now rewrite P.
  - intros data. unfold sl_effect_nji, mbind. now rewrite P.
Qed.
Lemma s_after_fixed L c h s : (forall k, fst (s_do L c k s) = s) -> s_after L c h s = s.
Proof.
  intros H. induction h as [|k h IH]; [reflexivity|].
  change (s_after L c (k :: h) s) with (s_after L c h (fst (s_do L c k s))). now rewrite H.
Qed.

(** C107 is false: the documented array(['run', 'read']) is accepted by fit, and then every estimate raises
    IndexError ... *)
Theorem C107_array_refuted L c a s1 l :
  f_comb a = true -> f_treat a = TArr1 l -> sl_fit L c a (sl_new L) = (s1, Ok tt) ->
  forall h data q, snd (sl_estimate L c data q None (s_after L c h s1)) = Err IndexError.
Proof.
  intros Hc Ht H h data q. destruct (f_wv a) as [wv|] eqn:Hw.
  2:{ unfold sl_fit in H. rewrite Hw in H. easy. }
  destruct (sl_fit_inv _ _ _ _ _ _ Hw Hc H) as (e1 & x' & X & m & E & _ & _ & ->).
  destruct (s_do_treat_err L c (mkSL L true e1 (Some (width x')) (Some (f_treat a)) (Some (f_control a)) (Some wv) (width (f_y a)) true (Some m))
              IndexError (f_treat a)) as (F & G & _); try reflexivity; try easy.
  { now rewrite Ht. }
  rewrite (s_after_fixed _ _ _ _ F). apply G.
Qed.

(** ... the other meta learners refuse it at fit *)
Theorem C107_array_TX_refuted L c a l :
  f_comb a = true -> f_treat a = TArr1 l \/ f_control a = TArr1 l ->
  (forall s, snd (tl_fit L c a s) <> Ok tt) /\ (forall s, snd (xl_fit L c a s) <> Ok tt).
Proof.
  intros Hc Ht.
  assert (G : forall e e' v, tl_codes c a e <> (e', Ok v)).
  { intros e e' v H. unfold tl_codes in H. apply mbind_inv in H as (e2 & x & _ & H).
    apply mbind_inv in H as (e3 & t & G1 & H). apply mbind_inv in H as (e4 & k & G2 & _).
    destruct Ht as [E|E]; [rewrite E in G1|rewrite E in G2]; easy. }
  split; intros s H; unfold tl_fit, xl_fit in H; (destruct (f_wv a) as [wv|]; [|easy]); rewrite Hc in H;
    unfold mbind, mset, tl_enc in H;
    (destruct (tl_codes c a (t_enc (tl_begin wv (width (f_y a)) true s))) as [e' [v|]] eqn:E; [exact (G _ _ _ E)|easy]).
Qed.

(** ... and a list that mixes numbers and strings, for treatment columns of both kinds, is turned into strings:
    whatever group it names, every estimate raises ValueError *)
Theorem C107_mixed_list_refuted L c a s1 d l :
  c_categories c = None -> f_comb a = true -> Forall (fun r => length r = d) (f_x a) ->
  f_treat a = TList l -> length l = d -> existsb is_str l = true ->
  (exists j, j < d /\ (forall v, occurs (f_x a) j v -> is_str v = false)) ->
  sl_fit L c a (sl_new L) = (s1, Ok tt) ->
  forall h data q, snd (sl_estimate L c data q None (s_after L c h s1)) = Err ValueError.
Proof.
  intros HN Hc HL Ht Hl Hst (j & Hj & Hint) H h data q. destruct (f_wv a) as [wv|] eqn:Hw.
  2:{ unfold sl_fit in H. rewrite Hw in H. easy. }
  destruct (sl_fit_inv _ _ _ _ _ _ Hw Hc H) as (e1 & x' & X & m & E & _ & _ & ->). rewrite HN in E.
  destruct (@sl_comp_fresh _ None _ _ _ _ HL ltac:(congruence) E) as (keys & cats & Ef & HE & _ & Hk & _).
  destruct (@enc_fit_spec _ _ _ _ HL Ef) as (_ & _ & Hlen & _ & Hnone & _).
  destruct (Hnone eq_refl) as [_ Hin].
  set (l' := np_scalars l).
  assert (Hl' : length l' = d) by (unfold l', np_scalars; rewrite Hst, map_length; auto).
  assert (Str : is_str (nth j l' (LInt 0)) = true).
  { assert (I : In (nth j l' (LInt 0)) l') by (apply nth_In; lia).
    revert I. unfold l' at 2, np_scalars. rewrite Hst. intros I. apply in_map_iff in I as (a0 & <- & _).
    destruct a0; reflexivity. }
  assert (Nr : ~ In l' keys).
  { intros Ir. apply Hk in Ir.
    pose proof (@Forall2_nth _ _ _ _ _ (LInt 0) (@nil label) Ir j ltac:(lia)) as F.
    apply (Hin j Hj) in F. apply Hint in F. congruence. }
  destruct (s_do_treat_err L c (mkSL L true e1 (Some (width x')) (Some (f_treat a)) (Some (f_control a)) (Some wv) (width (f_y a)) true (Some m))
              ValueError (f_treat a)) as (F & G & _); try reflexivity; try easy.
  { rewrite Ht. cbn [s_enc]. unfold get_tr_ctrl, mbind. fold l'.
    rewrite sl_comp_ready, (@comp_ready_unknown_any e1 d keys [l'] l' HE); auto.
    now left. }
  rewrite (s_after_fixed _ _ _ _ F). apply G.
Qed.

(** C107, proved part: a scalar for one column, a list of one kind, a 2-d array of one row, or no argument: this is
    [asks], see C104_first_estimate.  The cases above do occur: *)
Definition ex107 (t : targ) : fitargs :=
  mkFitArgs [[LInt 0; LStr "work"]; [LInt 1; LStr "study"]] (Some [[5%R]; [6%R]]) [[1%R]; [0%R]] t TNone true.
Example C107_case :
  (exists s1, sl_fit toy plain (ex107 (TArr1 [LInt 1; LStr "study"])) (sl_new toy) = (s1, Ok tt)) /\
  (exists s1, sl_fit toy plain (ex107 (TList [LInt 1; LStr "study"])) (sl_new toy) = (s1, Ok tt)) /\
  (exists s1 s2 e, sl_fit toy plain (ex107 (TArr2 [[LInt 1; LStr "study"]])) (sl_new toy) = (s1, Ok tt) /\
     sl_estimate toy plain None QNone None s1 = (s2, Ok e)) /\
  (exists j, j < 2 /\ (forall v, occurs (f_x (ex107 TNone)) j v -> is_str v = false)).
Proof.
  split; [eexists; reflexivity|]. split; [eexists; reflexivity|]. split; [eexists _, _, _; split; reflexivity|].
  exists 0. split; [lia|]. intros v (r & Hr & <-). cbn in Hr. destruct Hr as [<-|[<-|[]]]; reflexivity.
Qed.

Print Assumptions C106_refit_partial.
Print Assumptions C106_refit_new_value_refuted.
Print Assumptions C106_separate_then_combined_refuted.
Print Assumptions C107_array_refuted.
Print Assumptions C107_array_TX_refuted.
Print Assumptions C107_mixed_list_refuted.
