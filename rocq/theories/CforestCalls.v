(** C179 and C180: the control argument of CausalForest.fit, histories of fits. *)
From Coq Require Import ZArith Reals Lra.
From Verif Require Import Base ApiModel EstUtilsModel EstUtilsProps MetaModel MetaSpec MetaProofs MetaProps MetaRefit MetaT MetaX
  CrossFitModel CrossFitProofs DrModel DrProofs DrSpec DrProps DrCalls DrRobust DmlModel DmlProofs DmlProps DmlCalls DmlDisc
  TreeCritModel TreeCritProps SplitterModel SplitterSpec TreeSpec BestFirstModel BestFirstProps GrfCritModel GrfCritSpec GrfModel GrfSpec GrfProofs GrfExamples GrfProps
  GrfRefuted GrfApiProps CforestModel CforestProofs CforestProps.
Unset Implicit Arguments.
Local Notation length := List.length.
Local Open Scope nat_scope.

(* ------------------------------------------------------------------------------------------------ *)
(** ** C179: control given as an array *)

(** A one-element array is taken as the number of a group, not as a treatment value: control=np.array([c]) makes the c-th
    group (in the order of the groups) the reference. *)
Theorem C179_CF_control_array_refuted Lx Ly E categories cf a x p s1 m h v d c :
  usable E -> proper p -> m_x a = XDisc x -> Forall (fun r => length r = d) x -> (forall cs, categories = Some cs -> Forall (@NoDup label) cs) ->
  m_v a = Some v -> length v = length x -> sizes p (length x) m h -> enough (length x) m h ->
  k_control a = AArr [LInt c] ->
  cf_fit Lx Ly E categories cf None a (cf_new p) = (s1, Ok tt) ->
  exists keys wv ph yhat,
    groups_of d (dr_values categories x) keys /\ (d = 1 -> categories = None -> increasing keys) /\
    get_wv [m_w a; m_v a] = Ok wv /\ (- Z.of_nat (length keys) <= c < Z.of_nat (length keys))%Z /\
    first_stage_disc Lx cf wv (group_nos keys x) (length keys) ph /\ first_stage Ly cf wv (m_y a) (width (m_y a)) yhat /\
    let others := seqdel (length keys) (Z.to_nat (if (c <? 0)%Z then c + Z.of_nat (length keys) else c)%Z) in
    forall data t ct q, let rows := match data with Some d => d | None => v end in rows <> [] -> width rows = width v ->
    exists out, cf_estimate E s1 data t ct q = Ok out /\
       local_effects E p m h (length x) (length keys - 1)
         (fun i j => nth (nth j others 0%nat) (nth i (map (indicator keys) x) []) 0 - ph i (nth j others 0%nat))%R
         (fun i => nth 0 (nth i (m_y a) []) 0 - yhat i 0%nat)%R v rows out.
Proof.
  intros U P Ex HL HN Ev Lv Hz Hn Kc H.
  destruct (cf_fit_disc _ _ _ _ _ _ _ _ _ _ _ Ex HL HN H) as (keys & e & wv & ph & yhat & cols & H1 & H2 & H3 & H4 & H5 & H6 & H7 & H8 & H9 & H10 & H11 & _).
  cbn [transformed] in H5, H11. exists keys, wv, ph, yhat. rewrite Kc in H10. cbn [drops mapX bind] in H10.
  destruct (norm_index (length keys) c) as [i|] eqn:Ei; [|discriminate H10]. cbn [bind] in H10. injection H10 as <-.
  assert (R : (- Z.of_nat (length keys) <= c < Z.of_nat (length keys))%Z /\ i = Z.to_nat (if (c <? 0)%Z then c + Z.of_nat (length keys) else c)%Z).
  { unfold norm_index in Ei. destruct (Z.leb_spec 0 c), (Z.ltb_spec c (Z.of_nat (length keys))); cbn [andb] in Ei.
    - injection Ei as <-. split; [lia|]. destruct (Z.ltb_spec c 0); [lia|reflexivity].
    - rewrite (proj2 (Z.ltb_ge c 0)) in Ei by lia. rewrite Bool.andb_false_r in Ei. discriminate.
    - rewrite (proj2 (Z.ltb_lt c 0)) in * by lia. rewrite Bool.andb_true_r in Ei. destruct (Z.leb_spec (- Z.of_nat (length keys)) c); [|discriminate].
      injection Ei as <-. split; [lia|reflexivity].
    - lia. }
  destruct R as [R ->]. split; [exact H1|]. split; [exact H2|]. split; [exact H5|]. split; [exact R|]. split; [exact H7|]. split; [exact H8|].
  set (g := Z.to_nat _) in *. assert (Lt : g < length keys) by (unfold g; destruct (Z.ltb_spec c 0); lia).
  intros others. rewrite keep_one in H11 by auto. fold others in H11. rewrite Ev in H11. intros data t ct q rows Hr Hw.
  destruct (forest_estimates E p m h (map (indicator keys) x) ph (Some others) (m_y a) yhat v (fst s1) s1 U P) with (data := data) (t := t) (c := ct) (q := q)
    as (out & Eo & Lo); try (rewrite map_length); auto.
  exists out. split; [exact Eo|]. cbn [ncols col] in Lo. rewrite map_length in Lo. rewrite (seqdel_length _ _ Lt : length others = _) in Lo. exact Lo.
Qed.
Print Assumptions C179_CF_control_array_refuted.

(** An array of strings never works. *)
Theorem C179_CF_control_strings_refuted Lx Ly E categories cf trf a x p d l :
  m_x a = XDisc x -> Forall (fun r => length r = d) x -> (forall cs, categories = Some cs -> Forall (@NoDup label) cs) ->
  k_control a = AArr l -> existsb is_str l = true ->
  forall s1, cf_fit Lx Ly E categories cf trf a (cf_new p) <> (s1, Ok tt).
Proof.
  intros Ex HL HN Kc Hs s1 H.
  destruct (cf_fit_disc _ _ _ _ _ _ _ _ _ _ _ Ex HL HN H) as (keys & e & wv & ph & yhat & cols & _ & _ & _ & _ & _ & _ & _ & _ & _ & H10 & _).
  rewrite Kc in H10. cbn [drops] in H10. revert cols H10. induction l as [|b l IH]; [discriminate Hs|]. intros cols H10. cbn [mapX] in H10.
  destruct b as [z|b]; [|discriminate H10]. cbn [existsb is_str orb] in Hs.
  destruct (norm_index _ z); [|discriminate H10]. cbn [bind] in H10. destruct (mapX _ l) as [r|] eqn:Er; [|discriminate H10].
  assert (Q : forall l, existsb is_str l = true -> forall r, mapX (fun l => match l with LInt z => norm_index (length keys) z | LStr _ => Err IndexError end) l <> Ok r).
  { clear. induction l as [|b l IH]; [discriminate|]. intros Hs r. destruct b as [z|b]; cbn [mapX]; [|discriminate]. cbn [existsb is_str orb] in Hs.
    destruct (norm_index _ z); cbn [bind]; [|discriminate]. destruct (mapX _ l) as [q|]; cbn [bind]; [|discriminate]. exfalso. exact (IH Hs q eq_refl). }
  exact (Q l Hs r Er).
Qed.
Print Assumptions C179_CF_control_strings_refuted.

(* ------------------------------------------------------------------------------------------------ *)
(** ** C180: a failed fit *)

Definition with_control (t : dtarg) (a : dmlargs) : dmlargs := mkDmlArgs (m_x a) (m_w a) (m_v a) (m_y a) (k_treat a) t.

(** the state in which the second stage of a new object starts *)
Definition before_columns (a : dmlargs) (e : encs) (w : nat) : dml :=
  mkDML 0 false true e (m_v a) (match m_v a with Some _ => true | None => false end) w (width (m_y a)) ANone (k_control a).
Lemma cf_fit_disc_run Lx Ly E categories cf trf a x p s1 :
  m_x a = XDisc x -> cf_fit Lx Ly E categories cf trf (with_control ANone a) (cf_new p) = (s1, Ok tt) ->
  exists e z xhat yhat, sl_comp false x categories no_encs = (e, Ok z) /\
    forall t, cf_fit Lx Ly E categories cf trf (with_control t a) (cf_new p) =
      (mdo keep <- cf_columns true;
       mdo _ <- on_forest (grf_fit E (cf_data (to_rows z) xhat keep (m_y a) yhat (transformed trf (m_v a))) None);
       on_dml (obj_set dml_done)) (grf_init p, before_columns (with_control t a) e (width (to_rows z))).
Proof.
  intros Ex H. unfold cf_fit in H. set (body := (mbind _ _ : M CSt unit)) in H.
  assert (Hb : body (cf_new p) = (s1, Ok tt)) by (destruct (m_w (with_control ANone a)), (m_v (with_control ANone a)); auto; discriminate H).
  assert (NN : m_w a <> None \/ m_v a <> None).
  { destruct (m_w a) eqn:Ew, (m_v a) eqn:Ev; auto; try (left; discriminate); try (right; discriminate).
    exfalso. unfold with_control in H. cbn [m_w m_v] in H. rewrite Ew, Ev in H. discriminate H. }
  clear H. subst body. cbn [with_control m_x m_w m_v m_y] in Hb.
  apply mbind_inv in Hb as (a1 & [] & A1 & H). apply on_dml_inv in A1 as (h1 & o1 & A1 & ->). unfold obj_set in A1. injection A1 as _ <-.
  apply mbind_inv in H as (a2 & o2 & A2 & H). apply on_dml_inv in A2 as (h2 & o2' & A2 & ->). unfold obj_get in A2. injection A2 as _ <- <-.
  rewrite Ex in H. cbn [fst snd cf_new] in H. apply mbind_inv in H as (a3 & [x' z'] & A3 & H).
  apply mbind_inv in A3 as (a3' & z & A3 & A3'). unfold mret in A3'. injection A3' as <- <- <-.
  apply on_dml_inv in A3 as (h3 & o3 & A3 & ->). unfold dml_enc in A3. cbn [fst snd] in A3.
  change (d_encs (cf_begin (with_control ANone a) (dml_new 0))) with no_encs in A3. change (d_isf (cf_begin (with_control ANone a) (dml_new 0))) with false in A3.
  destruct (sl_comp false x categories no_encs) as [e r3] eqn:Ez. injection A3 as _ <- ->.
  apply mbind_inv in H as (a4 & [] & A4 & H). apply on_dml_inv in A4 as (h4 & o4 & A4 & ->). unfold obj_set in A4. injection A4 as _ <-.
  apply mbind_inv in H as (a5 & wv & A5 & H). apply mlift_inv in A5 as [-> A5].
  apply mbind_inv in H as (a6 & xhat & A6 & H). apply mlift_inv in A6 as [-> A6].
  apply mbind_inv in H as (a7 & yhat & A7 & _). apply mlift_inv in A7 as [-> A7].
  exists e, z, xhat, yhat. split; [reflexivity|]. intros t. unfold cf_fit. cbn [with_control m_x m_w m_v m_y].
  rewrite Ex. unfold transformed. set (v := match trf with Some f => option_map f (m_v a) | None => m_v a end) in *.
  assert (B : forall B0 : M CSt unit, match m_w a, m_v a with None, None => mlift (Err AssertionError) | _, _ => B0 end (cf_new p) = B0 (cf_new p)).
  { intros B0. destruct (m_w a), (m_v a); auto. destruct NN; contradiction. }
  rewrite B. unfold mbind at 1. unfold on_dml at 1, obj_set at 1. cbn [fst snd cf_new].
  unfold mbind at 1. unfold on_dml at 1, obj_get at 1. cbn [fst snd].
  unfold mbind at 1. unfold mbind at 1. unfold on_dml at 1, dml_enc at 1. cbn [fst snd].
  change (d_encs (cf_begin (with_control t a) (dml_new 0))) with no_encs. change (d_isf (cf_begin (with_control t a) (dml_new 0))) with false.
  rewrite Ez. unfold mret at 1. unfold mbind at 1. unfold on_dml at 1, obj_set at 1. cbn [fst snd].
  unfold mbind at 1. rewrite A5. unfold mlift at 1. unfold mbind at 1. rewrite A6. unfold mlift at 1.
  unfold mbind at 1. rewrite A7. unfold mlift at 1. unfold mbind at 1. unfold on_dml at 1, obj_set at 1. cbn [fst snd].
  reflexivity.
Qed.

Lemma columns_err f yx st1 e tv nm nx ny tr t t' er :
  (exists l, t = AVal l /\ t' = TVal l) \/ (exists l, t = AList l /\ t' = TList l) ->
  get_tr_ctrl t' (fun v => sl_comp true v None) false e = (e, Err er) ->
  cf_columns true (f, mkDML yx false st1 e tv nm nx ny tr t) = ((f, mkDML yx true st1 e tv nm nx ny tr t), Err er).
Proof.
  intros H G. unfold cf_columns, mbind, on_dml, obj_get, obj_set, dml_enc.
  destruct H as [(l & -> & ->)|(l & -> & ->)]; cbn [fst snd d_ct set_isf d_encs d_nx d_yx d_isf d_stage1 d_tv d_named d_ny d_tr]; rewrite G; reflexivity.
Qed.

(** A fit of a new object that fails because the control is not a value of the treatment leaves an object that counts as
    fitted: a later fit uses the encoding of the failed one and raises if its data have a group that did not occur. *)
Theorem C180_CF_failed_fit_refuted Lx Ly E categories cf trf a x p d t rk s0 :
  m_x a = XDisc x -> Forall (fun r => length r = d) x -> (forall cs, categories = Some cs -> Forall (@NoDup label) cs) ->
  cf_fit Lx Ly E categories cf trf (with_control ANone a) (cf_new p) = (s0, Ok tt) ->
  exists keys, groups_of d (dr_values categories x) keys /\
    (t <> ANone -> names d keys 0 t rk -> length rk = d -> ~ In rk keys ->
     exists s1, cf_fit Lx Ly E categories cf trf (with_control t a) (cf_new p) = (s1, Err ValueError) /\
       forall Lx' Ly' E' categories' cf' trf' a' x' r, m_x a' = XDisc x' -> (m_w a' <> None \/ m_v a' <> None) ->
         Forall (fun r => length r = d) x' -> In r x' -> ~ In r keys ->
         snd (cf_fit Lx' Ly' E' categories' cf' trf' a' s1) = Err ValueError).
Proof.
  intros Ex HL HN H. destruct (cf_fit_disc_run _ _ _ _ _ _ _ _ _ _ Ex H) as (e & z & xhat & yhat & Ez & Run).
  destruct (@sl_comp_fresh _ _ _ _ _ _ HL HN Ez) as (keys & cats & Ef & HE & -> & Hk & Hd1 & Hn1).
  destruct (Enc_keys HE) as (ND & _ & _).
  exists keys. split; [exact (groups_product _ _ _ _ _ HL Ef ND Hk)|]. intros Nt Nm Lr Ni.
  set (o := before_columns (with_control t a) e (width (to_rows (map (ind keys) x)))).
  exists (grf_init p, set_isf true o). split.
  - rewrite Run. fold o.
    assert (G : forall t', t' <> TNone -> asks d keys 0 t' rk -> get_tr_ctrl t' (fun v => sl_comp true v None) false e = (e, Err ValueError)).
    { intros t' Hne HA. eapply (@get_tr_ctrl_unknown e d keys false); eauto. intros y _. apply sl_comp_ready. }
    assert (C : cf_columns true (grf_init p, o) = ((grf_init p, set_isf true o), Err ValueError)).
    { destruct Nm as [r Hr|l Hd|l Hl]; [easy| |].
      - exact (columns_err (grf_init p) 0 true e _ _ _ _ ANone (AVal l) (TVal l) _ (or_introl (ex_intro _ l (conj eq_refl eq_refl))) (G (TVal l) ltac:(discriminate) ltac:(now constructor))).
      - exact (columns_err (grf_init p) 0 true e _ _ _ _ ANone (AList l) (TList l) _ (or_intror (ex_intro _ l (conj eq_refl eq_refl))) (G (TList l) ltac:(discriminate) ltac:(now constructor))). }
    unfold mbind at 1. rewrite C. reflexivity.
  - intros Lx' Ly' E' categories' cf' trf' a' x' r Ex' NN HL' Hr Hni. unfold cf_fit.
    match goal with |- snd (_ ?s) = _ => set (s1 := s) end.
    assert (B : forall B0 : M CSt unit, match m_w a', m_v a' with None, None => mlift (Err AssertionError) | _, _ => B0 end s1 = B0 s1).
    { intros B0. destruct (m_w a'), (m_v a'); auto. destruct NN; contradiction. }
    rewrite B, Ex'. unfold s1, mbind, on_dml, obj_set, obj_get, dml_enc. cbn [fst snd cf_begin set_isf d_isf d_encs o before_columns].
    rewrite sl_comp_ready. rewrite (@comp_ready_unknown_any _ _ _ _ _ HE HL' Hr Hni). reflexivity.
Qed.
Print Assumptions C180_CF_failed_fit_refuted.
