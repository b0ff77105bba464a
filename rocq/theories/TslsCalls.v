(** C153-C159: NP2SLS, calls that never work and calls that do. *)
From Coq Require Import ZArith Reals Lra Psatz Sorting.Sorted Permutation.
From Verif Require Import Base ApiModel EstUtilsModel EstUtilsProps MetaModel MetaSpec MetaProofs MetaProps CrossFitModel DrModel DrProofs DrRobust
  MetaRefit DmlModel DmlProofs DmlProps BoundProofs TslsModel TslsSpec TslsProofs TslsProps TslsRecover TslsExamples.
Local Notation length := List.length.
Local Notation concat := List.concat.

Ltac inv_bind H := repeat match type of H with bind ?m _ = Ok _ => destruct m eqn:?; cbn [bind] in H; [|discriminate H] end.

(* ------------------------------------------------------------------------------------------------ *)
(** ** C153: averages *)

(** estimate(quantity='ATE') and estimate(quantity='CATE') never return: not for any object, data, arguments *)
Theorem C153_NP_average_refuted L (o : option (nstate L)) data treat control e :
  np_estimate o data treat control NQATE <> Ok e /\ np_estimate o data treat control NQCATE <> Ok e.
Proof.
  unfold np_estimate. split; intros H; destruct o as [s|]; try discriminate H.
  - inv_bind H. discriminate H.
  - inv_bind H. destruct (s_vn s); [inv_bind H|]; discriminate H.
Qed.
(** after a good fit and with meaningful arguments the error is a TypeError *)
Theorem C153_NP_average_type_error_refuted Lx Ly a n x_d z_d k_v k_w x z cats phi zeta psi s data n' v w treat control t c :
  good_call a n x_d z_d k_v k_w x z cats phi zeta psi -> two_d Lx -> np_fit Lx Ly a = Ok s ->
  est_data a n k_v k_w data n' v w -> t_means n' x_d 1 cats treat t -> t_means n' x_d 0 cats control c ->
  np_estimate (Some s) data treat control NQATE = Err TypeError.
Proof.
  intros G H2 E HD Ht Hc. destruct (np_fit_ok Lx Ly a n x_d z_d k_v k_w x z cats phi zeta psi G H2) as (fx & fv & Ax & Av & E').
  rewrite E' in E. clear E'. inv_bind E. injection E as <-.
  destruct G as [g_n0 g_xd0 g_zd0 g_kv0 g_y0 g_x0 g_xr0 g_z0 g_zr0 g_v0 g_w0 g_phi0 g_zeta0 g_psi0].
  unfold np_estimate.
  rewrite (np_prepare_ok a n k_v k_w x_d (width (n_y a)) cats fx fv phi psi _ data n' v w treat control t c
    g_n0 g_xd0 (x_means_cats _ _ _ _ g_x0) g_v0 g_w0 Ax Av HD Ht Hc).
  cbn [bind fst snd]. destruct (zip_same Rminus (predict Ly a1 (drows n' (fun r => phi (nth r t [])) (option_map (map psi) v) w))
    (predict Ly a1 (drows n' (fun r => phi (nth r c [])) (option_map (map psi) v) w))) as (e & -> & _); [|reflexivity].
  apply predict_shape. now rewrite !drows_length.
Qed.

(* ------------------------------------------------------------------------------------------------ *)
(** ** C155: covariates are required *)

(** without covariates fit works only if covar_basis is a transformer object *)
Theorem C155_NP_no_covariates_refuted Lx Ly a s : n_v a = None -> np_fit Lx Ly a = Ok s -> exists f, n_vb a = BFun f.
Proof.
  intros Hv H. unfold np_fit in H. destruct (n_z a); [|discriminate H]. match type of H with (if ?b then _ else _) = _ => destruct b; [discriminate H|] end.
  cbv zeta in H. inv_bind H. rewrite Hv in *. destruct (n_vb a) as [|f d|f d|f]; [..|eauto].
  - match goal with E : v_basis BNone = _ |- _ => injection E as <- end. cbn [basis_fit] in *. discriminate.
  - match goal with E : v_basis (BTuple f d) = _ |- _ => destruct f; cbn [v_basis get_basis_func] in E; try discriminate E; injection E as <- end.
    cbn [basis_fit] in *. discriminate.
  - match goal with E : v_basis (BList f d) = _ |- _ => injection E as <- end. cbn [basis_fit] in *. discriminate.
Qed.
(** with covariates a list as covar_basis, which treatment_basis and instrument_basis accept, never works *)
Theorem C155_NP_covar_list_refuted Lx Ly a f d s : n_vb a = BList f d -> np_fit Lx Ly a <> Ok s.
Proof.
  intros Hb H. unfold np_fit in H. rewrite Hb in H. destruct (n_z a); [|discriminate H].
  match type of H with (if ?b then _ else _) = _ => destruct b; [discriminate H|] end. cbv zeta in H. cbn [v_basis] in H. 
  destruct (fit_x (n_x a)); [|discriminate H]. cbn [bind] in H. destruct (enc_z z); [|discriminate H]. cbn [bind] in H.
  destruct (xz_basis (n_xb a)); [|discriminate H]. cbn [bind] in H. destruct (xz_basis (n_zb a)); [|discriminate H]. cbn [bind] in H.
  inv_bind H. cbn [basis_fit] in *. discriminate.
Qed.
(** the defaults of fit, in particular, need covariates *)
Theorem C155_NP_default_call_refuted Lx Ly y x z w s :
  np_fit Lx Ly (mkNargs y x z w None (BTuple Poly 2) (BTuple Poly 2) (BTuple Poly 2)) <> Ok s.
Proof. intros H. apply C155_NP_no_covariates_refuted in H as (f & Hf); [discriminate Hf|reflexivity]. Qed.

(* ------------------------------------------------------------------------------------------------ *)
(** ** C157: a discrete instrument *)

(** is_discrete_instrument=True never works *)
Theorem C157_NP_discrete_instrument_refuted Lx Ly a z s : n_z a = Some (ZDisc z) -> np_fit Lx Ly a <> Ok s.
Proof.
  intros Hz H. unfold np_fit in H. rewrite Hz in H.
  match type of H with (if ?b then _ else _) = _ => destruct b; [discriminate H|] end. cbv zeta in H. inv_bind H.
  match goal with E : fit_z (ZDisc z) _ _ = Ok _ |- _ => unfold fit_z in E; inv_bind E; injection E as <- end.
  match type of H with match ?o with Some _ => _ | None => _ end = _ => destruct o; discriminate H end.
Qed.

(* ------------------------------------------------------------------------------------------------ *)
(** ** C156: counterfactuals *)

Lemma np_cf_ok Lx Ly a n x_d z_d k_v k_w x z cats phi zeta psi s d v w treat control X xd :
  good_call a n x_d z_d k_v k_w x z cats phi zeta psi -> two_d Lx -> np_fit Lx Ly a = Ok s ->
  est_data a n k_v k_w (Some d) (nd_n d) v w -> nd_x d = Some X -> raw_x (Some X) = Ok (Some xd) -> rect (nd_n d) x_d xd ->
  np_estimate (Some s) (Some d) treat control NQCF =
  Ok (predict Ly (s_m s) (drows (nd_n d) (fun r => phi (nth r xd [])) (option_map (map psi) v) w)).
Proof.
  intros G H2 E HD Hx HX HR. destruct (np_fit_ok Lx Ly a n x_d z_d k_v k_w x z cats phi zeta psi G H2) as (fx & fv & Ax & Av & E').
  rewrite E' in E. clear E'. inv_bind E. injection E as <-.
  destruct G as [g_n0 g_xd0 g_zd0 g_kv0 g_y0 g_x0 g_xr0 g_z0 g_zr0 g_v0 g_w0 g_phi0 g_zeta0 g_psi0].
  unfold np_estimate, np_prepare.
  destruct (np_check_ok a n k_v k_w x_d (width (n_y a)) cats fx fv psi a1 (Some d) (nd_n d) v w g_n0 g_v0 g_w0 Av HD) as (x0 & EC & Hn & HV & HW).
  assert (x0 = Some X) as ->.
  { unfold np_check in EC. cbv zeta in EC. rewrite Hx in EC. cbn [named] in EC. inv_bind EC. congruence. }
  rewrite EC. cbn [bind]. rewrite HX. cbn [bind fst snd]. match goal with |- context [s_xb ?s] => change (s_xb s) with fx; set (st := s) end.
  rewrite (Ax _ _ HR Hn). cbn [bind].
  rewrite (np_predict_ok st _ _ (map phi xd) (nd_n d)).
  - cbn [bind fst]. change (s_m st) with a1. do 2 f_equal. unfold drows. apply map_ext_in. intros r Hr. apply in_seq in Hr.
    rewrite (nth_map_in _ _ [] []) by (destruct HR as [-> _]; lia). reflexivity.
  - rewrite map_length. apply HR.
  - apply map_length_o. now apply (orect_length (nd_n d) k_v).
  - now apply (orect_length (nd_n d) k_w).
Qed.

(** on a data frame with a continuous treatment: the prediction of y_model at the observed treatment *)
Theorem C156_NP_counterfactual_partial Lx Ly a n x_d z_d k_v k_w x z phi zeta psi s d v w treat control xd :
  good_call a n x_d z_d k_v k_w x z None phi zeta psi -> two_d Lx -> np_fit Lx Ly a = Ok s ->
  est_data a n k_v k_w (Some d) (nd_n d) v w -> nd_x d = Some (XCont xd) -> rect (nd_n d) x_d xd ->
  np_estimate (Some s) (Some d) treat control NQCF =
  Ok (predict Ly (s_m s) (drows (nd_n d) (fun r => phi (nth r xd [])) (option_map (map psi) v) w)).
Proof. intros. eapply np_cf_ok; eauto. Qed.

(** with a discrete treatment whose values are numbers it is the prediction at the values themselves, not at the group
    numbers y_model was trained on *)
Theorem C156_NP_counterfactual_numbers_refuted Lx Ly a n x_d z_d k_v k_w x z cs phi zeta psi s d v w treat control xd :
  good_call a n x_d z_d k_v k_w x z (Some cs) phi zeta psi -> two_d Lx -> np_fit Lx Ly a = Ok s ->
  est_data a n k_v k_w (Some d) (nd_n d) v w -> nd_x d = Some (XDisc (map (map LInt) xd)) -> rect (nd_n d) x_d xd ->
  np_estimate (Some s) (Some d) treat control NQCF =
  Ok (predict Ly (s_m s) (drows (nd_n d) (fun r => phi (nth r (map (map IZR) xd) [])) (option_map (map psi) v) w)).
Proof.
  intros G H2 E HD Hx (HR & HR'). eapply np_cf_ok; eauto.
  - cbn [raw_x]. replace (existsb (existsb is_str) (map (map LInt) xd)) with false.
    + do 2 f_equal. rewrite map_map. apply map_ext. intros r. rewrite map_map. reflexivity.
    + symmetry. clear. induction xd as [|r xd IH]; [reflexivity|]. cbn [map existsb]. rewrite IH, orb_false_r.
      induction r as [|q r IHr]; [reflexivity|]. cbn [map existsb is_str]. exact IHr.
  - split; [now rewrite map_length|]. apply Forall_forall. intros r Hr. apply in_map_iff in Hr as (q & <- & Hq). rewrite map_length.
    rewrite Forall_forall in HR'. now apply HR'.
Qed.

(** on the training data (data=None) it never works with polynomial basis functions of the treatment *)
Theorem C156_NP_counterfactual_training_refuted Lx Ly a s degree treat control e : n_xb a = BTuple Poly degree ->
  np_fit Lx Ly a = Ok s -> np_estimate (Some s) None treat control NQCF <> Ok e.
Proof.
  intros Hb H C. assert (B : exists k, s_xb s = FPoly degree k).
  { unfold np_fit in H. destruct (n_z a); [|discriminate H]. rewrite Hb in H. cbn [xz_basis get_basis_func bind] in H. cbv zeta in H.
    inv_bind H. cbn [basis_fit] in *.
    match goal with E : bind (check_X _ _) _ = Ok _ |- _ => inv_bind E; injection E as <- end.
    repeat match type of H with match ?o with Some _ => _ | None => _ end = _ => destruct o; [|discriminate H] end. inv_bind H. injection H as <-. eexists. reflexivity. }
  destruct B as (k & Hk). unfold np_estimate, np_prepare in C. cbn [np_check bind raw_x fst snd] in C. rewrite Hk in C. cbn [basis_transform bind] in C. discriminate C.
Qed.

(** nor for a discrete treatment whose values are strings, on any data *)
Theorem C156_NP_counterfactual_strings_refuted L (s : nstate L) d xd treat control e : nd_x d = Some (XDisc xd) ->
  (exists r l, In r xd /\ In (LStr l) r) -> np_estimate (Some s) (Some d) treat control NQCF <> Ok e.
Proof.
  intros Hx (r & l & Hr & Hl) C. unfold np_estimate, np_prepare in C.
  destruct (np_check s (Some d)) as [[[[v w] x] n]|] eqn:EC; [|discriminate C]. cbn [bind] in C.
  assert (x = Some (XDisc xd)) as ->.
  { unfold np_check in EC. rewrite Hx in EC. cbn [named] in EC. inv_bind EC. congruence. }
  cbn [raw_x] in C. replace (existsb (existsb is_str) xd) with true in C; [discriminate C|].
  symmetry. apply existsb_exists. exists r. split; auto. apply existsb_exists. exists (LStr l). split; auto.
Qed.

(* ------------------------------------------------------------------------------------------------ *)
(** ** C159: arguments *)

(** effects are consistent: comparing t with c and c with k adds up to comparing t with k *)
Theorem C159_NP_contrasts Lx Ly a n x_d z_d k_v k_w x z cats phi zeta psi s data n' v w t c k t' c' k' :
  good_call a n x_d z_d k_v k_w x z cats phi zeta psi -> two_d Lx -> np_fit Lx Ly a = Ok s ->
  est_data a n k_v k_w data n' v w -> t' <> NNone -> c' <> NNone -> k' <> NNone ->
  t_means n' x_d 1 cats t' t -> t_means n' x_d 1 cats c' c -> t_means n' x_d 1 cats k' k ->
  exists e1 e2 e3, np_estimate (Some s) data t' c' NQNone = Ok e1 /\ np_estimate (Some s) data c' k' NQNone = Ok e2 /\
    np_estimate (Some s) data t' k' NQNone = Ok e3 /\ entrywise Rplus e1 e2 e3.
Proof.
  intros G H2 E HD Nt Nc Nk Ht Hc Hk. destruct (C150_NP_formula Lx Ly a n x_d z_d k_v k_w x z cats phi zeta psi G H2) as (st & EF & EE).
  assert (ES : exists m, s = st m).
  { rewrite EF in E. inv_bind E. injection E as <-. eauto. }
  destruct ES as (m & ->).
  assert (D0 : forall q q', q' <> NNone -> t_means n' x_d 1 cats q' q -> t_means n' x_d 0 cats q' q).
  { intros q q' N H. inversion H; subst; try easy; econstructor; eauto. }
  destruct (EE m data n' v w t' c' t c HD Ht (D0 _ _ Nc Hc)) as (e1 & E1 & S1 & S1' & V1).
  destruct (EE m data n' v w c' k' c k HD Hc (D0 _ _ Nk Hk)) as (e2 & E2 & S2 & S2' & V2).
  destruct (EE m data n' v w t' k' t k HD Ht (D0 _ _ Nk Hk)) as (e3 & E3 & S3 & S3' & V3).
  exists e1, e2, e3. repeat split; auto; try congruence. intros idx. rewrite V1, V2, V3. ring.
Qed.

(** estimate() without treat asks for the value 1 in every column: it never works for a discrete treatment whose values in
    some column do not contain the number 1, strings for instance *)
Theorem C159_NP_default_treat_refuted Lx Ly a n x_d z_d k_v k_w x z cs phi zeta psi s data n' v w control q e j :
  good_call a n x_d z_d k_v k_w x z (Some cs) phi zeta psi -> two_d Lx -> np_fit Lx Ly a = Ok s ->
  est_data a n k_v k_w data n' v w -> j < x_d -> ~ In (LInt 1) (nth j cs []) ->
  q <> NQCF -> np_estimate (Some s) data NNone control q <> Ok e.
Proof.
  intros G H2 E HD Hj Hi Hq C. destruct (np_fit_ok Lx Ly a n x_d z_d k_v k_w x z (Some cs) phi zeta psi G H2) as (fx & fv & Ax & Av & E').
  rewrite E' in E. clear E'. inv_bind E. injection E as <-.
  destruct G as [g_n0 g_xd0 g_zd0 g_kv0 g_y0 g_x0 g_xr0 g_z0 g_zr0 g_v0 g_w0 g_phi0 g_zeta0 g_psi0].
  destruct (np_check_ok a n k_v k_w x_d (width (n_y a)) (Some cs) fx fv psi a1 data n' v w g_n0 g_v0 g_w0 Av HD) as (x0 & EC & Hn & _ & _).
  unfold np_estimate, np_prepare in C. rewrite EC in C. cbn [bind] in C.
  replace (match q with NQCF => true | _ => false end) with false in C by (destruct q; easy).
  match type of C with context [np_arg ?s0 _ _ NNone] => set (s := s0) in C end.
  assert (EA : np_arg s n' 1 NNone = Ok (inl (repeat (repeat (LInt 1) x_d) n'))).
  { unfold np_arg. change (s_cats s) with (Some cs). change (s_xd s) with x_d. cbv iota beta. now rewrite expand_repeat. }
  rewrite EA in C. cbn [bind] in C. destruct (np_arg s n' 0 control) as [uc|]; [|discriminate C]. cbn [bind] in C.
  assert (EN : forall r, np_encode s (inl (repeat (repeat (LInt 1) x_d) n')) <> Ok r).
  { intros r H. unfold np_encode in H. change (s_cats s) with (Some cs) in H. cbv iota beta in H. inv_bind H.
    match goal with E : ord_transform _ _ = Ok _ |- _ => unfold ord_transform in E; inv_bind E; apply mapX_inv in E end.
    destruct n' as [|n']; [lia|]. cbn [repeat] in *.
    match goal with E : Forall2 _ (_ :: _) _ |- _ => inversion E as [|? ? ? ? R1 _]; subst end.
    apply mapX_inv in R1. pose proof (x_means_cats _ _ _ _ g_x0) as (HL & _).
    assert (CL : length (combine cs (repeat (LInt 1) x_d)) = x_d) by (rewrite combine_length, repeat_length; lia).
    pose proof (@Forall2_nth _ _ _ _ _ ([], LInt 1) 0 R1 j ltac:(lia)) as R2. cbv beta in R2.
    rewrite combine_nth in R2 by (rewrite repeat_length; lia). cbn [fst snd] in R2. rewrite nth_repeat in R2.
    unfold enc_value in R2. destruct (index_of (LInt 1) (nth j cs [])) as [i|] eqn:Ei; [|discriminate R2].
    apply Hi. apply index_of_Some in Ei. eapply nth_error_In; eauto. }
  destruct (np_encode s (inl (repeat (repeat (LInt 1) x_d) n'))) as [r|] eqn:ER; [exact (EN r eq_refl)|discriminate C].
Qed.

(* ------------------------------------------------------------------------------------------------ *)
(** ** C158: polynomial basis functions *)

(** non-decreasing lists of columns *)
Definition ascending (idx : list nat) : Prop := StronglySorted le idx.

Lemma cwr_S e cols : cwr (S e) cols = match cols with [] => [] | c :: r => map (cons c) (cwr e (c :: r)) ++ cwr (S e) r end.
Proof. destruct cols; reflexivity. Qed.
Lemma cwr_In e : forall cols idx, StronglySorted lt cols -> (In idx (cwr e cols) <-> length idx = e /\ ascending idx /\ forall i, In i idx -> In i cols).
Proof.
  induction e as [|e IHe]; intros cols idx HS.
  - cbn. split.
    + intros [<-|[]]. repeat split; [constructor|easy].
    + intros (H & _ & _). destruct idx; [now left|easy].
  - revert idx. induction HS as [|c cols HS IH HF]; intros idx; rewrite cwr_S.
    + cbn. split; [easy|]. intros (H & _ & HI). destruct idx as [|i idx]; [easy|]. exact (HI i (or_introl eq_refl)).
    + rewrite in_app_iff, in_map_iff, IH. split.
      * intros [(t & <- & Ht)|(H1 & H2 & H3)].
        -- apply IHe in Ht; [|now constructor]. destruct Ht as (T1 & T2 & T3). split; [cbn; lia|]. split.
           ++ constructor; auto. apply Forall_forall. intros i Hi. destruct (T3 i Hi) as [<-|Hi']; [lia|].
              rewrite Forall_forall in HF. specialize (HF i Hi'). lia.
           ++ intros i [<-|Hi]; [now left|]. now apply T3.
        -- split; auto. split; auto. intros i Hi. right. now apply H3.
      * intros (H1 & H2 & H3). destruct idx as [|i idx]; [easy|]. inversion H2 as [|? ? HS2 HF2]; subst.
        destruct (H3 i (or_introl eq_refl)) as [<-|Hi].
        -- left. exists idx. split; auto. apply IHe; [now constructor|]. cbn in H1. split; [lia|]. split; auto. intros k Hk. apply H3. now right.
        -- right. split; auto. split; auto. intros k Hk. destruct (H3 k Hk) as [<-|Hk']; auto. exfalso. destruct Hk as [->|Hk].
           ++ rewrite Forall_forall in HF. specialize (HF _ Hi). lia.
           ++ rewrite Forall_forall in HF, HF2. specialize (HF _ Hi). specialize (HF2 _ Hk). lia.
Qed.
Lemma cwr_NoDup e : forall cols, StronglySorted lt cols -> NoDup (cwr e cols).
Proof.
  induction e as [|e IHe]; intros cols HS; [repeat constructor; easy|].
  induction HS as [|c cols HS IH HF]; rewrite cwr_S; [constructor|].
  apply NoDup_app_intro; auto.
  - apply FinFun.Injective_map_NoDup; [intros u t [= E]; auto|]. apply IHe. now constructor.
  - intros idx H1 H2. apply in_map_iff in H1 as (t & <- & _). apply cwr_In in H2; auto. destruct H2 as (_ & _ & H2).
    specialize (H2 c (or_introl eq_refl)). rewrite Forall_forall in HF. specialize (HF c H2). lia.
Qed.
Lemma seq_sorted a k : StronglySorted lt (seq a k).
Proof.
  revert a. induction k as [|k IH]; intros a; constructor; auto. apply Forall_forall. intros i Hi. apply in_seq in Hi. lia.
Qed.

(** ("Poly", d): every product of at most d of the columns, with repetition, exactly once; the constant first, then the
    columns themselves *)
Theorem C158_NP_polynomial_basis d r :
  exists ixs, poly d r = map (monomial r) ixs /\ NoDup ixs /\
    (forall idx, In idx ixs <-> length idx <= d /\ ascending idx /\ forall i, In i idx -> i < length r) /\
    hd_error ixs = Some [] /\ (0 < d -> firstn (length r) (tl ixs) = map (fun i => [i]) (seq 0 (length r))).
Proof.
  exists (flat_map (fun e => cwr e (seq 0 (length r))) (seq 0 (S d))). unfold poly. split.
  { rewrite flat_map_concat_map, flat_map_concat_map, concat_map, map_map. reflexivity. }
  assert (HI : forall idx, In idx (flat_map (fun e => cwr e (seq 0 (length r))) (seq 0 (S d))) <->
     length idx <= d /\ ascending idx /\ (forall i, In i idx -> i < length r)).
  { intros idx. rewrite in_flat_map. split.
    - intros (e & He & H). apply in_seq in He. apply cwr_In in H; [|apply seq_sorted]. destruct H as (H1 & H2 & H3). split; [lia|]. split; auto.
      intros i Hi. specialize (H3 i Hi). apply in_seq in H3. lia.
    - intros (H1 & H2 & H3). exists (length idx). split; [apply in_seq; lia|]. apply cwr_In; [apply seq_sorted|]. split; auto. split; auto.
      intros i Hi. apply in_seq. specialize (H3 i Hi). lia. }
  split.
  { generalize (seq_NoDup (S d) 0). generalize (seq 0 (S d)). induction l as [|e l IH]; intros HN; [constructor|].
    inversion HN as [|? ? Hni HN']; subst. cbn [flat_map]. apply NoDup_app_intro; auto; [apply cwr_NoDup, seq_sorted|].
    intros idx H1 H2. apply cwr_In in H1; [|apply seq_sorted]. apply in_flat_map in H2 as (e' & He' & H2). apply cwr_In in H2; [|apply seq_sorted].
    apply Hni. destruct H1 as (<- & _), H2 as (-> & _). exact He'. }
  split; [exact HI|]. split; [reflexivity|]. intros Hd. destruct d as [|d]; [lia|].
  assert (C1 : forall cols, cwr 1 cols = map (fun i => [i]) cols).
  { induction cols as [|c cols IH]; [reflexivity|]. rewrite cwr_S, IH. reflexivity. }
  cbn [seq flat_map tl]. change (cwr 0 (seq 0 (length r))) with [@nil nat]. cbn [app tl]. rewrite C1.
  rewrite firstn_app, map_length, seq_length, Nat.sub_diag. cbn [firstn]. rewrite app_nil_r.
  rewrite firstn_all2; [reflexivity|]. now rewrite map_length, seq_length.
Qed.
Example C158_applies : poly 2 [2; 3]%R = [1; 2 * 1; 3 * 1; 2 * (2 * 1); 2 * (3 * 1); 3 * (3 * 1)]%R.
Proof. reflexivity. Qed.

(* ------------------------------------------------------------------------------------------------ *)
(** ** C154: effect_nji *)

(** it never works for a continuous treatment and for one discrete treatment column *)
Theorem C154_NP_nji_refuted L (s : nstate L) data e : s_cats s = None \/ s_xd s = 1 -> np_nji s data <> Ok e.
Proof.
  intros H C. unfold np_nji in C. destruct (s_cats s) as [cats|]; [|discriminate C]. destruct H as [H|H]; [discriminate H|].
  destruct (np_check s data) as [[[[v w] x] n]|]; [|discriminate C]. cbn [bind] in C. rewrite H in C. cbn [Nat.eqb] in C. inv_bind C. discriminate C.
Qed.

Lemma indices_head sh : Forall (fun d => 0 < d) sh -> hd_error (indices sh) = Some (repeat 0 (length sh)).
Proof.
  induction 1 as [|d sh Hd HF IH]; [reflexivity|]. cbn [indices length repeat]. destruct d as [|d]; [lia|]. cbn [seq flat_map].
  destruct (indices sh) as [|i l]; [discriminate IH|]. injection IH as ->. reflexivity.
Qed.
Lemma rev_repeat {A} (u : A) k : rev (repeat u k) = repeat u k.
Proof.
  induction k as [|k IH]; [reflexivity|]. cbn [repeat rev]. rewrite IH. clear. induction k as [|k IH]; [reflexivity|]. cbn [repeat app]. now rewrite IH.
Qed.
Lemma swap01_repeat {A} (u : A) k : swap01 (repeat u k) = repeat u k.
Proof. destruct k as [|[|k]]; reflexivity. Qed.

Lemma tuples cs : cs <> [] -> Forall (fun c : list label => c <> []) cs ->
  exists ts, cartesian 0 (map (fun c : list label => seq 0 (length c)) cs) = Ok ts /\ NoDup ts /\ hd_error ts = Some (repeat 0 (length cs)) /\
    forall t, In t ts <-> length t = length cs /\ forall j, j < length cs -> nth j t 0 < length (nth j cs []).
Proof.
  intros Hne HF. set (arrays := map (fun c : list label => seq 0 (length c)) cs).
  assert (HA : arrays <> []) by (unfold arrays; destruct cs; easy).
  pose proof (cartesian_rows 0 HA) as E. eexists. split; [exact E|].
  destruct (@C64_cartesian_each_once _ 0 arrays _ HA E) as (HI & HN). split.
  { apply HN. apply Forall_forall. intros l Hl. apply in_map_iff in Hl as (c & <- & _). apply seq_NoDup. }
  assert (LA : length arrays = length cs) by apply map_length. split.
  - assert (P : Forall (fun d => 0 < d) (rev (swap01 (map (@List.length nat) arrays)))).
    { apply Forall_rev. assert (Q : Forall (fun d => 0 < d) (map (@List.length nat) arrays)).
      { apply Forall_forall. intros d Hd. apply in_map_iff in Hd as (l & <- & Hl). apply in_map_iff in Hl as (c & <- & Hc).
        rewrite seq_length. rewrite Forall_forall in HF. specialize (HF c Hc). destruct c; [easy|cbn; lia]. }
      destruct (map (@List.length nat) arrays) as [|a [|b l]]; auto. inversion Q as [|? ? Qa Q']; subst. inversion Q' as [|? ? Qb Q'']; subst.
      cbn [swap01]. repeat constructor; auto. }
    apply indices_head in P. destruct (indices _) as [|i l]; [discriminate P|]. injection P as ->. cbn [map hd_error]. f_equal.
    rewrite rev_length, swap01_length, map_length, LA, rev_repeat, swap01_repeat.
    unfold pick. rewrite LA, (repeat_map_seq 0). apply map_ext_in. intros j Hj. apply in_seq in Hj.
    rewrite nth_map_seq by lia. unfold arrays. rewrite (nth_map_in _ _ [] []) by lia. destruct (nth j cs []) as [|a u] eqn:En; [|reflexivity].
    rewrite Forall_forall in HF. exfalso. apply (HF (nth j cs [])); auto. apply nth_In. lia.
  - intros t. rewrite HI. split.
    + intros H. pose proof (Forall2_length_eq _ _ _ H) as HL. split; [congruence|]. intros j Hj.
      pose proof (@Forall2_nth _ _ _ _ _ 0 [] H j ltac:(lia)) as Hin. cbv beta in Hin. unfold arrays in Hin. rewrite (nth_map_in _ _ [] []) in Hin by lia. apply in_seq in Hin. lia.
    + intros (HL & HJ). unfold arrays. clear HA E HI HN LA arrays Hne. revert t HL HJ. induction HF as [|c cs Hc HF IH]; intros t HL HJ.
      * destruct t; [constructor|easy].
      * destruct t as [|i t]; [easy|]. cbn [map]. constructor.
        -- apply in_seq. pose proof (HJ 0). cbn in *. lia.
        -- apply IH; [cbn in HL; lia|]. intros j Hj. apply (HJ (S j)). cbn. lia.
Qed.

(** several discrete treatment columns: one slice for every tuple of group numbers, its entry the difference of the
    predictions of y_model at this tuple and at the tuple of first groups *)
Theorem C154_NP_nji_partial Lx Ly a n x_d z_d k_v k_w x z cs phi zeta psi s data n' v w :
  good_call a n x_d z_d k_v k_w x z (Some cs) phi zeta psi -> two_d Lx -> two_d Ly -> x_d <> 1 -> np_fit Lx Ly a = Ok s ->
  est_data a n k_v k_w data n' v w ->
  let P := fun t r j => nth j (l_pred Ly (s_m s) (drow (phi (map INR t)) (option_map psi (at_row v r)) (at_row w r))) 0%R in
  exists ts e, np_nji s data = Ok e /\ NoDup ts /\ hd_error ts = Some (repeat 0 x_d) /\
    (forall t, In t ts <-> length t = x_d /\ forall j, j < x_d -> nth j t 0 < length (nth j cs [])) /\
    nd_shape e = [n'; width (n_y a); length ts] /\
    forall r j i, r < n' -> j < width (n_y a) -> i < length ts ->
      nd_at e [r; j; i] = (P (nth i ts []) r j - P (repeat 0%nat x_d) r j)%R.
Proof.
  intros G H2 H2y Hx1 E HD P. destruct (np_fit_ok Lx Ly a n x_d z_d k_v k_w x z (Some cs) phi zeta psi G H2) as (fx & fv & Ax & Av & E').
  rewrite E' in E. clear E'. inv_bind E. injection E as <-.
  match goal with E : l_fit Ly _ _ = Ok a1 |- _ => destruct (H2y _ _ _ E) as (Dy & _) end.
  destruct G as [g_n0 g_xd0 g_zd0 g_kv0 g_y0 g_x0 g_xr0 g_z0 g_zr0 g_v0 g_w0 g_phi0 g_zeta0 g_psi0].
  destruct (np_check_ok a n k_v k_w x_d (width (n_y a)) (Some cs) fx fv psi a1 data n' v w g_n0 g_v0 g_w0 Av HD) as (x0 & EC & Hn & HV & HW).
  assert (HC : length cs = x_d /\ Forall (fun c : list label => c <> []) cs).
  { pose proof (x_means_cats _ _ _ _ g_x0) as (HL & _). split; auto. remember (Some cs) as oc eqn:Eoc. destruct g_x0 as [|k X cats rows H1 HLc (_ & HI) HFx HF2]; [discriminate Eoc|].
    injection Eoc as ->. apply Forall_forall. intros c Hc. apply (In_nth _ _ []) in Hc as (j & Hj & <-). intros E0.
    assert (NX : X <> []). { intros ->. inversion HF2; subst. destruct g_xr0 as [g _]. cbn in g. lia. }
    destruct X as [|r0 X]; [easy|]. assert (I0 : In (nth j r0 (LInt 0)) (nth j cs [])) by (apply HI; [exact Hj|exists r0; split; [now left|auto]]).
    rewrite E0 in I0. easy. }
  destruct HC as (HL & HNE).
  destruct (tuples cs) as (ts & ET & TN & TH & TI); [destruct cs; [cbn in HL; lia|discriminate]|exact HNE|]. rewrite HL in TH, TI.
  unfold np_nji. change (s_cats (fitted_state a n x_d (width (n_y a)) (Some cs) fx fv psi a1)) with (Some cs). cbv iota beta.
  rewrite EC. cbn [bind]. set (s := fitted_state a n x_d (width (n_y a)) (Some cs) fx fv psi a1) in *.
  change (s_xd s) with x_d. rewrite (proj2 (Nat.eqb_neq x_d 1) Hx1), ET. cbn [bind].
  set (q := fun t => predict Ly a1 (drows n' (fun _ => phi (map INR t)) (option_map (map psi) v) w)).
  assert (EM : mapX (fun t => do xt <- basis_transform (s_xb s) (Some (repeat (map INR t) n'));
                     do p <- np_predict s (option_map (map psi) v) w xt n'; as_n_yd n' (s_yd s) p) ts = Ok (map q ts)).
  { apply mapX_ok. intros t Ht. apply TI in Ht as (HLt & _). change (s_xb s) with fx.
    rewrite (Ax n') by (auto; apply rect_repeat; now rewrite map_length). cbn [bind].
    rewrite (np_predict_ok s _ _ _ n').
    - cbn [bind]. change (s_m s) with a1. change (s_yd s) with (width (n_y a)). unfold as_n_yd, q, predict. rewrite Dy. cbn [nd_shape].
      rewrite !drows_length, !Nat.eqb_refl. cbn [andb]. do 2 f_equal. 
      assert (ED : drows n' (fun r => nth r (map phi (repeat (map INR t) n')) []) (option_map (map psi) v) w =
                   drows n' (fun _ => phi (map INR t)) (option_map (map psi) v) w).
      { unfold drows. apply map_ext_in. intros r Hr. apply in_seq in Hr. f_equal.
        rewrite (nth_map_in _ _ [] []) by (rewrite repeat_length; lia). f_equal. rewrite nth_indep with (d' := map INR t) by (rewrite repeat_length; lia). apply nth_repeat. }
      now rewrite ED.
    - now rewrite map_length, repeat_length.
    - apply map_length_o. now apply (orect_length n' k_v).
    - now apply (orect_length n' k_w). }
  rewrite EM. cbn [bind]. destruct ts as [|t0 ts]; [discriminate TH|]. injection TH as ->. cbn [map]. cbv iota.
  exists (repeat 0 x_d :: ts). eexists. split; [reflexivity|]. split; auto. split; auto. split; auto. cbn [nd_shape nd_at].
  split; [reflexivity|]. intros r j i Hr Hj Hi.
  change (nth 2 [r; j; i] 0) with i. change (nth 0 [r; j; i] 0) with r. change (nth 1 [r; j; i] 0) with j.
  change (q (repeat 0 x_d) :: map q ts) with (map q (repeat 0 x_d :: ts)). rewrite (map_nth q _ (repeat 0 x_d)).
  rewrite (nth_indep _ [] (repeat 0 x_d)) by exact Hi.
  assert (EQ : forall t, nd_at (q t) [r; j] = P t r j).
  { intros t. unfold q, predict. rewrite Dy. cbn [nd_at nth]. rewrite drows_nth by auto. rewrite (at_row_map psi v n' k_v) by auto. reflexivity. }
  now rewrite !EQ.
Qed.
Print Assumptions C154_NP_nji_partial.

(* ------------------------------------------------------------------------------------------------ *)
(** ** Two discrete treatment columns: the hypotheses are met *)
Local Open Scope string_scope.
Definition dx : list (list label) := [[LStr "a"; LInt 1]; [LStr "b"; LInt 1]; [LStr "a"; LInt 2]; [LStr "b"; LInt 2]].
Definition dcs : list (list label) := [[LStr "a"; LStr "b"]; [LInt 1; LInt 2]].
Definition dxn : list row := [[0;0];[1;0];[0;1];[1;1]]%R.
Definition d_args : nargs := mkNargs e2_y (XDisc dx) (Some (ZCont e2_z)) None (Some e2_v) (BTuple Poly 1) (BList Poly 1) (BTuple Poly 0).
Definition d_cx : list row := [[1;0;0];[0;1;0];[0;0;1]]%R.
Definition d_cy : list row := [[0;2;5;0]]%R.
Example disc_good : good_call d_args 4 2 1 1 0 dxn e2_z (Some dcs) (poly 1) (poly 1) (poly 0).
Proof.
  constructor; try (cbn; lia); try reflexivity.
  - apply x_disc; try reflexivity.
    + intros j Hj. destruct j as [|[|j]]; [exists true|exists false|lia]; intros r Hr; cbn in Hr; destruct Hr as [<-|[<-|[<-|[<-|[]]]]]; reflexivity.
    + split; [repeat constructor|]. intros j Hj u. cbn in Hj. destruct j as [|[|j]]; [| |lia]; cbn [dcs nth]; split.
      * intros [<-|[<-|[]]]; [exists (nth 0 dx [])|exists (nth 1 dx [])]; cbn; auto.
      * intros (r & Hr & <-). cbn in Hr. destruct Hr as [<-|[<-|[<-|[<-|[]]]]]; cbn; auto.
      * intros [<-|[<-|[]]]; [exists (nth 0 dx [])|exists (nth 2 dx [])]; cbn; auto.
      * intros (r & Hr & <-). cbn in Hr. destruct Hr as [<-|[<-|[<-|[<-|[]]]]]; cbn; auto.
    + repeat constructor.
    + unfold dx, dxn.
      assert (C : forall a b i k, nth_error (nth 0 dcs []) i = Some a -> nth_error (nth 1 dcs []) k = Some b -> coded dcs [a; b] [INR i; INR k]).
      { intros u t i k Hi Hk. split; [reflexivity|]. intros j Hj. destruct j as [|[|j]]; [exists i|exists k|cbn in Hj; lia]; auto. }
      repeat constructor; [change 0%R with (INR 0)|change 0%R with (INR 0); change 1%R with (INR 1)|change 0%R with (INR 0); change 1%R with (INR 1)|change 1%R with (INR 1)];
        apply C; reflexivity.
  - split; [reflexivity|repeat constructor].
  - split; [reflexivity|repeat constructor].
  - split; [reflexivity|repeat constructor].
  - constructor.
  - constructor.
  - constructor. discriminate.
Qed.
(** the effect of ("b", 2) against ("a", 1) is a difference of predictions at (1, 1) and (0, 0) *)
Example disc_applies : exists s e e', np_fit (lin_learner d_cx) (lin_learner d_cy) d_args = Ok s /\
  np_estimate (Some s) None (NVal [LStr "b"; LInt 2]) (NVal [LStr "a"; LInt 1]) NQNone = Ok e /\ nd_at e [2; 0] = 7%R /\
  np_nji s None = Ok e' /\ nd_shape e' = [4; 1; 4].
Proof.
  eexists. eexists. eexists. split; [cbv - [Rplus Rminus Rmult Rinv Rdiv Ropp INR IZR]; reflexivity|].
  split; [cbv - [Rplus Rminus Rmult Rinv Rdiv Ropp INR IZR]; reflexivity|]. split; [cbv - [Rplus Rminus Rmult Rinv Rdiv Ropp IZR]; lra|].
  split; [cbv - [Rplus Rminus Rmult Rinv Rdiv Ropp INR IZR]; reflexivity|reflexivity].
Qed.
