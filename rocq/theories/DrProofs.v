(** Lemmas about the DoublyRobust model: encoders, the first stage, what a successful fit has computed. *)
From Coq Require Import ZArith Reals Lra.
From Verif Require Import Base ApiModel EstUtilsModel EstUtilsProps MetaModel MetaSpec MetaProofs MetaProps MetaRefit MetaT MetaX
  CrossFitModel CrossFitProofs DrModel.
Local Notation length := List.length.
Local Notation concat := List.concat.

(* ------------------------------------------------------------------------------------------------ *)
(** ** Specification vocabulary *)

(** the prediction of a model for one row and outcome j *)
Definition row_pred (L : learner) (m : Mdl L) (x : row) (j : nat) : R :=
  match l_dim L m with None => nth 0 (l_pred L m x) 0%R | Some _ => nth j (l_pred L m x) 0%R end.

(** the position of a group among the groups *)
Definition group_no (keys : list (list label)) (r : list label) : nat :=
  match index_of r keys with Some q => q | None => 0 end.
Definition group_nos (keys : list (list label)) (x : list (list label)) : list R := map (fun r => INR (group_no keys r)) x.

(** covariates followed by the indicator of the row's own group *)
Definition own_features (keys : list (list label)) (wv : list row) (x : list (list label)) : list row :=
  map (fun p => features keys (snd p) (fst p)) (combine wv x).

(** the doubly robust pseudo outcome of row r, outcome j for the group number i, from outcome predictions h and
    propensities p (1e-5 is added to the propensity) *)
Definition pseudo (keys x : list (list label)) (y : list row) (p : nat -> nat -> R) (h : nat -> nat -> nat -> R)
    (r j i : nat) : R :=
  (h r j i + (nth j (nth r y []) 0 - h r j i) * (if eqb (nth r x []) (nth i keys []) then 1 else 0)
             / (p r i + 1 / 100000))%R.

(* ------------------------------------------------------------------------------------------------ *)
Lemma out_at_predict L m X p j : out_at (predict L m X) p j = row_pred L m (nth p X []) j.
Proof. unfold out_at, predict, row_pred. destruct (l_dim L m); reflexivity. Qed.

Lemma dr_comp_fresh x cats : dr_comp x cats no_encs = sl_comp false x cats no_encs.
Proof.
  unfold dr_comp, sl_comp. cbn [negb]. destruct (1 <? width x).
  - unfold mbind, mget, mret. cbn [e_ord no_encs].
    destruct (make_ord cats x no_encs) as [e1 [c|er]] eqn:E; [|reflexivity].
    destruct (combine_labels_pure x e1) as [[x1|er] E1]; rewrite E1; [|reflexivity].
    assert (e_oh e1 = None) as ->; [|reflexivity].
    unfold make_ord, mbind, mset, mlift, mret, set_ord, set_dict in E.
    destruct (enc_fit cats x); [|injection E as <- _; reflexivity].
    destruct (cartesian _ _); injection E as <- _; reflexivity.
  - unfold mbind, mret, mget. cbn [e_oh no_encs]. reflexivity.
Qed.

Lemma dr_comp_ready x cats e :
  (1 < width x -> e_ord e <> None) -> e_oh e <> None -> dr_comp x cats e = comp_ready x e.
Proof.
  intros Ho Hh. unfold dr_comp, comp_ready. destruct (1 <? width x) eqn:W.
  - apply Nat.ltb_lt in W. specialize (Ho W).
    destruct (combine_labels_pure x e) as [[x1|er] E]; unfold mbind, mret, mget;
      (destruct (e_ord e); [|easy]); rewrite E; [|reflexivity].
    destruct (e_oh e); [|easy]. reflexivity.
  - unfold mbind, mret, mget. destruct (e_oh e); [|easy]. reflexivity.
Qed.

Lemma Enc_oh e d keys : Enc e d keys -> e_oh e <> None /\ (2 <= d -> e_ord e <> None).
Proof. intros H. destruct H as [cats Ho ND|cats labels ohc Hd NDc Ho Hc Hdct Hoh ND HF]; split; try congruence. lia. Qed.

Lemma dr_comp_Enc e d keys x cats : Enc e d keys -> width x = d \/ width x <= 1 -> dr_comp x cats e = comp_ready x e.
Proof.
  intros HE Hw. destruct (Enc_oh _ _ _ HE) as [H1 H2]. apply dr_comp_ready; auto. intros W. apply H2. lia.
Qed.

Lemma dr_tr_ok e d keys (treat : bool) t r q :
  Enc e d keys -> asks d keys (if treat then 1 else 0) t r -> nth_error keys q = Some r ->
  get_tr_ctrl t (fun v => dr_comp v None) treat e = (e, Ok (Z.of_nat q)).
Proof.
  intros HE HA Hq. destruct (Enc_keys HE) as (ND & HLk & _).
  assert (Hr : length r = d) by (rewrite Forall_forall in HLk; apply HLk; exact (nth_error_In _ _ Hq)).
  assert (T : dr_comp [r] None e = comp_ready [r] e) by (apply (dr_comp_Enc e d keys); auto).
  pose proof (@get_tr_ctrl_ok e d keys treat (fun x => sl_comp true x None) t r q HE (fun x _ => sl_comp_ready x None e) HA Hq) as G.
  inversion HA as [r0 E0 E1 E2|a0 E0 E1 E2|l0 E0 E1 E2|l0 E1 E2]; subst t; subst; cbn [get_tr_ctrl] in *; auto.
  - rewrite (np_scalars_same [a0]) in * by (destruct a0; cbn; auto).
    unfold mbind in *. rewrite T. rewrite sl_comp_ready in G. exact G.
  - rewrite (np_scalars_same r) in * by auto. unfold mbind in *. rewrite T. rewrite sl_comp_ready in G. exact G.
  - unfold mbind in *. rewrite T. rewrite sl_comp_ready in G. exact G.
Qed.
Lemma dr_tr_unknown e d keys (treat : bool) t r :
  Enc e d keys -> asks d keys (if treat then 1 else 0) t r -> length r = d -> ~ In r keys -> t <> TNone ->
  get_tr_ctrl t (fun v => dr_comp v None) treat e = (e, Err ValueError).
Proof.
  intros HE HA Hr Hn Ht.
  assert (T : dr_comp [r] None e = comp_ready [r] e) by (apply (dr_comp_Enc e d keys); auto).
  pose proof (@get_tr_ctrl_unknown e d keys treat (fun x => sl_comp true x None) t r HE (fun x _ => sl_comp_ready x None e) HA Hr Hn Ht) as G.
  inversion HA as [r0 E0 E1 E2|a0 E0 E1 E2|l0 E0 E1 E2|l0 E1 E2]; subst t; subst; cbn [get_tr_ctrl] in *; try easy.
  - rewrite (np_scalars_same [a0]) in * by (destruct a0; cbn; auto).
    unfold mbind in *. rewrite T. rewrite sl_comp_ready in G. exact G.
  - rewrite (np_scalars_same r) in * by auto. unfold mbind in *. rewrite T. rewrite sl_comp_ready in G. exact G.
  - unfold mbind in *. rewrite T. rewrite sl_comp_ready in G. exact G.
Qed.

(** the codes of the rows *)
Lemma codes_of keys x : NoDup keys -> (forall r, In r x -> In r keys) ->
  map IZR (convert4onehot (map (ind keys) x)) = group_nos keys x.
Proof.
  intros ND H. unfold convert4onehot, group_nos. rewrite !map_map. apply map_ext_in. intros r Hr.
  destruct (index_of_In r keys (H r Hr)) as (q & Eq).
  rewrite (@dot_ind _ _ keys r q ND (index_of_Some _ _ Eq)). unfold group_no. rewrite Eq. now rewrite <- INR_IZR_INZ.
Qed.

Lemma nth_map_in {A B} (f : A -> B) l da db i : i < length l -> nth i (map f l) db = f (nth i l da).
Proof. intros H. rewrite (nth_indep _ db (f da)) by (now rewrite map_length). apply map_nth. Qed.

Lemma dr_prime_pseudo keys x y p h r j i :
  r < length x -> i < length keys -> dr_prime (map (ind keys) x) y p h r j i = pseudo keys x y p h r j i.
Proof.
  intros Hr Hi. unfold dr_prime, pseudo. rewrite (nth_map_in _ _ [] []) by auto. unfold ind.
  rewrite (nth_map_in _ _ [] 0%Z) by auto. destruct (eqb (nth r x []) (nth i keys [])); reflexivity.
Qed.

(** the outcome predictions never depend on the treatment *)
Lemma yw_predict_spec Ly m x_d y_d wvx h :
  yw_predict Ly m x_d y_d wvx = Ok h ->
  forall r j i, r < length wvx -> i < x_d ->
    h r j i = row_pred Ly m (firstn (length (nth r wvx []) - x_d) (nth r wvx []) ++ repeat 0%R x_d) j.
Proof.
  unfold yw_predict. set (wv := map _ wvx). intros H r j i Hr Hi.
  destruct (mapX _ (seq 0 x_d)) as [cols|] eqn:E; [|easy]. cbn [bind] in H. injection H as <-.
  apply mapX_inv in E.
  pose proof (@Forall2_nth _ _ _ _ _ 0 (mkNd [] (fun _ => 0%R)) E i ltac:(now rewrite seq_length)) as G.
  rewrite seq_nth in G by auto. cbn [Nat.add] in G. apply as_n_yd_inv in G as [_ G]. rewrite G, out_at_predict.
  f_equal. rewrite (nth_map_in _ _ [] []) by (unfold wv; now rewrite map_length). unfold wv.
  rewrite (nth_map_in _ _ [] []) by auto. reflexivity.
Qed.

Lemma own_features_nth keys wv x r : length wv = length x -> r < length x ->
  nth r (own_features keys wv x) [] = features keys (nth r x []) (nth r wv []).
Proof.
  intros Hl Hr. unfold own_features. rewrite (nth_map_in _ _ ([], []) []) by (rewrite combine_length; lia).
  rewrite combine_nth by auto. reflexivity.
Qed.

Lemma strip_features keys r w :
  firstn (length (features keys r w) - length keys) (features keys r w) = w.
Proof.
  unfold features. rewrite app_length, indicator_length. replace (length w + length keys - length keys) with (length w) by lia.
  rewrite firstn_app, Nat.sub_diag, firstn_all. cbn. apply app_nil_r.
Qed.

Lemma own_features_length keys wv x : length wv = length x -> length (own_features keys wv x) = length x.
Proof. intros H. unfold own_features. rewrite map_length, combine_length. lia. Qed.

(** a successful fit of a new object *)
Definition effect_target (n y_d : nat) (f : nat -> nat -> R) : nd R :=
  squeeze (mkNd [n; y_d] (fun idx => f (nth 0 idx 0) (nth 1 idx 0))).

Lemma dr_fit_inv Lx Ly Lf categories cf a s1 d :
  Forall (fun r => length r = d) (a_x a) -> (forall cs, categories = Some cs -> Forall (@NoDup label) cs) ->
  dr_fit Lx Ly Lf categories cf a (dr_new Lf) = (s1, Ok tt) ->
  exists e keys wv p h e2 e3 c t,
    groups_of d (fun j v => match categories with None => occurs (a_x a) j v | Some cs => In v (nth j cs []) end) keys /\
    (d = 1 -> categories = None -> increasing keys) /\
    (forall r, In r (a_x a) -> In r keys) /\ a_x a <> [] /\
    Enc e d keys /\ get_wv [a_w a; a_v a] = Ok wv /\ length wv = length (a_x a) /\
    dr_cross_x Lx wv (group_nos keys (a_x a)) (length keys) cf = Ok p /\
    dr_cross_y Ly (own_features keys wv (a_x a)) (a_y a) (length keys) cf = Ok h /\
    get_tr_ctrl (a_control a) (fun v => dr_comp v None) false e = (e2, Ok c) /\
    get_tr_ctrl (a_treat a) (fun v => dr_comp v None) true e2 = (e3, Ok t) /\
    exists f, s1 = mkDR Lf e3 (a_v a) (match a_v a with Some _ => true | None => false end) (length keys) (width (a_y a)) true
                        (Some f) (Some t) (Some c) /\
    let y' := dr_prime (map (ind keys) (a_x a)) (a_y a) p h in
    let eff := fun r j i => (y' r j i - y' r j (Z.to_nat c))%R in
    match a_v a with
    | None => f = FEffect (length (a_x a)) eff
    | Some v => exists ms, f = FModels ms /\ length ms = length keys /\
        forall i m, nth_error ms i = Some m -> l_fit Lf v (effect_target (length (a_x a)) (width (a_y a)) (fun r j => eff r j i)) = Ok m
    end.
Proof.
  intros HL HN H.
  assert (H' : exists s0, s0 = dr_begin (a_v a) (dr_new Lf) /\ exists x,
    dr_enc (dr_comp (a_x a) categories) s0 = (fst (dr_enc (dr_comp (a_x a) categories) s0), Ok x)).
  { unfold dr_fit in H. destruct (a_w a), (a_v a); try easy;
      (apply mbind_inv in H as (s2 & [] & H0 & H); unfold mset in H0; injection H0 as <-;
       apply mbind_inv in H as (s2 & x & H0 & _); eexists; split; [reflexivity|]; exists x; rewrite H0; reflexivity). }
  clear H'. 
  assert (Hr : exists x wv wvx p h, exists e e2 e3 c t,
     dr_comp (a_x a) categories no_encs = (e, Ok x) /\ get_wv [a_w a; a_v a] = Ok wv /\ hcat [wv; to_rows x] = Ok wvx /\
     dr_cross_x Lx wv (map IZR (convert4onehot x)) (width x) cf = Ok p /\
     dr_cross_y Ly wvx (a_y a) (width x) cf = Ok h /\
     get_tr_ctrl (a_control a) (fun v => dr_comp v None) false e = (e2, Ok c) /\
     get_tr_ctrl (a_treat a) (fun v => dr_comp v None) true e2 = (e3, Ok t) /\
     exists f, s1 = mkDR Lf e3 (a_v a) (match a_v a with Some _ => true | None => false end) (width x) (width (a_y a)) true
                        (Some f) (Some t) (Some c) /\
     let y' := dr_prime x (a_y a) p h in
     let eff := fun r j i => (y' r j i - y' r j (Z.to_nat c))%R in
     match a_v a with
     | None => f = FEffect (length x) eff
     | Some v => exists ms, f = FModels ms /\
        mapX (fun i => l_fit Lf v (squeeze (mkNd [length x; width (a_y a)]
                                    (fun idx => eff (nth 0 idx 0) (nth 1 idx 0) i)))) (seq 0 (width x)) = Ok ms
     end).
  { unfold dr_fit in H.
    assert (H2 : (mdo _ <- mset (dr_begin (a_v a));
      mdo x <- dr_enc (dr_comp (a_x a) categories);
      let x_d := width x in
      mdo _ <- mset (dr_dims x_d (width (a_y a)));
      mdo wv <- mlift (get_wv [a_w a; a_v a]);
      mdo wvx <- mlift (hcat [wv; to_rows x]);
      mdo p <- mlift (dr_cross_x Lx wv (map IZR (convert4onehot x)) x_d cf);
      mdo h <- mlift (dr_cross_y Ly wvx (a_y a) x_d cf);
      mdo _ <- mset dr_first_done;
      let y' := dr_prime x (a_y a) p h in
      mdo c <- dr_enc (get_tr_ctrl (a_control a) (fun v => dr_comp v None) false);
      mdo t <- dr_enc (get_tr_ctrl (a_treat a) (fun v => dr_comp v None) true);
      mdo _ <- mset (dr_codes t c);
      let eff := fun r j i => (y' r j i - y' r j (Z.to_nat c))%R in
      mdo f <- (match a_v a with
                | None => mret (FEffect (length x) eff)
                | Some v =>
                    mdo ms <- mlift (mapX (fun i => l_fit Lf v (squeeze (mkNd [length x; width (a_y a)]
                                                     (fun idx => eff (nth 0 idx 0) (nth 1 idx 0) i)))) (seq 0 x_d));
                    mret (FModels ms)
                end);
      mset (dr_result f)) (dr_new Lf) = (s1, Ok tt)) by (destruct (a_w a), (a_v a); easy || exact H).
    clear H. unfold mbind, mset, mlift, dr_enc, dr_begin, dr_dims, dr_first_done, dr_codes, dr_result, dr_new in H2.
    cbn [d_enc d_v d_cov d_xd d_yd d_first d_final d_treat d_control] in H2.
    destruct (dr_comp (a_x a) categories no_encs) as [e [x|]] eqn:E1; [|easy].
    cbn [d_enc d_v d_cov d_xd d_yd d_first d_final d_treat d_control] in H2.
    destruct (get_wv [a_w a; a_v a]) as [wv|] eqn:E2; [|easy].
    destruct (hcat [wv; to_rows x]) as [wvx|] eqn:E3; [|easy].
    destruct (dr_cross_x Lx wv _ _ _) as [p|] eqn:E4; [|easy].
    destruct (dr_cross_y Ly wvx _ _ _) as [h|] eqn:E5; [|easy].
    cbn [d_enc d_v d_cov d_xd d_yd d_first d_final d_treat d_control] in H2.
    destruct (get_tr_ctrl (a_control a) _ false e) as [e2 [c|]] eqn:E6; [|easy].
    cbn [d_enc d_v d_cov d_xd d_yd d_first d_final d_treat d_control] in H2.
    destruct (get_tr_ctrl (a_treat a) _ true e2) as [e3 [t|]] eqn:E7; [|easy].
    cbn [d_enc d_v d_cov d_xd d_yd d_first d_final d_treat d_control] in H2.
    exists x, wv, wvx, p, h, e, e2, e3, c, t. do 7 (split; [reflexivity || assumption|]).
    destruct (a_v a) as [v|].
    - destruct (mapX _ _) as [ms|] eqn:E8; [|easy].
      unfold mret in H2. cbn [d_enc d_v d_cov d_xd d_yd d_first d_final d_treat d_control] in H2. injection H2 as <-.
      eexists. split; [reflexivity|]. exists ms. auto.
    - unfold mret in H2. cbn [d_enc d_v d_cov d_xd d_yd d_first d_final d_treat d_control] in H2. injection H2 as <-.
      eexists. split; [reflexivity|]. reflexivity. }
  clear H. destruct Hr as (x & wv & wvx & p & h & e & e2 & e3 & c & t & E1 & E2 & E3 & E4 & E5 & E6 & E7 & f & Es & Hf).
  rewrite dr_comp_fresh in E1.
  destruct (@sl_comp_fresh _ _ _ _ _ _ HL HN E1) as (keys & cats & Ef & HE & -> & Hk & H1 & Hn1).
  destruct (@enc_fit_spec _ _ _ _ HL Ef) as (Hx & _ & Hlen & Hin & Hnone & Hsome).
  apply hcat2 in E3 as [El ->]. rewrite to_rows_ind in *. rewrite features_combine in E5. rewrite map_length in El.
  destruct (Enc_keys HE) as (ND & _ & _).
  pose proof (groups_product _ _ _ _ _ HL Ef ND Hk) as Hg.
  assert (Hall : forall r, In r (a_x a) -> In r keys) by (intros r Hr; apply Hk, Hin; exact Hr).
  rewrite (codes_of keys (a_x a) ND Hall), (width_map_ind keys (a_x a) Hx) in E4.
  rewrite (width_map_ind keys (a_x a) Hx) in E5, Es, Hf. rewrite !map_length in Hf.
  exists e, keys, wv, p, h, e2, e3, c, t. split; [exact Hg|]. split.
  { intros Hd HN0. exists (nth 0 cats []). split; auto. destruct (Hnone HN0) as [HS _].
    rewrite Forall_forall in HS. apply HS. apply nth_In. lia. }
  split; [exact Hall|]. split; [exact Hx|]. split; [exact HE|]. split; [exact E2|]. split; [congruence|].
  split; [exact E4|]. split; [exact E5|]. split; [exact E6|]. split; [exact E7|].
  exists f. split; [exact Es|]. cbn zeta in Hf |- *. destruct (a_v a) as [v|]; [|exact Hf].
  destruct Hf as (ms & -> & Em). apply mapX_inv in Em. exists ms. split; auto.
  pose proof (F2_length Em) as Elm. rewrite seq_length in Elm. split; [auto|].
  intros i m Hi.
  assert (Hlt : i < length ms) by (apply nth_error_Some; congruence).
  pose proof (@Forall2_nth _ _ _ _ _ 0 m Em i ltac:(rewrite seq_length; lia)) as G.
  rewrite seq_nth in G by lia. cbn [Nat.add] in G. rewrite (nth_error_nth _ _ m Hi) in G. exact G.
Qed.
