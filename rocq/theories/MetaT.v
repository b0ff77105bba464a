(** C108-C111: the two-model meta learner (TLearner), and what it shares with XLearner. *)
From Coq Require Import ZArith Reals Sorting.Sorted Lra.
From Verif Require Import Base ApiModel EstUtilsModel EstUtilsProps MetaModel MetaSpec MetaProofs MetaProps MetaRefit.
Local Notation length := List.length.
Local Notation concat := List.concat.

(* ------------------------------------------------------------------------------------------------ *)
(** ** Lemmas *)

Lemma get_groups_rows (keys x : list (list label)) q g (l out : list row) :
  NoDup keys -> Forall (fun r => In r keys) x -> nth_error keys q = Some g ->
  get_groups [Z.of_nat q] (map (ind keys) x) true l = Ok out -> length x = length l /\ out = rows_of g x l.
Proof.
  intros ND HF Hq. unfold get_groups. cbn [bind].
  assert (E : map (Z.eqb (Z.of_nat q)) (convert4onehot (map (ind keys) x)) = map (fun r => eqb r g) x).
  { unfold convert4onehot. rewrite !map_map. apply map_ext_in. intros r Hr. rewrite Forall_forall in HF.
    destruct (In_nth_error' r keys (HF r Hr)) as (p & Ep). rewrite (@dot_ind _ _ keys r p ND Ep).
    destruct (Z.eqb_spec (Z.of_nat q) (Z.of_nat p)) as [Eq|Nq].
    - assert (q = p) as <- by lia. assert (r = g) as -> by congruence. symmetry. apply eqb_refl.
    - symmetry. destruct (eqb r g) eqn:Er; auto. apply eqb_eq in Er. exfalso. apply Nq. f_equal.
      eapply NoDup_nth_error; eauto; [apply nth_error_Some|]; congruence. }
  rewrite E. unfold bool_index. rewrite map_length. destruct (Nat.eqb_spec (length x) (length l)) as [El|]; [|easy].
  intros [= <-]. split; auto. now rewrite bool_select_filter.
Qed.
Lemma get_groups_rows_ok (keys x : list (list label)) q g (l : list row) :
  NoDup keys -> Forall (fun r => In r keys) x -> nth_error keys q = Some g -> length x = length l ->
  get_groups [Z.of_nat q] (map (ind keys) x) true l = Ok (rows_of g x l).
Proof.
  intros ND HF Hq El.
  destruct (get_groups [Z.of_nat q] (map (ind keys) x) true l) as [out|] eqn:E.
  - f_equal. now destruct (get_groups_rows _ _ _ _ _ _ ND HF Hq E).
  - exfalso. revert E. unfold get_groups, bool_index. cbn [bind]. unfold convert4onehot.
    rewrite !map_length, El, Nat.eqb_refl. easy.
Qed.

Lemma tl_enc_run {L A} (m : M encs A) (s : tlearner L) e r :
  m (t_enc s) = (e, r) ->
  tl_enc m s = (mkTL L (t_fitted s) e (t_wv s) (t_yd s) (t_comb s) (t_xt s) (t_x0 s) (t_ft s) (t_sep s) (t_sepx s), r).
Proof. intros H. unfold tl_enc. now rewrite H. Qed.

(** the codes when the encoders are ready *)
Lemma tl_comp_Enc e d keys cats x : Enc e d keys -> x <> [] -> Forall (fun r => length r = d) x -> tl_comp x cats e = comp_ready x e.
Proof.
  intros HE Hx HL. apply tl_comp_ready; rewrite ?(width_all Hx HL);
    destruct HE as [? Ho ND | ? ? ? Hd2 NDc Ho Hc Hdct Hoh ND HFo]; try lia; intros; congruence.
Qed.

(** which group an argument asks for determines its code, or the error, for encoders that are ready *)
Lemma tl_tr_ok e d keys (treat : bool) t r q :
  Enc e d keys -> asks d keys (if treat then 1 else 0) t r -> nth_error keys q = Some r ->
  get_tr_ctrl t (fun v => tl_comp v None) treat e = (e, Ok (Z.of_nat q)).
Proof.
  intros HE HA Hq. destruct (Enc_keys HE) as (ND & HLk & _).
  assert (Hr : length r = d) by (rewrite Forall_forall in HLk; apply HLk; exact (nth_error_In _ _ Hq)).
  assert (T : tl_comp [r] None e = comp_ready [r] e) by (apply (tl_comp_Enc e d keys); auto; easy).
  pose proof (@get_tr_ctrl_ok e d keys treat (fun x => sl_comp true x None) t r q HE (fun x _ => sl_comp_ready x None e) HA Hq) as G.
  inversion HA as [r0 E0 E1 E2|a0 E0 E1 E2|l0 E0 E1 E2|l0 E1 E2]; subst t; subst; cbn [get_tr_ctrl] in *; auto.
  - rewrite (np_scalars_same [a0]) in * by (destruct a0; cbn; auto).
    unfold mbind in *. rewrite T. rewrite sl_comp_ready in G. exact G.
  - rewrite (np_scalars_same r) in * by auto. unfold mbind in *. rewrite T. rewrite sl_comp_ready in G. exact G.
  - unfold mbind in *. rewrite T. rewrite sl_comp_ready in G. exact G.
Qed.
Lemma tl_tr_unknown e d keys (treat : bool) t r :
  Enc e d keys -> asks d keys (if treat then 1 else 0) t r -> length r = d -> ~ In r keys -> t <> TNone ->
  get_tr_ctrl t (fun v => tl_comp v None) treat e = (e, Err ValueError).
Proof.
  intros HE HA Hr Hn Ht.
  assert (T : tl_comp [r] None e = comp_ready [r] e) by (apply (tl_comp_Enc e d keys); auto; easy).
  pose proof (@get_tr_ctrl_unknown e d keys treat (fun x => sl_comp true x None) t r HE (fun x _ => sl_comp_ready x None e) HA Hr Hn Ht) as G.
  inversion HA as [r0 E0 E1 E2|a0 E0 E1 E2|l0 E0 E1 E2|l0 E1 E2]; subst t; subst; cbn [get_tr_ctrl] in *; try easy.
  - rewrite (np_scalars_same [a0]) in * by (destruct a0; cbn; auto).
    unfold mbind in *. rewrite T. rewrite sl_comp_ready in G. exact G.
  - rewrite (np_scalars_same r) in * by auto. unfold mbind in *. rewrite T. rewrite sl_comp_ready in G. exact G.
  - unfold mbind in *. rewrite T. rewrite sl_comp_ready in G. exact G.
Qed.

Lemma tl_codes_inv c a e e3 x' t k :
  tl_codes c a e = (e3, Ok (x', t, k)) ->
  exists e1 e2, tl_comp (f_x a) (c_categories c) e = (e1, Ok x') /\
    get_tr_ctrl (f_treat a) (fun v => tl_comp v None) true e1 = (e2, Ok t) /\
    get_tr_ctrl (f_control a) (fun v => tl_comp v None) false e2 = (e3, Ok k).
Proof.
  unfold tl_codes. intros H. apply mbind_inv in H as (e1 & x & H1 & H). apply mbind_inv in H as (e2 & t' & H2 & H).
  apply mbind_inv in H as (e3' & k' & H3 & H). unfold mret in H. injection H as -> -> -> ->. eauto.
Qed.

Lemma groups_inv target x' one wv y g :
  groups target x' one wv y = Ok g -> get_groups target x' one wv = Ok (fst g) /\ get_groups target x' one y = Ok (snd g).
Proof.
  unfold groups. destruct (get_groups target x' one wv) as [u|]; [|easy]. cbn [bind].
  destruct (get_groups target x' one y) as [v|]; [|easy]. cbn [bind]. intros [= <-]. auto.
Qed.

Lemma tl_fit_inv L c a s0 s1 wv :
  f_wv a = Some wv -> f_comb a = true -> tl_fit L c a s0 = (s1, Ok tt) ->
  exists e1 x' t k gt g0 mt m0,
    tl_codes c a (t_enc s0) = (e1, Ok (x', t, k)) /\
    groups [t] x' true wv (f_y a) = Ok gt /\ groups [k] x' true wv (f_y a) = Ok g0 /\
    l_fit L (fst gt) (squeeze (nd_rows (snd gt))) = Ok mt /\ l_fit L (fst g0) (squeeze (nd_rows (snd g0))) = Ok m0 /\
    s1 = mkTL L true e1 (Some wv) (width (f_y a)) true (Some mt) (Some m0) (t_ft s0) (t_sep s0) (t_sepx s0).
Proof.
  intros Hw Hc H. unfold tl_fit in H. rewrite Hw, Hc in H.
  unfold mbind, mset, tl_enc, tl_begin in H. cbn [t_enc t_fitted t_wv t_yd t_comb t_xt t_x0 t_ft t_sep t_sepx] in H.
  destruct (tl_codes c a (t_enc s0)) as [e1 [[[x' t] k]|]] eqn:E; [|easy].
  unfold mlift in H. destruct (groups [t] x' true wv (f_y a)) as [gt|] eqn:Eg; [|easy].
  destruct (groups [k] x' true wv (f_y a)) as [g0|] eqn:Eg0; [|easy].
  destruct (l_fit L (fst gt) _) as [mt|] eqn:Em; [|easy].
  destruct (l_fit L (fst g0) _) as [m0|] eqn:Em0; [|easy].
  injection H as <-. exists e1, x', t, k, gt, g0, mt, m0. repeat split; auto.
Qed.

(** everything about a combined fit once the treatment rows are encoded: the two groups of rows *)
Lemma groups_rows_of e d keys x wv y q g gr :
  Enc e d keys -> Forall (fun r => In r keys) x -> nth_error keys q = Some g ->
  groups [Z.of_nat q] (map (ind keys) x) true wv y = Ok gr ->
  fst gr = rows_of g x wv /\ snd gr = rows_of g x y /\ length x = length wv /\ length x = length y.
Proof.
  intros HE HF Hq Hg. destruct (Enc_keys HE) as (ND & _ & _). apply groups_inv in Hg as [G1 G2].
  apply (get_groups_rows keys x q g) in G1; auto. apply (get_groups_rows keys x q g) in G2; auto. intuition.
Qed.

(** the state in which estimates can be made *)
Record TFit (L : learner) (mt m0 : Mdl L) (wv : list row) (s : tlearner L) : Prop := mkTFit {
  tf_fit : t_fitted s = true; tf_comb : t_comb s = true; tf_wv : t_wv s = Some wv;
  tf_xt : t_xt s = Some mt; tf_x0 : t_x0 s = Some m0 }.

Lemma tl_prepare_run L c mt m0 wv s data target :
  TFit L mt m0 wv s ->
  let D := match data with Some x => x | None => wv end in
  let yt := pred_func L (c_proba c) mt D in
  let y0 := pred_func L (c_proba c) m0 D in
  tl_prepare L c data target s =
  (s, match target with
      | None => zip_nd Rminus yt y0
      | Some cols => do u <- take1 cols yt; do v <- take1 cols y0; zip_nd Rminus u v
      end).
Proof.
  intros [H1 H2 H3 H4 H5] D yt y0. unfold tl_prepare, mbind, mget. rewrite H1. cbn [negb].
  assert (ED : (match data with Some d0 => mret d0 | None => attr (t_wv s) end) s = (s, Ok D)).
  { unfold D, mret, attr, mlift. rewrite H3. now destruct data. }
  rewrite ED, H2. unfold tl_prepare_combined, mbind, mget, attr, mlift. rewrite H4, H5.
  fold yt y0. destruct target; reflexivity.
Qed.

(* ------------------------------------------------------------------------------------------------ *)
(** ** C108: the estimate is the difference of two models, each trained on one group *)

(** C108: after the first fit with combined treatments there is a list of the groups present in the data --
    increasing when there is one treatment column -- such that, when treat and control name groups of that list
    (no treat: the second, no control: the first), one model was trained on exactly the rows of the treat group,
    the other on exactly the rows of the control group, and every estimate is the difference of their
    predictions. *)
Theorem C108_T_estimate L c a s1 wv d :
  c_categories c = None -> f_comb a = true -> f_wv a = Some wv -> Forall (fun r => length r = d) (f_x a) ->
  c_disc_out c = false ->
  tl_fit L c a (tl_new L) = (s1, Ok tt) ->
  exists keys, NoDup keys /\ (forall r, In r keys <-> In r (f_x a)) /\ (d = 1 -> increasing keys) /\
    forall t k, asks d keys 1 (f_treat a) t -> asks d keys 0 (f_control a) k -> In t keys -> In k keys ->
    exists mt m0,
      l_fit L (rows_of t (f_x a) wv) (squeeze (nd_rows (rows_of t (f_x a) (f_y a)))) = Ok mt /\
      l_fit L (rows_of k (f_x a) wv) (squeeze (nd_rows (rows_of k (f_x a) (f_y a)))) = Ok m0 /\
      length wv = length (f_x a) /\ length (f_y a) = length (f_x a) /\
      forall data, let D := match data with Some x => x | None => wv end in
      nd_shape (pred_func L (c_proba c) mt D) = nd_shape (pred_func L (c_proba c) m0 D) ->
      exists e, tl_estimate L c data QNone None s1 = (s1, Ok e) /\
        entrywise Rminus (pred_func L (c_proba c) mt D) (pred_func L (c_proba c) m0 D) e.
Proof.
  intros HN Hc Hw HL Hd H.
  destruct (tl_fit_inv _ _ _ _ _ _ Hw Hc H) as (e3 & x' & t0 & k0 & gt & g0 & mt & m0 & Ec & Gt & G0 & Mt & M0 & E1).
  destruct (tl_codes_inv _ _ _ _ _ _ _ Ec) as (e1 & e2 & C1 & C2 & C3). cbn [t_enc tl_new] in C1.
  destruct (@tl_comp_fresh _ (c_categories c) no_encs e1 x' d eq_refl eq_refl HL ltac:(congruence) C1)
    as (keys & HE & -> & Hk & Hi).
  destruct (Enc_keys HE) as (ND & _ & _).
  exists keys. split; auto. split; auto. split; [exact Hi|].
  intros t k At Ak It Ik. destruct (In_nth_error' t keys It) as (qt & Eqt). destruct (In_nth_error' k keys Ik) as (qk & Eqk).
  rewrite (tl_tr_ok e1 d keys true _ _ _ HE At Eqt) in C2. injection C2 as <- <-.
  rewrite (tl_tr_ok e1 d keys false _ _ _ HE Ak Eqk) in C3. injection C3 as <- <-.
  assert (HF : Forall (fun r => In r keys) (f_x a)) by (apply Forall_forall; intros r; apply Hk).
  destruct (groups_rows_of _ _ _ _ _ _ _ _ _ HE HF Eqt Gt) as (F1 & F2 & L1 & L2).
  destruct (groups_rows_of _ _ _ _ _ _ _ _ _ HE HF Eqk G0) as (F3 & F4 & _ & _).
  rewrite F1, F2 in Mt. rewrite F3, F4 in M0.
  exists mt, m0. repeat split; auto.
  intros data D Hsh. destruct (zip_nd_ok Rminus _ _ Hsh) as (v & Ev & Hv). exists v. split; auto.
  assert (TF : TFit L mt m0 wv s1) by (rewrite E1; constructor; reflexivity).
  unfold tl_estimate, mbind, mret, tl_outcome_classes, mget. rewrite Hd. unfold mbind, mret, mlift. cbn [check_classes].
  rewrite (tl_prepare_run L c mt m0 wv s1 data None TF). fold D. rewrite Ev. reflexivity.
Qed.

(** C108: a treat or control value that is not in the data is refused *)
Theorem C108_T_unknown L c a d wv :
  c_categories c = None -> f_comb a = true -> f_wv a = Some wv -> Forall (fun r => length r = d) (f_x a) ->
  (exists r, asks d [] 1 (f_treat a) r /\ length r = d /\ ~ In r (f_x a)) ->
  snd (tl_fit L c a (tl_new L)) <> Ok tt /\ snd (xl_fit L c a (tl_new L)) <> Ok tt.
Proof.
  intros HN Hc Hw HL (r & Ar & Hr & Nr).
  assert (G : forall e3 v, tl_codes c a no_encs <> (e3, Ok v)).
  { intros e3 [[x' t] k] Ec. destruct (tl_codes_inv _ _ _ _ _ _ _ Ec) as (e1 & e2 & C1 & C2 & C3).
    destruct (@tl_comp_fresh _ (c_categories c) no_encs e1 x' d eq_refl eq_refl HL ltac:(congruence) C1)
      as (keys & HE & -> & Hk & Hi).
    rewrite (tl_tr_unknown e1 d keys true (f_treat a) r) in C2; try easy.
    - inversion Ar; subst; try constructor; auto; easy.
    - now rewrite Hk.
    - intros E. rewrite E in Ar. inversion Ar. easy. }
  split; intros H; unfold tl_fit, xl_fit in H; rewrite Hw, Hc in H;
    unfold mbind, mset, tl_enc, tl_begin in H; cbn [t_enc t_fitted t_wv t_yd t_comb t_xt t_x0 t_ft t_sep t_sepx tl_new] in H;
    destruct (tl_codes c a no_encs) as [e1 [v|]] eqn:E; try easy; exact (G _ _ eq_refl).
Qed.

(* ------------------------------------------------------------------------------------------------ *)
(** ** C109: estimates of TLearner and XLearner do not change the learner *)

Lemma mlift_keeps {St A} (r : res A) (s : St) : fst (mlift r s) = s.
Proof. reflexivity. Qed.
Lemma mbind_keeps {St A B} (m : M St A) (f : A -> M St B) s :
  fst (m s) = s -> (forall a, fst (f a s) = s) -> fst (mbind m f s) = s.
Proof. unfold mbind. destruct (m s) as [s' [a|e]]; cbn; intros -> H; auto. Qed.

Lemma tl_prepare_keeps L c data t s : fst (tl_prepare L c data t s) = s.
Proof.
  unfold tl_prepare. apply mbind_keeps; [reflexivity|]. intros s0. destruct (negb _); [reflexivity|].
  apply mbind_keeps; [destruct data; reflexivity|]. intros D. destruct (t_comb s0).
  - unfold tl_prepare_combined. apply mbind_keeps; [reflexivity|]. intros s'. apply mbind_keeps; [reflexivity|].
    intros mt. apply mbind_keeps; [reflexivity|]. intros m0. destruct t; reflexivity.
  - unfold tl_prepare_separate. apply mbind_keeps; [reflexivity|]. intros s'. apply mbind_keeps; [reflexivity|].
    intros ms. apply mlift_keeps.
Qed.
Lemma xl_prepare_keeps L c data rho s : fst (xl_prepare L c data rho s) = s.
Proof.
  unfold xl_prepare. apply mbind_keeps; [reflexivity|]. intros s0. destruct (negb _); [reflexivity|].
  apply mbind_keeps; [destruct data; reflexivity|]. intros D. destruct (t_comb s0).
  - apply mbind_keeps; [reflexivity|]. intros kt. apply mbind_keeps; [reflexivity|]. intros k0. reflexivity.
  - apply mbind_keeps; [reflexivity|]. intros ms. apply mlift_keeps.
Qed.

(** the calls of the two learners *)
Inductive tcall := TEst (data : option (list row)) (q : quantity) (target : option label) | TNji (data : option (list row))
                 | XEst (data : option (list row)) (rho : R) (q : quantity) | XNji (data : option (list row)).
Definition t_do (L : learner) (c : config) (k : tcall) : M (tlearner L) (nd R) :=
  match k with
  | TEst d q t => tl_estimate L c d q t | TNji d => tl_effect_nji L c d
  | XEst d rho q => xl_estimate L c d rho q | XNji d => xl_effect_nji L c d
  end.
Definition t_after (L : learner) (c : config) (h : list tcall) (s : tlearner L) : tlearner L :=
  fold_left (fun s k => fst (t_do L c k s)) h s.

(** C109: in every state of the learner, fitted or not, any history of estimate and effect_nji calls -- also calls
    that raise -- leaves the learner as it was, so the next call returns what it would have returned first. *)
Theorem C109_TX_repeat L c h k s :
  t_after L c h s = s /\ t_do L c k (t_after L c h s) = t_do L c k s.
Proof.
  assert (K : forall k s, fst (t_do L c k s) = s).
  { clear. intros [data q target|data|data rho q|data] s; cbn [t_do].
    - unfold tl_estimate. apply mbind_keeps; [destruct target; [destruct (c_proba c)|]; reflexivity|]. intros _.
      apply mbind_keeps.
      + unfold tl_outcome_classes. apply mbind_keeps; [reflexivity|]. intros s0. destruct (c_disc_out c); [|reflexivity].
        destruct (negb _); [reflexivity|]. destruct (match t_xt s0 with Some m => _ | None => _ end); [reflexivity|].
        apply mbind_keeps; [reflexivity|]. intros [|m ms]; [reflexivity|].
        apply mbind_keeps; reflexivity.
      + intros cs. apply mbind_keeps; [reflexivity|]. intros t. apply mbind_keeps; [apply tl_prepare_keeps|].
        intros e. destruct q; reflexivity.
    - unfold tl_effect_nji. apply mbind_keeps; [apply tl_prepare_keeps|reflexivity].
    - unfold xl_estimate. apply mbind_keeps.
      + unfold xl_outcome_classes. apply mbind_keeps; [reflexivity|]. intros s0. destruct (c_disc_out c); [|reflexivity].
        destruct (negb _); [reflexivity|]. destruct (match t_ft s0 with Some m => _ | None => _ end); [reflexivity|].
        apply mbind_keeps; [reflexivity|]. intros [|m ms]; reflexivity.
      + intros cs. apply mbind_keeps; [apply xl_prepare_keeps|]. intros e. destruct q; reflexivity.
    - unfold xl_effect_nji. apply mbind_keeps; [apply xl_prepare_keeps|reflexivity]. }
  assert (E : t_after L c h s = s).
  { induction h as [|k' h IH]; [reflexivity|].
    change (t_after L c (k' :: h) s) with (t_after L c h (fst (t_do L c k' s))). now rewrite K. }
  split; auto. now rewrite E.
Qed.

(* ------------------------------------------------------------------------------------------------ *)
(** ** C110: the categories argument *)

(** C110, SLearner: with categories given for one treatment column, the groups are exactly the given values in
    the given order -- also values that do not occur --; they number the one-hot columns, and without treat and
    control the second is compared with the first. *)
Theorem C110_S_categories L c a s1 wv cs :
  c_categories c = Some [cs] -> NoDup cs -> f_comb a = true -> f_wv a = Some wv ->
  Forall (fun r => length r = 1) (f_x a) ->
  sl_fit L c a (sl_new L) = (s1, Ok tt) ->
  let keys := map (fun v => [v]) cs in
  exists m,
    l_fit L (map (fun p => features keys (snd p) (fst p)) (combine wv (f_x a))) (squeeze (nd_rows (f_y a))) = Ok m /\
    forall data t k, asks 1 keys 1 (f_treat a) t -> asks 1 keys 0 (f_control a) k -> In t keys -> In k keys ->
    let D := match data with Some x => x | None => wv end in
    exists s2 e,
      sl_estimate L c data QNone None s1 = (s2, Ok e) /\
      entrywise Rminus (pred_func L (c_proba c) m (map (features keys t) D))
                       (pred_func L (c_proba c) m (map (features keys k) D)) e.
Proof.
  intros HN NDcs Hc Hw HL H keys.
  destruct (sl_fresh L c a (sl_new L) s1 wv 1 eq_refl Hw Hc HL) with (2 := H)
    as (e & keys' & m & _ & _ & Hcs & El & Em & SF & _).
  { intros cs' E. rewrite HN in E. injection E as <-. repeat constructor. exact NDcs. }
  specialize (Hcs eq_refl cs HN). fold keys in Hcs. subst keys'.
  exists m. split; auto. intros data t k Ht Hk It Ik D.
  destruct (In_nth_error' t keys It) as (qt & Eqt). destruct (In_nth_error' k keys Ik) as (qk & Eqk).
  pose proof (sf_enc _ _ _ _ _ _ _ _ _ SF) as HE.
  destruct (zip_nd_ok Rminus (pred_func L (c_proba c) m (map (features keys t) D))
                             (pred_func L (c_proba c) m (map (features keys k) D))) as (v & Ev & Hv).
  { apply pred_func_shape. now rewrite !map_length. }
  exists (sl_after s1 (TVal (LN qt)) (TVal (LN qk))), v. split; auto.
  unfold sl_estimate, mbind, mret.
  rewrite (sl_prepare_run L c e 1 keys m wv _ _ s1 data None qt qk t k SF); auto.
  - fold D. rewrite Ev. reflexivity.
  - exact (@asks_code e 1 keys true _ _ _ HE Ht Eqt).
  - exact (@asks_code e 1 keys false _ _ _ HE Hk Eqk).
Qed.

(** C110 is false for TLearner and XLearner: with one treatment column and combined treatments the argument has
    no effect at all, so the order it gives is not the order of the groups *)
Theorem C110_TX_categories_refuted L c a s cs :
  f_comb a = true -> f_x a <> [] -> Forall (fun r => length r = 1) (f_x a) ->
  tl_fit L (mkConfig cs (c_proba c) (c_disc_out c)) a s = tl_fit L (mkConfig None (c_proba c) (c_disc_out c)) a s /\
  xl_fit L (mkConfig cs (c_proba c) (c_disc_out c)) a s = xl_fit L (mkConfig None (c_proba c) (c_disc_out c)) a s.
Proof.
  intros Hc Hx HL.
  assert (E : tl_codes (mkConfig cs (c_proba c) (c_disc_out c)) a = tl_codes (mkConfig None (c_proba c) (c_disc_out c)) a).
  { unfold tl_codes. cbn [c_categories]. f_equal. unfold tl_comp. rewrite (width_all Hx HL). reflexivity. }
  split; unfold tl_fit, xl_fit; rewrite Hc, E; reflexivity.
Qed.

(** with categories ["no"; "maybe"; "yes"]... the first group of SLearner is "no", that of TLearner "maybe" *)
Definition ex110 : fitargs :=
  mkFitArgs [[LStr "no"]; [LStr "yes"]; [LStr "maybe"]] (Some [[5%R]; [6%R]; [7%R]]) [[1%R]; [0%R]; [2%R]]
            TNone TNone true.
Definition cats110 : config := mkConfig (Some [[LStr "no"; LStr "maybe"; LStr "yes"]]) false false.
(** a learner that remembers its first training row *)
Definition mem1 : learner :=
  @mkLearner R (fun X _ => match X with (v :: _) :: _ => Ok v | _ => Err ValueError end) (fun m _ => [m]) (fun _ => None)
             (fun _ => None) (fun _ _ => []).
Example C110_case :
  (exists s1 s2 e, sl_fit toy cats110 ex110 (sl_new toy) = (s1, Ok tt) /\
     sl_estimate toy cats110 (Some [[0%R]]) QNone None s1 = (s2, Ok e) /\ nd_at e [0] = 1%R) /\
  (exists s1 e, tl_fit mem1 cats110 ex110 (tl_new mem1) = (s1, Ok tt) /\
     tl_estimate mem1 cats110 (Some [[0%R]]) QNone None s1 = (s1, Ok e) /\ nd_at e [0] = (5 - 7)%R).
Proof.
  split.
  - eexists _, _, _. repeat split. cbn. lra.
  - eexists _, _. repeat split.
Qed.

(* ------------------------------------------------------------------------------------------------ *)
(** ** C111: fitting TLearner and XLearner again *)

(** C111, proved part: after a first fit whose treat and control were known groups, a fit on data all of whose
    treatment rows belong to groups of the first data trains on exactly the rows of the named groups; without
    treat and control the groups are the second and first group of the FIRST data. *)
Theorem C111_T_refit_partial L c a s1 wv d :
  c_categories c = None -> f_comb a = true -> f_wv a = Some wv -> Forall (fun r => length r = d) (f_x a) ->
  tl_fit L c a (tl_new L) = (s1, Ok tt) ->
  exists keys, NoDup keys /\ (forall r, In r keys <-> In r (f_x a)) /\ (d = 1 -> increasing keys) /\
    forall t k, asks d keys 1 (f_treat a) t -> asks d keys 0 (f_control a) k -> In t keys -> In k keys ->
    forall h a2 wv2 s2, f_comb a2 = true -> f_wv a2 = Some wv2 -> f_x a2 <> [] -> (forall r, In r (f_x a2) -> In r keys) ->
      forall t2 k2, asks d keys 1 (f_treat a2) t2 -> asks d keys 0 (f_control a2) k2 -> In t2 keys -> In k2 keys ->
      tl_fit L c a2 (t_after L c h s1) = (s2, Ok tt) ->
      exists mt m0,
        l_fit L (rows_of t2 (f_x a2) wv2) (squeeze (nd_rows (rows_of t2 (f_x a2) (f_y a2)))) = Ok mt /\
        l_fit L (rows_of k2 (f_x a2) wv2) (squeeze (nd_rows (rows_of k2 (f_x a2) (f_y a2)))) = Ok m0 /\
        t_xt s2 = Some mt /\ t_x0 s2 = Some m0.
Proof.
  intros HN Hc Hw HL H.
  destruct (tl_fit_inv _ _ _ _ _ _ Hw Hc H) as (e3 & x' & t0 & k0 & gt & g0 & mt & m0 & Ec & Gt & G0 & Mt & M0 & E1).
  destruct (tl_codes_inv _ _ _ _ _ _ _ Ec) as (e1 & e2 & C1 & C2 & C3). cbn [t_enc tl_new] in C1.
  destruct (@tl_comp_fresh _ (c_categories c) no_encs e1 x' d eq_refl eq_refl HL ltac:(congruence) C1)
    as (keys & HE & -> & Hk & Hi).
  destruct (Enc_keys HE) as (ND & HLk & _).
  exists keys. split; auto. split; auto. split; [exact Hi|].
  intros t k At Ak It Ik h a2 wv2 s2 Hc2 Hw2 Hx2 HF2 t2 k2 At2 Ak2 It2 Ik2 H2.
  destruct (In_nth_error' t keys It) as (qt & Eqt). destruct (In_nth_error' k keys Ik) as (qk & Eqk).
  rewrite (tl_tr_ok e1 d keys true _ _ _ HE At Eqt) in C2. injection C2 as <- <-.
  rewrite (tl_tr_ok e1 d keys false _ _ _ HE Ak Eqk) in C3. injection C3 as <- <-.
  rewrite (proj1 (C109_TX_repeat L c h (TNji None) s1)) in H2.
  destruct (tl_fit_inv _ _ _ _ _ _ Hw2 Hc2 H2) as (e4 & x2 & t1 & k1 & gt2 & g02 & mt2 & m02 & Ec2 & Gt2 & G02 & Mt2 & M02 & E2).
  destruct (tl_codes_inv _ _ _ _ _ _ _ Ec2) as (e5 & e6 & D1 & D2 & D3). rewrite E1 in D1. cbn [t_enc] in D1.
  assert (HF : Forall (fun r => In r keys) (f_x a2)) by (apply Forall_forall; auto).
  assert (HL2 : Forall (fun r => length r = d) (f_x a2)).
  { eapply Forall_impl; [|exact HF]. intros r Hr. rewrite Forall_forall in HLk. auto. }
  rewrite (tl_comp_Enc e1 d keys _ _ HE Hx2 HL2), (@comp_ready_ok e1 d keys _ HE Hx2 HF) in D1. injection D1 as <- <-.
  destruct (In_nth_error' t2 keys It2) as (qt2 & Eqt2). destruct (In_nth_error' k2 keys Ik2) as (qk2 & Eqk2).
  rewrite (tl_tr_ok e1 d keys true _ _ _ HE At2 Eqt2) in D2. injection D2 as <- <-.
  rewrite (tl_tr_ok e1 d keys false _ _ _ HE Ak2 Eqk2) in D3. injection D3 as <- <-.
  destruct (groups_rows_of _ _ _ _ _ _ _ _ _ HE HF Eqt2 Gt2) as (F1 & F2 & _ & _).
  destruct (groups_rows_of _ _ _ _ _ _ _ _ _ HE HF Eqk2 G02) as (F3 & F4 & _ & _).
  rewrite F1, F2 in Mt2. rewrite F3, F4 in M02. exists mt2, m02. rewrite E2. auto.
Qed.

(** C111 is false in general: after such a first fit, a fit on data with a treatment row that was not in the first
    data raises ValueError, for TLearner and for XLearner *)
Theorem C111_TX_refit_new_group_refuted L c a s1 wv d :
  c_categories c = None -> f_comb a = true -> f_wv a = Some wv -> Forall (fun r => length r = d) (f_x a) ->
  (exists t k, asks d [] 1 (f_treat a) t /\ asks d [] 0 (f_control a) k /\ In t (f_x a) /\ In k (f_x a)) ->
  tl_fit L c a (tl_new L) = (s1, Ok tt) \/ xl_fit L c a (tl_new L) = (s1, Ok tt) ->
  forall h a2 r, f_comb a2 = true -> f_wv a2 <> None -> Forall (fun r => length r = d) (f_x a2) ->
    In r (f_x a2) -> ~ In r (f_x a) ->
    snd (tl_fit L c a2 (t_after L c h s1)) = Err ValueError /\
    snd (xl_fit L c a2 (t_after L c h s1)) = Err ValueError.
Proof.
  intros HN Hc Hw HL (t & k & At & Ak & It & Ik) H h a2 r Hc2 Hw2 HL2 Hr Nr.
  assert (Enc1 : exists v, tl_codes c a no_encs = (t_enc s1, Ok v)).
  { destruct H as [H|H].
    - destruct (tl_fit_inv _ _ _ _ _ _ Hw Hc H) as (e3 & x' & t0 & k0 & gt & g0 & mt & m0 & Ec & _ & _ & _ & _ & E1).
      rewrite E1. eauto.
    - unfold xl_fit in H. rewrite Hw, Hc in H.
      unfold mbind, mset, tl_enc, tl_begin in H. cbn [t_enc t_fitted t_wv t_yd t_comb t_xt t_x0 t_ft t_sep t_sepx tl_new] in H.
      destruct (tl_codes c a no_encs) as [e1 [[[x' t'] k']|]] eqn:E; [|easy].
      unfold mlift in H. destruct (groups [t'] x' true wv (f_y a)) as [gt|]; [|easy].
      destruct (groups [k'] x' true wv (f_y a)) as [g0|]; [|easy].
      destruct (l_fit L (fst gt) _) as [ft|]; [|easy].
      destruct (l_fit L (fst g0) _) as [f0|]; [|easy].
      destruct (zip_nd Rminus (squeeze (nd_rows (snd gt))) _) as [ht|]; [|easy].
      destruct (zip_nd Rminus (predict L ft (fst g0)) _) as [h0|]; [|easy].
      destruct (l_fit L (fst gt) ht) as [kt|]; [|easy].
      destruct (l_fit L (fst g0) h0) as [k0|]; [|easy].
      injection H as <-. cbn. eauto. }
  destruct Enc1 as ([[x' t0] k0] & Ec).
  destruct (tl_codes_inv _ _ _ _ _ _ _ Ec) as (e1 & e2 & C1 & C2 & C3).
  destruct (@tl_comp_fresh _ (c_categories c) no_encs e1 x' d eq_refl eq_refl HL ltac:(congruence) C1)
    as (keys & HE & -> & Hk & Hi).
  assert (Lift : forall n t r, asks d [] n t r -> asks d keys n t r).
  { intros n u r' A. inversion A as [? N|?|?|?]; subst; try (now constructor). destruct n; discriminate N. }
  apply Hk in It, Ik.
  destruct (In_nth_error' t keys It) as (qt & Eqt). destruct (In_nth_error' k keys Ik) as (qk & Eqk).
  rewrite (tl_tr_ok e1 d keys true _ _ _ HE (Lift _ _ _ At) Eqt) in C2. injection C2 as <- <-.
  rewrite (tl_tr_ok e1 d keys false _ _ _ HE (Lift _ _ _ Ak) Eqk) in C3. injection C3 as Ee <-.
  rewrite (proj1 (C109_TX_repeat L c h (TNji None) s1)).
  assert (Hx2 : f_x a2 <> []) by (intros E; rewrite E in Hr; easy).
  assert (F : tl_codes c a2 (t_enc s1) = (t_enc s1, Err ValueError)).
  { unfold tl_codes. apply mbind_err. rewrite <- Ee.
    rewrite (tl_comp_Enc e1 d keys _ _ HE Hx2 HL2). apply (@comp_ready_unknown_any e1 d keys _ r); auto. now rewrite Hk. }
  unfold tl_fit, xl_fit. destruct (f_wv a2) as [wv2|]; [|easy]. rewrite Hc2.
  unfold mbind, mset, tl_enc, tl_begin. cbn [t_enc]. rewrite F. split; reflexivity.
Qed.

(** ... and a first fit that raises because the one treatment column mixes numbers and strings leaves the learner
    unable to be fitted with one treatment column: every later combined fit raises ValueError, also on good data *)
Theorem C111_TX_failed_fit_refuted L c a :
  f_comb a = true -> f_wv a <> None -> f_x a <> [] -> Forall (fun r => length r = 1) (f_x a) ->
  (exists v w, occurs (f_x a) 0 v /\ occurs (f_x a) 0 w /\ is_str v = true /\ is_str w = false) ->
  forall s1, s1 = fst (tl_fit L c a (tl_new L)) \/ s1 = fst (xl_fit L c a (tl_new L)) ->
  forall h a2, f_comb a2 = true -> f_wv a2 <> None -> Forall (fun r => length r = 1) (f_x a2) -> f_x a2 <> [] ->
    snd (tl_fit L c a2 (t_after L c h s1)) = Err ValueError /\
    snd (xl_fit L c a2 (t_after L c h s1)) = Err ValueError.
Proof.
  intros Hc Hw Hx HL (v & w & Ov & Ow & Sv & Sw) s1 Hs1 h a2 Hc2 Hw2 HL2 Hx2.
  assert (UL : unique_labels (column 0 (f_x a)) = Err TypeError).
  { unfold unique_labels. apply column_In in Ov, Ow.
    replace (forallb is_str (column 0 (f_x a))) with false.
    2:{ symmetry. apply not_true_is_false. rewrite forallb_forall. intros F. specialize (F w Ow). congruence. }
    replace (forallb (fun a => negb (is_str a)) (column 0 (f_x a))) with false; [reflexivity|].
    symmetry. apply not_true_is_false. rewrite forallb_forall. intros F. specialize (F v Ov). rewrite Sv in F. easy. }
  assert (C : tl_codes c a no_encs = (mkEncs None None (Some None), Err TypeError)).
  { unfold tl_codes. apply mbind_err. unfold tl_comp, mbind, mret, mget. rewrite (width_all Hx HL). cbn [Nat.ltb Nat.leb e_oh no_encs].
    unfold make_oh, mbind, mset, mlift, enc_fit. rewrite (width_all Hx HL), (@check_X_ok _ 1 (f_x a)) by auto.
    cbn [bind seq mapX]. rewrite UL. reflexivity. }
  assert (Es : t_enc s1 = mkEncs None None (Some None)).
  { destruct (f_wv a) as [wv|] eqn:Ewv; [|easy].
    destruct Hs1 as [->| ->]; unfold tl_fit, xl_fit; rewrite Ewv, Hc;
      unfold mbind, mset, tl_enc, tl_begin; cbn [t_enc tl_new]; rewrite C; reflexivity. }
  rewrite (proj1 (C109_TX_repeat L c h (TNji None) s1)).
  assert (F : tl_codes c a2 (t_enc s1) = (t_enc s1, Err ValueError)).
  { rewrite Es. unfold tl_codes. apply mbind_err. unfold tl_comp, mbind, mret, mget. rewrite (width_all Hx2 HL2).
    cbn [Nat.ltb Nat.leb e_oh]. unfold mret, apply_oh, mbind, mget, attr, fitted, mlift. cbn [e_oh]. reflexivity. }
  unfold tl_fit, xl_fit. destruct (f_wv a2) as [wv2|]; [|easy]. rewrite Hc2.
  unfold mbind, mset, tl_enc, tl_begin. cbn [t_enc]. rewrite F. split; reflexivity.
Qed.

(** the hypotheses are met *)
Definition ex108 : fitargs :=
  mkFitArgs [[LStr "a"]; [LStr "b"]; [LStr "c"]; [LStr "b"]] (Some [[5%R]; [6%R]; [7%R]; [8%R]]) [[1%R]; [0%R]; [2%R]; [3%R]]
            (TVal (LStr "b")) (TVal (LStr "c")) true.
Example C108_case :
  exists s1 e, tl_fit mem1 plain ex108 (tl_new mem1) = (s1, Ok tt) /\
    tl_estimate mem1 plain (Some [[0%R]]) QNone None s1 = (s1, Ok e) /\ nd_at e [0] = (6 - 7)%R.
Proof. eexists _, _. repeat split. Qed.
Example C111_case :
  exists s1 s2 s3, tl_fit mem1 plain ex108 (tl_new mem1) = (s1, Ok tt) /\
    tl_fit mem1 plain (mkFitArgs [[LStr "c"]; [LStr "b"]] (Some [[5%R]; [6%R]]) [[1%R]; [0%R]] TNone (TVal (LStr "c")) true) s1 = (s2, Ok tt) /\
    tl_fit mem1 plain (mkFitArgs [[LStr "d"]; [LStr "b"]] (Some [[5%R]; [6%R]]) [[1%R]; [0%R]] TNone TNone true) (tl_new mem1) = (s3, Ok tt) /\
    snd (tl_fit mem1 plain (mkFitArgs [[LStr "d"]; [LStr "b"]] (Some [[5%R]; [6%R]]) [[1%R]; [0%R]] TNone TNone true) s1) = Err ValueError /\
    snd (tl_fit mem1 plain (mkFitArgs [[LStr "d"]; [LInt 1]] (Some [[5%R]; [6%R]]) [[1%R]; [0%R]] TNone TNone true) (tl_new mem1)) = Err TypeError.
Proof. eexists _, _, _. repeat split. Qed.

Print Assumptions C108_T_estimate.
Print Assumptions C108_T_unknown.
Print Assumptions C109_TX_repeat.
Print Assumptions C110_S_categories.
Print Assumptions C110_TX_categories_refuted.
Print Assumptions C111_T_refit_partial.
Print Assumptions C111_TX_refit_new_group_refuted.
Print Assumptions C111_TX_failed_fit_refuted.
