(** C112-C116: XLearner, effect_nji, separate treatments, outcome classes. *)
From Coq Require Import ZArith Reals Sorting.Sorted Lra.
From Verif Require Import Base ApiModel EstUtilsModel EstUtilsProps MetaModel MetaSpec MetaProofs MetaProps MetaRefit MetaT.
Local Notation length := List.length.
Local Notation concat := List.concat.

(* ------------------------------------------------------------------------------------------------ *)
(** ** C112: XLearner *)

Lemma xl_fit_inv L c a s0 s1 wv :
  f_wv a = Some wv -> f_comb a = true -> xl_fit L c a s0 = (s1, Ok tt) ->
  exists e1 x' t k gt g0 ft f0 ht h0 kt k0,
    tl_codes c a (t_enc s0) = (e1, Ok (x', t, k)) /\
    groups [t] x' true wv (f_y a) = Ok gt /\ groups [k] x' true wv (f_y a) = Ok g0 /\
    l_fit L (fst gt) (squeeze (nd_rows (snd gt))) = Ok ft /\ l_fit L (fst g0) (squeeze (nd_rows (snd g0))) = Ok f0 /\
    zip_nd Rminus (squeeze (nd_rows (snd gt))) (predict L f0 (fst gt)) = Ok ht /\
    zip_nd Rminus (predict L ft (fst g0)) (squeeze (nd_rows (snd g0))) = Ok h0 /\
    l_fit L (fst gt) ht = Ok kt /\ l_fit L (fst g0) h0 = Ok k0 /\
    s1 = mkTL L true e1 (Some wv) (width (f_y a)) true (Some kt) (Some k0) (Some ft) (t_sep s0) (t_sepx s0).
Proof.
  intros Hw Hc H. unfold xl_fit in H. rewrite Hw, Hc in H.
  unfold mbind, mset, tl_enc, tl_begin in H. cbn [t_enc t_fitted t_wv t_yd t_comb t_xt t_x0 t_ft t_sep t_sepx] in H.
  destruct (tl_codes c a (t_enc s0)) as [e1 [[[x' t] k]|]] eqn:E; [|easy].
  unfold mlift in H. destruct (groups [t] x' true wv (f_y a)) as [gt|] eqn:Eg; [|easy].
  destruct (groups [k] x' true wv (f_y a)) as [g0|] eqn:Eg0; [|easy].
  destruct (l_fit L (fst gt) (squeeze (nd_rows (snd gt)))) as [ft|] eqn:Em; [|easy].
  destruct (l_fit L (fst g0) (squeeze (nd_rows (snd g0)))) as [f0|] eqn:Em0; [|easy].
  destruct (zip_nd Rminus (squeeze (nd_rows (snd gt))) _) as [ht|] eqn:Eh; [|easy].
  destruct (zip_nd Rminus (predict L ft (fst g0)) _) as [h0|] eqn:Eh0; [|easy].
  destruct (l_fit L (fst gt) ht) as [kt|] eqn:Ek; [|easy].
  destruct (l_fit L (fst g0) h0) as [k0|] eqn:Ek0; [|easy].
  injection H as <-. exists e1, x', t, k, gt, g0, ft, f0, ht, h0, kt, k0. repeat split; auto.
Qed.

(** C112: after the first fit with combined treatments and known treat and control groups: outcome models ft and f0
    were trained on exactly the rows of the two groups; the effect models kt and k0 on the same rows with the
    imputed effects y - f0(x) (treat group) and ft(x) - y (control group); and every estimate is
    rho*kt(x) + (1-rho)*k0(x). *)
Theorem C112_X_estimate L c a s1 wv d :
  c_categories c = None -> f_comb a = true -> f_wv a = Some wv -> Forall (fun r => length r = d) (f_x a) ->
  c_disc_out c = false ->
  xl_fit L c a (tl_new L) = (s1, Ok tt) ->
  exists keys, NoDup keys /\ (forall r, In r keys <-> In r (f_x a)) /\ (d = 1 -> increasing keys) /\
    forall t k, asks d keys 1 (f_treat a) t -> asks d keys 0 (f_control a) k -> In t keys -> In k keys ->
    let Xt := rows_of t (f_x a) wv in let yt := squeeze (nd_rows (rows_of t (f_x a) (f_y a))) in
    let X0 := rows_of k (f_x a) wv in let y0 := squeeze (nd_rows (rows_of k (f_x a) (f_y a))) in
    exists ft f0 ht h0 kt k0,
      l_fit L Xt yt = Ok ft /\ l_fit L X0 y0 = Ok f0 /\
      entrywise Rminus yt (predict L f0 Xt) ht /\ entrywise Rminus (predict L ft X0) y0 h0 /\
      l_fit L Xt ht = Ok kt /\ l_fit L X0 h0 = Ok k0 /\
      forall data rho, let D := match data with Some x => x | None => wv end in
      nd_shape (predict L kt D) = nd_shape (predict L k0 D) ->
      exists e, xl_estimate L c data rho QNone s1 = (s1, Ok e) /\
        entrywise (fun u v => rho * u + (1 - rho) * v)%R (predict L kt D) (predict L k0 D) e.
Proof.
  intros HN Hc Hw HL Hd H.
  destruct (xl_fit_inv _ _ _ _ _ _ Hw Hc H) as (e3 & x' & t0 & k0' & gt & g0 & ft & f0 & ht & h0 & kt & k0 &
    Ec & Gt & G0 & Mt & M0 & Ht & H0 & Kt & K0 & E1).
  destruct (tl_codes_inv _ _ _ _ _ _ _ Ec) as (e1 & e2 & C1 & C2 & C3). cbn [t_enc tl_new] in C1.
  destruct (@tl_comp_fresh _ (c_categories c) no_encs e1 x' d eq_refl eq_refl HL ltac:(congruence) C1)
    as (keys & HE & -> & Hk & Hi).
  destruct (Enc_keys HE) as (ND & _ & _).
  exists keys. split; auto. split; auto. split; [exact Hi|].
  intros t k At Ak It Ik Xt yt X0 y0.
  destruct (In_nth_error' t keys It) as (qt & Eqt). destruct (In_nth_error' k keys Ik) as (qk & Eqk).
  rewrite (tl_tr_ok e1 d keys true _ _ _ HE At Eqt) in C2. injection C2 as <- <-.
  rewrite (tl_tr_ok e1 d keys false _ _ _ HE Ak Eqk) in C3. injection C3 as <- <-.
  assert (HF : Forall (fun r => In r keys) (f_x a)) by (apply Forall_forall; intros r; apply Hk).
  destruct (groups_rows_of _ _ _ _ _ _ _ _ _ HE HF Eqt Gt) as (F1 & F2 & _ & _).
  destruct (groups_rows_of _ _ _ _ _ _ _ _ _ HE HF Eqk G0) as (F3 & F4 & _ & _).
  destruct gt as [gt1 gt2], g0 as [g01 g02]. cbn [fst snd] in F1, F2, F3, F4, Mt, M0, Ht, H0, Kt, K0.
  rewrite F1 in Mt, Ht, Kt. rewrite F2 in Mt, Ht. rewrite F3 in M0, H0, K0. rewrite F4 in M0, H0.
  exists ft, f0, ht, h0, kt, k0. split; [auto|]. split; [auto|]. split; [now apply zip_nd_inv|].
  split; [now apply zip_nd_inv|]. split; [auto|]. split; [auto|].
  intros data rho D Hsh. destruct (zip_nd_ok (mix rho) _ _ Hsh) as (v & Ev & Hv). exists v. split; [|exact Hv].
  unfold xl_estimate, mbind, mret, xl_outcome_classes, mget. rewrite Hd. unfold mbind, mret, mlift.
  unfold xl_prepare, mbind, mget. rewrite E1. cbn [t_fitted t_comb t_wv negb t_xt t_x0].
  assert (ED : forall s : tlearner L, (match data with Some d0 => mret d0 | None => attr (Some wv) end) s = (s, Ok D)).
  { intros s. unfold D, mret, attr, mlift. now destruct data. }
  rewrite ED. unfold attr, mlift. rewrite Ev. reflexivity.
Qed.

(** C112: for rho in [0, 1] every entry of the estimate lies between the two effect models; rho = 1 is the model of
    the treat group, rho = 0 that of the control group *)
Theorem C112_X_between rho a b e :
  entrywise (fun u v => rho * u + (1 - rho) * v)%R a b e ->
  ((0 <= rho <= 1)%R -> forall i, (Rmin (nd_at a i) (nd_at b i) <= nd_at e i <= Rmax (nd_at a i) (nd_at b i))%R) /\
  (rho = 1%R -> forall i, nd_at e i = nd_at a i) /\ (rho = 0%R -> forall i, nd_at e i = nd_at b i).
Proof.
  intros (_ & _ & H). split; [|split].
  - intros Hr i. rewrite H. set (u := nd_at a i). set (v := nd_at b i).
    destruct (Rle_dec u v) as [Huv|Huv].
    + rewrite Rmin_left, Rmax_right by lra. nra.
    + rewrite Rmin_right, Rmax_left by lra. nra.
  - intros -> i. rewrite H. lra.
  - intros -> i. rewrite H. lra.
Qed.

(* ------------------------------------------------------------------------------------------------ *)
(** ** C113: effect_nji *)

(** the documented array: for row i, outcome j, treatment k the effect of treatment k relative to control; the first
    treatment is the control, with effect 0 *)
Definition effects_nji (n y_d x_d : nat) (f : nat -> nat -> nat -> R) (e : nd R) : Prop :=
  nd_shape e = [n; y_d; x_d] /\
  (forall i j, nd_at e [i; j; 0] = 0%R) /\ (forall i j k, nd_at e [i; j; S k] = f i j k).

(** C113, combined treatments (any of the three learners): two treatments, the second column is the estimate *)
Theorem C113_nji_combined e :
  (forall n, nd_shape e = [n] -> exists r, nji e = Ok r /\ effects_nji n 1 2 (fun i _ _ => nd_at e [i]) r) /\
  (forall n y, nd_shape e = [n; y] -> exists r, nji e = Ok r /\ effects_nji n y 2 (fun i j _ => nd_at e [i; j]) r) /\
  (forall n y x, nd_shape e = [n; y; x] -> exists r, nji e = Ok r /\ effects_nji n y (S x) (fun i j k => nd_at e [i; j; k]) r).
Proof.
  split; [|split]; intros; unfold nji; rewrite H; cbn [bind]; eexists; (split; [reflexivity|]);
    unfold effects_nji; cbn; auto.
Qed.

(** effect_nji is nji of the estimate, in all three learners *)
Theorem C113_nji_of_estimate (L : learner) c data e :
  (forall s s', sl_estimate L c data QNone None s = (s', Ok e) -> snd (sl_effect_nji L c data s) = nji e) /\
  (forall s, c_disc_out c = false -> tl_estimate L c data QNone None s = (s, Ok e) -> snd (tl_effect_nji L c data s) = nji e) /\
  (forall s, c_disc_out c = false -> xl_estimate L c data (1 / 2) QNone s = (s, Ok e) -> snd (xl_effect_nji L c data s) = nji e).
Proof.
  split; [|split].
  - intros s s' H. unfold sl_estimate, mbind, mret in H. unfold sl_effect_nji, mbind.
    destruct (sl_prepare L c data None s) as [s2 [v|]]; [|easy]. injection H as -> ->. reflexivity.
  - intros s Hd H. unfold tl_estimate, tl_outcome_classes, mbind, mret, mget in H. rewrite Hd in H. unfold mret, mlift in H.
    cbn [check_classes] in H. unfold tl_effect_nji, mbind.
    destruct (tl_prepare L c data None s) as [s2 [v|]]; [|easy]. injection H as -> ->. reflexivity.
  - intros s Hd H. unfold xl_estimate, xl_outcome_classes, mbind, mret, mget in H. rewrite Hd in H. unfold mret in H.
    unfold xl_effect_nji, mbind. destruct (xl_prepare L c data (1 / 2) s) as [s2 [v|]]; [|easy]. injection H as -> ->. reflexivity.
Qed.

(* ------------------------------------------------------------------------------------------------ *)
(** ** Separate treatments *)

Lemma mapM_sep (L : learner) {G} (g : list nat -> res G) (f : G -> res (Mdl L)) arrays :
  forall s s' ms old, t_sep s = Some old ->
  mapM (fun treat => mdo u <- mlift (g treat); mdo m <- mlift (f u); mdo s <- mget; mdo o <- attr (t_sep s);
                     mdo _ <- mset (tl_set_sep (o ++ [m])); mret m) arrays s = (s', Ok ms) ->
  Forall2 (fun treat m => exists u, g treat = Ok u /\ f u = Ok m) arrays ms /\ s' = tl_set_sep (old ++ ms) s.
Proof.
  induction arrays as [|tr arrays IH]; intros s s' ms old Hs H; cbn [mapM] in H.
  - unfold mret in H. injection H as <- <-. split; [constructor|]. rewrite app_nil_r.
    unfold tl_set_sep. destruct s. cbn in *. now rewrite Hs.
  - unfold mbind at 1 2 3 4 5 6 in H. unfold mlift in H.
    destruct (g tr) as [u|] eqn:Eg; [|easy]. destruct (f u) as [m|] eqn:Ef; [|easy].
    unfold mget, attr, mset, mret in H. cbv beta iota in H. unfold mlift in H. rewrite Hs in H. cbv beta iota in H.
    apply mbind_inv in H as (s2 & ms' & H1 & H2).
    destruct (IH (tl_set_sep (old ++ [m]) s) s2 ms' (old ++ [m]) eq_refl H1) as [F E].
    injection H2 as <- <-. split.
    + constructor; eauto.
    + rewrite E. unfold tl_set_sep. cbn. now rewrite <- app_assoc.
Qed.

Lemma cartesian_one n : cartesian 0 [seq 0 n] = Ok (map (fun i => [i]) (seq 0 n)).
Proof.
  rewrite cartesian_rows by easy. f_equal.
  transitivity (product [seq 0 n]).
  - rewrite (product_pick 0). cbn [map]. apply map_ext_in. intros idx Hi. apply indices_In in Hi.
    inversion Hi as [|i ? ? ? Hi0 Hi1]; subst. inversion Hi1; subst. reflexivity.
  - cbn. induction (seq 0 n) as [|u v IH]; cbn in *; [reflexivity|]. now rewrite IH.
Qed.

(** groups and the codes of an ordinal encoder *)
Lemma ord_groups cats x xo idx (l out : list row) :
  cats <> [] -> Forall (@NoDup label) cats -> Forall (fun r => length r = length cats) x ->
  ord_transform cats x = Ok xo -> Forall2 (fun i (c : list label) => i < length c) idx cats ->
  get_groups (map Z.of_nat idx) (map (map Z.of_nat) xo) false l = Ok out ->
  length x = length l /\ out = rows_of (decode cats idx) x l.
Proof.
  intros Hne NDc HL Eo Hidx.
  assert (F2 : Forall2 (fun r o => mapX (fun p => enc_value (fst p) (snd p)) (combine cats r) = Ok o) x xo).
  { unfold ord_transform in Eo. destruct (check_X (length cats) x); [|easy]. cbn [bind] in Eo. now apply mapX_inv in Eo. }
  pose proof (F2_length F2) as Elen.
  assert (HLo : Forall (fun r => length r = length cats) (map (map Z.of_nat) xo)).
  { apply Forall_forall. intros r Hr. apply in_map_iff in Hr as (o & <- & Ho). rewrite map_length.
    destruct (@combine_In_r _ _ _ _ _ _ F2 Ho) as (r & Hr & E). rewrite Forall_forall in HL.
    pose proof (@enc_row_lt cats r o (HL r Hr) E) as Hlt. now apply F2_length in Hlt. }
  intros Hg.
  assert (Ll : length (map (map Z.of_nat) xo) = length l).
  { unfold get_groups in Hg. rewrite (mapX_ok _ (fun r => match map Z.of_nat idx with [t] => forallb (Z.eqb t) r | tg => list_eqb tg r end)) in Hg.
    - cbn [bind] in Hg. unfold bool_index in Hg. rewrite map_length in Hg.
      destruct (Nat.eqb_spec (length (map (map Z.of_nat) xo)) (length l)); [auto|easy].
    - intros r Hr. rewrite Forall_forall in HLo. specialize (HLo r Hr). unfold row_matches.
      apply F2_length in Hidx.
      destruct idx as [|i [|i' idx]]; cbn [map] in *; auto.
      + rewrite HLo, <- Hidx. reflexivity.
      + cbn [length] in *. rewrite HLo, <- Hidx, map_length, Nat.eqb_refl. reflexivity. }
  rewrite (@C64_get_groups_raw row (length cats) _ l (map Z.of_nat idx) HLo) in Hg; auto.
  2:{ rewrite map_length. now apply F2_length in Hidx. }
  rewrite map_length in Ll. injection Hg as <-. split; [congruence|].
  unfold rows_of. clear Eo HLo.
  assert (G : forall y yo (m : list row), Forall2 (fun r o => mapX (fun p => enc_value (fst p) (snd p)) (combine cats r) = Ok o) y yo ->
            (forall r, In r y -> length r = length cats) ->
            map snd (filter (fun p => eqb (fst p) (map Z.of_nat idx)) (combine (map (map Z.of_nat) yo) m)) =
            map snd (filter (fun p => eqb (fst p) (decode cats idx)) (combine y m))).
  { clear - NDc Hidx. intros y yo m F. revert m. induction F as [|r o y yo E F IH]; intros [|w m] Hy; cbn [map combine filter fst snd]; auto.
    specialize (IH m (fun r' Hr' => Hy r' (or_intror Hr'))).
    assert (Hr : length r = length cats) by (apply Hy; now left).
    assert (eqb (map Z.of_nat o) (map Z.of_nat idx) = eqb r (decode cats idx)) as Ee.
    { destruct (eqb r (decode cats idx)) eqn:E1.
      - apply eqb_eq in E1. symmetry in E1. apply (proj1 (decode_spec _ NDc Hidx)) in E1 as [E1 _].
        assert (o = idx) by congruence. subst. apply eqb_refl.
      - destruct (eqb (map Z.of_nat o) (map Z.of_nat idx)) eqn:E2; auto. apply eqb_eq in E2.
        assert (o = idx).
        { clear - E2. revert idx E2. induction o as [|i o IH]; intros [|j idx]; cbn; intros E; try easy.
          injection E as E0 E1. f_equal; [lia|auto]. }
        subst o. rewrite <- E1. symmetry. apply eqb_eq. symmetry. apply decode_spec; auto. }
    rewrite Ee. destruct (eqb r (decode cats idx)); cbn [map snd]; now rewrite IH. }
  apply G; auto. rewrite Forall_forall in HL. auto.
Qed.

(** C114, TLearner: a fit with separate treatments trains one model per group -- all combinations of the values
    that occur in the treatment columns, in increasing order for one column -- on exactly the rows of that group *)
Theorem C114_T_separate_models L c a s1 wv d :
  c_categories c = None -> f_comb a = false -> f_wv a = Some wv -> Forall (fun r => length r = d) (f_x a) ->
  tl_fit L c a (tl_new L) = (s1, Ok tt) ->
  exists keys ms, groups_of d (occurs (f_x a)) keys /\ (d = 1 -> increasing keys) /\ t_sep s1 = Some ms /\
    Forall2 (fun g m => l_fit L (rows_of g (f_x a) wv) (squeeze (nd_rows (rows_of g (f_x a) (f_y a)))) = Ok m) keys ms /\
    t_fitted s1 = true /\ t_comb s1 = false /\ t_wv s1 = Some wv /\ t_yd s1 = width (f_y a).
Proof.
  intros HN Hc Hw HL H. unfold tl_fit in H. rewrite Hw, Hc, HN in H.
  apply mbind_inv in H as (s2 & [] & H0 & H). unfold mset in H0. injection H0 as <-.
  apply mbind_inv in H as (s3 & [] & H0 & H). unfold mset in H. injection H as <-.
  apply mbind_inv in H0 as (s4 & cats & H1 & H0). unfold mlift in H1. injection H1 as <- Ef.
  apply mbind_inv in H0 as (s4 & xo & H1 & H0). unfold mlift in H1. injection H1 as <- Eo.
  apply mbind_inv in H0 as (s4 & [] & H1 & H0). unfold mset in H1. injection H1 as <-.
  apply mbind_inv in H0 as (s4 & arrays & H1 & H0). unfold mlift in H1. injection H1 as <- Ea.
  apply mbind_inv in H0 as (s4 & ms & H1 & H0). unfold mret in H0. injection H0 as <-.
  apply (mapM_sep L (fun treat => groups (map Z.of_nat treat) (map (map Z.of_nat) xo) false wv (f_y a))
                    (fun g => l_fit L (fst g) (squeeze (nd_rows (snd g)))) arrays _ _ _ []) in H1 as [F E]; [|reflexivity].
  cbn [app] in E.
  destruct (@enc_fit_spec _ _ _ _ HL Ef) as (Hx & Hd & Hlen & _ & Hnone & _).
  destruct (Hnone eq_refl) as [HS _].
  assert (NDc : Forall (@NoDup label) cats) by (eapply Forall_impl; [|exact HS]; intros l; apply ssort_NoDup).
  assert (Hne : cats <> []) by (intros ->; cbn in Hlen; lia).
  destruct (labels_spec Hne Ea) as [NDa Ha].
  assert (Ek : map (decode cats) arrays = map (fun p => decode cats (nth p arrays [])) (seq 0 (length arrays))).
  { rewrite <- (map_map (fun p => nth p arrays []) (decode cats)). f_equal.
    clear. induction arrays as [|r l IH]; cbn; auto. f_equal. rewrite <- seq_shift, map_map. exact IH. }
  exists (map (decode cats) arrays), ms.
  assert (NDk : NoDup (map (decode cats) arrays)).
  { assert (G : forall l, NoDup l -> (forall i, In i l -> In i arrays) -> NoDup (map (decode cats) l)).
    { induction 1 as [|i l Hi Hl IH]; intros Hs; cbn; constructor.
      - intros Hin. apply in_map_iff in Hin as (i' & E' & Hi').
        assert (i' = i); [|congruence].
        apply (@decode_inj cats); auto; apply Ha, Hs; [now right|now left].
      - apply IH. intros; apply Hs; now right. }
    apply G; auto. }
  split; [|split; [|split; [|split]]].
  - apply (groups_product (f_x a) d cats _ None HL Ef NDk). intros r. rewrite Ek. apply (keys_all Hne NDc Ea).
  - intros Hd1. rewrite Hd1 in Hlen. destruct cats as [|c0 [|]]; cbn in Hlen; try lia.
    exists c0. split; [|now inversion HS].
    cbn [map] in Ea. rewrite cartesian_one in Ea. injection Ea as <-. rewrite map_map. unfold decode. cbn.
    clear. transitivity (map (fun i => [nth i c0 (LInt 0)]) (seq 0 (length c0))); [reflexivity|].
    rewrite <- (map_map (fun i => nth i c0 (LInt 0)) (fun v => [v])). f_equal.
    induction c0 as [|v c0 IH]; cbn; auto. f_equal. rewrite <- seq_shift, map_map. exact IH.
  - rewrite E. reflexivity.
  - assert (G : forall l ns, Forall2 (fun treat m => exists u, groups (map Z.of_nat treat) (map (map Z.of_nat) xo) false wv (f_y a) = Ok u /\
                   l_fit L (fst u) (squeeze (nd_rows (snd u))) = Ok m) l ns -> (forall i, In i l -> In i arrays) ->
                 Forall2 (fun g m => l_fit L (rows_of g (f_x a) wv) (squeeze (nd_rows (rows_of g (f_x a) (f_y a)))) = Ok m)
                         (map (decode cats) l) ns).
    { induction 1 as [|tr m l ns (u & Eu & Em) F' IH]; intros Hs; cbn; constructor.
      - apply groups_inv in Eu as [G1 G2].
        assert (Htr : Forall2 (fun i (c : list label) => i < length c) tr cats) by (apply Ha, Hs; now left).
        assert (HL' : Forall (fun r => length r = length cats) (f_x a)) by (now rewrite Hlen).
        destruct (ord_groups cats (f_x a) xo tr wv _ Hne NDc HL' Eo Htr G1) as [_ E1].
        destruct (ord_groups cats (f_x a) xo tr (f_y a) _ Hne NDc HL' Eo Htr G2) as [_ E2].
        now rewrite E1, E2 in Em.
      - apply IH. intros; apply Hs; now right. }
    apply G; auto.
  - rewrite E. cbn. auto.
Qed.

(** the entries of stacked columns *)
Lemma stack_entry n y l i j k : k < length l -> nd_at (stack2 n y l) [i; j; k] = nd_at (nth k l (mkNd [] (fun _ => 0%R))) [i; j].
Proof. reflexivity. Qed.

(** how predictions are read as an array of rows and outcomes *)
Definition out_at (a : nd R) (i j : nat) : R := match nd_shape a with [_] => nd_at a [i] | _ => nd_at a [i; j] end.

Lemma as_n_yd_inv n y a b : as_n_yd n y a = Ok b -> nd_shape b = [n; y] /\ forall i j, nd_at b [i; j] = out_at a i j.
Proof.
  unfold as_n_yd, out_at. destruct (nd_shape a) as [|m [|d [|]]] eqn:E; try easy.
  - destruct (Nat.eqb_spec m n), (Nat.eqb_spec y 1); cbn; try easy. intros [= <-]. cbn. subst. auto.
  - destruct (Nat.eqb_spec m n), (Nat.eqb_spec y d); cbn; try easy. intros [= <-]. subst. rewrite E. auto.
Qed.

Lemma out_at_zip a b e i j : zip_nd Rminus a b = Ok e -> out_at e i j = (out_at a i j - out_at b i j)%R.
Proof.
  intros H. apply zip_nd_inv in H as (H1 & H2 & H3). unfold out_at. rewrite <- H1, <- H2.
  destruct (nd_shape e) as [|? [|]]; apply H3.
Qed.

(** C114, TLearner: the estimate with separate treatments is, up to axes of length one, the array whose entry
    (i, j, k) is the prediction of the model of group k+1 for row i and outcome j minus that of the first group *)
Theorem C114_T_separate_estimate L c data s m0 rest wv s' e :
  c_proba c = false -> c_disc_out c = false ->
  t_fitted s = true -> t_comb s = false -> t_wv s = Some wv -> t_sep s = Some (m0 :: rest) ->
  tl_estimate L c data QNone None s = (s', Ok e) ->
  let D := match data with Some x => x | None => wv end in
  exists f, e = squeeze f /\ nd_shape f = [length D; t_yd s; length rest] /\
    forall i j k m, nth_error rest k = Some m ->
      nd_at f [i; j; k] = (out_at (predict L m D) i j - out_at (predict L m0 D) i j)%R.
Proof.
  intros Hp Hd H1 H2 H3 H4 H D.
  unfold tl_estimate, mbind, mret, tl_outcome_classes, mget in H. rewrite Hd in H. unfold mbind, mret, mlift in H.
  cbn [check_classes] in H. unfold tl_prepare, mbind, mget in H. rewrite H1 in H. cbn [negb] in H.
  assert (ED : (match data with Some d0 => mret d0 | None => attr (t_wv s) end) s = (s, Ok D)).
  { unfold D, mret, attr, mlift. rewrite H3. now destruct data. }
  rewrite ED, H2 in H. unfold tl_prepare_separate, mbind, mget, attr, mlift in H.
  rewrite H4, Hp in H.
  destruct (mapX _ rest) as [cols|] eqn:Em; [|easy]. cbn [bind] in H. injection H as <- <-.
  apply mapX_inv in Em. exists (stack2 (length D) (t_yd s) cols). split; auto. split.
  - cbn. now rewrite (F2_length Em).
  - intros i j k m Hk.
    assert (Hlt : k < length rest) by (apply nth_error_Some; congruence).
    pose proof (@Forall2_nth _ _ _ _ _ m0 (mkNd [] (fun _ => 0%R)) Em k Hlt) as Hc.
    rewrite (nth_error_nth _ _ m0 Hk) in Hc. cbn beta in Hc.
    rewrite stack_entry by (now rewrite <- (F2_length Em)).
    unfold pred_func in Hc. destruct (zip_nd Rminus _ _) as [dd|] eqn:Ez; [|easy]. cbn [bind] in Hc.
    apply as_n_yd_inv in Hc as [_ Hc]. rewrite Hc. now apply out_at_zip.
Qed.

(** C113 is false for separate treatments: with one outcome, two or more further groups and two or more rows,
    effect_nji of TLearner has shape (n, groups-1, 2) instead of (n, 1, groups): the treatments are on the outcome
    axis *)
Theorem C113_nji_separate_refuted L c data s m0 rest wv s' e :
  c_proba c = false ->
  t_fitted s = true -> t_comb s = false -> t_wv s = Some wv -> t_sep s = Some (m0 :: rest) -> t_yd s = 1 ->
  2 <= length rest -> 2 <= length (match data with Some x => x | None => wv end) ->
  tl_effect_nji L c data s = (s', Ok e) ->
  nd_shape e = [length (match data with Some x => x | None => wv end); length rest; 2].
Proof.
  intros Hp H1 H2 H3 H4 Hy Hr Hn. set (D := match data with Some x => x | None => wv end) in *. intros H.
  unfold tl_effect_nji, mbind, tl_prepare, mbind, mget in H. rewrite H1 in H. cbn [negb] in H.
  assert (ED : (match data with Some d0 => mret d0 | None => attr (t_wv s) end) s = (s, Ok D)).
  { unfold D, mret, attr, mlift. rewrite H3. now destruct data. }
  rewrite ED, H2 in H. unfold tl_prepare_separate, mbind, mget, attr, mlift in H. rewrite H4, Hp, Hy in H.
  destruct (mapX _ rest) as [cols|] eqn:Em; [|easy]. cbn [bind] in H.
  apply mapX_inv, F2_length in Em. unfold nji, squeeze, stack2 in H. cbn [nd_shape filter] in H.
  rewrite <- Em in H.
  destruct (Nat.eqb_spec (length D) 1); [lia|]. destruct (Nat.eqb_spec (length rest) 1); [lia|].
  cbn [negb Nat.eqb bind] in H. injection H as <- <-. reflexivity.
Qed.

(** three groups, two rows: shape (2, 2, 2) *)
Definition ex113 : fitargs :=
  mkFitArgs [[LInt 0]; [LInt 1]; [LInt 2]] (Some [[5%R]; [6%R]; [7%R]]) [[1%R]; [0%R]; [2%R]] TNone TNone false.
Example C113_case :
  exists s1 e e1, tl_fit mem1 plain ex113 (tl_new mem1) = (s1, Ok tt) /\
    tl_estimate mem1 plain (Some [[0%R]; [0%R]]) QNone None s1 = (s1, Ok e1) /\
    nd_at e1 [1; 1] = (7 - 5)%R /\
    tl_effect_nji mem1 plain (Some [[0%R]; [0%R]]) s1 = (s1, Ok e) /\ nd_shape e = [2; 2; 2].
Proof. eexists _, _, _. repeat split. Qed.

(** ** SLearner with separate treatments *)

Fixpoint rsum (u : row) : R := match u with [] => 0%R | x :: r => (x + rsum r)%R end.
Lemma rsum_app u v : rsum (u ++ v) = (rsum u + rsum v)%R.
Proof. induction u; cbn; lra. Qed.
Lemma rsum_pos n q : q < n -> rsum (map IZR (map (fun k => if k =? q then 1%Z else 0%Z) (seq 0 n))) = 1%R.
Proof.
  assert (Z0 : forall m s, q < s -> rsum (map IZR (map (fun k => if k =? q then 1%Z else 0%Z) (seq s m))) = 0%R).
  { induction m as [|m IH]; intros s Hs; cbn; auto. rewrite IH by lia. destruct (Nat.eqb_spec s q); [lia|]. lra. }
  assert (G : forall m s, s <= q < s + m -> rsum (map IZR (map (fun k => if k =? q then 1%Z else 0%Z) (seq s m))) = 1%R).
  { induction m as [|m IH]; intros s Hs; [lia|]. cbn. destruct (Nat.eqb_spec s q) as [->|].
    - rewrite Z0 by lia. lra.
    - rewrite IH by lia. lra. }
  intros H. apply G. lia.
Qed.
Lemma unit_vec_sum n z u : unit_vec n z = Ok u -> length u = n /\ rsum u = 1%R /\ nth (Z.to_nat z) u 0%R = 1%R /\ Z.to_nat z < n.
Proof.
  unfold unit_vec. destruct ((0 <=? z) && (z <? Z.of_nat n))%Z eqn:E; [|easy]. apply andb_true_iff in E as [E1 E2].
  apply Z.leb_le in E1. apply Z.ltb_lt in E2. intros [= <-].
  assert (Hz : Z.to_nat z < n) by lia.
  assert (Em : map (fun k => if (Z.of_nat k =? z)%Z then 1%R else 0%R) (seq 0 n) =
               map IZR (map (fun k => if k =? Z.to_nat z then 1%Z else 0%Z) (seq 0 n))).
  { rewrite map_map. apply map_ext. intros k. destruct (Z.eqb_spec (Z.of_nat k) z), (Nat.eqb_spec k (Z.to_nat z)); lia || reflexivity. }
  split; [now rewrite map_length, seq_length|]. split; [rewrite Em; now apply rsum_pos|]. split; auto.
  apply nth_error_nth. rewrite nth_error_map, (nth_error_nth' _ 0) by (now rewrite seq_length).
  rewrite seq_nth by auto. cbn [Nat.add option_map]. destruct (Z.eqb_spec (Z.of_nat (Z.to_nat z)) z); [reflexivity|lia].
Qed.

Lemma oh_row_sum cats r is :
  mapX (fun p => do i <- enc_value (fst p) (snd p);
                 Ok (map (fun k => if k =? i then 1%Z else 0%Z) (seq 0 (length (fst p))))) (combine cats r) = Ok is ->
  length r = length cats -> rsum (map IZR (concat is)) = INR (length r).
Proof.
  revert r is. induction cats as [|c cats IH]; intros [|v r] is; cbn [length]; try (intros; lia).
  - intros [= <-] _. cbn. reflexivity.
  - cbn [combine mapX fst snd]. unfold enc_value at 1. destruct (index_of v c) as [i|] eqn:E; [|easy]. cbn [bind].
    destruct (mapX _ (combine cats r)) as [is'|] eqn:E'; [|easy]. cbn [bind]. intros [= <-] Hl.
    cbn [concat]. rewrite map_app, rsum_app, (IH r is' E') by lia.
    rewrite rsum_pos.
    + rewrite S_INR. lra.
    + apply index_of_Some in E. apply nth_error_Some. congruence.
Qed.

Lemma not_trained (us : list row) (v : row) (d : nat) :
  2 <= d -> Forall (fun u => rsum u = INR d) us -> rsum v = 1%R -> ~ In v us.
Proof.
  intros Hd HF Hv Hin. rewrite Forall_forall in HF. rewrite (HF v Hin) in Hv.
  apply le_INR in Hd. cbn in Hd. lra.
Qed.

(** C114, SLearner: with separate treatments the model is trained on covariates followed by a treatment part whose
    entries add up to the number d of treatment columns, and the estimate reads it at treatment parts with a single
    1: entry (i, j, k) is the prediction with the 1 at position k+1 minus that with the 1 at position 0.  So with two or more treatment
    columns the estimate reads the model only at treatment parts that no training row has *)
Theorem C114_S_separate_refuted L c a s1 wv d :
  f_comb a = false -> f_wv a = Some wv -> c_proba c = false -> Forall (fun r => length r = d) (f_x a) ->
  sl_fit L c a (sl_new L) = (s1, Ok tt) ->
  exists us m xd, length us = length wv /\ Forall (fun u => length u = xd /\ rsum u = INR d) us /\
    l_fit L (map (fun p => fst p ++ snd p) (combine wv us)) (squeeze (nd_rows (f_y a))) = Ok m /\
    forall data s2 e, sl_estimate L c data QNone None s1 = (s2, Ok e) ->
    let D := match data with Some x => x | None => wv end in
    exists f v, e = squeeze f /\ nd_shape f = [length D; width (f_y a); xd - 1] /\
      (forall k, k < xd -> length (v k) = xd /\ rsum (v k) = 1%R /\ nth k (v k) 0%R = 1%R /\ (2 <= d -> ~ In (v k) us)) /\
      forall i j k, k < xd - 1 ->
        nd_at f [i; j; k] = (out_at (predict L m (map (fun w => w ++ v (S k)) D)) i j -
                             out_at (predict L m (map (fun w => w ++ v 0%nat) D)) i j)%R.
Proof.
  intros Hc Hw Hp HL H. unfold sl_fit in H. rewrite Hw, Hc in H.
  unfold mbind, mset, mget, mlift, sl_begin, sl_new in H. cbn [s_enc s_fitted] in H.
  destruct (enc_fit (c_categories c) (f_x a)) as [cats|] eqn:Ef; [|easy].
  destruct (oh_transform cats (f_x a)) as [x|] eqn:Eo; [|easy].
  unfold mset, mret, sl_set_x, sl_set_model in H. cbn [s_enc s_fitted s_treat s_control s_wv s_yd s_comb s_model s_xd] in H.
  destruct (hcat [wv; to_rows x]) as [X|] eqn:EX; [|easy]. destruct (l_fit _ _ _) as [m|] eqn:Em; [|easy].
  injection H as <-. apply hcat2 in EX as [El ->].
  destruct (@enc_fit_spec _ _ _ _ HL Ef) as (Hx & Hd & Hlen & _ & _ & _).
  unfold oh_transform in Eo. destruct (check_X (length cats) (f_x a)); [|easy]. cbn [bind] in Eo. apply mapX_inv in Eo.
  assert (Hrow : forall u, In u x -> length u = list_sum (map (@List.length label) cats) /\ rsum (map IZR u) = INR d).
  { intros u Hu. destruct (@combine_In_r _ _ _ _ _ _ Eo Hu) as (r & Hr & E). rewrite Forall_forall in HL.
    destruct (mapX _ (combine cats r)) as [is|] eqn:Ei; [|easy]. cbn [bind] in E. injection E as <-. split.
    - apply mapX_inv in Ei. specialize (HL r Hr). assert (Hl : length r = length cats) by congruence. clear - Ei Hl.
      revert r is Ei Hl. induction cats as [|c0 cats IH]; intros [|v r] is Ei Hl; cbn in Hl; try lia.
      + inversion Ei. reflexivity.
      + cbn [combine] in Ei. inversion Ei as [|? b ? bs Hb Ei']; subst. cbn [concat map list_sum fold_right].
        rewrite app_length, (IH r bs Ei') by lia.
        destruct (enc_value _ _); [|easy]. cbn in Hb. injection Hb as <-. rewrite map_length, seq_length. reflexivity.
    - rewrite (oh_row_sum cats r is Ei) by (rewrite (HL r Hr); auto). now rewrite (HL r Hr). }
  assert (Hxne : x <> []) by (intros ->; inversion Eo as [E0|]; subst; congruence).
  set (xd := width x). assert (Exd : xd = list_sum (map (@List.length label) cats)).
  { unfold xd. destruct x as [|u x]; [easy|]. apply Hrow. now left. }
  exists (to_rows x), m, xd. split; [auto|]. split; [|split; [exact Em|]].
  { apply Forall_forall. intros u Hu. unfold to_rows in Hu. apply in_map_iff in Hu as (z & <- & Hz).
    rewrite map_length, Exd. now apply Hrow. }
  intros data s2 e H D.
  unfold sl_estimate, mbind, mret in H. unfold sl_prepare, mbind, mget in H. cbn [s_fitted negb s_wv s_comb] in H.
  assert (ED : forall s : slearner L, (match data with Some d0 => mret d0 | None => attr (Some wv) end) s = (s, Ok D)).
  { intros s. unfold D, mret, attr, mlift. now destruct data. }
  rewrite ED in H. unfold sl_prepare_separate, mbind, mget, attr, mlift in H. cbn [s_xd s_model s_yd] in H. rewrite Hp in H.
  fold xd in H.
  destruct (unit_vec xd 0) as [u0|] eqn:E0; [|easy]. cbn [bind] in H.
  destruct (mapX _ (seq 0 (xd - 1))) as [cols|] eqn:Ec; [|easy]. cbn [bind] in H. injection H as <- <-.
  apply mapX_inv in Ec. pose proof (F2_length Ec) as Elc. rewrite seq_length in Elc.
  exists (stack2 (length D) (width (f_y a)) cols), (fun k => match unit_vec xd (Z.of_nat k) with Ok u => u | Err _ => [] end).
  split; auto. split; [cbn; now rewrite <- Elc|]. split.
  - intros k Hk. destruct (unit_vec xd (Z.of_nat k)) as [u|] eqn:Eu.
    + apply unit_vec_sum in Eu as (Q1 & Q2 & Q3 & _). rewrite Nat2Z.id in Q3.
      split; [auto|]. split; [auto|]. split; [auto|]. intros Hd2. apply (not_trained _ _ d Hd2); auto.
      apply Forall_forall. intros w Hw'. unfold to_rows in Hw'. apply in_map_iff in Hw' as (z & <- & Hz). now apply Hrow.
    + exfalso. unfold unit_vec in Eu. destruct (_ && _)%Z eqn:Eb; [easy|]. apply andb_false_iff in Eb as [Eb|Eb];
        [apply Z.leb_gt in Eb|apply Z.ltb_ge in Eb]; lia.
  - intros i j k Hk.
    pose proof (@Forall2_nth _ _ _ _ _ 0 (mkNd [] (fun _ => 0%R)) Ec k ltac:(rewrite seq_length; lia)) as Hc'.
    rewrite seq_nth in Hc' by lia. cbn [Nat.add] in Hc'.
    rewrite stack_entry by lia.
    destruct (unit_vec xd (Z.of_nat (S k))) as [u|]; [|easy]. cbn [bind] in Hc'.
    change (Z.of_nat 0) with 0%Z. rewrite E0.
    unfold pred_func in Hc'. destruct (zip_nd Rminus _ _) as [dd|] eqn:Ez; [|easy]. cbn [bind] in Hc'.
    apply as_n_yd_inv in Hc' as [_ Hc']. rewrite Hc'. exact (out_at_zip _ _ _ i j Ez).
Qed.

Example C114_S_case :
  exists s1 s2 e, sl_fit toy plain (mkFitArgs [[LInt 0; LInt 1]; [LInt 1; LInt 0]] (Some [[5%R]; [6%R]]) [[1%R]; [0%R]] TNone TNone false) (sl_new toy)
     = (s1, Ok tt) /\ sl_estimate toy plain None QNone None s1 = (s2, Ok e) /\ nd_shape e = [2; 3].
Proof. eexists _, _, _. repeat split. Qed.

(* ------------------------------------------------------------------------------------------------ *)
(** ** C115: target_outcome *)

(** C115, proved part: when the models of the two groups have the same classes, the estimate for an outcome class
    is, for every row, the difference of the two probabilities of that class *)
Theorem C115_target_partial L c mt m0 wv s cs cl i data :
  TFit L mt m0 wv s -> c_proba c = true -> c_disc_out c = true ->
  l_classes L mt = Some cs -> l_classes L m0 = Some cs -> NoDup cs -> nth_error cs i = Some cl ->
  let D := match data with Some x => x | None => wv end in
  exists e, tl_estimate L c data QNone (Some cl) s = (s, Ok e) /\ nd_shape e = [length D; 1] /\
    forall r, nd_at e [r; 0] = (nth i (l_proba L mt (nth r D [])) 0 - nth i (l_proba L m0 (nth r D [])) 0)%R.
Proof.
  intros TF Hp Hd Ct C0 ND Hi D.
  destruct (@C85_check_classes label _ cl cs ND) as [H1 _]. destruct (H1 (nth_error_In _ _ Hi)) as (i' & Ei & Hi').
  assert (i' = i).
  { eapply NoDup_nth_error; eauto; [apply nth_error_Some|]; congruence. }
  subst i'.
  assert (Hlt : i < length cs) by (apply nth_error_Some; congruence).
  unfold tl_estimate, mbind. rewrite Hp. unfold mret, tl_outcome_classes, mbind, mget. rewrite Hd, (tf_fit _ _ _ _ _ TF). cbn [negb].
  rewrite (tf_xt _ _ _ _ _ TF), Ct. unfold mret, mlift. rewrite Ei.
  rewrite (tl_prepare_run L c mt m0 wv s data (Some [i]) TF). fold D.
  unfold pred_func, predict_proba, take1. rewrite Hp. cbn [nd_shape]. unfold n_classes. rewrite Ct, C0.
  cbn [forallb]. rewrite (proj2 (Nat.ltb_lt i (length cs)) Hlt). cbn [andb bind].
  unfold zip_nd. cbn [nd_shape]. rewrite (proj2 (list_eqb_eq _ _) eq_refl).
  eexists. split; [reflexivity|]. cbn. auto.
Qed.

(** C115 is false in general: the column of the class is looked up in the classes of the treat group only and used
    for both models, so the probability subtracted is that of whatever class stands at this position in the control
    group *)
Theorem C115_target_refuted L c mt m0 wv s cst cs0 cl i data :
  TFit L mt m0 wv s -> c_proba c = true -> c_disc_out c = true ->
  l_classes L mt = Some cst -> l_classes L m0 = Some cs0 -> NoDup cst -> nth_error cst i = Some cl ->
  i < length cs0 ->
  let D := match data with Some x => x | None => wv end in
  exists e, tl_estimate L c data QNone (Some cl) s = (s, Ok e) /\ nd_shape e = [length D; 1] /\
    forall r, nd_at e [r; 0] = (nth i (l_proba L mt (nth r D [])) 0 - nth i (l_proba L m0 (nth r D [])) 0)%R.
Proof.
  intros TF Hp Hd Ct C0 ND Hi Hi0 D.
  destruct (@C85_check_classes label _ cl cst ND) as [H1 _]. destruct (H1 (nth_error_In _ _ Hi)) as (i' & Ei & Hi').
  assert (i' = i).
  { eapply NoDup_nth_error; eauto; [apply nth_error_Some|]; congruence. }
  subst i'.
  assert (Hlt : i < length cst) by (apply nth_error_Some; congruence).
  unfold tl_estimate, mbind. rewrite Hp. unfold mret, tl_outcome_classes, mbind, mget. rewrite Hd, (tf_fit _ _ _ _ _ TF). cbn [negb].
  rewrite (tf_xt _ _ _ _ _ TF), Ct. unfold mret, mlift. rewrite Ei.
  rewrite (tl_prepare_run L c mt m0 wv s data (Some [i]) TF). fold D.
  unfold pred_func, predict_proba, take1. rewrite Hp. cbn [nd_shape]. unfold n_classes. rewrite Ct, C0.
  cbn [forallb]. rewrite (proj2 (Nat.ltb_lt i (length cst)) Hlt), (proj2 (Nat.ltb_lt i (length cs0)) Hi0). cbn [andb bind].
  unfold zip_nd. cbn [nd_shape]. rewrite (proj2 (list_eqb_eq _ _) eq_refl).
  eexists. split; [reflexivity|]. cbn. auto.
Qed.

(** a learner that predicts the class frequencies of its training data *)
Definition freq : learner :=
  @mkLearner (list Z * list Z)
    (fun X y => let ys := map (fun i => Int_part (nd_at y [i])) (seq 0 (length X)) in
                Ok (filter (fun z => existsb (Z.eqb z) ys) [0; 1; 2]%Z, ys))
    (fun _ _ => []) (fun _ => None) (fun m => Some (map LInt (fst m)))
    (fun m _ => map (fun z => (INR (length (filter (Z.eqb z) (snd m))) / INR (length (snd m)))%R) (fst m)).
Definition ex115 : fitargs :=
  mkFitArgs [[LInt 0]; [LInt 0]; [LInt 1]; [LInt 1]] (Some [[5%R]; [6%R]; [7%R]; [8%R]])
            [[0%R]; [1%R]; [1%R]; [2%R]] TNone TNone true.
Definition proba_conf : config := mkConfig None true true.

(** outcome classes 0, 1 in the control group and 1, 2 in the treat group: the estimate for class 2 is
    P(2 | treat) - P(1 | control) = 0, while the control group never has outcome 2 *)
Theorem C115_target_case_refuted :
  exists s1 e, tl_fit freq proba_conf ex115 (tl_new freq) = (s1, Ok tt) /\
    tl_estimate freq proba_conf (Some [[0%R]]) QNone (Some (LInt 2)) s1 = (s1, Ok e) /\ nd_at e [0; 0] = 0%R /\
    (exists m0, t_x0 s1 = Some m0 /\ fst m0 = [0; 1]%Z) /\ (exists mt, t_xt s1 = Some mt /\ fst mt = [1; 2]%Z).
Proof.
  assert (I : Int_part 0 = 0%Z /\ Int_part 1 = 1%Z /\ Int_part 2 = 2%Z).
  { unfold Int_part. rewrite <- (tech_up 0 1), <- (tech_up 1 2), <- (tech_up 2 3) by lra. auto. }
  destruct I as (I0 & I1 & I2).
  eexists _, _. split; [unfold tl_fit; cbn -[Int_part]; rewrite ?I0, ?I1, ?I2; reflexivity|].
  split; [cbn -[Int_part]; reflexivity|]. split; [cbn; lra|]. split; eexists; split; reflexivity.
Qed.

(* ------------------------------------------------------------------------------------------------ *)
(** ** C116: XLearner, separate treatments, discrete outcome *)

Lemma mapM_sepx_len (L : learner) {A} (body : A -> M (tlearner L) unit) :
  (forall a s s', body a s = (s', Ok tt) -> t_sepx s <> None -> t_ft s = None ->
     t_fitted s' = t_fitted s /\ t_ft s' = None /\ exists p old, t_sepx s = Some old /\ t_sepx s' = Some (old ++ [p])) ->
  forall l s s' r, mapM body l s = (s', Ok r) -> t_sepx s <> None -> t_ft s = None ->
    t_ft s' = None /\ exists old ps, t_sepx s = Some old /\ t_sepx s' = Some (old ++ ps) /\ length ps = length l.
Proof.
  intros HB. induction l as [|a l IH]; intros s s' r H Hs Hf; cbn [mapM] in H.
  - injection H as <- <-. split; auto. destruct (t_sepx s) as [old|]; [|easy]. exists old, []. now rewrite app_nil_r.
  - apply mbind_inv in H as (s2 & [] & H1 & H). apply mbind_inv in H as (s3 & rs & H2 & H). injection H as <- <-.
    destruct (HB _ _ _ H1 Hs Hf) as (_ & Hf2 & p & old & E1 & E2).
    destruct (IH _ _ _ H2 ltac:(congruence) Hf2) as (Hf3 & old' & ps & E3 & E4 & E5).
    split; auto. exists old, (p :: ps). rewrite E2 in E3. injection E3 as <-. rewrite <- app_assoc in E4. cbn. auto.
Qed.

(** C116: XLearner with a discrete outcome and separate treatments can be fitted, and then no estimate can be made:
    AttributeError (IndexError when there is a single group) *)
Theorem C116_X_separate_discrete_refuted L c a s1 :
  c_disc_out c = true -> f_comb a = false -> xl_fit L c a (tl_new L) = (s1, Ok tt) ->
  forall h data rho q, exists e, snd (xl_estimate L c data rho q (t_after L c h s1)) = Err e /\
    (e = AttributeError \/ (e = IndexError /\ t_sepx s1 = Some [])).
Proof.
  intros Hd Hc H h data rho q. rewrite (proj1 (C109_TX_repeat L c h (TNji None) s1)).
  unfold xl_fit in H. destruct (f_wv a) as [wv|]; [|easy]. rewrite Hc in H.
  apply mbind_inv in H as (s2 & [] & H0 & H). unfold mset in H0. injection H0 as <-.
  apply mbind_inv in H as (s3 & [] & H0 & H). unfold mset in H. injection H as <-.
  apply mbind_inv in H0 as (s4 & cats & H1 & H0). unfold mlift in H1. injection H1 as <- Ef.
  apply mbind_inv in H0 as (s4 & xo & H1 & H0). unfold mlift in H1. injection H1 as <- Eo.
  apply mbind_inv in H0 as (s4 & [] & H1 & H0). unfold mset in H1. injection H1 as <-.
  apply mbind_inv in H0 as (s4 & arrays & H1 & H0). unfold mlift in H1. injection H1 as <- Ea.
  destruct arrays as [|ctrl rest]; [easy|].
  apply mbind_inv in H0 as (s4 & g0 & H1 & H0). unfold mlift in H1. injection H1 as <- Eg.
  apply mbind_inv in H0 as (s4 & f0 & H1 & H0). unfold mlift in H1. injection H1 as <- Ef0.
  apply mbind_inv in H0 as (s4 & r & H1 & H0). unfold mret in H0. injection H0 as <-.
  assert (F : t_ft s4 = None /\ exists ps, t_sepx s4 = Some ps).
  { eapply mapM_sepx_len in H1.
    - destruct H1 as (F1 & old & ps & _ & F2 & _). split; auto. eauto.
    - clear. intros tr s s' H Hs Hf. destruct (t_sepx s) as [old|] eqn:E; [|easy].
      do 6 (apply mbind_inv in H as (? & ? & K & H); unfold mlift in K; injection K as <- _).
      apply mbind_inv in H as (? & ? & K & H). unfold mget in K. injection K as <- <-.
      apply mbind_inv in H as (? & ? & K & H). unfold attr, mlift in K. rewrite E in K. injection K as <- <-.
      unfold mset in H. injection H as <-. cbn. split; auto. split; auto. eexists _, old. auto.
    - easy.
    - reflexivity. }
  destruct F as (F1 & ps & F2).
  unfold xl_estimate, xl_outcome_classes, mbind, mget. rewrite Hd. cbn [t_fitted tl_done negb t_ft t_sepx]. rewrite F1, F2.
  unfold attr, mlift. destruct ps as [|p ps]; eexists; (split; [reflexivity|]); auto.
Qed.
Definition ex116 : fitargs :=
  mkFitArgs [[LInt 0]; [LInt 1]; [LInt 0]; [LInt 1]] (Some [[5%R]; [6%R]; [7%R]; [8%R]]) [[1%R]; [0%R]; [1%R]; [1%R]] TNone TNone false.
Example C116_case :
  exists s1, xl_fit mem1 (mkConfig None false true) ex116 (tl_new mem1) = (s1, Ok tt) /\
    snd (xl_estimate mem1 (mkConfig None false true) None (1/2) QNone s1) = Err AttributeError.
Proof. eexists. split; reflexivity. Qed.

Example C112_case :
  exists s1 e, xl_fit mem1 plain (mkFitArgs [[LInt 0]; [LInt 1]; [LInt 1]; [LInt 0]] (Some [[5%R]; [6%R]; [7%R]; [8%R]])
                       [[0%R]; [1%R]; [1%R]; [2%R]] TNone TNone true) (tl_new mem1) = (s1, Ok tt) /\
    xl_estimate mem1 plain (Some [[0%R]]) (1/4) QNone s1 = (s1, Ok e) /\ nd_at e [0] = (1/4 * 6 + (1 - 1/4) * 5)%R.
Proof. eexists _, _. repeat split. Qed.

Print Assumptions C112_X_estimate.
Print Assumptions C112_X_between.
Print Assumptions C113_nji_combined.
Print Assumptions C113_nji_of_estimate.
Print Assumptions C113_nji_separate_refuted.
Print Assumptions C114_T_separate_models.
Print Assumptions C114_T_separate_estimate.
Print Assumptions C114_S_separate_refuted.
Print Assumptions C115_target_partial.
Print Assumptions C115_target_refuted.
Print Assumptions C115_target_case_refuted.
Print Assumptions C116_X_separate_discrete_refuted.
