(** C104-C110: the single-model meta learner (SLearner). *)
From Coq Require Import ZArith Reals Sorting.Sorted Lra.
From Verif Require Import Base ApiModel EstUtilsModel EstUtilsProps MetaModel MetaSpec MetaProofs.
Local Notation length := List.length.
Local Notation concat := List.concat.

(* ------------------------------------------------------------------------------------------------ *)
(** ** Lemmas *)

Lemma to_rows_ind keys x : to_rows (map (ind keys) x) = map (indicator keys) x.
Proof.
  unfold to_rows, ind, indicator. rewrite map_map. apply map_ext. intros r. rewrite map_map. apply map_ext.
  intros g. destruct (eqb r g); reflexivity.
Qed.
Lemma indicator_length keys r : length (indicator keys r) = length keys.
Proof. apply map_length. Qed.

Lemma hcat2 {A} (a b X : list (list A)) :
  hcat [a; b] = Ok X -> length a = length b /\ X = map (fun p => fst p ++ snd p) (combine a b).
Proof.
  unfold hcat. cbn [forallb fold_left]. rewrite andb_true_r. destruct (Nat.eqb_spec (length b) (length a)); [|easy].
  intros [= <-]. auto.
Qed.
Lemma hcat2_ok {A} (a b : list (list A)) :
  length a = length b -> hcat [a; b] = Ok (map (fun p => fst p ++ snd p) (combine a b)).
Proof. intros H. unfold hcat. cbn [forallb fold_left]. rewrite H, Nat.eqb_refl. reflexivity. Qed.

Lemma features_combine keys wv x :
  map (fun p : row * row => fst p ++ snd p) (combine wv (map (indicator keys) x)) =
  map (fun p => features keys (snd p) (fst p)) (combine wv x).
Proof.
  revert x. induction wv as [|w wv IH]; intros [|r x]; cbn; auto. now rewrite IH.
Qed.

Lemma unit_vec_ok keys r q :
  NoDup keys -> nth_error keys q = Some r -> unit_vec (length keys) (Z.of_nat q) = Ok (indicator keys r).
Proof.
  intros ND H. assert (Hq : q < length keys) by (apply nth_error_Some; congruence).
  unfold unit_vec. replace ((0 <=? Z.of_nat q) && (Z.of_nat q <? Z.of_nat (length keys)))%Z with true.
  2:{ symmetry. apply andb_true_iff. split; [apply Z.leb_le|apply Z.ltb_lt]; lia. }
  f_equal.
  transitivity (map IZR (ind keys r)).
  - rewrite <- (@ind_pos _ _ keys r q ND H), map_map. apply map_ext. intros k.
    destruct (Z.eqb_spec (Z.of_nat k) (Z.of_nat q)), (Nat.eqb_spec k q); try lia; reflexivity.
  - unfold ind, indicator. rewrite map_map. apply map_ext. intros g. destruct (eqb r g); reflexivity.
Qed.

Lemma zip_nd_ok f a b : nd_shape a = nd_shape b -> exists e, zip_nd f a b = Ok e /\ entrywise f a b e.
Proof.
  intros H. unfold zip_nd. rewrite (proj2 (list_eqb_eq _ _) H). eexists. split; [reflexivity|].
  unfold entrywise. cbn. auto.
Qed.
Lemma zip_nd_inv f a b e : zip_nd f a b = Ok e -> entrywise f a b e.
Proof.
  unfold zip_nd. destruct (list_eqb _ _) eqn:E; [|easy]. apply list_eqb_eq in E. intros [= <-].
  unfold entrywise. cbn. auto.
Qed.
Lemma pred_func_shape L p m X Y : length X = length Y -> nd_shape (pred_func L p m X) = nd_shape (pred_func L p m Y).
Proof.
  intros H. unfold pred_func, predict, predict_proba. destruct p; cbn; [now rewrite H|].
  destruct (l_dim L m); cbn; now rewrite H.
Qed.
Lemma with_row_features keys r wv : with_row wv (indicator keys r) = map (features keys r) wv.
Proof. reflexivity. Qed.

(** run the steps of a computation in the goal *)
Lemma sl_enc_run {L A} (m : M encs A) (s : slearner L) e r :
  m (s_enc s) = (e, r) ->
  sl_enc m s = (mkSL L (s_fitted s) e (s_xd s) (s_treat s) (s_control s) (s_wv s) (s_yd s) (s_comb s) (s_model s), r).
Proof. intros H. unfold sl_enc. now rewrite H. Qed.

Lemma sl_fit_inv L c a s0 s1 wv :
  f_wv a = Some wv -> f_comb a = true -> sl_fit L c a s0 = (s1, Ok tt) ->
  exists e1 x' X m,
    sl_comp (s_fitted s0) (f_x a) (c_categories c) (s_enc s0) = (e1, Ok x') /\
    hcat [wv; to_rows x'] = Ok X /\ l_fit L X (squeeze (nd_rows (f_y a))) = Ok m /\
    s1 = mkSL L true e1 (Some (width x')) (Some (f_treat a)) (Some (f_control a)) (Some wv) (width (f_y a)) true (Some m).
Proof.
  intros Hw Hc H. unfold sl_fit in H. rewrite Hw, Hc in H.
  apply mbind_inv in H as (s2 & [] & H2 & H). unfold mset in H2. injection H2 as <-.
  apply mbind_inv in H as (s3 & s3' & H2 & H). unfold mget in H2. injection H2 as <- <-.
  apply mbind_inv in H as (s4 & x & H2 & H).
  apply mbind_inv in H2 as (s5 & x' & H2 & H3).
  unfold sl_enc in H2. cbn [s_enc sl_begin s_fitted] in H2.
  destruct (sl_comp (s_fitted s0) (f_x a) (c_categories c) (s_enc s0)) as [e1 [xx|]] eqn:E; [|easy].
  injection H2 as <- <-.
  apply mbind_inv in H3 as (s6 & [] & H2 & H3). unfold mset in H2. injection H2 as <-.
  unfold mret in H3. injection H3 as <- <-.
  apply mbind_inv in H as (s7 & X & H2 & H). unfold mlift in H2. injection H2 as <- HX.
  apply mbind_inv in H as (s8 & m & H2 & H). unfold mlift in H2. injection H2 as <- Hm.
  unfold mset in H. injection H as <-.
  exists e1, xx, X, m. repeat split; auto.
Qed.

Lemma sl_fit_run L c a s0 wv e1 x' m :
  f_wv a = Some wv -> f_comb a = true ->
  sl_comp (s_fitted s0) (f_x a) (c_categories c) (s_enc s0) = (e1, Ok x') ->
  length wv = length x' ->
  l_fit L (map (fun p => fst p ++ snd p) (combine wv (to_rows x'))) (squeeze (nd_rows (f_y a))) = Ok m ->
  sl_fit L c a s0 =
  (mkSL L true e1 (Some (width x')) (Some (f_treat a)) (Some (f_control a)) (Some wv) (width (f_y a)) true (Some m), Ok tt).
Proof.
  intros Hw Hc E Hl Hm. unfold sl_fit. rewrite Hw, Hc.
  unfold mbind, mset, mget, sl_enc, sl_begin. cbn [s_enc s_fitted]. rewrite E.
  unfold mset, mlift, mret. rewrite hcat2_ok by (unfold to_rows; now rewrite map_length).
  rewrite Hm. reflexivity.
Qed.

(** the state of a learner fitted with combined treatments: encoders [e], groups [keys], model [m], training
    covariates [wv] and the given arguments, or the codes that replaced them *)
Record SFit (L : learner) (e : encs) (d : nat) (keys : list (list label)) (m : Mdl L) (wv : list row)
            (tr ct : targ) (s : slearner L) : Prop := mkSFit {
  sf_enc : Enc e d keys; sf_fit : s_fitted s = true; sf_e : s_enc s = e; sf_xd : s_xd s = Some (length keys);
  sf_wv : s_wv s = Some wv; sf_comb : s_comb s = true; sf_m : s_model s = Some m;
  sf_tr : s_treat s = Some tr; sf_ct : s_control s = Some ct }.

Definition sl_after {L : learner} (s : slearner L) (t k : targ) : slearner L := sl_set_control k (sl_set_treat t s).

(** one preparation of the estimates when both arguments have a code *)
Lemma sl_prepare_run L c e d keys m wv tr ct s data target t k rt rk :
  SFit L e d keys m wv tr ct s ->
  (forall trans, (forall x, trans x e = comp_ready x e) -> get_tr_ctrl tr trans true e = (e, Ok (Z.of_nat t))) ->
  (forall trans, (forall x, trans x e = comp_ready x e) -> get_tr_ctrl ct trans false e = (e, Ok (Z.of_nat k))) ->
  nth_error keys t = Some rt -> nth_error keys k = Some rk ->
  let D := match data with Some x => x | None => wv end in
  let yt := pred_func L (c_proba c) m (map (features keys rt) D) in
  let y0 := pred_func L (c_proba c) m (map (features keys rk) D) in
  sl_prepare L c data target s =
  (sl_after s (TVal (LN t)) (TVal (LN k)),
   match target with
   | None => zip_nd Rminus yt y0
   | Some cols => do u <- take1 cols yt; do v <- take1 cols y0; zip_nd Rminus u v
   end).
Proof.
  intros [HE H1 H2 H3 H4 H5 H6 H7 H8] Gt Gk Ht Hk D yt y0.
  pose proof (Enc_keys HE) as (ND & _ & _).
  specialize (Gt (fun x => sl_comp true x None) (fun x => sl_comp_ready x None e)).
  specialize (Gk (fun x => sl_comp true x None) (fun x => sl_comp_ready x None e)).
  unfold sl_prepare, mbind, mget. rewrite H1. cbn [negb].
  assert (ED : (match data with Some d0 => mret d0 | None => attr (s_wv s) end) s = (s, Ok D)).
  { unfold D, mret, attr, mlift. rewrite H4. now destruct data. }
  rewrite ED, H5. unfold sl_prepare_combined, mbind, mget, attr, mlift.
  rewrite H7, H1. rewrite (@sl_enc_run L _ _ s e (Ok (Z.of_nat t))) by (now rewrite H2).
  unfold mset. cbn [s_control s_fitted s_enc s_xd s_treat s_wv s_yd s_comb s_model sl_set_treat].
  rewrite H8. unfold sl_enc. cbn [s_control s_fitted s_enc s_xd s_treat s_wv s_yd s_comb s_model sl_set_treat].
  rewrite Gk. rewrite H3.
  rewrite (unit_vec_ok keys rt t ND Ht), (unit_vec_ok keys rk k ND Hk), H6.
  change (with_row D (indicator keys rt)) with (map (features keys rt) D).
  change (with_row D (indicator keys rk)) with (map (features keys rk) D).
  fold yt y0.
  assert (Es : sl_set_control (TVal (LInt (Z.of_nat k))) (mkSL L true e (Some (length keys)) (Some (TVal (LInt (Z.of_nat t)))) (Some ct)
                 (s_wv s) (s_yd s) true (Some m)) = sl_after s (TVal (LN t)) (TVal (LN k))).
  { unfold sl_after, sl_set_control, sl_set_treat, LN. cbn. rewrite H1, H2, H3, H5, H6. reflexivity. }
  destruct target; rewrite <- Es; unfold sl_set_control, sl_set_treat; cbn; rewrite ?H1, ?H2, ?H3, ?H5, ?H6; reflexivity.
Qed.

Lemma width_map_ind (keys x : list (list label)) : x <> [] -> width (map (ind keys) x) = length keys.
Proof. destruct x; [easy|]. intros _. cbn. apply map_length. Qed.

Lemma groups_product x d cats keys categories :
  Forall (fun r => length r = d) x -> enc_fit categories x = Ok cats ->
  NoDup keys -> (forall r, In r keys <-> Forall2 (fun a c => In a c) r cats) ->
  groups_of d (fun j a => match categories with None => occurs x j a | Some cs => In a (nth j cs []) end) keys.
Proof.
  intros HL Ef ND Hk. destruct (@enc_fit_spec _ _ _ _ HL Ef) as (_ & _ & Hlen & _ & Hnone & Hsome).
  split; auto. intros r. rewrite Hk.
  assert (G : forall (cs : list (list label)) r', Forall2 (fun a c => In a c) r' cs <->
               length r' = length cs /\ forall j, j < length cs -> In (nth j r' (LInt 0)) (nth j cs [])).
  { clear. induction cs as [|c cs IH]; intros r'.
    - split; [intros H; inversion H; cbn; split; [auto|lia]|]. intros [H _]. destruct r'; [constructor|cbn in H; lia].
    - split.
      + intros H. inversion H as [|a ? r0 ? Ha Hr]; subst. apply IH in Hr as [H1 H2]. cbn. split; [lia|].
        intros [|j] Hj; auto. apply H2. lia.
      + intros [H1 H2]. destruct r' as [|a r']; [cbn in H1; lia|]. constructor.
        * apply (H2 0). cbn. lia.
        * apply IH. cbn in H1. split; [lia|]. intros j Hj. apply (H2 (Datatypes.S j)). cbn. lia. }
  rewrite G, Hlen. split; intros [H1 H2]; (split; [exact H1|]); intros j Hj; specialize (H2 j Hj).
  - destruct categories as [cs|].
    + now rewrite <- (Hsome cs eq_refl).
    + now apply (proj2 (Hnone eq_refl) j Hj).
  - destruct categories as [cs|].
    + now rewrite (Hsome cs eq_refl).
    + now apply (proj2 (Hnone eq_refl) j Hj).
Qed.

(** everything about the first combined fit of an SLearner that was never fitted *)
Lemma sl_fresh L c a s0 s1 wv d :
  s_fitted s0 = false -> f_wv a = Some wv -> f_comb a = true ->
  Forall (fun r => length r = d) (f_x a) ->
  (forall cs, c_categories c = Some cs -> Forall (@NoDup label) cs) ->
  sl_fit L c a s0 = (s1, Ok tt) ->
  exists e keys m,
    groups_of d (fun j v => match c_categories c with None => occurs (f_x a) j v | Some cs => In v (nth j cs []) end) keys /\
    (d = 1 -> c_categories c = None -> increasing keys) /\
    (d = 1 -> forall cs, c_categories c = Some [cs] -> keys = map (fun v => [v]) cs) /\
    length wv = length (f_x a) /\
    l_fit L (map (fun p => features keys (snd p) (fst p)) (combine wv (f_x a))) (squeeze (nd_rows (f_y a))) = Ok m /\
    SFit L e d keys m wv (f_treat a) (f_control a) s1 /\
    (d <> 1 -> Enc e 1 (map (fun i => [LN i]) (seq 0 (length keys)))).
Proof.
  intros Hs Hw Hc HL HN H. destruct (sl_fit_inv _ _ _ _ _ _ Hw Hc H) as (e1 & x' & X & m & E & EX & Em & ->).
  rewrite Hs in E.
  destruct (@sl_comp_fresh _ _ _ _ _ _ HL HN E) as (keys & cats & Ef & HE & -> & Hk & H1 & Hn1).
  destruct (@enc_fit_spec _ _ _ _ HL Ef) as (Hx & _ & Hlen & _ & Hnone & Hsome).
  apply hcat2 in EX as [El ->]. rewrite to_rows_ind in *. rewrite features_combine in Em. rewrite map_length in El.
  destruct (Enc_keys HE) as (ND & _ & _).
  pose proof (groups_product _ _ _ _ _ HL Ef ND Hk) as Hg.
  exists e1, keys, m. split; [exact Hg|]. split; [|split; [|split; [auto|split; [auto|split; [|auto]]]]].
  - intros Hd HN0. exists (nth 0 cats []). split; auto. destruct (Hnone HN0) as [HS _].
    rewrite Forall_forall in HS. apply HS. apply nth_In. lia.
  - intros Hd cs Hcs. rewrite (H1 Hd). rewrite (Hsome _ Hcs). reflexivity.
  - constructor; auto.
    cbn [s_xd]. f_equal. now apply width_map_ind.
Qed.

(** the code of the group named by an argument *)
Lemma asks_code e d keys (treat : bool) t r q :
  Enc e d keys -> asks d keys (if treat then 1 else 0) t r -> nth_error keys q = Some r ->
  forall trans, (forall x, trans x e = comp_ready x e) -> get_tr_ctrl t trans treat e = (e, Ok (Z.of_nat q)).
Proof. intros HE HA Hq trans HT. eapply get_tr_ctrl_ok; eauto. Qed.

Lemma In_nth_error' {A} (x : A) l : In x l -> exists q, nth_error l q = Some x.
Proof. apply In_nth_error. Qed.

(* ------------------------------------------------------------------------------------------------ *)
(** ** C104: what the first estimate of an SLearner is *)

(** C104: fit an SLearner for the first time (combined treatments, any number d of treatment columns, automatic
    categories).  There is a list [keys] of groups -- all tuples of values that occur in the columns, each once,
    in increasing order when d = 1 -- such that the model is trained on every row's covariates followed by the
    indicator of the row's group, and the first estimate, for new data or for the training data, is the
    difference of the predictions with the indicator of the treat group and with that of the control group.
    No treat is the second group, no control the first. *)
Theorem C104_first_estimate L c a s1 wv d :
  c_categories c = None -> f_comb a = true -> f_wv a = Some wv -> Forall (fun r => length r = d) (f_x a) ->
  sl_fit L c a (sl_new L) = (s1, Ok tt) ->
  exists keys m,
    groups_of d (occurs (f_x a)) keys /\ (d = 1 -> increasing keys) /\
    length wv = length (f_x a) /\
    l_fit L (map (fun p => features keys (snd p) (fst p)) (combine wv (f_x a))) (squeeze (nd_rows (f_y a))) = Ok m /\
    forall data t k, asks d keys 1 (f_treat a) t -> asks d keys 0 (f_control a) k -> In t keys -> In k keys ->
    let D := match data with Some x => x | None => wv end in
    exists s2 e,
      sl_estimate L c data QNone None s1 = (s2, Ok e) /\
      entrywise Rminus (pred_func L (c_proba c) m (map (features keys t) D))
                       (pred_func L (c_proba c) m (map (features keys k) D)) e.
Proof.
  intros HN Hc Hw HL H.
  destruct (sl_fresh L c a (sl_new L) s1 wv d eq_refl Hw Hc HL ltac:(congruence) H)
    as (e & keys & m & Hg & Hi & _ & El & Em & SF & _).
  rewrite HN in Hg. exists keys, m. split; [exact Hg|]. split; [auto|]. split; auto. split; auto.
  intros data t k Ht Hk It Ik D.
  destruct (In_nth_error' t keys It) as (qt & Eqt). destruct (In_nth_error' k keys Ik) as (qk & Eqk).
  pose proof (sf_enc _ _ _ _ _ _ _ _ _ SF) as HE.
  destruct (zip_nd_ok Rminus (pred_func L (c_proba c) m (map (features keys t) D))
                             (pred_func L (c_proba c) m (map (features keys k) D))) as (v & Ev & Hv).
  { apply pred_func_shape. now rewrite !map_length. }
  exists (sl_after s1 (TVal (LN qt)) (TVal (LN qk))), v. split; auto.
  unfold sl_estimate, mbind, mret.
  rewrite (sl_prepare_run L c e d keys m wv _ _ s1 data None qt qk t k SF); auto.
  - fold D. rewrite Ev. reflexivity.
  - exact (@asks_code e d keys true _ _ _ HE Ht Eqt).
  - exact (@asks_code e d keys false _ _ _ HE Hk Eqk).
Qed.

(* ------------------------------------------------------------------------------------------------ *)
(** ** C105: repeated calls *)

(** calls on a fitted learner, their results, and the learner after a history of calls *)
Inductive call := CEst (data : option (list row)) (q : quantity) (target : option label) | CNji (data : option (list row)).
Definition s_do (L : learner) (c : config) (k : call) : M (slearner L) (nd R) :=
  match k with CEst d q t => sl_estimate L c d q t | CNji d => sl_effect_nji L c d end.
Definition s_after (L : learner) (c : config) (h : list call) (s : slearner L) : slearner L :=
  fold_left (fun s k => fst (s_do L c k s)) h s.

(** a call with both codes known: its result depends on the arguments through the codes only *)
Lemma s_do_codes L c e d keys m wv k0 (t k : nat) rt rk :
  nth_error keys t = Some rt -> nth_error keys k = Some rk ->
  exists r : res (nd R), forall tr ct s,
    SFit L e d keys m wv tr ct s ->
    (forall trans, (forall x, trans x e = comp_ready x e) -> get_tr_ctrl tr trans true e = (e, Ok (Z.of_nat t))) ->
    (forall trans, (forall x, trans x e = comp_ready x e) -> get_tr_ctrl ct trans false e = (e, Ok (Z.of_nat k))) ->
    snd (s_do L c k0 s) = r /\
    (fst (s_do L c k0 s) = s \/ fst (s_do L c k0 s) = sl_after s (TVal (LN t)) (TVal (LN k))).
Proof.
  intros Ht Hk.
  set (val := fun data target =>
    let D := match data with Some x => x | None => wv end in
    let yt := pred_func L (c_proba c) m (map (features keys rt) D) in
    let y0 := pred_func L (c_proba c) m (map (features keys rk) D) in
    match target with
    | None => zip_nd Rminus yt y0
    | Some cols => do u <- take1 cols yt; do v <- take1 cols y0; zip_nd Rminus u v
    end).
  exists (match k0 with
          | CEst data q target =>
              do t' <- (match target with
                        | None => Ok None
                        | Some cl => if c_proba c then match l_classes L m with
                                                       | Some cs => check_classes (Some cl) (Some cs)
                                                       | None => Err AttributeError
                                                       end
                                     else Err AssertionError
                        end);
              do v <- val data t';
              match q with QNone => Ok v | QATE => mean0 v end
          | CNji data => do v <- val data None; nji v
          end).
  intros tr ct s SF Gt Gk.
  assert (P : forall data target, sl_prepare L c data target s = (sl_after s (TVal (LN t)) (TVal (LN k)), val data target)).
  { intros data target. exact (sl_prepare_run L c e d keys m wv tr ct s data target t k rt rk SF Gt Gk Ht Hk). }
  match goal with |- _ = ?r /\ _ =>
    assert (Q : exists st, s_do L c k0 s = (st, r) /\ (st = s \/ st = sl_after s (TVal (LN t)) (TVal (LN k)))) end.
  2:{ destruct Q as (st & -> & Q). auto. }
  destruct k0 as [data q target|data]; cbn [s_do].
  - unfold sl_estimate.
    destruct target as [cl|].
    + destruct (c_proba c); [|eexists; cbn; split; auto].
      unfold mbind, mget, attr, mlift. rewrite (sf_m _ _ _ _ _ _ _ _ _ SF).
      destruct (l_classes L m) as [cs|]; [|eexists; cbn; split; auto].
      destruct (check_classes (Some cl) (Some cs)) as [t'|er]; [|eexists; cbn [bind]; split; auto]. cbn [bind].
      rewrite P. destruct (val data t') as [v|er]; [|eexists; cbn; split; auto].
      destruct q; unfold mret; eexists; cbn; split; auto.
    + unfold mbind, mret. rewrite P. cbn [bind]. destruct (val data None) as [v|er]; [|eexists; cbn; split; auto].
      destruct q; unfold mret, mlift; eexists; cbn; split; auto.
  - unfold sl_effect_nji, mbind, mlift. rewrite P. destruct (val data None) as [v|er]; eexists; cbn [bind]; split; auto.
Qed.

Lemma SFit_after L e d keys m wv tr ct s t k :
  SFit L e d keys m wv tr ct s -> SFit L e d keys m wv t k (sl_after s t k).
Proof. intros [H1 H2 H3 H4 H5 H6 H7 H8 H9]. constructor; auto. Qed.

(** two increasing lists with the same elements are equal *)
Lemma sorted_unique l : forall m, StronglySorted llt l -> StronglySorted llt m -> (forall a, In a l <-> In a m) -> l = m.
Proof.
  induction l as [|a l IH]; intros [|b m] Sl Sm H; auto.
  - exfalso. apply (H b). now left.
  - exfalso. apply (H a). now left.
  - inversion Sl as [|? ? Sl' Fl]; subst. inversion Sm as [|? ? Sm' Fm]; subst.
    rewrite Forall_forall in Fl, Fm.
    assert (a = b) as <-.
    { destruct (proj1 (H a) (or_introl eq_refl)) as [E|Ha]; auto.
      destruct (proj2 (H b) (or_introl eq_refl)) as [E|Hb]; auto.
      exfalso. exact (@llt_irrefl a (@llt_trans _ _ _ (Fl b Hb) (Fm a Ha))). }
    f_equal. apply IH; auto. intros c. split; intros Hc.
    + destruct (proj1 (H c) (or_intror Hc)) as [<-|]; auto. exfalso. exact (@llt_irrefl _ (Fl _ Hc)).
    + destruct (proj2 (H c) (or_intror Hc)) as [<-|]; auto. exfalso. exact (@llt_irrefl _ (Fm _ Hc)).
Qed.
Lemma sorted_LN n : forall s, StronglySorted llt (map LN (seq s n)).
Proof.
  induction n as [|n IH]; intros s; cbn; constructor; auto.
  apply Forall_forall. intros a Ha. apply in_map_iff in Ha as (i & <- & Hi). apply in_seq in Hi.
  unfold llt, LN. cbn. apply Z.ltb_lt. lia.
Qed.

(** C105 (repeatable), proved part: when there are several treatment columns, or one whose values are exactly
    0, 1, ..., n-1, every call of estimate or effect_nji returns after any history of such calls what it returns
    right after fit. *)
Theorem C105_repeat_partial L c a s1 wv d h k :
  c_categories c = None -> f_comb a = true -> f_wv a = Some wv -> Forall (fun r => length r = d) (f_x a) ->
  sl_fit L c a (sl_new L) = (s1, Ok tt) ->
  d <> 1 \/ (exists n, forall v, occurs (f_x a) 0 v <-> exists i, i < n /\ v = LInt (Z.of_nat i)) ->
  (forall keys, groups_of d (occurs (f_x a)) keys -> (d = 1 -> increasing keys) ->
     (exists r, asks d keys 1 (f_treat a) r /\ In r keys) /\ (exists r, asks d keys 0 (f_control a) r /\ In r keys)) ->
  snd (s_do L c k (s_after L c h s1)) = snd (s_do L c k s1).
Proof.
  intros HN Hc Hw HL H Hst Hask.
  destruct (sl_fresh L c a (sl_new L) s1 wv d eq_refl Hw Hc HL ltac:(congruence) H)
    as (e & keys & m & Hg & Hi & _ & El & Em & SF & Hmulti).
  rewrite HN in Hg. destruct (Hask keys Hg (fun E => Hi E HN)) as [(rt & At & It) (rk & Ak & Ik)].
  destruct (In_nth_error' rt keys It) as (t & Et). destruct (In_nth_error' rk keys Ik) as (q & Eq).
  pose proof (sf_enc _ _ _ _ _ _ _ _ _ SF) as HE.
  (* the code of a code is itself *)
  assert (St : forall (b : bool) i, i < length keys ->
             forall trans, (forall x, trans x e = comp_ready x e) ->
             get_tr_ctrl (TVal (LN i)) trans b e = (e, Ok (Z.of_nat i))).
  { intros b i Hlt trans HT.
    assert (HE1 : Enc e 1 (map (fun i => [LN i]) (seq 0 (length keys)))).
    { destruct (Nat.eq_dec d 1) as [Hd|Hd]; [|auto].
      destruct Hst as [|(n & Hn)]; [easy|]. destruct (Hi Hd HN) as (cats & Ek & Sk).
      assert (cats = map LN (seq 0 n)) as Ecats.
      { apply sorted_unique; auto; [apply sorted_LN|]. intros v.
        transitivity (In [v] keys).
        - rewrite Ek, in_map_iff. split; [eauto|]. intros (v' & [= ->] & ?). auto.
        - rewrite (proj2 Hg). split.
          + intros [_ Ho]. rewrite Hd in Ho. specialize (Ho 0 ltac:(lia)). cbn in Ho. apply Hn in Ho as (j & Hj & ->).
            apply in_map_iff. exists j. split; auto. apply in_seq. lia.
          + intros Hv. apply in_map_iff in Hv as (j & <- & Hj). apply in_seq in Hj. split; auto.
            intros j' Hj'. replace j' with 0 by lia. cbn. apply Hn. exists j. split; [lia|reflexivity]. }
      rewrite Ek, Ecats, !map_length, seq_length, <- (map_map LN (fun c => [c])).
      rewrite Ek, Ecats in HE. now rewrite Hd in HE. }
    refine (@asks_code e 1 _ b _ _ _ HE1 (@asks_val 1 _ _ (LN i) eq_refl) _ trans HT).
    now rewrite nth_error_map, nth_error_nth' with (d := 0), seq_nth by (rewrite ?seq_length; lia). }
  assert (Lt : t < length keys) by (apply nth_error_Some; congruence).
  assert (Lq : q < length keys) by (apply nth_error_Some; congruence).
  set (okt := fun tr => tr = f_treat a \/ tr = TVal (LN t)). set (okk := fun ct => ct = f_control a \/ ct = TVal (LN q)).
  assert (Ct : forall tr, okt tr -> forall trans, (forall x, trans x e = comp_ready x e) ->
                 get_tr_ctrl tr trans true e = (e, Ok (Z.of_nat t))).
  { intros tr [->| ->]; [exact (@asks_code e d keys true _ _ _ HE At Et)|exact (St true t Lt)]. }
  assert (Ck : forall ct, okk ct -> forall trans, (forall x, trans x e = comp_ready x e) ->
                 get_tr_ctrl ct trans false e = (e, Ok (Z.of_nat q))).
  { intros tr [->| ->]; [exact (@asks_code e d keys false _ _ _ HE Ak Eq)|exact (St false q Lq)]. }
  assert (Inv : exists tr ct, okt tr /\ okk ct /\ SFit L e d keys m wv tr ct (s_after L c h s1)).
  { assert (I0 : exists tr ct, okt tr /\ okk ct /\ SFit L e d keys m wv tr ct s1).
    { exists (f_treat a), (f_control a). repeat split; auto; [now left|now left|apply SF..]. }
    revert I0. clear H SF. revert s1. induction h as [|k' h IH]; intros s (tr & ct & Ht & Hk & SF); cbn; eauto.
    apply IH. destruct (s_do_codes L c e d keys m wv k' t q rt rk Et Eq) as (r & Hr).
    destruct (Hr tr ct s SF (Ct tr Ht) (Ck ct Hk)) as [_ [-> | ->]]; eauto.
    exists (TVal (LN t)), (TVal (LN q)). repeat split; try (now right); try (apply (SFit_after _ _ _ _ _ _ _ _ _ _ _ SF)).
    apply SF. }
  destruct Inv as (tr & ct & Ht & Hk & SF').
  destruct (s_do_codes L c e d keys m wv k t q rt rk Et Eq) as (r & Hr).
  destruct (Hr tr ct _ SF' (Ct tr Ht) (Ck ct Hk)) as [-> _].
  destruct (Hr _ _ s1 SF (Ct _ (or_introl eq_refl)) (Ck _ (or_introl eq_refl))) as [-> _]. reflexivity.
Qed.

(** C105, exact behaviour for one treatment column: the first estimate replaces treat and control by their
    positions i and j among the increasing values, and the second one looks these positions up as if they were
    treatment values: if the numbers i and j are values, it compares those groups; otherwise it raises. *)
Theorem C105_second_estimate L c a s1 wv :
  c_categories c = None -> f_comb a = true -> f_wv a = Some wv -> Forall (fun r => length r = 1) (f_x a) ->
  sl_fit L c a (sl_new L) = (s1, Ok tt) ->
  exists keys m, groups_of 1 (occurs (f_x a)) keys /\ increasing keys /\
    forall t k i j, asks 1 keys 1 (f_treat a) t -> asks 1 keys 0 (f_control a) k ->
      nth_error keys i = Some t -> nth_error keys j = Some k ->
      forall data1 data2, let D := match data2 with Some x => x | None => wv end in
      let s2 := fst (sl_estimate L c data1 QNone None s1) in
      let gi := [LInt (Z.of_nat i)] in let gj := [LInt (Z.of_nat j)] in
      (In gi keys -> In gj keys ->
         exists s3 e, sl_estimate L c data2 QNone None s2 = (s3, Ok e) /\
           entrywise Rminus (pred_func L (c_proba c) m (map (features keys gi) D))
                            (pred_func L (c_proba c) m (map (features keys gj) D)) e) /\
      (~ In gi keys \/ ~ In gj keys -> snd (sl_estimate L c data2 QNone None s2) = Err ValueError).
Proof.
  intros HN Hc Hw HL H.
  destruct (sl_fresh L c a (sl_new L) s1 wv 1 eq_refl Hw Hc HL ltac:(congruence) H)
    as (e & keys & m & Hg & Hi & _ & El & Em & SF & _).
  rewrite HN in Hg. exists keys, m. split; auto. split; auto.
  intros t k i j At Ak Et Ek data1 data2 D s2 gi gj.
  pose proof (sf_enc _ _ _ _ _ _ _ _ _ SF) as HE.
  assert (Es2 : s2 = sl_after s1 (TVal (LN i)) (TVal (LN j))).
  { unfold s2, sl_estimate, mbind, mret.
    rewrite (sl_prepare_run L c e 1 keys m wv _ _ s1 data1 None i j t k SF
               (@asks_code e 1 keys true _ _ _ HE At Et) (@asks_code e 1 keys false _ _ _ HE Ak Ek) Et Ek).
    destruct (zip_nd _ _ _); reflexivity. }
  rewrite Es2. pose proof (SFit_after _ _ _ _ _ _ _ _ _ (TVal (LN i)) (TVal (LN j)) SF) as SF2.
  set (s2' := sl_after s1 (TVal (LN i)) (TVal (LN j))) in *. clearbody s2'. clear Es2 s2.
  split.
  - intros Ii Ij. destruct (In_nth_error' _ _ Ii) as (i' & Ei). destruct (In_nth_error' _ _ Ij) as (j' & Ej).
    destruct (zip_nd_ok Rminus (pred_func L (c_proba c) m (map (features keys gi) D))
                               (pred_func L (c_proba c) m (map (features keys gj) D))) as (v & Ev & Hv).
    { apply pred_func_shape. now rewrite !map_length. }
    eexists _, v. split; eauto.
    unfold sl_estimate, mbind, mret.
    rewrite (sl_prepare_run L c e 1 keys m wv _ _ s2' data2 None i' j' gi gj SF2
               (@asks_code e 1 keys true _ _ _ HE (@asks_val 1 keys 1 (LN i) eq_refl) Ei)
               (@asks_code e 1 keys false _ _ _ HE (@asks_val 1 keys 0 (LN j) eq_refl) Ej) Ei Ej).
    fold D. rewrite Ev. reflexivity.
  - intros Hn.
    assert (HT : forall x : list (list label), x <> [] -> sl_comp true x None e = comp_ready x e)
      by (intros; apply sl_comp_ready).
    destruct SF2 as [_ H1 H2 H3 H4 H5 H6 H7 H8].
    unfold sl_estimate, sl_prepare, mbind, mret, mget. rewrite H1. cbn [negb].
    assert (ED : (match data2 with Some d0 => mret d0 | None => attr (s_wv s2') end) s2' = (s2', Ok D)).
    { unfold D, mret, attr, mlift. rewrite H4. now destruct data2. }
    unfold mret in ED. rewrite ED, H5. unfold sl_prepare_combined, mbind, mget, attr, mlift. rewrite H7, H1.
    destruct (mem_spec gi keys) as [Ii|Ni].
    + destruct Hn as [Hn|Nj]; [easy|]. destruct (In_nth_error' _ _ Ii) as (i' & Ei).
      pose proof (@get_tr_ctrl_ok e 1 keys true (fun x => sl_comp true x None) _ _ _ HE HT (@asks_val 1 keys 1 (LN i) eq_refl) Ei) as G1.
      rewrite (@sl_enc_run L _ _ s2' e (Ok (Z.of_nat i'))) by (now rewrite H2).
      unfold mset. cbn [s_control s_fitted s_enc s_xd s_treat s_wv s_yd s_comb s_model sl_set_treat]. rewrite H8.
      unfold sl_enc. cbn [s_control s_fitted s_enc s_xd s_treat s_wv s_yd s_comb s_model sl_set_treat].
      rewrite (@get_tr_ctrl_unknown e 1 keys false (fun x => sl_comp true x None) _ _ HE HT (@asks_val 1 keys 0 (LN j) eq_refl) eq_refl Nj) by easy.
      reflexivity.
    + pose proof (@get_tr_ctrl_unknown e 1 keys true (fun x => sl_comp true x None) _ _ HE HT (@asks_val 1 keys 1 (LN i) eq_refl) eq_refl Ni ltac:(easy)) as G1.
      rewrite (@sl_enc_run L _ _ s2' e (Err ValueError)) by (now rewrite H2). reflexivity.
Qed.

(** a learner whose prediction is the weighted sum of the features, weights 0, 1, 2, ... *)
Fixpoint wsum (j : nat) (r : row) : R := match r with [] => 0%R | x :: t => (x * INR j + wsum (Datatypes.S j) t)%R end.
Definition toy : learner :=
  @mkLearner unit (fun _ _ => Ok tt) (fun _ r => [wsum 0 r]) (fun _ => None) (fun _ => None) (fun _ _ => []).
Definition plain : config := mkConfig None false false.

(** C105 is false in general: treatment values 0, 2, 3 with treat=3 and control=0.  The first estimate compares 3
    with 0, the second one 2 with 0, the third one raises. *)
Definition ex105 : fitargs :=
  mkFitArgs [[LInt 0]; [LInt 2]; [LInt 3]] (Some [[0%R]; [0%R]; [0%R]]) [[0%R]; [0%R]; [0%R]]
            (TVal (LInt 3)) (TVal (LInt 0)) true.
Theorem C105_repeat_refuted :
  exists s1 s2 s3 e1 e2,
    sl_fit toy plain ex105 (sl_new toy) = (s1, Ok tt) /\
    sl_estimate toy plain None QNone None s1 = (s2, Ok e1) /\
    sl_estimate toy plain None QNone None s2 = (s3, Ok e2) /\
    nd_at e1 [0] <> nd_at e2 [0] /\
    snd (sl_estimate toy plain None QNone None s3) = Err ValueError.
Proof.
  eexists _, _, _, _, _. repeat split.
  cbn. lra.
Qed.

(** ... and with two string values and no treat or control the second estimate raises *)
Definition ex105b : fitargs :=
  mkFitArgs [[LStr "no"]; [LStr "yes"]] (Some [[0%R]; [0%R]]) [[0%R]; [0%R]] TNone TNone true.
Theorem C105_repeat_strings_refuted :
  exists s1 s2 e,
    sl_fit toy plain ex105b (sl_new toy) = (s1, Ok tt) /\
    sl_estimate toy plain None QNone None s1 = (s2, Ok e) /\
    snd (sl_estimate toy plain None QNone None s2) = Err ValueError.
Proof. eexists _, _, _. repeat split. Qed.

(** the hypotheses of C104 and C105_repeat_partial are met: one column with values 0, 1, 2; two columns of strings *)
Definition ex104 : fitargs :=
  mkFitArgs [[LInt 2]; [LInt 0]; [LInt 1]] (Some [[5%R]; [6%R]; [7%R]]) [[1%R]; [0%R]; [2%R]] (TVal (LInt 2)) TNone true.
Definition ex104b : fitargs :=
  mkFitArgs [[LStr "run"; LStr "work"]; [LStr "run"; LStr "study"]; [LStr "sleep"; LStr "work"]]
            (Some [[5%R]; [6%R]; [7%R]]) [[1%R]; [0%R]; [2%R]] (TList [LStr "sleep"; LStr "study"]) TNone true.
Example C104_case :
  exists s1 s2 e, sl_fit toy plain ex104 (sl_new toy) = (s1, Ok tt) /\
    sl_estimate toy plain (Some [[1%R]]) QNone None s1 = (s2, Ok e) /\ nd_shape e = [1] /\ nd_at e [0] = 2%R.
Proof. eexists _, _, _. repeat split. cbn. lra. Qed.
Example C104_case_two_columns :
  exists s1 s2 e, sl_fit toy plain ex104b (sl_new toy) = (s1, Ok tt) /\
    sl_estimate toy plain (Some [[1%R]]) QNone None s1 = (s2, Ok e) /\ nd_shape e = [1].
Proof. eexists _, _, _. repeat split. Qed.

Print Assumptions C104_first_estimate.
Print Assumptions C105_repeat_partial.
Print Assumptions C105_second_estimate.
Print Assumptions C105_repeat_refuted.
Print Assumptions C105_repeat_strings_refuted.
