(** C143-C149: further properties of ApproxBound and what fails. *)
From Coq Require Import ZArith Reals Lra Sorting.Sorted.
From Verif Require Import Base ApiModel EstUtilsModel EstUtilsProps MetaModel MetaSpec MetaProofs MetaProps
  CrossFitModel CrossFitProofs DrModel DrProofs DrSpec DrProps DrRobust BoundModel BoundProofs BoundProps.
Local Notation length := List.length.
Local Notation concat := List.concat.

Ltac brun := cbv - [Rplus Rminus Rmult Rinv Rdiv Ropp INR IZR Rlt Rmax Rmin]; reflexivity.

(** a model that always predicts f *)
Definition fixed (f : row -> R) (proba : row -> list R) : learner :=
  @mkLearner unit (fun _ _ => Ok tt) (fun _ x => [f x]) (fun _ => None) (fun _ => Some [LInt 0; LInt 1]) (fun _ x => proba x).
Definition unused : learner := fixed (fun _ => 0%R) (fun _ => []).

(* ------------------------------------------------------------------------------------------------ *)
(** ** C148: an estimate does not change the object *)

Lemma ab_enc_keeps Lx Ly A (m : M encs A) (s : ab Lx Ly) : (exists r, m (b_enc s) = (b_enc s, r)) -> exists r, ab_enc m s = (s, r).
Proof. intros [r H]. exists r. now apply ab_enc_pure. Qed.

Lemma mbind_keeps {St A B} (m : M St A) (f : A -> M St B) s :
  (exists r, m s = (s, r)) -> (forall v, exists r, f v s = (s, r)) -> exists r, mbind m f s = (s, r).
Proof. intros [[v|e] E] H; unfold mbind; rewrite E; eauto. Qed.

Theorem C148_AB_estimate_pure Lx Ly data treat control yu yl k (s : ab Lx Ly) :
  fst (ab_estimate Lx Ly data treat control yu yl k s) = s /\
  forall treat' control' yu' yl' data' k',
    let s' := fst (ab_estimate Lx Ly data treat control yu yl k s) in
    snd (ab_estimate Lx Ly data' treat' control' yu' yl' k' s') = snd (ab_estimate Lx Ly data' treat' control' yu' yl' k' s).
Proof.
  assert (P : exists r, ab_estimate Lx Ly data treat control yu yl k s = (s, r)).
  { unfold ab_estimate, mbind at 1, mget. destruct (b_isf s) eqn:Hi; cbn [negb]; [|unfold mlift; eauto].
    assert (C : forall v, exists r, sl_comp true v None (b_enc s) = (b_enc s, r)).
    { intros v. rewrite sl_comp_ready. apply comp_ready_pure. }
    apply mbind_keeps.
    - unfold ab_prepare, mbind at 1, mget. rewrite Hi. apply mbind_keeps; [unfold attr, mlift; eauto|]. intros p0. cbn zeta.
      apply mbind_keeps; [apply ab_enc_keeps, get_tr_ctrl_pure, C|]. intros t.
      apply mbind_keeps; [apply ab_enc_keeps, get_tr_ctrl_pure, C|]. intros c.
      apply mbind_keeps; [|intros w; unfold mlift; eauto].
      destruct (b_named s), data as [dd|]; cbn [negb]; unfold mret; eauto.
      + apply mbind_keeps; [unfold mlift; eauto|]. intros v. apply mbind_keeps; [unfold fitted, mlift; eauto|]. intros m. eauto.
      + apply mbind_keeps; [apply ab_enc_keeps, C|]. intros z. eauto.
    - intros b. destruct k; unfold mret, mlift; eauto. }
  destruct P as [r E]. rewrite E. auto.
Qed.

(** an estimate before fit raises *)
Theorem C148_AB_not_fitted Lx Ly xp data treat control yu yl k :
  snd (ab_estimate Lx Ly data treat control yu yl k (ab_new Lx Ly xp)) = Err AssertionError.
Proof. reflexivity. Qed.

(* ------------------------------------------------------------------------------------------------ *)
(** ** C143: "will always contain 0" *)

(** C143 as documented is false: with bounds of the outcome that do not enclose the predictions, 0 is outside.  Here two
    units, outcomes 4 (treated) and 0 (untreated), the model predicts exactly these, y_upper = 1 and y_lower = 0 are given. *)
Definition ex143 : abdata := mkAbData [[LInt 1]; [LInt 0]] None [[4%R]; [0%R]].
Definition m143 : learner := fixed (fun x => (4 * nth 1 x 0)%R) (fun _ => []).
Theorem C143_AB_zero_refuted :
  exists s1 lo up, ab_fit unused m143 None false ex143 (ab_new unused m143 None) = (s1, Ok tt) /\
    snd (ab_estimate unused m143 None TNone TNone (Some 1%R) (Some 0%R) NoAssump s1) = Ok (Interval [lo] [up]) /\
    (0 < lo)%R /\ (lo < up)%R.
Proof.
  eexists _, _, _. split; [brun|]. split; [brun|]. cbn [INR]. split; lra.
Qed.

(* ------------------------------------------------------------------------------------------------ *)
(** ** C144: assump='optimal' *)

(** it returns two pairs of vectors, never a pair of bounds *)
Theorem C144_AB_optimal_shape_refuted Lx Ly data treat control yu yl (s : ab Lx Ly) e :
  snd (ab_estimate Lx Ly data treat control yu yl Optimal s) = Ok e -> forall lo up, e <> Interval lo up.
Proof.
  unfold ab_estimate, mbind at 1, mget. destruct (b_isf s); cbn [negb]; [|discriminate].
  unfold mbind. destruct (ab_prepare Lx Ly data treat control yu yl s) as [s' [b|er]]; cbn [snd]; [|discriminate].
  unfold mret. cbn [snd]. intros [= <-] lo up. discriminate.
Qed.

(** ... and neither pair bounds the effect.  Two units with outcome -10, the first treated; y_upper = -10, y_lower = -20.
    There are potential outcomes that agree with the data, stay in [-20, -10], and where each unit has the better of its two
    treatments, but the average effect is below all four numbers. *)
Definition ex144 : abdata := mkAbData [[LInt 1]; [LInt 0]] None [[(-10)%R]; [(-10)%R]].
Definition m144 : learner := fixed (fun _ => (-10)%R) (fun _ => []).
Definition y144 : nat -> list label -> R := fun r g => if (r =? 1) && eqb g [LInt 1] then (-20)%R else (-10)%R.
Theorem C144_AB_optimal_refuted :
  let x := q_x ex144 in let y := q_y ex144 in
  exists s1 u1 l1 u2 l2, ab_fit unused m144 None false ex144 (ab_new unused m144 None) = (s1, Ok tt) /\
    snd (ab_estimate unused m144 None TNone TNone (Some (-10)%R) (Some (-20)%R) Optimal s1) = Ok (Intervals ([u1], [l1]) ([u2], [l2])) /\
    consistent x y y144 /\ within 2 (-20) (-10) y144 [LInt 1] /\ within 2 (-20) (-10) y144 [LInt 0] /\
    (forall r g, r < 2 -> (y144 r g <= y144 r (nth r x []))%R) /\
    (forall b, In b [u1; l1; u2; l2] -> ate 2 y144 [LInt 1] [LInt 0] < b)%R.
Proof.
  cbn zeta. eexists _, _, _, _, _. split; [brun|]. split; [brun|].
  assert (two : forall r, r < 2 -> r = 0 \/ r = 1) by lia.
  split; [|split; [|split; [|split]]].
  - intros r Hr. destruct (two r Hr) as [->| ->]; reflexivity.
  - intros r Hr. destruct (two r Hr) as [->| ->]; unfold y144; cbn; lra.
  - intros r Hr. destruct (two r Hr) as [->| ->]; unfold y144; cbn; lra.
  - intros r g Hr. destruct (two r Hr) as [->| ->]; unfold y144; cbn; destruct (list_eqb g [LInt 1]); lra.
  - intros b Hb. cbn [In] in Hb. unfold ate, rsum, y144. cbn [INR] in Hb |- *. cbn - [INR Rdiv Rlt Rminus]. cbn [INR].
    destruct Hb as [<-|[<-|[<-|[<-|[]]]]]; lra.
Qed.

(* ------------------------------------------------------------------------------------------------ *)
(** ** C145: fitting again *)

(** C145 is false: the treatment probabilities of the first fit are kept.  After a second fit on data with equal groups, the
    interval is not the one a new object fitted on these data gives. *)
Definition ex145a : abdata := mkAbData [[LInt 0]; [LInt 0]; [LInt 0]; [LInt 1]] None [[0%R]; [0%R]; [0%R]; [0%R]].
Definition ex145b : abdata := mkAbData [[LInt 0]; [LInt 1]] None [[0%R]; [0%R]].
Theorem C145_AB_refit_refuted :
  exists s1 s2 s3 lo up lo' up',
    ab_fit unused unused None false ex145a (ab_new unused unused None) = (s1, Ok tt) /\
    ab_fit unused unused None false ex145b s1 = (s2, Ok tt) /\
    ab_fit unused unused None false ex145b (ab_new unused unused None) = (s3, Ok tt) /\
    let call := fun s => snd (ab_estimate unused unused None TNone TNone (Some 1%R) (Some 0%R) NoAssump s) in
    call s2 = Ok (Interval [lo] [up]) /\ call s3 = Ok (Interval [lo'] [up']) /\ (lo' < lo)%R /\ (up' < up)%R.
Proof.
  eexists _, _, _, _, _, _, _. split; [brun|]. split; [brun|]. split; [brun|]. cbn zeta. split; [brun|]. split; [brun|].
  cbn [INR]. split; lra.
Qed.

(** in general: whatever the new data, the probabilities of an object that has some are not computed again *)
Theorem C145_AB_refit_probabilities Lx Ly categories disc a (s s1 : ab Lx Ly) p :
  b_prob s = Some p -> ab_fit Lx Ly categories disc a s = (s1, Ok tt) -> b_prob s1 = Some [concat p].
Proof.
  intros Hp H. unfold ab_fit in H.
  apply mbind_inv in H as (s0 & [] & H0 & H). unfold mset in H0. injection H0 as <-.
  apply mbind_inv in H as (s0 & s' & H0 & H). unfold mget in H0. injection H0 as <- <-.
  apply mbind_inv in H as (s2 & z & H0 & H).
  assert (P2 : b_prob s2 = Some p).
  { unfold ab_enc in H0. destruct (sl_comp _ _ _ _) as [e r]. injection H0 as <- _. exact Hp. }
  cbn zeta in H. apply mbind_inv in H as (s3 & [] & H3 & H). unfold mset in H3. injection H3 as <-.
  apply mbind_inv in H as (s3 & s' & H3 & H). unfold mget in H3. injection H3 as <- <-.
  unfold ab_labels at 1 in H. cbn [b_prob] in H. rewrite P2 in H.
  apply mbind_inv in H as (s4 & [] & H4 & H). unfold mset in H4. injection H4 as <-.
  apply mbind_inv in H as (s5 & [] & H5 & H). unfold mset in H5. injection H5 as <-.
  apply mbind_inv in H as (s6 & X & H6 & H). unfold mlift in H6. injection H6 as <- _.
  apply mbind_inv in H as (s7 & m & H7 & H). unfold mlift in H7. injection H7 as <- _.
  unfold mset in H. injection H as <-. reflexivity.
Qed.

(* ------------------------------------------------------------------------------------------------ *)
(** ** C146: estimates for new data *)

(** C146 is false with covariates: the treatment values of the new data are compared with group numbers.  If they are
    strings no estimate succeeds. *)
Lemma group_rows_none mask y l : group_rows mask y = Ok l -> (forall b, In b mask -> b = false) -> l = [].
Proof.
  unfold group_rows, bool_index. destruct (length mask =? length y); [|discriminate]. cbn [bind]. intros [= <-] H.
  assert (E : bool_select mask y = []).
  { revert y. induction mask as [|b mask IH]; intros [|c y]; cbn; auto. rewrite (H b (or_introl eq_refl)). apply IH. intros b' Hb. apply H. now right. }
  now rewrite E.
Qed.
Theorem C146_AB_new_data_refuted Lx Ly categories disc a s0 s1 v d treat control yu yl k :
  q_v a = Some v -> ab_fit Lx Ly categories disc a s0 = (s1, Ok tt) ->
  (forall l, In l (concat (q_x d)) -> is_str l = true) ->
  forall e, snd (ab_estimate Lx Ly (Some d) treat control yu yl k s1) <> Ok e.
Proof.
  intros Hv H Hs e E.
  assert (Hn : b_named s1 = true).
  { unfold ab_fit in H.
    apply mbind_inv in H as (s & [] & H0 & H). unfold mset in H0. injection H0 as <-.
    apply mbind_inv in H as (s & s' & H0 & H). unfold mget in H0. injection H0 as <- <-.
    apply mbind_inv in H as (s2 & z & H0 & H).
    assert (P2 : b_named s2 = true).
    { unfold ab_enc in H0. destruct (sl_comp _ _ _ _) as [en r]. injection H0 as <- _. cbn. now rewrite Hv. }
    cbn zeta in H. apply mbind_inv in H as (s3 & [] & H3 & H). unfold mset in H3. injection H3 as <-.
    apply mbind_inv in H as (s3 & s' & H3 & H). unfold mget in H3. injection H3 as <- <-.
    apply mbind_inv in H as (s4 & [] & H4 & H).
    assert (P4 : b_named s4 = true).
    { destruct (b_prob _); [unfold mset in H4; now injection H4 as <-|]. destruct (q_v a); [|unfold mset in H4; now injection H4 as <-].
      apply mbind_inv in H4 as (s5 & m & H5 & H4). unfold mlift in H5. injection H5 as <- _.
      apply mbind_inv in H4 as (s5 & [] & H5 & H4). unfold mset in H5, H4. injection H5 as <-. now injection H4 as <-. }
    apply mbind_inv in H as (s5 & [] & H5 & H). unfold mset in H5. injection H5 as <-.
    apply mbind_inv in H as (s6 & X & H6 & H). unfold mlift in H6. injection H6 as <- _.
    apply mbind_inv in H as (s7 & m & H7 & H). unfold mlift in H7. injection H7 as <- _.
    unfold mset in H. injection H as <-. exact P4. }
  unfold ab_estimate, mbind at 1, mget in E. destruct (b_isf s1); cbn [negb] in E; [|discriminate E].
  destruct (mbind (ab_prepare Lx Ly (Some d) treat control yu yl) _ s1) as [s2 r] eqn:EP. cbn [snd] in E. subst r.
  apply mbind_inv in EP as (s3 & b & EP & _). unfold ab_prepare in EP.
  apply mbind_inv in EP as (s4 & s' & H0 & EP). unfold mget in H0. injection H0 as <- <-.
  apply mbind_inv in EP as (s4 & p0 & H0 & EP). unfold attr, mlift in H0. injection H0 as <- _. cbn zeta in EP.
  apply mbind_inv in EP as (s5 & t & _ & EP). apply mbind_inv in EP as (s6 & c & _ & EP).
  rewrite Hn in EP. cbn [negb] in EP.
  apply mbind_inv in EP as (s7 & w & H1 & EP).
  apply mbind_inv in H1 as (s8 & v' & H2 & H1). apply mbind_inv in H1 as (s9 & m & H3 & H1). unfold mret in H1. injection H1 as _ <-.
  unfold mlift in EP. injection EP as _ EP. unfold ab_bounds in EP. cbn [k_n k_v k_y k_p k_tr k_ct] in EP.
  destruct (negb _); [discriminate EP|].
  destruct (group_rows (map (label_is t) (concat (q_x d))) (q_y d)) as [l|] eqn:EG; [|discriminate EP].
  assert (l = []) as ->.
  { eapply group_rows_none; [exact EG|]. intros f Hf. apply in_map_iff in Hf as (a0 & <- & Ha). specialize (Hs a0 Ha).
    destruct a0; [discriminate Hs|reflexivity]. }
  cbn [bind vmax] in EP. destruct (group_rows (map (label_is c) (concat (q_x d))) (q_y d)); discriminate EP.
Qed.

(* ------------------------------------------------------------------------------------------------ *)
(** ** C147: is_discrete_covariate *)

(** C147 is false: with is_discrete_covariate a new object without x_prob cannot be fitted *)
Theorem C147_AB_discrete_covariate_refuted Lx Ly categories a v :
  q_v a = Some v -> snd (ab_fit Lx Ly categories true a (ab_new Lx Ly None)) <> Ok tt.
Proof.
  intros Hv E. destruct (ab_fit Lx Ly categories true a (ab_new Lx Ly None)) as [s1 r] eqn:H. cbn in E. subst r.
  unfold ab_fit in H.
  apply mbind_inv in H as (s & [] & H0 & H). unfold mset in H0. injection H0 as <-.
  apply mbind_inv in H as (s & s' & H0 & H). unfold mget in H0. injection H0 as <- <-.
  apply mbind_inv in H as (s2 & z & H0 & H).
  assert (P2 : b_prob s2 = None). { unfold ab_enc in H0. destruct (sl_comp _ _ _ _) as [en r]. injection H0 as <- _. reflexivity. }
  cbn zeta in H. apply mbind_inv in H as (s3 & [] & H3 & H). unfold mset in H3. injection H3 as <-.
  apply mbind_inv in H as (s3 & s' & H3 & H). unfold mget in H3. injection H3 as <- <-.
  unfold ab_labels at 1 2 in H. cbn [b_prob] in H. rewrite P2, Hv in H.
  apply mbind_inv in H as (s4 & [] & H4 & H). apply mbind_inv in H as (s5 & [] & H5 & H).
  apply mbind_inv in H as (s6 & X & H6 & H). discriminate H6.
Qed.

(* ------------------------------------------------------------------------------------------------ *)
(** ** C149: groups without rows *)

Lemma shares_short labels k q : q < k -> count_label labels q = 0 -> length (shares labels k) < k.
Proof.
  intros Hq H0. unfold shares. rewrite map_length.
  assert (G : forall l : list nat, In q l -> length (filter (fun c => negb (c =? 0)) (map (count_label labels) l)) < length l).
  { induction l as [|i l IH]; [easy|]. intros [->|Hi]; cbn.
    - rewrite H0. cbn. clear. induction l as [|j l IH]; cbn; [lia|]. destruct (negb _); cbn; lia.
    - specialize (IH Hi). destruct (negb _); cbn; lia. }
  specialize (G (seq 0 k)). rewrite seq_length in G. apply G. apply in_seq. lia.
Qed.

(** C149 is false: if some group has no row, no estimate for the last group succeeds *)
Theorem C149_AB_missing_group_refuted Lx Ly categories disc a s1 d :
  Forall (fun r => length r = d) (q_x a) -> (forall cs, categories = Some cs -> Forall (@NoDup label) cs) -> q_v a = None ->
  ab_fit Lx Ly categories disc a (ab_new Lx Ly None) = (s1, Ok tt) ->
  exists keys, groups_of d (dr_values categories (q_x a)) keys /\ (d = 1 -> categories = None -> increasing keys) /\
    forall g treat control rt yu yl k e, In g keys -> ~ In g (q_x a) ->
      nth_error keys (length keys - 1) = Some rt -> asks d keys 1 treat rt ->
      snd (ab_estimate Lx Ly None treat control yu yl k s1) <> Ok e.
Proof.
  intros HL HN Hv H. destruct (ab_fit_spec _ _ _ _ _ _ _ _ HL HN H) as (keys & my & e & p & mx & Hg & Hi & Hall & Hx & HE & _ & Hm & -> & Hp).
  rewrite Hv in *. subst p. exists keys. split; [exact Hg|]. split; [exact Hi|]. intros g treat control rt yu yl k e0 Ig Ng Nt At E.
  destruct (Enc_keys HE) as (ND & _ & _).
  assert (It : In rt keys) by (eapply nth_error_In; eauto).
  assert (Gt : group_no keys rt = length keys - 1) by now apply group_no_nth.
  set (s := mkAB Lx Ly e true _ _ _ _ _ _ _ _) in E.
  unfold ab_estimate, mbind at 1, mget in E. cbn [b_isf s negb] in E.
  destruct (mbind (ab_prepare Lx Ly None treat control yu yl) _ s) as [s2 r] eqn:EP. cbn [snd] in E. subst r.
  apply mbind_inv in EP as (s3 & b & EP & _). unfold ab_prepare in EP.
  apply mbind_inv in EP as (s4 & s' & H0 & EP). unfold mget in H0. injection H0 as <- <-.
  apply mbind_inv in EP as (s4 & p0 & H0 & EP). unfold attr, mlift in H0. injection H0 as <- <-. cbn zeta in EP.
  rewrite (mbind_ok _ _ _ (ab_treat_ok Lx Ly s d keys true _ _ HE eq_refl At It)) in EP.
  apply mbind_inv in EP as (s6 & c & _ & EP). cbn [s b_named negb] in EP.
  apply mbind_inv in EP as (s7 & w & H1 & EP). unfold mret in H1. injection H1 as _ <-.
  unfold mlift in EP. injection EP as _ EP. unfold ab_bounds in EP. cbn [k_n k_v k_y k_p k_tr k_ct] in EP.
  set (P := prob_col (Z.of_nat (group_no keys rt)) _) in EP.
  assert (EPn : P = Err IndexError).
  { unfold P, prob_col. cbn [mapX]. rewrite (proj2 (Z.ltb_ge _ _)) by lia. rewrite Nat2Z.id.
    assert (S : length (shares (zcodes keys (q_x a)) (length keys)) < length keys).
    { apply (shares_short _ _ (group_no keys g)); [now apply group_no_lt|]. rewrite (count_label_of keys _ g Hall Ig).
      destruct (filter (fun r => eqb r g) (q_x a)) as [|r l] eqn:Ef; [reflexivity|]. exfalso. apply Ng.
      assert (I : In r (filter (fun r => eqb r g) (q_x a))) by (rewrite Ef; now left).
      apply filter_In in I as [I1 I2]. apply eqb_eq in I2. now subst r. }
    rewrite (proj2 (nth_error_None _ _)) by lia. reflexivity. }
  rewrite EPn in EP. clearbody P.
  repeat match type of EP with
  | context [if ?c then _ else _] => destruct c; [discriminate EP|]
  | (do _ <- ?m; _) = _ => destruct m; cbn [bind] in EP; [|discriminate EP]
  | match ?m with Some _ => _ | None => _ end = _ => destruct m; [discriminate EP|]
  end; discriminate EP.
Qed.

(** ... and the others can be wrong: three columns of categories, "b" has no row; the interval for "c" against "a" is computed
    with the share of "d" *)
Definition ex149 : abdata := mkAbData [[LStr "a"]; [LStr "c"]; [LStr "d"]; [LStr "d"]] None [[0%R]; [0%R]; [0%R]; [0%R]].
Theorem C149_AB_missing_group_value_refuted :
  exists s1 lo up, ab_fit unused unused (Some [[LStr "a"; LStr "b"; LStr "c"; LStr "d"]]) false ex149 (ab_new unused unused None) = (s1, Ok tt) /\
    snd (ab_estimate unused unused None (TVal (LStr "c")) (TVal (LStr "a")) (Some 1%R) (Some 0%R) NoAssump s1) = Ok (Interval [lo] [up]) /\
    up = ((1 - share_of (q_x ex149) [LStr "d"]) * 1)%R /\ share_of (q_x ex149) [LStr "d"] <> share_of (q_x ex149) [LStr "c"].
Proof.
  eexists _, _, _. split; [brun|]. split; [brun|]. unfold share_of. cbn. split; lra.
Qed.

(* ------------------------------------------------------------------------------------------------ *)
(** ** C146 where it holds *)

(** without covariates: the extreme outcomes are those of the new data, propensities and predictions those of the fit *)
Theorem C146_AB_new_data_partial Lx Ly categories disc a s1 d :
  Forall (fun r => length r = d) (q_x a) -> (forall cs, categories = Some cs -> Forall (@NoDup label) cs) -> q_v a = None ->
  ab_fit Lx Ly categories disc a (ab_new Lx Ly None) = (s1, Ok tt) ->
  exists keys my,
    groups_of d (dr_values categories (q_x a)) keys /\ (d = 1 -> categories = None -> increasing keys) /\
    l_fit Ly (map (indicator keys) (q_x a)) (squeeze (nd_rows (q_y a))) = Ok my /\
    forall b treat control rt rk yu yl, (forall g, In g keys -> In g (q_x a)) -> l_dim Ly my = None ->
      Forall (fun r => In r keys) (q_x b) -> Forall (fun r => length r = 1) (q_y b) -> length (q_y b) = length (q_x b) ->
      asks d keys 1 treat rt -> In rt (q_x b) -> asks d keys 0 control rk -> In rk (q_x b) ->
      let p g := share_of (q_x a) g in let m g := nth 0 (l_pred Ly my (indicator keys g)) 0%R in
      exists U L, upper_bound (q_x b) (q_y b) rt rk yu U /\ lower_bound (q_x b) (q_y b) rt rk yl L /\
        snd (ab_estimate Lx Ly (Some b) treat control yu yl NoAssump s1) = Ok (Interval
          [(p rt * m rt + (1 - p rt) * L - (p rk * m rk + (1 - p rk) * U))%R]
          [(p rt * m rt + (1 - p rt) * U - (p rk * m rk + (1 - p rk) * L))%R]).
Proof.
  intros HL HN Hv H. destruct (ab_fit_spec _ _ _ _ _ _ _ _ HL HN H) as (keys & my & e & p & mx & Hg & Hi & Hall & Hx & HE & _ & Hm & -> & Hp).
  rewrite Hv in *. subst p.
  assert (EI : group_inputs keys (q_x a) None = map (indicator keys) (q_x a)).
  { unfold group_inputs. rewrite (map_eq_nth (indicator keys) _ []). apply map_ext. intros r. unfold group_input. cbn [cov]. apply app_nil_r. }
  rewrite EI in Hm. exists keys, my. do 3 (split; [assumption|]). intros b treat control rt rk yu yl Hocc Hd HB Hy1 Hy At It Ak Ik p m.
  destruct (Enc_keys HE) as (ND & _ & _).
  assert (HBk : forall r, In r (q_x b) -> In r keys) by (now apply Forall_forall).
  rewrite (shares_of keys _ ND Hall Hocc).
  destruct (ab_bounds_ok Ly keys my (q_x b) (q_y b) None [map (share_of (q_x a)) keys] rt rk
     (map (fun z => (z =? Z.of_nat (group_no keys rt))%Z) (zcodes keys (q_x b)))
     (map (fun z => (z =? Z.of_nat (group_no keys rk))%Z) (zcodes keys (q_x b))) yu yl) as (U & L & HU & HLo & E); auto; try discriminate.
  { unfold zcodes. now rewrite !map_length. }
  { apply mask_of; auto. }
  { unfold zcodes. now rewrite !map_length. }
  { apply mask_of; auto. }
  { repeat constructor. now rewrite map_length. }
  exists U, L. split; [exact HU|]. split; [exact HLo|].
  set (s := mkAB Lx Ly e true _ _ _ _ _ _ _ _).
  unfold ab_estimate, mbind at 1, mget. cbn [s b_isf negb].
  assert (EP : ab_prepare Lx Ly (Some b) treat control yu yl s = (s, ab_bounds Ly (length keys) (Some my) (Z.of_nat (group_no keys rt)) (Z.of_nat (group_no keys rk)) yu yl
     (mkWork 1 None (q_y b) [map (share_of (q_x a)) keys] (map (fun z => (z =? Z.of_nat (group_no keys rt))%Z) (zcodes keys (q_x b)))
     (map (fun z => (z =? Z.of_nat (group_no keys rk))%Z) (zcodes keys (q_x b)))))).
  { unfold ab_prepare, mbind at 1, mget, mbind at 1, attr. cbn [s b_prob]. unfold mlift at 1. cbn zeta.
    rewrite (mbind_ok _ _ _ (ab_treat_ok _ _ s d keys true _ _ HE eq_refl At (HBk _ It))).
    rewrite (mbind_ok _ _ _ (ab_treat_ok _ _ s d keys false _ _ HE eq_refl Ak (HBk _ Ik))).
    change (b_named s) with false. cbn [negb].
    assert (EC : ab_enc (sl_comp (b_isf s) (q_x b) None) s = (s, Ok (map (ind keys) (q_x b)))).
    { apply ab_enc_pure. cbn [s b_isf]. rewrite sl_comp_ready. apply (comp_ready_ok HE); [|exact HB]. intros E0. rewrite E0 in It. destruct It. }
    unfold mbind. rewrite EC. cbn zeta. rewrite (zcodes_of keys _ ND HBk). reflexivity. }
  fold s. rewrite (mbind_ok _ _ _ (eq_trans EP (f_equal _ E))). unfold mret. cbn [snd r_lower r_upper vectors]. cbn [answers seq map].
  assert (V : forall g, In g keys -> vat [nth (group_no keys g) (map (share_of (q_x a)) keys) 0%R] 0 = p g).
  { intros g Ig. rewrite vat_one. destruct (group_no_lt _ _ Ig) as [Lg Ng]. rewrite (nth_map_in _ keys []) by assumption. unfold p. f_equal. now apply nth_error_nth. }
  rewrite !V by auto. unfold outcome_of, group_input. cbn [cov]. rewrite !app_nil_r. fold (m rt) (m rk).
  f_equal. f_equal; f_equal; unfold bound_lower, bound_upper; lra.
Qed.

Lemma sorted_unique (l l' : list label) :
  StronglySorted llt l -> StronglySorted llt l' -> (forall a, In a l <-> In a l') -> l = l'.
Proof.
  revert l'. induction l as [|a l IH]; intros [|b l'] S1 S2 H.
  - reflexivity.
  - destruct (proj2 (H b)). now left.
  - destruct (proj1 (H a)). now left.
  - inversion S1 as [|? ? T1 F1]; subst. inversion S2 as [|? ? T2 F2]; subst. rewrite Forall_forall in F1, F2.
    assert (a = b) as <-.
    { destruct (proj1 (H a) (or_introl eq_refl)) as [E|I1]; [now symmetry|].
      destruct (proj2 (H b) (or_introl eq_refl)) as [E|I2]; [exact E|].
      exfalso. apply (@llt_irrefl a). eapply llt_trans; [apply F1; exact I2|apply F2; exact I1]. }
    f_equal. apply IH; auto. intros c. split; intros Hc.
    + destruct (proj1 (H c) (or_intror Hc)) as [<-|I]; [|exact I]. exfalso. exact (@llt_irrefl _ (F1 _ Hc)).
    + destruct (proj2 (H c) (or_intror Hc)) as [<-|I]; [|exact I]. exfalso. exact (@llt_irrefl _ (F2 _ Hc)).
Qed.
Lemma codes_sorted s k : StronglySorted llt (map (fun i => LInt (Z.of_nat i)) (seq s k)).
Proof.
  revert s. induction k as [|k IH]; intros s; cbn; constructor; [apply IH|]. apply Forall_forall. intros a Ha.
  apply in_map_iff in Ha as (i & <- & Hi). apply in_seq in Hi. unfold llt. cbn. apply Z.ltb_lt. lia.
Qed.

(** with covariates, when the treatment is one column with values 0, 1, ..., k-1 all of which occur in the fit: everything is
    computed from the new data *)
Theorem C146_AB_new_data_coded_partial Lx Ly a s1 v k :
  Forall (fun r => length r = 1) (q_x a) -> q_v a = Some v -> (forall z, occurs (q_x a) 0 z <-> exists i, i < k /\ z = LInt (Z.of_nat i)) ->
  ab_fit Lx Ly None false a (ab_new Lx Ly None) = (s1, Ok tt) ->
  exists keys mx my,
    groups_of 1 (occurs (q_x a)) keys /\ increasing keys /\ length keys = k /\
    l_fit Lx v (nd_vec (group_nos keys (q_x a))) = Ok mx /\
    l_fit Ly (group_inputs keys (q_x a) (q_v a)) (squeeze (nd_rows (q_y a))) = Ok my /\
    forall b w treat control rt rk yu yl, n_classes Lx mx = length keys -> l_dim Ly my = None -> q_v b = Some w -> length w = length (q_x b) ->
      Forall (fun r => In r keys) (q_x b) -> Forall (fun r => length r = 1) (q_y b) -> length (q_y b) = length (q_x b) ->
      asks 1 keys 1 treat rt -> In rt (q_x b) -> asks 1 keys 0 control rk -> In rk (q_x b) ->
      let p g r := row_prob Lx mx (nth r w []) (group_no keys g) in let m g r := outcome_of Ly my keys (Some w) g r in
      let rows := seq 0 (length w) in
      exists U L, upper_bound (q_x b) (q_y b) rt rk yu U /\ lower_bound (q_x b) (q_y b) rt rk yl L /\
        snd (ab_estimate Lx Ly (Some b) treat control yu yl NoAssump s1) = Ok (Interval
          (map (fun r => p rt r * m rt r + (1 - p rt r) * L - (p rk r * m rk r + (1 - p rk r) * U))%R rows)
          (map (fun r => p rt r * m rt r + (1 - p rt r) * U - (p rk r * m rk r + (1 - p rk r) * L))%R rows)).
Proof.
  intros HL Hv Hz H.
  destruct (ab_fit_spec _ _ _ _ _ _ _ _ HL (fun cs (E : None = Some cs) => match E with end) H) as (keys & my & e & p & mxo & Hg & Hi & Hall & Hx & HE & _ & Hm & -> & Hp).
  rewrite Hv in *. destruct Hp as (_ & mx & Emx & -> & ->). specialize (Hi eq_refl eq_refl).
  destruct (Enc_keys HE) as (ND & _ & _).
  assert (EK : keys = map (fun i => [LInt (Z.of_nat i)]) (seq 0 k)).
  { destruct Hi as (cats & -> & SC). rewrite (sorted_unique cats (map (fun i => LInt (Z.of_nat i)) (seq 0 k)) SC (codes_sorted 0 k)); [now rewrite map_map|].
    destruct Hg as [_ Hg]. cbn [dr_values] in Hg. intros c. specialize (Hg [c]). split.
    - intros Hc. destruct (proj1 Hg (in_map (fun c => [c]) _ _ Hc)) as [_ Q]. specialize (Q 0 ltac:(lia)). cbn [nth] in Q. apply Hz in Q as (i & Hi' & ->).
      apply in_map_iff. exists i. split; [reflexivity|]. apply in_seq. lia.
    - intros Hc. apply in_map_iff in Hc as (i & <- & Hi'). apply in_seq in Hi'.
      assert (Q : In [LInt (Z.of_nat i)] (map (fun c => [c]) cats)).
      { apply Hg. split; [reflexivity|]. intros j Hj. assert (j = 0) as -> by lia. cbn [nth]. apply Hz. exists i. split; [lia|reflexivity]. }
      apply in_map_iff in Q as (c & E & Hc). congruence. }
  assert (Lk : length keys = k) by (rewrite EK; now rewrite map_length, seq_length).
  exists keys, mx, my. split; [exact Hg|]. split; [exact Hi|]. split; [exact Lk|]. split; [exact Emx|]. split; [exact Hm|].
  intros b w treat control rt rk yu yl Hc Hd Hw Lw HB Hy1 Hy At It Ak Ik p m rows.
  assert (HBk : forall r, In r (q_x b) -> In r keys) by (now apply Forall_forall).
  assert (HK : forall g, In g keys -> g = [LInt (Z.of_nat (group_no keys g))]).
  { intros g Ig. rewrite EK in Ig. apply in_map_iff in Ig as (i & <- & Hi'). apply in_seq in Hi'. f_equal. f_equal. f_equal.
    symmetry. apply group_no_nth; [assumption|]. rewrite EK. rewrite (nth_error_nth' _ []) by (rewrite map_length, seq_length; lia). f_equal.
    rewrite (nth_map_in _ (seq 0 k) 0) by (rewrite seq_length; lia). now rewrite seq_nth by lia. }
  assert (Lone : Forall (fun r => length r = 1) (q_x b)).
  { apply Forall_forall. intros r Hr. now rewrite (HK r (HBk r Hr)). }
  assert (LC : length (concat (q_x b)) = length (q_x b)).
  { clear - Lone. induction Lone as [|r l Hr Hl IH]; cbn; [reflexivity|]. rewrite app_length, Hr, IH. reflexivity. }
  assert (NC : forall r, r < length (q_x b) -> [nth r (concat (q_x b)) (LInt 0)] = nth r (q_x b) []).
  { clear - Lone. induction Lone as [|a l Ha Hl IH]; cbn; [lia|]. destruct a as [|c [|c' a]]; try discriminate Ha.
    intros [|r] Hr; [reflexivity|]. cbn. apply IH. lia. }
  assert (MK : forall g, In g keys -> forall r, r < length (q_x b) ->
     nth r (map (label_is (Z.of_nat (group_no keys g))) (concat (q_x b))) false = true <-> nth r (q_x b) [] = g).
  { intros g Ig r Hr. rewrite (nth_map_in _ _ (LInt 0)) by lia. rewrite <- (NC r Hr). split.
    - intros E. rewrite (HK g Ig). destruct (nth r (concat (q_x b)) (LInt 0)) as [z|]; [|discriminate E]. cbn in E. apply Z.eqb_eq in E. now subst z.
    - intros E. rewrite (HK g Ig) in E. injection E as E. rewrite E. cbn. apply Z.eqb_refl. }
  destruct (ab_bounds_ok Ly keys my (q_x b) (q_y b) (Some w) (proba_rows Lx mx w) rt rk
     (map (label_is (Z.of_nat (group_no keys rt))) (concat (q_x b)))
     (map (label_is (Z.of_nat (group_no keys rk))) (concat (q_x b))) yu yl) as (U & L & HU & HLo & E); auto.
  { intros v' [= <-]. exact Lw. }
  { rewrite map_length. exact LC. }
  { rewrite map_length. exact LC. }
  { apply Forall_forall. intros r Hr. unfold proba_rows in Hr. apply in_map_iff in Hr as (x0 & <- & _). now rewrite map_length, seq_length. }
  { right. unfold proba_rows. now rewrite map_length. }
  exists U, L. split; [exact HU|]. split; [exact HLo|].
  set (s := mkAB Lx Ly e true _ _ _ _ _ _ _ _).
  unfold ab_estimate, mbind at 1, mget. cbn [s b_isf negb].
  assert (EP : ab_prepare Lx Ly (Some b) treat control yu yl s = (s, ab_bounds Ly (length keys) (Some my) (Z.of_nat (group_no keys rt)) (Z.of_nat (group_no keys rk)) yu yl
     (mkWork (length (q_y b)) (Some w) (q_y b) (proba_rows Lx mx w) (map (label_is (Z.of_nat (group_no keys rt))) (concat (q_x b)))
     (map (label_is (Z.of_nat (group_no keys rk))) (concat (q_x b)))))).
  { unfold ab_prepare, mbind at 1, mget, mbind at 1, attr. cbn [s b_prob]. unfold mlift at 1. cbn zeta.
    rewrite (mbind_ok _ _ _ (ab_treat_ok _ _ s 1 keys true _ _ HE eq_refl At (HBk _ It))).
    rewrite (mbind_ok _ _ _ (ab_treat_ok _ _ s 1 keys false _ _ HE eq_refl Ak (HBk _ Ik))).
    change (b_named s) with true. cbn [negb]. rewrite Hw. reflexivity. }
  fold s. cbn [answers] in E. rewrite Hy in EP. rewrite (mbind_ok _ _ _ (eq_trans EP (f_equal _ E))). unfold mret. cbn [snd r_lower r_upper vectors].
  unfold rows. rewrite Lw.
  assert (V : forall g r, In g keys -> r < length (q_x b) -> vat (map (fun x => nth (group_no keys g) x 0%R) (proba_rows Lx mx w)) r = p g r).
  { intros g r Ig Hr. unfold p, row_prob.
    assert (N : forall i, i < length w -> nth (group_no keys g) (nth i (proba_rows Lx mx w) []) 0%R = nth (group_no keys g) (l_proba Lx mx (nth i w [])) 0%R).
    { intros i Hi'. unfold proba_rows. rewrite (nth_map_in _ w [] []) by lia. rewrite (nth_map_in _ (seq 0 (n_classes Lx mx)) 0 0%R).
      - rewrite seq_nth; [reflexivity|]. rewrite Hc. now apply group_no_lt.
      - rewrite seq_length, Hc. now apply group_no_lt. }
    destruct (Nat.eq_dec (length (proba_rows Lx mx w)) 1) as [E1|N1].
    - assert (Lp : length (proba_rows Lx mx w) = length w) by apply map_length.
      assert (r = 0) as -> by lia. specialize (N 0 ltac:(lia)). destruct (proba_rows Lx mx w) as [|u [|u' l]]; try discriminate E1. cbn [map]. rewrite vat_one. exact N.
    - rewrite vat_col by assumption. apply N. lia. }
  f_equal. f_equal; apply map_ext_in; intros r Hr; apply in_seq in Hr; rewrite !V by (auto; lia); unfold bound_lower, bound_upper; fold (m rt r) (m rk r); lra.
Qed.
