(** Properties of RLoss: C181-C188. *)
From Coq Require Import ZArith Reals Lra String.
From Verif Require Import Base ApiModel EstUtilsModel EstUtilsProps MetaModel MetaSpec MetaProofs MetaProps CrossFitModel DmlModel DmlProofs DrSpec DmlProps DmlDisc
  DrProofs DrProps CforestProofs RlossModel RlossSpec RlossProofs.
Unset Implicit Arguments.
Local Notation length := List.length.
Local Open Scope nat_scope.

(* ------------------------------------------------------------------------------------------------ *)
(** ** C181: the score on continuous treatments *)

(** the estimator was fitted with the same adjustments and covariates in the same order *)
Definition same_names (a : rlargs) (te : testest) : Prop :=
  lists (te_cov te) (names_of (ra_cov a)) /\ (ra_adj a <> NNone -> lists (te_adj te) (names_of (ra_adj a))).

Lemma cov_named Lx Ly categories cf trw trv a s s1 : rl_fit Lx Ly categories cf trw trv a s = (s1, Ok tt) -> ra_cov a <> NNone.
Proof. unfold rl_fit. destruct (ra_cov a); intros H; [discriminate H|discriminate..]. Qed.

(** C181: score(estimator) is, for each outcome, the mean over the rows of the validation set of
    (y - y_hat - sum_i tau_i (x_i - x_hat_i))^2, where x_hat, y_hat are the (cross-fitted) predictions of x_model and
    y_model from adjustments and covariates, and tau is what the estimator estimates on a frame that agrees with the
    validation set on all adjustment and covariate columns.
    Partial: the estimator must have been fitted with the same names in the same order, given as lists (see C183). *)
Theorem C181_RLoss_score_partial Lx Ly categories cf trw trv a x s o te :
  ra_x a = XCont x -> rl_fit Lx Ly categories cf trw trv a s = (o, Ok tt) -> same_names a te ->
  let n := length (ra_y a) in
  exists w v wv xhat yhat fr,
    columns (ra_data a) (ra_adj a) = Ok w /\ columns (ra_data a) (ra_cov a) = Ok (Some v) /\
    get_wv [trans trw (option_map (rows_of n) w); trans trv (Some (rows_of n v))] = Ok wv /\
    first_stage Lx cf wv x (width x) xhat /\ first_stage Ly cf wv (ra_y a) (width (ra_y a)) yhat /\
    agrees fr (ra_data a) (names_of (ra_cov a) ++ names_of (ra_adj a)) /\
    (Forall (fun p => length (snd p) = n) (ra_data a) -> Forall (fun p => length (snd p) = n) fr) /\
    forall treat control effect t,
      te_estimate te fr (if te_treat te then treat else ANone) (if te_control te then control else ANone) = Ok (effect, t) ->
      nd_shape effect = [n; width (ra_y a); width x] ->
      exists sc, rl_score o te treat control = Ok sc /\ nd_shape sc = [width (ra_y a)] /\
        forall j, j < width (ra_y a) ->
          nd_at sc [j] = r_loss n (width x) (fun r j => nth j (nth r (ra_y a) []) 0 - yhat r j)%R
                                            (fun r i => nth i (nth r x []) 0 - xhat r i)%R (fun r j i => nd_at effect [r; j; i]) j.
Proof.
  intros Ex H [T1 T2] n. pose proof (cov_named _ _ _ _ _ _ _ _ _ H) as Hn.
  destruct (rl_fit_cont _ _ _ _ _ _ _ _ _ _ Ex H) as (w & v & wv & xhat & yhat & C1 & C2 & G & F1 & F2 & _ & ->). fold n in G.
  match type of H with _ = (?o, _) => set (o1 := o) end.
  destruct (test_frame_same (ra_data a) o1 te v w) as (fr & Ef & Af); try reflexivity; try assumption.
  exists w, v, wv, xhat, yhat, fr. do 6 (split; [assumption|]).
  split; [intros HF; exact (test_frame_len n _ o1 te v w fr HF Hn C2 C1 eq_refl eq_refl Ef)|]. intros treat control effect t Et Se.
  set (x' := rl_resid n (width x) x xhat). set (y' := rl_resid n (width (ra_y a)) (ra_y a) yhat).
  destruct (score_value n (width (ra_y a)) (width x) effect x' y' Se eq_refl eq_refl) as (p & d & sc & E1 & E2 & E3 & Ss & Vs).
  exists sc. split; [|split; [exact Ss|exact Vs]].
  unfold rl_score. cbn [rl_res o1 bind rl_disc andb]. rewrite Ef. cbn [bind]. rewrite Et. cbn [bind fst snd].
  fold n x' y'. rewrite E1. cbn [bind]. rewrite E2. cbn [bind]. exact E3.
Qed.
Print Assumptions C181_RLoss_score_partial.

(* ------------------------------------------------------------------------------------------------ *)
(** ** C182: the score on discrete treatments *)

(** C182: for discrete treatments (combined_treatment) of a new RLoss the groups are the tuples of values of the validation
    set (or of categories); the score is the mean of (y - y_hat - tau (1[x = g] - p_g))^2, where p_g is the predicted
    probability of group g, and g is the group whose number in the VALIDATION set is the attribute treat of the
    estimator.  Partial: same names as in C181; and see C185 for the numbering. *)
Theorem C182_RLoss_score_disc_partial Lx Ly categories cf trw trv a x d o te :
  ra_x a = XDisc x -> Forall (fun r => length r = d) x -> (forall cs, categories = Some cs -> Forall (@NoDup label) cs) -> ra_comb a = true ->
  length x = length (ra_y a) ->
  rl_fit Lx Ly categories cf trw trv a (rl_new true) = (o, Ok tt) -> same_names a te ->
  let n := length (ra_y a) in
  exists keys w v wv ph yhat fr,
    groups_of d (dr_values categories x) keys /\ (d = 1 -> categories = None -> increasing keys) /\
    columns (ra_data a) (ra_adj a) = Ok w /\ columns (ra_data a) (ra_cov a) = Ok (Some v) /\
    get_wv [trans trw (option_map (rows_of n) w); trans trv (Some (rows_of n v))] = Ok wv /\
    first_stage_disc Lx cf wv (group_nos keys x) (length keys) ph /\ first_stage Ly cf wv (ra_y a) (width (ra_y a)) yhat /\
    agrees fr (ra_data a) (names_of (ra_cov a) ++ names_of (ra_adj a)) /\
    forall treat control effect q,
      te_estimate te fr (if te_treat te then treat else ANone) (if te_control te then control else ANone) = Ok (effect, Some (VCode (Z.of_nat q))) ->
      q < length keys -> nd_shape effect = [n; width (ra_y a)] ->
      exists sc, rl_score o te treat control = Ok sc /\ nd_shape sc = [width (ra_y a)] /\
        forall j, j < width (ra_y a) ->
          nd_at sc [j] = r_loss n 1 (fun r j => nth j (nth r (ra_y a) []) 0 - yhat r j)%R
                                    (fun r _ => (if eqb (nth r x []) (nth q keys []) then 1 else 0) - ph r q)%R
                                    (fun r j _ => nd_at effect [r; j]) j.
Proof.
  intros Ex HL HN Hcb Hlen H [T1 T2] n. pose proof (cov_named _ _ _ _ _ _ _ _ _ H) as Hn.
  destruct (rl_fit_disc _ _ _ _ _ _ _ _ _ _ Ex H) as (w & v & wv & e & z & xhat & yhat & C1 & C2 & G & Es & F1 & F2 & _ & ->). fold n in G.
  cbn [rl_new rl_isf rl_encs] in Es.
  destruct (@sl_comp_fresh _ _ _ _ _ _ HL HN Es) as (keys & cats & Ec & HE & -> & Hk & Hd1 & Hn1).
  destruct (@enc_fit_spec _ _ _ _ HL Ec) as (Hx & _ & Hlen' & Hin & Hnone & Hsome).
  destruct (Enc_keys HE) as (ND & _ & _).
  pose proof (groups_product _ _ _ _ _ HL Ec ND Hk) as Hg.
  assert (Hall : forall r, In r x -> In r keys) by (intros r Hr; apply Hk, Hin; exact Hr).
  assert (Wi : width (to_rows (map (ind keys) x)) = length keys).
  { rewrite to_rows_ind. destruct x; [easy|]. cbn. apply indicator_length. }
  rewrite Wi in *. rewrite to_rows_ind in *. apply dml_cross_disc_first in F1 as [_ F1]. rewrite (codes_of keys x ND Hall) in F1.
  match type of H with _ = (?o, _) => set (o1 := o) end.
  destruct (test_frame_same (ra_data a) o1 te v w) as (fr & Ef & Af); try reflexivity; try assumption.
  exists keys, w, v, wv, xhat, yhat, fr. split; [exact Hg|]. split.
  { intros Hd HN0. exists (nth 0 cats []). split; auto. destruct (Hnone HN0) as [HS _].
    rewrite Forall_forall in HS. apply HS. apply nth_In. lia. }
  do 6 (split; [assumption|]). intros treat control effect q Et Hq Se.
  set (x' := rl_resid n (length keys) (map (indicator keys) x) xhat). set (y' := rl_resid n (width (ra_y a)) (ra_y a) yhat).
  set (eff := mkNd [n; width (ra_y a); 1] (fun idx => nd_at effect [nth 0 idx 0; nth 1 idx 0])).
  set (xt := mkNd [n; 1] (fun idx => nd_at x' [nth 0 idx 0; q])).
  destruct (score_value n (width (ra_y a)) 1 eff xt y' eq_refl eq_refl eq_refl) as (p & dd & sc & E1 & E2 & E3 & Ss & Vs).
  exists sc. split; [|split; [exact Ss|]].
  - unfold rl_score. cbn [rl_res o1 bind rl_disc rl_comb andb rl_n rl_yd]. rewrite Ef. cbn [bind]. rewrite Et. cbn [bind fst snd].
    rewrite Hcb. unfold pick_treat. fold n x' y'. replace (nd_shape x') with [n; length keys] by reflexivity.
    rewrite (norm_index_nat _ _ Hq). cbn [bind]. unfold as_n_yd_1. rewrite Se, !Nat.eqb_refl. cbn [andb bind fst snd].
    fold eff xt. rewrite E1. cbn [bind]. rewrite E2. cbn [bind]. exact E3.
  - intros j Hj. rewrite (Vs j Hj). unfold r_loss, Sum. f_equal. f_equal. apply map_ext_in. intros r Hr. apply in_seq in Hr.
    assert (Ev : nd_at xt [r; 0] = ((if eqb (nth r x []) (nth q keys []) then 1 else 0) - xhat r q)%R).
    { unfold xt, x', rl_resid. cbn [nd_at nth]. f_equal.
      rewrite (nth_indep _ [] (indicator keys [])) by (rewrite map_length; lia). rewrite map_nth.
      unfold indicator. rewrite (nth_indep _ 0%R ((fun g => if eqb (nth r x []) g then 1%R else 0%R) [])) by now rewrite map_length.
      now rewrite (map_nth (fun g => if eqb (nth r x []) g then 1%R else 0%R)). }
    cbn [seq map fold_right]. rewrite Ev. reflexivity.
Qed.
Print Assumptions C182_RLoss_score_disc_partial.
