(** C242-C245: properties of UpliftModel (ylearn/uplift/_model.py). *)
From Coq Require Import Reals String List Lia Lra.
From Verif Require Import Base ParamsModel ParamsProps UpliftModel UpliftProps UpliftWrapModel.
Unset Implicit Arguments.
Local Notation length := List.length.
Local Open Scope string_scope.
Local Open Scope list_scope.
Local Open Scope nat_scope.

Section Wrap.
Context {V : Type} {EV : EqDec V}.
Variable sort : list (row V) -> list (row V).
Notation fit := (UpliftWrapModel.fit sort).
Notation all_curves := (all_curves sort).
Notation cumulator := (cumulator sort).

(** the tables have one column per score column, in order *)
Lemma all_curves_spec : forall tr ct k rows scores cs tops, all_curves tr ct k rows scores = Ok (cs, tops) ->
  map fst cs = map fst scores /\ map fst tops = map fst scores /\
  (NoDup (map fst scores) -> forall n s, In (n, s) scores -> exists cv top, cumulate tr ct sort k (rescored rows s) = Ok (cv, top) /\
    dget cs n = Some cv /\ dget tops n = Some top).
Proof.
  intros tr ct k rows. induction scores as [|[n0 s0] scores IH]; intros cs tops H; cbn [UpliftWrapModel.all_curves] in H.
  - injection H as <- <-. repeat split. intros _ n s [].
  - destruct (cumulate tr ct sort k (rescored rows s0)) as [[cv0 t0]|] eqn:E; cbn [bind] in H; [|discriminate].
    destruct (UpliftWrapModel.all_curves sort tr ct k rows scores) as [[cs1 tops1]|] eqn:E1; cbn [bind] in H; [|discriminate].
    injection H as <- <-. destruct (IH _ _ eq_refl) as (A & B & C). cbn [map fst snd]. rewrite A, B. repeat split; try reflexivity.
    intros Hd n s Hin. apply NoDup_cons_iff in Hd. destruct Hd as [Hn Hd]. destruct Hin as [Hin|Hin].
    + injection Hin as -> ->. exists cv0, t0. cbn [dget fst snd]. rewrite String.eqb_refl. auto.
    + destruct (C Hd n s Hin) as (cv & top & X & Y & Z). exists cv, top. split; [exact X|]. cbn [dget].
      assert (Hne : String.eqb n0 n = false). { apply String.eqb_neq. intros ->. apply Hn. exact (in_map fst _ _ Hin). }
      rewrite Hne. auto.
Qed.
Lemma cumulator_ok : forall k c rn rnd p, cumulator k c rn rnd = Ok p -> exists f cs, c_df c = Frame f /\ f_scores f <> [] /\
  all_curves (c_treat c) (c_control c) k (f_rows f) (f_scores f) = Ok (cs, snd p) /\
  match rn with None => fst p = cs
  | Some r => exists q, random_curve (c_treat c) (c_control c) sort k (f_rows f) rnd = Ok q /\ fst p = dset cs r q end.
Proof.
  intros k c rn rnd p H. unfold UpliftWrapModel.cumulator in H. destruct (c_df c) as [| |f]; try discriminate.
  destruct (f_scores f) as [|s0 ss] eqn:Es; [discriminate|].
  destruct (UpliftWrapModel.all_curves _ _ _ _ _ _) as [[cs tops]|] eqn:E; cbn [bind fst snd] in H; [|discriminate].
  exists f, cs. rewrite Es. split; [reflexivity|]. split; [discriminate|]. destruct rn as [r|].
  - destruct (random_curve _ _ _ _ _ _) as [q|]; cbn [bind] in H; [|discriminate]. injection H as <-. cbn [fst snd].
    split; [exact E|]. exists q. auto.
  - injection H as <-. cbn [fst snd]. auto.
Qed.
(** the outcome of a successful fit *)
Lemma fit_ok : forall o c rnd o', fit o c rnd = (o', Ok tt) -> exists f l g q a s, c_df c = Frame f /\
  cumulator (lift_kind c) c (c_random c) (rnd 0) = Ok l /\ cumulator (gain_kind c) c (c_random c) (rnd 1) = Ok g /\
  cumulator (qini_kind c) c (c_random c) (rnd 2) = Ok q /\ auuc_all sort c (rnd 3) = Ok a /\ qini_all sort c (rnd 4) = Ok s /\
  o' = mkU (fst l) (fst g) (snd g) (fst q) (snd q) a s (c_random c) (Some f) true.
Proof.
  intros o c rnd o' H. unfold UpliftWrapModel.fit in H. destruct (c_df c) as [| |f] eqn:Ed; [discriminate| |].
  - unfold UpliftWrapModel.cumulator in H at 1. rewrite Ed in H. discriminate.
  - destruct (cumulator (lift_kind c) c (c_random c) (rnd 0)) as [l|]; [|discriminate].
    destruct (cumulator (gain_kind c) c (c_random c) (rnd 1)) as [g|]; [|discriminate].
    destruct (cumulator (qini_kind c) c (c_random c) (rnd 2)) as [q|]; [|discriminate].
    destruct (auuc_all sort c (rnd 3)) as [a|]; [|discriminate].
    destruct (qini_all sort c (rnd 4)) as [s|]; [|discriminate].
    exists f, l, g, q, a, s. injection H as <-. cbn. repeat split; reflexivity.
Qed.
Lemma dget_map : forall {A B} (g : A -> B) (d : list (string * A)) n,
  dget (map (fun p => (fst p, g (snd p))) d) n = option_map g (dget d n).
Proof. intros A B g d n. induction d as [|[m v] d IH]; [reflexivity|]. cbn [map dget fst snd]. destruct (String.eqb m n); [reflexivity|exact IH]. Qed.
Lemma dget_filter_ne : forall {A} (d : list (string * A)) r n, n <> r -> dget (filter (fun p => negb (String.eqb (fst p) r)) d) n = dget d n.
Proof.
  intros A d r n Hn. induction d as [|[m v] d IH]; [reflexivity|]. cbn [filter fst]. destruct (String.eqb m r) eqn:E; cbn [negb dget].
  - apply String.eqb_eq in E. subst m. rewrite IH. destruct (String.eqb r n) eqn:E2; [apply String.eqb_eq in E2; congruence|reflexivity].
  - rewrite IH. reflexivity.
Qed.
Lemma cumulator_column : forall k c rn rnd p f n s, cumulator k c rn rnd = Ok p -> c_df c = Frame f -> NoDup (map fst (f_scores f)) ->
  In (n, s) (f_scores f) -> rn <> Some n ->
  exists cv top, cumulate (c_treat c) (c_control c) sort k (rescored (f_rows f) s) = Ok (cv, top) /\ dget (fst p) n = Some cv /\ dget (snd p) n = Some top.
Proof.
  intros k c rn rnd p f n s H Hf Hd Hin Hr. destruct (cumulator_ok k c rn rnd p H) as (f2 & cs & Hf2 & _ & Ha & Hp).
  rewrite Hf in Hf2. injection Hf2 as <-. destruct (all_curves_spec _ _ _ _ _ _ _ Ha) as (_ & _ & C). destruct (C Hd n s Hin) as (cv & top & X & Y & Z).
  exists cv, top. split; [exact X|]. split; [|exact Z]. destruct rn as [r|]; [|rewrite Hp; exact Y].
  destruct Hp as (q & _ & ->). rewrite dget_dset. destruct (String.eqb r n) eqn:E; [apply String.eqb_eq in E; congruence|exact Y].
Qed.

(** C242: after a successful fit, whatever was fitted before, each score column (not called like the random column) is answered with the
    values of the metric functions for this column alone, for both settings of normalize *)
Theorem C242_curves : forall o c rnd o' f n s, fit o c rnd = (o', Ok tt) -> c_df c = Frame f -> NoDup (map fst (f_scores f)) ->
  In (n, s) (f_scores f) -> c_random c <> Some n ->
  (exists t cv top, get_cumlift o' = Ok t /\ get_curve (c_treat c) (c_control c) sort (lift_kind c) false (rescored (f_rows f) s) = Ok (cv, top) /\
     dget t n = Some cv) /\
  forall b,
  (exists t cv top, get_gain o' b = Ok t /\ get_curve (c_treat c) (c_control c) sort (gain_kind c) b (rescored (f_rows f) s) = Ok (cv, top) /\
     dget t n = Some cv /\ gain_top_point o' (Some n) = Ok (inl top)) /\
  (exists t cv top, get_qini o' b = Ok t /\ get_curve (c_treat c) (c_control c) sort (qini_kind c) b (rescored (f_rows f) s) = Ok (cv, top) /\
     dget t n = Some cv /\ qini_top_point o' (Some n) = Ok (inl top)).
Proof.
  intros o c rnd o' f n s H Hf Hd Hin Hr. destruct (fit_ok o c rnd o' H) as (f2 & l & g & q & a & sc & Hf2 & El & Eg & Eq & _ & _ & ->).
  rewrite Hf in Hf2. injection Hf2 as <-.
  destruct (cumulator_column _ _ _ _ _ f n s El Hf Hd Hin Hr) as (cl & tl & L1 & L2 & L3).
  destruct (cumulator_column _ _ _ _ _ f n s Eg Hf Hd Hin Hr) as (cg & tg & G1 & G2 & G3).
  destruct (cumulator_column _ _ _ _ _ f n s Eq Hf Hd Hin Hr) as (cq & tq & Q1 & Q2 & Q3).
  unfold get_cumlift, get_gain, get_qini, gain_top_point, qini_top_point, fitted, value_or_series, get_curve. cbn [is_fitted cumlift_ gain_ qini_ gain_top_ qini_top_].
  rewrite L1, G1, Q1, G3, Q3. cbn [bind fst snd]. split; [do 3 eexists; repeat split; exact L2|]. intros b. split.
  - do 3 eexists. repeat split. destruct b; [|exact G2]. unfold div_last. rewrite dget_map, G2. reflexivity.
  - do 3 eexists. repeat split. destruct b; [|exact Q2]. unfold div_last. rewrite dget_map, Q2. reflexivity.
Qed.
(** the random column of the qini score: the given name, or RANDOM *)
Definition qini_random (c : call (V := V)) : string := match c_random c with None => "RANDOM" | Some r => r end.
Theorem C242_scores : forall o c rnd o' f n s, fit o c rnd = (o', Ok tt) -> c_df c = Frame f -> NoDup (map fst (f_scores f)) ->
  In (n, s) (f_scores f) ->
  (c_random c <> Some n -> exists v, auuc_score (c_treat c) (c_control c) sort (c_effect c) true (rescored (f_rows f) s) = Ok v /\
     auuc_score_ o' (Some n) = Ok (inl v)) /\
  (n <> qini_random c -> exists k v, k = (if c_effect c then QiniEffect else QiniTreatment) /\
     (do p <- get_curve (c_treat c) (c_control c) sort k true (rescored (f_rows f) s);
      do q <- get_random_curve (c_treat c) (c_control c) sort k true (f_rows f) (rnd 4); Ok (qini_of (fst p) q)) = Ok v /\
     qini_score_ o' (Some n) = Ok (inl v)).
Proof.
  intros o c rnd o' f n s H Hf Hd Hin. destruct (fit_ok o c rnd o' H) as (f2 & l & g & q & a & sc & Hf2 & _ & _ & _ & Ea & Es & ->).
  rewrite Hf in Hf2. injection Hf2 as <-. split.
  - intros Hr. unfold auuc_all in Ea. destruct (UpliftWrapModel.cumulator sort (gain_kind c) c (c_random c) (rnd 3)) as [p|] eqn:Ep; cbn [bind] in Ea; [|discriminate].
    injection Ea as <-. destruct (cumulator_column _ _ _ _ _ f n s Ep Hf Hd Hin Hr) as (cv & top & X & Y & _).
    unfold UpliftModel.auuc_score, get_curve. unfold gain_kind in X. rewrite X. cbn [bind fst snd]. eexists. split; [reflexivity|].
    unfold auuc_score_, fitted, value_or_series. cbn [is_fitted auuc_]. unfold div_last.
    rewrite (dget_map auuc_of), (dget_map normalized), Y. reflexivity.
  - intros Hr. unfold qini_all in Es. fold (qini_random c) in Es.
    destruct (UpliftWrapModel.cumulator sort (qini_kind c) c (Some (qini_random c)) (rnd 4)) as [p|] eqn:Ep; cbn [bind] in Es; [|discriminate].
    destruct (cumulator_column _ _ _ _ _ f n s Ep Hf Hd Hin ltac:(congruence)) as (cv & top & X & Y & _).
    destruct (cumulator_ok _ _ _ _ _ Ep) as (f2 & cs & Hf2 & _ & _ & q0 & Hq0 & Hp). rewrite Hf in Hf2. injection Hf2 as <-.
    assert (Eb : dget (div_last (fst p)) (qini_random c) = Some (normalized q0)).
    { unfold div_last. rewrite (dget_map normalized), Hp, dget_dset, String.eqb_refl. reflexivity. }
    rewrite Eb in Es. exists (qini_kind c). unfold get_curve, get_random_curve. rewrite X, Hq0. cbn [bind fst snd]. eexists. split; [reflexivity|]. split; [reflexivity|].
    unfold qini_score_, fitted, value_or_series. cbn [is_fitted qinis_].
    assert (Ey : dget (map (fun p0 => (fst p0, qini_of (snd p0) (normalized q0))) (div_last (fst p))) n = Some (qini_of (normalized cv) (normalized q0))).
    { unfold div_last. rewrite (dget_map (fun d => qini_of d (normalized q0))), (dget_map normalized), Y. reflexivity. }
    injection Es as <-. destruct (c_random c) as [r|] eqn:Er.
    + rewrite Ey. reflexivity.
    + rewrite dget_filter_ne by exact Hr. rewrite Ey. reflexivity.
Qed.

(** C243: the columns of the tables and the labels of the series *)
Lemma dset_keys : forall {A} (d : list (string * A)) r v, ~ In r (map fst d) -> map fst (dset d r v) = map fst d ++ [r].
Proof. intros A d r v H. rewrite (dset_fresh d r v (dget_notin d r H)), map_app. reflexivity. Qed.
Lemma map_fst_map : forall {A B} (g : string * A -> B) (d : list (string * A)), map fst (map (fun p => (fst p, g p)) d) = map fst d.
Proof. intros A B g d. rewrite map_map. reflexivity. Qed.
Lemma filter_key_fresh : forall {A} (d : list (string * A)) r, ~ In r (map fst d) -> filter (fun p => negb (String.eqb (fst p) r)) d = d.
Proof.
  intros A d r H. induction d as [|[m v] d IH]; [reflexivity|]. cbn [filter fst]. destruct (String.eqb m r) eqn:E.
  - apply String.eqb_eq in E. subst. elim H. left. reflexivity.
  - cbn [negb]. rewrite IH; [reflexivity|]. intros Hi. apply H. right. exact Hi.
Qed.
Lemma filter_key_keys : forall {A} (d : list (string * A)) l r, map fst d = l ++ [r] -> ~ In r l ->
  map fst (filter (fun p => negb (String.eqb (fst p) r)) d) = l.
Proof.
  intros A d. induction d as [|[m v] d IH]; intros l r H Hn; [destruct l; discriminate|]. destruct l as [|k l]; cbn [map fst app] in H.
  - injection H as -> Hd. destruct d; [|discriminate]. cbn [filter fst]. rewrite String.eqb_refl. reflexivity.
  - injection H as -> Hd. cbn [filter fst]. destruct (String.eqb k r) eqn:E; [apply String.eqb_eq in E; subst; elim Hn; left; reflexivity|].
    cbn [negb map fst]. rewrite (IH l r Hd); [reflexivity|]. intros Hi. apply Hn. right. exact Hi.
Qed.
Lemma cumulator_keys : forall k c rn rnd p f, cumulator k c rn rnd = Ok p -> c_df c = Frame f ->
  (forall r, rn = Some r -> ~ In r (map fst (f_scores f))) ->
  map fst (fst p) = map fst (f_scores f) ++ (match rn with Some r => [r] | None => [] end) /\ map fst (snd p) = map fst (f_scores f).
Proof.
  intros k c rn rnd p f H Hf Hr. destruct (cumulator_ok k c rn rnd p H) as (f2 & cs & Hf2 & _ & Ha & Hp).
  rewrite Hf in Hf2. injection Hf2 as <-. destruct (all_curves_spec _ _ _ _ _ _ _ Ha) as (A & B & _). split; [|exact B].
  destruct rn as [r|]; [|rewrite Hp, app_nil_r; exact A]. destruct Hp as (q & _ & ->). rewrite dset_keys; rewrite A; [reflexivity|exact (Hr r eq_refl)].
Qed.
Theorem C243_columns : forall o c rnd o' f, fit o c rnd = (o', Ok tt) -> c_df c = Frame f ->
  ~ In (qini_random c) (map fst (f_scores f)) ->
  let cols := map fst (f_scores f) in
  let shown := cols ++ match c_random c with Some r => [r] | None => [] end in
  (exists t, get_cumlift o' = Ok t /\ map fst t = shown) /\
  (forall b, exists t, get_gain o' b = Ok t /\ map fst t = shown) /\ (forall b, exists t, get_qini o' b = Ok t /\ map fst t = shown) /\
  (exists t, gain_top_point o' None = Ok (inr t) /\ map fst t = cols) /\ (exists t, qini_top_point o' None = Ok (inr t) /\ map fst t = cols) /\
  (exists t, auuc_score_ o' None = Ok (inr t) /\ map fst t = cols) /\ (exists t, qini_score_ o' None = Ok (inr t) /\ map fst t = cols).
Proof.
  intros o c rnd o' f H Hf Hr cols shown. destruct (fit_ok o c rnd o' H) as (f2 & l & g & q & a & sc & Hf2 & El & Eg & Eq & Ea & Es & ->).
  rewrite Hf in Hf2. injection Hf2 as <-.
  assert (Hr2 : forall r, c_random c = Some r -> ~ In r (map fst (f_scores f))).
  { intros r Er. unfold qini_random in Hr. rewrite Er in Hr. exact Hr. }
  destruct (cumulator_keys _ _ _ _ _ f El Hf Hr2) as [L1 L2]. destruct (cumulator_keys _ _ _ _ _ f Eg Hf Hr2) as [G1 G2].
  destruct (cumulator_keys _ _ _ _ _ f Eq Hf Hr2) as [Q1 Q2].
  unfold get_cumlift, get_gain, get_qini, gain_top_point, qini_top_point, auuc_score_, qini_score_, fitted, value_or_series.
  cbn [is_fitted cumlift_ gain_ qini_ gain_top_ qini_top_ auuc_ qinis_ random_].
  assert (Hnone : forall {A} (d : list (string * A)), map fst d = cols ->
    exists t : list (string * A), (match c_random c with Some r => filter (fun p => negb (String.eqb (fst p) r)) d | None => d end) = t /\ map fst t = cols).
  { intros A d E. eexists. split; [reflexivity|]. destruct (c_random c) as [r|] eqn:Er; [|exact E]. rewrite filter_key_fresh; [exact E|].
    rewrite E. exact (Hr2 r eq_refl). }
  assert (Hsome : forall {A} (d : list (string * A)), map fst d = shown ->
    exists t : list (string * A), (match c_random c with Some r => filter (fun p => negb (String.eqb (fst p) r)) d | None => d end) = t /\ map fst t = cols).
  { intros A d E. eexists. split; [reflexivity|]. unfold shown in E. destruct (c_random c) as [r|] eqn:Er; [|rewrite app_nil_r in E; exact E].
    apply filter_key_keys; [exact E|]. exact (Hr2 r eq_refl). }
  split; [eexists; split; [reflexivity|exact L1]|].
  split; [intros [|]; (eexists; split; [reflexivity|]); [unfold div_last; rewrite (map_fst_map (fun p => normalized (snd p)))|]; exact G1|].
  split; [intros [|]; (eexists; split; [reflexivity|]); [unfold div_last; rewrite (map_fst_map (fun p => normalized (snd p)))|]; exact Q1|].
  split; [destruct (Hnone _ (snd g) G2) as (t & <- & T); eexists; split; [reflexivity|exact T]|].
  split; [destruct (Hnone _ (snd q) Q2) as (t & <- & T); eexists; split; [reflexivity|exact T]|].
  split.
  - assert (K : map fst a = shown).
    { unfold auuc_all in Ea. destruct (UpliftWrapModel.cumulator sort (gain_kind c) c (c_random c) (rnd 3)) as [p|] eqn:Ep; cbn [bind] in Ea; [|discriminate].
      injection Ea as <-. rewrite (map_fst_map (fun p => auuc_of (snd p))). unfold div_last. rewrite (map_fst_map (fun p => normalized (snd p))).
      exact (proj1 (cumulator_keys _ _ _ _ _ f Ep Hf Hr2)). }
    destruct (Hsome _ a K) as (t & <- & T). eexists. split; [reflexivity|exact T].
  - unfold qini_all in Es. fold (qini_random c) in Es.
    destruct (UpliftWrapModel.cumulator sort (qini_kind c) c (Some (qini_random c)) (rnd 4)) as [p|] eqn:Ep; cbn [bind] in Es; [|discriminate].
    destruct (dget (div_last (fst p)) (qini_random c)) as [b|]; [|discriminate]. injection Es as <-.
    assert (K : map fst (map (fun p0 : string * list val => (fst p0, qini_of (snd p0) b)) (div_last (fst p))) = cols ++ [qini_random c]).
    { rewrite (map_fst_map (fun p => qini_of (snd p) b)). unfold div_last. rewrite (map_fst_map (fun p => normalized (snd p))).
      refine (proj1 (cumulator_keys _ _ _ _ _ f Ep Hf _)). intros r [= <-]. exact Hr. }
    eexists. split; [reflexivity|]. unfold qini_random in K, Hr |- *. destruct (c_random c) as [r|].
    + exact (filter_key_keys _ cols r K Hr).
    + exact (filter_key_keys _ cols "RANDOM" K Hr).
Qed.

(** C244: the random column *)
Lemma random_curve_len : forall tr ct k rows rnd q, random_curve tr ct sort k rows rnd = Ok q -> length q = S (length rows).
Proof.
  intros tr ct k rows rnd q H. unfold random_curve in H. destruct (curves tr ct sort k rows rnd) as [cs|]; cbn [bind] in H; [|discriminate].
  assert (Hq : q = map (fun i => vmean (map (fun c => nth i c None) cs)) (seq 0 (S (length rows)))) by congruence.
  subst q. rewrite map_length, seq_length. reflexivity.
Qed.
(** its qini score is 0, whatever was drawn *)
Theorem C244_qini_zero : forall o c rnd o' r, fit o c rnd = (o', Ok tt) -> c_random c = Some r -> qini_score_ o' (Some r) = Ok (inl (Some 0%R)).
Proof.
  intros o c rnd o' r H Hr. destruct (fit_ok o c rnd o' H) as (f & l & g & q & a & sc & Hf & _ & _ & _ & _ & Es & ->).
  unfold qini_all in Es. rewrite Hr in Es. destruct (UpliftWrapModel.cumulator sort (qini_kind c) c (Some r) (rnd 4)) as [p|] eqn:Ep; cbn [bind] in Es; [|discriminate].
  destruct (cumulator_ok _ _ _ _ _ Ep) as (f2 & cs & Hf2 & _ & _ & q0 & Hq0 & Hp).
  assert (Eb : dget (div_last (fst p)) r = Some (normalized q0)).
  { unfold div_last. rewrite (dget_map normalized), Hp, dget_dset, String.eqb_refl. reflexivity. }
  rewrite Eb in Es. injection Es as <-. unfold qini_score_, fitted, value_or_series. cbn [is_fitted qinis_].
  rewrite (dget_map (fun d => qini_of d (normalized q0))), Eb. cbn [option_map]. do 2 f_equal. unfold qini_of, vdiv.
  assert (Ln : length (normalized q0) = S (length (f_rows f2))) by (unfold normalized; rewrite map_length; exact (random_curve_len _ _ _ _ _ _ Hq0)).
  destruct (Req_EM_T (INR (length (normalized q0))) 0) as [Z|Z].
  - exfalso. rewrite Ln in Z. exact (not_0_INR (S (length (f_rows f2))) ltac:(lia) Z).
  - f_equal. field. exact Z.
Qed.
(** it has no top point *)
Theorem C244_no_top_point : forall o c rnd o' f r, fit o c rnd = (o', Ok tt) -> c_df c = Frame f -> ~ In r (map fst (f_scores f)) ->
  gain_top_point o' (Some r) = Err KeyError /\ qini_top_point o' (Some r) = Err KeyError.
Proof.
  intros o c rnd o' f r H Hf Hn. destruct (fit_ok o c rnd o' H) as (f2 & l & g & q & a & sc & Hf2 & _ & Eg & Eq & _ & _ & ->).
  rewrite Hf in Hf2. injection Hf2 as <-.
  assert (K : forall k rn rd p, cumulator k c rn rd = Ok p -> dget (snd p) r = None).
  { intros k rn rd p Hp. destruct (cumulator_ok _ _ _ _ _ Hp) as (f2 & cs & Hf2 & _ & Ha & _). rewrite Hf in Hf2. injection Hf2 as <-.
    destruct (all_curves_spec _ _ _ _ _ _ _ Ha) as (_ & B & _). apply dget_notin. rewrite B. exact Hn. }
  unfold gain_top_point, qini_top_point, fitted, value_or_series. cbn [is_fitted gain_top_ qini_top_]. rewrite (K _ _ _ _ Eg), (K _ _ _ _ Eq). auto.
Qed.
(** the curve and the score of the random column come from different draws *)
Theorem C244_random_values : forall o c rnd o' f r, fit o c rnd = (o', Ok tt) -> c_df c = Frame f -> c_random c = Some r ->
  exists t q1 q3, get_gain o' true = Ok t /\ random_curve (c_treat c) (c_control c) sort (gain_kind c) (f_rows f) (rnd 1) = Ok q1 /\
    random_curve (c_treat c) (c_control c) sort (gain_kind c) (f_rows f) (rnd 3) = Ok q3 /\
    dget t r = Some (normalized q1) /\ auuc_score_ o' (Some r) = Ok (inl (auuc_of (normalized q3))).
Proof.
  intros o c rnd o' f r H Hf Hr. destruct (fit_ok o c rnd o' H) as (f2 & l & g & q & a & sc & Hf2 & _ & Eg & _ & Ea & _ & ->).
  rewrite Hf in Hf2. injection Hf2 as <-. rewrite Hr in Eg.
  destruct (cumulator_ok _ _ _ _ _ Eg) as (f2 & cs & Hf2 & _ & _ & q1 & Hq1 & Hp1). rewrite Hf in Hf2. injection Hf2 as <-.
  unfold auuc_all in Ea. rewrite Hr in Ea. destruct (UpliftWrapModel.cumulator sort (gain_kind c) c (Some r) (rnd 3)) as [p|] eqn:Ep; cbn [bind] in Ea; [|discriminate].
  destruct (cumulator_ok _ _ _ _ _ Ep) as (f2 & cs2 & Hf2 & _ & _ & q3 & Hq3 & Hp3). rewrite Hf in Hf2. injection Hf2 as <-. injection Ea as <-.
  exists (div_last (fst g)), q1, q3. split; [reflexivity|]. split; [exact Hq1|]. split; [exact Hq3|]. split.
  - unfold div_last. rewrite (dget_map normalized), Hp1, dget_dset, String.eqb_refl. reflexivity.
  - unfold auuc_score_, fitted, value_or_series. cbn [is_fitted auuc_]. unfold div_last.
    rewrite (dget_map auuc_of), (dget_map normalized), Hp3, dget_dset, String.eqb_refl. reflexivity.
Qed.

(** C245: histories.  Before a fit every accessor refuses *)
Theorem C245_unfitted : let o := new_um (V := V) in
  get_cumlift o = Err ValueError /\ (forall b, get_gain o b = Err ValueError /\ get_qini o b = Err ValueError) /\
  forall n, gain_top_point o n = Err ValueError /\ qini_top_point o n = Err ValueError /\ auuc_score_ o n = Err ValueError /\ qini_score_ o n = Err ValueError.
Proof. cbn. repeat split. Qed.
(** a successful fit forgets what was before *)
Theorem C245_refit : forall o1 o2 c rnd o1' o2', fit o1 c rnd = (o1', Ok tt) -> fit o2 c rnd = (o2', Ok tt) -> o1' = o2'.
Proof.
  intros o1 o2 c rnd o1' o2' H1 H2. destruct (fit_ok _ _ _ _ H1) as (f & l & g & q & a & sc & A1 & A2 & A3 & A4 & A5 & A6 & ->).
  destruct (fit_ok _ _ _ _ H2) as (f2 & l2 & g2 & q2 & a2 & sc2 & B1 & B2 & B3 & B4 & B5 & B6 & ->). congruence.
Qed.
(** success does not depend on what was before; a failing fit on a new object leaves it refusing *)
Theorem C245_flag : forall o c rnd o' e, fit o c rnd = (o', Err e) -> is_fitted o' = is_fitted o.
Proof.
  intros o c rnd o' e H. unfold UpliftWrapModel.fit in H. destruct (c_df c); [injection H as <- _; reflexivity| |].
  all: repeat match type of H with context [match ?x with Ok _ => _ | Err _ => _ end] => destruct x; [|injection H as <- _; reflexivity] end; discriminate.
Qed.

Variables treat control : V.
Hypothesis Htc : treat <> control.
Hypothesis Hsort : sorts sort.
(** a frame: all columns as long as the rows *)
Definition rectangular (f : frame (V := V)) : Prop := forall n s, In (n, s) (f_scores f) -> length s = length (f_rows f).
Definition drawn (f : frame (V := V)) (rnd : nat -> list (list R)) : Prop := forall i s, In s (rnd i) -> length s = length (f_rows f).
Lemma two_groups_rescored : forall rows s, length s = length rows -> two_groups treat control (rescored rows s) = two_groups treat control rows.
Proof.
  intros rows s L. unfold two_groups.
  assert (E : forall P : row V -> bool, (forall r u, P (Row u (x r) (y r) (tau r)) = P r) ->
    forallb P (rescored rows s) = forallb P rows /\ existsb P (rescored rows s) = existsb P rows).
  { intros P HP. unfold rescored. revert s L. induction rows as [|r rows IH]; intros [|u s] L; try discriminate; [split; reflexivity|].
    cbn [map2 forallb existsb]. rewrite HP. destruct (IH s ltac:(cbn in L; lia)) as [-> ->]. split; reflexivity. }
  rewrite (proj1 (E (fun r => is_treat treat r || is_control control r)%bool (fun _ _ => eq_refl))), (proj2 (E (is_treat treat) (fun _ _ => eq_refl))), (proj2 (E (is_control control) (fun _ _ => eq_refl))). reflexivity.
Qed.
Lemma all_curves_succeed : forall k rows scores, (forall n s, In (n, s) scores -> length s = length rows) ->
  ((k = LiftEffect \/ k = GainEffect) /\ rows <> [] \/ two_groups treat control rows = true) ->
  exists p, all_curves treat control k rows scores = Ok p.
Proof.
  intros k rows scores HL Hk. induction scores as [|[n s] scores IH]; [eexists; reflexivity|]. cbn [UpliftWrapModel.all_curves].
  assert (L := HL n s (or_introl eq_refl)).
  destruct (@C53_succeeds _ _ treat control Htc sort Hsort k (rescored rows s)) as (cv & top & E).
  { destruct Hk as [[Hk Hne]|Hk]; [left; split; [exact Hk|]|right; rewrite two_groups_rescored by exact L; exact Hk].
    destruct rows; [congruence|]. destruct s; [discriminate|]. discriminate. }
  rewrite E. cbn [bind]. destruct IH as [p Ep]; [intros m u Hin; exact (HL m u (or_intror Hin))|]. rewrite Ep. eexists. reflexivity.
Qed.
Lemma curves_succeed : forall k rows rnd, (forall s, In s rnd -> length s = length rows) ->
  ((k = LiftEffect \/ k = GainEffect) /\ rows <> [] \/ two_groups treat control rows = true) ->
  exists q, random_curve treat control sort k rows rnd = Ok q.
Proof.
  intros k rows rnd HL Hk. unfold random_curve.
  assert (H : exists cs, curves treat control sort k rows rnd = Ok cs); [|destruct H as [cs ->]; eexists; reflexivity].
  induction rnd as [|s rnd IH]; [eexists; reflexivity|]. cbn [curves]. assert (L := HL s (or_introl eq_refl)).
  destruct (@C53_succeeds _ _ treat control Htc sort Hsort k (rescored rows s)) as (cv & top & E).
  { destruct Hk as [[Hk Hne]|Hk]; [left; split; [exact Hk|]|right; rewrite two_groups_rescored by exact L; exact Hk].
    destruct rows; [congruence|]. destruct s; [discriminate|]. discriminate. }
  rewrite E. cbn [bind]. destruct IH as [p Ep]; [intros u Hin; exact (HL u (or_intror Hin))|]. rewrite Ep. eexists. reflexivity.
Qed.
Lemma cumulator_succeed : forall k c f rn rnd, c_df c = Frame f -> c_treat c = treat -> c_control c = control -> f_scores f <> [] -> rectangular f ->
  (forall s, In s rnd -> length s = length (f_rows f)) ->
  ((k = LiftEffect \/ k = GainEffect) /\ f_rows f <> [] \/ two_groups treat control (f_rows f) = true) ->
  exists p, cumulator k c rn rnd = Ok p.
Proof.
  intros k c f rn rnd Hf Ht Hc Hne HR HD Hk. unfold UpliftWrapModel.cumulator. rewrite Hf, Ht, Hc. destruct (f_scores f) as [|s0 ss] eqn:Es; [congruence|].
  rewrite <- Es. destruct (all_curves_succeed k (f_rows f) (f_scores f) HR Hk) as [p ->]. cbn [bind]. destruct rn as [r|]; [|eexists; reflexivity].
  destruct (curves_succeed k (f_rows f) rnd HD Hk) as [q ->]. eexists. reflexivity.
Qed.
(** a frame with both groups is always fitted *)
Theorem C245_succeeds : forall o c f rnd, c_df c = Frame f -> c_treat c = treat -> c_control c = control -> f_scores f <> [] -> rectangular f -> drawn f rnd ->
  two_groups treat control (f_rows f) = true -> exists o', fit o c rnd = (o', Ok tt).
Proof.
  intros o c f rnd Hf Ht Hc Hne HR HD H2.
  assert (A : forall k rn i, exists p, cumulator k c rn (rnd i) = Ok p).
  { intros k rn i. apply (cumulator_succeed k c f rn (rnd i) Hf Ht Hc Hne HR (HD i)). right. exact H2. }
  unfold UpliftWrapModel.fit. rewrite Hf. destruct (A (lift_kind c) (c_random c) 0) as [l ->]. destruct (A (gain_kind c) (c_random c) 1) as [g ->].
  destruct (A (qini_kind c) (c_random c) 2) as [q ->]. unfold auuc_all. destruct (A (gain_kind c) (c_random c) 3) as [p ->]. cbn [bind].
  unfold qini_all. fold (qini_random c). destruct (A (qini_kind c) (Some (qini_random c)) 4) as [s Es]. rewrite Es. cbn [bind].
  destruct (cumulator_ok _ _ _ _ _ Es) as (f2 & cs & _ & _ & _ & q0 & _ & Hp). unfold div_last. rewrite (dget_map normalized), Hp, dget_dset, String.eqb_refl.
  cbn [option_map]. eexists. reflexivity.
Qed.
(** without a true effect a fit that fails changes nothing: its first metric fails *)
Theorem C245_failed_partial : forall o c rnd o' e, c_effect c = false -> c_treat c = treat -> c_control c = control ->
  (forall f, c_df c = Frame f -> rectangular f /\ drawn f rnd) -> fit o c rnd = (o', Err e) -> o' = o.
Proof.
  intros o c rnd o' e He Ht Hc HF H. destruct (c_df c) as [| |f] eqn:Ed.
  - unfold UpliftWrapModel.fit in H. rewrite Ed in H. congruence.
  - unfold UpliftWrapModel.fit, UpliftWrapModel.cumulator in H. rewrite Ed in H. congruence.
  - destruct (HF f eq_refl) as [HR HD]. destruct (cumulator (lift_kind c) c (c_random c) (rnd 0)) as [l|e0] eqn:El.
    + exfalso. destruct (cumulator_ok _ _ _ _ _ El) as (f2 & cs & Hf2 & Hne & Ha & _). rewrite Ed in Hf2. injection Hf2 as <-.
      assert (H2 : two_groups treat control (f_rows f) = true).
      { destruct (f_scores f) as [|[n s] ss] eqn:Es; [congruence|]. cbn [UpliftWrapModel.all_curves] in Ha.
        destruct (cumulate (c_treat c) (c_control c) sort (lift_kind c) (rescored (f_rows f) s)) as [[cv top]|] eqn:E; cbn [bind] in Ha; [|discriminate].
        rewrite Ht, Hc in E. unfold lift_kind in E. rewrite He in E. apply cumulate_parts in E as (raw & i & v & r & E & _). cbn [cumulate_column] in E.
        destruct (two_groups treat control (sort (rescored (f_rows f) s))) eqn:E2; [|discriminate].
        assert (L : length s = length (f_rows f)) by (apply (HR n s); rewrite Es; left; reflexivity).
        rewrite <- (two_groups_rescored (f_rows f) s L). destruct (Hsort (rescored (f_rows f) s)) as [P _]. clear - E2 P.
        unfold two_groups in *. rewrite !Bool.andb_true_iff in *. destruct E2 as [[A B] C]. rewrite !existsb_exists, forallb_forall in *. repeat split.
        - intros r Hr. apply A. exact (Permutation_in _ (Permutation_sym P) Hr).
        - destruct B as (r & Hr & B). exists r. split; [exact (Permutation_in _ P Hr)|exact B].
        - destruct C as (r & Hr & C). exists r. split; [exact (Permutation_in _ P Hr)|exact C]. }
      destruct (C245_succeeds o c f rnd Ed Ht Hc Hne HR HD H2) as [o2 E2]. congruence.
    + unfold UpliftWrapModel.fit in H. rewrite Ed, El in H. congruence.
Qed.
(** with a true effect, a frame without one of the groups replaces the lift and the gain curves and keeps the rest *)
Theorem C245_mixed : forall o c f rnd, c_df c = Frame f -> c_effect c = true -> c_treat c = treat -> c_control c = control -> f_scores f <> [] ->
  rectangular f -> drawn f rnd -> f_rows f <> [] -> two_groups treat control (f_rows f) = false ->
  exists o' l g, fit o c rnd = (o', Err AssertionError) /\
    cumulator LiftEffect c (c_random c) (rnd 0) = Ok l /\ cumulator GainEffect c (c_random c) (rnd 1) = Ok g /\
    cumlift_ o' = fst l /\ gain_ o' = fst g /\ gain_top_ o' = snd g /\
    is_fitted o' = is_fitted o /\ qini_ o' = qini_ o /\ qini_top_ o' = qini_top_ o /\ auuc_ o' = auuc_ o /\ qinis_ o' = qinis_ o /\ random_ o' = random_ o.
Proof.
  intros o c f rnd Hf He Ht Hc Hne HR HD Hrows H2.
  destruct (cumulator_succeed LiftEffect c f (c_random c) (rnd 0) Hf Ht Hc Hne HR (HD 0) (or_introl (conj (or_introl eq_refl) Hrows))) as [l El].
  destruct (cumulator_succeed GainEffect c f (c_random c) (rnd 1) Hf Ht Hc Hne HR (HD 1) (or_introl (conj (or_intror eq_refl) Hrows))) as [g Eg].
  assert (Eq : cumulator QiniEffect c (c_random c) (rnd 2) = Err AssertionError).
  { unfold UpliftWrapModel.cumulator. rewrite Hf, Ht, Hc. destruct (f_scores f) as [|[n s] ss] eqn:Es; [congruence|]. cbn [UpliftWrapModel.all_curves].
    assert (L : length s = length (f_rows f)) by (apply (HR n s); rewrite Es; left; reflexivity).
    unfold cumulate. cbn [cumulate_column].
    assert (E2 : two_groups treat control (sort (rescored (f_rows f) s)) = false).
    { destruct (two_groups treat control (sort (rescored (f_rows f) s))) eqn:E2; [|reflexivity]. rewrite <- (two_groups_rescored (f_rows f) s L) in H2.
      rewrite <- H2. symmetry. destruct (Hsort (rescored (f_rows f) s)) as [P _]. clear - E2 P.
      unfold two_groups in *. rewrite !Bool.andb_true_iff in *. destruct E2 as [[A B] C]. rewrite !existsb_exists, forallb_forall in *. repeat split.
      - intros r Hr. apply A. exact (Permutation_in _ (Permutation_sym P) Hr).
      - destruct B as (r & Hr & B). exists r. split; [exact (Permutation_in _ P Hr)|exact B].
      - destruct C as (r & Hr & C). exists r. split; [exact (Permutation_in _ P Hr)|exact C]. }
    rewrite E2. reflexivity. }
  unfold UpliftWrapModel.fit. rewrite Hf. unfold lift_kind, gain_kind, qini_kind. rewrite He, El, Eg, Eq. do 3 eexists. split; [reflexivity|]. cbn.
  split; [reflexivity|]. split; [reflexivity|]. repeat split; reflexivity.
Qed.
End Wrap.

(** C243: a score column called like the random column disappears *)
Section Dropped.
Context {V : Type} {EV : EqDec V}.
Variable sort : list (row V) -> list (row V).
Lemma filter_gone : forall {A} (d : list (string * A)) r, ~ In r (map fst (filter (fun p => negb (String.eqb (fst p) r)) d)).
Proof.
  intros A d r H. apply in_map_iff in H. destruct H as ((m & v) & <- & H). apply filter_In in H. destruct H as [_ H]. cbn [fst] in H.
  rewrite String.eqb_refl in H. discriminate.
Qed.
Theorem C243_dropped : forall o c rnd o' (H : UpliftWrapModel.fit sort o c rnd = (o', Ok tt)),
  (forall r, c_random c = Some r -> exists t u v w,
     gain_top_point o' None = Ok (inr t) /\ qini_top_point o' None = Ok (inr u) /\ auuc_score_ o' None = Ok (inr v) /\ qini_score_ o' None = Ok (inr w) /\
     ~ In r (map fst t) /\ ~ In r (map fst u) /\ ~ In r (map fst v) /\ ~ In r (map fst w)) /\
  (c_random c = None -> qini_score_ o' (Some "RANDOM") = Err KeyError).
Proof.
  intros o c rnd o' H. destruct (fit_ok sort o c rnd o' H) as (f & l & g & q & a & sc & Hf & _ & _ & _ & _ & Es & ->).
  unfold gain_top_point, qini_top_point, auuc_score_, qini_score_, fitted, value_or_series. cbn [is_fitted gain_top_ qini_top_ auuc_ qinis_ random_]. split.
  - intros r ->. do 4 eexists. repeat (split; [reflexivity|]). repeat split; apply filter_gone.
  - intros Hr. unfold qini_all in Es. rewrite Hr in Es.
    destruct (UpliftWrapModel.cumulator sort (qini_kind c) c (Some "RANDOM") (rnd 4)) as [p|]; cbn [bind] in Es; [|discriminate].
    destruct (dget (div_last (fst p)) "RANDOM") as [b|]; [|discriminate]. injection Es as <-. rewrite dget_notin; [reflexivity|apply filter_gone].
Qed.
End Dropped.

#[local] Instance EqDec_b : EqDec bool := {| eqb := Bool.eqb; eqb_eq := Bool.eqb_true_iff |}.
Local Open Scope R_scope.
Definition ex_frame (n : string) : frame (V := bool) := mkF sample [(n, [1; 3; 2])].
Definition ex_call (n : string) (e : bool) (r : option string) : call (V := bool) := mkC (Frame (ex_frame n)) e true false r.
Definition ex_rnd : nat -> list (list R) := fun _ => repeat [3; 1; 2] 10.
(** the hypotheses of C242-C245 are met *)
Lemma ex_fits : forall sort o n e r, sorts sort -> exists o', UpliftWrapModel.fit sort o (ex_call n e r) ex_rnd = (o', Ok tt).
Proof.
  intros sort o n e r Hs. apply (C245_succeeds sort true false ltac:(discriminate) Hs o (ex_call n e r) (ex_frame n) ex_rnd); try reflexivity.
  - discriminate.
  - intros m s [[= <- <-]|[]]. reflexivity.
  - intros i s Hin. unfold ex_rnd in Hin. apply repeat_spec in Hin. subst s. reflexivity.
Qed.
Example C242_example : exists sort o', sorts sort /\ UpliftWrapModel.fit sort new_um (ex_call "model" false (Some "RANDOM")) ex_rnd = (o', Ok tt) /\
  NoDup (map fst (f_scores (ex_frame "model"))) /\ ~ In "RANDOM"%string (map fst (f_scores (ex_frame "model"))).
Proof.
  destruct (@sorts_exists bool) as [sort Hs]. destruct (ex_fits sort new_um "model" false (Some "RANDOM"%string) Hs) as [o' H]. exists sort, o'.
  split; [exact Hs|]. split; [exact H|]. split; [repeat constructor; intros []|]. cbn. intros [E|[]]. discriminate.
Qed.
Theorem C243_collision_refuted : exists (sort : list (row bool) -> list (row bool)) c f o' rnd, sorts sort /\ c_df c = Frame f /\
  In "RANDOM"%string (map fst (f_scores f)) /\ UpliftWrapModel.fit sort new_um c rnd = (o', Ok tt) /\
  exists t, auuc_score_ o' None = Ok (inr t) /\ ~ In "RANDOM"%string (map fst t).
Proof.
  destruct (@sorts_exists bool) as [sort Hs]. destruct (ex_fits sort new_um "RANDOM" false (Some "RANDOM"%string) Hs) as [o' H].
  exists sort, (ex_call "RANDOM" false (Some "RANDOM"%string)), (ex_frame "RANDOM"), o', ex_rnd. split; [exact Hs|]. split; [reflexivity|].
  split; [left; reflexivity|]. split; [exact H|].
  destruct (proj1 (C243_dropped sort _ _ _ _ H) _ eq_refl) as (t & u & v & w & _ & _ & Ev & _ & _ & _ & Hv & _). exists v. auto.
Qed.
Theorem C243_unnamed_refuted : exists (sort : list (row bool) -> list (row bool)) c f o' rnd, sorts sort /\ c_df c = Frame f /\ c_random c = None /\
  In "RANDOM"%string (map fst (f_scores f)) /\ UpliftWrapModel.fit sort new_um c rnd = (o', Ok tt) /\
  qini_score_ o' (Some "RANDOM"%string) = Err KeyError.
Proof.
  destruct (@sorts_exists bool) as [sort Hs]. destruct (ex_fits sort new_um "RANDOM" false None Hs) as [o' H].
  exists sort, (ex_call "RANDOM" false None), (ex_frame "RANDOM"), o', ex_rnd. split; [exact Hs|]. split; [reflexivity|]. split; [reflexivity|].
  split; [left; reflexivity|]. split; [exact H|]. exact (proj2 (C243_dropped sort _ _ _ _ H) eq_refl).
Qed.
(** C245: after a failed refit the gain is the one of the new frame, the qini the one of the old *)
Theorem C245_mixed_refuted : exists (sort : list (row bool) -> list (row bool)) o c1 c2 rnd o', sorts sort /\
  UpliftWrapModel.fit sort new_um c1 rnd = (o, Ok tt) /\ UpliftWrapModel.fit sort o c2 rnd = (o', Err AssertionError) /\
  (exists t, get_gain o' false = Ok t /\ map fst t = ["other"%string]) /\ (exists t, get_qini o' false = Ok t /\ map fst t = ["model"%string]).
Proof.
  destruct (@sorts_exists bool) as [sort Hs].
  set (f2 := mkF [Row 0 true 1 2; Row 0 true 0 1] [("other"%string, [1; 2])]).
  set (c2 := mkC (Frame f2) true true false None : call (V := bool)).
  set (rnd2 := fun i : nat => ([] : list (list R))).
  assert (H1' : exists o2, UpliftWrapModel.fit sort new_um (ex_call "model" true None) rnd2 = (o2, Ok tt)).
  { apply (C245_succeeds sort true false ltac:(discriminate) Hs new_um (ex_call "model" true None) (ex_frame "model") rnd2); try reflexivity.
    - discriminate.
    - intros m s [[= <- <-]|[]]. reflexivity.
    - intros i s []. }
  destruct H1' as [o2 H2].
  destruct (C245_mixed sort true false ltac:(discriminate) Hs o2 c2 f2 rnd2) as (o' & l & g & E & El & Eg & _ & Gg & _ & Hfit & Hq & _); try reflexivity; try discriminate.
  - intros m s [[= <- <-]|[]]. reflexivity.
  - intros i s [].
  - exists sort, o2, (ex_call "model" true None), c2, rnd2, o'. split; [exact Hs|]. split; [exact H2|]. split; [exact E|].
    assert (Hfr : ~ In (qini_random (ex_call "model" true None)) (map fst (f_scores (ex_frame "model")))) by (cbn; intros [E1|[]]; discriminate).
    destruct (C243_columns sort new_um (ex_call "model" true None) rnd2 o2 (ex_frame "model") H2 eq_refl Hfr) as (_ & _ & Q & _).
    destruct (Q false) as (t & Et & Kt). unfold get_qini, get_gain, fitted in *. rewrite Hfit, Hq, Gg. destruct (is_fitted o2); [|discriminate].
    split; [exists (fst g); split; [reflexivity|]|exists t; split; [exact Et|exact Kt]].
    rewrite (proj1 (cumulator_keys sort GainEffect c2 None (rnd2 1%nat) g f2 Eg eq_refl ltac:(discriminate))). reflexivity.
Qed.

(** C244: auuc_score of the random column is not the area under its gain curve *)
Lemma auuc3 : forall a, auuc_of (normalized [Some 0; Some a; Some 4]) = Some ((a / 4 + 1) / 3).
Proof.
  intros a. unfold normalized, last_cell. cbn [List.last map]. unfold vdiv.
  assert (E : Rabs 4 = 4) by (apply Rabs_right; lra). rewrite E. destruct (Req_EM_T 4 0) as [Z|Z]; [lra|].
  unfold auuc_of, vdiv. cbn [vsum fold_right List.length INR]. destruct (Req_EM_T (1 + 1 + 1) 0) as [Z2|Z2]; [lra|]. f_equal. field.
Qed.
Definition two_rows : list (row bool) := [Row 0 true 0 1; Row 0 false 0 3].
Lemma two_curve : forall sort (a b c d : R), sorts sort -> (a > b /\ c = 1 \/ a < b /\ c = 3) -> d = c ->
  exists top, cumulate true false sort GainEffect (rescored two_rows [a; b]) = Ok ([Some 0; Some d; Some 4], top).
Proof.
  intros sort a b c d Hs Hab ->. assert (Htc : true <> false) by discriminate.
  destruct (@C53_succeeds _ _ true false Htc sort Hs GainEffect (rescored two_rows [a; b])) as (cv & top & H); [left; split; [auto|discriminate]|].
  exists top. rewrite H. do 2 f_equal.
  assert (L := @curve_length _ _ true false Htc sort Hs _ _ _ _ H). cbn in L.
  assert (R := fun n Hn => @C52_gain_rank _ _ true false Htc sort Hs _ _ _ n H Hn).
  set (r1 := Row a true 0 1) in *. set (r2 := Row b false 0 3) in *.
  assert (Esort : sort (rescored two_rows [a; b]) = if Rlt_dec b a then [r1; r2] else [r2; r1]).
  { destruct (Hs (rescored two_rows [a; b])) as [P D]. change (rescored two_rows [a; b]) with [r1; r2] in *.
    assert (ND : distinct_scores [r1; r2]). { unfold distinct_scores. cbn. constructor; [intros [E|[]]; lra|]. constructor; [intros []|constructor]. }
    apply sorted_unique; [exact D| | |exact (Permutation_NoDup (Permutation_map _ (Permutation_sym P)) ND)].
    - destruct (Rlt_dec b a); repeat constructor; cbn; lra.
    - rewrite P. destruct (Rlt_dec b a); [reflexivity|apply perm_swap]. }
  rewrite Esort in R. assert (R0 := R 0%nat ltac:(cbn; lia)). assert (R1 := R 1%nat ltac:(cbn; lia)). assert (R2 := R 2%nat ltac:(cbn; lia)).
  destruct cv as [|v0 [|v1 [|v2 [|]]]]; try discriminate. cbn [nth_error] in R0, R1, R2. injection R0 as ->. injection R1 as ->. injection R2 as ->.
  destruct (Rlt_dec b a); cbn; repeat f_equal; unfold sum_over; cbn; lra.
Qed.
Lemma two_random : forall sort a b c, sorts sort -> (a > b /\ c = 1 \/ a < b /\ c = 3) ->
  random_curve true false sort GainEffect two_rows (repeat [a; b] 10) = Ok [Some 0; Some c; Some 4].
Proof.
  intros sort a b c Hs Hab. destruct (two_curve sort a b c c Hs Hab eq_refl) as [top E]. unfold random_curve.
  assert (H : forall n, curves true false sort GainEffect two_rows (repeat [a; b] n) = Ok (repeat [Some 0; Some c; Some 4] n)).
  { induction n as [|n IH]; [reflexivity|]. cbn [repeat curves]. rewrite E, IH. reflexivity. }
  rewrite H. cbn [bind]. cbn [two_rows List.length seq map repeat nth].
  repeat f_equal; (apply vmean_same; [discriminate|repeat constructor]).
Qed.
Theorem C244_random_refuted : exists (sort : list (row bool) -> list (row bool)) c rnd o' t cv, sorts sort /\
  UpliftWrapModel.fit sort new_um c rnd = (o', Ok tt) /\ c_random c = Some "RANDOM"%string /\
  get_gain o' true = Ok t /\ dget t "RANDOM" = Some cv /\ auuc_score_ o' (Some "RANDOM"%string) <> Ok (inl (auuc_of cv)).
Proof.
  destruct (@sorts_exists bool) as [sort Hs].
  set (f := mkF two_rows [("model"%string, [1; 2])]). set (c := mkC (Frame f) true true false (Some "RANDOM"%string) : call (V := bool)).
  set (rnd := fun i : nat => repeat (if Nat.eqb i 1 then [2; 1] else [1; 2]) 10).
  destruct (C245_succeeds sort true false ltac:(discriminate) Hs new_um c f rnd) as [o' H]; try reflexivity; try discriminate.
  - intros m s [[= <- <-]|[]]. reflexivity.
  - intros i s Hin. unfold rnd in Hin. apply repeat_spec in Hin. subst s. destruct (Nat.eqb i 1); reflexivity.
  - destruct (C244_random_values sort _ _ _ _ f _ H eq_refl eq_refl) as (t & q1 & q3 & Et & E1 & E3 & Ed & Ea).
    exists sort, c, rnd, o', t, (normalized q1). split; [exact Hs|]. split; [exact H|]. split; [reflexivity|]. split; [exact Et|]. split; [exact Ed|].
    rewrite Ea. change (random_curve true false sort GainEffect two_rows (repeat [2; 1] 10) = Ok q1) in E1.
    change (random_curve true false sort GainEffect two_rows (repeat [1; 2] 10) = Ok q3) in E3.
    rewrite (two_random sort 2 1 1 Hs) in E1 by lra. rewrite (two_random sort 1 2 3 Hs) in E3 by lra.
    injection E1 as <-. injection E3 as <-. rewrite !auuc3. intros E. injection E. lra.
Qed.

Print Assumptions C242_curves.
Print Assumptions C242_scores.
Print Assumptions C243_columns.
Print Assumptions C243_dropped.
Print Assumptions C243_collision_refuted.
Print Assumptions C243_unnamed_refuted.
Print Assumptions C244_qini_zero.
Print Assumptions C244_no_top_point.
Print Assumptions C244_random_values.
Print Assumptions C244_random_refuted.
Print Assumptions C245_unfitted.
Print Assumptions C245_refit.
Print Assumptions C245_flag.
Print Assumptions C245_succeeds.
Print Assumptions C245_failed_partial.
Print Assumptions C245_mixed.
Print Assumptions C245_mixed_refuted.
