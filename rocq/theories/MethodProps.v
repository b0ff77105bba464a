(** Properties C29, C30, C31, C66: identify, estimate and identify_estimate as operations on a CausalModel object. *)
From Verif Require Import Base NxModel NxSpec ReachProofs NxProofs GraphModel GraphSpec GraphProofs ExplicitProofs
  GraphProps CausalModel Bn ScmSpec ScmProofs BackdoorSpec BackdoorProofs BackdoorProps PathSpec PathProofs PathProps
  FrontdoorProps.
Set Implicit Arguments.
Local Open Scope string_scope.
Local Open Scope list_scope.

(* ------------------------------------------------------------------ C29 *)
(** the calls in which two one-element sets reach get_frontdoor_set *)
Definition pops (t o : names) (how : method) : Prop :=
  (exists a b, t = SetOf [a] /\ o = SetOf [b]) /\ (how = Auto \/ exists s, how = Frontdoor s).
Lemma gfs_keeps ord g t o s : ~ (exists a b, t = SetOf [a] /\ o = SetOf [b]) -> fst (get_frontdoor_set ord g t o s) = (t, o).
Proof.
  intros H. unfold get_frontdoor_set. destruct (check_nodes _ _); [|reflexivity].
  destruct t as [t|ts|ts], o as [o|os|os]; try reflexivity.
  destruct ts as [|a1 [|]]; try reflexivity. destruct os as [|b1 [|]]; try reflexivity. elim H. eauto.
Qed.
Lemma gbs_st_keeps ord m t o s : cm_graph (fst (get_backdoor_set_st ord m t o s)) = cm_graph m /\
  cm_treatment (fst (get_backdoor_set_st ord m t o s)) = cm_treatment m /\
  cm_outcome (fst (get_backdoor_set_st ord m t o s)) = cm_outcome m /\
  snd (get_backdoor_set_st ord m t o s) = get_backdoor_set ord (cm_graph m) t o s.
Proof.
  unfold get_backdoor_set_st. destruct (get_backdoor_set ord (cm_graph m) t o s) as [[[[l|l] p]|]|]; auto.
Qed.
(** Except in those calls, the caller's containers are as passed, and (when the arguments are accepted) they are the
    ones remembered for estimate; the graph is never touched.  Missing: C29_refuted. *)
Theorem C29_identify_partial ord topo m t o how m' c r :
  identify ord topo m t o how = (m', c, r) -> ~ pops t o how ->
  c = (t, o) /\ cm_graph m' = cm_graph m /\
  (truthy t = true -> truthy o = true -> (forall v, In v (check_items t ++ check_items o) -> In v (keys (causation (cm_graph m)))) ->
   cm_treatment m' = Some t /\ cm_outcome m' = Some o).
Proof.
  intros H Hp. unfold identify in H. destruct (truthy t && truthy o) eqn:Ht; cbn [negb] in H.
  2: { injection H as <- <- <-. split; auto. split; auto. intros H1 H2. rewrite H1, H2 in Ht. discriminate. }
  destruct (check_all _ _) as [|e] eqn:Hc.
  2: { injection H as <- <- <-. split; auto. split; auto. intros _ _ Hi. unfold check_all in Hc.
       rewrite (proj2 (check_nodes_ok _ _)) in Hc; [discriminate|]. cbn [flat_map]. rewrite app_nil_r. exact Hi. }
  destruct how as [| |s|s|].
  - destruct (CausalModel.id _ _ _ _); [|injection H as <- <- <-; auto].
    match type of H with context [get_backdoor_set_st ord ?a ?b ?c ?d] => pose proof (gbs_st_keeps ord a b c d) as (K1 & K2 & K3 & _);
      destruct (get_backdoor_set_st ord a b c d) as [m2 [b0|e]] end; cbn [fst cm_graph cm_treatment cm_outcome] in *.
    + pose proof (@gfs_keeps ord (cm_graph m) t o "simple") as K. destruct (get_frontdoor_set _ _ _ _ _) as [c0 r0].
      cbn [fst] in K. rewrite K in H by (intros Hx; apply Hp; split; auto). injection H as <- <- <-. auto.
    + injection H as <- <- <-. rewrite K1, K2, K3. auto.
  - injection H as <- <- <-. auto.
  - match type of H with context [get_backdoor_set_st ord ?a ?b ?c ?d] => pose proof (gbs_st_keeps ord a b c d) as (K1 & K2 & K3 & _);
      destruct (get_backdoor_set_st ord a b c d) as [m2 r0] end; cbn [fst cm_graph cm_treatment cm_outcome] in *.
    injection H as <- <- <-. rewrite K1, K2, K3. auto.
  - pose proof (@gfs_keeps ord (cm_graph m) t o s) as K. destruct (get_frontdoor_set _ _ _ _ _) as [c0 r0].
    cbn [fst] in K. rewrite K in H by (intros Hx; apply Hp; split; eauto). injection H as <- <- <-. auto.
  - injection H as <- <- <-. auto.
Qed.
Definition m22 := CM g22 None None None.
Example C29_example :
  ~ pops (SetOf ["X"]) (SetOf ["Y"]) (Backdoor "minimal") /\
  snd (fst (identify (fun l => l) topo_order (CM g13a None None None) (SetOf ["X"]) (SetOf ["Y"]) (Backdoor "minimal"))) =
    (SetOf ["X"], SetOf ["Y"]) /\
  cm_treatment (fst (fst (identify (fun l => l) topo_order (CM g13a None None None) (SetOf ["X"]) (SetOf ["Y"]) (Backdoor "minimal")))) =
    Some (SetOf ["X"]).
Proof.
  split; [|split; reflexivity]. intros [_ [H|(s & H)]]; discriminate.
Qed.
(** Two one-element sets handed to the frontdoor method come back empty, and the object remembers empty sets. *)
Theorem C29_refuted :
  exists m t o, user_graph (cm_graph m) /\
    let '(m', c, r) := identify (fun l => l) topo_order m t o (Frontdoor "minimal") in
    t = SetOf ["X"] /\ o = SetOf ["Y"] /\ (exists a, r = Ok a) /\ c = (SetOf [], SetOf []) /\
    cm_treatment m' = Some (SetOf []) /\ cm_outcome m' = Some (SetOf []).
Proof.
  exists m22, (SetOf ["X"]), (SetOf ["Y"]). split; [apply g22_ok|].
  match goal with |- context [identify ?a ?b ?c ?d ?e ?f] => remember (identify a b c d e f) as r eqn:Hr end.
  vm_compute in Hr. subst r. repeat split; eauto.
Qed.

(* ------------------------------------------------------------------ C30 *)
(** the set that the caller gives, adjustment and covariate together *)
Definition given (adj cov : option (list node)) (v : node) : Prop :=
  (exists l, adj = Some l /\ In v l) \/ (exists l, cov = Some l /\ In v l).
(** With a set given, the estimator is only reached if the set passes is_valid_backdoor_set for the treatment and
    outcome remembered by identify; it is then fitted with exactly the caller's sets. *)
Theorem C30_estimate_checked ord m cols t o adj cov fitted m' evs :
  estimate ord m cols t o adj cov fitted = (m', Ok evs) -> adj <> None \/ cov <> None ->
  exists t0 o0 z, cm_treatment m = Some t0 /\ cm_outcome m = Some o0 /\ NoDup z /\ (forall v, In v z <-> given adj cov v) /\
    is_valid_backdoor_set (cm_graph m) z t0 o0 = Ok true /\
    (forall i y x c a, In (Fit i y x c a) evs ->
       i = 0 /\ c = opt_cov cov /\ a = opt_cov adj /\ y = orelse o (Some o0) /\ x = orelse t (Some t0)).
Proof.
  intros H Hg. unfold estimate in H. destruct (check_nodes cols _) as [[]|]; [|discriminate].
  destruct (check_nodes (keys _) _) as [[]|]; [|discriminate].
  set (temp := match adj, cov with
                      | Some a, Some c => union (dedup a) (dedup c)
                      | Some a, None => dedup a
                      | None, Some c => dedup c
                      | None, None => []
                      end) in *.
  assert (HT : forall v, In v temp <-> given adj cov v).
  { intros v. unfold temp, given. destruct adj as [a|], cov as [c|]; rewrite ?union_In, ?dedup_In; split.
    - intros [Hv|Hv]; eauto.
    - intros [(l & Hl & Hv)|(l & Hl & Hv)]; injection Hl as <-; auto.
    - eauto.
    - intros [(l & Hl & Hv)|(l & Hl & Hv)]; [injection Hl as <-; auto|discriminate].
    - eauto.
    - intros [(l & Hl & Hv)|(l & Hl & Hv)]; [discriminate|injection Hl as <-; auto].
    - intros [].
    - intros [(l & Hl & Hv)|(l & Hl & Hv)]; discriminate. }
  assert (ND : NoDup temp).
  { unfold temp. destruct adj, cov; [apply union_NoDup; apply dedup_NoDup|apply dedup_NoDup|apply dedup_NoDup|constructor]. }
  assert (Q : match cm_treatment m, cm_outcome m with
          | Some t0, Some o0 =>
            (m, do b <- is_valid_backdoor_set (cm_graph m) temp t0 o0 ;
                if b : bool then Ok ((if fitted then [] else [Fit 0 (orelse o (cm_outcome m)) (orelse t (cm_treatment m)) (opt_cov cov) (opt_cov adj)]) ++ [Estimate 0]) else Err AssertionError)
          | _, _ => (m, Err TypeError)
          end = (m', Ok evs)).
  { destruct adj, cov; try exact H. destruct Hg; congruence. }
  destruct (cm_treatment m) as [t0|]; [|discriminate]. destruct (cm_outcome m) as [o0|]; [|discriminate].
  exists t0, o0, temp. split; auto. split; auto. split; auto. split; auto.
  destruct (is_valid_backdoor_set _ _ _ _) as [[]|]; cbn [bind] in Q; try discriminate. split; auto.
  injection Q as _ <-. intros i y x c a Hi. apply in_app_iff in Hi as [Hi|[Hi|[]]]; [|discriminate].
  destruct fitted; [destruct Hi|]. destruct Hi as [Hi|[]]. injection Hi as <- <- <- <- <-. auto.
Qed.
(** Hence, for the identified treatment and outcome and a set without descendants of the treatment, the estimator is
    asked for an adjustment that identifies the effect. *)
Theorem C30_estimate_unbiased ord m cols adj cov fitted m' evs dom cpt a :
  user_graph (cm_graph m) -> estimate ord m cols None None adj cov fitted = (m', Ok evs) -> adj <> None \/ cov <> None ->
  compatible (cm_graph m) uname dom cpt ->
  exists t0 o0 z, cm_treatment m = Some t0 /\ cm_outcome m = Some o0 /\ (forall v, In v z <-> given adj cov v) /\
   ((forall v, In v (as_set o0) -> ~ In v z) ->
    (forall x v, In x (as_set t0) -> In v z -> ~ reach (is_parent (cm_graph m)) x v) ->
    adjustment (cm_graph m) uname dom cpt (as_set t0) (as_set o0) z a = P_do (cm_graph m) uname dom cpt (as_set t0) (as_set o0) a).
Proof.
  intros U H Hg M. destruct (@C30_estimate_checked ord m cols None None adj cov fitted m' evs H Hg) as (t0 & o0 & z & T & O & ND & HZ & V & _).
  exists t0, o0, z. split; auto. split; auto. split; auto. intros D1 D2. now apply C14_valid_set_unbiased.
Qed.
Definition m13 := CM g13a (Some (Str "X")) (Some (Str "Y")) None.
Example C30_example :
  snd (estimate (fun l => l) m13 ["Z"; "W"; "X"; "Y"] None None (Some ["Z"]) (Some ["W"]) false) =
    Ok [Fit 0 (Some (Str "Y")) (Some (Str "X")) (CNames ["W"]) (CNames ["Z"]); Estimate 0] /\
  snd (estimate (fun l => l) m13 ["Z"; "W"; "X"; "Y"] None None (Some ["Z"]) None false) = Err AssertionError.
Proof. split; vm_compute; reflexivity. Qed.
(** The check is made for the remembered treatment even when another one is fitted: the set accepted here does not
    satisfy the criterion for the fitted treatment. *)
Theorem C30_refuted_override :
  exists m, user_graph (cm_graph m) /\ cm_treatment m = Some (Str "X") /\ cm_outcome m = Some (Str "Y") /\
    snd (estimate (fun l => l) m ["C"; "T"; "X"; "Y"] (Some (Str "T")) None (Some []) None false) =
      Ok [Fit 0 (Some (Str "Y")) (Some (Str "T")) CNone (CNames []); Estimate 0] /\
    is_valid_backdoor_set (cm_graph m) [] (Str "T") (Str "Y") = Ok false.
Proof.
  exists (CM (init [("D", []); ("X", ["D"]); ("C", []); ("T", ["C"]); ("Y", ["C"; "T"; "X"])] None []) (Some (Str "X")) (Some (Str "Y")) None).
  split; [cbn [cm_graph]; user_graph|]. repeat split; vm_compute; reflexivity.
Qed.

(* ------------------------------------------------------------------ C66 *)
(** After identify with ('backdoor','all') or ('backdoor','minimal') and no other call, estimate without sets fits
    with a set that satisfies the backdoor criterion for the remembered pair. *)
Theorem C66_estimate_default_partial ord topo m t o style m' c b cols fitted m2 evs :
  user_graph (cm_graph m) -> (forall l, Permutation (ord l) l) -> style = "all" \/ style = "minimal" ->
  identify ord topo m t o (Backdoor style) = (m', c, Ok [ABackdoor (Some b)]) ->
  estimate ord m' cols None None None None fitted = (m2, Ok evs) ->
  forall i y x cv a, In (Fit i y x cv a) evs ->
    y = Some o /\ x = Some t /\ cv = CNone /\
    exists z, a = CNames z /\ NoDup z /\ (forall v, In v z -> candidate (cm_graph m) (as_set t) (as_set o) v) /\
      backdoor_criterion (cm_graph m) (as_set t) (as_set o) z.
Proof.
  intros U Hord Hs HI HE i y x cv a Hi. unfold identify in HI.
  destruct (truthy t && truthy o); cbn [negb] in HI; [|discriminate].
  destruct (check_all _ _); [|discriminate]. unfold get_backdoor_set_st in HI. cbn [cm_graph cm_treatment cm_outcome] in HI.
  destruct (get_backdoor_set ord (cm_graph m) t o style) as [[[b0 p]|]|] eqn:HG; [|discriminate|].
  2: { discriminate. }
  assert (HB : exists sets, b0 = BSets sets).
  { clear - HG Hs. unfold get_backdoor_set in HG. destruct b0 as [l|sets]; [exfalso|eauto].
    repeat match type of HG with
    | Err _ = _ => discriminate HG
    | (if eqb style "simple" then _ else _) = _ => replace (eqb style "simple") with false in HG by (destruct Hs; subst; reflexivity)
    | (if ?c then _ else _) = _ => destruct c
    | bind ?x _ = _ => let e := fresh in destruct x as [|e]; cbn [bind] in HG
    | (let _ := _ in _) = _ => cbv zeta in HG
    | match ?x with _ => _ end = _ => destruct x
    end; try discriminate. }
  destruct HB as (sets & ->). injection HI as <- _ _.
  unfold estimate in HE. cbn [cm_graph cm_treatment cm_outcome cm_adjustment_set opt_items opt_names orelse opt_cov app] in HE.
  destruct (check_nodes cols []); [|discriminate]. destruct (check_nodes (keys _) []); [|discriminate].
  destruct sets as [|z sets]; [discriminate|]. injection HE as _ <-. apply in_app_iff in Hi as [Hi|[Hi|[]]]; [|discriminate].
  destruct fitted; [destruct Hi|]. destruct Hi as [Hi|[]]. injection Hi as _ <- <- <- <-.
  split; auto. split; auto. split; auto. exists z. split; auto.
  destruct (@gbs_sound ord Hord (cm_graph m) U t o style (z :: sets) p Hs HG) as (_ & _ & _ & HS). apply HS. now left.
Qed.
Example C66_example :
  let m' := fst (fst (identify (fun l => l) topo_order (CM g13a None None None) (Str "X") (Str "Y") (Backdoor "minimal"))) in
  snd (identify (fun l => l) topo_order (CM g13a None None None) (Str "X") (Str "Y") (Backdoor "minimal")) =
    Ok [ABackdoor (Some (BSets [["Z"; "W"]], backdoor_prob ["X"] ["Y"] ["Z"; "W"]))] /\
  snd (estimate (fun l => l) m' ["X"; "Y"; "Z"; "W"] None None None None false) =
    Ok [Fit 0 (Some (Str "Y")) (Some (Str "X")) CNone (CNames ["Z"; "W"]); Estimate 0].
Proof. split; vm_compute; reflexivity. Qed.
(** After identifying a second pair with another method, estimate still uses the set of the first pair. *)
Theorem C66_refuted_stale :
  exists m, user_graph (cm_graph m) /\
    let m1 := fst (fst (identify (fun l => l) topo_order m (Str "X") (Str "Y") (Backdoor "minimal"))) in
    let m2 := fst (fst (identify (fun l => l) topo_order m1 (Str "T") (Str "Y") General)) in
    cm_treatment m2 = Some (Str "T") /\
    (exists p, snd (identify (fun l => l) topo_order m1 (Str "T") (Str "Y") General) = Ok [AId p]) /\
    snd (estimate (fun l => l) m2 ["C"; "T"; "X"; "Y"] None None None None false) =
      Ok [Fit 0 (Some (Str "Y")) (Some (Str "T")) CNone (CNames []); Estimate 0] /\
    is_valid_backdoor_set (cm_graph m) [] (Str "T") (Str "Y") = Ok false.
Proof.
  exists (CM (init [("D", []); ("X", ["D"]); ("C", []); ("T", ["C"]); ("Y", ["C"; "T"; "X"])] None []) None None None).
  split; [cbn [cm_graph]; user_graph|]. cbv zeta. split; [vm_compute; reflexivity|]. split.
  - match goal with |- context [snd ?x] => remember (snd x) as r eqn:Hr end. vm_compute in Hr. subst r. eauto.
  - split; vm_compute; reflexivity.
Qed.

(* ------------------------------------------------------------------ C31 *)
(** What really happens in every run: two deep copies are fitted, one with the whole list of sets, one with the
    probability expression, and both estimates are asked of the estimator that was passed in and never fitted. *)
Theorem C31_identify_estimate_exact ord m cols t o style m' evs :
  identify_estimate ord m cols t o style = (m', Ok evs) ->
  exists b p, get_backdoor_set ord (cm_graph m) t o style = Ok (Some (b, p)) /\
    evs = [Fit 1 (Some o) (Some t) (CBackdoor b) CNone; Estimate 0; Fit 2 (Some o) (Some t) (CProb p) CNone; Estimate 0].
Proof.
  unfold identify_estimate. destruct (check_nodes cols _); [|discriminate]. destruct (check_all _ _); [|discriminate].
  pose proof (gbs_st_keeps ord m t o style) as (_ & _ & _ & K).
  destruct (get_backdoor_set_st ord m t o style) as [m2 [[[b p]|]|]]; try discriminate. cbn [snd] in K.
  intros H. injection H as _ <-. exists b, p. auto.
Qed.
(** The claim: one fitted copy per set, each evaluated after being fitted. *)
Definition one_per_set (sets : list (list node)) (evs : list event) : Prop :=
  exists objs, List.length objs = List.length sets /\
    (forall k i z, nth_error objs k = Some i -> nth_error sets k = Some z ->
       exists y x c, In (Fit i y x c (CNames z)) evs \/ In (Fit i y x (CNames z) c) evs) /\
    (forall i, In (Estimate i) evs -> exists y x c a, In (Fit i y x c a) evs).
Theorem C31_refuted ord m cols t o style m' evs sets p :
  identify_estimate ord m cols t o style = (m', Ok evs) ->
  get_backdoor_set ord (cm_graph m) t o style = Ok (Some (BSets sets, p)) -> ~ one_per_set sets evs.
Proof.
  intros H HG (objs & _ & _ & HO). destruct (@C31_identify_estimate_exact ord m cols t o style m' evs H) as (b & p' & _ & ->).
  destruct (HO 0) as (y & x & c & a & Hi); [simpl; auto|]. simpl in Hi. intuition discriminate.
Qed.
Example C31_example :
  snd (identify_estimate (fun l => l) m13 ["X"; "Y"; "Z"; "W"] (Str "X") (Str "Y") "all") =
    Ok [Fit 1 (Some (Str "Y")) (Some (Str "X")) (CBackdoor (BSets [["Z"; "W"]])) CNone; Estimate 0;
        Fit 2 (Some (Str "Y")) (Some (Str "X")) (CProb (backdoor_prob ["X"] ["Y"] ["Z"; "W"])) CNone; Estimate 0].
Proof. vm_compute. reflexivity. Qed.

Print Assumptions C29_identify_partial.
Print Assumptions C30_estimate_checked.
Print Assumptions C66_estimate_default_partial.
