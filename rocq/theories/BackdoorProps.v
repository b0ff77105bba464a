(** Properties C13-C18: backdoor sets. *)
From Verif Require Import Base NxModel NxSpec ReachProofs NxProofs GraphModel GraphSpec GraphProofs ExplicitProofs
  GraphProps CausalModel Bn BnProofs ScmSpec ScmProofs PowersetProofs BackdoorSpec BackdoorProofs.
Set Implicit Arguments.
Local Open Scope string_scope.
Local Open Scope list_scope.

(** The hypothesis [user_graph] is met by what the constructor builds. *)
Theorem init_user_graph c arcs : ok_dict c ->
  let g := init c None arcs in
  cg_is_dag g = true -> incl (nodes (dag g)) (keys c) -> forallb (fun n => negb (String.prefix "U" n)) (keys c) = true ->
  user_graph g.
Proof.
  intros Hc g D Hi Hn. destruct (init_implements arcs Hc) as (W & S & _).
  split; auto. intros i Hi'. rewrite forallb_forall in Hn. specialize (Hn _ Hi').
  assert (P : forall s, String.prefix "U" (String (Ascii.ascii_of_nat 85) s) = true) by (intros s; simpl; destruct s; reflexivity).
  unfold uname in Hn. rewrite P in Hn. discriminate.
Qed.
Ltac user_graph := apply init_user_graph; [now apply ok_dictb_spec|reflexivity|now apply subset_spec|reflexivity].

(* ------------------------------------------------------------------ C13 *)
(** Missing for the full claim: a set with a descendant of a treatment is not rejected (C13_refuted), and names
    left without any edge raise NodeNotFound. *)
Theorem C13_is_valid_backdoor_set_partial g z t o : user_graph g ->
  let T := as_set t in let O := as_set o in
  incl (T ++ O ++ z) (keys (causation g)) -> (forall v, In v (T ++ O ++ z) -> touched g T v) ->
  (forall v, In v O -> ~ In v z) -> (forall x v, In x T -> In v z -> ~ reach (is_parent g) x v) ->
  exists b : bool, is_valid_backdoor_set g z t o = Ok b /\ (b = true <-> backdoor_criterion g T O z).
Proof.
  intros U T O Hi HT D1 D2. unfold is_valid_backdoor_set. fold T O.
  rewrite (proj2 (check_nodes_ok _ _) Hi). cbn [bind].
  assert (Ht : incl T (keys (causation g))) by (intros v Hv; apply Hi, in_app_iff; auto).
  destruct (mod_spec U Ht) as (d & Hd & _). rewrite Hd. cbn [bind].
  apply dsep_criterion; auto. intros v Hv. apply (@touched_nodes g U T d v Ht Hd). auto.
Qed.
(** For one treatment a backdoor trail is a trail whose first edge points into the treatment. *)
Theorem C13_single_treatment g x o l : user_graph g ->
  (backdoor_trail g [x] o l <->
   exists y, In y o /\ trail (cause g uname) l x y /\
             match l with _ :: b :: _ => cause g uname b x | _ => True end).
Proof.
  intros U. unfold backdoor_trail. split.
  - intros (x' & y & [<-|[]] & Hy & Tr & Hi). exists y. split; auto. split; auto.
    destruct Tr as (ND & Hw & l' & -> & _). now apply (@into_single g x l' U ND Hw).
  - intros (y & Hy & Tr & Hf). exists x, y. split; [now left|]. split; auto. split; auto.
    destruct Tr as (ND & Hw & l' & -> & _). now apply (@into_single g x l' U ND Hw).
Qed.
Definition g13 := init [("Z", []); ("X", ["Z"]); ("M", ["X"]); ("Y", ["M"; "Z"])] None [].
Lemma g13_ok : user_graph g13.
Proof. user_graph. Qed.
Theorem C13_refuted :
  exists g z t o v, user_graph g /\ is_valid_backdoor_set g z (Str t) (Str o) = Ok true /\ In v z /\
    reach (is_parent g) t v.
Proof.
  exists g13, ["Z"; "M"], "X", "Y", "M". split; [apply g13_ok|]. split; [reflexivity|]. split; [simpl; auto|].
  eapply reach_step; [|constructor]. vm_compute. auto.
Qed.
(** A checkable sufficient condition for [touched]. *)
Definition touchedb (g : cg) (t : list node) (v : node) : bool :=
  match modified_dag g t with Ok d => mem v (nodes d) | Err _ => false end.
Lemma touchedb_spec g t v : user_graph g -> incl t (keys (causation g)) -> touchedb g t v = true -> touched g t v.
Proof.
  intros U Ht H. unfold touchedb in H. destruct (modified_dag g t) as [d|] eqn:Hd; [|discriminate].
  apply (@touched_nodes g U t d v Ht Hd). now apply mem_In.
Qed.
Lemma touched_by g t l : user_graph g -> incl t (keys (causation g)) -> forallb (touchedb g t) l = true ->
  forall v, In v l -> touched g t v.
Proof. intros U Ht H v Hv. rewrite forallb_forall in H. apply touchedb_spec; auto. Qed.
(** A checkable version of "not a descendant". *)
Lemma not_desc_by g t z : user_graph g -> forallb (fun v => negb (mem v (descendents g t))) z = true ->
  forall x v, In x t -> In v z -> ~ reach (is_parent g) x v.
Proof.
  intros U H x v Hx Hv Hr. rewrite forallb_forall in H. specialize (H v Hv). rewrite negb_true_iff, mem_nIn in H.
  apply H. apply descendents_spec; [apply (ug_wf U)|]. eauto.
Qed.
Definition g13a := init [("Z", []); ("W", []); ("X", ["Z"; "W"]); ("Y", ["X"; "Z"])] None [("W", "Y")].
Lemma g13a_ok : user_graph g13a.
Proof. user_graph. Qed.
Example C13_example :
  let T := as_set (Str "X") in let O := as_set (Str "Y") in let z := ["Z"; "W"] in
  incl (T ++ O ++ z) (keys (causation g13a)) /\ (forall v, In v (T ++ O ++ z) -> touched g13a T v) /\
  (forall v, In v O -> ~ In v z) /\ (forall x v, In x T -> In v z -> ~ reach (is_parent g13a) x v) /\
  is_valid_backdoor_set g13a z (Str "X") (Str "Y") = Ok true /\
  is_valid_backdoor_set g13a ["Z"] (Str "X") (Str "Y") = Ok false.
Proof.
  cbv zeta. split; [now apply subset_spec|]. split; [|split; [|split; [|split; reflexivity]]].
  - apply touched_by; [apply g13a_ok|now apply subset_spec|reflexivity].
  - simpl. intuition (subst; discriminate).
  - apply not_desc_by; [apply g13a_ok|reflexivity].
Qed.

(* ------------------------------------------------------------------ C14 *)
(** In every strictly positive discrete structural model of the graph, the adjustment formula of each returned set
    and the returned expression are P(outcome | do(treatment)). *)
Theorem C14_get_backdoor_set_unbiased ord g t o adjust sets p dom cpt a :
  user_graph g -> (forall l, Permutation (ord l) l) -> adjust = "all" \/ adjust = "minimal" ->
  get_backdoor_set ord g t o adjust = Ok (Some (BSets sets, p)) -> compatible g uname dom cpt ->
  (forall z, In z sets ->
     adjustment g uname dom cpt (as_set t) (as_set o) z a = P_do g uname dom cpt (as_set t) (as_set o) a) /\
  eval g uname dom cpt p a = P_do g uname dom cpt (as_set t) (as_set o) a.
Proof.
  intros U Hord Hs H M. destruct (@gbs_sound ord Hord g U t o adjust sets p Hs H) as (Hi & -> & Hne & HS).
  assert (A : forall z, In z sets ->
     adjustment g uname dom cpt (as_set t) (as_set o) z a = P_do g uname dom cpt (as_set t) (as_set o) a).
  { intros z Hz. destruct (HS z Hz) as (ND & HC & Hcr). destruct (cand_disj _ HC) as (D1 & D2 & D3 & _).
    apply criterion_adjustment; auto using as_set_NoDup.
    - intros v Hv. apply Hi, in_app_iff; auto.
    - intros v Hv. rewrite !in_app_iff in Hv. destruct Hv as [Hv|[Hv|Hv]]; auto; apply Hi, in_app_iff; auto. }
  split; auto. destruct sets as [|z sets]; [easy|]. cbn [hd]. rewrite <- (A z) by now left.
  apply backdoor_prob_eval; auto. destruct (HS z) as (_ & HC & _); [now left|]. now destruct (cand_disj _ HC) as (_ & _ & _ & D).
Qed.
Theorem C14_valid_set_unbiased g z t o dom cpt a :
  user_graph g -> is_valid_backdoor_set g z t o = Ok true -> NoDup z ->
  (forall v, In v (as_set o) -> ~ In v z) ->
  (forall x v, In x (as_set t) -> In v z -> ~ reach (is_parent g) x v) -> compatible g uname dom cpt ->
  adjustment g uname dom cpt (as_set t) (as_set o) z a = P_do g uname dom cpt (as_set t) (as_set o) a.
Proof.
  intros U H ND D1 D2 M. unfold is_valid_backdoor_set in H.
  destruct (check_nodes_case (keys (causation g)) (as_set t ++ as_set o ++ z)) as [[Hi Hc]|[_ Hc]]; rewrite Hc in H; [|discriminate].
  cbn [bind] in H. assert (Ht : incl (as_set t) (keys (causation g))) by (intros v Hv; apply Hi, in_app_iff; auto).
  destruct (modified_dag g (as_set t)) as [d|] eqn:Hd; [|discriminate]. cbn [bind] in H.
  apply criterion_adjustment; auto using as_set_NoDup.
  now apply (proj1 (@dsep_bool g U (as_set t) (as_set o) z d true Ht Hd H D1 D2)).
Qed.
(** Structural models compatible with a graph exist: all variables fair coins. *)
Lemma coins g h : compatible g h (fun _ => [0; 1]) (fun _ _ => (/ 2)%R).
Proof.
  split; [discriminate| | |].
  - intros v _ a b _. reflexivity.
  - intros v a _. unfold sumv, sumR. simpl. lra.
  - intros; lra.
Qed.
Example C14_example :
  get_backdoor_set (fun l => l) g13a (Str "X") (Str "Y") "all" =
    Ok (Some (BSets [["Z"; "W"]], backdoor_prob ["X"] ["Y"] ["Z"; "W"])) /\
  compatible g13a uname (fun _ => [0; 1]) (fun _ _ => (/ 2)%R).
Proof. split; [reflexivity|apply coins]. Qed.

(* ------------------------------------------------------------------ C15 *)
Theorem C15_all ord g t o sets p : user_graph g -> (forall l, Permutation (ord l) l) ->
  get_backdoor_set ord g t o "all" = Ok (Some (BSets sets, p)) ->
  let T := as_set t in let O := as_set o in
  (forall z, In z sets -> NoDup z /\ (forall v, In v z -> candidate g T O v) /\ backdoor_criterion g T O z) /\
  (forall z, (forall v, In v z -> candidate g T O v) -> backdoor_criterion g T O z ->
     exists z', In z' sets /\ forall v, In v z <-> In v z') /\
  NoDup sets /\ (forall z z', In z sets -> In z' sets -> (forall v, In v z <-> In v z') -> z = z').
Proof.
  intros U Hord H T O. split.
  - apply (@gbs_sound ord Hord g U t o "all" sets p (or_introl eq_refl) H).
  - apply (@gbs_all_complete ord Hord g U t o sets p H).
Qed.
Theorem C15_minimal ord g t o sets p : user_graph g -> (forall l, Permutation (ord l) l) ->
  get_backdoor_set ord g t o "minimal" = Ok (Some (BSets sets, p)) ->
  let T := as_set t in let O := as_set o in
  exists z, sets = [z] /\ NoDup z /\ (forall v, In v z -> candidate g T O v) /\ backdoor_criterion g T O z /\
    forall z', NoDup z' -> (forall v, In v z' -> candidate g T O v) -> backdoor_criterion g T O z' ->
      List.length z <= List.length z'.
Proof.
  intros U Hord H T O. destruct (@gbs_minimal ord Hord g U t o sets p H) as (z & -> & Hm). exists z. split; auto.
  destruct (@gbs_sound ord Hord g U t o "minimal" [z] p (or_intror eq_refl) H) as (_ & _ & _ & HS).
  destruct (HS z) as (H1 & H2 & H3); [now left|]. auto.
Qed.
(** IdentificationError: no set of candidates satisfies the criterion. *)
Theorem C15_error ord g t o adjust : user_graph g -> (forall l, Permutation (ord l) l) ->
  adjust = "all" \/ adjust = "minimal" -> get_backdoor_set ord g t o adjust = Err IdentificationError ->
  forall z, (forall v, In v z -> candidate g (as_set t) (as_set o) v) -> ~ backdoor_criterion g (as_set t) (as_set o) z.
Proof. intros U Hord Hs H. exact (@gbs_error ord Hord g U t o adjust Hs H). Qed.
Definition g15 := init [("Z", []); ("W", []); ("Q", ["W"]); ("X", ["Z"; "Q"]); ("Y", ["X"; "Z"; "W"])] None [("Z", "W")].
Lemma g15_ok : user_graph g15.
Proof. user_graph. Qed.
Example C15_example :
  get_backdoor_set (fun l => l) g15 (Str "X") (Str "Y") "all" =
    Ok (Some (BSets [["Z"; "W"]; ["Z"; "Q"]; ["Z"; "W"; "Q"]], backdoor_prob ["X"] ["Y"] ["Z"; "W"])) /\
  (exists p, get_backdoor_set (@rev _) g15 (Str "X") (Str "Y") "minimal" = Ok (Some (BSets [["Q"; "Z"]], p))) /\
  get_backdoor_set (fun l => l) (init [("Z", []); ("X", ["Z"]); ("Y", ["X"])] None [("X", "Y")]) (Str "X") (Str "Y") "all"
    = Err IdentificationError.
Proof. split; [reflexivity|]. split; [vm_compute; eexists; reflexivity|reflexivity]. Qed.

(* ------------------------------------------------------------------ C16 *)
(** Missing for the full claim: latent arcs at a treatment, treatments (or outcomes) that are parents of treatments,
    where the returned set is not valid (C16_refuted). *)
Theorem C16_simple_partial ord g t o l p : user_graph g -> (forall l, Permutation (ord l) l) ->
  get_backdoor_set ord g t o "simple" = Ok (Some (BNames l, p)) ->
  let T := as_set t in let O := as_set o in
  (forall v, In v T -> ~ In v O) ->
  (forall x a b, In x T -> In (a, b) (latent_confounding_arcs g) -> a <> x /\ b <> x) ->
  (forall x q, In x T -> is_parent g q x -> ~ In q O /\ forall x', In x' T -> ~ reach (is_parent g) x' q) ->
  (forall v, In v l <-> exists x, In x T /\ is_parent g v x) /\
  backdoor_criterion g T O l /\
  forall dom cpt a, compatible g uname dom cpt -> eval g uname dom cpt p a = P_do g uname dom cpt T O a.
Proof.
  intros U Hord H T O DTO Harc Hpar. unfold get_backdoor_set in H. fold T O in H.
  destruct (check_nodes_case (keys (causation g)) (O ++ T)) as [[Hi Hc]|[_ Hc]]; rewrite Hc in H; [|discriminate].
  cbn [bind] in H. assert (Ht : incl T (keys (causation g))) by (intros v Hv; apply Hi, in_app_iff; auto).
  destruct (modified_dag g T) as [d|] eqn:Hd; [|discriminate]. cbn [bind] in H.
  destruct (determine g d T O) as [b|] eqn:Hdet; [|discriminate]. cbn [bind] in H.
  destruct b; [|discriminate]. cbn [negb] in H. change (eqb "simple" "simple") with true in H. cbn iota in H.
  injection H as Hl Hp.
  assert (HL : forall v, In v l <-> exists x, In x T /\ is_parent g v x).
  { intros v. rewrite <- Hl, in_flat_map. split; intros (x & Hx & Hv); exists x; split; auto.
    - eapply Permutation_in; [apply Hord|exact Hx]. - eapply Permutation_in; [symmetry; apply Hord|exact Hx]. }
  assert (HCr : backdoor_criterion g T O l).
  { split.
    - intros x v Hx Hv. apply HL in Hv as (x' & Hx' & Hv). apply (Hpar x' v Hx' Hv). auto.
    - intros tr (x & y & Hx & Hy & (ND & Hw & l' & -> & Hlast) & Hin) Ha.
      destruct l' as [|q [|c r]].
      + cbn in Hlast. subst y. eapply DTO; eauto.
      + cbn in Hlast. subst y. cbn [uwalk into] in Hw, Hin. destruct Hin as (I1 & _). destruct Hw as [[Hw|Hw] _]; [now apply I1 in Hw|].
        destruct Hw as [Hw|(i & a & b & Hia & -> & Hv)].
        * now apply Hpar in Hw as [Hw _].
        * apply nth_error_In in Hia. apply (Harc x) in Hia; auto. destruct Hv as [->| ->]; tauto.
      + cbn [uwalk into active] in Hw, Hin, Ha. destruct Hin as (I1 & _). destruct Hw as [[Hw|Hw] _]; [now apply I1 in Hw|].
        destruct Ha as [[[[Hc1 _] _]|[_ Hn]] _].
        * eapply (E_asym (ug_cause_acyclic U)); eauto.
        * destruct Hw as [Hw|(i & a & b & Hia & -> & Hv)].
          -- apply Hn, HL. eauto.
          -- apply nth_error_In in Hia. apply (Harc x) in Hia; auto. destruct Hv as [->| ->]; tauto. }
  split; auto. split; auto. intros dom cpt a M. rewrite <- Hp. rewrite Hl.
  assert (HE : forall v, In v (dedup l) <-> In v l) by (intros; apply dedup_In).
  assert (HCr' : backdoor_criterion g T O (dedup l)) by (eapply criterion_ext; [|exact HCr]; intros; symmetry; apply HE).
  rewrite (@backdoor_prob_eval g U dom cpt M).
  - apply criterion_adjustment; auto; [apply as_set_NoDup|apply as_set_NoDup|apply dedup_NoDup| |].
    + intros v Hv. rewrite !in_app_iff in Hv. destruct Hv as [Hv|[Hv|Hv]]; try (apply Hi, in_app_iff; auto; fail).
      apply HE, HL in Hv as (x & _ & Hv). now apply (parent_keys (ug_wf U) (ug_closed U)) in Hv.
    + intros v Hv Hv'. apply HE, HL in Hv' as (x & Hx & Hv'). now apply Hpar in Hv' as [Hv' _].
  - intros v Hv Hv'. destruct HCr' as [H1 _]. apply (H1 v v); auto. constructor.
Qed.
Example C16_example :
  let g := g13 in get_backdoor_set (fun l => l) g (Str "X") (Str "Y") "simple" =
    Ok (Some (BNames ["Z"], backdoor_prob ["X"] ["Y"] ["Z"])) /\
  (forall x q, In x ["X"] -> is_parent g q x -> ~ In q ["Y"] /\ forall x', In x' ["X"] -> ~ reach (is_parent g) x' q) /\
  latent_confounding_arcs g = [].
Proof.
  cbv zeta. split; [reflexivity|]. split; [|reflexivity]. intros x q [<-|[]] Hq. vm_compute in Hq. destruct Hq as [<-|[]].
  split; [simpl; intuition discriminate|]. intros x' Hx'.
  apply (@not_desc_by g13 ["X"] ["Z"] g13_ok eq_refl x' "Z" Hx'). now left.
Qed.
Theorem C16_refuted :
  exists g t o l p, user_graph g /\ get_backdoor_set (fun l => l) g (Str t) (Str o) "simple" = Ok (Some (BNames l, p)) /\
    ~ backdoor_criterion g [t] [o] l.
Proof.
  set (g := init [("Z", []); ("X", ["Z"]); ("Y", ["X"])] None [("X", "Y")]).
  assert (U : user_graph g) by user_graph.
  exists g, "X", "Y", ["Z"], (backdoor_prob ["X"] ["Y"] ["Z"]). split; [exact U|]. split; [vm_compute; reflexivity|].
  assert (Ht : incl ["X"] (keys (causation g))) by now apply subset_spec.
  destruct (mod_spec U Ht) as (d & Hd & _). pose proof Hd as Hd'. vm_compute in Hd'. injection Hd' as Hd'.
  intros Hc. assert (HH : false = true); [|discriminate].
  apply (@dsep_bool g U ["X"] ["Y"] ["Z"] d false Ht Hd); auto.
  - rewrite <- Hd'. reflexivity.
  - simpl. intuition (subst; discriminate).
  - apply not_desc_by; [exact U|reflexivity].
Qed.

(* ------------------------------------------------------------------ C17 *)
(** When every name keeps an edge after cutting the edges out of the treatments and some treatment has a parent,
    the search returns sets or raises IdentificationError, the latter iff there is no set.  Missing: treatments
    without parents and names without edges (C17_refuted_none, C17_refuted_crash). *)
Theorem C17_fails_only_if_none_partial ord g t o adjust : user_graph g -> (forall l, Permutation (ord l) l) ->
  adjust = "all" \/ adjust = "minimal" ->
  let T := as_set t in let O := as_set o in
  incl (O ++ T) (keys (causation g)) ->
  (forall v, In v (keys (causation g)) -> ~ In v T -> (forall x, In x T -> ~ reach (is_parent g) x v) -> touched g T v) ->
  (forall v, In v (T ++ O) -> touched g T v) ->
  (forall x, In x T -> exists m, is_parent g x m \/ is_parent g m x) ->
  (exists x, In x T /\ lookup (causation g) x <> []) ->
  ((exists sets p, get_backdoor_set ord g t o adjust = Ok (Some (BSets sets, p))) \/
   get_backdoor_set ord g t o adjust = Err IdentificationError) /\
  (get_backdoor_set ord g t o adjust = Err IdentificationError <->
   ~ exists z, (forall v, In v z -> candidate g T O v) /\ backdoor_criterion g T O z).
Proof.
  intros U Hord Hs T O Hi T1 T2 T3 T4.
  destruct (@gbs_total ord Hord g U t o adjust Hs Hi T1 T2 T3 T4) as [(sets & p & H)|H].
  - split; [left; eauto|]. split; [congruence|]. intros Hn. exfalso. apply Hn.
    destruct (@gbs_sound ord Hord g U t o adjust sets p Hs H) as (_ & _ & Hne & HS).
    destruct sets as [|z sets]; [easy|]. destruct (HS z) as (_ & H1 & H2); [now left|]. exists z. auto.
  - split; [right; auto|]. split; auto. intros _ (z & H1 & H2). eapply (@gbs_error ord Hord g U t o adjust Hs H z); auto.
Qed.
Example C17_example :
  let T := as_set (Str "X") in let O := as_set (Str "Y") in
  incl (O ++ T) (keys (causation g15)) /\
  (forall v, In v (keys (causation g15)) -> ~ In v T -> (forall x, In x T -> ~ reach (is_parent g15) x v) -> touched g15 T v) /\
  (forall v, In v (T ++ O) -> touched g15 T v) /\
  (forall x, In x T -> exists m, is_parent g15 x m \/ is_parent g15 m x) /\
  (exists x, In x T /\ lookup (causation g15) x <> []).
Proof.
  cbv zeta. assert (K : incl ["X"] (keys (causation g15))) by now apply subset_spec.
  split; [now apply subset_spec|]. split; [|split; [|split]].
  - intros v Hv _ _. revert v Hv. apply touched_by; [apply g15_ok|exact K|reflexivity].
  - apply touched_by; [apply g15_ok|exact K|reflexivity].
  - intros x [<-|[]]. exists "Z". right. vm_compute. auto.
  - exists "X". split; [now left|]. vm_compute. discriminate.
Qed.
(** The printed "no set" (None): every treatment is a root and the empty set does not work ... *)
Theorem C17_none ord g t o adjust : user_graph g -> (forall l, Permutation (ord l) l) ->
  get_backdoor_set ord g t o adjust = Ok None ->
  (forall x p, In x (as_set t) -> ~ is_parent g p x) /\ ~ backdoor_criterion g (as_set t) (as_set o) [].
Proof.
  intros U Hord H. unfold get_backdoor_set in H. set (T := as_set t) in *. set (O := as_set o) in *.
  destruct (check_nodes_case (keys (causation g)) (O ++ T)) as [[Hi Hc]|[_ Hc]]; rewrite Hc in H; [|discriminate].
  cbn [bind] in H. assert (Ht : incl T (keys (causation g))) by (intros v Hv; apply Hi, in_app_iff; auto).
  destruct (modified_dag g T) as [d|] eqn:Hd; [|discriminate]. cbn [bind] in H.
  destruct (determine g d T O) as [b|] eqn:Hdet; [|discriminate]. cbn [bind] in H. destruct b; cbn [negb] in H.
  - exfalso. destruct (eqb adjust "simple"); [discriminate|].
    destruct (mapM _ _) as [des|]; [|discriminate]. cbn [bind] in H.
    destruct (if eqb adjust "minimal" then _ else _) as [s|] in H; [|discriminate]. cbn [bind] in H.
    destruct (if is_nil s then _ else _) as [f|] in H; [|discriminate]. cbn [bind] in H.
    destruct f; [discriminate|]. destruct (_ || _); discriminate.
  - unfold determine in Hdet. destruct (forallb _ T) eqn:Hf; [|discriminate]. split.
    + intros x p Hx Hp. rewrite forallb_forall in Hf. specialize (Hf x Hx). unfold is_parent in Hp.
      destruct (lookup (causation g) x); [destruct Hp|discriminate].
    + intros Hc'. assert (false = true); [|discriminate].
      apply (@dsep_bool g U T O [] d false Ht Hd Hdet); auto.
Qed.
(** ... which does not mean that there is none. *)
Theorem C17_refuted_none :
  exists g t o z, user_graph g /\ get_backdoor_set (fun l => l) g (Str t) (Str o) "all" = Ok None /\
    (forall v, In v z -> candidate g [t] [o] v) /\ backdoor_criterion g [t] [o] z.
Proof.
  set (g := init [("X", []); ("A", []); ("Y", ["A"; "X"])] None [("X", "A")]).
  assert (U : user_graph g) by user_graph.
  exists g, "X", "Y", ["A"]. split; [exact U|]. split; [reflexivity|].
  assert (ND : forall x v, In x ["X"] -> In v ["A"] -> ~ reach (is_parent g) x v) by (apply not_desc_by; [exact U|reflexivity]).
  split.
  - intros v [<-|[]]. split; [vm_compute; auto|]. split; [simpl; intuition discriminate|]. split; [simpl; intuition discriminate|].
    intros x Hx. apply ND; simpl; auto.
  - assert (Ht : incl ["X"] (keys (causation g))) by now apply subset_spec.
    destruct (mod_spec U Ht) as (d & Hd & _). pose proof Hd as Hd'. vm_compute in Hd'. injection Hd' as Hd'.
    apply (@dsep_bool g U ["X"] ["Y"] ["A"] d true Ht Hd); auto.
    + rewrite <- Hd'. reflexivity.
    + simpl. intuition (subst; discriminate).
Qed.
(** A randomised treatment X -> Y: the empty set is valid, the call raises NodeNotFound. *)
Theorem C17_refuted_crash :
  exists g t o, user_graph g /\ In t (keys (causation g)) /\ In o (keys (causation g)) /\
    (forall adjust, get_backdoor_set (fun l => l) g (Str t) (Str o) adjust = Err NodeNotFound) /\
    backdoor_criterion g [t] [o] [].
Proof.
  set (g := init [("X", []); ("Y", ["X"])] None []).
  assert (U : user_graph g) by user_graph.
  exists g, "X", "Y". split; [exact U|]. split; [simpl; auto|]. split; [simpl; auto|]. split; [reflexivity|].
  split; [intros x v _ []|]. intros l (x & y & [<-|[]] & [<-|[]] & (ND & Hw & l' & -> & Hlast) & Hin) _.
  destruct l' as [|b l']; [discriminate|]. cbn [uwalk into] in Hw, Hin. destruct Hin as (I1 & _).
  destruct Hw as [[Hw|Hw] _]; [apply I1 in Hw; apply Hw; now left|].
  destruct Hw as [Hw|(i & a & c & Hi & _)]; [vm_compute in Hw; destruct Hw|].
  unfold arcs in Hi. change (latent_confounding_arcs g) with (@nil (node * node)) in Hi. destruct i; discriminate.
Qed.

(* ------------------------------------------------------------------ C18 *)
Theorem C18_powerset ord (s : list node) : (forall l, Permutation (ord l) l) -> NoDup s ->
  List.length (powerset (ord s)) = 2 ^ List.length s /\
  (forall p, In p (powerset (ord s)) -> NoDup p /\ incl p s) /\
  (forall z, incl z s -> exists p, In p (powerset (ord s)) /\ forall x, In x p <-> In x z) /\
  NoDup (powerset (ord s)) /\
  (forall p q, In p (powerset (ord s)) -> In q (powerset (ord s)) -> (forall x, In x p <-> In x q) -> p = q) /\
  (forall l1 p l2 q l3, powerset (ord s) = l1 ++ p :: l2 ++ q :: l3 -> List.length p <= List.length q).
Proof.
  intros Hord ND. assert (NDo : NoDup (ord s)) by (eapply Permutation_NoDup; [symmetry; apply Hord|auto]).
  assert (HI : forall x, In x (ord s) <-> In x s) by (intros; split; apply Permutation_in; [|symmetry]; apply Hord).
  split; [|split; [|split; [|split; [|split]]]].
  - rewrite powerset_count. f_equal. apply Permutation_length, Hord.
  - intros p Hp. apply powerset_subset in Hp as [H1 H2]; auto. split; auto. intros x Hx. apply HI, H1, Hx.
  - intros z Hz. apply powerset_complete; auto. intros x Hx. apply HI, Hz, Hx.
  - now apply powerset_NoDup.
  - intros p q. now apply powerset_unique.
  - intros l1 p l2 q l3. now apply powerset_sorted.
Qed.
Example C18_example : powerset ["a"; "b"; "c"] =
  [[]; ["a"]; ["b"]; ["c"]; ["a"; "b"]; ["a"; "c"]; ["b"; "c"]; ["a"; "b"; "c"]].
Proof. reflexivity. Qed.

Print Assumptions C13_is_valid_backdoor_set_partial.
Print Assumptions C14_get_backdoor_set_unbiased.
Print Assumptions C15_all.
Print Assumptions C17_fails_only_if_none_partial.
