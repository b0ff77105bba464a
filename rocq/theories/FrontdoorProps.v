(** Properties C22, C23, C65: the frontdoor criterion, the search, and the frontdoor formula. *)
From Verif Require Import Base NxModel NxSpec ReachProofs NxProofs GraphModel GraphSpec GraphProofs ExplicitProofs
  GraphProps CausalModel Bn BnProofs ScmSpec ScmProofs PowersetProofs BackdoorSpec BackdoorProofs BackdoorProps
  PathSpec PathProofs PathProps FrontdoorProofs FrontdoorSearch.
Set Implicit Arguments.
Local Open Scope string_scope.
Local Open Scope list_scope.

(** the name has an observed edge *)
Definition linked (g : cg) (v : node) : Prop := exists m, is_parent g v m \/ is_parent g m v.

(* ------------------------------------------------------------------ C22 *)
(** Whenever the call answers, on a set without ancestors of the treatment, the answer is the criterion; and it
    answers when every letter of the two names is itself a name (one-letter names) and no name loses all its edges.
    Missing for the full claim: C22_refuted_names, C22_refuted_ancestor, C22_refuted_crash. *)
Theorem C22_is_frontdoor_set_partial ord g t o z : user_graph g -> (forall l, Permutation (ord l) l) ->
  incl (t :: o :: z) (keys (causation g)) -> t <> o -> ~ In t z -> ~ In o z -> linked g t -> linked g o ->
  (forall s, In s z -> drawn g s) -> (forall s, In s z -> ~ reach (is_parent g) s t) ->
  (forall b, is_frontdoor_set ord g z t o = Ok b -> (b = true <-> frontdoor_criterion g t o z)) /\
  (incl (chars t ++ chars o) (keys (causation g)) -> (forall v, In v (t :: o :: z) -> touched g z v) ->
   exists b, is_frontdoor_set ord g z t o = Ok b).
Proof.
  intros U Hord Hk Hto Htz Hoz Et Eo Dz Az.
  assert (Kt : In t (keys (causation g))) by (apply Hk; now left).
  assert (Ko : In o (keys (causation g))) by (apply Hk; right; now left).
  assert (Kz : incl z (keys (causation g))) by (intros v Hv; apply Hk; now right; right).
  split.
  - intros b. apply is_frontdoor_iff; auto.
  - apply is_frontdoor_total; auto.
Qed.
Definition g22 := init [("X", []); ("M", ["X"]); ("Y", ["M"])] None [("X", "Y")].
Lemma g22_ok : user_graph g22.
Proof. user_graph. Qed.
(** a checkable version of "not an ancestor" *)
Lemma not_anc_by g t z : user_graph g -> forallb (fun v => negb (mem v (ancestors g [t]))) z = true ->
  forall s, In s z -> ~ reach (is_parent g) s t.
Proof.
  intros U H s Hs Hr. rewrite forallb_forall in H. specialize (H s Hs). rewrite negb_true_iff, mem_nIn in H.
  apply H. apply ancestors_spec; [apply (ug_wf U)|]. exists t. split; [now left|auto].
Qed.
Lemma linked_by g l : user_graph g -> subset l (nodes (observed_dag g)) = true -> forall v, In v l -> linked g v.
Proof. intros U H v Hv. apply subset_spec in H. apply (D_nodes U). auto. Qed.
Example C22_example :
  incl ["X"; "Y"; "M"] (keys (causation g22)) /\ linked g22 "X" /\ linked g22 "Y" /\
  (forall s, In s ["M"] -> drawn g22 s) /\ (forall s, In s ["M"] -> ~ reach (is_parent g22) s "X") /\
  incl (chars "X" ++ chars "Y") (keys (causation g22)) /\ (forall v, In v ["X"; "Y"; "M"] -> touched g22 ["M"] v) /\
  is_frontdoor_set (fun l => l) g22 ["M"] "X" "Y" = Ok true /\ is_frontdoor_set (fun l => l) g22 [] "X" "Y" = Ok false.
Proof.
  split; [now apply subset_spec|]. split; [|split; [|split; [|split; [|split; [|split; [|split; reflexivity]]]]]].
  - apply (@linked_by g22 ["X"] g22_ok); [reflexivity|now left].
  - apply (@linked_by g22 ["Y"] g22_ok); [reflexivity|now left].
  - apply drawn_by; [apply g22_ok|reflexivity].
  - apply not_anc_by; [apply g22_ok|reflexivity].
  - now apply subset_spec.
  - apply touched_by; [apply g22_ok|now apply subset_spec|reflexivity].
Qed.
(** A name with a letter that is not itself a name of the graph is always rejected. *)
Theorem C22_refuted_names ord g z t o : ~ incl (chars t ++ chars o) (keys (causation g)) ->
  is_frontdoor_set ord g z t o = Err AssertionError.
Proof.
  intros H. unfold is_frontdoor_set.
  destruct (check_nodes_case (keys (causation g)) (z ++ chars t ++ chars o)) as [[Hi _]|[_ Hc]].
  - exfalso. apply H. intros v Hv. apply Hi, in_app_iff; auto.
  - now rewrite Hc.
Qed.
Example C22_refuted_names_example :
  let g := init [("X1", []); ("M", ["X1"]); ("Y", ["M"])] None [("X1", "Y")] in
  user_graph g /\ ~ incl (chars "X1" ++ chars "Y") (keys (causation g)) /\
  is_frontdoor_set (fun l => l) g ["M"] "X1" "Y" = Err AssertionError.
Proof.
  cbv zeta. split; [user_graph|]. split; [|reflexivity]. intros H. specialize (H "X" (or_introl eq_refl)).
  vm_compute in H. intuition discriminate.
Qed.
(** A cause of the treatment in the set leaves an open backdoor path, and is accepted. *)
Theorem C22_refuted_ancestor :
  exists g z t o, user_graph g /\ is_frontdoor_set (fun l => l) g z t o = Ok true /\ ~ frontdoor_criterion g t o z.
Proof.
  exists (init [("Q", []); ("S", ["Q"]); ("X", ["S"]); ("M", ["X"]); ("W", []); ("Y", ["M"; "W"])] None []), ["S"; "M"], "X", "Y".
  set (g := init _ _ _). assert (U : user_graph g) by user_graph.
  split; [exact U|]. split; [vm_compute; reflexivity|].
  intros (_ & F2 & _). apply (F2 ["X"; "S"]); [|exact I].
  apply (@C13_single_treatment g "X" ["S"; "M"] ["X"; "S"] U). exists "S". split; [now left|].
  assert (HE : cause g uname "S" "X") by (left; vm_compute; auto). split; [|exact HE].
  split; [repeat constructor; simpl; intuition discriminate|]. split; [split; [now right|exact I]|]. exists ["S"]. auto.
Qed.
(** An outcome whose only edges come from the set raises NodeNotFound. *)
Theorem C22_refuted_crash :
  exists g z t o, user_graph g /\ is_frontdoor_set (fun l => l) g z t o = Err NodeNotFound /\ frontdoor_criterion g t o z.
Proof.
  set (g := init [("X", []); ("M", ["X"]); ("Y", ["M"])] None []).
  assert (U : user_graph g) by user_graph.
  assert (CL : forall a b, cause g uname a b -> (a, b) = ("X", "M") \/ (a, b) = ("M", "Y")).
  { intros a b H. apply (@cause_list g a b U) in H. vm_compute in H. intuition congruence. }
  exists g, ["M"], "X", "Y". split; [exact U|]. split; [vm_compute; reflexivity|]. split; [|split].
  - intros l Hl. destruct l as [|a l].
    + exfalso. destruct Hl as [H _]. vm_compute in H. destruct H as [H|[]]. discriminate.
    + destruct Hl as [H _]. assert (Hc : cause g uname "X" a) by now left. apply CL in Hc as [Hc|Hc]; [|discriminate].
      injection Hc as ->. exists "M". simpl. auto.
  - intros l Hl. apply (@C13_single_treatment g "X" ["M"] l U) in Hl as (y & [<-|[]] & (_ & _ & l' & -> & Hlast) & Hf).
    destruct l' as [|b l']; [discriminate|]. apply CL in Hf as [Hf|Hf]; discriminate.
  - intros l (x & y & [<-|[]] & [<-|[]] & (ND & Hw & l' & -> & Hlast) & Hi) Ha.
    destruct l' as [|b l']; [discriminate|]. destruct Hi as (I1 & I2 & _). destruct Hw as [[Hw|Hw] Hw'].
    + apply (I1 Hw). now left.
    + apply CL in Hw as Hw2. destruct Hw2 as [Hw2|Hw2]; [|discriminate]. injection Hw2 as ->.
      destruct l' as [|c l']; [discriminate|]. destruct Hw' as [[Hc|Hc] _]; apply CL in Hc as [Hc|Hc]; try discriminate.
      injection Hc as ->. inversion ND as [|? ? H1 _]; subst. apply H1. simpl. auto.
Qed.

(* ------------------------------------------------------------------ C23 *)
(** the nodes strictly between treatment and outcome on directed paths *)
Definition between (g : cg) (t o v : node) : Prop :=
  v <> t /\ v <> o /\ reach (is_parent g) t v /\ reach (is_parent g) v o.
(** the two accepted ways of passing the names *)
Definition passes (ta oa : names) (t o : node) : Prop := (ta = Str t /\ oa = Str o) \/ (ta = SetOf [t] /\ oa = SetOf [o]).

Lemma walk_concat {A} (R : A -> A -> Prop) a l v m : dwalk R (a :: l) -> last (a :: l) a = v -> dwalk R (v :: m) ->
  dwalk R ((a :: l) ++ m).
Proof.
  revert a. induction l as [|b l IH]; intros a H Hl Hm.
  - cbn in Hl. subst. exact Hm.
  - destruct H as [H1 H2]. split; auto. change (dwalk R ((b :: l) ++ m)). apply IH; auto.
    rewrite last_cons_nonempty in Hl by discriminate. rewrite <- Hl. apply last_default. discriminate.
Qed.
Lemma dwalk_reach_end {A} (R : A -> A -> Prop) a l v y : dwalk R (a :: l ++ [y]) -> In v (a :: l ++ [y]) -> reach R v y.
Proof.
  revert a v. induction l as [|b l IH]; intros a v [Hab H] Hv; cbn [app] in Hv.
  - destruct Hv as [<-|[<-|[]]]; [|constructor]. eapply reach_step; [exact Hab|constructor].
  - destruct Hv as [<-|Hv].
    + eapply reach_step; [exact Hab|]. eapply IH; [exact H|now left].
    + eapply IH; [exact H|exact Hv].
Qed.

(** no step of the checks raises IdentificationError *)
Definition noid {A} (r : res A) : Prop := r <> Err IdentificationError.
Lemma noid_bind {A B} (r : res A) (k : A -> res B) : noid r -> (forall x, noid (k x)) -> noid (bind r k).
Proof. unfold noid. intros H1 H2. destruct r as [x|e]; cbn [bind]; [apply H2|]. intros Hc. apply H1. congruence. Qed.
Lemma noid_Ok {A} (x : A) : noid (Ok x).
Proof. discriminate. Qed.
Lemma noid_check l m : noid (check_nodes l m).
Proof. unfold noid, check_nodes. destruct (subset _ _); discriminate. Qed.
Lemma noid_mapM {A B} (f : A -> res B) l : (forall x, noid (f x)) -> noid (mapM f l).
Proof. intros H. induction l as [|x l IH]; cbn [mapM]; [apply noid_Ok|]. apply noid_bind; auto. intros. apply noid_bind; auto. intros; apply noid_Ok. Qed.
Lemma noid_allM {A} (f : A -> res bool) l : (forall x, noid (f x)) -> noid (allM f l).
Proof. intros H. induction l as [|x l IH]; cbn [allM]; [apply noid_Ok|]. apply noid_bind; auto. intros []; auto. apply noid_Ok. Qed.
Lemma noid_asp d n a b : noid (asp d n a b).
Proof.
  unfold asp. destruct (negb _); [discriminate|]. set (ts := if mem b (nodes d) then _ else _).
  destruct (mem a ts); [discriminate|]. apply noid_bind; [|intros; apply noid_Ok]. apply noid_mapM. intros x.
  unfold all_simple_paths. destruct (_ && _); [|discriminate]. destruct (eqb a x); discriminate.
Qed.
Lemma noid_gbp g a b : noid (get_backdoor_path g a b).
Proof. apply noid_bind; [apply noid_check|]. intros _. apply noid_bind; [apply noid_asp|]. intros; apply noid_Ok. Qed.
Lemma noid_collider g p b : noid (has_collider g p b).
Proof.
  unfold has_collider. apply noid_bind; [apply noid_check|]. intros _. destruct p as [|x [|y p]]; try discriminate.
  destruct (Nat.leb _ _); [discriminate|]. destruct (negb _); [discriminate|]. destruct (_ && _); [|discriminate].
  destruct (Nat.eqb _ 3); [discriminate|]. destruct (first_fwd _ _) as [[|? [|]]|]; discriminate.
Qed.
Lemma noid_connected g p : noid (is_connected_backdoor_path g p).
Proof.
  unfold is_connected_backdoor_path. apply noid_bind; [apply noid_check|]. intros _. destruct p as [|x [|y p]]; try discriminate.
  destruct (negb _); [discriminate|]. apply noid_bind; [apply noid_collider|]. intros []; [discriminate|].
  apply noid_bind; [apply noid_gbp|]. intros; apply noid_Ok.
Qed.
Lemma noid_remove_edges es : forall g, snd (remove_edges_obs g es) <> Some IdentificationError.
Proof.
  induction es as [|e es IH]; intros g; cbn [remove_edges_obs]; [discriminate|].
  assert (H : snd (remove_edge_obs g e) <> Some IdentificationError).
  { unfold remove_edge_obs, remove_edge_key. destruct (mem (_, _, _) _); discriminate. }
  destruct (remove_edge_obs g e) as [g' [x|]]; cbn [snd] in *; auto.
Qed.
Lemma noid_valid g z t o : noid (is_valid_backdoor_set g z t o).
Proof.
  unfold is_valid_backdoor_set. apply noid_bind; [apply noid_check|]. intros _. apply noid_bind.
  - unfold modified_dag. apply noid_bind; [|intros; apply noid_Ok]. unfold remove_outgoing_edges_new, remove_outgoing_edges, remove_edges_from.
    destruct (check_nodes _ _) as [|e] eqn:Hc.
    + match goal with |- context [remove_edges_obs ?a ?b] => pose proof (noid_remove_edges b a) as H; destruct (remove_edges_obs a b) as [g' [e|]] end;
        [|discriminate]. cbn in H. unfold noid. congruence.
    + pose proof (noid_check (keys (causation g)) (as_set t)) as H. unfold noid in *. congruence.
  - intros d. unfold d_separated. destruct (negb _); [discriminate|]. destruct (negb _); discriminate.
Qed.
Lemma is_frontdoor_set_noid ord g z t o : noid (is_frontdoor_set ord g z t o).
Proof.
  unfold is_frontdoor_set. apply noid_bind; [apply noid_check|]. intros _. apply noid_bind; [apply noid_asp|]. intros ps.
  destruct (negb _); [discriminate|]. apply noid_bind.
  - apply noid_allM. intros s. apply noid_bind; [apply noid_gbp|]. intros bs. apply noid_allM. intros p. unfold notM.
    apply noid_bind; [apply noid_connected|]. intros; apply noid_Ok.
  - intros []; [apply noid_valid|discriminate].
Qed.
Lemma firstM_noid {A} (f : A -> res bool) l : (forall x, noid (f x)) -> noid (firstM f l).
Proof. intros H. induction l as [|x l IH]; cbn [firstM]; [apply noid_Ok|]. apply noid_bind; auto. intros []; auto. apply noid_Ok. Qed.
Lemma filterM_noid {A} (f : A -> res bool) l : (forall x, noid (f x)) -> noid (filterM f l).
Proof. intros H. induction l as [|x l IH]; cbn [filterM]; [apply noid_Ok|]. apply noid_bind; auto. intros b. apply noid_bind; auto. intros; apply noid_Ok. Qed.
Lemma firstM_total {A} (f : A -> res bool) l : (forall x, In x l -> exists b, f x = Ok b) -> exists r, firstM f l = Ok r.
Proof.
  induction l as [|x l IH]; intros H; cbn [firstM]; [eauto|]. destruct (H x) as [b Hb]; [now left|]. rewrite Hb. cbn [bind].
  destruct b; [eauto|]. apply IH. intros y Hy. apply H. now right.
Qed.
Lemma filterM_total {A} (f : A -> res bool) l : (forall x, In x l -> exists b, f x = Ok b) -> exists r, filterM f l = Ok r.
Proof.
  induction l as [|x l IH]; intros H; cbn [filterM]; [eauto|]. destruct (H x) as [b Hb]; [now left|]. rewrite Hb. cbn [bind].
  destruct IH as [r Hr]; [intros y Hy; apply H; now right|]. rewrite Hr. cbn [bind]. eauto.
Qed.

Section Search.
  Variable ord : list node -> list node.
  Hypothesis Hord : forall l, Permutation (ord l) l.
  Variable g : cg.
  Hypothesis U : user_graph g.
  Variables t o : node.
  Hypothesis Kt : In t (keys (causation g)).
  Hypothesis Ko : In o (keys (causation g)).
  Hypothesis Hto : t <> o.
  Hypothesis Et : linked g t.
  Hypothesis Eo : linked g o.

  Lemma cand_spec : exists ps, asp (observed_dag g) (successors (observed_dag g)) t o = Ok ps /\
    NoDup (ord (diff (diff (dedup (List.concat ps)) [t]) [o])) /\
    forall v, In v (ord (diff (diff (dedup (List.concat ps)) [t]) [o])) <-> between g t o v.
  Proof.
    destruct (@directed_paths g U t o Ko Hto Et Eo) as (ps & Hps & _ & HI). exists ps. split; auto. split.
    - apply (@ord_NoDup ord Hord), diff_NoDup, diff_NoDup, dedup_NoDup.
    - intros v. rewrite (@ord_In ord Hord), !diff_In, dedup_In, in_concat. unfold between. split.
      + intros [[(p & Hp & Hv) H1] H2]. apply HI in Hp as (q & -> & Hd).
        split; [intros ->; apply H1; now left|]. split; [intros ->; apply H2; now left|].
        split; [eapply dwalk_reach_all; eauto|eapply dwalk_reach_end; eauto].
      + intros (H1 & H2 & H3 & H4).
        split; [split; [|intros [Hc|[]]; congruence]|intros [Hc|[]]; congruence].
        destruct (reach_dwalk H3) as (l & L1 & L2), (reach_dwalk H4) as (m & M1 & M2).
        destruct (@exists_last _ m) as (q & y & ->); [intros ->; cbn in M2; congruence|].
        change (v :: q ++ [y]) with ((v :: q) ++ [y]) in M2. rewrite last_snoc in M2. subst y.
        exists ((t :: l) ++ q ++ [o]). split.
        * apply HI. exists (l ++ q). split; [cbn; now rewrite <- app_assoc|]. now apply (@walk_concat _ _ t l v (q ++ [o]) L1 L2).
        * apply in_app_iff. left. rewrite <- L2. apply last_In. discriminate.
  Qed.
  Lemma between_ok z : (forall v, In v z -> between g t o v) ->
    incl z (keys (causation g)) /\ (forall s, In s z -> drawn g s) /\ ~ In t z /\ ~ In o z /\
    (forall s, In s z -> ~ reach (is_parent g) s t).
  Proof.
    intros H. assert (L : forall v, between g t o v -> exists m, is_parent g m v).
    { intros v (H1 & _ & H3 & _). destruct (reach_inv H3) as [<-|H3']; [easy|].
      destruct (reach1_last H3') as (m & _ & Hm); eauto. }
    split; [|split; [|split; [|split]]].
    - intros v Hv. destruct (L v (H v Hv)) as (m & Hm). now apply (parent_keys (ug_wf U) (ug_closed U)) in Hm.
    - intros v Hv. destruct (L v (H v Hv)) as (m & Hm). exists m. right. now left.
    - intros Hv. now apply H in Hv as (Hc & _).
    - intros Hv. now apply H in Hv as (_ & Hc & _).
    - intros v Hv Hr. apply H in Hv as (H1 & _ & H3 & _). destruct (reach_inv H3) as [<-|(w & Hw & Hr')]; [easy|].
      apply (ug_acyclic U (x:=t)). exists w. split; auto. eapply reach_trans; eauto.
  Qed.
  Lemma cand_iff z b : (forall v, In v z -> between g t o v) -> is_frontdoor_set ord g z t o = Ok b ->
    (b = true <-> frontdoor_criterion g t o z).
  Proof.
    intros Hz Hb. destruct (between_ok _ Hz) as (H1 & H2 & H3 & H4 & H5). eapply is_frontdoor_iff; eauto.
  Qed.
  Lemma search_inv ta oa adj r : passes ta oa t o -> snd (get_frontdoor_set ord g ta oa adj) = r ->
    (frontdoor_search ord g t o adj = r) \/
    (r = Err AssertionError /\ ~ incl (chars t ++ chars o) (keys (causation g))).
  Proof.
    intros Hp H. unfold get_frontdoor_set in H.
    destruct (check_nodes_case (keys (causation g)) (raw_set ta ++ raw_set oa)) as [[Hi Hc]|[Hi Hc]]; rewrite Hc in H.
    - left. destruct Hp as [[-> ->]|[-> ->]]; exact H.
    - right. cbn [snd] in H. split; auto. intros Hi'. apply Hi. destruct Hp as [[-> ->]|[-> ->]]; cbn [raw_set].
      + intros v Hv. apply Hi'. rewrite !in_app_iff in *. rewrite !dedup_In in Hv. exact Hv.
      + intros v Hv. rewrite in_app_iff, !dedup_In in Hv. destruct Hv as [[<-|[]]|[<-|[]]]; auto.
  Qed.
  Lemma criterion_ext_z z z' : (forall v, In v z <-> In v z') -> frontdoor_criterion g t o z -> frontdoor_criterion g t o z'.
  Proof.
    intros Hz (F1 & F2 & F3). split; [|split].
    - intros l Hl. destruct (F1 l Hl) as (v & H1 & H2). exists v. split; auto. now apply Hz.
    - intros l (x & y & Hx & Hy & H). apply F2. exists x, y. split; auto. split; [now apply Hz|auto].
    - intros l (x & y & Hx & Hy & Tr & Hi). apply F3. exists x, y. split; [now apply Hz|]. split; auto. split; auto.
      clear - Hi Hz. induction l as [|a [|b r] IH]; auto. destruct Hi as (H1 & H2 & H3). split; [|split; [|exact (IH H3)]].
      + intros He Hc. apply (H1 He). now apply Hz. + intros He Hc. apply (H2 He). now apply Hz.
  Qed.

  (** 'simple' and 'minimal' *)
  Theorem C23_minimal ta oa adj z p : passes ta oa t o -> adj = "simple" \/ adj = "minimal" ->
    snd (get_frontdoor_set ord g ta oa adj) = Ok (FSet z, p) ->
    NoDup z /\ (forall v, In v z -> between g t o v) /\ frontdoor_criterion g t o z /\ p = frontdoor_prob t o z /\
    forall z', NoDup z' -> (forall v, In v z' -> between g t o v) -> frontdoor_criterion g t o z' ->
      List.length z <= List.length z'.
  Proof.
    intros Hp Ha H. apply (search_inv _ Hp) in H as [H|[H _]]; [|discriminate]. unfold frontdoor_search in H.
    destruct cand_spec as (ps & Hps & ND & HC). rewrite Hps in H. cbn [bind] in H.
    assert (Hadj : eqb adj "simple" || eqb adj "minimal" = true) by (destruct Ha as [->| ->]; reflexivity). rewrite Hadj in H.
    set (cs := ord _) in *. destruct (firstM _ _) as [found|] eqn:Hf; [|discriminate]. cbn [bind] in H.
    apply firstM_Ok in Hf as [[-> _]|(l1 & x & l2 & Hl & -> & Hx & Hbef)]; [discriminate|]. cbn [hd] in H.
    destruct (is_nil x); [discriminate|]. injection H as <- <-.
    assert (Hin : In x (powerset cs)) by (rewrite Hl, in_app_iff; right; now left).
    pose proof Hin as Hsub. apply powerset_subset in Hsub as [Hs1 Hs2]; auto.
    assert (Hb : forall v, In v x -> between g t o v) by (intros v Hv; now apply HC, Hs1).
    split; auto. split; auto. split; [now apply (cand_iff _ Hb Hx)|]. split; auto.
    intros z' NDz' Hz' HF. destruct (@powerset_complete _ _ cs z' ND) as (q & Hq & He).
    { intros v Hv. now apply HC, Hz'. }
    pose proof Hq as Hq2. apply powerset_subset in Hq2 as [Hq2 Hq3]; auto.
    assert (Lq : List.length q = List.length z') by (apply Permutation_length, NoDup_Permutation; auto).
    rewrite <- Lq. assert (Hn : ~ In q l1).
    { intros Hin1. specialize (Hbef q Hin1). assert (Hbq : forall v, In v q -> between g t o v) by (intros v Hv; now apply HC, Hq2).
      assert (false = true); [|discriminate]. apply (cand_iff _ Hbq Hbef).
      eapply criterion_ext_z; [|exact HF]. intros; symmetry; apply He. }
    rewrite Hl in Hq. destruct (split_later _ _ _ _ Hq Hn) as [->|(m1 & m2 & Hm)]; auto. subst l2.
    exact (@powerset_sorted _ _ _ ND l1 x m1 q m2 Hl).
  Qed.
  (** 'all' *)
  Theorem C23_all ta oa zs p : passes ta oa t o ->
    snd (get_frontdoor_set ord g ta oa "all") = Ok (FSets zs, p) ->
    zs <> [] /\ p = frontdoor_prob t o (hd [] zs) /\
    (forall z, In z zs -> NoDup z /\ (forall v, In v z -> between g t o v) /\ frontdoor_criterion g t o z) /\
    (forall z, (forall v, In v z -> between g t o v) -> frontdoor_criterion g t o z ->
       exists z', In z' zs /\ forall v, In v z <-> In v z') /\
    NoDup zs /\ (forall z z', In z zs -> In z' zs -> (forall v, In v z <-> In v z') -> z = z').
  Proof.
    intros Hp H. apply (search_inv _ Hp) in H as [H|[H _]]; [|discriminate]. unfold frontdoor_search in H.
    destruct cand_spec as (ps & Hps & ND & HC). rewrite Hps in H. cbn [bind] in H.
    change (eqb "all" "simple" || eqb "all" "minimal") with false in H. change (eqb "all" "all") with true in H. cbn iota in H.
    set (cs := ord _) in *. destruct (filterM _ _) as [found|] eqn:Hf; [|discriminate]. cbn [bind] in H.
    destruct (is_nil found) eqn:Hnil; [discriminate|]. injection H as <- <-.
    destruct (filterM_Ok _ _ Hf) as (T & F & N).
    split; [intros ->; discriminate|]. split; auto. split; [|split; [|split]].
    - intros z Hz. apply F in Hz as [Hz Hx]. apply powerset_subset in Hz as [Hs1 Hs2]; auto.
      assert (Hb : forall v, In v z -> between g t o v) by (intros v Hv; now apply HC, Hs1).
      split; auto. split; auto. now apply (cand_iff _ Hb Hx).
    - intros z Hz HF. destruct (@powerset_complete _ _ cs z ND) as (q & Hq & He).
      { intros v Hv. now apply HC, Hz. }
      exists q. split; [|intros; symmetry; apply He]. apply F. split; auto. destruct (T q Hq) as [b Hb]. rewrite Hb. f_equal.
      apply powerset_subset in Hq as [Hq2 Hq3]; auto.
      assert (Hbq : forall v, In v q -> between g t o v) by (intros v Hv; now apply HC, Hq2).
      apply (cand_iff _ Hbq Hb). eapply criterion_ext_z; [|exact HF]. intros; symmetry; apply He.
    - apply N. now apply powerset_NoDup.
    - intros z z' H1 H2. apply F in H1 as [H1 _], H2 as [H2 _]. now apply (@powerset_unique _ _ cs).
  Qed.
  (** IdentificationError: there is no such set, or (except for 'all') the empty set is one. *)
  Theorem C23_error ta oa adj : passes ta oa t o -> adj = "simple" \/ adj = "minimal" \/ adj = "all" ->
    snd (get_frontdoor_set ord g ta oa adj) = Err IdentificationError ->
    (forall z, (forall v, In v z -> between g t o v) -> ~ frontdoor_criterion g t o z) \/
    (adj <> "all" /\ frontdoor_criterion g t o []).
  Proof.
    intros Hp Ha H. apply (search_inv _ Hp) in H as [H|[H _]]; [|discriminate]. unfold frontdoor_search in H.
    destruct cand_spec as (ps & Hps & ND & HC). rewrite Hps in H. cbn [bind] in H.
    set (cs := ord _) in *.
    assert (NONE : (forall q, In q (powerset cs) -> is_frontdoor_set ord g q t o = Ok false) ->
      forall z, (forall v, In v z -> between g t o v) -> ~ frontdoor_criterion g t o z).
    { intros Hq z Hz HF. destruct (@powerset_complete _ _ cs z ND) as (q & Hqi & He).
      { intros v Hv. now apply HC, Hz. }
      pose proof Hqi as Hq2. apply powerset_subset in Hq2 as [Hq2 Hq3]; auto.
      assert (Hbq : forall v, In v q -> between g t o v) by (intros v Hv; now apply HC, Hq2).
      assert (false = true); [|discriminate]. apply (cand_iff _ Hbq (Hq q Hqi)).
      eapply criterion_ext_z; [|exact HF]. intros; symmetry; apply He. }
    destruct (eqb adj "simple" || eqb adj "minimal") eqn:Hadj.
    - pose proof (@firstM_noid _ (fun s => is_frontdoor_set ord g s t o) (powerset cs) (fun s => is_frontdoor_set_noid _ _ _ _ _)) as Hn.
      destruct (firstM _ _) as [found|e] eqn:Hf; cbn [bind] in H; [|injection H as ->; now elim Hn].
      apply firstM_Ok in Hf as [[-> Hall]|(l1 & x & l2 & Hl & -> & Hx & _)]; [left; auto|]. cbn [hd] in H.
      destruct x; [|discriminate]. right. split; [intros ->; discriminate|]. apply (@cand_iff [] true); auto. intros v [].
    - assert (Ea : adj = "all"). { destruct Ha as [->|[->|Ha]]; [discriminate|discriminate|auto]. } subst adj.
      change (eqb "all" "all") with true in H. cbn iota in H.
      pose proof (@filterM_noid _ (fun s => is_frontdoor_set ord g s t o) (powerset cs) (fun s => is_frontdoor_set_noid _ _ _ _ _)) as Hn.
      destruct (filterM _ _) as [found|e] eqn:Hf; cbn [bind] in H; [|injection H as ->; now elim Hn].
      destruct found; [|discriminate]. left. apply NONE. intros q Hq. destruct (filterM_Ok _ _ Hf) as (T & F & _).
      destruct (T q Hq) as [[] Hb]; auto. destruct (proj2 (F q) (conj Hq Hb)).
  Qed.
  (** It ends in one of the two ways when names are single letters and no name loses all its edges. *)
  Theorem C23_total ta oa adj : passes ta oa t o -> adj = "simple" \/ adj = "minimal" \/ adj = "all" ->
    incl (chars t ++ chars o) (keys (causation g)) ->
    (forall z v, (forall v, In v z -> between g t o v) -> In v (t :: o :: z) -> touched g z v) ->
    (exists r, snd (get_frontdoor_set ord g ta oa adj) = Ok r) \/
    snd (get_frontdoor_set ord g ta oa adj) = Err IdentificationError.
  Proof.
    intros Hp Ha Hc HT. destruct (@search_inv ta oa adj _ Hp eq_refl) as [H|[_ H]]; [|easy]. rewrite <- H. clear H.
    unfold frontdoor_search. destruct cand_spec as (ps & Hps & ND & HC). rewrite Hps. cbn [bind].
    set (cs := ord _) in *.
    assert (T : forall q, In q (powerset cs) -> exists b, is_frontdoor_set ord g q t o = Ok b).
    { intros q Hq. apply powerset_subset in Hq as [Hq _]; auto.
      assert (Hb : forall v, In v q -> between g t o v) by (intros v Hv; now apply HC, Hq).
      destruct (between_ok _ Hb) as (H1 & H2 & H3 & H4 & H5). apply is_frontdoor_total; auto. }
    destruct (eqb adj "simple" || eqb adj "minimal") eqn:Hadj.
    - destruct (firstM_total _ _ T) as [r Hr]. rewrite Hr. cbn [bind]. destruct (is_nil _); eauto.
    - assert (Ea : adj = "all"). { destruct Ha as [->|[->|Ha]]; [discriminate|discriminate|auto]. } subst adj.
      change (eqb "all" "all") with true. cbn iota. destruct (filterM_total _ _ T) as [r Hr]. rewrite Hr. cbn [bind]. destruct (is_nil _); eauto.
  Qed.
  (** C65: the expression returned with the set is P(outcome | do(treatment)) *)
  Theorem C65_set ta oa adj z p dom cpt a : passes ta oa t o ->
    snd (get_frontdoor_set ord g ta oa adj) = Ok (FSet z, p) -> compatible g uname dom cpt ->
    frontdoor_formula g uname dom cpt t o z a = P_do g uname dom cpt [t] [o] a /\
    eval g uname dom cpt p a = P_do g uname dom cpt [t] [o] a.
  Proof.
    intros Hp H M. assert (Ha : adj = "simple" \/ adj = "minimal").
    { apply (search_inv _ Hp) in H as [H|[H _]]; [|discriminate]. unfold frontdoor_search in H.
      destruct (asp _ _ _ _); [|discriminate]. cbn [bind] in H.
      destruct (eqb adj "simple" || eqb adj "minimal") eqn:Hadj.
      - apply orb_true_iff in Hadj as [Hadj|Hadj]; apply String.eqb_eq in Hadj; auto.
      - destruct (eqb adj "all"); [|discriminate]. destruct (filterM _ _) as [found|]; [|discriminate]. cbn [bind] in H.
        destruct (is_nil found); discriminate. }
    destruct (C23_minimal Hp Ha H) as (ND & Hb & HF & -> & _).
    destruct (between_ok _ Hb) as (H1 & H2 & H3 & H4 & H5).
    assert (E1 : frontdoor_formula g uname dom cpt t o z a = P_do g uname dom cpt [t] [o] a) by now apply (frontdoor_adjustment U M).
    split; auto. rewrite <- E1. now apply (frontdoor_prob_eval U M).
  Qed.
  Theorem C65_all ta oa zs p dom cpt a : passes ta oa t o ->
    snd (get_frontdoor_set ord g ta oa "all") = Ok (FSets zs, p) -> compatible g uname dom cpt ->
    (forall z, In z zs -> frontdoor_formula g uname dom cpt t o z a = P_do g uname dom cpt [t] [o] a) /\
    eval g uname dom cpt p a = P_do g uname dom cpt [t] [o] a.
  Proof.
    intros Hp H M. destruct (C23_all Hp H) as (Hne & -> & HS & _).
    assert (A : forall z, In z zs -> frontdoor_formula g uname dom cpt t o z a = P_do g uname dom cpt [t] [o] a).
    { intros z Hz. destruct (HS z Hz) as (ND & Hb & HF). destruct (between_ok _ Hb) as (H1 & H2 & H3 & H4 & H5).
      now apply (frontdoor_adjustment U M). }
    split; auto. destruct zs as [|z zs]; [easy|]. cbn [hd]. rewrite <- (A z) by now left.
    destruct (HS z (or_introl eq_refl)) as (ND & Hb & HF). destruct (between_ok _ Hb) as (H1 & H2 & H3 & H4 & H5).
    now apply (frontdoor_prob_eval U M).
  Qed.
End Search.

Example C23_example :
  linked g22 "X" /\ linked g22 "Y" /\ incl (chars "X" ++ chars "Y") (keys (causation g22)) /\
  (forall z v, (forall v, In v z -> between g22 "X" "Y" v) -> In v ("X" :: "Y" :: z) -> touched g22 z v) /\
  snd (get_frontdoor_set (fun l => l) g22 (Str "X") (Str "Y") "minimal") = Ok (FSet ["M"], frontdoor_prob "X" "Y" ["M"]) /\
  snd (get_frontdoor_set (fun l => l) g22 (SetOf ["X"]) (SetOf ["Y"]) "all") = Ok (FSets [["M"]], frontdoor_prob "X" "Y" ["M"]).
Proof.
  split; [apply (@linked_by g22 ["X"] g22_ok); [reflexivity|now left]|].
  split; [apply (@linked_by g22 ["Y"] g22_ok); [reflexivity|now left]|].
  split; [now apply subset_spec|]. split; [|split; vm_compute; reflexivity].
  intros z v Hz Hv.
  assert (CL : forall a b, cause g22 uname a b <-> In (a, b) [("X", "M"); ("M", "Y"); (uname 0, "X"); (uname 0, "Y")]).
  { intros a b. split.
    - intros H. apply (@cause_list g22 a b g22_ok) in H. vm_compute in H. vm_compute. intuition auto.
    - intros H. apply (@cause_list g22 a b g22_ok). vm_compute in H. vm_compute. intuition auto. }
  assert (PL : forall a b, is_parent g22 a b -> In (a, b) [("X", "M"); ("M", "Y")]).
  { intros a b H. assert (Hc : cause g22 uname a b) by now left. apply CL in Hc. destruct Hc as [Hc|[Hc|[Hc|[Hc|[]]]]];
      [left; auto|right; left; auto| |]; injection Hc as <- <-; vm_compute in H; intuition discriminate. }
  assert (BM : forall v, between g22 "X" "Y" v -> v = "M").
  { intros w (B1 & B2 & B3 & _). destruct (reach_inv B3) as [Hc|(m & Hm & Hr)]; [congruence|].
    apply PL in Hm as [Hm|[Hm|[]]]; [|discriminate]. injection Hm as <-.
    destruct (reach_inv Hr) as [Hc|(m & Hm & Hr')]; [congruence|]. apply PL in Hm as [Hm|[Hm|[]]]; [discriminate|]. injection Hm as <-.
    destruct (reach_inv Hr') as [Hc|(m & Hm & _)]; [congruence|]. apply PL in Hm as [Hm|[Hm|[]]]; discriminate. }
  assert (NU : ~ In (uname 0) z) by (intros H; apply Hz, BM in H; discriminate).
  destruct Hv as [<-|[<-|Hv]].
  - exists (uname 0). right. split; auto. apply CL. simpl. auto.
  - exists (uname 0). right. split; auto. apply CL. simpl. auto.
  - apply Hz, BM in Hv as ->. exists "X". right. split; [apply CL; simpl; auto|]. intros H. now apply Hz, BM in H.
Qed.
Example C65_example : compatible g22 uname (fun _ => [0; 1]) (fun _ _ => (/ 2)%R).
Proof. apply coins. Qed.
(** 'simple' and 'minimal' raise although the empty set meets the criterion, which 'all' reports. *)
Theorem C23_refuted_empty :
  exists g, user_graph g /\ linked g "X" /\ linked g "Y" /\
    snd (get_frontdoor_set (fun l => l) g (Str "X") (Str "Y") "minimal") = Err IdentificationError /\
    snd (get_frontdoor_set (fun l => l) g (Str "X") (Str "Y") "simple") = Err IdentificationError /\
    snd (get_frontdoor_set (fun l => l) g (Str "X") (Str "Y") "all") = Ok (FSets [[]], frontdoor_prob "X" "Y" []) /\
    frontdoor_criterion g "X" "Y" [].
Proof.
  set (g := init [("X", []); ("A", ["X"]); ("B", []); ("Y", ["B"])] None []).
  assert (U : user_graph g) by user_graph. exists g. split; auto.
  assert (LX : linked g "X") by (apply (@linked_by g ["X"] U); [reflexivity|now left]).
  assert (LY : linked g "Y") by (apply (@linked_by g ["Y"] U); [reflexivity|now left]).
  assert (HA : snd (get_frontdoor_set (fun l => l) g (Str "X") (Str "Y") "all") = Ok (FSets [[]], frontdoor_prob "X" "Y" [])) by (vm_compute; reflexivity).
  split; auto. split; auto. split; [vm_compute; reflexivity|]. split; [vm_compute; reflexivity|]. split; auto.
  assert (KX : In "X" (keys (causation g))) by (vm_compute; tauto).
  assert (KY : In "Y" (keys (causation g))) by (vm_compute; tauto).
  assert (XY : "X" <> "Y") by discriminate.
  destruct (@C23_all (fun l => l) (fun l => Permutation_refl l) g U "X" "Y" KX KY XY LX LY (Str "X") (Str "Y") _ _
    (or_introl (conj eq_refl eq_refl)) HA) as (_ & _ & HF & _).
  now apply (HF [] (or_introl eq_refl)).
Qed.
(** A candidate whose removal of out-edges isolates a name ends the search with NodeNotFound. *)
Theorem C23_refuted_crash :
  exists g, user_graph g /\
    snd (get_frontdoor_set (fun l => l) g (Str "X") (Str "Y") "minimal") = Ok (FSet ["M"], frontdoor_prob "X" "Y" ["M"]) /\
    snd (get_frontdoor_set (fun l => l) g (Str "X") (Str "Y") "all") = Err NodeNotFound.
Proof.
  exists (init [("X", []); ("M", ["X"]); ("N", ["M"]); ("Y", ["N"])] None [("X", "Y")]).
  split; [user_graph|]. split; vm_compute; reflexivity.
Qed.
(** The sets are rejected for names of more than one letter given as strings. *)
Theorem C23_refuted_names :
  exists g, user_graph g /\
    snd (get_frontdoor_set (fun l => l) g (Str "X1") (Str "Y") "minimal") = Err AssertionError /\
    snd (get_frontdoor_set (fun l => l) g (SetOf ["X1"]) (SetOf ["Y"]) "minimal") = Err AssertionError.
Proof.
  exists (init [("X1", []); ("M", ["X1"]); ("Y", ["M"])] None [("X1", "Y")]).
  split; [user_graph|]. split; vm_compute; reflexivity.
Qed.

Print Assumptions C22_is_frontdoor_set_partial.
Print Assumptions C23_minimal.
Print Assumptions C23_all.
Print Assumptions C23_error.
Print Assumptions C65_all.
