(** is_frontdoor_set and get_frontdoor_set against the frontdoor criterion. *)
From Verif Require Import Base NxModel NxSpec ReachProofs NxProofs GraphModel GraphSpec GraphProofs ExplicitProofs
  GraphProps CausalModel Bn BnProofs ScmSpec ScmProofs PowersetProofs BackdoorSpec BackdoorProofs BackdoorProps
  PathSpec PathProofs PathProps FrontdoorProofs.
Set Implicit Arguments.

Lemma allM_Ok {A} (f : A -> res bool) l : forall b, allM f l = Ok b ->
  (b = true <-> forall x, In x l -> f x = Ok true).
Proof.
  induction l as [|x l IH]; intros b H; cbn [allM] in H.
  - injection H as <-. split; auto. intros _ x [].
  - destruct (f x) as [[]|] eqn:Hx; cbn [bind] in H; [| |discriminate].
    + rewrite (IH _ H). split; [intros K y [<-|Hy]; auto|intros K y Hy; apply K; now right].
    + injection H as <-. split; [discriminate|]. intros K. specialize (K x (or_introl eq_refl)). congruence.
Qed.
Lemma allM_total {A} (f : A -> res bool) l : (forall x, In x l -> exists b, f x = Ok b) -> exists b, allM f l = Ok b.
Proof.
  induction l as [|x l IH]; intros H; cbn [allM]; eauto.
  destruct (H x) as [[] ->]; [now left| |]; cbn [bind]; eauto. apply IH. intros; apply H; now right.
Qed.

Section Coll.
  Variable g : cg.
  Hypothesis U : user_graph g.
  Let E := cause g uname.
  Lemma active_no_coll l : active E (fun _ => False) l <-> ~ has_coll E l.
  Proof.
    induction l as [|a [|m [|b r]] IH].
    - split; [|exact (fun _ => I)]. intros _ (l1 & a & m & b & l2 & He & _). destruct l1; discriminate.
    - split; [|exact (fun _ => I)]. intros _ (l1 & u & v & w & l2 & He & _). destruct l1 as [|? [|]]; discriminate.
    - split; [|exact (fun _ => I)]. intros _ (l1 & u & v & w & l2 & He & _). destruct l1 as [|? [|? [|]]]; discriminate.
    - change (active E (fun _ => False) (a :: m :: b :: r)) with
        (triple_open E (fun _ => False) a m b /\ active E (fun _ => False) (m :: b :: r)). rewrite IH. split.
      + intros [[[_ (q & [] & _)]|[Hc _]] Hn] (l1 & u & v & w & l2 & He & H1 & H2).
        destruct l1 as [|x l1]; cbn in He; inversion He; subst; [apply Hc; split; auto|].
        apply Hn. exists l1, u, v, w, l2. auto.
      + intros Hn. split.
        * right. split; auto. intros [H1 H2]. apply Hn. exists [], a, m, b, r. auto.
        * intros H. apply Hn. now apply has_coll_cons.
  Qed.
  Lemma no_forward_reach l x : uwalk E (x :: l) -> ~ some_forward E (x :: l) -> reach E (last (x :: l) x) x.
  Proof.
    revert x. induction l as [|b l IH]; intros x Hw Hn; [constructor|].
    destruct Hw as [[Hs|Hs] Hw]; [exfalso; apply Hn; exists [], x, b, l; auto|].
    rewrite last_cons_nonempty by discriminate. rewrite (last_default x b) by discriminate.
    eapply reach_snoc; [|exact Hs]. apply IH; auto. intros (l1 & u & v & l2 & He & Huv). apply Hn.
    exists (x :: l1), u, v, l2. cbn. split; auto. congruence.
  Qed.
End Coll.

Section Rules.
  Variable ord : list node -> list node.
  Hypothesis Hord : forall l, Permutation (ord l) l.
  Variable g : cg.
  Hypothesis U : user_graph g.
  Let E := cause g uname.
  Variables t o : node.
  Hypothesis Kt : In t (keys (causation g)).
  Hypothesis Ko : In o (keys (causation g)).
  Hypothesis Hto : t <> o.
  Hypothesis Et : exists m, is_parent g t m \/ is_parent g m t.
  Hypothesis Eo : exists m, is_parent g o m \/ is_parent g m o.
  Let D := observed_dag g.

  Lemma D_ed p v : ed D p v <-> is_parent g p v.
  Proof. apply observed_ed; auto. apply (wc_keys (ug_wf U)). Qed.
  Lemma D_nodes v : In v (nodes D) <-> exists m, is_parent g v m \/ is_parent g m v.
  Proof. unfold D, observed_dag. rewrite observed_dag_of_nodes; [reflexivity|apply (wc_keys (ug_wf U))]. Qed.

  Lemma directed_paths : exists ps, asp D (successors D) t o = Ok ps /\ NoDup ps /\
    forall p, In p ps <-> exists q, p = t :: q ++ [o] /\ dwalk (is_parent g) p.
  Proof.
    assert (Nt : In t (nodes D)) by now apply D_nodes. assert (No : In o (nodes D)) by now apply D_nodes.
    unfold asp. rewrite (proj2 (mem_In _ _) Nt), (proj2 (mem_In _ _) No). cbn [negb].
    assert (Hm : mem t [o] = false) by (apply mem_nIn; intros [->|[]]; auto). rewrite Hm.
    destruct (@all_simple_paths_spec _ _ D (successors D) t o Nt No Hto) as (ps & Hps & Hs).
    { intros a b Ha Hb. apply successors_spec in Hb. now apply (wf_ends (gwf_wf (observed_dag_of_gwf _))) in Hb. }
    cbn [mapM]. rewrite Hps. cbn [bind List.concat]. rewrite app_nil_r. exists ps. split; auto. split.
    - unfold all_simple_paths in Hps. rewrite (proj2 (mem_In _ _) Nt), (proj2 (mem_In _ _) No) in Hps.
      cbn [andb] in Hps. destruct (eqb t o); injection Hps as <-; [constructor|]. apply simple_paths_NoDup.
      intros a. apply dedup_NoDup.
    - intros p. rewrite Hs.
      assert (Q : dwalk (stepw (successors D)) p <-> dwalk (is_parent g) p).
      { assert (S : forall a b, stepw (successors D) a b <-> is_parent g a b) by (intros; unfold stepw; rewrite successors_spec; apply D_ed).
        clear - S. induction p as [|a [|b r] IH]; cbn [dwalk]; try tauto. rewrite S. rewrite IH. tauto. }
      rewrite Q. split.
      + intros (_ & H & q & ->). eauto.
      + intros (q & -> & H). split; [|eauto]. eapply dwalk_NoDup; [|exact H]. apply (ug_acyclic U).
  Qed.

  Variable z : list node.
  Hypothesis Kz : incl z (keys (causation g)).
  Hypothesis Dz : forall s, In s z -> drawn g s.
  Hypothesis Htz : ~ In t z.
  Hypothesis Hoz : ~ In o z.
  Hypothesis Az : forall s, In s z -> ~ reach (is_parent g) s t.

  Lemma rule1 ps : asp D (successors D) t o = Ok ps ->
    (forallb (fun p => existsb (fun n => mem n z) p) ps = true <->
     forall l, dwalk (is_parent g) (t :: l ++ [o]) -> exists v, In v (t :: l ++ [o]) /\ In v z).
  Proof.
    intros Hps. destruct directed_paths as (ps' & Hps' & _ & Hs). rewrite Hps in Hps'. injection Hps' as <-.
    rewrite forallb_forall. split.
    - intros H l Hl. specialize (H (t :: l ++ [o])). rewrite Hs in H. specialize (H (ex_intro _ l (conj eq_refl Hl))).
      apply existsb_exists in H as (v & Hv & Hm). apply mem_In in Hm. eauto.
    - intros H p Hp. apply Hs in Hp as (l & -> & Hl). apply existsb_exists. destruct (H l Hl) as (v & Hv & Hm).
      exists v. split; auto. now apply mem_In.
  Qed.

  Lemma dt : drawn g t.
  Proof. destruct Et as (m & [H|H]); exists m; [left|right]; now left. Qed.

  Definition check2 (s : node) : res bool :=
    do bs <- get_backdoor_path g t s ; allM (fun p => notM (is_connected_backdoor_path g p)) bs.
  Lemma connected_spec s p : In s z -> backdoor_path E p t s ->
    exists b, is_connected_backdoor_path g p = Ok b /\ (b = true <-> active E (fun _ => False) p).
  Proof.
    intros Hs Hp. pose proof Hp as ((ND & Hw & l' & Hl & Hlast) & b & c & r & -> & Hb).
    assert (KL : In (last (t :: b :: c :: r) t) (keys (causation g))) by (rewrite Hlast; auto).
    destruct (C21_is_connected U Hw Hb Kt KL) as (x & Hx & HI). exists x. split; auto. rewrite HI, Hlast.
    pose proof (@active_no_coll g (t :: b :: c :: r)) as AN. fold E in AN |- *. rewrite AN. split; [tauto|]. intros Hc. split; auto. split; auto.
    destruct (first_fwd (explicit_unob_var_dag g) (t :: b :: c :: r)) eqn:Hf.
    - left. exact (@first_fwd_some g U _ _ Hf).
    - apply (first_fwd_none U _ Hw) in Hf. exfalso. apply (Az Hs). apply (cause_reach_obs U); auto.
      rewrite <- Hlast. now apply no_forward_reach.
  Qed.
  Lemma check2_spec s : In s z -> exists b, check2 s = Ok b /\
    (b = true <-> forall l, backdoor_trail g [t] [s] l -> ~ active E (fun _ => False) l).
  Proof.
    intros Hs. assert (Hts : t <> s) by (intros ->; auto).
    destruct (C19_get_backdoor_path U Hts Kt (Kz s Hs) dt (@Dz s Hs)) as (ps & Hps & _ & HI).
    unfold check2. rewrite Hps. cbn [bind].
    destruct (@allM_total _ (fun p => notM (is_connected_backdoor_path g p)) ps) as (b & Hb).
    { intros p Hp. apply HI in Hp. destruct (connected_spec Hs Hp) as (x & Hx & _). unfold notM. rewrite Hx. cbn [bind]. eauto. }
    exists b. split; auto. rewrite (allM_Ok _ _ Hb). split.
    - intros H l Hl Ha. apply (@C13_single_treatment g t [s] l U) in Hl as (y & [<-|[]] & Tr & Hf).
      destruct Tr as (ND & Hw & l' & -> & Hlast). destruct l' as [|b' l'].
      { cbn in Hlast. auto. }
      destruct l' as [|c' l'].
      { cbn in Hlast. subst b'. apply (Az Hs). apply (cause_reach_obs U); auto. eapply reach_step; [exact Hf|constructor]. }
      assert (Hp : backdoor_path E (t :: b' :: c' :: l') t s).
      { split; [split; auto; split; auto; eauto|]. exists b', c', l'. auto. }
      specialize (H _ (proj2 (HI _) Hp)). destruct (connected_spec Hs Hp) as (x & Hx & Hxa).
      unfold notM in H. rewrite Hx in H. cbn [bind] in H. rewrite (proj2 Hxa Ha) in H. discriminate.
    - intros H p Hp. apply HI in Hp. destruct (connected_spec Hs Hp) as (x & Hx & Hxa). unfold notM. rewrite Hx. cbn [bind].
      destruct x; auto. exfalso. apply (H p); [|now apply Hxa].
      apply (@C13_single_treatment g t [s] p U). destruct Hp as (Tr & b' & c' & r & -> & Hb'). exists s. split; [now left|]. auto.
  Qed.
  Lemma rule2_total : exists b, allM check2 (ord z) = Ok b /\
    (b = true <-> forall l, backdoor_trail g [t] z l -> ~ active E (fun _ => False) l).
  Proof.
    destruct (@allM_total _ check2 (ord z)) as (b & Hb).
    { intros s Hs. apply (proj1 (@ord_In ord Hord z s)) in Hs. destruct (check2_spec s Hs) as (b & Hb & _). eauto. }
    exists b. split; auto. rewrite (allM_Ok _ _ Hb). split.
    - intros H l (x & y & Hx & Hy & Tr & Hi). specialize (H y (proj2 (@ord_In ord Hord z y) Hy)).
      destruct (check2_spec y Hy) as (b' & Hb' & HI). rewrite H in Hb'. injection Hb' as <-.
      apply (proj1 HI eq_refl l). exists x, y. split; auto. split; [now left|auto].
    - intros H s Hs. apply (proj1 (@ord_In ord Hord z s)) in Hs. destruct (check2_spec s Hs) as (b' & Hb' & HI). rewrite Hb'. f_equal.
      apply HI. intros l (x & y & Hx & [<-|[]] & Tr & Hi). apply H. exists x, s. auto.
  Qed.

  Lemma criterion_ext_t z' : (forall v, In v z <-> In v z') -> (backdoor_criterion g z [o] [t] <-> backdoor_criterion g z' [o] [t]).
  Proof.
    intros Hz.
    assert (I : forall t1 t2 l, (forall v, In v t1 <-> In v t2) -> into g t1 l -> into g t2 l).
    { intros t1 t2 l Ht. induction l as [|a [|b r] IH]; auto. intros (H1 & H2 & H3). split; [|split; [|exact (IH H3)]].
      - intros He Hi. apply (H1 He). now apply Ht. - intros He Hi. apply (H2 He). now apply Ht. }
    assert (Q : forall z1 z2, (forall v, In v z1 <-> In v z2) -> backdoor_criterion g z1 [o] [t] -> backdoor_criterion g z2 [o] [t]).
    { intros z1 z2 H12 [C1 C2]. split.
      - intros x v Hx. apply C1. now apply H12.
      - intros l (x & y & Hx & Hy & Tr & Hi). apply C2. exists x, y. split; [now apply H12|]. split; auto. split; auto.
        eapply I; [|exact Hi]. intros v. symmetry. apply H12. }
    split; apply Q; auto. intros v. symmetry. apply Hz.
  Qed.
  Lemma rule3_iff : backdoor_criterion g z [o] [t] <->
    (forall l, backdoor_trail g z [o] l -> ~ active E (fun v => v = t) l).
  Proof.
    unfold backdoor_criterion. split.
    - intros [_ H] l Hl Ha. apply (H l Hl). now apply active_one.
    - intros H. split; [intros x v Hx [<-|[]]; now apply Az|]. intros l Hl Ha. apply (H l Hl). now apply active_one.
  Qed.

  Lemma is_frontdoor_iff b : is_frontdoor_set ord g z t o = Ok b -> (b = true <-> frontdoor_criterion g t o z).
  Proof.
    unfold is_frontdoor_set. destruct (check_nodes _ _); [|discriminate]. cbn [bind]. fold D.
    destruct directed_paths as (ps & Hps & _). rewrite Hps. cbn [bind]. pose proof (rule1 Hps) as R1.
    destruct (forallb _ ps) eqn:H1; cbn [negb].
    2: { intros H. injection H as <-. split; [discriminate|]. intros [F1 _]. apply R1 in F1. discriminate. }
    destruct rule2_total as (b2 & H2 & R2). unfold check2 in H2. rewrite H2. cbn [bind]. destruct b2.
    2: { intros H. injection H as <-. split; [discriminate|]. intros (_ & F2 & _). apply R2 in F2. discriminate. }
    intros H3.
    assert (R3 : b = true <-> backdoor_criterion g z [o] [t]).
    { unfold is_valid_backdoor_set in H3. cbn [as_set] in H3.
      assert (Ez : forall v, In v (dedup z) <-> In v z) by (intros; apply dedup_In).
      rewrite (@criterion_ext_t (dedup z)) by (intros; symmetry; apply Ez).
      destruct (check_nodes _ _); [|discriminate]. cbn [bind] in H3.
      assert (Hz' : incl (dedup z) (keys (causation g))) by (intros v Hv; apply Kz, Ez, Hv).
      destruct (modified_dag g (dedup z)) as [d|] eqn:Hd; [|discriminate]. cbn [bind] in H3.
      apply (@dsep_bool g U (dedup z) [o] [t] d b Hz' Hd).
      - exact H3. 
      - intros v [<-|[]] [Hc|[]]; auto.
      - intros x v Hx [<-|[]]. apply Az. now apply Ez. }
    rewrite R3, rule3_iff. unfold frontdoor_criterion. fold E. split.
    - intros R. split; [now apply R1|]. split; [now apply R2|auto].
    - intros (_ & _ & R). auto.
  Qed.
  (** it answers when every name keeps an edge after cutting the edges out of z *)
  Lemma is_frontdoor_total : incl (chars t ++ chars o) (keys (causation g)) ->
    (forall v, In v (t :: o :: z) -> touched g z v) -> exists b, is_frontdoor_set ord g z t o = Ok b.
  Proof.
    intros Hc HT. unfold is_frontdoor_set.
    assert (Hk : incl (z ++ chars t ++ chars o) (keys (causation g))).
    { intros v Hv. apply in_app_iff in Hv as [Hv|Hv]; auto. }
    rewrite (proj2 (check_nodes_ok _ _) Hk). cbn [bind]. fold D.
    destruct directed_paths as (ps & Hps & _). rewrite Hps. cbn [bind].
    destruct (forallb _ ps); cbn [negb]; [|eauto].
    destruct rule2_total as (b2 & H2 & R2). unfold check2 in H2. rewrite H2. cbn [bind]. destruct b2; [|eauto].
    assert (Ez : forall v, In v (dedup z) <-> In v z) by (intros; apply dedup_In).
    destruct (@C13_is_valid_backdoor_set_partial g [t] (SetOf z) (SetOf [o]) U) as (b & Hb & _); [| | | |eauto]; cbn [as_set].
    - intros v Hv. rewrite !in_app_iff in Hv. destruct Hv as [Hv|[Hv|Hv]].
      + now apply Kz, Ez. + destruct Hv as [<-|[]]. auto. + destruct Hv as [<-|[]]. auto.
    - assert (TE : forall v, touched g z v -> touched g (dedup z) v).
      { intros v (m & [[H1 H1']|[H1 H1']]); exists m; [left|right]; split; auto; now rewrite Ez. }
      intros v Hv. apply TE, HT. rewrite !in_app_iff in Hv. destruct Hv as [Hv|[Hv|Hv]].
      + right. right. now apply Ez. + destruct Hv as [<-|[]]. right; now left. + destruct Hv as [<-|[]]. now left.
    - intros v [<-|[]] [Hc'|[]]; auto.
    - intros x v Hx [<-|[]]. apply Az. now apply Ez.
  Qed.
End Rules.
