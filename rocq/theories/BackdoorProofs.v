(** The backdoor functions against the backdoor criterion. *)
From Verif Require Import Base NxModel NxSpec ReachProofs NxProofs GraphModel GraphSpec GraphProofs ExplicitProofs
  GraphProps CausalModel Bn BnProofs ScmSpec ScmProofs PowersetProofs BackdoorSpec.
Set Implicit Arguments.

Section UG.
  Variable g : cg.
  Hypothesis U : user_graph g.
  Lemma ug_acyclic : acyclic (is_parent g).
  Proof. apply cg_is_dag_spec; [apply (ug_wf U)|apply (ug_dag U)]. Qed.
  Lemma ug_fresh : hidden_fresh g uname.
  Proof. split; [apply uname_inj|apply (ug_names U)]. Qed.
  Lemma ug_cause_acyclic : acyclic (cause g uname).
  Proof. apply cause_acyclic; [apply U|apply U|apply ug_acyclic|apply ug_fresh]. Qed.
  Lemma cause_reach_obs a b : reach (cause g uname) a b -> In a (keys (causation g)) -> reach (is_parent g) a b.
  Proof.
    induction 1 as [|a' b' c Hab Hbc IH]; intros Ha; [constructor|].
    destruct Hab as [Hab|(i & a1 & b1 & Hi & -> & _)].
    - econstructor; [exact Hab|]. apply IH. now apply (parent_keys (ug_wf U) (ug_closed U)) in Hab.
    - exfalso. apply (ug_names U i). exact Ha.
  Qed.
  Lemma obs_reach_cause a b : reach (is_parent g) a b -> reach (cause g uname) a b.
  Proof. intros H. eapply reach_mono; [|exact H]. intros; now left. Qed.
End UG.

Section Crit.
  Variable g : cg.
  Hypothesis U : user_graph g.
  Variable t : list node.
  Hypothesis Ht : incl t (keys (causation g)).
  Let E := cause g uname.
  Variable D : node -> node -> Prop.
  Hypothesis HD : forall a b, D a b <-> E a b /\ ~ In a t.
  Variable z : list node.
  Hypothesis Hz : forall x v, In x t -> In v z -> ~ reach (is_parent g) x v.
  Let Z := fun v => In v z.

  Lemma step_iff a b : (D a b \/ D b a) <-> (E a b \/ E b a) /\ (E a b -> ~ In a t) /\ (E b a -> ~ In b t).
  Proof.
    rewrite !HD. pose proof (@E_asym node E (ug_cause_acyclic U) a b). tauto.
  Qed.
  Lemma uwalk_into l : uwalk D l <-> uwalk E l /\ into g t l.
  Proof.
    induction l as [|a [|b r] IH]; cbn [uwalk into]; [tauto|tauto|].
    rewrite step_iff, IH. fold E. tauto.
  Qed.
  Lemma trail_into l x y : trail D l x y <-> trail E l x y /\ into g t l.
  Proof. unfold trail. rewrite uwalk_into. tauto. Qed.

  Lemma reach_cut m v : In v z -> (reach D m v <-> reach E m v).
  Proof.
    intros Hv. split; [intros H; (eapply reach_mono; [|exact H]); intros a b Hab; now apply HD in Hab|].
    intros H. induction H as [|a b c Hab Hbc IH]; [constructor|].
    econstructor; [|apply IH; auto]. apply HD. split; auto. intros Ha. apply (Hz Ha Hv).
    apply cause_reach_obs; auto. econstructor; eauto.
  Qed.
  Lemma triple_cut a m b : (D a m \/ D m a) -> (D m b \/ D b m) -> (triple_open D Z a m b <-> triple_open E Z a m b).
  Proof.
    intros H1 H2.
    assert (C : collider D a m b <-> collider E a m b).
    { unfold collider. apply step_iff in H1, H2. rewrite !HD. tauto. }
    unfold triple_open. rewrite C. split; intros [[Hc (v & Hv & Hr)]|Hn]; auto; left; split; auto; exists v; split; auto;
      now apply (@reach_cut m v Hv).
  Qed.
  Lemma active_cut l : uwalk D l -> (active D Z l <-> active E Z l).
  Proof.
    induction l as [|a [|m [|b r]] IH]; intros H; cbn [active]; try tauto.
    destruct H as [H1 H2]. rewrite IH by auto. rewrite triple_cut; auto; [tauto|]. apply H2.
  Qed.
  Lemma criterion_dsep o : dsep D (fun a => In a t) (fun a => In a o) Z <->
    forall l, backdoor_trail g t o l -> ~ active E Z l.
  Proof.
    unfold dsep, backdoor_trail. split.
    - intros H l (x & y & Hx & Hy & Ht' & Hi) Ha. assert (Tr : trail D l x y) by (apply trail_into; auto).
      apply (H l x y Hx Hy Tr). apply active_cut; auto. apply Tr.
    - intros H l x y Hx Hy Tr Ha. pose proof Tr as Tr'. apply trail_into in Tr' as [T1 T2].
      apply (H l); [exists x, y; auto|]. apply active_cut; auto. apply Tr.
  Qed.
End Crit.

(** A single treatment: a backdoor trail is a trail whose first edge points into the treatment. *)
Lemma into_single g x l : user_graph g -> NoDup (x :: l) -> uwalk (cause g uname) (x :: l) ->
  (into g [x] (x :: l) <-> match l with [] => True | b :: _ => cause g uname b x end).
Proof.
  intros U ND Hw. set (E := cause g uname) in *.
  assert (G : forall r, ~ In x r -> into g [x] r).
  { induction r as [|a [|b r] IH]; intros H; cbn [into]; auto.
    assert (a <> x /\ b <> x) as [H1 H2] by (split; intros ->; apply H; simpl; auto).
    split; [|split]; simpl; try (intros _ [Hc|[]]; congruence). apply IH. intros Hc; apply H; now right. }
  destruct l as [|b l]; [simpl; tauto|]. cbn [into uwalk] in *. destruct Hw as [Hs Hw].
  inversion ND as [|? ? Hx ND']; subst. fold E. split.
  - intros (H1 & _ & _). destruct Hs as [Hs|Hs]; auto. exfalso. apply (H1 Hs). now left.
  - intros Hb. split; [|split].
    + intros Hc. exfalso. eapply (E_asym (ug_cause_acyclic U)); eauto.
    + intros _ [->|[]]. apply Hx. now left.
    + exact (G (b :: l) Hx).
Qed.

(** ** the calls *)
Section Calls.
  Variable g : cg.
  Hypothesis U : user_graph g.
  Variable t : list node.
  Hypothesis Ht : incl t (keys (causation g)).

  Lemma mod_spec : exists d, modified_dag g t = Ok d /\ gwf d /\ simple d /\ acyclic (ed d) /\
    (forall p v, ed d p v <-> cause g uname p v /\ ~ In p t) /\
    (forall n, In n (nodes d) <-> exists m, ed d n m \/ ed d m n).
  Proof. apply modified_spec; auto; try apply U. - apply ug_acyclic; auto. - apply ug_fresh; auto. Qed.

  Lemma dsep_criterion d o z : modified_dag g t = Ok d ->
    incl (t ++ o ++ z) (nodes d) -> (forall v, In v o -> ~ In v z) ->
    (forall x v, In x t -> In v z -> ~ reach (is_parent g) x v) ->
    exists b : bool, d_separated d t o z = Ok b /\ (b = true <-> backdoor_criterion g t o z).
  Proof.
    intros Hd Hn Doz Hz. destruct mod_spec as (d' & Hd' & Gd & Sd & Ad & EQ & NQ). rewrite Hd in Hd'. injection Hd' as <-.
    assert (Dtz : forall v, In v t -> ~ In v z) by (intros v H1 H2; apply (Hz v v); auto; constructor).
    destruct (@d_separated_correct _ _ d t o z) as (b & Hb & Hs); auto.
    - apply Gd.
    - intros v Hv. apply Hn, in_app_iff. auto.
    - intros v Hv. apply Hn. rewrite !in_app_iff. auto.
    - intros v Hv. apply Hn. rewrite !in_app_iff. auto.
    - exists b. split; auto. rewrite Hs, (@criterion_dsep g U t Ht (ed d) EQ z Hz). unfold backdoor_criterion. tauto.
  Qed.

  Variable dom : node -> list nat.
  Variable cpt : node -> @asg node -> R.
  Hypothesis M : compatible g uname dom cpt.

  (** Pearl's backdoor adjustment theorem, for semi-Markovian models and sets of treatments. *)
  Theorem criterion_adjustment o z a :
    NoDup t -> NoDup o -> NoDup z -> incl (t ++ o ++ z) (keys (causation g)) ->
    (forall v, In v o -> ~ In v z) -> backdoor_criterion g t o z ->
    adjustment g uname dom cpt t o z a = P_do g uname dom cpt t o a.
  Proof.
    intros NDt NDo NDz Hk Doz [Hz HC]. destruct mod_spec as (d & Hd & Gd & Sd & Ad & EQ & NQ).
    set (d2 := MDG (vars g uname) (edges d)).
    assert (W2 : wf d2).
    { split; [apply (vars_NoDup (ug_wf U) (ug_fresh U))|]. intros u v Huv. apply EQ in Huv as [Huv _].
      apply (cause_vars (ug_wf U) (ug_closed U)) in Huv. split; [tauto|]. apply obs_In_vars. tauto. }
    assert (Hn : incl (t ++ o ++ z) (nodes d2)) by (intros v Hv; apply obs_In_vars, Hk, Hv).
    assert (Dtz : forall v, In v t -> ~ In v z) by (intros v H1 H2; apply (Hz v v); auto; constructor).
    destruct (@d_separated_correct _ _ d2 t o z) as (b & Hb & Hs); auto.
    - intros v Hv. apply Hn, in_app_iff. auto.
    - intros v Hv. apply Hn. rewrite !in_app_iff. auto.
    - intros v Hv. apply Hn. rewrite !in_app_iff. auto.
    - apply (@backdoor_sound_gen g (ug_wf U) (ug_closed U) (ug_acyclic U) (ug_fresh U) t Ht dom cpt M d2 o z a); auto.
      rewrite Hb. f_equal. apply Hs. apply (@criterion_dsep g U t Ht (ed d) EQ z Hz). exact HC.
  Qed.
End Calls.

(** ** loops with a test that may raise *)
Lemma filterM_Ok {A} (f : A -> res bool) l : forall r, filterM f l = Ok r ->
  (forall x, In x l -> exists b, f x = Ok b) /\ (forall x, In x r <-> In x l /\ f x = Ok true) /\ (NoDup l -> NoDup r).
Proof.
  induction l as [|x l IH]; intros r H; cbn [filterM] in H.
  - injection H as <-. split; [intros ? []|]. split; [simpl; tauto|auto].
  - destruct (f x) as [b|] eqn:Hx; [|discriminate]. cbn [bind] in H.
    destruct (filterM f l) as [ys|] eqn:Hl; [|discriminate]. cbn [bind] in H. injection H as <-.
    destruct (IH _ eq_refl) as (I1 & I2 & I3). split; [|split].
    + intros y [<-|Hy]; eauto.
    + intros y. destruct b; simpl; rewrite I2; split.
      * intros [<-|[H1 H2]]; auto.
      * intros [[H1|H1] H2]; auto.
      * intros [H1 H2]; auto.
      * intros [[H1|H1] H2]; [congruence|auto].
    + intros ND. inversion ND; subst. destruct b; auto. constructor; auto. rewrite I2. tauto.
Qed.
Lemma filterM_total {A} (f : A -> res bool) l : (forall x, In x l -> exists b, f x = Ok b) -> exists r, filterM f l = Ok r.
Proof.
  induction l as [|x l IH]; intros H; cbn [filterM]; eauto.
  destruct (H x) as [b ->]; [now left|]. cbn [bind]. destruct IH as [r ->]; [intros; apply H; now right|]. cbn [bind]. eauto.
Qed.
Lemma firstM_Ok {A} (f : A -> res bool) l : forall r, firstM f l = Ok r ->
  (r = [] /\ forall x, In x l -> f x = Ok false) \/
  (exists l1 x l2, l = l1 ++ x :: l2 /\ r = [x] /\ f x = Ok true /\ forall y, In y l1 -> f y = Ok false).
Proof.
  induction l as [|x l IH]; intros r H; cbn [firstM] in H.
  - injection H as <-. left. split; auto. intros ? [].
  - destruct (f x) as [[]|] eqn:Hx; cbn [bind] in H; [| |discriminate].
    + injection H as <-. right. exists [], x, l. repeat split; auto. intros ? [].
    + destruct (IH _ H) as [[-> I]|(l1 & y & l2 & -> & -> & Hy & I)].
      * left. split; auto. intros y [<-|Hy]; auto.
      * right. exists (x :: l1), y, l2. repeat split; auto. intros u [<-|Hu]; auto.
Qed.
Lemma firstM_total {A} (f : A -> res bool) l : (forall x, In x l -> exists b, f x = Ok b) -> exists r, firstM f l = Ok r.
Proof.
  induction l as [|x l IH]; intros H; cbn [firstM]; eauto.
  destruct (H x) as [b ->]; [now left|]. cbn [bind]. destruct b; eauto. apply IH. intros; apply H; now right.
Qed.
Lemma mapM_Ok {A B} (f : A -> res B) l : forall r, mapM f l = Ok r -> Forall2 (fun x y => f x = Ok y) l r.
Proof.
  induction l as [|x l IH]; intros r H; cbn [mapM] in H.
  - injection H as <-. constructor.
  - destruct (f x) as [y|] eqn:Hx; [|discriminate]. cbn [bind] in H.
    destruct (mapM f l) as [ys|] eqn:Hl; [|discriminate]. cbn [bind] in H. injection H as <-. constructor; auto.
Qed.
Lemma mapM_total {A B} (f : A -> res B) l : (forall x, In x l -> exists b, f x = Ok b) -> exists r, mapM f l = Ok r.
Proof.
  induction l as [|x l IH]; intros H; cbn [mapM]; eauto.
  destruct (H x) as [b ->]; [now left|]. cbn [bind]. destruct IH as [r ->]; [intros; apply H; now right|]. cbn [bind]. eauto.
Qed.

Lemma as_set_NoDup a : NoDup (as_set a).
Proof. destruct a; simpl; try apply dedup_NoDup. repeat constructor. auto. Qed.

Lemma criterion_ext g t o z z' : (forall v, In v z <-> In v z') -> backdoor_criterion g t o z -> backdoor_criterion g t o z'.
Proof.
  intros H [H1 H2]. split.
  - intros x v Hx Hv. apply H1; auto. now apply H.
  - intros l Hl Ha. apply (H2 l Hl).
    assert (T : forall a m b, triple_open (cause g uname) (fun v => In v z') a m b ->
                              triple_open (cause g uname) (fun v => In v z) a m b).
    { intros a m b [[Hc (v & Hv & Hr)]|[Hc Hn]]; [left|right]; split; auto.
      - exists v. split; auto. now apply H.
      - now rewrite H. }
    clear Hl. induction l as [|a [|m [|b r]] IH]; auto. destruct Ha as [Ha1 Ha2]. split; [now apply T|exact (IH Ha2)].
Qed.

(** The candidates: names that are neither treatments nor outcomes nor descendants of a treatment. *)
Definition candidate (g : cg) (t o : list node) (v : node) : Prop :=
  In v (keys (causation g)) /\ ~ In v t /\ ~ In v o /\ forall x, In x t -> ~ reach (is_parent g) x v.

Section Search.
  Variable ord : list node -> list node.
  Hypothesis Hord : forall l, Permutation (ord l) l.
  Variable g : cg.
  Hypothesis U : user_graph g.
  Variables t o : list node.
  Hypothesis Ht : incl t (keys (causation g)).

  Lemma ord_In l x : In x (ord l) <-> In x l.
  Proof. split; apply Permutation_in; [|symmetry]; apply Hord. Qed.
  Lemma ord_NoDup l : NoDup l -> NoDup (ord l).
  Proof. intros H. eapply Permutation_NoDup; [symmetry; apply Hord|auto]. Qed.

  Definition init_set (des : list (list node)) : list node :=
    diff (diff (diff (keys (causation g)) t) o) (List.concat des).
  Lemma init_set_spec des : mapM (nx_descendants (observed_dag g)) (ord t) = Ok des ->
    NoDup (ord (init_set des)) /\ forall v, In v (ord (init_set des)) <-> candidate g t o v.
  Proof.
    intros H. split.
    - apply ord_NoDup, diff_NoDup, diff_NoDup, diff_NoDup. apply (wc_keys (ug_wf U)).
    - intros v. rewrite ord_In. unfold init_set. rewrite !diff_In, in_concat. unfold candidate.
      assert (W0 : wf (observed_dag g)) by apply (gwf_wf (observed_dag_of_gwf (causation g))).
      assert (ND : NoDup (keys (causation g))) by apply (wc_keys (ug_wf U)).
      assert (Q : (exists l, In l des /\ In v l) <-> exists x, In x t /\ v <> x /\ reach (is_parent g) x v).
      { apply mapM_Ok in H.
        assert (Q1 : forall x l, nx_descendants (observed_dag g) x = Ok l ->
                 forall v, In v l <-> v <> x /\ reach (is_parent g) x v).
        { intros x l Hx v'. destruct (In_dec x (nodes (observed_dag g))) as [Hi|Hi].
          - destruct (@nx_descendants_spec _ _ (observed_dag g) x W0 Hi) as (l' & Hl' & Hs). rewrite Hx in Hl'. injection Hl' as <-.
            rewrite Hs. rewrite (@observed_reach g x v' ND). tauto.
          - unfold nx_descendants in Hx. apply mem_nIn in Hi. rewrite Hi in Hx. discriminate. }
        split.
        - intros (l & Hl & Hv). revert l Hl Hv. clear - H Q1 Hord. 
          assert (G : forall ts des, Forall2 (fun x y => nx_descendants (observed_dag g) x = Ok y) ts des ->
                      forall l, In l des -> exists x, In x ts /\ nx_descendants (observed_dag g) x = Ok l).
          { induction 1 as [|x y ts ds Hxy _ IH]; intros l []; [subst; exists x; split; [now left|auto]|].
            destruct (IH _ H0) as (x' & Hx' & Hl'). exists x'. split; [now right|auto]. }
          intros l Hl Hv. destruct (G _ _ H l Hl) as (x & Hx & Hxl). exists x. split; [exact (proj1 (ord_In t x) Hx)|].
          eapply Q1; eauto.
        - intros (x & Hx & Hv). apply (proj2 (ord_In t x)) in Hx.
          assert (G : forall ts des, Forall2 (fun x y => nx_descendants (observed_dag g) x = Ok y) ts des ->
                      In x ts -> exists l, In l des /\ nx_descendants (observed_dag g) x = Ok l).
          { clear. induction 1 as [|x' y ts ds Hxy _ IH]; intros []; [subst; exists y; split; [now left|auto]|].
            destruct (IH H) as (l & Hl & Hl'). exists l. split; [now right|auto]. }
          destruct (G _ _ H Hx) as (l & Hl & Hxl). exists l. split; auto. eapply Q1; eauto. }
      rewrite Q. split.
      + intros [[[H1 H2] H3] H4]. split; [auto|]. split; [auto|]. split; [auto|]. intros x Hx Hr. apply H4. exists x. split; auto.
        split; auto. intros ->. auto.
      + intros (H1 & H2 & H3 & H4). split; [split; [split|]|]; auto. intros (x & Hx & _ & Hr). eapply H4; eauto.
  Qed.
End Search.

Section Result.
  Variable ord : list node -> list node.
  Hypothesis Hord : forall l, Permutation (ord l) l.
  Variable g : cg.
  Hypothesis U : user_graph g.

  Lemma dsep_bool t o z d b : incl t (keys (causation g)) -> modified_dag g t = Ok d -> d_separated d t o z = Ok b ->
    (forall v, In v o -> ~ In v z) -> (forall x v, In x t -> In v z -> ~ reach (is_parent g) x v) ->
    (b = true <-> backdoor_criterion g t o z).
  Proof.
    intros Ht Hd Hb Doz Hz. destruct (@dsep_criterion g U t Ht d o z Hd) as (b' & Hb' & H); auto.
    - eapply d_separated_nodes; eauto. - rewrite Hb in Hb'. now injection Hb' as <-.
  Qed.
  Lemma cand_disj t o z : (forall v, In v z -> candidate g t o v) ->
    (forall v, In v o -> ~ In v z) /\ (forall x v, In x t -> In v z -> ~ reach (is_parent g) x v) /\
    incl z (keys (causation g)) /\ (forall v, In v t -> ~ In v z).
  Proof.
    intros H. split; [|split; [|split]].
    - intros v Hv Hz. now apply H in Hz as (_ & _ & Hc & _).
    - intros x v Hx Hz. apply H in Hz as (_ & _ & _ & Hc). auto.
    - intros v Hz. now apply H in Hz as (Hc & _).
    - intros v Hv Hz. now apply H in Hz as (_ & Hc & _).
  Qed.

  Definition style (adj : string) : Prop := adj = "all"%string \/ adj = "minimal"%string.

  Lemma gbs_inv ta oa adj sets p : style adj ->
    get_backdoor_set ord g ta oa adj = Ok (Some (BSets sets, p)) ->
    let t := as_set ta in let o := as_set oa in
    exists d des, modified_dag g t = Ok d /\ incl (o ++ t) (keys (causation g)) /\
      mapM (nx_descendants (observed_dag g)) (ord t) = Ok des /\ p = backdoor_prob t o (hd [] sets) /\ sets <> [] /\
      (adj = "all"%string -> filterM (d_separated d t o) (powerset (ord (init_set g t o des))) = Ok sets) /\
      (adj = "minimal"%string -> firstM (d_separated d t o) (powerset (ord (init_set g t o des))) = Ok sets).
  Proof.
    intros Hs. unfold get_backdoor_set. cbv zeta. set (t := as_set ta). set (o := as_set oa).
    destruct (check_nodes_case (keys (causation g)) (o ++ t)) as [[Hi Hc]|[_ Hc]]; rewrite Hc; [|discriminate].
    destruct (modified_dag g t) as [d|] eqn:Hd; [|discriminate]. cbn [bind].
    destruct (determine g d t o) as [b|] eqn:Hdet; [|discriminate]. cbn [bind]. destruct b; [|discriminate]. cbn [negb].
    assert (Hns : eqb adj "simple"%string = false) by (destruct Hs as [->| ->]; reflexivity). rewrite Hns.
    destruct (mapM (nx_descendants (observed_dag g)) (ord t)) as [des|] eqn:Hdes; [|discriminate]. cbn [bind].
    fold (init_set g t o des). set (ps := powerset (ord (init_set g t o des))).
    assert (Hnil : In [] ps).
    { destruct (@init_set_spec ord Hord g U t o des Hdes) as [NI _]. apply powerset_In; auto.
      unfold inter. clear. induction (ord (init_set g t o des)); simpl; auto. }
    destruct (if eqb adj "minimal"%string then firstM (d_separated d t o) ps else filterM (d_separated d t o) ps)
      as [s|] eqn:Hsets; [|discriminate]. cbn [bind].
    assert (Hne : forall p', (if is_nil s then do b <- d_separated d t o [] ; Ok (negb b) else Ok false) = Ok p' ->
                   p' = false -> s <> []).
    { intros p' H -> ->. cbn [is_nil] in H. destruct (d_separated d t o []) as [[]|] eqn:H0; try discriminate.
      destruct Hs as [->| ->]; cbn in Hsets.
      - apply filterM_Ok in Hsets as (_ & H1 & _). assert (In [] (@nil (list node))) by (apply H1; auto). easy.
      - apply firstM_Ok in Hsets as [[_ H1]|(l1 & x & l2 & _ & H1 & _)]; [|discriminate].
        rewrite (H1 [] Hnil) in H0. discriminate. }
    destruct (if is_nil s then do b <- d_separated d t o [] ; Ok (negb b) else Ok false) as [fail|] eqn:Hf; [|discriminate].
    cbn [bind]. destruct fail; [discriminate|]. specialize (Hne _ eq_refl eq_refl).
    assert (Hm : match s with [] => [[]] | _ :: _ => s end = s) by (destruct s; [easy|auto]). rewrite Hm.
    assert (Ho : eqb adj "all"%string || eqb adj "minimal"%string = true) by (destruct Hs as [->| ->]; reflexivity). rewrite Ho.
    intros H. injection H as <- <-. exists d, des. split; auto. split; auto. split; auto. split; auto. split; auto.
    split; intros ->; exact Hsets.
  Qed.

  (** every returned set consists of candidates, is valid, and has no repetition *)
  Lemma gbs_sound ta oa adj sets p : style adj ->
    get_backdoor_set ord g ta oa adj = Ok (Some (BSets sets, p)) ->
    let t := as_set ta in let o := as_set oa in
    incl (o ++ t) (keys (causation g)) /\ p = backdoor_prob t o (hd [] sets) /\ sets <> [] /\
    forall z, In z sets -> NoDup z /\ (forall v, In v z -> candidate g t o v) /\ backdoor_criterion g t o z.
  Proof.
    intros Hs H t o. destruct (gbs_inv _ _ Hs H) as (d & des & Hd & Hi & Hdes & Hp & Hne & Ha & Hm).
    split; auto. split; auto. split; auto. intros z Hz. subst t o; set (t := as_set ta) in *; set (o := as_set oa) in *.
    destruct (@init_set_spec ord Hord g U t o des Hdes) as [NI HI].
    assert (Hz' : In z (powerset (ord (init_set g t o des))) /\ d_separated d t o z = Ok true).
    { destruct Hs as [->| ->].
      - specialize (Ha eq_refl). apply filterM_Ok in Ha as (_ & Ha & _). now apply Ha.
      - specialize (Hm eq_refl). apply firstM_Ok in Hm as [[-> _]|(l1 & x & l2 & Hl & -> & Hx & _)]; [destruct Hz|].
        destruct Hz as [<-|[]]. split; auto. rewrite Hl. apply in_app_iff. right. now left. }
    destruct Hz' as [H1 H2]. apply powerset_subset in H1 as [H1 H1']; auto. split; auto.
    assert (HC : forall v, In v z -> candidate g t o v) by (intros v Hv; apply HI; auto). split; auto.
    destruct (cand_disj _ HC) as (D1 & D2 & _). assert (Ht : incl t (keys (causation g))).
    { intros v Hv. apply Hi, in_app_iff. auto. }
    now apply (proj1 (@dsep_bool t o z d true Ht Hd H2 D1 D2)).
  Qed.

  (** 'all' misses none and lists each once *)
  Lemma gbs_all_complete ta oa sets p :
    get_backdoor_set ord g ta oa "all" = Ok (Some (BSets sets, p)) ->
    let t := as_set ta in let o := as_set oa in
    (forall z, (forall v, In v z -> candidate g t o v) -> backdoor_criterion g t o z ->
       exists z', In z' sets /\ forall v, In v z <-> In v z') /\
    NoDup sets /\ (forall z z', In z sets -> In z' sets -> (forall v, In v z <-> In v z') -> z = z').
  Proof.
    intros H t o. destruct (@gbs_inv _ _ "all"%string _ _ (or_introl eq_refl) H) as (d & des & Hd & Hi & Hdes & Hp & Hne & Ha & _).
    specialize (Ha eq_refl). subst t o; set (t := as_set ta) in *; set (o := as_set oa) in *. destruct (@init_set_spec ord Hord g U t o des Hdes) as [NI HI].
    destruct (filterM_Ok _ _ Ha) as (F1 & F2 & F3). split; [|split].
    - intros z HC Hcrit. destruct (@powerset_complete _ _ _ z NI) as (z' & Hz' & He).
      { intros v Hv. now apply HI, HC. }
      exists z'. split; [|intros v; symmetry; apply He]. apply F2. split; auto. destruct (F1 z' Hz') as [b Hb].
      assert (HC' : forall v, In v z' -> candidate g t o v) by (intros v Hv; apply HC; now apply He).
      destruct (cand_disj _ HC') as (D1 & D2 & _). assert (Ht : incl t (keys (causation g))).
      { intros v Hv. apply Hi, in_app_iff. auto. }
      assert (b = true); [|now subst]. apply (@dsep_bool t o z' d b Ht Hd Hb D1 D2).
      eapply criterion_ext; [|exact Hcrit]. intros; symmetry; apply He.
    - apply F3. now apply powerset_NoDup.
    - intros z z' H1 H2 He. apply F2 in H1 as [H1 _], H2 as [H2 _].
      eapply powerset_unique; eauto.
  Qed.

  Lemma split_later {A} (l1 : list A) x l2 y : In y (l1 ++ x :: l2) -> ~ In y l1 -> y = x \/ exists m1 m2, l2 = m1 ++ y :: m2.
  Proof.
    intros H Hn. apply in_app_iff in H as [H|[H|H]]; [tauto|auto|]. right. now apply in_split in H as (m1 & m2 & ->); eauto.
  Qed.

  (** 'minimal' returns one set of least size *)
  Lemma gbs_minimal ta oa sets p :
    get_backdoor_set ord g ta oa "minimal" = Ok (Some (BSets sets, p)) ->
    let t := as_set ta in let o := as_set oa in
    exists z, sets = [z] /\ forall z', NoDup z' -> (forall v, In v z' -> candidate g t o v) -> backdoor_criterion g t o z' ->
      List.length z <= List.length z'.
  Proof.
    intros H t o. destruct (@gbs_inv _ _ "minimal"%string _ _ (or_intror eq_refl) H) as (d & des & Hd & Hi & Hdes & Hp & Hne & _ & Hm).
    specialize (Hm eq_refl). subst t o; set (t := as_set ta) in *; set (o := as_set oa) in *. destruct (@init_set_spec ord Hord g U t o des Hdes) as [NI HI].
    apply firstM_Ok in Hm as [[-> _]|(l1 & z & l2 & Hl & -> & Hx & Hf)]; [easy|]. exists z. split; auto.
    intros z' ND HC Hcrit. destruct (@powerset_complete _ _ _ z' NI) as (q & Hq & He).
    { intros v Hv. now apply HI, HC. }
    assert (NDq : NoDup q) by (now apply powerset_subset in Hq).
    assert (Lq : List.length q = List.length z').
    { apply Permutation_length, NoDup_Permutation; auto. }
    rewrite <- Lq. assert (Hn : ~ In q l1).
    { intros Hin. specialize (Hf q Hin).
      assert (HC' : forall v, In v q -> candidate g t o v) by (intros v Hv; apply HC; now apply He).
      destruct (cand_disj _ HC') as (D1 & D2 & _). assert (Ht : incl t (keys (causation g))).
      { intros v Hv. apply Hi, in_app_iff. auto. }
      assert (false = true); [|discriminate]. apply (@dsep_bool t o q d false Ht Hd Hf D1 D2).
      eapply criterion_ext; [|exact Hcrit]. intros; symmetry; apply He. }
    pose proof Hq as Hq'. rewrite Hl in Hq'. destruct (split_later _ _ _ _ Hq' Hn) as [->|(m1 & m2 & ->)]; auto.
    exact (@powerset_sorted _ _ _ NI l1 z m1 q m2 Hl).
  Qed.

  Lemma gbs_error ta oa adj : style adj -> get_backdoor_set ord g ta oa adj = Err IdentificationError ->
    let t := as_set ta in let o := as_set oa in
    forall z, (forall v, In v z -> candidate g t o v) -> ~ backdoor_criterion g t o z.
  Proof.
    intros Hs. unfold get_backdoor_set. cbv zeta. set (t := as_set ta). set (o := as_set oa).
    destruct (check_nodes_case (keys (causation g)) (o ++ t)) as [[Hi Hc]|[_ Hc]]; rewrite Hc; [|discriminate]. cbn [bind].
    assert (Ht : incl t (keys (causation g))) by (intros v Hv; apply Hi, in_app_iff; auto).
    destruct (mod_spec U Ht) as (d & Hd & _). rewrite Hd. cbn [bind].
    assert (Hns : eqb adj "simple"%string = false) by (destruct Hs as [->| ->]; reflexivity). rewrite Hns.
    assert (NE : forall x y z, d_separated d x y z <> Err IdentificationError).
    { intros x y z. unfold d_separated. destruct (negb (is_dag d)); [discriminate|]. destruct (negb _); discriminate. }
    assert (ND : forall x, nx_descendants (observed_dag g) x <> Err IdentificationError).
    { intros x. unfold nx_descendants. destruct (mem _ _); discriminate. }
    destruct (determine g d t o) as [b|e] eqn:Hdet.
    2: { cbn [bind]. unfold determine in Hdet. destruct (forallb _ t); [|discriminate]. intros He. injection He as ->. now apply NE in Hdet. }
    cbn [bind]. destruct b; [|discriminate]. cbn [negb].
    destruct (mapM (nx_descendants (observed_dag g)) (ord t)) as [des|e] eqn:Hdes.
    2: { cbn [bind]. intros He. injection He as ->. exfalso. revert Hdes. generalize (ord t).
         induction l as [|x l IH]; cbn [mapM]; [discriminate|].
         destruct (nx_descendants (observed_dag g) x) eqn:Hx; cbn [bind]; [|intros He; injection He as ->; now apply ND in Hx].
         destruct (mapM (nx_descendants (observed_dag g)) l) eqn:Hm; cbn [bind]; [discriminate|].
         intros He. injection He as ->. now apply IH. }
    cbn [bind]. fold (init_set g t o des). destruct (@init_set_spec ord Hord g U t o des Hdes) as [NI HI].
    set (ps := powerset (ord (init_set g t o des))).
    assert (F0 : forall l, filterM (d_separated d t o) l <> Err IdentificationError).
    { induction l as [|x l IH]; cbn [filterM]; [discriminate|].
      destruct (d_separated d t o x) eqn:Hx; cbn [bind]; [|intros He; injection He as ->; now apply NE in Hx].
      destruct (filterM (d_separated d t o) l); cbn [bind]; [discriminate|]. intros He. injection He as ->. now apply IH. }
    assert (F1 : forall l, firstM (d_separated d t o) l <> Err IdentificationError).
    { induction l as [|x l IH]; cbn [firstM]; [discriminate|].
      destruct (d_separated d t o x) as [[]|] eqn:Hx; cbn [bind]; [discriminate|auto|intros He; injection He as ->; now apply NE in Hx]. }
    destruct (if eqb adj "minimal"%string then firstM (d_separated d t o) ps else filterM (d_separated d t o) ps)
      as [s|e] eqn:Hsets.
    2: { cbn [bind]. intros He. injection He as ->. destruct (eqb adj "minimal"%string); [now apply F1 in Hsets|now apply F0 in Hsets]. }
    cbn [bind]. destruct s as [|s0 s].
    - intros _ z HC Hcrit. destruct (@powerset_complete _ _ _ z NI) as (q & Hq & He).
      { intros v Hv. now apply HI, HC. }
      assert (Hf : d_separated d t o q = Ok false).
      { destruct Hs as [->| ->]; cbn in Hsets.
        - apply filterM_Ok in Hsets as (T & F & _). destruct (T q Hq) as [[] Hb]; auto.
          assert (In q (@nil (list node))) by (apply F; auto). easy.
        - apply firstM_Ok in Hsets as [[_ H]|(? & ? & ? & _ & H & _)]; [now apply H|discriminate]. }
      assert (HC' : forall v, In v q -> candidate g t o v) by (intros v Hv; apply HC; now apply He).
      destruct (cand_disj _ HC') as (D1 & D2 & _).
      assert (false = true); [|discriminate]. apply (@dsep_bool t o q d false Ht Hd Hf D1 D2).
      eapply criterion_ext; [|exact Hcrit]. intros; symmetry; apply He.
    - cbn [is_nil bind]. assert (Ho : eqb adj "all"%string || eqb adj "minimal"%string = true) by (destruct Hs as [->| ->]; reflexivity).
      rewrite Ho. discriminate.
  Qed.

  (** names that keep an edge once the edges out of the treatments are gone *)
  Definition touched (t : list node) (v : node) : Prop :=
    exists m, (cause g uname v m /\ ~ In v t) \/ (cause g uname m v /\ ~ In m t).
  Lemma touched_nodes t d v : incl t (keys (causation g)) -> modified_dag g t = Ok d -> (In v (nodes d) <-> touched t v).
  Proof.
    intros Ht Hd. destruct (mod_spec U Ht) as (d' & Hd' & _ & _ & _ & EQ & NQ). rewrite Hd in Hd'. injection Hd' as <-.
    rewrite NQ. unfold touched. split; intros (m & Hm); exists m; rewrite !EQ in *; auto.
  Qed.

  Lemma gbs_total ta oa adj : style adj ->
    let t := as_set ta in let o := as_set oa in
    incl (o ++ t) (keys (causation g)) ->
    (forall v, In v (keys (causation g)) -> ~ In v t -> (forall x, In x t -> ~ reach (is_parent g) x v) -> touched t v) ->
    (forall v, In v (t ++ o) -> touched t v) ->
    (forall x, In x t -> exists m, is_parent g x m \/ is_parent g m x) ->
    (exists x, In x t /\ lookup (causation g) x <> []) ->
    (exists sets p, get_backdoor_set ord g ta oa adj = Ok (Some (BSets sets, p))) \/
    get_backdoor_set ord g ta oa adj = Err IdentificationError.
  Proof.
    intros Hs t o Hi T1 T2 T3 (x0 & Hx0 & Hp0). unfold get_backdoor_set. cbv zeta. fold t o.
    rewrite (proj2 (check_nodes_ok _ _) Hi). cbn [bind].
    assert (Ht : incl t (keys (causation g))) by (intros v Hv; apply Hi, in_app_iff; auto).
    destruct (mod_spec U Ht) as (d & Hd & Gd & Sd & Ad & EQ & NQ). rewrite Hd. cbn [bind].
    assert (Hns : eqb adj "simple"%string = false) by (destruct Hs as [->| ->]; reflexivity). rewrite Hns.
    assert (Hdet : determine g d t o = Ok true).
    { unfold determine. destruct (forallb _ t) eqn:Hf; auto. rewrite forallb_forall in Hf. specialize (Hf _ Hx0).
      destruct (lookup (causation g) x0); [easy|discriminate]. }
    rewrite Hdet. cbn [bind negb].
    destruct (@mapM_total _ _ (nx_descendants (observed_dag g)) (ord t)) as [des Hdes].
    { intros x Hx. apply ord_In in Hx; auto. destruct (@nx_descendants_spec _ _ (observed_dag g) x) as (l & Hl & _); eauto.
      - apply (gwf_wf (observed_dag_of_gwf (causation g))).
      - unfold observed_dag. apply observed_dag_of_nodes; [apply (ug_wf U)|]. apply T3, Hx. }
    rewrite Hdes. cbn [bind]. fold (init_set g t o des). destruct (@init_set_spec ord Hord g U t o des Hdes) as [NI HI].
    set (ps := powerset (ord (init_set g t o des))).
    assert (TT : forall q, In q ps -> exists b, d_separated d t o q = Ok b).
    { intros q Hq. apply powerset_subset in Hq as [Hq _]; auto.
      assert (HC : forall v, In v q -> candidate g t o v) by (intros v Hv; apply HI; auto).
      destruct (cand_disj _ HC) as (D1 & D2 & _).
      destruct (@dsep_criterion g U t Ht d o q Hd) as (b & Hb & _); eauto.
      intros v Hv. apply (@touched_nodes t d v Ht Hd). rewrite app_assoc in Hv. apply in_app_iff in Hv as [Hv|Hv]; auto.
      apply HC in Hv as (V1 & V2 & V3 & V4). auto. }
    assert (TN : exists b, d_separated d t o [] = Ok b).
    { apply TT. apply powerset_In; auto. unfold inter. clear. induction (ord _); simpl; auto. }
    assert (Ho : eqb adj "all"%string || eqb adj "minimal"%string = true) by (destruct Hs as [->| ->]; reflexivity).
    destruct (if eqb adj "minimal"%string then firstM (d_separated d t o) ps else filterM (d_separated d t o) ps)
      as [s|e] eqn:Hsets.
    2: { exfalso. destruct (eqb adj "minimal"%string).
         - destruct (firstM_total _ _ TT); congruence. - destruct (filterM_total _ _ TT); congruence. }
    cbn [bind]. rewrite Ho. destruct s as [|s0 s]; cbn [is_nil bind].
    - destruct TN as [b ->]. cbn [bind]. destruct (negb b); eauto.
    - eauto.
  Qed.

  Variable dom : node -> list nat.
  Variable cpt : node -> @asg node -> R.
  Hypothesis M : compatible g uname dom cpt.

  Lemma obs_pos S a : (0 < P_obs g uname dom cpt S a)%R.
  Proof.
    assert (AC := ug_acyclic U). assert (HF := ug_fresh U).
    destruct (rank_exists (ug_wf U) (ug_closed U) AC HF) as (rank & Hr).
    apply (@marg_pos _ _ dom cpt (vars g uname) (c_dom M) (c_pos M)). apply incl_refl.
  Qed.

  (** the returned expression denotes the adjustment formula *)
  Lemma backdoor_prob_eval t o z a : (forall v, In v t -> ~ In v z) ->
    eval g uname dom cpt (backdoor_prob t o z) a = adjustment g uname dom cpt t o z a.
  Proof.
    intros D. unfold backdoor_prob. cbn [eval fold_right]. unfold adjustment. apply sums_eq. intros b.
    assert (Hu : union t z = t ++ z).
    { unfold union. f_equal. unfold diff. apply filter_all_true. intros v Hv. rewrite negb_true_iff, mem_nIn.
      intros H; eapply D; eauto. }
    rewrite Hu. cbn [sums].
    change (P_cond g uname dom cpt [] [] b) with 1%R.
    rewrite (@P_cond_nil g uname (ug_wf U) (ug_closed U) (ug_acyclic U) (ug_fresh U) dom cpt M z).
    assert (Hc : P_cond g uname dom cpt o (t ++ z) b = (P_obs g uname dom cpt (o ++ t ++ z) b / P_obs g uname dom cpt (t ++ z) b)%R).
    { unfold P_cond. destruct o; auto. cbn [app]. pose proof (obs_pos (t ++ z) b) as Hp. field. lra. }
    rewrite Hc. field. pose proof (obs_pos (t ++ z) b). lra.
  Qed.
End Result.
