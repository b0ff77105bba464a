(** Lemmas for get_iv. *)
From Verif Require Import Base NxModel NxSpec ReachProofs NxProofs GraphModel GraphSpec GraphProofs ExplicitProofs
  CausalModel Bn ScmSpec ScmProofs BackdoorSpec BackdoorProofs PathProofs IvSpec.
Set Implicit Arguments.

Section Common.
  Context {A : Type} {EA : EqDec A}.
  Variable E : A -> A -> Prop.
  Hypothesis AC : acyclic E.

  (** a trail without colliders has a node that reaches both ends *)
  Lemma open_common l x : uwalk E (x :: l) -> active E (fun _ => False) (x :: l) ->
    exists r, reach E r x /\ reach E r (last (x :: l) x) /\ (match l with y :: _ => E x y -> r = x | [] => True end).
  Proof.
    revert x. induction l as [|y l IH]; intros x Hw Ha.
    - exists x. cbn. repeat constructor.
    - destruct Hw as [He Hw]. assert (Ha' : active E (fun _ => False) (y :: l)) by (destruct l; [exact I|apply Ha]).
      destruct (IH y Hw Ha') as (r & R1 & R2 & R3).
      assert (LL : last (x :: y :: l) x = last (y :: l) y).
      { rewrite last_cons_nonempty by discriminate. apply last_default; discriminate. }
      rewrite LL. destruct He as [Hxy|Hyx].
      + destruct l as [|b l].
        * exists x. split; [constructor|]. split; auto. cbn. now apply reach_one.
        * destruct Ha as [[[_ (d & [] & _)]|[Hn _]] _].
          destruct (proj1 Hw) as [Hyb|Hby]; [|exfalso; apply Hn; split; auto].
          rewrite (R3 Hyb) in R2. exists x. split; [constructor|]. split; auto. econstructor; eauto.
      + exists r. split; [eapply reach_snoc; [exact R1|exact Hyx]|]. split; auto. intros Hxy. exfalso. apply (AC (x:=x)). exists y. split; auto. now apply reach_one.
  Qed.
  Lemma common_trail r x y : reach E r x -> reach E r y -> exists l, trail E l x y /\ active E (fun _ => False) l.
  Proof.
    intros Hx Hy. destruct (reach_dwalk Hx) as (lx & X1 & X2), (reach_dwalk Hy) as (ly & Y1 & Y2).
    assert (ZD : forall a : A, False \/ ~ False) by tauto.
    destruct (@rev_dwalk_glue _ E (fun _ => False) AC lx r x ly) as (w & W1 & W2 & W3); auto.
    { now apply dwalk_uwalk. }
    { apply (@dwalk_active _ E (fun _ => False) AC); auto. }
    destruct (@active_walk_trail _ _ E (fun _ => False) (fun _ => False) (fun _ => False) AC ZD x w W1 W2) as (l & L1 & L2). exists (x :: l). split; auto.
    rewrite W3, Y2 in L1. exact L1.
  Qed.
  Lemma dsep_common x y : dsep E (fun v => v = x) (fun v => v = y) (fun _ => False) <->
    forall r, reach E r x -> ~ reach E r y.
  Proof.
    split.
    - intros D r Hx Hy. destruct (common_trail Hx Hy) as (l & L1 & L2). eapply D; eauto.
    - intros D l u v -> -> (ND & Hw & l' & -> & Hl) Ha. destruct (@open_common l' x Hw Ha) as (r & R1 & R2 & _).
      rewrite Hl in R2. eapply D; eauto.
  Qed.
End Common.

(** ** remove_ingo_edges *)
Lemma drop_first_In {A} (f : A -> bool) l x : In x (drop_first f l) -> In x l.
Proof. induction l as [|a l IH]; simpl; auto. destruct (f a); simpl; intuition. Qed.
Lemma drop_first_keep {A} (f : A -> bool) l x : In x l -> f x = false -> In x (drop_first f l).
Proof.
  induction l as [|a l IH]; simpl; auto. intros [->|H] Hf.
  - rewrite Hf. now left.
  - destruct (f a); [auto|right; auto].
Qed.
Lemma drop_first_none {A B} (k : A -> B) (f : A -> bool) l : (forall x y, f x = true -> f y = true -> k x = k y) ->
  NoDup (map k l) -> forall x, In x (drop_first f l) -> f x = false.
Proof.
  intros Hk. induction l as [|a l IH]; intros ND x H; [destruct H|]. inversion ND; subst. cbn [drop_first] in H.
  destruct (f a) eqn:Ha.
  - destruct (f x) eqn:Hx; auto. exfalso. apply H2. rewrite (Hk a x Ha Hx). now apply in_map.
  - destruct H as [<-|H]; auto.
Qed.
Lemma drop_first_NoDup {A B} (k : A -> B) (f : A -> bool) l : NoDup (map k l) -> NoDup (map k (drop_first f l)).
Proof.
  induction l as [|a l IH]; intros ND; [constructor|]. inversion ND; subst. cbn [drop_first]. destruct (f a); auto.
  cbn [map]. constructor; auto. rewrite in_map_iff in *. intros (x & Hx & Hi). apply H1. exists x. split; auto.
  eapply drop_first_In; eauto.
Qed.
Lemma remove_pair_simple d e : simple d -> simple (remove_pair d e).
Proof.
  unfold simple, remove_pair. cbn [edges]. intros H. rewrite map_rev. apply NoDup_rev, drop_first_NoDup.
  rewrite map_rev. now apply NoDup_rev.
Qed.
Lemma remove_pair_ed d e a b : simple d -> (ed (remove_pair d e) a b <-> ed d a b /\ (a, b) <> e).
Proof.
  intros S. unfold ed, remove_pair. cbn [edges]. split.
  - intros (k & Hk). apply in_rev in Hk. split; [exists k; apply in_rev; eapply drop_first_In; eauto|].
    apply (@drop_first_none _ _ fst) in Hk.
    + cbn [fst] in Hk. intros He; subst e. rewrite eqb_refl in Hk. discriminate.
    + intros x y Hx Hy. apply eqb_eq in Hx, Hy. congruence.
    + rewrite map_rev. now apply NoDup_rev.
  - intros [(k & Hk) Hn]. exists k. apply -> in_rev. apply drop_first_keep; [now apply in_rev in Hk|].
    cbn [fst]. apply eqb_neq. exact Hn.
Qed.
Lemma remove_pairs_ed t ps : forall d a b, simple d ->
  simple (fold_left (fun d p => remove_pair d (p, t)) ps d) /\
  nodes (fold_left (fun d p => remove_pair d (p, t)) ps d) = nodes d /\
  (ed (fold_left (fun d p => remove_pair d (p, t)) ps d) a b <-> ed d a b /\ ~ (b = t /\ In a ps)).
Proof.
  induction ps as [|p ps IH]; intros d a b S; cbn [fold_left].
  - split; auto. split; auto. simpl. tauto.
  - destruct (IH (remove_pair d (p, t)) a b (remove_pair_simple _ S)) as (I1 & I2 & I3). split; auto. split; auto.
    rewrite I3, remove_pair_ed by auto. simpl. split.
    + intros [[H1 H2] H3]. split; auto. intros [-> [->|Hi]]; [congruence|tauto].
    + intros [H1 H2]. split; [split; auto; intros He; injection He as -> ->; tauto|tauto].
Qed.

Section Iv.
  Variable g : cg.
  Hypothesis U : user_graph g.
  Let X := explicit_unob_var_dag g.
  Let E := cause g uname.
  Variables t o : node.
  Let C := cut_into E t.

  Lemma ingo_spec d : remove_ingo_edges X t = Ok d ->
    In t (nodes X) /\ nodes d = nodes X /\ wf d /\ forall a b, ed d a b <-> C a b.
  Proof.
    unfold remove_ingo_edges. destruct (check_nodes_case (nodes X) [t]) as [[Hi Hc]|[_ Hc]]; rewrite Hc; [|discriminate].
    cbn [bind]. intros H. injection H as <-.
    assert (S : simple X) by (apply explicit_simple; [apply U|apply (fresh_no_hidden (ug_closed U) (ug_fresh U))]).
    assert (Ed : forall a b, ed (fold_left (fun d p => remove_pair d (p, t)) (predecessors X t) X) a b <-> C a b).
    { intros a b. destruct (@remove_pairs_ed t (predecessors X t) X a b S) as (_ & _ & H). rewrite H.
      unfold C, cut_into, X. rewrite (@X_ed g U), (@X_pred g U). unfold E. split; intros [H1 H2]; (split; [exact H1|]).
      - intros ->. tauto.
      - tauto. }
    destruct (@remove_pairs_ed t (predecessors X t) X t t S) as (S' & N' & _).
    split; [apply Hi; now left|]. split; auto. split; auto.
    pose proof (@X_wf g) as W. split.
    - rewrite N'. apply W.
    - intros a b Hab. rewrite N'. apply Ed in Hab as [Hab _]. apply (@X_ed g U) in Hab. now apply (wf_ends W) in Hab.
  Qed.

  Lemma C_acyclic : acyclic C.
  Proof.
    intros v (m & Hm & Hr). apply (ug_cause_acyclic U (x:=v)). exists m. split; [apply Hm|].
    eapply reach_mono; [|exact Hr]. intros a b Hab. apply Hab.
  Qed.
  (** the exact result *)
  Lemma get_iv_spec iv : get_iv g t o = Ok iv ->
    NoDup iv /\ forall p, In p iv <-> is_parent g p t /\ forall r, reach C r p -> reach C r o -> r = o.
  Proof.
    unfold get_iv. destruct (check_all _ _); [|discriminate]. cbn [bind].
    destruct (remove_ingo_edges (explicit_unob_var_dag g) t) as [d|] eqn:Hd; [|discriminate]. cbn [bind].
    destruct (ingo_spec Hd) as (_ & _ & W & Ed).
    assert (RE : forall a b, reach (ed d) a b <-> reach C a b).
    { intros u v. split; apply reach_mono; intros ? ? ?; now apply Ed. }
    destruct (nx_ancestors d o) as [an|] eqn:Han; [|discriminate]. cbn [bind]. intros H. injection H as <-.
    assert (Ho : In o (nodes d)).
    { unfold nx_ancestors in Han. destruct (mem o (nodes d)) eqn:Hm; [now apply mem_In in Hm|discriminate]. }
    destruct (nx_ancestors_spec _ W Ho) as (an' & Han' & HA). rewrite Han in Han'. injection Han' as <-.
    split; [apply diff_NoDup, diff_NoDup, dedup_NoDup|].
    intros p. rewrite !diff_In, dedup_In. unfold is_parent. split.
    - intros [[H1 H2] H3]. split; auto. intros r Hr1 Hr2. destruct (eq_dec r o) as [|Hn]; auto. exfalso. apply H3.
      unfold descendents_of_iter. rewrite dedup_In, in_flat_map. exists r. assert (Hra : In r an) by (apply HA; split; auto; now apply RE).
      split; auto. destruct (eq_dec p r) as [->|Hpr]; [now left|right].
      assert (Hrd : In r (nodes d)).
      { apply RE in Hr1. destruct (reach_inv Hr1) as [?|(z & Hz & _)]; [congruence|]. now apply (wf_ends W) in Hz. }
      destruct (nx_descendants_spec _ W Hrd) as (l & -> & Hl). apply Hl. split; auto. now apply RE.
    - intros [H1 H2]. assert (Hpn : ~ In p an).
      { intros Hp. apply HA in Hp as [Hp1 Hp2]. apply Hp1. apply H2; [constructor|now apply RE]. }
      split; [split; auto|]. unfold descendents_of_iter. rewrite dedup_In, in_flat_map. intros (r & Hr & Hp).
      pose proof Hr as Hr'. apply HA in Hr' as [Hr1 Hr2]. destruct Hp as [->|Hp]; [auto|].
      destruct (In_dec r (nodes d)) as [Hrn|Hrn].
      + destruct (nx_descendants_spec _ W Hrn) as (l & Hl & Hs). rewrite Hl in Hp. apply Hs in Hp as [_ Hp].
        apply Hr1, H2; now apply RE.
      + unfold nx_descendants in Hp. apply mem_nIn in Hrn. rewrite Hrn in Hp. destruct Hp.
  Qed.
  (** when the outcome is not a cause of the treatment *)
  Lemma get_iv_instruments iv : In o (keys (causation g)) -> ~ reach (is_parent g) o t -> get_iv g t o = Ok iv ->
    NoDup iv /\ forall p, In p iv <-> instrument g t o p.
  Proof.
    intros Ko Hot H. destruct (get_iv_spec H) as [ND HI]. split; auto. intros p. rewrite HI. unfold instrument. fold E. fold C.
    rewrite (@dsep_common _ _ C C_acyclic). split; intros (H1 & H2); split; auto.
    - assert (Hpo : p <> o) by (intros ->; apply Hot; now apply reach_one).
      split; auto. intros r Hr1 Hr2. pose proof (H2 r Hr1 Hr2) as ->. apply Hot.
      eapply reach_snoc; [|exact H1]. apply (cause_reach_obs U); auto.
      eapply reach_mono; [|exact Hr1]. intros a b Hab. apply Hab.
    - intros r Hr1 Hr2. now destruct (proj2 H2 r Hr1).
  Qed.
  Lemma get_iv_total : In t (keys (causation g)) -> In o (keys (causation g)) -> In t (nodes X) -> In o (nodes X) ->
    exists iv, get_iv g t o = Ok iv.
  Proof.
    intros Kt Ko Ht Ho. unfold get_iv, check_all.
    rewrite (proj2 (check_nodes_ok _ _)).
    2: { intros v Hv. cbn [flat_map] in Hv. rewrite !in_app_iff in Hv. destruct Hv as [Hv|[Hv|[]]]; apply str_items in Hv; now subst. }
    cbn [bind]. fold X. unfold remove_ingo_edges at 1. rewrite (proj2 (check_nodes_ok _ _)) by (intros v [<-|[]]; auto). cbn [bind].
    destruct (remove_ingo_edges X t) as [d|] eqn:Hd.
    - destruct (ingo_spec Hd) as (_ & N & _). unfold remove_ingo_edges in Hd.
      rewrite (proj2 (check_nodes_ok _ _)) in Hd by (intros v [<-|[]]; auto). cbn [bind] in Hd. injection Hd as Hd. rewrite Hd.
      unfold nx_ancestors. rewrite N, (proj2 (mem_In _ _) Ho). cbn [bind]. eauto.
    - unfold remove_ingo_edges in Hd. rewrite (proj2 (check_nodes_ok _ _)) in Hd by (intros v [<-|[]]; auto). discriminate.
  Qed.
End Iv.

