(** get_backdoor_path, has_collider, is_connected_backdoor_path. *)
From Verif Require Import Base NxModel NxSpec ReachProofs NxProofs GraphModel GraphSpec GraphProofs ExplicitProofs
  GraphProps CausalModel Bn BnProofs ScmSpec ScmProofs PowersetProofs BackdoorSpec BackdoorProofs PathSpec.
Set Implicit Arguments.

Lemma last_In {A} (l : list A) d : l <> [] -> In (last l d) l.
Proof. induction l as [|a [|b l] IH]; intros H; [easy|now left|]. right. apply IH. discriminate. Qed.
Lemma str_items v s : In v (check_items (Str s)) -> v = s.
Proof. destruct s; [intros []|intros [<-|[]]; reflexivity]. Qed.
Lemma uwalk_dwalk {A} (E R : A -> A -> Prop) l : (forall a b, R a b <-> E a b \/ E b a) -> (dwalk R l <-> uwalk E l).
Proof.
  intros H. induction l as [|a [|b r] IH]; cbn [dwalk uwalk]; try tauto. rewrite H. rewrite IH. tauto.
Qed.

Lemma simple_paths_NoDup {A} {EA : EqDec A} (next : A -> list A) : (forall a, NoDup (next a)) ->
  forall fuel visited s t, NoDup (simple_paths next fuel visited s t).
Proof.
  intros HN. induction fuel as [|f IH]; intros visited s t; [constructor|]. cbn [simple_paths].
  apply flat_map_NoDup; auto.
  - intros v _. destruct (mem v visited); [constructor|]. destruct (eqb v t); [repeat constructor; auto|].
    apply FinFun.Injective_map_NoDup; auto. intros a b H. now injection H.
  - assert (Hd : forall f visited v p, In p (simple_paths next f visited v t) -> exists r, p = v :: r).
    { clear. intros f visited v p. destruct f; [intros []|]. cbn [simple_paths]. rewrite in_flat_map.
      intros (w & _ & H). destruct (mem w visited); [destruct H|]. destruct (eqb w t).
      - destruct H as [<-|[]]. eauto. - apply in_map_iff in H as (q & <- & _). eauto. }
    assert (Hv : forall v p, In p (if mem v visited then [] else if eqb v t then [[s; t]]
                    else map (cons s) (simple_paths next f (v :: visited) v t)) -> exists r, p = s :: v :: r).
    { intros v p. destruct (mem v visited); [intros []|]. destruct (eqb_spec v t) as [->|].
      - intros [<-|[]]. eauto. - intros H. apply in_map_iff in H as (q & <- & Hq). apply Hd in Hq as (r & ->). eauto. }
    intros a b p _ _ Ha Hb. apply Hv in Ha as (r & ->), Hb as (r' & Hb). congruence.
Qed.

Section Paths.
  Variable g : cg.
  Hypothesis U : user_graph g.
  Let X := explicit_unob_var_dag g.
  Let E := cause g uname.

  Lemma X_ed p v : ed X p v <-> E p v.
  Proof. apply explicit_cause. apply U. Qed.
  Lemma X_wf : wf X.
  Proof. apply (gwf_wf (explicit_gwf g)). Qed.
  Lemma X_pred p v : In p (predecessors X v) <-> E p v.
  Proof. rewrite predecessors_spec. apply X_ed. Qed.
  Lemma X_succ p v : In v (successors X p) <-> E p v.
  Proof. rewrite successors_spec. apply X_ed. Qed.
  Lemma X_next a b : In b (undirected_next X a) <-> E a b \/ E b a.
  Proof. unfold undirected_next, neighbours. rewrite dedup_In, in_app_iff, X_succ, X_pred. tauto. Qed.

  Lemma trail_path p s t : s <> t ->
    (NoDup p /\ dwalk (stepw (undirected_next X)) p /\ (exists q, p = s :: q ++ [t])) <-> trail E p s t.
  Proof.
    intros Hst. unfold trail. rewrite (@uwalk_dwalk _ E (stepw (undirected_next X)) p) by (intros; apply X_next).
    split; intros (H1 & H2 & H3); split; auto; split; auto.
    - destruct H3 as (q & ->). exists (q ++ [t]). split; auto. change (s :: q ++ [t]) with ((s :: q) ++ [t]). apply last_snoc.
    - destruct H3 as (l' & -> & Hl). destruct (@exists_last _ l') as (q & y & ->).
      + intros ->. cbn in Hl. auto.
      + exists q. change (s :: q ++ [y]) with ((s :: q) ++ [y]) in Hl. rewrite last_snoc in Hl. now subst.
  Qed.

  Lemma get_backdoor_path_spec t o : In t (keys (causation g)) -> In o (keys (causation g)) ->
    In t (nodes X) -> In o (nodes X) -> t <> o ->
    exists ps, get_backdoor_path g t o = Ok ps /\ NoDup ps /\ forall p, In p ps <-> backdoor_path E p t o.
  Proof.
    intros Kt Ko Nt No Hne. unfold get_backdoor_path. fold X.
    assert (Hc : check_all (keys (causation g)) [Str t; Str o] = Ok tt).
    { apply check_nodes_ok. intros v Hv. cbn [flat_map check_items app] in Hv.
      rewrite app_nil_r in Hv. apply in_app_iff in Hv as [Hv|Hv].
      - destruct t; [destruct Hv|destruct Hv as [<-|[]]; auto]. - destruct o; [destruct Hv|destruct Hv as [<-|[]]; auto]. }
    rewrite Hc. cbn [bind]. unfold asp. rewrite (proj2 (mem_In _ _) Nt), (proj2 (mem_In _ _) No). cbn [negb].
    assert (Hm : mem t [o] = false) by (apply mem_nIn; intros [->|[]]; auto). rewrite Hm.
    destruct (@all_simple_paths_spec _ _ X (undirected_next X) t o Nt No Hne) as (ps & Hps & Hs).
    { intros a b Ha Hb. apply X_next in Hb as [Hb|Hb]; apply X_ed in Hb; now apply (wf_ends X_wf) in Hb. }
    cbn [mapM]. rewrite Hps. cbn [bind List.concat]. rewrite app_nil_r. eexists. split; [reflexivity|]. split.
    - apply NoDup_filter. unfold all_simple_paths in Hps. rewrite (proj2 (mem_In _ _) Nt), (proj2 (mem_In _ _) No) in Hps.
      cbn [andb] in Hps. destruct (eqb t o); injection Hps as <-; [constructor|]. apply simple_paths_NoDup.
      intros a. apply dedup_NoDup.
    - intros p. rewrite filter_In, Hs, (trail_path p Hne), andb_true_iff, Nat.ltb_lt, mem_In, X_pred.
      unfold backdoor_path. split.
      + intros (HT & Hl & Hp). split; auto. destruct HT as (_ & _ & l' & -> & _).
        destruct l' as [|b [|c r]]; simpl in Hl; try lia. exists b, c, r. split; auto.
      + intros (HT & b & c & r & -> & Hb). split; auto. split; [simpl; lia|]. exact Hb.
  Qed.

  (** *** colliders *)
  Lemma asym a b : E a b -> ~ E b a.
  Proof. apply (E_asym (ug_cause_acyclic U)). Qed.
  Lemma back_spec a b : back X a b = true <-> E b a.
  Proof. unfold back. rewrite mem_In. apply X_pred. Qed.
  Lemma fwd_spec a b : fwd X a b = true <-> E a b.
  Proof. unfold fwd. rewrite mem_In. apply X_succ. Qed.

  Lemma has_coll_cons a p : has_coll E p -> has_coll E (a :: p).
  Proof. intros (l1 & x & m & y & l2 & -> & H). exists (a :: l1), x, m, y, l2. auto. Qed.
  Lemma has_coll_cons_back a b r : E b a -> (has_coll E (a :: b :: r) <-> has_coll E (b :: r)).
  Proof.
    intros Hb. split; [|apply has_coll_cons].
    intros (l1 & x & m & y & l2 & He & H1 & H2). destruct l1 as [|u l1]; cbn in He; inversion He; subst.
    - exfalso. match goal with H : E ?a ?b, H' : E ?b ?a |- _ => exact (asym H H') end.
    - exists l1, x, m, y, l2. auto.
  Qed.
  (** a path that starts with a forward step has a collider iff it has a backward step *)
  Lemma any_back_fwd p : forall a b, E a b -> uwalk E (a :: b :: p) ->
    (any_back X (a :: b :: p) = true <-> has_coll E (a :: b :: p)).
  Proof.
    induction p as [|c p IH]; intros a b Hab Hw.
    - cbn [any_back]. rewrite orb_false_r, back_spec. split.
      + intros H. exfalso. eapply asym; eauto.
      + intros (l1 & x & m & y & l2 & He & _). apply (f_equal (@List.length _)) in He. rewrite app_length in He. simpl in He. lia.
    - cbn [uwalk] in Hw. destruct Hw as [_ Hw]. change (any_back X (a :: b :: c :: p)) with (back X a b || any_back X (b :: c :: p)).
      rewrite orb_true_iff, back_spec. pose proof Hw as [[Hbc|Hcb] _].
      + rewrite (IH b c Hbc Hw). split.
        * intros [H|H]; [exfalso; eapply asym; eauto|now apply has_coll_cons].
        * intros (l1 & x & m & y & l2 & He & H1 & H2). right. destruct l1 as [|u l1]; cbn in He; inversion He; subst.
          -- exfalso. match goal with H : E ?a ?b, H' : E ?b ?a |- _ => exact (asym H H') end.
          -- exists l1, x, m, y, l2. auto.
      + split; intros _.
        * exists [], a, b, c, p. auto.
        * right. cbn [any_back]. apply orb_true_iff. left. now apply back_spec.
  Qed.
  Lemma first_fwd_coll p : forall q, uwalk E p -> first_fwd X p = Some q ->
    (has_coll E p <-> any_back X q = true) /\ (exists l, p = l ++ q) /\ q <> [].
  Proof.
    induction p as [|a [|b r] IH]; intros q Hw Hf; cbn [first_fwd] in Hf; try discriminate.
    destruct (fwd X a b) eqn:Hab.
    - injection Hf as <-. apply fwd_spec in Hab. split; [|split; [now exists [a]|discriminate]].
      rewrite <- (@any_back_fwd r a b Hab Hw). change (any_back X (a :: b :: r)) with (back X a b || any_back X (b :: r)).
      assert (Hb : back X a b = false).
      { destruct (back X a b) eqn:Hc; auto. apply back_spec in Hc. exfalso. eapply asym; eauto. }
      rewrite Hb. cbn [orb]. tauto.
    - destruct Hw as [Hs Hw]. assert (Hba : E b a).
      { destruct Hs as [Hs|Hs]; auto. apply fwd_spec in Hs. congruence. }
      destruct (IH q Hw Hf) as (I1 & (l & I2) & I3). split; [|split; auto; exists (a :: l); cbn; congruence].
      now rewrite (@has_coll_cons_back a b r Hba).
  Qed.
  Lemma first_fwd_some p : forall q, first_fwd X p = Some q -> some_forward E p.
  Proof.
    induction p as [|a [|b r] IH]; intros q Hf; cbn [first_fwd] in Hf; try discriminate.
    destruct (fwd X a b) eqn:Hab.
    - apply fwd_spec in Hab. exists [], a, b, r. auto.
    - destruct (IH q Hf) as (l1 & u & v & l2 & He & Huv). exists (a :: l1), u, v, l2. cbn. split; auto. congruence.
  Qed.
  Lemma first_fwd_none p : uwalk E p -> first_fwd X p = None <-> ~ some_forward E p.
  Proof.
    induction p as [|a [|b r] IH]; intros Hw.
    - split; [|auto]. intros _ (l1 & x & y & l2 & He & _). destruct l1; discriminate.
    - split; [|auto]. intros _ (l1 & x & y & l2 & He & _). destruct l1 as [|? [|]]; discriminate.
    - cbn [first_fwd]. destruct (fwd X a b) eqn:Hab.
      + apply fwd_spec in Hab. split; [discriminate|]. intros H. exfalso. apply H. exists [], a, b, r. auto.
      + destruct Hw as [Hs Hw]. rewrite (IH Hw). split; intros H Hc; apply H.
        * destruct Hc as (l1 & x & y & l2 & He & Hxy). destruct l1 as [|u l1]; cbn in He; inversion He; subst.
          -- apply fwd_spec in Hxy. congruence.
          -- exists l1, x, y, l2. auto.
        * destruct Hc as (l1 & x & y & l2 & -> & Hxy). exists (a :: l1), x, y, l2. auto.
  Qed.
  Lemma no_forward_coll p : ~ some_forward E p -> ~ has_coll E p.
  Proof. intros H (l1 & a & m & b & l2 & -> & Ha & _). apply H. exists l1, a, m, (b :: l2). auto. Qed.
  Lemma is_path_spec p : is_path X p = true <-> uwalk E p.
  Proof.
    induction p as [|a [|b r] IH]; cbn [is_path uwalk]; try tauto.
    rewrite andb_true_iff, orb_true_iff, !has_edge_spec, !X_ed, IH. tauto.
  Qed.

  (** exact behaviour of has_collider on paths *)
  Lemma has_collider_exact p : incl p (nodes X) -> uwalk E p -> 3 <= List.length p ->
    exists b : bool, has_collider g p true = Ok b /\
      (b = true <-> has_coll E p \/ (~ some_forward E p /\ 4 <= List.length p)).
  Proof.
    intros Hn Hw Hl. unfold has_collider. fold X. rewrite (proj2 (check_nodes_ok _ _) Hn). cbn [bind].
    destruct p as [|x [|y r]]; simpl in Hl; try lia.
    assert (Hl2 : Nat.leb (List.length (x :: y :: r)) 2 = false) by (apply Nat.leb_gt; simpl; lia). rewrite Hl2.
    rewrite (proj2 (is_path_spec _) Hw). cbn [negb andb].
    destruct (mem_spec y (predecessors X x)) as [Hy|Hy].
    - apply X_pred in Hy. destruct (Nat.eqb_spec (List.length (x :: y :: r)) 3) as [H3|H3].
      + exists false. split; auto. split; [discriminate|]. intros [H|[_ H]]; [|simpl in *; lia].
        apply (has_coll_cons_back r Hy) in H. destruct H as (l1 & a & m & b & l2 & He & _).
        apply (f_equal (@List.length _)) in He. rewrite app_length in He. simpl in *. lia.
      + destruct (first_fwd X (x :: y :: r)) as [q|] eqn:Hf.
        * destruct (first_fwd_coll _ Hw Hf) as (I1 & (l & I2) & I3).
          assert (NF : ~ (~ some_forward E (x :: y :: r))).
          { intros H. apply (first_fwd_none _ Hw) in H. congruence. }
          destruct q as [|u [|v q]]; [congruence| |].
          -- exists false. split; auto. split; [discriminate|]. intros [H|[H _]]; [apply I1 in H; discriminate|tauto].
          -- exists (any_back X (u :: v :: q)). split; auto. rewrite <- I1. tauto.
        * pose proof (proj1 (first_fwd_none _ Hw) Hf) as NF. exists (any_back X (x :: y :: r)). split; auto.
          assert (Hb : any_back X (x :: y :: r) = true).
          { cbn [any_back]. apply orb_true_iff. left. now apply back_spec. }
          rewrite Hb. split; auto. intros _. right. split; auto. simpl in *; lia.
    - assert (Hxy : E x y).
      { destruct Hw as [[H|H] _]; auto. apply X_pred in H. tauto. }
      exists (any_back X (x :: y :: r)). split; auto. rewrite (@any_back_fwd r x y Hxy Hw). split; [auto|].
      intros [H|[H _]]; auto. exfalso. apply H. exists [], x, y, r. auto.
  Qed.
End Paths.
