(** Bayesian-network facts: barren nodes, marginals of ancestral sets, backdoor adjustment, c-component
    factorisation.  The network is a list [N] of nodes, an edge relation [E] with a rank (acyclicity), local factors
    [cpt v] that depend on [v] and its parents, are positive and sum to one over [v]. *)
From Verif Require Import Base NxSpec Bn.
Set Implicit Arguments.
Local Open Scope R_scope.

Section Net.
  Context {A : Type} {EA : EqDec A}.
  Variable dom : A -> list nat.
  Variable cpt : A -> (@asg A) -> R.
  Variable E : A -> A -> Prop.
  Variable N : list A.
  Hypothesis NDN : NoDup N.
  Hypothesis Hdom : forall v, dom v <> [].
  Hypothesis Hloc : forall v, In v N -> dep (cpt v) (fun w => w = v \/ E w v).
  Hypothesis Hnorm : forall v a, In v N -> sumv dom v (cpt v) a = 1.
  Hypothesis Hpos : forall v a, In v N -> 0 < cpt v a.
  Variable rank : A -> nat.
  Hypothesis Hrank : forall p v, In p N -> In v N -> E p v -> (rank p < rank v)%nat.

  Notation sums := (sums dom).
  Notation sumv := (sumv dom).
  Notation prodl := (prodl cpt).

  Lemma max_rank (l : list A) : l <> [] -> exists r, In r l /\ forall s, In s l -> (rank s <= rank r)%nat.
  Proof.
    induction l as [|x l IH]; [congruence|]. intros _. destruct l as [|y l].
    - exists x. split; [now left|]. intros s [->|[]]; lia.
    - destruct IH as (r & Hr & Hm); [congruence|]. destruct (Nat.le_gt_cases (rank r) (rank x)) as [H|H].
      + exists x. split; [now left|]. intros s [->|Hs]; [lia|]. specialize (Hm s Hs). lia.
      + exists r. split; [now right|]. intros s [->|Hs]; [lia|]. auto.
  Qed.

  Lemma prodl_ext l : incl l N -> ext (prodl l).
  Proof.
    intros H. unfold ext. apply prodl_dep. intros v Hv. eapply dep_ext. apply Hloc. auto.
  Qed.
  Lemma prodl_loc l : incl l N -> dep (prodl l) (fun w => In w l \/ exists v, In v l /\ E w v).
  Proof.
    intros H. apply prodl_dep. intros v Hv. eapply dep_mono; [apply Hloc; auto|].
    intros w [->|Hw]; eauto.
  Qed.

  (** Nodes without children among the rest sum out. *)
  Lemma barren R W a : NoDup (R ++ W) -> incl (R ++ W) N ->
    (forall r w, In r R -> In w W -> ~ E r w) -> sums R (prodl (R ++ W)) a = prodl W a.
  Proof.
    remember (List.length R) as n eqn:Hn. revert R Hn a. induction n as [|n IH]; intros R Hn a ND Hi Hc.
    - destruct R; [easy|discriminate].
    - destruct (@max_rank R) as (r & Hr & Hm); [intros ->; discriminate|].
      apply in_split in Hr as (R1 & R2 & ->). set (R' := R1 ++ R2).
      assert (HP : Permutation (R1 ++ r :: R2) (R' ++ [r])).
      { unfold R'. rewrite <- app_assoc. apply Permutation_app_head. apply Permutation_cons_append. }
      assert (HPW : Permutation ((R1 ++ r :: R2) ++ W) (r :: R' ++ W)).
      { unfold R'. rewrite <- !app_assoc. symmetry. apply Permutation_middle. }
      assert (ND2 : NoDup (r :: R' ++ W)) by (eapply Permutation_NoDup; eauto).
      assert (Hi2 : incl (r :: R' ++ W) N).
      { intros x Hx. apply Hi. eapply Permutation_in; [symmetry; eauto|auto]. }
      assert (Hinr : In r N) by (apply Hi2; now left).
      rewrite (sums_perm dom (vs := R1 ++ r :: R2) (ws := R' ++ [r]) a (prodl_ext Hi)) by auto.
      rewrite sums_app. cbn [Bn.sums].
      rewrite (sums_eq dom R' (sumv r (prodl ((R1 ++ r :: R2) ++ W))) (prodl (R' ++ W))).
      + inversion ND2; subst. apply IH; auto.
        * rewrite app_length in Hn. simpl in Hn. unfold R'. rewrite app_length. lia.
        * intros x Hx. apply Hi2. now right.
        * intros s w Hs Hw. apply Hc; auto. unfold R' in Hs. rewrite in_app_iff in *. simpl. tauto.
      + intros b.
        assert (Hind : indep (prodl (R' ++ W)) r).
        { eapply dep_indep; [apply prodl_loc; intros x Hx; apply Hi2; now right|].
          inversion ND2; subst. intros [Hx|(v & Hv & Hx)]; [auto|].
          apply in_app_iff in Hv as [Hv|Hv].
          - assert (rank r < rank v)%nat by (apply Hrank; auto; apply Hi2; right; apply in_app_iff; auto).
            assert (rank v <= rank r)%nat; [|lia]. apply Hm. unfold R' in Hv. rewrite in_app_iff in *. simpl. tauto.
          - apply (Hc r v); auto. apply in_app_iff. right. now left. }
        rewrite (sumv_ext dom (prodl ((R1 ++ r :: R2) ++ W)) (fun b => prodl (R' ++ W) b * cpt r b)).
        * rewrite sumv_mul by auto. rewrite Hnorm by auto. ring.
        * intros d _. rewrite (prodl_perm cpt _ HPW). cbn [Bn.prodl]. ring.
  Qed.

  (** Marginal of [S] in the sub-network on [W]. *)
  Definition marg (W S : list A) : @asg A -> R := sums (diff W S) (prodl W).

  Lemma marg_anc W B S a : NoDup W -> incl W N -> NoDup B -> incl B W -> incl S B ->
    (forall r w, In r W -> ~ In r B -> In w B -> ~ E r w) ->
    marg W S a = marg B S a.
  Proof.
    intros NDW HW NDB HB HS Hc. unfold marg.
    assert (HP : Permutation W (diff W B ++ B)).
    { etransitivity; [apply (diff_part NDW NDB HB)|apply Permutation_app_comm]. }
    assert (HD : Permutation (diff W S) (diff B S ++ diff W B)).
    { apply NoDup_Permutation.
      - now apply diff_NoDup.
      - apply NoDup_app_intro; auto using diff_NoDup. intros x. rewrite !diff_In. tauto.
      - intros x. rewrite in_app_iff, !diff_In. split.
        + intros [H1 H2]. destruct (In_dec x B); auto.
        + intros [[H1 H2]|[H1 H2]]; auto. }
    rewrite (sums_perm dom a (prodl_ext HW) HD), sums_app. apply sums_eq. intros b.
    rewrite (sums_eq dom (diff W B) (prodl W) (prodl (diff W B ++ B))) by (intros; now apply prodl_perm).
    apply barren.
    - eapply Permutation_NoDup; eauto.
    - intros x Hx. apply HW. eapply Permutation_in; [symmetry; eauto|auto].
    - intros r w Hr Hw. apply diff_In in Hr as [H1 H2]. now apply Hc.
  Qed.

  Lemma marg_more W S T a : NoDup W -> incl W N -> NoDup T -> incl T W -> (forall x, In x T -> ~ In x S) ->
    sums T (marg W (T ++ S)) a = marg W S a.
  Proof.
    intros NDW HW NDT HT HD. unfold marg. rewrite <- sums_app. apply sums_perm; [now apply prodl_ext|].
    apply NoDup_Permutation.
    - apply NoDup_app_intro; auto using diff_NoDup. intros x Hx. rewrite diff_In, in_app_iff. tauto.
    - now apply diff_NoDup.
    - intros x. rewrite in_app_iff, !diff_In, in_app_iff. split.
      + intros [H|[H1 H2]]; [auto|tauto].
      + intros [H1 H2]. destruct (In_dec x T); tauto.
  Qed.
  Lemma marg_perm_S W S T a : NoDup W -> incl W N -> (forall x, In x S <-> In x T) -> marg W S a = marg W T a.
  Proof.
    intros NDW HW H. unfold marg. apply sums_perm; [now apply prodl_ext|].
    apply NoDup_Permutation; auto using diff_NoDup. intros x. rewrite !diff_In, H. tauto.
  Qed.
  Lemma marg_dep W S : incl W N -> dep (marg W S) (fun w => (In w W \/ exists v, In v W /\ E w v) /\ ~ In w (diff W S)).
  Proof. intros H. unfold marg. apply sums_dep. now apply prodl_loc. Qed.
  Lemma marg_pos W S a : incl W N -> 0 < marg W S a.
  Proof. intros H. unfold marg. apply sums_pos; auto. intros b. apply prodl_pos. intros; apply Hpos; auto. Qed.

  (** *** Backdoor adjustment *)
  Section Backdoor.
    Variables X Y Z AN AZ K : list A.
    Hypothesis NDX : NoDup X. Hypothesis NDY : NoDup Y. Hypothesis NDZ : NoDup Z.
    Hypothesis XY : forall v, In v X -> ~ In v Y.
    Hypothesis XZ : forall v, In v X -> ~ In v Z.
    Hypothesis YZ : forall v, In v Y -> ~ In v Z.
    (** an ancestral set containing X, Y, Z *)
    Hypothesis NDA : NoDup AN. Hypothesis AN_N : incl AN N.
    Hypothesis XA : incl X AN. Hypothesis YA : incl Y AN. Hypothesis ZA : incl Z AN.
    Hypothesis AN_cl : forall p v, In v AN -> E p v -> In p AN.
    (** an ancestral set containing Z and avoiding X *)
    Hypothesis NDAZ : NoDup AZ. Hypothesis AZ_N : incl AZ N. Hypothesis Z_AZ : incl Z AZ.
    Hypothesis AZ_cl : forall p v, In v AZ -> E p v -> In p AZ.
    Hypothesis AZ_X : forall v, In v X -> ~ In v AZ.
    (** a separator certificate: K contains X, avoids Y and is closed under the edges that leave neither X nor Z *)
    Hypothesis KX : incl X K.
    Hypothesis KY : forall v, In v Y -> ~ In v K.
    Hypothesis K_cl : forall p v, In v AN -> E p v -> ~ In p X -> ~ In p Z -> (In p K <-> In v K).

    Let f := prodl (inter AN K).
    Let f' := prodl (diff (inter AN K) X).
    Let g := prodl (diff AN K).
    Let vs := diff (inter AN K) (X ++ Z).
    Let ws := diff (diff AN K) (Y ++ Z).
    Let F := sums vs f. Let F' := sums vs f'. Let G := sums ws g.

    Let SK w := (In w AN /\ In w K) \/ In w Z.
    Let SL w := (In w AN /\ ~ In w K) \/ In w Z \/ In w X.

    Lemma bd_K l : incl l (inter AN K) -> dep (prodl l) SK.
    Proof.
      intros Hl. eapply dep_mono; [apply prodl_loc|].
      - intros v Hv. apply Hl, inter_In in Hv as [Hv _]. auto.
      - intros w [Hw|(v & Hv & Hw)].
        + apply Hl, inter_In in Hw. left; tauto.
        + apply Hl, inter_In in Hv as [Hv HvK]. unfold SK. destruct (In_dec w Z) as [|Hz]; auto. left.
          split; [eapply AN_cl; eauto|]. destruct (In_dec w X) as [Hx|Hx]; [now apply KX|].
          eapply (K_cl (p:=w) (v:=v)); eauto.
    Qed.
    Lemma bd_g : dep g SL.
    Proof.
      unfold g. eapply dep_mono; [apply prodl_loc|].
      - intros v Hv. apply diff_In in Hv as [Hv _]. auto.
      - intros w [Hw|(v & Hv & Hw)].
        + apply diff_In in Hw. left; tauto.
        + apply diff_In in Hv as [Hv HvK]. unfold SL. destruct (In_dec w Z) as [|Hz]; auto.
          destruct (In_dec w X) as [Hx|Hx]; auto. left. split; [eapply AN_cl; eauto|].
          intros Hk. apply HvK. eapply (K_cl (p:=w) (v:=v)); eauto.
    Qed.

    Lemma bd_prod a : prodl AN a = f a * g a.
    Proof.
      rewrite (prodl_split cpt (fun v => mem v K)). reflexivity.
    Qed.
    Lemma bd_prod_do a : prodl (diff AN X) a = f' a * g a.
    Proof.
      rewrite (prodl_split cpt (fun v => mem v K)). unfold f', g. f_equal; apply prodl_perm;
        apply NoDup_Permutation; try (repeat apply NoDup_filter; auto; fail).
      - intros v. rewrite filter_In, !diff_In, inter_In, mem_In. tauto.
      - intros v. rewrite filter_In, !diff_In, negb_true_iff, mem_nIn. split; [tauto|].
        intros [H1 H2]. split; auto.
    Qed.

    Lemma bd_vs v : In v vs -> In v AN /\ In v K /\ ~ In v X /\ ~ In v Z.
    Proof. unfold vs. rewrite diff_In, inter_In, in_app_iff. tauto. Qed.
    Lemma bd_ws v : In v ws -> In v AN /\ ~ In v K /\ ~ In v Y /\ ~ In v Z.
    Proof. unfold ws. rewrite !diff_In, in_app_iff. tauto. Qed.

    Lemma bd_split h a : dep h SK -> sums (vs ++ ws) (fun b => h b * g b) a = sums vs h a * G a.
    Proof.
      intros Hh. apply (sums_split dom vs ws a Hh bd_g).
      - intros v Hv. apply bd_vs in Hv. unfold SL. tauto.
      - intros v Hv. apply bd_ws in Hv. unfold SK. tauto.
    Qed.

    Lemma bd_perm1 : Permutation (diff AN (Y ++ X ++ Z)) (vs ++ ws).
    Proof.
      apply NoDup_Permutation.
      - now apply diff_NoDup.
      - apply NoDup_app_intro; try (unfold vs, ws; repeat apply NoDup_filter; auto; fail).
        intros v Hv Hw. apply bd_vs in Hv. apply bd_ws in Hw. tauto.
      - intros v. rewrite in_app_iff. unfold vs, ws. rewrite !diff_In, inter_In, !in_app_iff.
        split.
        + intros [H1 H2]. destruct (In_dec v K); tauto.
        + intros [[[H1 H2] H3]|[[H1 H2] H3]]; split; auto; intros [H|[H|H]]; try tauto.
          * eapply KY; eauto.
          * apply H2. now apply KX.
    Qed.
    Lemma bd_perm2 : Permutation (diff (diff AN X) (Y ++ Z)) (vs ++ ws).
    Proof.
      etransitivity; [|apply bd_perm1]. apply NoDup_Permutation.
      - now repeat apply diff_NoDup.
      - now apply diff_NoDup.
      - intros v. rewrite !diff_In, !in_app_iff. tauto.
    Qed.

    Lemma bd_obs a : marg N (Y ++ X ++ Z) a = F a * G a.
    Proof.
      rewrite (@marg_anc N AN); auto.
      - unfold marg. rewrite (sums_perm dom a (prodl_ext AN_N) bd_perm1).
        rewrite (sums_eq dom (vs ++ ws) _ (fun b => f b * g b)) by apply bd_prod.
        apply bd_split. apply bd_K. unfold incl; auto.
      - apply incl_refl.
      - intros v. rewrite !in_app_iff. intros [H|[H|H]]; auto.
      - intros r w _ H1 H2 H3. apply H1. eapply AN_cl; eauto.
    Qed.
    Lemma bd_do a : marg (diff N X) (Y ++ Z) a = F' a * G a.
    Proof.
      rewrite (@marg_anc (diff N X) (diff AN X)).
      - unfold marg. rewrite (sums_perm dom a (vs := diff (diff AN X) (Y ++ Z)) (ws := vs ++ ws)).
        + rewrite (sums_eq dom (vs ++ ws) _ (fun b => f' b * g b)) by apply bd_prod_do.
          apply bd_split. apply bd_K. intros v Hv. apply diff_In in Hv. tauto.
        + apply prodl_ext. intros v Hv. apply diff_In in Hv as [Hv _]. auto.
        + apply bd_perm2.
      - now apply diff_NoDup.
      - intros v Hv. apply diff_In in Hv. tauto.
      - now apply diff_NoDup.
      - intros v Hv. apply diff_In in Hv. apply diff_In. split; [apply AN_N|]; tauto.
      - intros v. rewrite diff_In, in_app_iff. intros [H|H]; split; auto; intros Hx; [eapply XY|eapply XZ]; eauto.
      - intros r w Hr H1 H2 H3. apply diff_In in Hr as [Hr HX]. apply diff_In in H2 as [H2 _].
        apply H1. apply diff_In. split; auto. eapply AN_cl; eauto.
    Qed.

    Lemma FY h : dep h SK -> forall v, In v Y -> ~ (SK v /\ ~ In v vs).
    Proof. intros _ v Hv [[[_ Hk]|Hz] _]; [eapply KY|eapply YZ]; eauto. Qed.

    Lemma bd_obs_xz a : marg N (X ++ Z) a = F a * sums Y G a.
    Proof.
      rewrite <- (@marg_more N (X ++ Z) Y); auto.
      - rewrite (sums_eq dom Y _ (fun b => F b * G b)) by apply bd_obs.
        eapply sums_mul; [apply sums_dep, (@bd_K (inter AN K)); unfold incl; auto|].
        apply (@FY f). apply bd_K; unfold incl; auto.
      - apply incl_refl.
      - intros v Hv. apply AN_N; auto.
      - intros v Hv. rewrite in_app_iff. intros [H|H]; [eapply XY|eapply YZ]; eauto.
    Qed.
    Lemma bd_do_z a : marg (diff N X) Z a = F' a * sums Y G a.
    Proof.
      assert (HK : dep f' SK) by (apply bd_K; intros v Hv; apply diff_In in Hv; tauto).
      rewrite <- (@marg_more (diff N X) Z Y); auto.
      - rewrite (sums_eq dom Y _ (fun b => F' b * G b)) by apply bd_do.
        eapply sums_mul; [apply sums_dep, HK|]. now apply (@FY f').
      - now apply diff_NoDup.
      - intros v Hv. apply diff_In in Hv. tauto.
      - intros v Hv. apply diff_In. split; auto. intros Hx. eapply XY; eauto.
    Qed.
    Lemma bd_z a : marg N Z a = marg (diff N X) Z a.
    Proof.
      rewrite (@marg_anc N AZ), (@marg_anc (diff N X) AZ); auto.
      - now apply diff_NoDup.
      - intros v Hv. apply diff_In in Hv. tauto.
      - intros v Hv. apply diff_In. split; auto. intros Hx. eapply AZ_X; eauto.
      - intros r w _ H1 H2 H3. apply H1. eapply AZ_cl; eauto.
      - apply incl_refl.
      - intros r w _ H1 H2 H3. apply H1. eapply AZ_cl; eauto.
    Qed.

    Theorem backdoor_adjustment a :
      sums Z (fun b => marg N (Y ++ X ++ Z) b / marg N (X ++ Z) b * marg N Z b) a = marg (diff N X) Y a.
    Proof.
      rewrite <- (@marg_more (diff N X) Y Z).
      - rewrite (sums_eq dom Z _ (marg (diff N X) (Z ++ Y))); auto. intros b.
        rewrite (@marg_perm_S (diff N X) (Z ++ Y) (Y ++ Z)).
        + pose proof (@marg_pos N (X ++ Z) b (incl_refl N)) as P1. rewrite bd_obs_xz in P1.
          rewrite bd_z, bd_do_z, bd_obs, bd_obs_xz, bd_do.
          assert (sums Y G b <> 0) by (intros H; rewrite H in P1; lra).
          assert (F b <> 0) by (intros H'; rewrite H' in P1; lra).
          field. auto.
        + now apply diff_NoDup.
        + intros v Hv. apply diff_In in Hv. tauto.
        + intros v. rewrite !in_app_iff. tauto.
      - now apply diff_NoDup.
      - intros v Hv. apply diff_In in Hv. tauto.
      - auto.
      - intros v Hv. apply diff_In. split; auto. intros Hx. eapply XZ; eauto.
      - intros v Hv HY. eapply YZ; eauto.
    Qed.
  End Backdoor.
End Net.
