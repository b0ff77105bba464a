(** Structural models: rank, observational marginals, backdoor adjustment through nx.d_separated. *)
From Verif Require Import Base NxModel NxSpec ReachProofs NxProofs GraphModel GraphSpec GraphProofs ExplicitProofs
  CausalModel Bn BnProofs ScmSpec.
Set Implicit Arguments.
Local Open Scope R_scope.

(** ** The certificate behind d_separated = True *)
Lemma d_separated_cert {A} {EA : EqDec A} (d : mdg A) x y z : wf d -> simple d -> acyclic (ed d) ->
  incl (x ++ y ++ z) (nodes d) -> d_separated d x y z = Ok true ->
  exists K, incl x K /\ (forall v, In v y -> ~ In v K) /\
    forall p v, ed d p v -> (exists u, In u (x ++ y ++ z) /\ reach (ed d) v u) -> ~ In p z -> (In p K <-> In v K).
Proof.
  intros W S AC Hi. unfold d_separated. rewrite (proj2 (is_dag_spec W) AC). cbn [negb].
  rewrite (proj2 (subset_spec _ _) Hi). cbn [negb].
  destruct (prune_spec W S AC Hi) as (W1 & S1 & N1 & E1). set (g1 := prune_leaves _ _ _ _) in *.
  set (g2 := cut_out g1 z). set (comp := closure g2 (neighbours g2) x). intros H.
  assert (HC : forall v, In v comp <-> exists u, In u x /\ reach (fun a b => In b (neighbours g2 a)) u v).
  { apply closure_spec.
    - intros u Hu. apply N1. exists u. split; [apply in_app_iff; auto|constructor].
    - intros a b _ Hb. unfold neighbours in Hb. apply in_app_iff in Hb as [Hb|Hb].
      + apply successors_spec in Hb. apply cut_out_ed in Hb as [Hb _]. now apply (wf_ends W1) in Hb.
      + apply predecessors_spec in Hb. apply cut_out_ed in Hb as [Hb _]. now apply (wf_ends W1) in Hb. }
  exists comp. split; [|split].
  - intros u Hu. apply HC. exists u. split; auto. constructor.
  - intros v Hv Hc. injection H as H. apply negb_true_iff in H.
    assert (existsb (fun v => mem v comp) y = true); [|congruence].
    apply existsb_exists. exists v. split; auto. now apply mem_In.
  - intros p v Hpv Han Hz.
    assert (Hp : ed g2 p v).
    { apply cut_out_ed. split; auto. apply E1. split; auto. split.
      - apply N1. destruct Han as (u & Hu & Hr). exists u. split; auto. econstructor; eauto.
      - now apply N1. }
    rewrite !HC. split; intros (u & Hu & Hr); exists u; split; auto; eapply reach_snoc; eauto; unfold neighbours;
      apply in_app_iff; [left; now apply successors_spec|right; now apply predecessors_spec].
Qed.

Lemma d_separated_nodes {A} {EA : EqDec A} (d : mdg A) x y z b :
  d_separated d x y z = Ok b -> incl (x ++ y ++ z) (nodes d).
Proof.
  unfold d_separated. destruct (negb (is_dag d)); [discriminate|].
  destruct (subset (x ++ y ++ z) (nodes d)) eqn:E; [|discriminate]. intros _. now apply subset_spec.
Qed.

(** ** remove_outgoing_edges keeps the arcs *)
Lemma arcs_fold_ext d d' l : (forall a b, In (a, b) l -> has_edge d a b && has_edge d b a = has_edge d' a b && has_edge d' b a) ->
  forall acc, fold_left (arcs_step d) l acc = fold_left (arcs_step d') l acc.
Proof.
  induction l as [|(a, b) l IH]; intros H acc; cbn [fold_left]; auto.
  rewrite IH by (intros; apply H; now right). f_equal. unfold arcs_step.
  rewrite (H a b) by now left. reflexivity.
Qed.
Lemma arcs_ext g g' : wf_cg g -> wf_cg g' -> sym_arcs g -> sym_arcs g' ->
  acyclic (is_parent g) -> acyclic (is_parent g') -> nodes (dag g') = nodes (dag g) ->
  (forall a b, arcE g' a b <-> arcE g a b) -> latent_confounding_arcs g' = latent_confounding_arcs g.
Proof.
  intros W W' S S' AC AC' Hn HA. unfold latent_confounding_arcs. rewrite Hn. apply arcs_fold_ext.
  intros a b _. apply eq_true_iff_eq. rewrite !andb_true_iff, !has_edge_spec.
  destruct (latent_arcs_raw _ (gwf_wf (wc_dag W))) as (_ & _ & R).
  destruct (latent_arcs_raw _ (gwf_wf (wc_dag W'))) as (_ & _ & R').
  destruct (latent_arcs_spec W S AC) as (_ & _ & L).
  destruct (latent_arcs_spec W' S' AC') as (_ & _ & L').
  rewrite R', R. rewrite <- L', <- L. apply HA.
Qed.

Section Sem.
  Variable g : cg.
  Variable h : nat -> node.
  Hypothesis W : wf_cg g.
  Hypothesis Hcl : incl (nodes (dag g)) (keys (causation g)).
  Hypothesis AC : acyclic (is_parent g).
  Hypothesis HF : hidden_fresh g h.

  Let E := cause g h.
  Let N := vars g h.

  Lemma hidden_In v : In v (hidden g h) <-> exists i, (i < List.length (arcs g))%nat /\ v = h i.
  Proof.
    unfold hidden. rewrite in_map_iff. split.
    - intros (i & <- & Hi). apply in_seq in Hi. exists i. split; [lia|auto].
    - intros (i & Hi & ->). exists i. split; auto. apply in_seq. lia.
  Qed.
  Lemma hidden_NoDup : NoDup (hidden g h).
  Proof.
    unfold hidden. destruct HF as [HI _]. generalize (seq_NoDup (List.length (arcs g)) 0).
    generalize (seq 0 (List.length (arcs g))). induction l as [|i l IH]; simpl; [constructor|].
    intros ND. inversion ND as [|? ? H1 H2]; subst. constructor; auto.
    rewrite in_map_iff. intros (j & Hj & Hin). apply HI in Hj. subst. auto.
  Qed.
  Lemma hidden_not_obs v : In v (hidden g h) -> ~ In v (observed g).
  Proof. intros H. apply hidden_In in H as (i & _ & ->). apply HF. Qed.
  Lemma vars_NoDup : NoDup N.
  Proof.
    apply NoDup_app_intro; [apply W|apply hidden_NoDup|]. intros x H1 H2. now apply (hidden_not_obs _ H2).
  Qed.
  Lemma obs_In_vars v : In v (observed g) -> In v N.
  Proof. intros H. apply in_app_iff; auto. Qed.
  Lemma hid_In_vars v : In v (hidden g h) -> In v N.
  Proof. intros H. apply in_app_iff; auto. Qed.
  Lemma parent_keys p c : is_parent g p c -> In p (observed g) /\ In c (observed g).
  Proof. intros H. destruct (parent_nodes W _ _ H). split; apply Hcl; auto. Qed.
  Lemma arc_keys a b : In (a, b) (arcs g) -> In a (observed g) /\ In b (observed g).
  Proof. intros H. destruct (arc_nodes W _ _ H). split; apply Hcl; auto. Qed.
  Lemma cause_vars p v : E p v -> In p N /\ In v (observed g).
  Proof.
    intros [H|(i & a & b & Hi & -> & Hv)].
    - apply parent_keys in H as [H1 H2]. split; auto. now apply obs_In_vars.
    - split.
      + apply hid_In_vars, hidden_In. exists i. split; auto. apply nth_error_Some. intros Hc; rewrite Hc in Hi; discriminate.
      + apply nth_error_In, arc_keys in Hi. destruct Hv as [->| ->]; tauto.
  Qed.
  Lemma cause_dec p v : {E p v} + {~ E p v}.
  Proof.
    destruct (In_dec p (lookup (causation g) v)) as [H|H]; [left; now left|].
    assert (D : {exists i a b, nth_error (arcs g) i = Some (a, b) /\ p = h i /\ (v = a \/ v = b)} +
                {~ exists i a b, nth_error (arcs g) i = Some (a, b) /\ p = h i /\ (v = a \/ v = b)}).
    { assert (G : forall l k, {exists i a b, nth_error l i = Some (a, b) /\ p = h (k + i)%nat /\ (v = a \/ v = b)} +
                              {~ exists i a b, nth_error l i = Some (a, b) /\ p = h (k + i)%nat /\ (v = a \/ v = b)}).
      { induction l as [|(a, b) l IH]; intros k.
        - right. intros ([|i] & a & b & Hi & _); discriminate.
        - destruct (IH (S k)) as [H1|H1].
          + left. destruct H1 as (i & a' & b' & Hi & Hp & Hv). exists (S i), a', b'. split; auto. split; auto.
            rewrite Hp. f_equal. lia.
          + destruct (eq_dec p (h k)) as [Hp|Hp].
            * destruct (eq_dec v a) as [Ha|Ha]; [left; exists 0%nat, a, b; rewrite Nat.add_0_r; auto|].
              destruct (eq_dec v b) as [Hb|Hb]; [left; exists 0%nat, a, b; rewrite Nat.add_0_r; auto|].
              right. intros ([|i] & a' & b' & Hi & Hp' & Hv).
              -- cbn in Hi. injection Hi as <- <-. tauto.
              -- apply H1. exists i, a', b'. split; auto. split; auto. rewrite Hp'. f_equal. lia.
            * right. intros ([|i] & a' & b' & Hi & Hp' & Hv).
              -- rewrite Nat.add_0_r in Hp'. auto.
              -- apply H1. exists i, a', b'. split; auto. split; auto. rewrite Hp'. f_equal. lia. }
      destruct (G (arcs g) 0%nat) as [D|D]; [left|right]; exact D. }
    destruct D as [D|D]; [left; now right|right]. intros [H'|H']; auto.
  Qed.

  (** *** a rank *)
  Lemma topo_rank (R : node -> node -> Prop) (l : list node) : NoDup l -> topo_ordered R l ->
    (forall a b, R a b -> In b l) -> forall a b i j, R a b -> index_of a l = Some i -> index_of b l = Some j -> (i < j)%nat.
  Proof.
    intros ND T Hin a b i j HR Hi Hj.
    apply index_of_Some in Hi as [Hi Hi2], Hj as [Hj Hj2].
    apply nth_error_split in Hj as (l1 & l2 & Hl & Hlen).
    assert (Ha : In a l1) by (eapply T; eauto).
    apply In_nth_error in Ha as (k & Hk).
    assert (Hk2 : (k < List.length l1)%nat) by (apply nth_error_Some; congruence).
    assert (nth_error l k = Some a) by (rewrite Hl; rewrite nth_error_app1; auto).
    assert (k = i) by (apply (proj1 (NoDup_nth_error l) ND); [lia|congruence]). lia.
  Qed.

  Lemma rank_exists : exists rank : node -> nat, forall p v, E p v -> (rank p < rank v)%nat.
  Proof.
    assert (W0 : wf (observed_dag g)) by apply (gwf_wf (observed_dag_of_gwf (causation g))).
    assert (AC0 : acyclic (ed (observed_dag g))).
    { intros x (y & H1 & H2). apply (AC (x:=x)). exists y. split.
      - apply observed_ed; auto. apply W. - apply observed_reach; auto. apply W. }
    destruct (topological_sort_complete W0 AC0) as (l & Hl).
    destruct (topological_sort_sound W0 Hl) as (L1 & L2 & L3).
    exists (fun v => if mem v (hidden g h) then 0%nat else match index_of v l with Some i => S i | None => 1%nat end).
    intros p v Hpv. pose proof (cause_vars Hpv) as [Hp Hv].
    assert (Hvh : mem v (hidden g h) = false).
    { apply mem_nIn. intros H. now apply (hidden_not_obs _ H). }
    rewrite Hvh. destruct Hpv as [H|(i & a & b & Hi & -> & _)].
    - assert (Hph : mem p (hidden g h) = false).
      { apply mem_nIn. intros H'. apply (hidden_not_obs _ H'). now apply parent_keys in H. }
      rewrite Hph. assert (He : ed (observed_dag g) p v) by (apply observed_ed; auto; apply W).
      pose proof (wf_ends W0 He) as [Hp' Hv']. apply L2 in Hp', Hv'.
      destruct (index_of p l) as [i|] eqn:Ei; [|apply index_of_None in Ei; tauto].
      destruct (index_of v l) as [j|] eqn:Ej; [|apply index_of_None in Ej; tauto].
      apply le_n_S. apply (@topo_rank (ed (observed_dag g)) l L1 L3) with p v; auto.
      intros a b Hab. apply L2. now apply (wf_ends W0) in Hab.
    - assert (Hh : In (h i) (hidden g h)).
      { apply hidden_In. exists i. split; auto. apply nth_error_Some. intros Hc; rewrite Hc in Hi; discriminate. }
      apply mem_In in Hh. rewrite Hh. destruct (index_of v l); lia.
  Qed.

  Lemma cause_acyclic : acyclic E.
  Proof.
    destruct rank_exists as (rank & Hr). intros x (y & Hxy & Hyx).
    assert (L : forall a b, reach E a b -> (rank a <= rank b)%nat).
    { induction 1 as [|a b c Hab _ IH]; [lia|]. apply Hr in Hab. lia. }
    apply Hr in Hxy. apply L in Hyx. lia.
  Qed.

  Variable dom : node -> list nat.
  Variable cpt : node -> @asg node -> R.
  Hypothesis M : compatible g h dom cpt.

  Lemma P_obs_marg S a : P_obs g h dom cpt S a = marg dom cpt N S a.
  Proof. reflexivity. Qed.
  Lemma P_do_marg X S a : P_do g h dom cpt X S a = marg dom cpt (diff N X) S a.
  Proof. reflexivity. Qed.

  Lemma marg_nil Wl a : NoDup Wl -> incl Wl N -> marg dom cpt Wl [] a = 1.
  Proof.
    intros ND Hi. destruct rank_exists as (rank & Hr). unfold marg.
    assert (Hd : diff Wl [] = Wl) by (unfold diff; apply filter_all_true; intros; reflexivity).
    rewrite Hd. rewrite <- (app_nil_r Wl) at 2.
    rewrite (@barren _ _ dom cpt E N) with (rank := rank); auto.
    - apply (c_local M). - apply (c_norm M). - now rewrite app_nil_r. - now rewrite app_nil_r.
  Qed.
  Lemma P_cond_nil S a : P_cond g h dom cpt S [] a = P_obs g h dom cpt S a.
  Proof.
    unfold P_cond. destruct S as [|s S].
    - rewrite P_obs_marg, marg_nil; auto using vars_NoDup, incl_refl.
    - rewrite app_nil_r, !P_obs_marg, (@marg_nil N); auto using vars_NoDup, incl_refl. field.
  Qed.
End Sem.

(** ** Backdoor adjustment *)
Section Backdoor.
  Variable g : cg.
  Hypothesis W : wf_cg g.
  Hypothesis SY : sym_arcs g.
  Hypothesis Hcl : incl (nodes (dag g)) (keys (causation g)).
  Hypothesis AC : acyclic (is_parent g).
  Hypothesis HF : hidden_fresh g uname.

  Lemma fresh_no_hidden : no_hidden_names g.
  Proof. intros i Hi. apply (proj2 HF i). apply Hcl, Hi. Qed.

  Lemma explicit_cause p v : ed (explicit_unob_var_dag g) p v <-> cause g uname p v.
  Proof. rewrite (explicit_ed W). reflexivity. Qed.

  Variables t : list node.
  Hypothesis Ht : incl t (keys (causation g)).

  Lemma modified_spec : exists d, modified_dag g t = Ok d /\ gwf d /\ simple d /\ acyclic (ed d) /\
    (forall p v, ed d p v <-> cause g uname p v /\ ~ In p t) /\
    (forall n, In n (nodes d) <-> exists m, ed d n m \/ ed d m n).
  Proof.
    destruct (remove_outgoing_spec W Ht) as (H0 & H1 & H2 & H3 & H4).
    unfold modified_dag, remove_outgoing_edges_new. destruct (remove_outgoing_edges g t) as [g' e].
    cbn [fst snd] in *. subst e. cbn [bind]. exists (explicit_unob_var_dag g'). split; auto.
    assert (AC' : acyclic (is_parent g')).
    { intros x (y & Hxy & Hyx). apply (AC (x:=x)). exists y. split; [now apply H2 in Hxy|].
      eapply reach_mono; [|exact Hyx]. intros a b Hab. now apply H2 in Hab. }
    assert (S' : sym_arcs g') by (intros a b Hab; apply H3, SY, H3, Hab).
    assert (NH' : no_hidden_names g') by (intros i; rewrite H4; apply fresh_no_hidden).
    assert (EA : latent_confounding_arcs g' = latent_confounding_arcs g) by (apply arcs_ext; auto).
    split; [apply (explicit_gwf g')|]. split; [now apply explicit_simple|]. split; [now apply explicit_acyclic|].
    assert (EQ : forall p v, ed (explicit_unob_var_dag g') p v <-> cause g uname p v /\ ~ In p t).
    { intros p v. rewrite (explicit_ed H1), EA, H2. unfold cause, arcs, is_parent. split.
      - intros [[Hp Hn]|(i & a & b & Hi & -> & Hv)]; [tauto|]. split; [right; eauto 8|].
        intros Hin. apply (proj2 HF i). apply Ht, Hin.
      - intros [[Hp|Hp] Hn]; auto. }
    split; auto.
    intros n. rewrite (explicit_nodes H1). split.
    - intros [(m & [Hm|Hm])|(i & a & b & Hi & Hn)].
      + exists m. left. apply (explicit_ed H1). auto.
      + exists m. right. apply (explicit_ed H1). auto.
      + destruct Hn as [->|[->| ->]].
        * exists a. left. apply (explicit_ed H1). right. eauto 8.
        * exists (uname i). right. apply (explicit_ed H1). right. exists i, a, b. auto.
        * exists (uname i). right. apply (explicit_ed H1). right. exists i, a, b. auto.
    - intros (m & [Hm|Hm]); apply (explicit_ed H1) in Hm as [Hm|(i & a & b & Hi & -> & Hc)].
      + left; eauto. + right. exists i, a, b. auto.
      + left; eauto. + right. exists i, a, b. destruct Hc; subst; auto.
  Qed.

  Variable dom : node -> list nat.
  Variable cpt : node -> @asg node -> R.
  Hypothesis M : compatible g uname dom cpt.

  Theorem backdoor_sound_gen d o z a :
    wf d -> simple d -> acyclic (ed d) -> (forall p v, ed d p v <-> cause g uname p v /\ ~ In p t) ->
    incl (t ++ o ++ z) (nodes d) -> d_separated d t o z = Ok true ->
    NoDup t -> NoDup o -> NoDup z -> (forall v, In v o -> ~ In v z) ->
    (forall u v, In u t -> In v z -> ~ reach (is_parent g) u v) ->
    incl (t ++ o ++ z) (keys (causation g)) ->
    sums dom z (fun b => P_obs g uname dom cpt (o ++ t ++ z) b / P_obs g uname dom cpt (t ++ z) b
                          * P_obs g uname dom cpt z b) a
    = P_do g uname dom cpt t o a.
  Proof.
    intros Wd Sd Ad EQ Hn Hs NDt NDo NDz Doz Hdes Hkeys.
    destruct (d_separated_cert _ _ _ Wd Sd Ad Hn Hs) as (K & K1 & K2 & K3).
    destruct (rank_exists W Hcl AC HF) as (rank & Hr).
    set (X := MDG (vars g uname) (edges (explicit_unob_var_dag g))).
    assert (GX : wf X).
    { split; [apply (vars_NoDup W HF)|]. intros u v Huv. apply explicit_cause in Huv.
      apply (cause_vars W Hcl) in Huv. split; [tauto|]. apply obs_In_vars. tauto. }
    assert (HX : forall v, In v (t ++ o ++ z) -> In v (nodes X)).
    { intros v Hv. apply obs_In_vars, Hkeys, Hv. }
    set (AN := dedup (closure X (predecessors X) (t ++ o ++ z))).
    assert (HAN : forall v, In v AN <-> exists u, In u (t ++ o ++ z) /\ reach (cause g uname) v u).
    { intros v. unfold AN. rewrite dedup_In, (closure_pred GX) by exact HX.
      split; intros (u & Hu & Hru); exists u; split; auto; (eapply reach_mono; [|exact Hru]); intros; now apply explicit_cause. }
    set (AZ := dedup (closure X (predecessors X) z)).
    assert (HAZ : forall v, In v AZ <-> exists u, In u z /\ reach (cause g uname) v u).
    { intros v. unfold AZ. rewrite dedup_In, (closure_pred GX).
      - split; intros (u & Hu & Hru); exists u; split; auto; (eapply reach_mono; [|exact Hru]); intros; now apply explicit_cause.
      - intros u Hu. apply HX. rewrite !in_app_iff; auto. }
    assert (Hvars : forall v u, In u (t ++ o ++ z) -> reach (cause g uname) v u -> In v (vars g uname)).
    { intros v u Hu Hru. destruct (reach_inv Hru) as [->|(w & Hw & _)].
      - now apply obs_In_vars, Hkeys. - eapply cause_vars in Hw; eauto. tauto. }
    assert (Hto : forall v, In v t -> ~ In v o) by (intros v H1 H2; eapply K2; eauto).
    assert (Htz : forall v, In v t -> ~ In v z) by (intros v H1 H2; eapply Hdes; eauto; constructor).
    apply (@backdoor_adjustment _ _ dom cpt (cause g uname) (vars g uname) (vars_NoDup W HF) (c_dom M) (c_local M)
             (c_norm M) (c_pos M) rank (fun p v _ _ => Hr p v) t o z AN AZ K); auto.
    - apply dedup_NoDup.
    - intros v Hv. apply HAN in Hv as (u & Hu & Hru). eapply Hvars; eauto.
    - intros v Hv. apply HAN. exists v. split; [apply in_app_iff; auto|constructor].
    - intros v Hv. apply HAN. exists v. split; [rewrite !in_app_iff; auto|constructor].
    - intros v Hv. apply HAN. exists v. split; [rewrite !in_app_iff; auto|constructor].
    - intros p v Hv Hpv. apply HAN in Hv as (u & Hu & Hru). apply HAN. exists u. split; auto. econstructor; eauto.
    - apply dedup_NoDup.
    - intros v Hv. apply HAZ in Hv as (u & Hu & Hru). apply (Hvars v u); auto. rewrite !in_app_iff; auto.
    - intros v Hv. apply HAZ. exists v. split; auto. constructor.
    - intros p v Hv Hpv. apply HAZ in Hv as (u & Hu & Hru). apply HAZ. exists u. split; auto. econstructor; eauto.
    - intros v Hv Hz. apply HAZ in Hz as (u & Hu & Hru). apply (Hdes v u); auto.
      assert (T : forall a b, reach (cause g uname) a b -> In a (keys (causation g)) -> reach (is_parent g) a b).
      { induction 1 as [|a' b' c Hab Hbc IH]; intros Ha; [constructor|].
        destruct Hab as [Hab|(i & a1 & b1 & Hi & -> & _)].
        - econstructor; [exact Hab|]. apply IH. now apply (parent_keys W Hcl) in Hab.
        - exfalso. apply (proj2 HF i). exact Ha. }
      apply T; auto.
    - intros p v Hv Hpv Hp Hz. apply K3.
      + apply EQ. auto.
      + apply HAN in Hv as (u & Hu & Hru).
        assert (T : forall a b, reach (cause g uname) a b -> In b (t ++ o ++ z) ->
                    exists u, In u (t ++ o ++ z) /\ reach (ed d) a u).
        { induction 1 as [a'|a' b' c Hab Hbc IH]; intros Hin; [exists a'; split; auto; constructor|].
          destruct (In_dec a' t) as [Hat|Hat].
          - exists a'. split; [apply in_app_iff; auto|constructor].
          - destruct (IH Hin) as (u' & Hu' & Hr'). exists u'. split; auto. econstructor; eauto. apply EQ. auto. }
        eapply T; eauto.
      + auto.
  Qed.

  Theorem backdoor_sound d o z a :
    modified_dag g t = Ok d -> d_separated d t o z = Ok true ->
    NoDup t -> NoDup o -> NoDup z -> (forall v, In v o -> ~ In v z) ->
    (forall u v, In u t -> In v z -> ~ reach (is_parent g) u v) ->
    incl (t ++ o ++ z) (keys (causation g)) ->
    sums dom z (fun b => P_obs g uname dom cpt (o ++ t ++ z) b / P_obs g uname dom cpt (t ++ z) b
                          * P_obs g uname dom cpt z b) a
    = P_do g uname dom cpt t o a.
  Proof.
    intros Hd Hs. destruct modified_spec as (d' & Hd' & Gd & Sd & Ad & EQ & NQ). rewrite Hd in Hd'. injection Hd' as <-.
    pose proof (d_separated_nodes _ _ _ _ Hs) as Hn.
    apply backdoor_sound_gen with d; auto. apply Gd.
  Qed.
End Backdoor.
