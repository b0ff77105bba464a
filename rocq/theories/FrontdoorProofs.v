(** Backdoor adjustment in an arbitrary network given as a graph; frozen variables; the frontdoor theorem. *)
From Verif Require Import Base NxModel NxSpec ReachProofs NxProofs GraphModel GraphSpec GraphProofs ExplicitProofs
  GraphProps CausalModel Bn BnProofs ScmSpec ScmProofs PowersetProofs BackdoorSpec BackdoorProofs PathSpec PathProofs.
Set Implicit Arguments.
Local Open Scope R_scope.

Section Net.
  Context {A : Type} {EA : EqDec A}.
  Variable G : mdg A.
  Hypothesis WG : wf G.
  Hypothesis SG : simple G.
  Hypothesis AG : acyclic (ed G).
  Variable dom : A -> list nat.
  Variable cpt : A -> @asg A -> R.
  Hypothesis Hdom : forall v, dom v <> [].
  Hypothesis Hloc : forall v, In v (nodes G) -> dep (cpt v) (fun w => w = v \/ ed G w v).
  Hypothesis Hnorm : forall v a, In v (nodes G) -> sumv dom v (cpt v) a = 1.
  Hypothesis Hpos : forall v a, In v (nodes G) -> 0 < cpt v a.

  Lemma net_rank : exists rank : A -> nat, forall p v, ed G p v -> (rank p < rank v)%nat.
  Proof.
    destruct (topological_sort_complete WG AG) as (l & Hl). destruct (topological_sort_sound WG Hl) as (L1 & L2 & L3).
    exists (fun v => match index_of v l with Some i => i | None => 0%nat end). intros p v He.
    pose proof (wf_ends WG He) as [Hp Hv]. apply L2 in Hp, Hv.
    destruct (index_of p l) as [i|] eqn:Ei; [|apply index_of_None in Ei; tauto].
    destruct (index_of v l) as [j|] eqn:Ej; [|apply index_of_None in Ej; tauto].
    apply index_of_Some in Ei as [Hi Hi2], Ej as [Hj Hj2].
    apply nth_error_split in Hj as (l1 & l2 & Hll & Hlen).
    assert (Ha : In p l1) by (eapply L3; eauto).
    apply In_nth_error in Ha as (k & Hk).
    assert (Hk2 : (k < List.length l1)%nat) by (apply nth_error_Some; congruence).
    assert (nth_error l k = Some p) by (rewrite Hll; rewrite nth_error_app1; auto).
    assert (k = i) by (apply (proj1 (NoDup_nth_error l) L1); [lia|congruence]). lia.
  Qed.

  Variables X Y Z : list A.
  Hypothesis NDX : NoDup X. Hypothesis NDY : NoDup Y. Hypothesis NDZ : NoDup Z.
  Hypothesis HN : incl (X ++ Y ++ Z) (nodes G).
  Hypothesis YZ : forall v, In v Y -> ~ In v Z.
  Hypothesis XZ : forall x v, In x X -> In v Z -> ~ reach (ed G) x v.
  Hypothesis HS : dsep (fun a b => ed G a b /\ ~ In a X) (fun a => In a X) (fun a => In a Y) (fun a => In a Z).

  Theorem net_backdoor a :
    sums dom Z (fun b => marg dom cpt (nodes G) (Y ++ X ++ Z) b / marg dom cpt (nodes G) (X ++ Z) b
                         * marg dom cpt (nodes G) Z b) a
    = marg dom cpt (diff (nodes G) X) Y a.
  Proof.
    set (d := cut_out G X).
    assert (HE : forall a b, ed d a b <-> ed G a b /\ ~ In a X) by (intros; apply cut_out_ed).
    assert (Wd : wf d).
    { split; [apply WG|]. intros u v Huv. apply HE in Huv as [Huv _]. now apply (wf_ends WG) in Huv. }
    assert (Sd : simple d).
    { unfold simple, d, cut_out in *. cbn [edges]. clear - SG. induction (edges G) as [|e l IH]; auto.
      cbn [map filter] in *. inversion SG as [|? ? H1 H2]; subst. destruct (negb _); cbn [map]; auto. constructor; auto.
      intros H. apply H1. apply in_map_iff in H as (e' & He & H). apply filter_In in H as [H _]. rewrite <- He. now apply in_map. }
    assert (Ad : acyclic (ed d)).
    { intros x (y & Hxy & Hyx). apply (AG (x:=x)). exists y. split; [now apply HE in Hxy|].
      eapply reach_mono; [|exact Hyx]. intros u v Huv. now apply HE in Huv. }
    assert (Htz : forall v, In v X -> ~ In v Z) by (intros v H1 H2; apply (XZ H1 H2); constructor).
    assert (Hs : d_separated d X Y Z = Ok true).
    { destruct (@d_separated_correct _ _ d X Y Z) as (b & Hb & Hs); auto.
      - intros v Hv. apply HN, in_app_iff; auto.
      - intros v Hv. apply HN. rewrite !in_app_iff; auto.
      - intros v Hv. apply HN. rewrite !in_app_iff; auto.
      - rewrite Hb. f_equal. apply Hs. intros l x y Hx Hy Tr Ha. apply (@HS l x y Hx Hy).
        + destruct Tr as (T1 & T2 & T3). split; auto. split; auto. clear - T2 HE.
          induction l as [|u [|v l] IH]; cbn [uwalk] in *; auto. rewrite <- !HE. tauto.
        + clear - Ha HE.
          assert (R : forall u v, reach (ed d) u v -> reach (fun a b => ed G a b /\ ~ In a X) u v).
          { intros u v H. eapply reach_mono; [|exact H]. intros; now apply HE. }
          induction l as [|u [|v [|w l]] IH]; auto. destruct Ha as [H1 H2]. split; [|exact (IH H2)].
          destruct H1 as [[[C1 C2] (q & Q1 & Q2)]|[C1 C2]]; [left|right]; split; auto.
          * split; now apply HE.
          * exists q. split; auto.
          * intros [D1 D2]. apply C1. split; now apply HE. }
    destruct (d_separated_cert _ _ _ Wd Sd Ad HN Hs) as (K & K1 & K2 & K3).
    destruct net_rank as (rank & Hr).
    set (AN := dedup (closure G (predecessors G) (X ++ Y ++ Z))).
    assert (HAN : forall v, In v AN <-> exists u, In u (X ++ Y ++ Z) /\ reach (ed G) v u).
    { intros v. unfold AN. now rewrite dedup_In, (closure_pred WG) by exact HN. }
    set (AZ := dedup (closure G (predecessors G) Z)).
    assert (HAZ : forall v, In v AZ <-> exists u, In u Z /\ reach (ed G) v u).
    { intros v. unfold AZ. rewrite dedup_In, (closure_pred WG); [reflexivity|].
      intros u Hu. apply HN. rewrite !in_app_iff; auto. }
    assert (Hvars : forall v u, In u (X ++ Y ++ Z) -> reach (ed G) v u -> In v (nodes G)).
    { intros v u Hu Hru. destruct (reach_inv Hru) as [->|(w & Hw & _)]; auto. now apply (wf_ends WG) in Hw. }
    assert (Hto : forall v, In v X -> ~ In v Y) by (intros v H1 H2; eapply K2; eauto).
    apply (@backdoor_adjustment _ _ dom cpt (ed G) (nodes G) (wf_nodes WG) Hdom Hloc
             Hnorm Hpos rank (fun p v _ _ => Hr p v) X Y Z AN AZ K); auto.
    - apply dedup_NoDup.
    - intros v Hv. apply HAN in Hv as (u & Hu & Hru). eapply Hvars; eauto.
    - intros v Hv. apply HAN. exists v. split; [apply in_app_iff; auto|constructor].
    - intros v Hv. apply HAN. exists v. split; [rewrite !in_app_iff; auto|constructor].
    - intros v Hv. apply HAN. exists v. split; [rewrite !in_app_iff; auto|constructor].
    - intros p v Hv Hpv. apply HAN in Hv as (u & Hu & Hru). apply HAN. exists u. split; auto. econstructor; eauto.
    - apply dedup_NoDup.
    - intros v Hv. apply HAZ in Hv as (u & Hu & Hru). apply (Hvars v u); auto. rewrite !in_app_iff; auto.
    - intros v Hv. apply HAZ. exists v. split; auto. constructor.
    - intros p v Hv Hpv. apply HAZ in Hv as (u & Hu & Hru). apply HAZ. exists u. split; auto. econstructor; eauto.
    - intros v Hv Hz. apply HAZ in Hz as (u & Hu & Hru). exact (XZ Hv Hu Hru).
    - intros p v Hv Hpv Hp Hz. apply K3.
      + apply HE. auto.
      + apply HAN in Hv as (u & Hu & Hru).
        assert (T : forall a b, reach (ed G) a b -> In b (X ++ Y ++ Z) ->
                    exists u, In u (X ++ Y ++ Z) /\ reach (ed d) a u).
        { induction 1 as [a'|a' b' c Hab Hbc IH]; intros Hin; [exists a'; split; auto; constructor|].
          destruct (In_dec a' X) as [Hat|Hat].
          - exists a'. split; [apply in_app_iff; auto|constructor].
          - destruct (IH Hin) as (u' & Hu' & Hr'). exists u'. split; auto. econstructor; eauto. apply HE. auto. }
        eapply T; eauto.
      + auto.
  Qed.
End Net.

(** *** Freezing a variable: the distribution under do(t = c) as a network without t *)
Section Freeze.
  Context {A : Type} {EA : EqDec A}.
  Variable dom : A -> list nat.
  Variable cpt : A -> @asg A -> R.
  Variable t : A.
  Variable c : nat.
  Definition frozen (v : A) (b : @asg A) : R := cpt v (upd b t c).

  Lemma frozen_dep v (P : A -> Prop) : dep (cpt v) P -> dep (frozen v) (fun w => P w /\ w <> t).
  Proof.
    intros H a b Hab. unfold frozen. apply H. intros w Hw. destruct (eq_dec w t) as [->|N]; [now rewrite !upd_same|].
    rewrite !upd_other by auto. auto.
  Qed.
  Lemma frozen_norm v a : v <> t -> ext (cpt v) -> sumv dom v (frozen v) a = sumv dom v (cpt v) (upd a t c).
  Proof.
    intros Hv He. unfold sumv, frozen. apply sumR_ext. intros d _. apply He. intros w _.
    destruct (eq_dec w t) as [->|N1].
    - rewrite upd_same, upd_other, upd_same; auto.
    - rewrite upd_other by auto. destruct (eq_dec w v) as [->|N2]; [now rewrite !upd_same|]. now rewrite !upd_other.
  Qed.
  Lemma frozen_marg Wl S a : a t = c -> ~ In t Wl -> (forall v, In v Wl -> ext (cpt v)) ->
    marg dom frozen Wl S a = marg dom cpt Wl S a.
  Proof.
    intros Ha Ht He. unfold marg. apply sums_eq_on. intros b Hb _.
    assert (Hbt : b t = c). { rewrite Hb; auto. rewrite diff_In. tauto. }
    assert (Hu : forall w, upd b t c w = b w).
    { intros w. destruct (eq_dec w t) as [->|N]; [now rewrite upd_same|]. now rewrite upd_other. }
    clear Ht Hb. induction Wl as [|v Wl IH]; cbn [prodl]; auto.
    rewrite IH by (intros; apply He; now right). f_equal. apply (He v); [now left|]. auto.
  Qed.
End Freeze.

Section Frontdoor.
  Variable g : cg.
  Hypothesis U : user_graph g.
  Variable dom : node -> list nat.
  Variable cpt : node -> @asg node -> R.
  Hypothesis M : compatible g uname dom cpt.
  Let N := vars g uname.
  Let E := cause g uname.
  Let G0 := MDG N (edges (explicit_unob_var_dag g)).

  Lemma G0_ed p v : ed G0 p v <-> E p v.
  Proof. apply (X_ed U). Qed.
  Lemma G0_wf : wf G0.
  Proof.
    split; [apply (vars_NoDup (ug_wf U) (ug_fresh U))|]. intros u v Huv. apply G0_ed in Huv.
    apply (cause_vars (ug_wf U) (ug_closed U)) in Huv. split; [tauto|]. apply obs_In_vars. tauto.
  Qed.
  Lemma G0_simple : simple G0.
  Proof. apply (explicit_simple (ug_wf U)). apply (fresh_no_hidden (ug_closed U) (ug_fresh U)). Qed.
  Lemma G0_acyclic : acyclic (ed G0).
  Proof.
    intros x (y & Hxy & Hyx). apply (ug_cause_acyclic U (x:=x)). exists y. split; [now apply G0_ed|].
    eapply reach_mono; [|exact Hyx]. intros; now apply G0_ed.
  Qed.

  Variables t o : node.
  Variable z : list node.
  Hypothesis Kt : In t (keys (causation g)).
  Hypothesis Ko : In o (keys (causation g)).
  Hypothesis Kz : incl z (keys (causation g)).
  Hypothesis NDz : NoDup z.
  Hypothesis Hto : t <> o.
  Hypothesis Htz : ~ In t z.
  Hypothesis Hoz : ~ In o z.
  Hypothesis F : frontdoor_criterion g t o z.

  (** no member of z is an ancestor of the treatment *)
  Lemma fd_not_anc s : In s z -> ~ reach (is_parent g) s t.
  Proof.
    intros Hs Hr. destruct F as (_ & F2 & _).
    assert (Hne : s <> t) by (intros ->; auto).
    apply obs_reach_cause in Hr. fold E in Hr. apply (proj2 (reach_flip E t s)) in Hr.
    destruct (reach_dwalk Hr) as (l & Hl & Hlast).
    assert (As : forall a b, E a b -> ~ E b a) by (intros a b; apply (E_asym (ug_cause_acyclic U))).
    assert (ND : NoDup (t :: l)).
    { apply (@dwalk_NoDup _ (fun a b => E b a)); auto. intros x (y & H1 & H2). apply reach_flip in H2.
      apply (ug_cause_acyclic U (x:=y)). exists x. auto. }
    assert (Hu : uwalk E (t :: l)).
    { apply dwalk_uwalk in Hl. clear - Hl. induction (t :: l) as [|a [|b r] IH]; cbn [uwalk] in *; auto. tauto. }
    apply (F2 (t :: l)).
    - exists t, s. split; [now left|]. split; auto. split; [split; auto; split; auto; now exists l|].
      apply (@into_single g t l U ND Hu). destruct l as [|b l]; auto. apply Hl.
    - clear - Hl As. induction (t :: l) as [|a [|m [|b r]] IH]; cbn [active dwalk] in *; auto.
      destruct Hl as (H1 & H2 & H3). split; [|apply IH; auto]. right. split; auto. intros [C1 _]. eapply As; eauto.
  Qed.

  Let N' := diff N [t].
  Lemma N'_nodes : nodes (remove_nodes_from G0 [t]) = N'.
  Proof. reflexivity. Qed.
  Lemma N'_In v : In v N' <-> In v N /\ v <> t.
  Proof. unfold N'. rewrite diff_In. simpl. intuition congruence. Qed.
  Lemma t_N' : ~ In t N'.
  Proof. rewrite N'_In. tauto. Qed.
  Lemma cpt_ext v : In v N -> ext (cpt v).
  Proof. intros Hv. eapply dep_ext. apply (c_local M), Hv. Qed.
  Lemma NDN : NoDup N.
  Proof. apply (vars_NoDup (ug_wf U) (ug_fresh U)). Qed.
  Lemma NDN' : NoDup N'.
  Proof. apply diff_NoDup, NDN. Qed.
  Lemma z_N' : incl z N'.
  Proof. intros v Hv. apply N'_In. split; [apply obs_In_vars, Kz, Hv|]. intros ->; auto. Qed.
  Lemma o_N' : In o N'.
  Proof. apply N'_In. split; [now apply obs_In_vars|auto]. Qed.

  (** under do(t) there is no backdoor path left between z and the outcome *)
  Lemma fd_step2 a :
    marg dom cpt N' ([o] ++ z) a = marg dom cpt N' z a * marg dom cpt (diff N' z) [o] a.
  Proof.
    set (G1 := remove_nodes_from G0 [t]). set (cf := frozen cpt t (a t)).
    assert (HE1 : forall p v, ed G1 p v <-> E p v /\ p <> t /\ v <> t).
    { intros p v. unfold G1. rewrite remove_nodes_ed, G0_ed. simpl. intuition congruence. }
    assert (A1 : acyclic (ed G1)).
    { intros x (y & Hxy & Hyx). apply (G0_acyclic (x:=x)). exists y. split; [now apply HE1, proj1, G0_ed in Hxy|].
      eapply reach_mono; [|exact Hyx]. intros u v Huv. now apply G0_ed, HE1. }
    assert (L1 : forall v, In v (nodes G1) -> dep (cf v) (fun w => w = v \/ ed G1 w v)).
    { intros v Hv. change (In v N') in Hv. apply N'_In in Hv as [Hv Hvt].
      eapply dep_mono; [apply frozen_dep, (c_local M), Hv|]. intros w [[->|Hw] Hwt]; auto. right. now apply HE1. }
    assert (P1 : forall v b, In v (nodes G1) -> 0 < cf v b).
    { intros v b Hv. change (In v N') in Hv. apply N'_In in Hv as [Hv Hvt]. apply (c_pos M), Hv. }
    assert (No1 : forall v b, In v (nodes G1) -> sumv dom v (cf v) b = 1).
    { intros v b Hv. change (In v N') in Hv. apply N'_In in Hv as [Hv Hvt].
      unfold cf. rewrite frozen_norm; auto; [apply (c_norm M), Hv|now apply cpt_ext]. }
    pose proof (@net_backdoor _ _ G1 (remove_nodes_wf [t] G0_wf) (remove_nodes_simple [t] G0_simple) A1 dom cf (c_dom M) L1 No1 P1
                  z [o] []) as B.
    assert (FM : forall S Wl, incl Wl N' -> marg dom cf Wl S a = marg dom cpt Wl S a).
    { intros S Wl Hi. apply frozen_marg; auto. - intros H. apply t_N'. auto.
      - intros v Hv. apply cpt_ext. apply Hi, N'_In in Hv. tauto. }
    assert (D : incl (diff N' z) N') by (intros v Hv; apply diff_In in Hv; tauto).
    rewrite <- !FM; auto using incl_refl. rewrite <- B.
    - cbn [sums]. rewrite !app_nil_r. rewrite !(FM _ (nodes G1)) by apply incl_refl.
      change (nodes G1) with N'.
      rewrite (@marg_nil g uname (ug_wf U) (ug_closed U) (ug_acyclic U) (ug_fresh U) dom cpt M N' a NDN').
      2: { intros v Hv. now apply N'_In in Hv. }
      cbn [app]. field.
      apply Rgt_not_eq. apply (@marg_pos _ _ dom cpt N (c_dom M) (c_pos M)). intros v Hv. now apply N'_In in Hv.
    - repeat constructor. auto.
    - constructor.
    - change (nodes G1) with N'. intros v Hv. rewrite app_nil_r in Hv. apply in_app_iff in Hv as [Hv|[<-|[]]]; [now apply z_N'|apply o_N'].
    - auto.
    - auto.
    - destruct F as (_ & _ & F3). intros l x y Hx Hy Tr Ha. destruct Tr as (T1 & T2 & T3).
      assert (As : forall a b, E a b -> ~ E b a) by (intros u v; apply (E_asym (ug_cause_acyclic U))).
      assert (ST : forall u v, ((ed G1 u v /\ ~ In u z) \/ (ed G1 v u /\ ~ In v z)) ->
                 (E u v \/ E v u) /\ (E u v -> ~ In u z) /\ (E v u -> ~ In v z) /\ u <> t /\ v <> t).
      { intros u v [[H H']|[H H']]; apply HE1 in H as (H1 & H2 & H3); repeat split; auto; intros Hc; exfalso; eapply As; eauto. }
      apply (F3 l).
      + exists x, y. split; auto. split; auto. split.
        * split; auto. split; auto. clear - T2 ST. induction l as [|u [|v r] IH]; [exact I|exact I|].
          destruct T2 as [T2 T2']. split; [exact (proj1 (ST _ _ T2))|exact (IH T2')].
        * clear - T2 ST. induction l as [|u [|v r] IH]; [exact I|exact I|].
          destruct T2 as [T2 T2']. apply ST in T2 as (_ & Q1 & Q2 & _). split; [exact Q1|]. split; [exact Q2|exact (IH T2')].
      + clear - T2 ST Ha As HE1. induction l as [|u [|m [|b r]] IH]; auto.
        destruct T2 as [T2 T2']. destruct Ha as [Ha Ha']. split; [|exact (IH T2' Ha')]. right.
        destruct Ha as [[_ (q & [] & _)]|[Hc _]].
        destruct T2' as [T3 _]. pose proof (ST _ _ T2) as (S1 & S2 & S3 & S4 & S5). pose proof (ST _ _ T3) as (S1' & S2' & S3' & S4' & S5').
        split; auto. intros [C1 C2]. apply Hc. split; split; auto; apply HE1; auto.
  Qed.

  (** no directed path from t to the outcome avoids z *)
  Lemma fd_step3 a : marg dom cpt (diff N' z) [o] a = marg dom cpt (diff N z) [o] a.
  Proof.
    set (G2 := remove_nodes_from G0 z).
    assert (HE2 : forall p v, ed G2 p v <-> E p v /\ ~ In p z /\ ~ In v z).
    { intros p v. unfold G2. rewrite remove_nodes_ed, G0_ed. tauto. }
    assert (W2 : wf G2) by apply remove_nodes_wf, G0_wf.
    set (B := dedup (closure G2 (predecessors G2) [o])).
    assert (HB : forall v, In v B <-> reach (ed G2) v o).
    { intros v. unfold B. rewrite dedup_In, (closure_pred W2).
      - split; [intros (u & [<-|[]] & H); auto|intros H; exists o; split; auto; now left].
      - intros u [<-|[]]. apply remove_nodes_nodes. split; auto. now apply obs_In_vars. }
    assert (Bz : forall v, In v B -> ~ In v z /\ In v N).
    { intros v Hv. apply HB in Hv. destruct (reach_inv Hv) as [->|(w & Hw & _)].
      - split; auto. now apply obs_In_vars.
      - apply HE2 in Hw as (H1 & H2 & H3). split; auto. apply G0_ed in H1. now apply (wf_ends G0_wf) in H1. }
    assert (Bt : ~ In t B).
    { intros Ht. apply HB in Ht. destruct F as (F1 & _).
      assert (Q : forall u v, reach (ed G2) u v -> In u (keys (causation g)) ->
                  reach (fun a b => is_parent g a b /\ ~ In a z /\ ~ In b z) u v).
      { induction 1 as [|u w v Huw _ IH]; intros Ku; [constructor|]. apply HE2 in Huw as (H1 & H2 & H3).
        assert (HP : is_parent g u w).
        { destruct H1 as [H1|(i & a1 & b1 & Hi & -> & _)]; auto. exfalso. now apply (ug_names U i). }
        econstructor; [split; [exact HP|auto]|]. apply IH. now apply (parent_keys (ug_wf U) (ug_closed U)) in HP. }
      apply Q in Ht; auto. destruct (reach_dwalk Ht) as (l & Hl & Hlast).
      destruct (@exists_last _ l) as (q & y & ->); [intros ->; cbn in Hlast; auto|].
      change (t :: q ++ [y]) with ((t :: q) ++ [y]) in Hlast. rewrite last_snoc in Hlast. subst y.
      destruct (F1 q) as (v & Hv & Hvz).
      - clear - Hl. induction (t :: q ++ [o]) as [|a [|b r] IH]; cbn [dwalk] in *; auto. tauto.
      - revert Hvz. clear - Hl Hv Htz. revert Hl Hv. generalize (q ++ [o]) as l. intros l Hl Hv.
        assert (G : forall l u, ~ In u z -> dwalk (fun a b => is_parent g a b /\ ~ In a z /\ ~ In b z) (u :: l) ->
                    forall v, In v (u :: l) -> ~ In v z).
        { clear. induction l as [|b l IH]; intros u Hu Hd v Hv; [destruct Hv as [<-|[]]; auto|].
          destruct Hd as [(_ & _ & H) Hd]. destruct Hv as [<-|Hv]; auto. eapply IH; eauto. }
        eapply G; eauto. }
    destruct (rank_exists (ug_wf U) (ug_closed U) (ug_acyclic U) (ug_fresh U)) as (rank & Hr).
    assert (MA : forall Wl b, NoDup Wl -> incl Wl N -> incl B Wl -> (forall r, In r Wl -> ~ In r z) ->
                 marg dom cpt Wl [o] b = marg dom cpt B [o] b).
    { intros Wl b H1 H2 H3 H4.
      apply (@marg_anc _ _ dom cpt E N (c_local M) (c_norm M) rank (fun p v _ _ => Hr p v)); auto.
      - apply dedup_NoDup.
      - intros v [<-|[]]. apply HB. constructor.
      - intros r w Hr' HrB Hw Hrw. apply HrB. apply HB. apply HB in Hw as Hw'. econstructor; [|exact Hw'].
        apply HE2. pose proof (proj1 (Bz w Hw)). pose proof (H4 r Hr'). auto.  }
    transitivity (marg dom cpt B [o] a); [apply MA|symmetry; apply MA].
    - apply diff_NoDup, NDN'.
    - intros v Hv. apply diff_In in Hv as [Hv _]. now apply N'_In in Hv.
    - intros v Hv. apply diff_In. split; [apply N'_In|]; pose proof (Bz v Hv); [split; [tauto|intros ->; tauto]|tauto].
    - intros r Hv. apply diff_In in Hv. tauto.
    - apply diff_NoDup, NDN.
    - intros v Hv. apply diff_In in Hv. tauto.
    - intros v Hv. apply diff_In. apply Bz in Hv. tauto.
    - intros r Hv. apply diff_In in Hv. tauto.
  Qed.

  Lemma active_False l : active E (fun v => In v []) l <-> active E (fun _ => False) l.
  Proof.
    assert (T : forall a m b, triple_open E (fun v => In v []) a m b <-> triple_open E (fun _ => False) a m b).
    { intros a m b. unfold triple_open. simpl. tauto. }
    induction l as [|a [|m [|b r]] IH]; cbn [active]; try tauto.
  Qed.
  Lemma active_one l : active E (fun v => In v [t]) l <-> active E (fun v => v = t) l.
  Proof.
    assert (T : forall a m b, triple_open E (fun v => In v [t]) a m b <-> triple_open E (fun v => v = t) a m b).
    { assert (Q : forall v, In v [t] <-> v = t) by (intros v; simpl; intuition).
      intros a m b. unfold triple_open. rewrite Q. split; (intros [[H (v & Hv & Hr)]|[H H']]; [left|right; tauto]; split; auto;
        exists v; split; auto; now apply Q). }
    induction l as [|a [|m [|b r]] IH]; cbn [active]; try tauto. now rewrite T, IH.
  Qed.

  Theorem frontdoor_adjustment a : frontdoor_formula g uname dom cpt t o z a = P_do g uname dom cpt [t] [o] a.
  Proof.
    assert (IN : incl N' N) by (intros v Hv; now apply N'_In in Hv).
    rewrite P_do_marg. fold N. fold N'.
    rewrite <- (@marg_more _ _ dom cpt E N (c_local M) N' [o] z a NDN' IN NDz z_N').
    2: { intros v Hv [<-|[]]. auto. }
    unfold frontdoor_formula. apply sums_eq. intros b.
    assert (S1 : P_do g uname dom cpt [t] z b = P_obs g uname dom cpt (t :: z) b / P_obs g uname dom cpt [t] b).
    { rewrite <- (@criterion_adjustment g U [t]) with (z := []); auto.
      - unfold adjustment. cbn [sums]. rewrite !P_obs_marg. fold N.
        rewrite (@marg_nil g uname (ug_wf U) (ug_closed U) (ug_acyclic U) (ug_fresh U) dom cpt M N b NDN (incl_refl N)).
        rewrite (@marg_perm_S _ _ dom cpt E N (c_local M) N (z ++ [t] ++ []) (t :: z) b NDN (incl_refl N)).
        2: { intros x. rewrite in_app_iff. simpl. tauto. }
        cbn [app]. field. apply Rgt_not_eq, (@marg_pos _ _ dom cpt N (c_dom M) (c_pos M)), incl_refl.
      - intros v [<-|[]]. auto.
      - repeat constructor; auto.
      - constructor.
      - intros v Hv. rewrite app_nil_r in Hv. apply in_app_iff in Hv as [[<-|[]]|Hv]; auto.
      - split; [intros x v _ []|]. intros l Hl Ha. destruct F as (_ & F2 & _). apply (F2 l Hl). now apply active_False. }
    assert (S4 : P_do g uname dom cpt z [o] b =
      sumv dom t (fun c => P_obs g uname dom cpt (o :: t :: z) c / P_obs g uname dom cpt (t :: z) c * P_obs g uname dom cpt [t] c) b).
    { rewrite <- (@criterion_adjustment g U z) with (z := [t]); auto.
      - unfold adjustment. cbn [sums]. apply sumv_ext. intros d _. rewrite !P_obs_marg. fold N.
        rewrite (@marg_perm_S _ _ dom cpt E N (c_local M) N ([o] ++ z ++ [t]) (o :: t :: z) _ NDN (incl_refl N)).
        2: { intros x. cbn [app]. simpl. rewrite in_app_iff. simpl. tauto. }
        rewrite (@marg_perm_S _ _ dom cpt E N (c_local M) N (z ++ [t]) (t :: z) _ NDN (incl_refl N)).
        2: { intros x. rewrite in_app_iff. simpl. tauto. }
        reflexivity.
      - repeat constructor; auto.
      - repeat constructor; auto.
      - intros v Hv. rewrite !in_app_iff in Hv. destruct Hv as [Hv|[[<-|[]]|[<-|[]]]]; auto.
      - intros v [<-|[]] [Hc|[]]. auto.
      - split; [intros x v Hx [<-|[]]; now apply fd_not_anc|]. intros l Hl Ha. destruct F as (_ & _ & F3). apply (F3 l Hl).
        now apply active_one. }
    rewrite <- S1, <- S4. rewrite !P_do_marg. fold N. fold N'. rewrite <- fd_step3, <- fd_step2.
    symmetry. apply (@marg_perm_S _ _ dom cpt E N (c_local M) N' _ _ b NDN' IN).
    intros x. rewrite !in_app_iff. tauto.
  Qed.

  Lemma frontdoor_prob_eval a : eval g uname dom cpt (frontdoor_prob t o z) a = frontdoor_formula g uname dom cpt t o z a.
  Proof.
    unfold frontdoor_prob. cbn [eval fold_right]. unfold frontdoor_formula. apply sums_eq. intros b.
    assert (Hu : union [t] z = t :: z).
    { unfold union. cbn [app]. f_equal. unfold diff. apply filter_all_true. intros v Hv. rewrite negb_true_iff, mem_nIn.
      intros [->|[]]. auto. }
    rewrite Hu. cbn [sums]. change (P_cond g uname dom cpt [] [] b) with 1.
    assert (HP : forall S c, 0 < P_obs g uname dom cpt S c) by (intros; apply (@obs_pos g U dom cpt M)).
    assert (Hz : P_cond g uname dom cpt z [t] b = P_obs g uname dom cpt (t :: z) b / P_obs g uname dom cpt [t] b).
    { unfold P_cond. destruct z as [|s z0] eqn:Ez.
      - field. apply Rgt_not_eq, HP.
      - rewrite <- Ez. rewrite !P_obs_marg. f_equal.
        apply (@marg_perm_S _ _ dom cpt E N (c_local M) N _ _ b NDN (incl_refl N)). intros x. rewrite in_app_iff. simpl. tauto. }
    rewrite Hz. rewrite !Rmult_1_l, !Rmult_1_r. f_equal. apply sumv_ext. intros d _.
    rewrite (@P_cond_nil g uname (ug_wf U) (ug_closed U) (ug_acyclic U) (ug_fresh U) dom cpt M [t]).
    change (P_cond g uname dom cpt [] [] (upd b t d)) with 1.
    unfold P_cond. cbn [app]. ring.
  Qed.
End Frontdoor.
