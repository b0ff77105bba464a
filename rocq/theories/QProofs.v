(** C-component algebra (Tian & Pearl): Q[C] = sum over the latent variables of the product of the factors of C.
    Observed variables [O], latent root variables [H]. *)
From Verif Require Import Base NxSpec Bn BnProofs.
Set Implicit Arguments.
Local Open Scope R_scope.

Section Q.
  Context {A : Type} {EA : EqDec A}.
  Variable dom : A -> list nat.
  Variable cpt : A -> (@asg A) -> R.
  Variable E : A -> A -> Prop.
  Variables O H : list A.
  Let N := O ++ H.
  Hypothesis NDN : NoDup N.
  Hypothesis Hdom : forall v, dom v <> [].
  Hypothesis Hloc : forall v, In v N -> dep (cpt v) (fun w => w = v \/ E w v).
  Hypothesis Hnorm : forall v a, In v N -> sumv dom v (cpt v) a = 1.
  Hypothesis Hpos : forall v a, In v N -> 0 < cpt v a.
  Variable rank : A -> nat.
  Hypothesis Hrank : forall p v, E p v -> (rank p < rank v)%nat.
  (** latent variables are roots *)
  Hypothesis Hroot : forall p v, E p v -> In v O.
  Hypothesis Hsrc : forall p v, E p v -> In p N.
  (** latent parents are decidable *)
  Hypothesis Edec : forall p v, {E p v} + {~ E p v}.

  Notation sums := (sums dom).
  Notation prodl := (prodl cpt).

  Definition Q (C : list A) : @asg A -> R := sums H (prodl (H ++ C)).

  Lemma HN : incl H N. Proof. intros v Hv. apply in_app_iff; auto. Qed.
  Lemma ON : incl O N. Proof. intros v Hv. apply in_app_iff; auto. Qed.
  Lemma NDO : NoDup O. Proof. now apply NoDup_app_inv in NDN. Qed.
  Lemma NDH : NoDup H. Proof. now apply NoDup_app_inv in NDN. Qed.
  Lemma OH v : In v O -> ~ In v H. Proof. intros Hv. now apply (NoDup_app_inv _ _ NDN). Qed.
  Lemma HCN C : incl C O -> incl (H ++ C) N.
  Proof. intros HC v Hv. apply in_app_iff in Hv as [Hv|Hv]; [apply HN|apply ON]; auto. Qed.
  Lemma ext_prodl l : incl l N -> ext (prodl l).
  Proof. intros Hl. apply (@prodl_ext _ cpt E N Hloc l Hl). Qed.
  Hint Resolve NDO NDH HN ON HCN ext_prodl : q.

  Lemma Q_perm C D a : Permutation C D -> Q C a = Q D a.
  Proof. intros HP. apply sums_eq. intros b. apply prodl_perm. now apply Permutation_app_head. Qed.
  Lemma Q_set C D a : NoDup C -> NoDup D -> (forall v, In v C <-> In v D) -> Q C a = Q D a.
  Proof. intros H1 H2 HS. apply Q_perm. now apply NoDup_Permutation. Qed.
  Lemma Q_pos C a : incl C O -> 0 < Q C a.
  Proof.
    intros HC. apply sums_pos; auto. intros b. apply prodl_pos. intros v Hv. apply Hpos. now apply (HCN HC).
  Qed.
  Lemma Q_ext C : incl C O -> ext (Q C).
  Proof. intros HC. apply sums_ext. auto with q. Qed.
  Lemma Q_nil a : Q [] a = 1.
  Proof.
    unfold Q. rewrite (@barren _ _ dom cpt E N Hloc Hnorm rank).
    - reflexivity.
    - intros; auto.
    - rewrite app_nil_r. auto with q.
    - rewrite app_nil_r. auto with q.
    - intros r w _ [].
  Qed.

  (** Summing out the part of [C] that is not needed for the ancestral subset [D]. *)
  Lemma Q_sub C D a : NoDup C -> incl C O -> NoDup D -> incl D C ->
    (forall p v, In v D -> In p C -> E p v -> In p D) ->
    sums (diff C D) (Q C) a = Q D a.
  Proof.
    intros NC CO ND DC Hcl. unfold Q. rewrite sums_app_comm by auto with q.
    apply sums_eq. intros b.
    assert (HP : Permutation (H ++ C) (diff C D ++ (H ++ D))).
    { apply NoDup_Permutation.
      - apply NoDup_app_intro; auto with q. intros v H1 H2. eapply OH; eauto.
      - apply NoDup_app_intro; [now apply diff_NoDup| |].
        + apply NoDup_app_intro; auto with q. intros v H1 H2. eapply OH; eauto.
        + intros v. rewrite diff_In, in_app_iff. intros [H1 H2] [H3|H3]; auto. eapply OH; eauto.
      - intros v. rewrite !in_app_iff, diff_In. destruct (In_dec v D); intuition. }
    rewrite (sums_eq dom _ _ (prodl (diff C D ++ (H ++ D)))) by (intros; now apply prodl_perm).
    apply (@barren _ _ dom cpt E N Hloc Hnorm rank).
    - intros; auto.
    - eapply Permutation_NoDup; [exact HP|]. apply NoDup_app_intro; auto with q. intros v H1 H2. eapply OH; eauto.
    - intros v Hv. apply (HCN CO). eapply Permutation_in; [symmetry; exact HP|auto].
    - intros r w Hr Hw He. apply diff_In in Hr as [Hr1 Hr2]. apply in_app_iff in Hw as [Hw|Hw].
      + apply Hroot in He. eapply OH; eauto.
      + eauto.
  Qed.

  (** The target of all steps: [sums (C \ X \ Y) Q[C \ X]]. *)
  Definition target (C X Y : list A) : @asg A -> R := sums (diff (diff C X) Y) (Q (diff C X)).

  Lemma target_sub C X Y D Z a : NoDup C -> incl C O -> NoDup D ->
    incl D (diff C X) -> (forall v, In v D <-> In v Z) -> NoDup Z ->
    (forall v, In v Y -> In v (diff C X) -> In v D) ->
    (forall p v, In v D -> In p (diff C X) -> E p v -> In p D) ->
    target C X Y a = sums (diff D Y) (Q Z) a.
  Proof.
    intros NC CO ND DC HZ NZ HY Hcl. unfold target.
    set (B := diff C X) in *.
    assert (NB : NoDup B) by now apply diff_NoDup.
    assert (BO : incl B O) by (intros v Hv; apply diff_In in Hv; apply CO; tauto).
    assert (HP : Permutation (diff B Y) (diff D Y ++ diff B D)).
    { apply NoDup_Permutation.
      - now apply diff_NoDup.
      - apply NoDup_app_intro; auto using diff_NoDup. intros v. rewrite !diff_In. tauto.
      - intros v. rewrite in_app_iff, !diff_In. split.
        + intros [H1 H2]. destruct (In_dec v D); auto.
        + intros [[H1 H2]|[H1 H2]]; auto. }
    rewrite (sums_perm dom a (Q_ext BO) HP), sums_app. apply sums_eq. intros b.
    rewrite Q_sub by auto. apply Q_set; auto.
  Qed.

  (** Factorisation over two parts without a common latent parent. *)
  Definition common (C D : list A) : Prop := exists h u v, In h H /\ In u C /\ In v D /\ E h u /\ E h v.
  Definition touches (C : list A) (h : A) : bool := existsb (fun v => if Edec h v then true else false) C.
  Lemma touches_spec C h : touches C h = true <-> exists v, In v C /\ E h v.
  Proof.
    unfold touches. rewrite existsb_exists. split; intros (v & Hv & He); exists v; split; auto; destruct (Edec h v); easy.
  Qed.

  (** Latent variables without a child in [C] are irrelevant. *)
  Lemma Q_hid C K a : NoDup C -> incl C O -> NoDup K -> incl K H ->
    (forall h v, In h H -> In v C -> E h v -> In h K) -> Q C a = sums K (prodl (K ++ C)) a.
  Proof.
    intros NC CO NK KH Hc. unfold Q.
    assert (HP : Permutation H (K ++ diff H K)) by (apply diff_part; auto with q).
    rewrite (sums_perm dom a (ext_prodl (HCN CO)) HP), sums_app. apply sums_eq. intros b.
    assert (HP2 : Permutation (H ++ C) (diff H K ++ (K ++ C))).
    { rewrite app_assoc. apply Permutation_app_tail. rewrite HP at 1. apply Permutation_app_comm. }
    assert (ND : NoDup (H ++ C)).
    { apply NoDup_app_intro; auto with q. intros v H1 H2. eapply OH; eauto. }
    rewrite (sums_eq dom _ _ (prodl (diff H K ++ (K ++ C)))) by (intros; now apply prodl_perm).
    apply (@barren _ _ dom cpt E N Hloc Hnorm rank).
    - intros; auto.
    - eapply Permutation_NoDup; eauto.
    - intros v Hv. apply (HCN CO). eapply Permutation_in; [symmetry; exact HP2|auto].
    - intros r w Hr Hw He. apply diff_In in Hr as [Hr1 Hr2]. apply in_app_iff in Hw as [Hw|Hw].
      + apply Hroot in He. eapply OH; eauto.
      + eauto.
  Qed.

  Lemma Q_split C D a : NoDup (C ++ D) -> incl (C ++ D) O -> ~ common C D -> Q (C ++ D) a = Q C a * Q D a.
  Proof.
    intros ND CO Hn.
    set (H1 := filter (touches C) H). set (H2 := filter (fun v => negb (touches C v)) H).
    assert (HC : incl C O) by (intros v Hv; apply CO, in_app_iff; auto).
    assert (HD : incl D O) by (intros v Hv; apply CO, in_app_iff; auto).
    assert (I1 : incl H1 H) by (intros v Hv; apply filter_In in Hv; tauto).
    assert (I2 : incl H2 H) by (intros v Hv; apply filter_In in Hv; tauto).
    assert (ND1 : NoDup H1) by (apply NoDup_filter; auto with q).
    assert (ND2 : NoDup H2) by (apply NoDup_filter; auto with q).
    assert (NDC : NoDup C /\ NoDup D) by (apply NoDup_app_inv in ND; tauto).
    assert (HP : Permutation H (H1 ++ H2)).
    { apply NoDup_Permutation; auto with q.
      - apply NoDup_app_intro; auto. intros v Hv Hw. apply filter_In in Hv, Hw. destruct (touches C v); easy.
      - intros v. rewrite in_app_iff. unfold H1, H2. rewrite !filter_In. destruct (touches C v); tauto. }
    assert (T1 : forall h v, In h H -> In v C -> E h v -> In h H1).
    { intros h v Hh Hv He. apply filter_In. split; auto. apply touches_spec. eauto. }
    assert (T2 : forall h v, In h H -> In v D -> E h v -> In h H2).
    { intros h v Hh Hv He. apply filter_In. split; auto. apply negb_true_iff.
      destruct (touches C h) eqn:T; auto. apply touches_spec in T as (u & Hu & Hu').
      elim Hn. exists h, u, v. auto. }
    assert (DD : forall K L, incl K H -> incl L O -> (forall h v, In h H -> In v L -> E h v -> In h K) ->
                 dep (prodl (K ++ L)) (fun w => In w O \/ In w K)).
    { intros K L HK HL T. eapply dep_mono; [apply (@prodl_loc _ cpt E N Hloc)|].
      - intros v Hv. apply in_app_iff in Hv as [Hv|Hv]; auto with q.
      - intros w [Hw|(v & Hv & He)].
        + apply in_app_iff in Hw as [Hw|Hw]; auto.
        + apply in_app_iff in Hv as [Hv|Hv].
          * apply Hroot in He. exfalso. eapply OH; eauto.
          * pose proof (Hsrc He) as Hw. apply in_app_iff in Hw as [Hw|Hw]; auto. right. eauto. }
    rewrite (@Q_hid C H1), (@Q_hid D H2) by tauto.
    rewrite <- (@sums_split _ _ dom H1 H2 (prodl (H1 ++ C)) (prodl (H2 ++ D)) a _ _ (DD _ _ I1 HC T1) (DD _ _ I2 HD T2)).
    - unfold Q. rewrite (sums_perm dom a (ext_prodl (HCN CO)) HP). apply sums_eq. intros b.
      rewrite (prodl_perm cpt b (m := (H1 ++ C) ++ (H2 ++ D))), prodl_app; auto.
      rewrite HP, <- !app_assoc. apply Permutation_app_head. rewrite !app_assoc. apply Permutation_app_tail.
      apply Permutation_app_comm.
    - intros v Hv [Hw|Hw]; [eapply OH; eauto|]. apply filter_In in Hv, Hw. destruct (touches C v); easy.
    - intros v Hv [Hw|Hw]; [eapply OH; eauto|]. apply filter_In in Hv, Hw. destruct (touches C v); easy.
  Qed.

  (** Factorisation over a list of parts. *)
  Lemma Q_parts cs a : NoDup (List.concat cs) -> incl (List.concat cs) O ->
    (forall l1 c1 l2 c2 l3, cs = l1 ++ c1 :: l2 ++ c2 :: l3 -> ~ common c1 c2) ->
    Q (List.concat cs) a = fold_right (fun c r => Q c a * r) 1 cs.
  Proof.
    induction cs as [|c cs IH]; intros ND HO Hc; cbn [List.concat fold_right]; [apply Q_nil|].
    cbn [List.concat] in *. rewrite Q_split; auto.
    - f_equal. apply IH.
      + apply NoDup_app_inv in ND. tauto.
      + intros v Hv. apply HO, in_app_iff. auto.
      + intros l1 c1 l2 c2 l3 Heq. apply (Hc (c :: l1) c1 l2 c2 l3). rewrite Heq. reflexivity.
    - intros (h & u & v & Hh & Hu & Hv & H1 & H2). apply in_concat in Hv as (c2 & Hc2 & Hv).
      apply in_split in Hc2 as (l2 & l3 & Heq).
      apply (Hc [] c l2 c2 l3); [now rewrite Heq|]. exists h, u, v. auto.
  Qed.

  (** *** Chain rule inside a component *)
  (** [pre] lists, without repetition and parents first, a subset of the ancestral set [C]. *)
  Definition P (S : list A) : @asg A -> R := marg dom cpt N S.
  Lemma P_Q S a : incl S O -> P S a = sums (diff O S) (Q O) a.
  Proof.
    intros HS. unfold P, marg, Q. rewrite <- sums_app.
    rewrite (sums_eq dom _ (prodl (H ++ O)) (prodl N)) by (intros; apply prodl_perm, Permutation_app_comm).
    apply sums_perm; [apply ext_prodl, incl_refl|].
    apply NoDup_Permutation.
    - now apply diff_NoDup.
    - apply NoDup_app_intro; [apply diff_NoDup; auto with q|auto with q|].
      intros v Hv. apply diff_In in Hv as [Hv _]. now apply OH.
    - intros v. unfold N. rewrite in_app_iff, !diff_In, in_app_iff. split; [tauto|].
      intros [H1|H1]; [tauto|]. split; auto. intros H2. apply HS in H2. eapply OH; eauto.
  Qed.
  Lemma P_anc S a : NoDup S -> incl S O -> (forall p v, In v S -> In p O -> E p v -> In p S) -> P S a = Q S a.
  Proof. intros NS HS Hcl. rewrite P_Q by auto. apply Q_sub; auto with q. apply incl_refl. Qed.

  Definition chain (pre : list A) : Prop :=
    forall l1 v l2, pre = l1 ++ v :: l2 -> forall p, In p O -> E p v -> In p l1.
  Lemma chain_closed pre : chain pre -> forall p v, In v pre -> In p O -> E p v -> In p pre.
  Proof.
    intros Hch p v Hv Hp He. apply in_split in Hv as (l1 & l2 & ->). apply in_app_iff. left. eapply Hch; eauto.
  Qed.
  Lemma chain_app l m : chain (l ++ m) -> chain l.
  Proof. intros Hc l1 v l2 ->. apply (Hc l1 v (l2 ++ m)). now rewrite <- app_assoc. Qed.

  (** the factor of [e]: P(e | the variables listed before e) *)
  Definition link (pre : list A) (e : A) (a : @asg A) : R :=
    match index_of e pre with
    | Some i => P (e :: firstn i pre) a / P (firstn i pre) a
    | None => 0
    end.
  Lemma index_of_app_in e l m i : index_of e l = Some i -> index_of e (l ++ m) = Some i.
  Proof.
    revert i. induction l as [|x l IH]; intros i; cbn [index_of app]; [discriminate|].
    destruct (eqb e x); auto. destruct (index_of e l) as [j|]; [|discriminate]. cbn. intros [= <-]. now rewrite (IH j).
  Qed.
  Lemma index_of_snoc e l : ~ In e l -> index_of e (l ++ [e]) = Some (List.length l).
  Proof.
    induction l as [|x l IH]; intros Hn; cbn [index_of app List.length]; [now rewrite eqb_refl|].
    assert (eqb e x = false) by (apply eqb_neq; intros ->; apply Hn; now left).
    rewrite H0, IH; auto. intros Hi; apply Hn; now right.
  Qed.
  Lemma link_app e l m a : In e l -> link (l ++ m) e a = link l e a.
  Proof.
    intros He. unfold link. destruct (index_of e l) as [i|] eqn:Ei; [|apply index_of_None in Ei; tauto].
    rewrite (@index_of_app_in e l m i Ei). apply index_of_Some in Ei as [_ Hi].
    rewrite firstn_app. replace (i - List.length l)%nat with 0%nat by lia. cbn [firstn]. now rewrite app_nil_r.
  Qed.
  Definition links (pre s : list A) (a : @asg A) : R := fold_right (fun e r => link pre e a * r) 1 s.
  Lemma links_app pre s t a : links pre (s ++ t) a = links pre s a * links pre t a.
  Proof. induction s as [|e s IH]; cbn [links fold_right app]; [unfold links; cbn; ring|]. unfold links in *. rewrite IH. ring. Qed.
  Lemma links_perm pre s t a : Permutation s t -> links pre s a = links pre t a.
  Proof.
    unfold links. induction 1 as [|v l l' _ IH|v w l|l l' l'' _ IH1 _ IH2]; cbn [fold_right]; try easy.
    - now rewrite IH. - ring. - now rewrite IH1.
  Qed.
  Lemma links_ext pre pre' s a : (forall e, In e s -> link pre e a = link pre' e a) -> links pre s a = links pre' s a.
  Proof.
    unfold links. induction s as [|e s IH]; intros He; cbn [fold_right]; auto. rewrite (He e) by now left.
    f_equal. apply IH. intros; apply He; now right.
  Qed.

  Lemma Q_chain pre S a : NoDup pre -> incl pre O -> chain pre ->
    (forall h u v, In h H -> In u pre -> In v pre -> E h u -> E h v -> (In u S <-> In v S)) ->
    links pre (inter pre S) a = Q (inter pre S) a.
  Proof.
    induction pre as [|e pre IH] using rev_ind; intros NP PO Hch HS; [unfold links; cbn; now rewrite Q_nil|].
    assert (NPe : NoDup pre /\ ~ In e pre).
    { apply NoDup_app_inv in NP as (H1 & _ & H3). split; auto. intros Hi. apply (H3 e); auto. now left. }
    destruct NPe as [NPp Hne].
    assert (PO' : incl pre O) by (intros v Hv; apply PO, in_app_iff; auto).
    assert (HeO : In e O) by (apply PO, in_app_iff; right; now left).
    assert (IHa : links pre (inter pre S) a = Q (inter pre S) a).
    { apply IH; auto; [eapply chain_app; eauto|].
      intros h u v Hh Hu Hv. apply HS; auto; apply in_app_iff; auto. }
    clear IH.
    assert (HI : inter (pre ++ [e]) S = inter pre S ++ (if mem e S then [e] else [])).
    { unfold inter. rewrite filter_app. cbn [filter]. reflexivity. }
    rewrite HI, links_app.
    assert (L1 : links (pre ++ [e]) (inter pre S) a = links pre (inter pre S) a).
    { apply links_ext. intros x Hx. apply inter_In in Hx. now apply link_app. }
    rewrite L1, IHa. destruct (mem_spec e S) as [He|He].
    2: { unfold links; cbn [fold_right]. rewrite app_nil_r. ring. }
    unfold links; cbn [fold_right]. unfold link. rewrite index_of_snoc by auto.
    rewrite firstn_app, Nat.sub_diag. cbn [firstn]. rewrite firstn_all, app_nil_r.
    assert (Hcl : forall p v, In v pre -> In p O -> E p v -> In p pre).
    { apply chain_closed. eapply chain_app; eauto. }
    rewrite (P_anc a (S := pre)); auto.
    rewrite (P_anc a (S := e :: pre)).
    2: { constructor; auto. } 2: { intros v [<-|Hv]; auto. }
    2: { intros p v [<-|Hv] Hp Hpv; right; eauto. }
    (* split pre ++ [e] and pre along S *)
    set (R := diff pre S).
    assert (NR : NoDup (inter pre S ++ R)).
    { apply NoDup_app_intro; [now apply inter_NoDup|now apply diff_NoDup|]. intros v. unfold R. rewrite inter_In, diff_In. tauto. }
    assert (NR2 : NoDup ((inter pre S ++ [e]) ++ R)).
    { rewrite <- app_assoc. eapply Permutation_NoDup; [apply Permutation_middle|]. constructor; auto.
      rewrite in_app_iff, inter_In. unfold R. rewrite diff_In. tauto. }
    rewrite (@Q_set pre (inter pre S ++ R)); auto.
    2: { intros v. rewrite in_app_iff, inter_In. unfold R. rewrite diff_In. destruct (In_dec v S); tauto. }
    rewrite (@Q_set (e :: pre) ((inter pre S ++ [e]) ++ R)); auto.
    2: { constructor; auto. }
    2: { intros v. rewrite !in_app_iff, inter_In. unfold R. rewrite diff_In. cbn [In]. destruct (In_dec v S); intuition. }
    assert (I1 : incl (inter pre S) O) by (intros v Hv; apply inter_In in Hv; apply PO'; tauto).
    assert (I2 : incl R O) by (intros v Hv; apply diff_In in Hv; apply PO'; tauto).
    assert (C0 : forall u v, In u (inter pre S ++ [e]) -> In v R -> forall h, In h H -> E h u -> E h v -> False).
    { intros u v Hu Hv h Hh H1 H2. apply diff_In in Hv as [Hv Hv']. apply Hv'.
      apply (HS h u v); auto; try (apply in_app_iff; auto; fail).
      - apply in_app_iff in Hu as [Hu|[<-|[]]]; apply in_app_iff; [left|right; now left]. apply inter_In in Hu; tauto.
      - apply in_app_iff in Hu as [Hu|[<-|[]]]; auto. apply inter_In in Hu; tauto. }
    rewrite (@Q_split (inter pre S) R); auto.
    2: { intros v Hv. apply in_app_iff in Hv as [Hv|Hv]; auto. }
    2: { intros (h & u & v & Hh & Hu & Hv & H1 & H2). apply (C0 u v) with h; auto. apply in_app_iff; auto. }
    rewrite (@Q_split (inter pre S ++ [e]) R); auto.
    2: { intros v Hv. apply in_app_iff in Hv as [Hv|Hv]; auto. apply in_app_iff in Hv as [Hv|[<-|[]]]; auto. }
    2: { intros (h & u & v & Hh & Hu & Hv & H1 & H2). apply (C0 u v) with h; auto. }
    assert (P1 : 0 < Q (inter pre S) a) by now apply Q_pos.
    assert (P2 : 0 < Q R a) by now apply Q_pos.
    field. lra.
  Qed.
End Q.
