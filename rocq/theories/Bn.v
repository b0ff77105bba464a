(** Finite sums over assignments and products of local factors: the algebra behind discrete Bayesian networks.
    Independent of the code; used to state what an estimand denotes. *)
From Coq Require Export Reals Lra.
From Verif Require Import Base.
Set Implicit Arguments.
Local Open Scope R_scope.

Section Bn.
  Context {A : Type} {EA : EqDec A}.

  Definition asg := A -> nat.
  Definition upd (a : asg) (v : A) (d : nat) : asg := fun w => if eqb w v then d else a w.

  Fixpoint sumR (f : nat -> R) (l : list nat) : R :=
    match l with [] => 0 | d :: r => f d + sumR f r end.

  (** [f] depends only on the coordinates in [S]. *)
  Definition dep (f : asg -> R) (S : A -> Prop) : Prop :=
    forall a b, (forall v, S v -> a v = b v) -> f a = f b.
  Definition ext (f : asg -> R) : Prop := dep f (fun _ => True).
  (** [f] does not depend on coordinate [v]. *)
  Definition indep (f : asg -> R) (v : A) : Prop := dep f (fun w => w <> v).

  Lemma dep_mono f (S T : A -> Prop) : dep f S -> (forall v, S v -> T v) -> dep f T.
  Proof. intros H ST a b Hab. apply H. auto. Qed.
  Lemma dep_ext f S : dep f S -> ext f.
  Proof. intros H. eapply dep_mono; eauto. Qed.
  Lemma dep_indep f S v : dep f S -> ~ S v -> indep f v.
  Proof. intros H Hv. eapply dep_mono; eauto. intros w Hw ->. auto. Qed.
  Lemma dep_mul f g S : dep f S -> dep g S -> dep (fun a => f a * g a) S.
  Proof. intros H1 H2 a b H. now rewrite (H1 a b H), (H2 a b H). Qed.
  Lemma dep_div f g S : dep f S -> dep g S -> dep (fun a => f a / g a) S.
  Proof. intros H1 H2 a b H. now rewrite (H1 a b H), (H2 a b H). Qed.
  Lemma dep_const c S : dep (fun _ => c) S.
  Proof. easy. Qed.

  Lemma upd_same a v d : upd a v d v = d.
  Proof. unfold upd. now rewrite eqb_refl. Qed.
  Lemma upd_other a v d w : w <> v -> upd a v d w = a w.
  Proof. intros H. unfold upd. apply eqb_neq in H. now rewrite H. Qed.
  Lemma indep_upd f v a d : indep f v -> f (upd a v d) = f a.
  Proof. intros H. apply H. intros w Hw. now apply upd_other. Qed.

  Lemma sumR_ext f g l : (forall d, In d l -> f d = g d) -> sumR f l = sumR g l.
  Proof.
    induction l as [|d l IH]; intros H; [easy|]. simpl. f_equal; [apply H; now left|apply IH; intros; apply H; now right].
  Qed.
  Lemma sumR_mul c f l : sumR (fun d => c * f d) l = c * sumR f l.
  Proof. induction l as [|d l IH]; simpl; [ring|rewrite IH; ring]. Qed.
  Lemma sumR_add f g l : sumR (fun d => f d + g d) l = sumR f l + sumR g l.
  Proof. induction l as [|d l IH]; simpl; [ring|rewrite IH; ring]. Qed.
  Lemma sumR_0 l : sumR (fun _ => 0) l = 0.
  Proof. induction l as [|d l IH]; simpl; [easy|rewrite IH; ring]. Qed.
  Lemma sumR_swap f l m : sumR (fun d => sumR (fun e => f d e) m) l = sumR (fun e => sumR (fun d => f d e) l) m.
  Proof.
    induction l as [|d l IH]; simpl; [now rewrite sumR_0|]. now rewrite IH, sumR_add.
  Qed.
  Lemma sumR_pos f l : l <> [] -> (forall d, In d l -> 0 < f d) -> 0 < sumR f l.
  Proof.
    intros Hl H. destruct l as [|d l]; [congruence|]. clear Hl. simpl.
    assert (0 <= sumR f l).
    { assert (H' : forall e, In e l -> 0 < f e) by (intros; apply H; now right). clear H.
      induction l as [|e l IH]; simpl; [lra|].
      assert (0 < f e) by (apply H'; now left).
      assert (0 <= sumR f l) by (apply IH; intros; apply H'; now right). lra. }
    assert (0 < f d) by (apply H; now left). lra.
  Qed.

  Variable dom : A -> list nat.

  (** Sum over the values of one variable, of a list of variables. *)
  Definition sumv (v : A) (f : asg -> R) : asg -> R := fun a => sumR (fun d => f (upd a v d)) (dom v).
  Fixpoint sums (vs : list A) (f : asg -> R) : asg -> R :=
    match vs with [] => f | v :: r => sumv v (sums r f) end.

  Lemma sumv_dep f v S : dep f S -> dep (sumv v f) (fun w => S w /\ w <> v).
  Proof.
    intros H a b Hab. unfold sumv. apply sumR_ext. intros d _. apply H. intros w Hw.
    destruct (eq_dec w v) as [->|N]; [now rewrite !upd_same|]. rewrite !upd_other by auto. auto.
  Qed.
  Lemma sums_dep vs : forall f S, dep f S -> dep (sums vs f) (fun w => S w /\ ~ In w vs).
  Proof.
    induction vs as [|v vs IH]; intros f S H; cbn [sums].
    - eapply dep_mono; eauto.
    - eapply dep_mono; [apply sumv_dep, IH, H|]. intros w [[H1 H2] H3]. split; auto. intros [E|E]; congruence || auto.
  Qed.
  Lemma sumv_ext f g v a : (forall d, In d (dom v) -> f (upd a v d) = g (upd a v d)) -> sumv v f a = sumv v g a.
  Proof. intros H. unfold sumv. apply sumR_ext. intros; apply H; auto. Qed.
  Lemma sums_eq vs : forall f g a, (forall b, f b = g b) -> sums vs f a = sums vs g a.
  Proof.
    induction vs as [|v vs IH]; intros f g a H; cbn [sums]; auto. apply sumv_ext. intros; now apply IH.
  Qed.
  (** Only the assignments that agree with [a] outside [vs] and take values in the domains inside matter. *)
  Lemma sums_eq_on vs : forall f g a,
    (forall b, (forall w, ~ In w vs -> b w = a w) -> (forall w, In w vs -> In (b w) (dom w)) -> f b = g b) ->
    sums vs f a = sums vs g a.
  Proof.
    induction vs as [|v vs IH]; intros f g a H; cbn [sums].
    - apply H; [auto|intros w []].
    - apply sumv_ext. intros d Hd. apply IH. intros b Hb1 Hb2.
      apply H.
      + intros w Hw. rewrite Hb1 by (intros E; apply Hw; now right). apply upd_other. intros ->. apply Hw; now left.
      + intros w [->|Hw]; auto. destruct (In_dec w vs) as [Hi|Hn]; auto. rewrite Hb1 by auto. now rewrite upd_same.
  Qed.

  Lemma sumv_swap v w f a : ext f -> sumv v (sumv w f) a = sumv w (sumv v f) a.
  Proof.
    intros Hf. destruct (eq_dec v w) as [->|N]; [easy|]. unfold sumv. rewrite sumR_swap.
    apply sumR_ext. intros e _. apply sumR_ext. intros d _. apply Hf. intros u _.
    destruct (eq_dec u v) as [->|N1].
    - rewrite (upd_other (upd a v d)) by auto. now rewrite !upd_same.
    - rewrite (upd_other (upd a w e)) by auto.
      destruct (eq_dec u w) as [->|N2]; [now rewrite !upd_same|]. now rewrite !upd_other.
  Qed.
  Lemma sums_ext vs f : ext f -> ext (sums vs f).
  Proof. intros H. eapply dep_mono; [apply sums_dep, H|]. simpl; auto. Qed.
  Lemma sums_perm vs ws f a : ext f -> Permutation vs ws -> sums vs f a = sums ws f a.
  Proof.
    intros Hf HP. revert a. induction HP as [|v l l' _ IH|v w l|l l' l'' _ IH1 _ IH2]; intros a; cbn [sums]; auto.
    - apply sumv_ext. intros; apply IH.
    - apply sumv_swap. now apply sums_ext.
    - now rewrite IH1, IH2.
  Qed.
  Lemma sums_app vs ws f a : sums (vs ++ ws) f a = sums vs (sums ws f) a.
  Proof. revert a. induction vs as [|v vs IH]; intros a; cbn [sums app]; auto. apply sumv_ext. intros; apply IH. Qed.
  Lemma sums_app_comm vs ws f a : ext f -> sums vs (sums ws f) a = sums ws (sums vs f) a.
  Proof. intros H. rewrite <- !sums_app. apply sums_perm; auto. apply Permutation_app_comm. Qed.

  Lemma sumv_mul v f g a : indep g v -> sumv v (fun b => g b * f b) a = g a * sumv v f a.
  Proof.
    intros H. unfold sumv. rewrite <- sumR_mul. apply sumR_ext. intros d _. now rewrite (indep_upd _ _ H).
  Qed.
  Lemma sums_mul vs : forall f g a S, dep g S -> (forall v, In v vs -> ~ S v) ->
    sums vs (fun b => g b * f b) a = g a * sums vs f a.
  Proof.
    induction vs as [|v vs IH]; intros f g a S H D; cbn [sums]; auto.
    rewrite <- sumv_mul by (eapply dep_indep; eauto; apply D; now left).
    apply sumv_ext. intros d _. eapply IH; eauto. intros w Hw. apply D. now right.
  Qed.
  Lemma sums_mul_r vs f g a S : dep g S -> (forall v, In v vs -> ~ S v) ->
    sums vs (fun b => f b * g b) a = sums vs f a * g a.
  Proof.
    intros H D. rewrite (sums_eq vs _ (fun b => g b * f b)) by (intros; ring).
    rewrite (sums_mul vs f a H D). ring.
  Qed.
  (** Sums of a product whose factors do not share summation variables. *)
  Lemma sums_split vs ws f g a S T : dep f S -> dep g T ->
    (forall v, In v vs -> ~ T v) -> (forall v, In v ws -> ~ S v) ->
    sums (vs ++ ws) (fun b => f b * g b) a = sums vs f a * sums ws g a.
  Proof.
    intros Hf Hg Hv Hw. rewrite sums_app.
    rewrite (sums_eq vs _ (fun b => f b * sums ws g b)).
    - eapply sums_mul_r; [apply sums_dep; eauto|]. intros v Hi [H _]. eapply Hv; eauto.
    - intros b. now apply sums_mul with S.
  Qed.
  Lemma sums_pos vs : forall f a, (forall v, dom v <> []) -> (forall b, 0 < f b) -> 0 < sums vs f a.
  Proof.
    induction vs as [|v vs IH]; intros f a Hd H; cbn [sums]; auto.
    unfold sumv. apply sumR_pos; auto.
  Qed.
  Lemma sumv_const v f a : indep f v -> sumv v f a = INR (List.length (dom v)) * f a.
  Proof.
    intros H. unfold sumv. rewrite (sumR_ext _ (fun _ => f a * 1)) by (intros; rewrite (indep_upd _ _ H); ring).
    rewrite sumR_mul.
    assert (E : sumR (fun _ => 1) (dom v) = INR (List.length (dom v))).
    { induction (dom v) as [|d l IH]; cbn [sumR List.length]; [easy|]. rewrite IH, S_INR. ring. }
    rewrite E. ring.
  Qed.

  (** Products of local factors. *)
  Variable cpt : A -> asg -> R.
  Fixpoint prodl (l : list A) (a : asg) : R :=
    match l with [] => 1 | v :: r => cpt v a * prodl r a end.

  Lemma prodl_app l m a : prodl (l ++ m) a = prodl l a * prodl m a.
  Proof. induction l as [|v l IH]; cbn [prodl app]; [ring|rewrite IH; ring]. Qed.
  Lemma prodl_perm l m a : Permutation l m -> prodl l a = prodl m a.
  Proof.
    induction 1 as [|v l l' _ IH|v w l|l l' l'' _ IH1 _ IH2]; cbn [prodl]; try easy.
    - now rewrite IH. - ring. - now rewrite IH1.
  Qed.
  Lemma prodl_dep l S : (forall v, In v l -> dep (cpt v) S) -> dep (prodl l) S.
  Proof.
    induction l as [|v l IH]; intros H; cbn [prodl]; [apply dep_const|].
    apply dep_mul; [apply H; now left|apply IH; intros; apply H; now right].
  Qed.
  Lemma prodl_pos l a : (forall v, In v l -> 0 < cpt v a) -> 0 < prodl l a.
  Proof.
    induction l as [|v l IH]; intros H; cbn [prodl]; [lra|].
    apply Rmult_lt_0_compat; [apply H; now left|apply IH; intros; apply H; now right].
  Qed.

  Lemma prodl_split (f : A -> bool) l a :
    prodl l a = prodl (filter f l) a * prodl (filter (fun v => negb (f v)) l) a.
  Proof.
    induction l as [|v l IH]; cbn [prodl filter]; [ring|]. rewrite IH. destruct (f v); cbn [negb prodl]; ring.
  Qed.
End Bn.

Lemma Permutation_NoDup_set {A} (l m : list A) :
  NoDup l -> NoDup m -> (forall x, In x l <-> In x m) -> Permutation l m.
Proof. apply NoDup_Permutation. Qed.

(** Permutations of lists that are built with set operations. *)
Section Parts.
  Context {A : Type} {EA : EqDec A}.
  Lemma diff_part (l m : list A) : NoDup l -> NoDup m -> incl m l -> Permutation l (m ++ diff l m).
  Proof.
    intros Hl Hm Hi. apply NoDup_Permutation; auto.
    - apply NoDup_app_intro; auto using diff_NoDup. intros x Hx. rewrite diff_In. tauto.
    - intros x. rewrite in_app_iff, diff_In. destruct (In_dec x m); split; intros; try tauto.
      destruct H as [H|[H _]]; auto.
  Qed.
End Parts.
