From Coq Require Import ZArith Reals Lra String Sorting.Sorted.
From Verif Require Import Base EstUtilsModel MetaModel MetaSpec MetaProofs CforestProofs PermModel PermSpec.
Set Implicit Arguments.
Local Notation length := List.length.
Local Open Scope nat_scope.

Lemma labels_eqb_eq a b : labels_eqb a b = true <-> a = b.
Proof.
  revert b. induction a as [|x a IH]; intros [|y b]; cbn; try (split; congruence).
  rewrite andb_true_iff, label_eqb_eq, IH. split; [intros [-> ->]; auto|intros [= -> ->]; auto].
Qed.
Lemma targ_eqb_eq a b : targ_eqb a b = true -> a = b.
Proof. destruct a, b; cbn; try discriminate; auto; intros H; f_equal; [now apply label_eqb_eq|now apply labels_eqb_eq]. Qed.
Lemma targ_eqb_refl a : hashable a = true -> targ_eqb a a = true.
Proof. destruct a; cbn; try discriminate; auto; intros _; [now apply label_eqb_eq|now apply labels_eqb_eq]. Qed.

Lemma glt_irrefl g : ~ glt g g.
Proof. intros H. remember g as h eqn:E in H at 2. revert E. induction H as [x y g h H L|x g h H IH]; intros [=]; subst; [now apply llt_irrefl in H|auto]. Qed.
Lemma glt_trans a b c : glt a b -> glt b c -> glt a c.
Proof.
  intros H. revert c. induction H as [x y g h H L|x g h H IH]; intros c K; inversion K; subst.
  - apply glt_here; [eapply llt_trans; eauto|congruence].
  - apply glt_here; [auto|]. rewrite L. clear - H3. induction H3; cbn; auto.
  - apply glt_here; [auto|]. rewrite <- H4. clear - H. induction H; cbn; auto.
  - apply glt_next. auto.
Qed.
Lemma glt_total a b : length a = length b -> a = b \/ glt a b \/ glt b a.
Proof.
  revert b. induction a as [|x a IH]; intros [|y b] L; try discriminate; auto. cbn in L. injection L as L.
  destruct (label_ltb x y) eqn:E1; [right; left; now apply glt_here|].
  destruct (label_eqb x y) eqn:E2; [|right; right; apply glt_here; [now apply llt_total|auto]].
  apply label_eqb_eq in E2. subst y. destruct (IH b L) as [->|[H|H]]; auto; right; [left|right]; now apply glt_next.
Qed.
Lemma glt_length a b : glt a b -> length a = length b.
Proof. intros H. induction H; cbn; auto. Qed.

(** *** the product of the values *)
Lemma product_In {A} (ls : list (list A)) g : In g (product ls) <-> Forall2 (fun l x => In x l) ls g.
Proof.
  revert g. induction ls as [|l ls IH]; intros g; cbn [product].
  - split; [intros [<-|[]]; constructor|intros H; inversion H; now left].
  - rewrite in_flat_map. split.
    + intros (x & Hx & Hg). apply in_map_iff in Hg. destruct Hg as (g' & <- & Hg'). constructor; [auto|]. now apply IH.
    + intros H. inversion H as [|? x ? g' Hx Hg']; subst. exists x. split; [auto|]. apply in_map. now apply IH.
Qed.
Lemma product_len {A} (ls : list (list A)) g : In g (product ls) -> length g = length ls.
Proof. intros H. apply product_In in H. induction H; cbn; auto. Qed.

Lemma ss_app {A} (R : A -> A -> Prop) l1 l2 : StronglySorted R l1 -> StronglySorted R l2 -> (forall a b, In a l1 -> In b l2 -> R a b) -> StronglySorted R (l1 ++ l2).
Proof.
  intros H1 H2 H. induction H1 as [|a l1 H1 IH F]; cbn [app]; [auto|]. constructor.
  - apply IH. intros x y Hx Hy. apply H; [now right|auto].
  - apply Forall_app. split; [auto|]. apply Forall_forall. intros y Hy. apply H; [now left|auto].
Qed.
Lemma product_sorted ls : Forall (StronglySorted llt) ls -> StronglySorted glt (product ls).
Proof.
  induction ls as [|l ls IH]; intros H; cbn [product]; [constructor; constructor|]. inversion H as [|? ? Hl Hls]; subst. specialize (IH Hls). clear H.
  induction Hl as [|x l Hl IHl F]; cbn [flat_map]; [constructor|]. apply ss_app; [|auto|].
  - clear - IH. induction IH as [|g gs H1 H2 H3]; cbn [map]; constructor; auto.
    apply Forall_forall. intros h Hh. apply in_map_iff in Hh. destruct Hh as (h' & <- & Hh'). apply glt_next. rewrite Forall_forall in H3. auto.
  - intros a b Ha Hb. apply in_map_iff in Ha. destruct Ha as (g & <- & Hg). apply in_flat_map in Hb. destruct Hb as (y & Hy & Hb).
    apply in_map_iff in Hb. destruct Hb as (h & <- & Hh). apply glt_here; [rewrite Forall_forall in F; auto|].
    apply product_len in Hg. apply product_len in Hh. congruence.
Qed.
Lemma ss_nth {A} (R : A -> A -> Prop) l d i j : StronglySorted R l -> i < j < length l -> R (nth i l d) (nth j l d).
Proof.
  intros H. revert i j. induction H as [|a l H IH F]; intros i j [L1 L2]; [cbn in L2; lia|]. destruct j as [|j]; [lia|]. cbn [length] in L2.
  destruct i as [|i].
  - cbn [nth]. rewrite Forall_forall in F. apply F. apply nth_In. lia.
  - cbn [nth]. apply IH. lia.
Qed.

Lemma combos_groups treats : treats <> [] -> combos treats = map group_arg (product treats).
Proof.
  intros H. destruct treats as [|l [|l' r]]; [contradiction| |].
  - cbn [combos product]. induction l as [|x l IH]; [reflexivity|]. cbn [map flat_map app]. now rewrite IH.
  - unfold combos. apply map_ext_in. intros g Hg. apply product_len in Hg. destruct g as [|x [|y g]]; try discriminate. reflexivity.
Qed.
Lemma group_arg_inj g h : length g = length h -> group_arg g = group_arg h -> g = h.
Proof. destruct g as [|x [|y g]], h as [|x' [|y' h]]; cbn; intros L E; try discriminate; congruence. Qed.
Lemma group_arg_hashable g : hashable (group_arg g) = true.
Proof. destruct g as [|x [|y g]]; reflexivity. Qed.

(** *** the pairs *)
Lemma permute_In treats tc : In tc (permute treats) <-> exists i j, j < i < length (combos treats) /\ tc = (nth i (combos treats) TNone, nth j (combos treats) TNone).
Proof.
  unfold permute. rewrite in_flat_map. split.
  - intros (i & Hi & H). apply in_seq in Hi. apply in_map_iff in H. destruct H as (j & <- & Hj). apply in_seq in Hj. exists i, j. split; [lia|auto].
  - intros (i & j & L & ->). exists i. split; [apply in_seq; lia|]. apply in_map_iff. exists j. split; [auto|]. apply in_seq. lia.
Qed.
Lemma permute_groups treats t c : treats <> [] -> Forall (StronglySorted llt) treats -> length t = length treats -> length c = length treats ->
  (In (group_arg t, group_arg c) (permute treats) <-> In t (product treats) /\ In c (product treats) /\ glt c t).
Proof.
  intros HN HS Lt Lc. rewrite permute_In, combos_groups, map_length by auto. pose proof (product_sorted HS) as SS.
  assert (NG : forall i, i < length (product treats) -> nth i (map group_arg (product treats)) TNone = group_arg (nth i (product treats) [])).
  { intros i Hi. rewrite nth_indep with (d' := group_arg []) by (rewrite map_length; auto). apply map_nth. }
  split.
  - intros (i & j & L & E). rewrite !NG in E by lia. injection E as E1 E2.
    assert (H1 : In (nth i (product treats) []) (product treats)) by (apply nth_In; lia). assert (H2 : In (nth j (product treats) []) (product treats)) by (apply nth_In; lia).
    apply group_arg_inj in E1; [|apply product_len in H1; congruence]. apply group_arg_inj in E2; [|apply product_len in H2; congruence]. subst t c.
    split; [auto|]. split; [auto|]. now apply ss_nth.
  - intros (Ht & Hc & G). destruct (In_nth _ _ [] Ht) as (i & Li & Ei). destruct (In_nth _ _ [] Hc) as (j & Lj & Ej). exists i, j.
    rewrite !NG by auto. rewrite Ei, Ej. split; [|auto]. split; [|auto].
    destruct (Nat.lt_trichotomy i j) as [Q|[Q|Q]]; [| |auto].
    + exfalso. assert (X : glt (nth i (product treats) []) (nth j (product treats) [])) by (apply ss_nth; auto). rewrite Ei, Ej in X. apply (@glt_irrefl t). eapply glt_trans; eauto.
    + exfalso. subst j. rewrite Ei in Ej. subst c. now apply glt_irrefl in G.
Qed.

Section P.
Variables (Frame K : Type).
Variable fr_len : Frame -> nat.
Variable fr_col : Frame -> string -> res (list label).
Variable B : blearner Frame K.
Variable disc_out : bool.
Notation St := (B_St B).

Lemma key_eqb_eq a b : key_eqb a b = true -> a = b.
Proof. destruct a as [a1 a2], b as [b1 b2]. unfold key_eqb. cbn. rewrite andb_true_iff. intros [H1 H2]. apply targ_eqb_eq in H1. apply targ_eqb_eq in H2. congruence. Qed.
Lemma key_eqb_refl a : hashable (fst a) = true -> hashable (snd a) = true -> key_eqb a a = true.
Proof. intros H1 H2. unfold key_eqb. now rewrite !targ_eqb_refl by auto. Qed.

(** the learners made for a list of pairs *)
Lemma find_made b data kw o tm pairs ls k : mapX (copy_and_fit B b data kw o tm) pairs = Ok ls -> hashable (fst k) = true -> hashable (snd k) = true ->
  match find_learner B ls k with
  | Some s => In k pairs /\ b_fit B data kw o tm (fst k) (snd k) b = (s, Ok tt)
  | None => ~ In k pairs
  end.
Proof.
  intros H H1 H2. apply mapX_inv in H. induction H as [|tc [k' s] pairs ls E F IH]; cbn [find_learner]; [auto|].
  unfold copy_and_fit in E. destruct (b_fit B data kw o tm (fst tc) (snd tc) b) as [s' [[]|]] eqn:Eb; [|discriminate]. injection E as <- <-.
  destruct (key_eqb k tc) eqn:Ek.
  - apply key_eqb_eq in Ek. subst tc. split; [now left|auto].
  - destruct (find_learner B ls k) as [s1|].
    + destruct IH as [I1 I2]. split; [now right|auto].
    + intros [->|I]; [rewrite key_eqb_refl in Ek by auto; discriminate|auto].
Qed.
Lemma find_put ls k s k2 : find_learner B (put_learner B ls k s) k2 = if key_eqb k2 k then match find_learner B ls k2 with Some _ => Some s | None => None end else find_learner B ls k2.
Proof.
  induction ls as [|[k' s'] ls IH]; cbn [put_learner find_learner]; [now destruct (key_eqb k2 k)|].
  destruct (key_eqb k k') eqn:E1; cbn [find_learner].
  - apply key_eqb_eq in E1. subst k'. destruct (key_eqb k2 k) eqn:E2; auto.
  - destruct (key_eqb k2 k') eqn:E2.
    + destruct (key_eqb k2 k) eqn:E3; [|auto]. exfalso. apply key_eqb_eq in E3. subst k2. congruence.
    + exact IH.
Qed.
End P.
