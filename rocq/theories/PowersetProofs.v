(** C18: powerset enumerates every subset exactly once, smallest first. *)
From Verif Require Import Base GraphModel CausalModel.
Set Implicit Arguments.

Section PS.
  Context {A : Type} {EA : EqDec A}.
  Implicit Types (s p q : list A).

  Lemma inter_ext s p q : (forall x, In x s -> (In x p <-> In x q)) -> inter s p = inter s q.
  Proof.
    intros H. unfold inter. induction s as [|x s IH]; simpl; auto.
    rewrite IH by (intros; apply H; now right).
    assert (E : mem x p = mem x q) by (apply eq_true_iff_eq; rewrite !mem_In; apply H; now left). now rewrite E.
  Qed.

  Lemma combinations_spec s : NoDup s -> forall i p,
    In p (combinations s i) <-> inter s p = p /\ List.length p = i.
  Proof.
    induction s as [|x r IH]; intros ND i p.
    - destruct i; simpl.
      + split; [intros [<-|[]]; auto|]. intros [H1 H2]. destruct p; [now left|discriminate].
      + split; [easy|]. intros [H1 H2]. subst p. discriminate.
    - inversion ND as [|? ? Hx Hr]; subst. destruct i as [|i]; cbn [combinations].
      + split.
        * intros [<-|[]]. split; auto. unfold inter. clear. induction (x :: r); simpl; auto.
        * intros [_ H]. destruct p; [now left|discriminate].
      + rewrite in_app_iff, in_map_iff. unfold inter at 1. cbn [filter]. fold (inter r p). split.
        * intros [(q & <- & Hq)|Hp].
          -- apply IH in Hq as [H1 H2]; auto. assert (E : mem x (x :: q) = true) by (apply mem_In; now left).
             rewrite E. split; [|simpl; lia]. f_equal. rewrite <- H1 at 2. apply inter_ext.
             intros y Hy. simpl. split; [intros [->|H]; [now destruct Hx|auto]|auto].
          -- apply IH in Hp as [H1 H2]; auto.
             assert (E : mem x p = false).
             { apply mem_nIn. intros H. rewrite <- H1 in H. apply inter_In in H as [H _]. auto. }
             rewrite E. auto.
        * intros [H1 H2]. destruct (mem_spec x p) as [Hm|Hm].
          -- left. destruct p as [|y q]; [destruct Hm|].
             fold (inter r (y :: q)) in H1. injection H1 as <- H1. exists q. split; auto. apply IH; auto.
             split; [|simpl in H2; lia]. rewrite <- H1 at 2. apply inter_ext.
             intros z Hz. simpl. split; [auto|]. intros [->|H]; [now destruct Hx|auto].
          -- right. apply IH; auto.
  Qed.

  Lemma combinations_NoDup s : NoDup s -> forall i, NoDup (combinations s i).
  Proof.
    induction s as [|x r IH]; intros ND i.
    - destruct i; simpl; repeat constructor; auto.
    - inversion ND as [|? ? Hx Hr]; subst. destruct i as [|i]; cbn [combinations]; [repeat constructor; auto|].
      apply NoDup_app_intro.
      + apply FinFun.Injective_map_NoDup; auto. intros a b H. now injection H.
      + auto.
      + intros p Hp Hq. apply in_map_iff in Hp as (q & <- & _).
        apply combinations_spec in Hq as [H _]; auto.
        assert (In x (inter r (x :: q))) by (rewrite H; now left). apply inter_In in H0 as [H0 _]. auto.
  Qed.

  Lemma powerset_In s p : NoDup s -> (In p (powerset s) <-> inter s p = p).
  Proof.
    intros ND. unfold powerset. rewrite in_flat_map. split.
    - intros (i & _ & H). apply combinations_spec in H; tauto.
    - intros H. exists (List.length p). split; [|now apply combinations_spec].
      apply in_seq. rewrite <- H. pose proof (filter_length_le (fun x => mem x p) s). unfold inter. lia.
  Qed.
  Lemma powerset_subset s p : NoDup s -> In p (powerset s) -> incl p s /\ NoDup p.
  Proof.
    intros ND H. apply powerset_In in H; auto. rewrite <- H. split.
    - intros x Hx. apply inter_In in Hx. tauto.
    - now apply inter_NoDup.
  Qed.
  Lemma powerset_complete s z : NoDup s -> incl z s -> exists p, In p (powerset s) /\ forall x, In x p <-> In x z.
  Proof.
    intros ND H. exists (inter s z). assert (E : forall x, In x (inter s z) <-> In x z).
    { intros x. rewrite inter_In. split; [tauto|]. intros; split; auto. }
    split; auto. apply powerset_In; auto. apply inter_ext. intros; apply E.
  Qed.
  Lemma powerset_unique s p q : NoDup s -> In p (powerset s) -> In q (powerset s) ->
    (forall x, In x p <-> In x q) -> p = q.
  Proof.
    intros ND Hp Hq H. apply powerset_In in Hp, Hq; auto. rewrite <- Hp, <- Hq. apply inter_ext. intros; apply H.
  Qed.

  Lemma flat_map_NoDup {B C} (f : B -> list C) (l : list B) : NoDup l -> (forall b, In b l -> NoDup (f b)) ->
    (forall a b x, In a l -> In b l -> In x (f a) -> In x (f b) -> a = b) -> NoDup (flat_map f l).
  Proof.
    induction l as [|b l IH]; intros ND H1 H2; simpl; [constructor|].
    inversion ND as [|? ? Hb Hl]; subst.
    assert (IH' : NoDup (flat_map f l)).
    { apply IH; auto. - intros; apply H1; now right. - intros; eapply H2; eauto; now right. }
    assert (D : forall x, In x (f b) -> ~ In x (flat_map f l)).
    { intros x Hx Hc. apply in_flat_map in Hc as (c & Hc & Hxc). apply Hb.
      rewrite (H2 b c x); auto; [now left|now right]. }
    clear - IH' D H1. assert (Hf : NoDup (f b)) by (apply H1; now left). revert Hf D. generalize (f b).
    induction l0 as [|x l0 IH]; simpl; intros Hf D; auto. inversion Hf; subst. constructor; auto.
    rewrite in_app_iff. intros [H|H]; [auto|]. eapply D; eauto.
  Qed.
  Lemma powerset_NoDup s : NoDup s -> NoDup (powerset s).
  Proof.
    intros ND. unfold powerset. apply flat_map_NoDup.
    - apply seq_NoDup.
    - intros; now apply combinations_NoDup.
    - intros i j p _ _ Hi Hj. apply combinations_spec in Hi, Hj; auto. destruct Hi, Hj. congruence.
  Qed.

  Lemma combinations_length s i : NoDup s -> forall p, In p (combinations s i) -> List.length p = i.
  Proof. intros ND p H. now apply combinations_spec in H. Qed.
  Lemma powerset_sorted s : NoDup s -> forall l1 p l2 q l3,
    powerset s = l1 ++ p :: l2 ++ q :: l3 -> List.length p <= List.length q.
  Proof.
    intros ND. unfold powerset. generalize (S (List.length s)) as n. generalize 0 as k.
    assert (G : forall n k l1 p l2 q l3,
      flat_map (combinations s) (seq k n) = l1 ++ p :: l2 ++ q :: l3 -> List.length p <= List.length q /\ k <= List.length p).
    { induction n as [|n IH]; intros k l1 p l2 q l3 H; cbn [seq flat_map] in H; [destruct l1; discriminate|].
      assert (HL : forall x, In x (flat_map (combinations s) (seq (S k) n)) -> S k <= List.length x).
      { intros x Hx. apply in_flat_map in Hx as (i & Hi & Hx). apply in_seq in Hi.
        apply combinations_length in Hx; auto. lia. }
      assert (HL0 : forall x, In x (combinations s k) -> List.length x = k) by (intros; now apply combinations_length with (s := s)).
      remember (combinations s k) as c eqn:Ec. clear Ec. revert c HL0 H. induction l1 as [|x l1 IH1]; intros c HL0 H.
      - destruct c as [|y c].
        + simpl in H. destruct (IH (S k) [] p l2 q l3) as [H1 H2]; auto. split; lia.
        + cbn [app] in H. injection H as -> H.
          assert (List.length p = k) by (apply HL0; now left). split; [|lia].
          assert (Hq : In q (c ++ flat_map (combinations s) (seq (S k) n))).
          { rewrite H. apply in_app_iff. right. now left. }
          apply in_app_iff in Hq as [Hq|Hq].
          * assert (List.length q = k) by (apply HL0; now right). lia.
          * apply HL in Hq. lia.
      - destruct c as [|y c].
        + simpl in H. destruct (IH (S k) (x :: l1) p l2 q l3) as [H1 H2]; auto. split; lia.
        + cbn [app] in H. injection H as -> H. apply (IH1 c); auto. intros; apply HL0; now right. }
    intros k n l1 p l2 q l3 H. now apply G in H.
  Qed.
End PS.

Lemma powerset_count {A} {EA : EqDec A} (s : list A) : List.length (powerset s) = 2 ^ List.length s.
Proof.
  assert (C0 : forall (s : list A) n, List.length s < n -> combinations s n = []).
  { induction s0 as [|x r IH]; intros [|n] H; simpl in *; try lia; auto. rewrite !IH by lia. reflexivity. }
  assert (Lc : forall (x : A) r i, List.length (combinations (x :: r) (S i)) =
                List.length (combinations r i) + List.length (combinations r (S i))).
  { intros. cbn [combinations]. now rewrite app_length, map_length. }
  set (sm := fun (s : list A) k n => List.length (flat_map (combinations s) (seq k n))).
  assert (S1 : forall (x : A) r n k, sm (x :: r) (S k) n = sm r k n + sm r (S k) n).
  { intros x r. induction n as [|n IH]; intros k; unfold sm in *; cbn [seq flat_map]; auto.
    rewrite !app_length, Lc, IH. lia. }
  assert (Snoc : forall (s : list A) n k, sm s k (S n) = sm s k n + List.length (combinations s (k + n))).
  { intros s0. induction n as [|n IH]; intros k; unfold sm in *.
    - rewrite (Nat.add_0_r k). cbn [seq flat_map]. rewrite app_length. cbn [List.length]. lia.
    - change (seq k (S (S n))) with (k :: seq (S k) (S n)). change (seq k (S n)) with (k :: seq (S k) n).
      cbn [flat_map]. rewrite !app_length, IH. replace (S k + n) with (k + S n) by lia. lia. }
  change (sm s 0 (S (List.length s)) = 2 ^ List.length s).
  induction s as [|x r IH]; [reflexivity|].
  assert (E0 : forall (s : list A) n, sm s 0 (S n) = 1 + sm s 1 n).
  { intros s0 n. unfold sm. change (seq 0 (S n)) with (0 :: seq 1 n). cbn [flat_map].
    rewrite app_length. destruct s0; reflexivity. }
  cbn [List.length]. rewrite E0, S1. rewrite IH.
  assert (E1 : 1 + sm r 1 (S (List.length r)) = 2 ^ List.length r).
  { rewrite <- E0, Snoc, IH. rewrite (C0 r (0 + S (List.length r))) by lia. simpl. lia. }
  simpl. lia.
Qed.
