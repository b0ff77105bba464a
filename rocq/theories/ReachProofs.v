(** Generic facts about reachability, finite acyclic relations and d-separation trails. *)
From Verif Require Import Base NxSpec.
Set Implicit Arguments.

Section Reach.
  Context {A : Type} {EA : EqDec A}.
  Variable E : A -> A -> Prop.
  Notation reach := (reach E).
  Notation reach1 := (reach1 E).

  Lemma reach_trans x y z : reach x y -> reach y z -> reach x z.
  Proof. induction 1; auto. intros H1. econstructor; eauto. Qed.
  Lemma reach_one x y : E x y -> reach x y.
  Proof. intros H. econstructor; eauto. constructor. Qed.
  Lemma reach_snoc x y z : reach x y -> E y z -> reach x z.
  Proof. intros H1 H2. eapply reach_trans; eauto using reach_one. Qed.
  Lemma reach_inv x y : reach x y -> x = y \/ reach1 x y.
  Proof. destruct 1; auto. right. exists y; auto. Qed.
  Lemma reach1_reach x y : reach1 x y -> reach x y.
  Proof. intros (z & H1 & H2). econstructor; eauto. Qed.
  Lemma reach_reach1 x y z : reach x y -> reach1 y z -> reach1 x z.
  Proof.
    intros H1 H2. destruct (reach_inv H1) as [->|(w & Hw & Hy)]; auto.
    exists w; split; auto. eapply reach_trans; eauto using reach1_reach.
  Qed.
  Lemma reach1_reach_r x y z : reach1 x y -> reach y z -> reach1 x z.
  Proof. intros (w & Hw & H1) H2. exists w; split; auto. eapply reach_trans; eauto. Qed.
  Lemma reach_ind_r (P : A -> Prop) x :
    P x -> (forall y z, reach x y -> P y -> E y z -> P z) -> forall y, reach x y -> P y.
  Proof.
    intros Hx Hs y H.
    assert (G : forall a b, reach a b -> reach x a -> P a -> P b).
    { intros a b Hab. induction Hab as [|a b c Hab Hbc IH]; auto.
      intros Ha Pa. apply IH; [eapply reach_snoc; eauto|eapply Hs; eauto]. }
    eapply G; eauto. constructor.
  Qed.
  Lemma reach1_last x y : reach1 x y -> exists z, reach x z /\ E z y.
  Proof.
    intros (w & Hw & H). revert x Hw. induction H as [w|w v y Hwv H IH]; intros x Hx.
    - exists x; split; [constructor|auto].
    - destruct (IH _ Hwv) as (z & Hz & Hzy). exists z; split; auto. econstructor; eauto.
  Qed.

  (** Walk lists. *)
  Lemma last_cons_nonempty (x d : A) l : l <> [] -> last (x :: l) d = last l d.
  Proof. destruct l; [congruence|reflexivity]. Qed.
  Lemma last_default (l : list A) d d' : l <> [] -> last l d = last l d'.
  Proof.
    induction l as [|a l IH]; [congruence|]. intros _.
    destruct l; [reflexivity|]. cbn. apply IH. congruence.
  Qed.
  Lemma last_snoc (l : list A) x d : last (l ++ [x]) d = x.
  Proof.
    induction l as [|a l IH]; [reflexivity|].
    cbn [app]. rewrite last_cons_nonempty; auto. destruct l; discriminate.
  Qed.
  Lemma last_app (l m : list A) d : m <> [] -> last (l ++ m) d = last m d.
  Proof.
    intros H. induction l as [|a l IH]; [reflexivity|].
    cbn [app]. rewrite last_cons_nonempty; auto. destruct l; [auto|discriminate].
  Qed.

  Lemma reach_dwalk x y : reach x y -> exists l, dwalk E (x :: l) /\ last (x :: l) x = y.
  Proof.
    induction 1 as [x|x y z Hxy Hyz (l & Hl & Hla)].
    - exists []; split; simpl; auto.
    - exists (y :: l); split.
      + simpl. split; auto.
      + rewrite last_cons_nonempty by discriminate. rewrite <- Hla. apply last_default; discriminate.
  Qed.
  Lemma dwalk_reach l x : dwalk E (x :: l) -> reach x (last (x :: l) x).
  Proof.
    revert x. induction l as [|y l IH]; intros x H.
    - constructor.
    - destruct H as [Hxy H]. rewrite last_cons_nonempty by discriminate.
      rewrite (last_default x y) by discriminate. econstructor; eauto.
  Qed.
  Lemma dwalk_app_inv l1 l2 : dwalk E (l1 ++ l2) -> dwalk E l1 /\ dwalk E l2.
  Proof.
    induction l1 as [|a l1 IH]; simpl; auto.
    destruct l1 as [|b l1]; simpl in *.
    - destruct l2; simpl; tauto.
    - intros [H1 H2]. destruct (IH H2). auto.
  Qed.

  Lemma not_NoDup_split (l : list A) : ~ NoDup l -> exists a l1 l2 l3, l = l1 ++ a :: l2 ++ a :: l3.
  Proof.
    induction l as [|x l IH]; intros H.
    - destruct H. constructor.
    - destruct (In_dec x l) as [Hi|Hn].
      + apply in_split in Hi as (l2 & l3 & ->). exists x, [], l2, l3. reflexivity.
      + destruct IH as (a & l1 & l2 & l3 & ->).
        * intros ND. apply H. constructor; auto.
        * exists a, (x :: l1), l2, l3. reflexivity.
  Qed.

  Lemma dwalk_NoDup (l : list A) : acyclic E -> dwalk E l -> NoDup l.
  Proof.
    intros AC. induction l as [|a l IH]; intros Hd; constructor.
    - intros Hi. apply in_split in Hi as (l1 & l2 & ->).
      replace (a :: l1 ++ a :: l2) with ((a :: l1 ++ [a]) ++ l2) in Hd by (simpl; rewrite <- app_assoc; reflexivity).
      apply dwalk_app_inv in Hd as [Hd _]. apply (AC a).
      destruct l1 as [|b l1]; simpl in Hd.
      + destruct Hd as [Hd _]. exists a. split; auto. constructor.
      + destruct Hd as [Hab Hd]. exists b; split; auto.
        apply (dwalk_reach (l1 ++ [a])) in Hd.
        change (b :: l1 ++ [a]) with ((b :: l1) ++ [a]) in Hd. now rewrite last_snoc in Hd.
    - apply IH. destruct l; [constructor|]. apply Hd.
  Qed.

  Lemma NoDup_dec (l : list A) : {NoDup l} + {~ NoDup l}.
  Proof.
    induction l as [|x l IH]; [left; constructor|].
    destruct (In_dec x l); [right; inversion 1; auto|].
    destruct IH; [left; constructor; auto|right; inversion 1; auto].
  Qed.

  (** A finite non-empty set in which everybody has a predecessor (successor) contains a cycle. *)
  Lemma finite_pred_cycle (l : list A) :
    l <> [] -> (forall v, In v l -> exists p, In p l /\ E p v) -> exists a, reach1 a a.
  Proof.
    intros Hne Hp.
    assert (C : forall n, exists c, List.length c = S n /\ incl c l /\ dwalk E c).
    { induction n as [|n (c & Hlen & Hi & Hd)].
      - destruct l as [|v l']; [congruence|]. exists [v]. repeat split; simpl; auto.
        intros a [->|[]]; now left.
      - destruct c as [|v c]; [discriminate|].
        destruct (Hp v) as (p & Hpl & Hpv); [apply Hi; now left|].
        exists (p :: v :: c). split; [simpl in *; lia|]. split.
        + intros a [->|Ha]; auto.
        + split; auto. }
    destruct (C (List.length l)) as (c & Hlen & Hi & Hd).
    destruct (NoDup_dec c) as [ND|ND].
    - apply NoDup_incl_length in Hi; auto. lia.
    - apply not_NoDup_split in ND as (a & l1 & l2 & l3 & ->). exists a.
      apply dwalk_app_inv in Hd as [_ Hd].
      replace (a :: l2 ++ a :: l3) with ((a :: l2 ++ [a]) ++ l3) in Hd
        by (simpl; rewrite <- app_assoc; reflexivity).
      apply dwalk_app_inv in Hd as [Hd _].
      destruct l2 as [|b l2]; simpl in Hd.
      + destruct Hd as [Hd _]. exists a. split; auto. constructor.
      + destruct Hd as [Hab Hd]. exists b; split; auto.
        apply (dwalk_reach (l2 ++ [a])) in Hd.
        change (b :: l2 ++ [a]) with ((b :: l2) ++ [a]) in Hd. now rewrite last_snoc in Hd.
  Qed.
End Reach.

Section Flip.
  Context {A : Type} {EA : EqDec A}.
  Variable E : A -> A -> Prop.
  Lemma reach_flip x y : reach (fun a b => E b a) x y <-> reach E y x.
  Proof.
    split; induction 1 as [|a b c H1 H2 IH]; try constructor;
      eapply reach_snoc; eauto.
  Qed.

  Lemma finite_succ_cycle (l : list A) :
    l <> [] -> (forall v, In v l -> exists p, In p l /\ E v p) -> exists a, reach1 E a a.
  Proof.
    intros Hne Hp. destruct (@finite_pred_cycle A EA (fun a b => E b a) l Hne Hp) as (a & b & Hab & Hr).
    exists a. apply reach_flip in Hr. eapply reach_reach1; eauto. exists a. split; auto. constructor.
  Qed.

  Lemma reach_mono (F : A -> A -> Prop) x y :
    (forall a b, E a b -> F a b) -> reach E x y -> reach F x y.
  Proof. intros H. induction 1; [constructor|econstructor; eauto]. Qed.
End Flip.

Section Trails.
  Context {A : Type} {EA : EqDec A}.
  Variable E : A -> A -> Prop.
  Variable X Y Z : A -> Prop.
  Hypothesis AC : acyclic E.
  Hypothesis Zdec : forall a, Z a \/ ~ Z a.
  Notation reach := (reach E).
  Notation uwalk := (uwalk E).
  Notation active := (active E Z).

  Definition anc (S : A -> Prop) (a : A) : Prop := exists d, S d /\ reach a d.
  Definition XYZ (a : A) : Prop := X a \/ Y a \/ Z a.

  (** The edges kept by the d-separation algorithm. *)
  Definition cutE (a b : A) : Prop := E a b /\ anc XYZ b /\ ~ Z a.

  Lemma E_asym a b : E a b -> ~ E b a.
  Proof. intros H1 H2. apply (AC (x:=a)). exists b; split; auto. now apply reach_one. Qed.
  Lemma E_irr a : ~ E a a.
  Proof. intros H. apply (AC (x:=a)). exists a; split; auto. constructor. Qed.

  Lemma uwalk_app_inv l1 l2 : uwalk (l1 ++ l2) -> uwalk l1 /\ uwalk l2.
  Proof.
    induction l1 as [|a l1 IH]; simpl; auto.
    destruct l1 as [|b l1]; simpl in *.
    - destruct l2; simpl; tauto.
    - intros [H1 H2]. destruct (IH H2). auto.
  Qed.
  Lemma active_tl a l : active (a :: l) -> active l.
  Proof. destruct l as [|b [|c l]]; simpl; tauto. Qed.
  Lemma active_app_inv l1 l2 : active (l1 ++ l2) -> active l1 /\ active l2.
  Proof.
    induction l1 as [|a l1 IH]; intros H; [split; simpl; auto|].
    assert (H' := active_tl _ _ H). destruct (IH H') as [H1 H2]. split; auto.
    destruct l1 as [|b [|c l1]]; simpl; auto. split; auto. simpl in H. tauto.
  Qed.

  (** Following a trail forwards along its arrows one meets a collider, or arrives at the end. *)
  Lemma descend l m c :
    uwalk (m :: c :: l) -> active (m :: c :: l) -> E m c ->
    anc Z m \/ reach1 E m (last (m :: c :: l) m).
  Proof.
    revert m c. induction l as [|b l IH]; intros m c Hw Ha Hmc.
    - right. exists c; split; auto. constructor.
    - destruct Hw as [_ Hw]. destruct Ha as [Ht Ha].
      destruct Ht as [[[_ Hbc] (d & Hd & Hr)]|[Hn Hz]].
      + left. exists d; split; auto. econstructor; eauto.
      + assert (Hcb : E c b). { destruct Hw as [[?|?] _]; auto. exfalso; apply Hn; split; auto. }
        destruct (IH c b Hw Ha Hcb) as [(d & Hd & Hr)|Hr].
        * left; exists d; split; auto. econstructor; eauto.
        * right. rewrite last_cons_nonempty by discriminate.
          rewrite (last_default m c) by discriminate.
          apply reach1_reach in Hr. exists c; auto.
  Qed.

  (** Loop cutting keeps a walk active. *)
  Lemma cut_loop l1 m l2 l3 :
    uwalk (l1 ++ m :: l2 ++ m :: l3) -> active (l1 ++ m :: l2 ++ m :: l3) ->
    uwalk (l1 ++ m :: l3) /\ active (l1 ++ m :: l3).
  Proof.
    intros Hw Ha.
    assert (Hw3 : uwalk (m :: l3)).
    { apply uwalk_app_inv in Hw as [_ Hw].
      change (m :: l2 ++ m :: l3) with ((m :: l2) ++ m :: l3) in Hw.
      now apply uwalk_app_inv in Hw. }
    assert (Ha3 : active (m :: l3)).
    { apply active_app_inv in Ha as [_ Ha].
      change (m :: l2 ++ m :: l3) with ((m :: l2) ++ m :: l3) in Ha.
      now apply active_app_inv in Ha. }
    revert Hw Ha. induction l1 as [|a l1 IH]; intros Hw Ha; [split; auto|].
    destruct (IH (proj2 (uwalk_app_inv [a] _ Hw)) (active_tl _ _ Ha)) as [Hw' Ha'].
    split.
    - destruct l1 as [|b l1]; simpl in *; tauto.
    - destruct l1 as [|b [|c l1]].
      + (* the new triple is (a, m, hd l3) *)
        destruct l3 as [|b l3]; [simpl; auto|].
        cbn [app] in *. split; auto.
        destruct (Zdec m) as [Hz|Hz].
        * (* m in Z : it must be a collider *)
          left. split; [|exists m; split; [auto|constructor]].
          assert (Ham : E a m).
          { destruct l2 as [|c l2]; simpl in Hw, Ha.
            - exfalso. destruct Hw as (_ & [H|H] & _); eapply E_irr; eauto.
            - destruct Ha as [[[[H _] _]|[_ H]] _]; auto. contradiction. }
          assert (Hbm : E b m).
          { destruct (exists_last (l:=m::l2)) as (l2' & c & Hc); [discriminate|].
            assert (T : triple_open E Z c m b).
            { assert (Q : active (l2' ++ c :: m :: b :: l3)).
              { replace (l2' ++ c :: m :: b :: l3) with ((m :: l2) ++ m :: b :: l3).
                - exact (active_tl _ _ Ha).
                - rewrite Hc, <- app_assoc. reflexivity. }
              apply active_app_inv in Q as [_ [Q _]]. exact Q. }
            destruct T as [[[_ H] _]|[_ H]]; auto. contradiction. }
          split; auto.
        * destruct Hw as [Ham0 Hw].
          assert (Hmb : E m b \/ E b m) by (destruct Hw3; auto).
          destruct Ham0 as [Ham|Hma].
          2: { right. split; auto. intros [H _]. eapply E_asym; eauto. }
          destruct Hmb as [Hmb|Hbm].
          { right. split; auto. intros [_ H]. eapply E_asym; eauto. }
          left. split; [split; auto|].
          destruct l2 as [|c l2].
          { exfalso. destruct Hw as [[H|H] _]; eapply E_irr; eauto. }
          cbn [app] in *. destruct Ha as [[[_ HZ]|[Hn _]] Ha]; auto.
          assert (Hmc : E m c). { destruct Hw as [[?|?] _]; auto. exfalso; apply Hn; split; auto. }
          assert (Q : uwalk ((m :: c :: l2 ++ [m]) ++ b :: l3) /\ active ((m :: c :: l2 ++ [m]) ++ b :: l3)).
          { replace ((m :: c :: l2 ++ [m]) ++ b :: l3) with (m :: c :: l2 ++ m :: b :: l3)
              by (cbn; rewrite <- app_assoc; reflexivity). split; auto. }
          destruct Q as [Q1 Q2]. apply uwalk_app_inv in Q1 as [Q1 _]. apply active_app_inv in Q2 as [Q2 _].
          destruct (descend Q1 Q2 Hmc) as [HH|HH]; auto.
          exfalso. change (m :: c :: l2 ++ [m]) with ((m :: c :: l2) ++ [m]) in HH.
          rewrite last_snoc in HH. eapply AC; eauto.
      + cbn [app] in *. split; auto. destruct Ha; auto.
      + cbn [app] in *. split; auto. destruct Ha; auto.
  Qed.

  Lemma active_walk_trail x l :
    uwalk (x :: l) -> active (x :: l) ->
    exists l', trail E (x :: l') x (last (x :: l) x) /\ active (x :: l').
  Proof.
    remember (List.length l) as n eqn:Hn. revert l Hn.
    induction n as [n IH] using lt_wf_ind. intros l -> Hw Ha.
    destruct (NoDup_dec (x :: l)) as [ND|ND].
    - exists l. split; auto. split; [auto|]. split; [auto|]. exists l; auto.
    - apply not_NoDup_split in ND as (m & l1 & l2 & l3 & Heq).
      rewrite Heq in Hw, Ha. destruct (cut_loop _ _ _ _ Hw Ha) as [Hw' Ha'].
      assert (L : last (l1 ++ m :: l3) x = last (x :: l) x).
      { rewrite Heq. rewrite !last_app by discriminate.
        change (m :: l2 ++ m :: l3) with ((m :: l2) ++ m :: l3).
        now rewrite last_app by discriminate. }
      assert (Hlen : List.length (l1 ++ m :: l3) < S (List.length l)).
      { change (S (List.length l)) with (List.length (x :: l)). rewrite Heq.
        rewrite !app_length. simpl. rewrite !app_length. simpl. lia. }
      assert (Hhd : exists l0, l1 ++ m :: l3 = x :: l0).
      { destruct l1 as [|a l1]; injection Heq; intros; subst; eexists; reflexivity. }
      destruct Hhd as (l0 & Hl0). rewrite Hl0 in *. simpl in Hlen.
      destruct (IH (List.length l0) ltac:(lia) l0 eq_refl Hw' Ha') as (l' & H1 & H2).
      exists l'. split; auto. now rewrite <- L.
  Qed.

  Definition tail_ok (l : list A) : Prop :=
    match l with a :: b :: _ => E a b -> ~ Z a | _ => True end.

  Lemma dwalk_active l : dwalk E l -> (forall a, In a l -> ~ Z a) -> active l.
  Proof.
    induction l as [|a l IH]; intros Hd HZ; simpl; auto.
    destruct l as [|m [|b l]]; auto. destruct Hd as [Ham Hd]. split.
    - right. split; [|apply HZ; simpl; auto]. intros [_ H]. destruct Hd as [Hmb _]. eapply E_asym; eauto.
    - apply IH; auto. intros; apply HZ; now right.
  Qed.
  Lemma dwalk_uwalk l : dwalk E l -> uwalk l.
  Proof.
    induction l as [|a l IH]; [simpl; auto|]. destruct l as [|b l]; [simpl; auto|].
    intros [H1 H2]. split; auto.
  Qed.

  Lemma dwalk_reach_all l x a : dwalk E (x :: l) -> In a (x :: l) -> reach x a.
  Proof.
    revert x. induction l as [|y l IH]; intros x Hd [->|Hi]; try constructor.
    - destruct Hi.
    - destruct Hd as [Hxy Hd]. econstructor; eauto.
  Qed.

  (** Prepending the reverse of a directed walk to a walk. *)
  Lemma rev_dwalk_glue p h x w :
    dwalk E (h :: p) -> last (h :: p) h = x -> (forall a, In a (h :: p) -> ~ Z a) ->
    uwalk (h :: w) -> active (h :: w) ->
    exists w', uwalk (x :: w') /\ active (x :: w') /\ last (x :: w') x = last (h :: w) h.
  Proof.
    revert h w. induction p as [|c p IH]; intros h w Hd Hl HZ Hw Ha.
    - simpl in Hl. subst. exists w. auto.
    - destruct Hd as [Hhc Hd].
      assert (Hl' : last (c :: p) c = x).
      { rewrite <- Hl. rewrite (last_cons_nonempty h h) by discriminate. apply last_default; discriminate. }
      assert (G : uwalk (c :: h :: w) /\ active (c :: h :: w)).
      { split; [split; auto|]. destruct w as [|b w]; [simpl; auto|]. split; auto.
        right. split; [|apply HZ; now left]. intros [H _]. eapply E_asym; eauto. }
      destruct G as [G1 G2].
      destruct (IH c (h :: w) Hd Hl' ltac:(intros; apply HZ; now right) G1 G2) as (w' & W1 & W2 & W3).
      exists w'. repeat split; auto. rewrite W3.
      rewrite last_cons_nonempty by discriminate. apply last_default; discriminate.
  Qed.

  Definition goal : Prop :=
    exists x l, X x /\ uwalk (x :: l) /\ active (x :: l) /\ Y (last (x :: l) x).

  Lemma cut_walk_active l h :
    NxSpec.uwalk cutE (h :: l) -> Y (last (h :: l) h) ->
    goal \/ exists l', uwalk (h :: l') /\ active (h :: l') /\ Y (last (h :: l') h) /\ tail_ok (h :: l').
  Proof.
    revert h. induction l as [|h' l IH]; intros h Hw HY.
    - right. exists []. simpl. auto.
    - destruct Hw as [He Hw].
      assert (HY' : Y (last (h' :: l) h')).
      { rewrite last_cons_nonempty in HY by discriminate. now rewrite (last_default h h') in HY by discriminate. }
      destruct (IH h' Hw HY') as [G|(w & W1 & W2 & W3 & W4)]; [now left|].
      assert (LL : forall w, last (h :: h' :: w) h = last (h' :: w) h').
      { intros w0. rewrite last_cons_nonempty by discriminate. apply last_default; discriminate. }
      destruct He as [(Hhh' & Han & Hz)|(Hhh' & Han & Hz)].
      + (* h -> h' *)
        destruct w as [|b w].
        { right. exists [h']. rewrite LL. simpl in *. auto. }
        destruct (W1) as [[Hout|Hin] W1'].
        { right. exists (h' :: b :: w). rewrite LL. split; [split; auto|]. split; [split; auto|split; auto; simpl; auto].
          right. split; [|apply W4; auto]. intros [_ H]. eapply E_asym; eauto. }
        (* collider at h' *)
        destruct Han as (d & Hd & Hr).
        assert (CZ : anc Z h' -> goal \/ (exists l', uwalk (h :: l') /\ active (h :: l') /\
                     Y (last (h :: l') h) /\ tail_ok (h :: l'))).
        { intros (d' & Hd' & Hr'). right. exists (h' :: b :: w). rewrite LL. split; [split; auto|]. split; [split; auto|split; auto; simpl; auto].
          left. split; [split; auto|]. exists d'; auto. }
        destruct (reach_dwalk Hr) as (p & Hp & Hlast).
        (* either a node of p is in Z, or none is *)
        assert (PZ : (exists a, In a (h' :: p) /\ Z a) \/ (forall a, In a (h' :: p) -> ~ Z a)).
        { clear - Zdec. induction (h' :: p) as [|q qs IHq]; [right; intros ? []|].
          destruct (Zdec q) as [Hq|Hq]; [left; exists q; split; [now left|auto]|].
          destruct IHq as [(a & Ha1 & Ha2)|Ha]; [left; exists a; split; [now right|auto]|].
          right. intros a [->|Hi]; auto. }
        destruct PZ as [(a & Hin' & Hza)|HnZ].
        { apply CZ. exists a; split; auto. eapply dwalk_reach_all; eauto. }
        destruct Hd as [HdX|[HdY|HdZ]].
        * (* ancestor of X: reroute *)
          left. destruct (@rev_dwalk_glue p h' d (b :: w) Hp Hlast HnZ W1 W2) as (w' & V1 & V2 & V3).
          exists d, w'. split; auto. split; auto. split; auto. rewrite V3. auto.
        * (* ancestor of Y: shortcut *)
          right. exists (h' :: p). split; [|split; [|split]].
          -- split; auto. now apply dwalk_uwalk.
          -- apply (@dwalk_active (h :: h' :: p)).
             ++ split; auto.
             ++ intros a [->|Ha]; auto.
          -- rewrite LL. now rewrite Hlast.
          -- simpl. auto.
        * apply CZ. exists d; split; auto.
      + (* h <- h' *)
        right. exists (h' :: w). rewrite LL. split; [split; auto|]. split; [|split; auto].
        * destruct w as [|b w]; [simpl; auto|]. split; auto.
          right. split; auto. intros [H _]. eapply E_asym; eauto.
        * simpl. intros H. exfalso. eapply E_asym; eauto.
  Qed.

  Lemma conn_uwalk (R : A -> A -> Prop) x y :
    conn R x y <-> exists l, NxSpec.uwalk R (x :: l) /\ last (x :: l) x = y.
  Proof.
    split.
    - induction 1 as [x|x z y Hxz Hzy (l & Hl & Hla)].
      + exists []; simpl; auto.
      + exists (z :: l). split; [split; auto|].
        rewrite last_cons_nonempty by discriminate. rewrite <- Hla. apply last_default; discriminate.
    - intros (l & Hl & Hla). revert x Hl Hla. induction l as [|z l IH]; intros x Hl Hla.
      + simpl in Hla; subst. constructor.
      + destruct Hl as [He Hl]. econstructor; eauto. apply IH; auto.
        rewrite <- Hla. rewrite (@last_cons_nonempty _ x x (z :: l)) by discriminate. apply last_default; discriminate.
  Qed.

  (** Soundness direction of the algorithm: connection in the cut graph yields an active trail. *)
  Lemma conn_cut_active x y :
    X x -> Y y -> conn cutE x y -> exists l x' y', X x' /\ Y y' /\ trail E l x' y' /\ active l.
  Proof.
    intros Hx Hy Hc. apply conn_uwalk in Hc as (l & Hl & Hla).
    assert (HG : goal).
    { destruct (cut_walk_active _ _ Hl) as [G|(w & W1 & W2 & W3 & _)]; auto.
      - now rewrite Hla.
      - exists x, w. auto. }
    destruct HG as (x' & w & H1 & H2 & H3 & H4).
    destruct (active_walk_trail _ _ H2 H3) as (l' & L1 & L2).
    exists (x' :: l'), x', (last (x' :: w) x'). auto.
  Qed.

  (** Completeness direction: an active walk from X to Y survives in the cut graph. *)
  Lemma active_walk_conn l a :
    uwalk (a :: l) -> active (a :: l) -> anc XYZ a -> Y (last (a :: l) a) -> ~ Z (last (a :: l) a) ->
    (l <> [] -> tail_ok (a :: l)) -> conn cutE a (last (a :: l) a).
  Proof.
    revert a. induction l as [|m l IH]; intros a Hw Ha Han HY HnZ Ht.
    - constructor.
    - assert (LL : last (a :: m :: l) a = last (m :: l) m).
      { rewrite last_cons_nonempty by discriminate. apply last_default; discriminate. }
      rewrite LL in *. destruct Hw as [He Hw].
      assert (Ha' := active_tl _ _ Ha). specialize (Ht ltac:(discriminate)). simpl in Ht.
      destruct He as [Ham|Hma].
      + assert (Hm : anc XYZ m).
        { destruct l as [|b l].
          - exists m. split; [right; left; exact HY|constructor].
          - destruct (proj1 Hw) as [Hmb|Hbm].
            + destruct (descend Hw Ha' Hmb) as [(d & Hd & Hr)|Hr].
              * exists d; split; auto. right; right; auto.
              * exists (last (m :: b :: l) m). split; [right; left; auto|]. now apply reach1_reach.
            + destruct Ha as [[[_ (d & Hd & Hr)]|[Hn _]] _].
              * exists d; split; auto. right; right; auto.
              * exfalso. apply Hn. split; auto. }
        econstructor; [left; split; [eauto|split; auto]|].
        apply IH; auto. intros Hl. destruct l as [|b l]; [congruence|]. simpl. intros Hmb.
        destruct Ha as [[[[_ H] _]|[_ H]] _]; auto. exfalso. eapply E_asym; eauto.
      + assert (Hm : ~ Z m).
        { destruct l as [|b l]; [exact HnZ|].
          destruct Ha as [[[[H _] _]|[_ H]] _]; auto. exfalso; eapply E_asym; eauto. }
        assert (Hanm : anc XYZ m).
        { destruct Han as (d & Hd & Hr). exists d; split; auto. econstructor; eauto. }
        econstructor; [right; split; [eauto|split; auto]|].
        apply IH; auto. intros _. destruct l; simpl; auto.
  Qed.

  (** The cut graph connects X and Y iff they are d-connected. *)
  Theorem cut_dsep :
    (forall a, X a -> ~ Z a) -> (forall a, Y a -> ~ Z a) ->
    (dsep E X Y Z <-> forall x y, X x -> Y y -> ~ conn cutE x y).
  Proof.
    intros HX HYZ. split.
    - intros D x y Hx Hy Hc.
      destruct (conn_cut_active Hx Hy Hc) as (l & x' & y' & H1 & H2 & H3 & H4).
      eapply D; eauto.
    - intros D l x y Hx Hy (ND & Hw & l' & -> & Hla) Ha.
      apply (D x y Hx Hy). rewrite <- Hla. apply active_walk_conn; auto.
      + exists x; split; [now left|constructor].
      + now rewrite Hla.
      + rewrite Hla; auto.
      + intros _. destruct l'; simpl; auto.
  Qed.
End Trails.
