(** What the invariant of BestFirstProofs.v says of the finished tree: decision paths, samples, depths. *)
From Coq Require Import ZArith Reals Lra.
From Verif Require Import Base TreeCritModel TreeCritProps SplitterModel SplitterSpec TreeSpec SplitterProofs BuilderProofs TreeShape
  BestFirstModel BestFirstProofs.
Set Implicit Arguments.
Local Notation length := List.length.
Open Scope nat_scope.

Lemma filter_filter' {A} (f g : A -> bool) l : filter f (filter g l) = filter (fun x => (g x && f x)%bool) l.
Proof. induction l as [|x l IH]; cbn; [auto|]. destruct (g x); cbn; [destruct (f x); now rewrite IH|auto]. Qed.

Section BFS.
Context {V : Type}.
Variable sp : cspec V.
Variable X : nat -> nat -> R.
Variables (max_features msl : nat) (mwl : R) (mss max_depth : nat) (mid : R).
Variable random : bool.
Variable nf : nat.
Variable s0 : list nat.
Variable M : nat.
Variables (b : @bst V) (S : nat -> list nat) (D : nat -> nat) (budget : nat).
Notation internal := (internal sp X max_features msl mwl mss max_depth mid random nf).
Notation closed := (closed sp X max_features msl mwl mss max_depth mid random nf).
Hypothesis I : inv sp X max_features msl mwl mss max_depth mid random nf s0 M [] budget b S D.
Let nodes := b_nodes b.
Let n := length nodes.

Lemma bf_status j nd : nth_error nodes j = Some nd ->
  closed nodes budget S D j nd \/ exists a, internal nodes S D j nd a.
Proof. intros H. destruct (v_status I j H) as [(r & [] & _)|H']; exact H'. Qed.

(** one step down *)
Lemma bf_node j : j < n -> exists nd, nth_error nodes j = Some nd /\ nth j nodes node0 = nd.
Proof.
  intros H. destruct (nth_error nodes j) as [nd|] eqn:E; [|apply nth_error_None in E; unfold n in H; lia].
  exists nd. split; [auto|]. now apply nth_error_nth.
Qed.

Lemma bf_path x : forall k id, n - id <= k -> id < n ->
  exists p j, (forall fuel, k <= fuel -> path_row fuel nodes x id = Ok (p ++ [j]) /\ apply_row fuel nodes x id = Ok j) /\
    j < n /\ nd_left (nth j nodes node0) = Leaf /\
    (exists q, p ++ [j] = id :: q) /\
    (forall y, In y (p ++ [j]) -> exists p1 p2, p ++ [j] = p1 ++ y :: p2 /\ D id + length p1 = D y) /\
    (forall y nd a, In y (p ++ [j]) -> nth_error nodes y = Some nd -> nd_left nd = To a ->
        In (if Rle_dec (x (nd_feature nd)) (nd_thr nd) then a else 1 + a) (p ++ [j])) /\
    (forall i, In i (S id) -> (forall f, X i f = x f) -> forall y, In y (p ++ [j]) -> In i (S y)) /\
    D j = D id + length p.
Proof.
  induction k as [|k IH]; intros id Hk Hid; [lia|].
  destruct (bf_node Hid) as (nd & E & En).
  destruct (bf_status _ E) as [(L & R & _)|(a & A1 & A2 & A3 & A4 & A5 & A6 & A7 & A8 & A9 & _)].
  - exists [], id. cbn [app]. split.
    { intros fuel Hf. destruct fuel; [lia|]. cbn [path_row apply_row]. rewrite En, L. auto. }
    split; [auto|]. split; [now rewrite En|]. split; [eauto|]. split.
    { intros y [<-|[]]. exists [], []. cbn. auto. }
    split. { intros y nd' a' [<-|[]] E' HL. assert (nd' = nd) by congruence. subst. congruence. }
    split; [intros i Hi _ y [<-|[]]; auto|cbn; lia].
  - set (c := if Rle_dec (x (nd_feature nd)) (nd_thr nd) then a else 1 + a).
    assert (Hc : c = a \/ c = 1 + a) by (unfold c; destruct (Rle_dec _ _); auto).
    fold n in A4.
    destruct (IH c) as (p & j & B1 & B2 & B3 & (q & B4) & B5 & B6 & B7 & B8); [lia|lia|].
    assert (Dc : D c = 1 + D id) by (destruct Hc as [-> | ->]; auto).
    exists (id :: p), j. rewrite <- app_comm_cons. split.
    { intros fuel Hf. destruct fuel as [|fuel]; [lia|]. cbn [path_row apply_row]. rewrite En, A1, A2.
      destruct (B1 fuel) as [B1a B1b]; [lia|]. unfold c in B1a, B1b. clear - B1a B1b.
      destruct (Rle_dec (x (nd_feature nd)) (nd_thr nd)); rewrite B1a, B1b; auto. }
    split; [auto|]. split; [auto|]. split; [eauto|]. split.
    { intros y [<-|Hy].
      - exists [], (p ++ [j]). cbn. auto.
      - destruct (B5 y Hy) as (p1 & p2 & C1 & C2). exists (id :: p1), p2. rewrite C1. cbn [app length]. split; [auto|lia]. }
    split.
    { intros y nd' a' [<-|Hy] E' HL.
      - assert (nd' = nd) by congruence. subst nd'. assert (a' = a) by congruence. subst a'. right. rewrite B4. left. reflexivity.
      - right. now apply (B6 y nd' a'). }
    split.
    { intros i Hi Hx y [<-|Hy]; [auto|]. apply B7; auto.
      unfold c. destruct (Rle_dec _ _) as [Q|Q].
      - rewrite A6. apply in_left. rewrite Hx. auto.
      - rewrite A7. apply in_right. rewrite Hx. auto. }
    cbn [length]. lia.
Qed.

Lemma bf_pos : 1 <= n.
Proof. destruct (v_root I) as (_ & _ & _ & H). exact H. Qed.

Lemma bf_tree_path x : exists p j, tree_path nodes x = Ok (p ++ [j]) /\ tree_apply nodes x = Ok j /\
  j < n /\ nd_left (nth j nodes node0) = Leaf /\ In 0 (p ++ [j]) /\ D j = length p.
Proof.
  destruct (@bf_path x n 0) as (p & j & B1 & B2 & B3 & (q & B4) & _ & _ & _ & B8); [lia|apply bf_pos|].
  exists p, j. destruct (B1 n) as [C1 C2]; [lia|]. destruct (v_root I) as (_ & R & _).
  split; [exact C1|]. split; [exact C2|]. split; [auto|]. split; [auto|]. split; [rewrite B4; now left|lia].
Qed.

Lemma bf_at_depth j : at_depth nodes j (D j).
Proof.
  intros x p Hp Hin. destruct (@bf_path x n 0) as (p' & k & B1 & _ & _ & _ & B5 & _); [lia|apply bf_pos|].
  destruct (B1 n) as [C1 _]; [lia|]. unfold tree_path in Hp. fold n in Hp. rewrite C1 in Hp. injection Hp as <-.
  destruct (B5 j Hin) as (p1 & p2 & E1 & E2). destruct (v_root I) as (_ & R & _). exists p1, p2. split; [auto|lia].
Qed.

(** every list of samples is the training samples filtered *)
Lemma bf_sub j : j < n -> exists g, S j = filter g s0.
Proof.
  induction j as [j IH] using lt_wf_ind. intros Hj. destruct (Nat.eq_dec j 0) as [->|Nj].
  - exists (fun _ => true). destruct (v_root I) as (-> & _). now rewrite filter_all.
  - destruct (v_parent I) with (j := j) as (q & nd & a & E & (A1 & A2 & A3 & A4 & A5 & A6 & A7 & _) & Hc); [fold nodes; fold n; lia|].
    assert (Hq : q < n) by (apply nth_error_Some; fold nodes in E; congruence).
    destruct (IH q) as (g & Eg); [lia|lia|].
    destruct Hc as [-> | ->].
    + rewrite A6, Eg. unfold left_of. rewrite filter_filter'. eauto.
    + rewrite A7, Eg. unfold right_of. rewrite filter_filter'. eauto.
Qed.

Lemma bf_through j i : j < n -> In i (S j) -> forall p, tree_path nodes (X i) = Ok p -> In j p.
Proof.
  revert i. induction j as [j IH] using lt_wf_ind. intros i Hj Hi p Hp.
  destruct (@bf_path (X i) n 0) as (p' & k & B1 & _ & _ & (q0 & B4) & _ & B6 & _); [lia|apply bf_pos|].
  destruct (B1 n) as [C1 _]; [lia|]. unfold tree_path in Hp. fold n in Hp. rewrite C1 in Hp. injection Hp as <-.
  destruct (Nat.eq_dec j 0) as [->|Nj]; [rewrite B4; now left|].
  destruct (v_parent I) with (j := j) as (q & nd & a & E & (A1 & A2 & A3 & A4 & A5 & A6 & A7 & _) & Hc); [fold nodes; fold n; lia|].
  assert (Hq : q < n) by (apply nth_error_Some; fold nodes in E; congruence).
  fold nodes in E.
  destruct Hc as [-> | ->].
  - rewrite A6 in Hi. apply in_left in Hi. destruct Hi as [Hi Hle].
    assert (Hin : In q (p' ++ [k])) by (apply (IH q ltac:(lia) i Hq Hi); exact C1).
    specialize (B6 q nd a Hin E A1). destruct (Rle_dec _ _); [auto|contradiction].
  - rewrite A7 in Hi. apply in_right in Hi. destruct Hi as [Hi Hlt].
    assert (Hin : In q (p' ++ [k])) by (apply (IH q ltac:(lia) i Hq Hi); exact C1).
    specialize (B6 q nd a Hin E A1). destruct (Rle_dec _ _); [contradiction|auto].
Qed.

Lemma bf_in j i p : In i s0 -> tree_path nodes (X i) = Ok p -> In j p -> In i (S j).
Proof.
  intros Hi Hp Hin.
  destruct (@bf_path (X i) n 0) as (p' & k & B1 & _ & _ & _ & _ & _ & B7 & _); [lia|apply bf_pos|].
  destruct (B1 n) as [C1 _]; [lia|]. unfold tree_path in Hp. fold n in Hp. rewrite C1 in Hp. injection Hp as <-.
  destruct (v_root I) as (R & _). apply B7; auto. rewrite R. auto.
Qed.

Lemma bf_passing j : j < n -> passing nodes X j s0 = S j.
Proof.
  intros Hj. destruct (bf_sub Hj) as [g Eg]. unfold passing. rewrite Eg. apply filter_ext_in. intros i Hi.
  destruct (bf_tree_path (X i)) as (p & k & Ep & _). rewrite Ep.
  apply Bool.eq_true_iff_eq. rewrite existsb_nat. split; intros H.
  - assert (In i (filter g s0)) as G by (rewrite <- Eg; eapply bf_in; eauto). apply filter_In in G. tauto.
  - apply (@bf_through j i Hj); [|auto]. rewrite Eg. apply filter_In. auto.
Qed.

Lemma bf_leaf_at j : j < n -> nd_left (nth j nodes node0) = Leaf -> samples_at nodes X j s0 = S j.
Proof.
  intros Hj L. rewrite <- (bf_passing Hj). unfold samples_at, passing. apply filter_ext_in. intros i Hi.
  destruct (@bf_path (X i) n 0) as (p & k & B1 & B2 & B3 & _ & B5 & B6 & _ & B8); [lia|apply bf_pos|].
  destruct (B1 n) as [C1 C2]; [lia|]. unfold tree_apply, tree_path. fold n. rewrite C1, C2.
  apply Bool.eq_true_iff_eq. rewrite existsb_nat, Nat.eqb_eq. split.
  - intros ->. apply in_or_app. right. now left.
  - intros Hin. apply in_app_or in Hin. destruct Hin as [Hin|[Hin|[]]]; [|auto].
    exfalso. destruct (in_split _ _ Hin) as (u & v & ->).
    clear - C1 L. revert C1. generalize n as fuel. intros fuel. generalize 0 as id. revert u.
    assert (G : forall fuel id u, path_row fuel nodes (X i) id = Ok ((u ++ j :: v) ++ [k]) -> False); [|intros; eapply G; eauto].
    intros fuel0. induction fuel0 as [|m IH]; intros id u H; cbn [path_row] in H; [discriminate|]. destruct (nd_left (nth id nodes node0)) eqn:El.
    + injection H as H. apply (f_equal (@length nat)) in H. rewrite !app_length in H. cbn in H. lia.
    + destruct (if Rle_dec _ _ then _ else _) as [| |j']; try discriminate.
      destruct (path_row m nodes (X i) j') as [p|] eqn:Ep; [|discriminate]. cbn [bind] in H. injection H as H.
      destruct u as [|y u]; cbn [app] in H.
      * injection H as H1 H2. subst id. congruence.
      * injection H as H1 H2. subst p. now apply (IH j' u).
    + destruct (if Rle_dec _ _ then _ else _) as [| |j']; try discriminate.
      destruct (path_row m nodes (X i) j') as [p|] eqn:Ep; [|discriminate]. cbn [bind] in H. injection H as H.
      destruct u as [|y u]; cbn [app] in H.
      * injection H as H1 H2. subst id. congruence.
      * injection H as H1 H2. subst p. now apply (IH j' u).
Qed.

(** the leaves: one more than the internal nodes *)
Lemma bf_leaves : n_leaves nodes = 1 + length (filter isint nodes) /\ length nodes + 1 = 2 * n_leaves nodes.
Proof.
  destruct (v_count I) as [_ E]. fold nodes in E.
  assert (G : n_leaves nodes + length (filter isint nodes) = length nodes).
  { assert (H : forall nd, In nd nodes -> (match nd_left nd, nd_right nd with Leaf, Leaf => true | _, _ => false end) = negb (isint nd)).
    { intros nd Hin. destruct (In_nth_error _ _ Hin) as [j Ej].
      destruct (bf_status _ Ej) as [(L & R & _)|(a & A1 & A2 & _)]; unfold isint; [rewrite L, R|rewrite A1]; reflexivity. }
    unfold n_leaves. clear - H. induction nodes as [|x l IHl]; [reflexivity|].
    cbn [filter]. rewrite (H x) by (now left). specialize (IHl (fun nd Hnd => H nd (or_intror Hnd))).
    destruct (isint x); cbn [negb length]; lia. }
  lia.
Qed.
End BFS.
