(** Lemmas about decision paths and their printed conditions. *)
From Coq Require Import ZArith Reals Lra String.
From Verif Require Import Base EstUtilsModel TreeCritModel TreeCritProps SplitterModel SplitterSpec TreeSpec SplitterProofs CritOk TreeProps
  BestFirstModel BestFirstProofs BestFirstShape BestFirstProps PolicyModel PolicyProps RlossModel InterpModel InterpSpec.
Set Implicit Arguments.
Local Notation length := List.length.
Local Open Scope nat_scope.

(** *** one path *)
Definition kids (nd : node) : list nat :=
  match nd_left nd with
  | Leaf => []
  | To a => a :: match nd_right nd with To b => [b] | _ => [] end
  | _ => match nd_right nd with To b => [b] | _ => [] end
  end.
Definition side (nodes : list node) (x : nat -> R) (q : nat) : bool :=
  if Rle_dec (x (nd_feature (nth q nodes node0))) (nd_thr (nth q nodes node0)) then true else false.

Lemma path_step k nodes x id p : path_row (S k) nodes x id = Ok p ->
  (nd_left (nth id nodes node0) = Leaf /\ p = [id]) \/
  (nd_left (nth id nodes node0) <> Leaf /\ exists c p', (if side nodes x id then nd_left (nth id nodes node0) else nd_right (nth id nodes node0)) = To c /\
     path_row k nodes x c = Ok p' /\ p = id :: p').
Proof.
  cbn [path_row]. unfold side. destruct (nd_left (nth id nodes node0)) as [| |a] eqn:L.
  - intros [= <-]. auto.
  - intros H. right. split; [discriminate|]. destruct (Rle_dec _ _) as [Q|Q]; try discriminate.
    destruct (nd_right _) as [| |c] eqn:Rt; try discriminate. destruct (path_row k nodes x c) as [p'|] eqn:Ep; [|discriminate].
    injection H as <-. eauto 6.
  - intros H. right. split; [discriminate|]. destruct (Rle_dec _ _) as [Q|Q].
    + destruct (path_row k nodes x a) as [p'|] eqn:Ep; [|discriminate]. injection H as <-. eauto 6.
    + destruct (nd_right _) as [| |c] eqn:Rt; try discriminate. destruct (path_row k nodes x c) as [p'|] eqn:Ep; [|discriminate].
      injection H as <-. eauto 6.
Qed.

Lemma path_step_back k nodes x id c p' : nd_left (nth id nodes node0) <> Leaf ->
  (if side nodes x id then nd_left (nth id nodes node0) else nd_right (nth id nodes node0)) = To c ->
  path_row k nodes x c = Ok p' -> path_row (S k) nodes x id = Ok (id :: p').
Proof.
  intros NL. cbn [path_row]. unfold side. destruct (nd_left (nth id nodes node0)) as [| |a] eqn:L; [congruence| |].
  - destruct (Rle_dec _ _); [discriminate|]. intros -> ->. reflexivity.
  - destruct (Rle_dec _ _); [intros [= <-] ->|intros -> ->]; reflexivity.
Qed.

(** the path ends in the leaf of apply, its other nodes are inner nodes *)
Lemma path_apply nodes x : forall k id p, path_row k nodes x id = Ok p ->
  exists p0 j, p = p0 ++ [j] /\ apply_row k nodes x id = Ok j /\ nd_left (nth j nodes node0) = Leaf /\
    forall q, In q p0 -> nd_left (nth q nodes node0) <> Leaf.
Proof.
  induction k as [|k IH]; intros id p H; [discriminate|]. destruct (path_step _ _ _ _ H) as [[L ->]|(NL & c & p' & Hc & Hp & ->)].
  - exists [], id. cbn [app apply_row]. rewrite L. repeat split; auto.
  - destruct (IH c p' Hp) as (p0 & j & -> & A & B & C). exists (id :: p0), j. split; [reflexivity|]. split.
    + cbn [apply_row]. unfold side in Hc. destruct (nd_left (nth id nodes node0)) as [| |a] eqn:L; [congruence| |].
      * destruct (Rle_dec _ _); [discriminate|]. now rewrite Hc.
      * destruct (Rle_dec _ _); [injection Hc as ->|rewrite Hc]; auto.
    + split; [auto|]. intros q [<-|Hq]; auto.
Qed.

(** a row on the same sides takes the same path *)
Lemma path_same nodes x y : forall k id p, path_row k nodes x id = Ok p ->
  (forall q, In q p -> nd_left (nth q nodes node0) <> Leaf -> side nodes y q = side nodes x q) -> path_row k nodes y id = Ok p.
Proof.
  induction k as [|k IH]; intros id p H S; [discriminate|]. destruct (path_step _ _ _ _ H) as [[L ->]|(NL & c & p' & Hc & Hp & ->)].
  - cbn [path_row]. now rewrite L.
  - eapply path_step_back; [auto| |].
    + rewrite (S id) by (auto; now left). exact Hc.
    + apply IH; auto. intros q Hq. apply S. now right.
Qed.

(** if the children of an inner node differ, a row with the same path is on the same sides *)
Lemma path_sides nodes x y : (forall q a, nd_left (nth q nodes node0) = To a -> nd_right (nth q nodes node0) = To a -> False) ->
  forall k id p, path_row k nodes x id = Ok p -> path_row k nodes y id = Ok p ->
  forall q, In q p -> nd_left (nth q nodes node0) <> Leaf -> side nodes y q = side nodes x q.
Proof.
  intros D. induction k as [|k IH]; intros id p H H' q Hq NLq; [discriminate|].
  destruct (path_step _ _ _ _ H) as [[L ->]|(NL & c & p' & Hc & Hp & ->)].
  - destruct Hq as [<-|[]]. congruence.
  - destruct (path_step _ _ _ _ H') as [[L _]|(_ & c' & p'' & Hc' & Hp' & E)].
    + congruence.
    + injection E as <-. assert (c' = c) as ->.
      { destruct k; [discriminate|]. destruct (path_step _ _ _ _ Hp) as [[_ ->]|(_ & ? & ? & _ & _ & ->)];
          destruct (path_step _ _ _ _ Hp') as [[_ E]|(_ & ? & ? & _ & _ & E)]; congruence. }
      destruct Hq as [<-|Hq]; [|eauto].
      destruct (side nodes x id), (side nodes y id); auto; exfalso; eauto.
Qed.

(** consecutive nodes of a path are parent and child *)
Definition edge (nodes : list node) (q c : nat) : Prop := In c (kids (nth q nodes node0)).
Lemma step_edge nodes x id c : nd_left (nth id nodes node0) <> Leaf ->
  (if side nodes x id then nd_left (nth id nodes node0) else nd_right (nth id nodes node0)) = To c -> edge nodes id c.
Proof.
  unfold edge, kids. intros NL. destruct (side nodes x id).
  - intros ->. now left.
  - intros ->. destruct (nd_left _); [congruence|now left|right; now left].
Qed.

Inductive chain (nodes : list node) : nat -> list nat -> Prop :=
| ch_one id : chain nodes id [id]
| ch_more id c p : edge nodes id c -> chain nodes c p -> chain nodes id (id :: p).

Lemma path_chain nodes x : forall k id p, path_row k nodes x id = Ok p -> chain nodes id p.
Proof.
  induction k as [|k IH]; intros id p H; [discriminate|]. destruct (path_step _ _ _ _ H) as [[L ->]|(NL & c & p' & Hc & Hp & ->)].
  - constructor.
  - econstructor; [eapply step_edge; eauto|eauto].
Qed.

Lemma chain_pred nodes id p j : chain nodes id (p ++ [j]) -> p = [] /\ j = id \/ exists p' q, p = p' ++ [q] /\ chain nodes id (p' ++ [q]) /\ edge nodes q j.
Proof.
  revert id. induction p as [|a p IH]; intros id H; cbn [app] in H.
  - inversion H as [? E|? ? ? He Hc E]; subst; [auto|]. inversion Hc.
  - right. inversion H as [? E1 E2|? c ? He Hc E]; subst; [destruct p; discriminate|].
    destruct (IH c Hc) as [[-> ->]|(p' & q & -> & A & B)].
    + exists [], a. cbn. repeat split; auto; constructor.
    + exists (a :: p'), q. split; [reflexivity|]. split; [|auto]. cbn [app]. econstructor; eauto.
Qed.

Lemma chain_unique nodes : (forall q q' c, edge nodes q c -> edge nodes q' c -> q = q') -> (forall q, ~ edge nodes q 0) ->
  forall p p' j, chain nodes 0 (p ++ [j]) -> chain nodes 0 (p' ++ [j]) -> p = p'.
Proof.
  intros U Z p. remember (length p) as k eqn:Ek. revert p Ek. induction k as [|k IH]; intros p Ek p' j H H'.
  - destruct p; [|discriminate]. destruct (@chain_pred _ _ _ _ H) as [[_ ->]|(? & ? & E & _)]; [|destruct x; discriminate].
    destruct (@chain_pred _ _ _ _ H') as [[-> _]|(? & q & _ & _ & E)]; [reflexivity|]. destruct (Z _ E).
  - destruct (@chain_pred _ _ _ _ H) as [[-> _]|(p1 & q & -> & A & B)]; [discriminate|].
    destruct (@chain_pred _ _ _ _ H') as [[_ ->]|(p2 & q' & -> & A' & B')]; [destruct (Z _ B)|].
    rewrite (U _ _ _ B B') in *. f_equal. eapply (IH p1); [rewrite app_length in Ek; cbn in Ek; lia|eauto|eauto].
Qed.

(** *** binary trees: one parent, two different children *)
Lemma edge_in nodes q c : edge nodes q c -> q < length nodes /\ In c (flat_map kids nodes).
Proof.
  unfold edge. destruct (Nat.lt_ge_cases q (length nodes)) as [H|H].
  - intros Hc. split; [auto|]. apply in_flat_map. exists (nth q nodes node0). split; [now apply nth_In|auto].
  - rewrite nth_overflow by auto. cbn. contradiction.
Qed.

Lemma kids_count nodes : length (flat_map kids nodes) <= 2 * (length nodes - n_leaves nodes) /\ n_leaves nodes <= length nodes.
Proof.
  unfold n_leaves. induction nodes as [|nd nodes [IH1 IH2]]; cbn [flat_map length filter]; [auto|]. rewrite app_length.
  unfold kids at 1. destruct (nd_left nd) as [| |a].
  - destruct (nd_right nd); cbn [length plus]; lia.
  - assert (length (match nd_right nd with To b => [b] | _ => [] end) <= 1) by (destruct (nd_right nd); cbn; lia). lia.
  - assert (length (a :: match nd_right nd with To b => [b] | _ => [] end) <= 2) by (destruct (nd_right nd); cbn; lia). lia.
Qed.

Lemma nodup_tail {A} (l l' : list A) : NoDup (l ++ l') -> NoDup l'.
Proof. induction l as [|a l IH]; cbn; [auto|]. intros H. inversion H. auto. Qed.

Lemma flat_map_unique (l : list node) : NoDup (flat_map kids l) -> forall q q' c,
  In c (kids (nth q l node0)) -> In c (kids (nth q' l node0)) -> q = q'.
Proof.
  induction l as [|nd l IH]; intros N q q' c H H'; [destruct q; cbn in H; contradiction|].
  cbn [flat_map] in N. assert (D : forall c, In c (kids nd) -> In c (flat_map kids l) -> False).
  { intros y Hy Hy'. clear - N Hy Hy'. induction (kids nd) as [|z k IHk]; [contradiction|]. cbn [app] in N. inversion N; subst.
    destruct Hy as [->|Hy]; [apply H1; apply in_or_app; auto|auto]. }
  assert (N' : NoDup (flat_map kids l)) by (apply nodup_tail in N; auto).
  assert (E : forall q, In c (kids (nth q l node0)) -> In c (flat_map kids l)) by (intros r Hr; now apply (@edge_in l r c)).
  destruct q as [|q], q' as [|q']; cbn [nth] in *; auto.
  - exfalso. eauto.
  - exfalso. eauto.
  - f_equal. eauto.
Qed.

Lemma tree_facts nodes train : binary_tree nodes train ->
  (forall q q' c, edge nodes q c -> edge nodes q' c -> q = q') /\ (forall q, ~ edge nodes q 0) /\
  (forall q a, nd_left (nth q nodes node0) = To a -> nd_right (nth q nodes node0) = To a -> False) /\ 1 <= length nodes /\
  (forall q c, edge nodes q c -> c < length nodes).
Proof.
  intros [BP BU BL]. set (K := flat_map kids nodes). set (n := length nodes) in *.
  assert (N1 : 1 <= n). { destruct (BP (fun _ => 0%R)) as [p Hp]. unfold tree_path in Hp. fold n in Hp. destruct n; [discriminate|lia]. }
  destruct (kids_count nodes) as [C1 C2]. fold K n in C1, C2.
  assert (LK : length K <= n - 1) by lia.
  assert (IN : incl (seq 1 (n - 1)) K).
  { intros j Hj. apply in_seq in Hj. destruct (BU j) as (x & p & _ & Hp & Hin); [fold n; lia|].
    apply path_chain in Hp. destruct (in_split _ _ Hin) as (u & v & ->).
    assert (G : forall u id, chain nodes id (u ++ j :: v) -> u = [] /\ id = j \/ exists q, edge nodes q j).
    { clear. induction u as [|a u IH]; intros id H; cbn [app] in H.
      - left. inversion H; auto.
      - right. inversion H as [? E1 E2|? c ? He Hc E]; subst; [destruct u; discriminate|]. destruct (IH _ Hc) as [[_ ->]|?]; eauto. }
    destruct (G _ _ Hp) as [[_ E]|(q & E)]; [lia|]. now apply (@edge_in nodes q j). }
  assert (NS : NoDup (seq 1 (n - 1))) by apply seq_NoDup.
  assert (ND : NoDup K) by (eapply NoDup_incl_NoDup; [exact NS|rewrite seq_length; lia|exact IN]).
  assert (IK : incl K (seq 1 (n - 1))) by (eapply NoDup_length_incl; [exact NS|rewrite seq_length; lia|exact IN]).
  split; [intros q q' c; apply (@flat_map_unique nodes ND)|]. split.
  - intros q E. apply edge_in in E. destruct E as [_ E]. apply IK in E. apply in_seq in E. lia.
  - split; [|split; [auto|intros q c E; apply edge_in in E; destruct E as [_ E]; apply IK in E; apply in_seq in E; lia]]. intros q a L Rt.
    assert (Hq : q < n).
    { destruct (Nat.lt_ge_cases q n); [auto|]. rewrite nth_overflow in L by auto. discriminate. }
    destruct (nth_split nodes node0 Hq) as (u & v & E & _). unfold K in ND. rewrite E in ND. rewrite flat_map_app in ND.
    cbn [flat_map] in ND. apply nodup_tail in ND. unfold kids in ND at 1. rewrite L, Rt in ND. cbn [app] in ND.
    inversion ND as [|? ? N _]. apply N. now left.
Qed.

Lemma tree_path_apply nodes x p : tree_path nodes x = Ok p -> exists p0 j, p = p0 ++ [j] /\ tree_apply nodes x = Ok j /\
  nd_left (nth j nodes node0) = Leaf /\ forall q, In q p0 -> nd_left (nth q nodes node0) <> Leaf.
Proof. apply path_apply. Qed.

(** two rows reach the same leaf when they are on the same sides along the path, and only then *)
Lemma same_leaf nodes train x y p0 j : binary_tree nodes train -> tree_path nodes x = Ok (p0 ++ [j]) ->
  (tree_apply nodes y = Ok j <-> forall q, In q p0 -> side nodes y q = side nodes x q).
Proof.
  intros B Hx. destruct (tree_facts B) as (U & Z & D & _). destruct (tree_path_apply _ _ Hx) as (p1 & j1 & E & A1 & L1 & NL).
  apply app_inj_tail in E. destruct E as [<- <-]. split.
  - intros Hy. destruct (bt_path B y) as [p Hp]. destruct (tree_path_apply _ _ Hp) as (p2 & j2 & -> & A2 & _ & _).
    assert (j2 = j) as -> by congruence.
    assert (p2 = p0) as ->. { eapply chain_unique; eauto; eapply path_chain; eauto. }
    intros q Hq. eapply path_sides; eauto. apply in_or_app. auto.
  - intros H. assert (Hy : tree_path nodes y = Ok (p0 ++ [j])).
    { eapply path_same; eauto. intros q Hq NLq. apply H. apply in_app_or in Hq. destruct Hq as [Hq|[<-|[]]]; [auto|congruence]. }
    destruct (tree_path_apply _ _ Hy) as (p2 & j2 & E & A2 & _). apply app_inj_tail in E. destruct E as [_ <-]. auto.
Qed.

(** *** the printed lines *)
Lemma row_lines_path nodes i x p0 j : nd_left (nth j nodes node0) = Leaf -> (forall q, In q p0 -> nd_left (nth q nodes node0) <> Leaf) ->
  row_lines nodes i x j (p0 ++ [j]) =
  map (fun q => mkLine q i (nd_feature (nth q nodes node0)) (x (nd_feature (nth q nodes node0))) (side nodes x q) (nd_thr (nth q nodes node0))) p0.
Proof.
  intros L NL. unfold row_lines. rewrite flat_map_app. cbn [flat_map app]. rewrite Nat.eqb_refl. cbn [app]. rewrite app_nil_r.
  induction p0 as [|q p0 IH]; [reflexivity|]. cbn [flat_map map].
  destruct (Nat.eqb_spec j q) as [<-|_]; [destruct (NL j); [now left|auto]|]. cbn [app]. rewrite IH; [reflexivity|].
  intros q' Hq'. apply NL. now right.
Qed.

Lemma true_ofb_ok l x : true_ofb l x = true <-> true_of l x.
Proof. unfold true_ofb, true_of. destruct (Rle_dec _ _), (ln_le l); cbn; split; intros; try lra; try discriminate; auto. Qed.
Lemma meetsb_ok ls x : meetsb ls x = true <-> meets ls x.
Proof. unfold meetsb, meets. rewrite forallb_forall. split; intros H l Hl; apply true_ofb_ok; auto. Qed.

Lemma lines_sides nodes i x y p0 :
  meets (map (fun q => mkLine q i (nd_feature (nth q nodes node0)) (x (nd_feature (nth q nodes node0))) (side nodes x q) (nd_thr (nth q nodes node0))) p0) y <->
  forall q, In q p0 -> side nodes y q = side nodes x q.
Proof.
  unfold meets. split.
  - intros H q Hq. specialize (H _ (in_map _ _ _ Hq)). unfold true_of in H. cbn [ln_le ln_feature ln_thr] in H.
    unfold side in *. destruct (Rle_dec (x _) _), (Rle_dec (y _) _); auto; lra.
  - intros H l Hl. apply in_map_iff in Hl. destruct Hl as (q & <- & Hq). specialize (H q Hq). unfold true_of. cbn [ln_le ln_feature ln_thr].
    rewrite <- H. unfold side. destruct (Rle_dec _ _); lra.
Qed.

(** the explanation of a row: true, about its path, and met by exactly the rows of its leaf *)
Lemma lines_ok nodes train i x p leaf : binary_tree nodes train -> tree_path nodes x = Ok p -> tree_apply nodes x = Ok leaf ->
  let ls := row_lines nodes i x leaf p in
  honest i x ls /\ p = map ln_node ls ++ [leaf] /\
  (forall l, In l ls -> ln_feature l = nd_feature (nth (ln_node l) nodes node0) /\ ln_thr l = nd_thr (nth (ln_node l) nodes node0)) /\
  forall y, meets ls y <-> tree_apply nodes y = Ok leaf.
Proof.
  intros B Hp Ha ls. destruct (tree_path_apply _ _ Hp) as (p0 & j & -> & A & L & NL). assert (j = leaf) as -> by congruence.
  assert (E : ls = map (fun q => mkLine q i (nd_feature (nth q nodes node0)) (x (nd_feature (nth q nodes node0))) (side nodes x q) (nd_thr (nth q nodes node0))) p0)
    by (apply row_lines_path; auto).
  rewrite E. split; [|split; [|split]].
  - intros l Hl. assert (M : meets ls x) by (rewrite E; now apply lines_sides). rewrite E in M. specialize (M l Hl).
    apply in_map_iff in Hl. destruct Hl as (q & <- & Hq). auto.
  - rewrite map_map. cbn [ln_node]. now rewrite map_id.
  - intros l Hl. apply in_map_iff in Hl. destruct Hl as (q & <- & Hq). auto.
  - intros y. rewrite lines_sides. symmetry. now apply same_leaf with (train := train).
Qed.
