(** Proofs about the depth-first builder: the tree it builds. *)
From Coq Require Import ZArith Reals Lra.
From Verif Require Import Base TreeCritModel TreeCritProps SplitterModel SplitterSpec SplitterProofs.
Set Implicit Arguments.
Local Notation length := List.length.
Open Scope nat_scope.

Lemma firstn_In {A} n (l : list A) x : In x (firstn n l) -> In x l.
Proof. intros H. rewrite <- (firstn_skipn n l). apply in_or_app. now left. Qed.
Lemma NoDup_firstn {A} n (l : list A) : NoDup l -> NoDup (firstn n l).
Proof.
  revert n. induction l as [|x l IH]; intros [|n] H; cbn [firstn]; try constructor.
  - inversion H; subst. intros Hx. apply firstn_In in Hx. auto.
  - apply IH. now inversion H.
Qed.

Section Builder.
Context {C V : Type}.
Variable cr : crit C V.
Variable sp : cspec V.
Variable N : R.
Variable rel : nat -> nat -> list nat -> C -> list nat -> nat -> Prop.
Hypothesis K : crit_ok cr sp N rel.
Variable X : nat -> nat -> R.
Variable srt : (nat -> R) -> list nat -> list nat.
Hypothesis srt_perm : forall key l, Permutation (srt key l) l.
Hypothesis srt_sorted : forall key l i j, i <= j -> j < length l ->
  (key (nth i (srt key l) 0%nat) <= key (nth j (srt key l) 0%nat))%R.
Variable rnd : nat -> nat.
Variable rmax : R.
Hypothesis rmax_pos : (0 < rmax)%R.
Hypothesis rnd_le : forall t, (INR (rnd t) <= rmax)%R.
Variables (max_features msl : nat) (mwl : R) (mss max_depth : nat) (mid : R).
Variable random : bool.
Variable nf : nat.

Let best_split := random = false.
Notation ST := (subtree sp X nf max_features msl mwl mss max_depth mid best_split).

(** *** permutations *)
Lemma allowed_perm f t s s' : Permutation s s' -> allowed sp X msl mwl f t s -> allowed sp X msl mwl f t s'.
Proof.
  intros P (A1 & A2 & A3 & A4 & A5 & A6). pose proof (left_perm X f t P) as P1. pose proof (right_perm X f t P) as P2.
  destruct (k_perm K P1 P2) as (_ & E2 & E3 & _). unfold allowed. rewrite <- E2, <- E3, <- (Permutation_length P1), <- (Permutation_length P2).
  repeat split; auto.
  - intros E. rewrite E in P1. apply Permutation_sym, Permutation_nil in P1. auto.
  - intros E. rewrite E in P2. apply Permutation_sym, Permutation_nil in P2. auto.
Qed.
Lemma separated_perm f t s s' : Permutation s s' -> separated X f t s -> separated X f t s'.
Proof.
  intros P H i j Hi Hj. apply H.
  - apply (Permutation_in _ (Permutation_sym (left_perm X f t P))). auto.
  - apply (Permutation_in _ (Permutation_sym (right_perm X f t P))). auto.
Qed.
Lemma proxy_perm f t s s' : Permutation s s' ->
  cs_proxy sp (left_of X f t s) (right_of X f t s) = cs_proxy sp (left_of X f t s') (right_of X f t s').
Proof. intros P. apply (k_perm K (left_perm X f t P) (right_perm X f t P)). Qed.
Lemma children_perm f t s s' : Permutation s s' ->
  cs_children sp (left_of X f t s) (right_of X f t s) = cs_children sp (left_of X f t s') (right_of X f t s').
Proof. intros P. apply (k_perm K (left_perm X f t P) (right_perm X f t P)). Qed.
Lemma gain_perm imp f t s s' : Permutation s s' -> gain sp X imp f t s = gain sp X imp f t s'.
Proof.
  intros P. unfold gain. cbv zeta. rewrite (children_perm f t P).
  apply (k_perm K (left_perm X f t P) (right_perm X f t P)).
Qed.
Lemma constant_perm f s s' : Permutation s s' -> constant_on X f s -> constant_on X f s'.
Proof. intros P H i j Hi Hj. apply H; eapply Permutation_in; try (symmetry; exact P); auto. Qed.
Lemma searched_perm s s' ex : Permutation s s' -> searched X nf max_features s ex -> searched X nf max_features s' ex.
Proof.
  intros P (A & B & D). split; [auto|]. split.
  - intros f Hf. destruct (B f Hf) as [B1 B2]. split; [auto|]. intros Ct. apply B2. eapply constant_perm; [symmetry; exact P|auto].
  - destruct D as [D|(cs & D1 & D2 & D3)]; [left|right].
    + intros f Hf. destruct (D f Hf); [left|right]; auto. eapply constant_perm; eauto.
    + exists cs. split; [auto|]. split; [|auto]. intros f Hf. destruct (D2 f Hf). split; [auto|]. eapply constant_perm; eauto.
Qed.
Lemma optimal_perm ex f t s s' : Permutation s s' -> optimal sp X msl mwl ex f t s -> optimal sp X msl mwl ex f t s'.
Proof.
  intros P H f' t' Hf A S'. rewrite <- !(proxy_perm _ _ P). apply H; auto.
  - eapply allowed_perm; [symmetry; exact P|auto].
  - eapply separated_perm; [symmetry; exact P|auto].
Qed.
Lemma node_perm s s' : Permutation s s' -> cs_wn sp s = cs_wn sp s' /\ cs_value sp s = cs_value sp s' /\ cs_node sp s = cs_node sp s'.
Proof. intros P. destruct (k_perm K P P) as (_ & _ & _ & A & B & _ & _ & D). auto. Qed.

Lemma leaf_reason_perm d imp s s' : Permutation s s' ->
  leaf_reason sp X nf max_features msl mwl mss max_depth mid d imp s -> leaf_reason sp X nf max_features msl mwl mss max_depth mid d imp s'.
Proof.
  intros P. unfold leaf_reason. rewrite (Permutation_length P), (proj1 (node_perm P)).
  intros [H|[H|[H|[H|[H|[H|H]]]]]]; auto.
  - do 4 right. left. exact H.
  - do 5 right. left. destruct H as (ex & H0 & H). exists ex. split; [eapply searched_perm; eauto|].
    intros f t Hf A Sp. apply (H f t Hf).
    + eapply allowed_perm; [symmetry; exact P|auto].
    + eapply separated_perm; [symmetry; exact P|auto].
  - do 6 right. destruct H as (ex & f & t & A0 & A1 & A & B & D & E). exists ex, f, t.
    split; [eapply searched_perm; eauto|]. split; [auto|]. split; [eapply allowed_perm; eauto|]. split; [eapply separated_perm; eauto|].
    split; [eapply optimal_perm; eauto|]. now rewrite <- (gain_perm _ _ _ P).
Qed.

Lemma subtree_perm nodes values id d imp s stop dp : ST nodes values id d imp s stop dp ->
  forall s', Permutation s s' -> ST nodes values id d imp s' stop dp.
Proof.
  induction 1 as [id d imp s nd H1 H2 H3 H4 H5 H6 H7 H8|id d imp s nd m stop dl dr H1 H2 H3 H4 H5 H6 H7 H8 H9 H10 H11 H12 H13 l r HL IHL HR IHR]; intros s' P.
  - destruct (node_perm P) as (E1 & E2 & E3). eapply st_leaf; eauto.
    + now rewrite <- (Permutation_length P).
    + congruence.
    + congruence.
    + intros E. eapply leaf_reason_perm; eauto.
  - destruct (node_perm P) as (E1 & E2 & E3). eapply st_split; eauto.
    + now rewrite <- (Permutation_length P).
    + congruence.
    + congruence.
    + now rewrite <- (Permutation_length P).
    + eapply allowed_perm; eauto.
    + now rewrite <- (gain_perm _ _ _ P).
    + destruct H13 as (ex & A1 & A2 & A3). exists ex. split; [eapply searched_perm; eauto|]. split; [auto|].
      intros E. destruct (A3 E) as [A B]. split; [eapply separated_perm; eauto|eapply optimal_perm; eauto].
    + rewrite <- (children_perm _ _ P). apply IHL. now apply left_perm.
    + rewrite <- (children_perm _ _ P). apply IHR. now apply right_perm.
Qed.

(** a subtree depends only on its own nodes *)
Lemma subtree_lt nodes values id d imp s stop dp : ST nodes values id d imp s stop dp -> id < stop <= length nodes.
Proof.
  induction 1 as [id d imp s nd H1 H2 H3 H4 H5 H6 H7 H8|id d imp s nd m stop dl dr H1 H2 H3 H4 H5 H6 H7 H8 H9 H10 H11 H12 H13 l r HL IHL HR IHR].
  - assert (id < length nodes) by (apply nth_error_Some; congruence). lia.
  - lia.
Qed.
Lemma subtree_ext nodes values nodes' values' id d imp s stop dp : ST nodes values id d imp s stop dp ->
  (forall j, id <= j < stop -> nth_error nodes' j = nth_error nodes j) ->
  (forall j, id <= j < stop -> nth_error values' j = nth_error values j) ->
  ST nodes' values' id d imp s stop dp.
Proof.
  intros H. induction H as [id d imp s nd H1 H2 H3 H4 H5 H6 H7 H8|id d imp s nd m stop dl dr H1 H2 H3 H4 H5 H6 H7 H8 H9 H10 H11 H12 H13 l r HL IHL HR IHR]; intros E1 E2.
  - eapply st_leaf; eauto; [rewrite E1|rewrite E2]; auto; lia.
  - pose proof (subtree_lt HL). pose proof (subtree_lt HR).
    eapply st_split; eauto; [rewrite E1|rewrite E2|apply IHL|apply IHR]; auto; try lia; intros j Hj; [apply E1|apply E2|apply E1|apply E2]; lia.
Qed.

(* ------------------------------------------------------------------------------------------------ *)
(** *** One round *)

Hypothesis msl_pos : 1 <= msl.

Definition spl_frame (start end_ k : nat) (p p' : spl) : Prop :=
  rearr start end_ (p_samples p) (p_samples p') /\
  Permutation (p_features p') (seq 0 nf) /\ length (p_const p') = nf /\
  firstn k (p_features p') = firstn k (p_const p') /\ firstn k (p_const p') = firstn k (p_const p).

(** what holds of a record when it is taken from the stack *)
Definition rec_ok (r : srec) (p : spl) : Prop :=
  sr_start r < sr_end r <= length (p_samples p) /\ sr_depth r <= max_depth /\
  Permutation (p_features p) (seq 0 nf) /\ length (p_const p) = nf /\ sr_const r <= nf /\
  firstn (sr_const r) (p_features p) = firstn (sr_const r) (p_const p) /\
  (forall f, In f (firstn (sr_const r) (p_const p)) -> constant_on X f (slice (p_samples p) (sr_start r) (sr_end r))).

Lemma constant_no_split f t s : constant_on X f s -> allowed sp X msl mwl f t s -> separated X f t s -> False.
Proof.
  intros Ct (A1 & A2 & _) Sp.
  destruct (left_of X f t s) as [|i l] eqn:El; [congruence|]. destruct (right_of X f t s) as [|j r] eqn:Er; [congruence|].
  assert (Hi : In i (left_of X f t s)) by (rewrite El; now left).
  assert (Hj : In j (right_of X f t s)) by (rewrite Er; now left).
  specialize (Sp i j Hi Hj). apply in_left in Hi. apply in_right in Hj.
  specialize (Ct i j (proj1 Hi) (proj1 Hj)). lra.
Qed.

Notation step := (build_step cr X srt rnd rmax max_features msl mwl mss max_depth mid N random).

Lemma build_step_ok (first : bool) r (b : @bst V) : rec_ok r (b_spl b) ->
  let node := slice (p_samples (b_spl b)) (sr_start r) (sr_end r) in
  let imp := if first then cs_node sp node else sr_imp r in
  let id := length (b_nodes b) in
  (exists spl', step first r b =
     Ok (mkBst (add_node (b_nodes b) (sr_parent r) (sr_left r)
                 (mkNode Leaf Leaf 0 0%R imp (length node) (cs_wn sp node)))
               (b_values b ++ [cs_value sp node]) spl' (Nat.max (sr_depth r) (b_max b)), []) /\
     spl_frame (sr_start r) (sr_end r) (sr_const r) (b_spl b) spl' /\
     (best_split -> leaf_reason sp X nf max_features msl mwl mss max_depth mid (sr_depth r) imp node)) \/
  (exists spl' f t pos il ir kc, step first r b =
     Ok (mkBst (add_node (b_nodes b) (sr_parent r) (sr_left r)
                 (mkNode Unset Unset f t imp (length node) (cs_wn sp node)))
               (b_values b ++ [cs_value sp node]) spl' (Nat.max (sr_depth r) (b_max b)),
         [mkSrec (sr_start r) pos (S (sr_depth r)) (Some id) true il kc;
          mkSrec pos (sr_end r) (S (sr_depth r)) (Some id) false ir kc]) /\
     spl_frame (sr_start r) (sr_end r) (sr_const r) (b_spl b) spl' /\
     sr_depth r < max_depth /\ mss <= length node /\ f < nf /\ allowed sp X msl mwl f t node /\
     pos = sr_start r + length (left_of X f t node) /\
     Permutation (slice (p_samples spl') (sr_start r) pos) (left_of X f t node) /\
     Permutation (slice (p_samples spl') pos (sr_end r)) (right_of X f t node) /\
     (il, ir) = cs_children sp (left_of X f t node) (right_of X f t node) /\
     (mid <= gain sp X imp f t node + EPSILON)%R /\
     (exists ex, searched X nf max_features node ex /\ In f ex /\
        (best_split -> separated X f t node /\ optimal sp X msl mwl ex f t node)) /\
     sr_const r <= kc <= nf /\ firstn kc (p_features spl') = firstn kc (p_const spl') /\
     (forall g, In g (firstn kc (p_const spl')) -> constant_on X g node)).
Proof.
  intros (H1 & H2 & H3 & H4 & H5 & H6 & H7) node imp id. unfold build_step.
  set (start := sr_start r) in *. set (end_ := sr_end r) in *. set (samples := p_samples (b_spl b)) in *.
  set (c := cr_init cr N samples start end_).
  assert (Hle : start <= end_ <= length samples) by lia.
  assert (R0 : rel start end_ node c samples start) by (apply (k_init K); auto).
  destruct (@k_facts _ _ _ _ _ _ K _ _ _ _ _ _ R0) as (_ & _ & _ & FW & FN & FV & _). rewrite FW, FN. fold imp.
  assert (LN : length node = end_ - start) by (apply slice_length; lia).
  assert (FR0 : spl_frame start end_ (sr_const r) (b_spl b) (b_spl b)).
  { unfold spl_frame. split; [apply rearr_refl|]. auto. }
  match goal with |- context [if ?b then Ok _ else _] => set (stop := b) end.
  destruct stop eqn:Es; subst stop.
  - left. cbn [bind]. exists (b_spl b). rewrite FV, LN. split; [reflexivity|].
    split; [exact FR0|]. intros _. unfold leaf_reason. rewrite LN. repeat rewrite orb_true_iff in Es.
    rewrite Nat.leb_le, !Nat.ltb_lt in Es.
    destruct (Rlt_dec (cs_wn sp node) (2 * mwl)); destruct (Rle_dec imp EPSILON); try tauto; intuition congruence.
  - repeat rewrite orb_false_iff in Es. rewrite Nat.leb_gt, !Nat.ltb_ge in Es.
    destruct Es as ((((Es1 & Es2) & Es3) & Es4) & Es5).
    assert (LV : live rel start end_ samples c) by (exists samples, start; exact R0).
    assert (ND : NoDup (p_features (b_spl b))) by (eapply Permutation_NoDup; [symmetry; exact H3|apply seq_NoDup]).
    assert (LF : length (p_features (b_spl b)) = nf) by (rewrite (Permutation_length H3); apply seq_length).
    destruct (@node_split_ok _ _ cr sp N rel K X srt srt_perm srt_sorted rnd rmax rmax_pos rnd_le max_features msl mwl
                random imp start end_ (sr_const r) c (b_spl b)) as
      (p' & c' & best & kc & ex & E & A1 & A2 & A3 & A4 & A5 & A6 & A7 & A8 & A9 & A10 & A11 & A12 & A13); auto; try lia.
    fold samples in A1, A7, A8, A11, A13. fold node in A7, A8, A11, A13. rewrite E. cbn [bind]. clear E.
    assert (PF : Permutation (p_features p') (seq 0 nf)) by (etransitivity; eauto).
    assert (FR1 : spl_frame start end_ (sr_const r) (b_spl b) p').
    { unfold spl_frame. split; [auto|]. split; [auto|]. split; [lia|]. split; [|auto].
      assert (G : firstn (sr_const r) (firstn kc (p_features p')) = firstn (sr_const r) (firstn kc (p_const p'))) by now rewrite A5.
      rewrite !firstn_firstn in G. replace (Nat.min (sr_const r) kc) with (sr_const r) in G by lia. auto. }
    assert (CT : forall g, In g (firstn kc (p_const p')) -> constant_on X g node).
    { intros g Hg. replace kc with (sr_const r + (kc - sr_const r)) in Hg by lia. rewrite firstn_plus in Hg.
      apply in_app_or in Hg. destruct Hg as [Hg|Hg]; [rewrite A6 in Hg; auto|]. apply A7. exact Hg. }
    assert (SRC : searched X nf max_features node ex).
    { split; [auto|]. split.
      - intros f Hf. split; [|auto]. apply A10 in Hf. apply (Permutation_in _ H3) in Hf. apply in_seq in Hf. lia.
      - destruct A12 as [A12|(B1 & B2 & B3)]; [left|right].
        + intros f Hf. destruct (A12 f) as [G|G]; [apply (Permutation_in _ (Permutation_sym H3)); apply in_seq; lia|left; auto|right; auto].
        + exists (firstn kc (p_const p')). rewrite LF in *. split.
          * rewrite <- A5. eapply NoDup_firstn. eapply Permutation_NoDup; [symmetry; exact A2|auto].
          * split; [|rewrite firstn_length, A3; split; [auto|split; lia]].
            intros f Hf. split; [|auto]. rewrite <- A5 in Hf. apply firstn_In in Hf.
            apply (Permutation_in _ PF) in Hf. apply in_seq in Hf. lia. }
    destruct best as [s|].
    + destruct A13 as (B1 & B2 & B3 & B4 & B5 & B6 & B7 & B8). cbv zeta in *.
      set (f := sp_feature s) in *. set (t := sp_thr s) in *.
      assert (EI : sp_il s = fst (cs_children sp (left_of X f t node) (right_of X f t node)) /\
                   sp_ir s = snd (cs_children sp (left_of X f t node) (right_of X f t node))) by (rewrite <- B6; auto).
      assert (EG : sp_improvement s = gain sp X imp f t node).
      { rewrite B7. unfold gain. cbv zeta. destruct EI as [-> ->]. reflexivity. }
      assert (OPT : best_split -> separated X f t node /\ optimal sp X msl mwl ex f t node).
      { intros Ee. destruct (B8 Ee) as [D1 D2]. split; [auto|]. intros f' t' Hf' Af' Sf'. auto. }
      destruct (Rlt_dec (sp_improvement s + EPSILON) mid) as [HD|HD].
      * left. exists p'. rewrite A8, LN. split; [reflexivity|]. split; [exact FR1|].
        intros Ee. unfold leaf_reason. do 6 right. exists ex, f, t. destruct (OPT Ee). rewrite <- EG. auto 10.
      * right. exists p', f, t, (sp_pos s), (sp_il s), (sp_ir s), kc. rewrite A8, LN.
        split; [reflexivity|]. split; [exact FR1|]. split; [lia|]. split; [lia|].
        split. { apply A10 in B1. apply (Permutation_in _ H3) in B1. apply in_seq in B1. lia. }
        split; [auto|]. split; [auto|]. split; [auto|]. split; [auto|]. split; [auto|].
        split; [rewrite <- EG; lra|]. split; [exists ex; auto|]. split; [lia|]. auto.
    + left. exists p'. rewrite A8, LN. split; [reflexivity|]. split; [exact FR1|].
      intros Ee. unfold leaf_reason. do 5 right. left. exists ex. split; [exact SRC|]. intros f t Hf Af Sf. eapply A13; eauto.
Qed.

(* ------------------------------------------------------------------------------------------------ *)
(** *** The whole subtree of a record *)

Notation loop := (build_loop cr X srt rnd rmax max_features msl mwl mss max_depth mid N random).

(** the nodes that existed before, with the link of the parent written *)
Definition linked (parent : option nat) (is_left : bool) (id : nat) (nodes nodes' : list node) : Prop :=
  forall j, j < length nodes -> nth_error nodes' j =
    match parent with
    | Some q => if j =? q then option_map (set_child is_left id) (nth_error nodes j) else nth_error nodes j
    | None => nth_error nodes j
    end.

Lemma nth_error_lset {A} (l : list A) i j v : nth_error (lset l i v) j = if (j =? i) && (i <? length l) then Some v else nth_error l j.
Proof.
  revert i j. induction l as [|x l IH]; intros i j.
  - cbn [lset length]. replace (i <? 0) with false by (symmetry; apply Nat.ltb_ge; lia). now rewrite andb_false_r.
  - destruct i as [|i], j as [|j]; cbn [lset nth_error length]; auto. rewrite IH. reflexivity.
Qed.

Lemma add_node_linked nodes parent is_left new : match parent with Some q => q < length nodes | None => True end ->
  linked parent is_left (length nodes) nodes (add_node nodes parent is_left new) /\
  nth_error (add_node nodes parent is_left new) (length nodes) = Some new /\
  length (add_node nodes parent is_left new) = S (length nodes).
Proof.
  intros Hp. unfold add_node. destruct parent as [q|].
  - split; [|split].
    + intros j Hj. rewrite nth_error_app1 by (rewrite lset_length; auto). rewrite nth_error_lset.
      apply Nat.ltb_lt in Hp. rewrite Hp, andb_true_r. destruct (Nat.eqb_spec j q) as [->|]; auto.
      rewrite (nth_error_nth' nodes node0 Hj). reflexivity.
    + rewrite nth_error_app2 by (rewrite lset_length; auto). now rewrite lset_length, Nat.sub_diag.
    + rewrite app_length, lset_length. cbn. lia.
  - split; [|split].
    + intros j Hj. now rewrite nth_error_app1.
    + now rewrite nth_error_app2, Nat.sub_diag.
    + rewrite app_length. cbn. lia.
Qed.

Lemma linked_trans parent is_left id nodes nodes1 nodes2 :
  length nodes <= length nodes1 ->
  linked parent is_left id nodes nodes1 -> (forall j, j < length nodes -> nth_error nodes2 j = nth_error nodes1 j) ->
  linked parent is_left id nodes nodes2.
Proof. intros HL H1 H2 j Hj. rewrite H2 by auto. auto. Qed.

Lemma constant_sub f s s' : (forall i, In i s' -> In i s) -> constant_on X f s -> constant_on X f s'.
Proof. intros H Ct i j Hi Hj. apply Ct; auto. Qed.

Lemma frame_slice s e a b p p' k : spl_frame s e k p p' -> b <= s \/ e <= a ->
  slice (p_samples p') a b = slice (p_samples p) a b.
Proof. intros (R1 & _) H. eapply rearr_slice_out; eauto. Qed.

Lemma build_rec : forall n r rest (b : @bst V) (first : bool), sr_end r - sr_start r <= n ->
  rec_ok r (b_spl b) -> length (b_values b) = length (b_nodes b) ->
  match sr_parent r with Some q => q < length (b_nodes b) | None => True end ->
  let node := slice (p_samples (b_spl b)) (sr_start r) (sr_end r) in
  let imp := if first then cs_node sp node else sr_imp r in
  let id := length (b_nodes b) in
  exists b' m dp, 1 <= m <= 2 * (sr_end r - sr_start r) - 1 /\
    (forall fuel, loop (m + fuel) first (r :: rest) b = loop fuel false rest b') /\
    length (b_nodes b') = id + m /\ length (b_values b') = length (b_nodes b') /\
    linked (sr_parent r) (sr_left r) id (b_nodes b) (b_nodes b') /\
    (forall j, j < id -> nth_error (b_values b') j = nth_error (b_values b) j) /\
    ST (b_nodes b') (b_values b') id (sr_depth r) imp node (id + m) dp /\
    b_max b' = Nat.max (b_max b) dp /\ sr_depth r <= dp /\
    spl_frame (sr_start r) (sr_end r) (sr_const r) (b_spl b) (b_spl b').
Proof.
  induction n as [|n IH]; intros r rest b first Hn RO HV HP node imp id.
  { destruct RO as (RO & _). lia. }
  pose proof RO as (Q1 & Q2 & Q3 & Q4 & Q5 & Q6 & Q7).
  assert (LN : length node = sr_end r - sr_start r) by (apply slice_length; lia).
  pose proof (@build_step_ok first r b RO) as SO. cbv zeta in SO. fold node in SO. fold imp in SO. fold id in SO.
  destruct SO as
    [(spl' & E & FR & LR)|
     (spl' & f & t & pos & il & ir & kc & E & FR & D1 & D2 & D3 & D4 & D5 & D6 & D7 & D8 & D9 & D10 & D11 & D12 & D13)].
  - set (nd := mkNode Leaf Leaf 0 0%R imp (length node) (cs_wn sp node)) in *.
    destruct (add_node_linked (b_nodes b) (sr_parent r) (sr_left r) nd HP) as (L1 & L2 & L3).
    eexists _, 1, (sr_depth r). split; [lia|]. split.
    { intros fuel. cbn [plus build_loop]. rewrite E. cbn [bind fst snd app]. reflexivity. }
    cbn [b_nodes b_values b_spl b_max]. fold id in L1, L2, L3. split; [rewrite L3; lia|]. split; [rewrite app_length, L3, HV; cbn; lia|].
    split; [exact L1|]. split; [intros j Hj; apply nth_error_app1; lia|]. split; [|split; [lia|split; [lia|exact FR]]].
    replace (id + 1) with (S id) by lia.
    apply st_leaf with (nd := nd); auto.
    rewrite nth_error_app2 by lia. rewrite HV. unfold id. now rewrite Nat.sub_diag.
  - set (nd := mkNode Unset Unset f t imp (length node) (cs_wn sp node)) in *.
    set (L := left_of X f t node) in *. set (Rr := right_of X f t node) in *.
    destruct (add_node_linked (b_nodes b) (sr_parent r) (sr_left r) nd HP) as (L1 & L2 & L3). fold id in L1, L2, L3.
    set (nodes1 := add_node (b_nodes b) (sr_parent r) (sr_left r) nd) in *.
    set (values1 := b_values b ++ [cs_value sp node]) in *.
    set (b1 := mkBst nodes1 values1 spl' (Nat.max (sr_depth r) (b_max b))) in *.
    assert (LV1 : length values1 = length nodes1) by (unfold values1; rewrite app_length, L3, HV; cbn; lia).
    assert (LRP : Permutation (L ++ Rr) node) by apply left_right_perm.
    assert (LRL : length L + length Rr = sr_end r - sr_start r) by (rewrite <- app_length, (Permutation_length LRP); auto).
    assert (LL : 1 <= length L /\ 1 <= length Rr).
    { destruct D4 as (A1 & A2 & _). fold L Rr in A1, A2. destruct L; [congruence|]. destruct Rr; [congruence|]. cbn [length]. lia. }
    pose proof FR as (F1 & F2 & F3 & F4 & F5).
    assert (Ls : length (p_samples spl') = length (p_samples (b_spl b))) by (destruct F1 as (A & _); auto).
    set (r1 := mkSrec (sr_start r) pos (S (sr_depth r)) (Some id) true il kc) in *.
    set (r2 := mkSrec pos (sr_end r) (S (sr_depth r)) (Some id) false ir kc) in *.
    assert (RO1 : rec_ok r1 (b_spl b1)).
    { unfold rec_ok, r1. cbn [b_spl b1 sr_start sr_end sr_depth sr_const]. split; [lia|]. split; [lia|]. split; [auto|].
      split; [auto|]. split; [lia|]. split; [auto|]. intros g Hg. eapply constant_sub; [|apply D13; exact Hg].
      intros i Hi. apply (Permutation_in _ D6) in Hi. apply in_left in Hi. tauto. }
    destruct (IH r1 (r2 :: rest) b1 false) as (b2 & m1 & dl & M1 & E1 & N1 & V1 & K1 & VV1 & T1 & X1 & Y1 & FR1);
      [unfold r1; cbn [sr_start sr_end]; lia|exact RO1|exact LV1|unfold r1; cbn [sr_parent b_nodes b1]; lia|].
    unfold r1 in M1, K1, T1, Y1, FR1. cbn [sr_start sr_end sr_depth sr_parent sr_left sr_imp sr_const b1 b_nodes b_values b_spl b_max] in *.
    rewrite L3 in *.
    pose proof FR1 as (G1 & G2 & G3 & G4 & G5).
    assert (Ls2 : length (p_samples (b_spl b2)) = length (p_samples spl')) by (destruct G1 as (A & _); auto).
    assert (SR : slice (p_samples (b_spl b2)) pos (sr_end r) = slice (p_samples spl') pos (sr_end r))
      by (eapply frame_slice; [exact FR1|lia]).
    assert (RO2 : rec_ok r2 (b_spl b2)).
    { unfold rec_ok, r2. cbn [sr_start sr_end sr_depth sr_const]. split; [lia|]. split; [lia|]. split; [auto|].
      split; [auto|]. split; [lia|]. split; [auto|]. intros g Hg. rewrite G5 in Hg. eapply constant_sub; [|apply D13; exact Hg].
      intros i Hi. rewrite SR in Hi. apply (Permutation_in _ D7) in Hi. apply in_right in Hi. tauto. }
    destruct (IH r2 rest b2 false) as (b3 & m2 & dr & M2 & E2 & N2 & V2 & K2 & VV2 & T2 & X2 & Y2 & FR2);
      [unfold r2; cbn [sr_start sr_end]; lia|exact RO2|exact V1|unfold r2; cbn [sr_parent]; lia|].
    unfold r2 in M2, K2, T2, Y2, FR2. cbn [sr_start sr_end sr_depth sr_parent sr_left sr_imp sr_const] in *.
    pose proof FR2 as (J1 & J2 & J3 & J4 & J5).
    exists b3, (S (m1 + m2)), (Nat.max dl dr). split; [lia|]. split.
    { intros fuel. cbn [plus build_loop]. rewrite E. cbn [bind fst snd app].
      rewrite <- Nat.add_assoc. rewrite E1. apply E2. }
    split; [lia|]. split; [auto|]. split.
    { intros j Hj. rewrite K2 by lia. destruct (Nat.eqb_spec j id); [unfold id in *; lia|].
      rewrite K1 by lia. destruct (Nat.eqb_spec j id); [unfold id in *; lia|]. apply L1. auto. }
    split.
    { intros j Hj. rewrite VV2 by lia. rewrite VV1 by lia. unfold values1. apply nth_error_app1. unfold id in Hj; lia. }
    split.
    { assert (Nid : nth_error (b_nodes b3) id = Some (set_child false (length (b_nodes b2)) (set_child true (S id) nd))).
      { rewrite K2 by lia. rewrite Nat.eqb_refl. rewrite K1 by lia. rewrite Nat.eqb_refl, L2. reflexivity. }
      assert (Vid : nth_error (b_values b3) id = Some (cs_value sp node)).
      { rewrite VV2 by lia. rewrite VV1 by lia. unfold values1. rewrite nth_error_app2 by (unfold id; lia). rewrite HV.
        unfold id. now rewrite Nat.sub_diag. }
      apply st_split with (nd := set_child false (length (b_nodes b2)) (set_child true (S id) nd)) (m := length (b_nodes b2));
        unfold set_child; cbn [nd_left nd_right nd_feature nd_thr nd_imp nd_n nd_w nd]; fold L Rr; auto; try lia.
      - rewrite <- D8. cbn [fst]. replace (length (b_nodes b2)) with (S id + m1) by lia.
        apply subtree_ext with (nodes := b_nodes b2) (values := b_values b2).
        + eapply subtree_perm; [exact T1|]. exact D6.
        + intros j Hj. rewrite K2 by lia. destruct (Nat.eqb_spec j id); [lia|]. reflexivity.
        + intros j Hj. apply VV2. lia.
      - rewrite <- D8. cbn [snd]. replace (id + S (m1 + m2)) with (length (b_nodes b2) + m2) by lia.
        eapply subtree_perm; [exact T2|]. rewrite SR. exact D7. }
    split; [lia|]. split; [lia|].
    unfold spl_frame. split; [|split; [auto|split; [auto|]]].
    { eapply rearr_trans; [exact F1|]. eapply rearr_trans; [eapply rearr_wider; [| |exact G1]; lia|].
      eapply rearr_wider; [| |exact J1]; lia. }
    assert (CUT : forall (l l' : list nat), firstn kc l = firstn kc l' -> firstn (sr_const r) l = firstn (sr_const r) l').
    { intros l l' Hl. replace (sr_const r) with (Nat.min (sr_const r) kc) by lia. rewrite <- !firstn_firstn. now rewrite Hl. }
    split; [now apply CUT|]. rewrite (CUT _ _ J5), (CUT _ _ G5). auto.
Qed.

End Builder.
