(** Proofs about BestFirstTreeBuilder: the invariant of its loop. *)
From Coq Require Import ZArith Reals Lra.
From Verif Require Import Base TreeCritModel TreeCritProps SplitterModel SplitterSpec TreeSpec SplitterProofs BuilderProofs BestFirstModel.
Set Implicit Arguments.
Local Notation length := List.length.
Open Scope nat_scope.

Lemma ne_lset {A} (l : list A) i j v : nth_error (lset l i v) j = if (j =? i) && (i <? length l) then Some v else nth_error l j.
Proof.
  revert i j. induction l as [|x l IH]; intros i j.
  - cbn [lset length]. replace (i <? 0) with false by (symmetry; apply Nat.ltb_ge; lia). now rewrite andb_false_r.
  - destruct i as [|i], j as [|j]; cbn [lset nth_error length]; auto. rewrite IH. reflexivity.
Qed.

Lemma filter_length_le' {A} (f : A -> bool) l : length (filter f l) <= length l.
Proof. induction l as [|x l IH]; cbn; [lia|]. destruct (f x); cbn; lia. Qed.
Lemma NoDup_app' {A} (a b : list A) : NoDup a -> NoDup b -> (forall x, In x a -> In x b -> False) -> NoDup (a ++ b).
Proof.
  induction 1 as [|x a Hx Ha IH]; cbn; intros Hb H; [auto|]. constructor; [|apply IH; auto; intros y Hy; apply (H y); now right].
  rewrite in_app_iff. intros [G|G]; [auto|]. apply (H x); auto.
Qed.

Section BF.
Context {C V : Type}.
Variable cr : crit C V.
Variable sp : cspec V.
Variable N : R.
Variable rel : nat -> nat -> list nat -> C -> list nat -> nat -> Prop.
Hypothesis K : crit_ok cr sp N rel.
Variable X : nat -> nat -> R.
Variable srt : (nat -> R) -> list nat -> list nat.
Hypothesis srt_perm : forall key l, Permutation (srt key l) l.
Hypothesis srt_sorted : forall key l i j, i <= j -> j < length l ->
  (key (nth i (srt key l) 0%nat) <= key (nth j (srt key l) 0%nat))%R.
Variable rnd : nat -> nat.
Variable rmax : R.
Hypothesis rmax_pos : (0 < rmax)%R.
Hypothesis rnd_le : forall t, (INR (rnd t) <= rmax)%R.
Variables (max_features msl : nat) (mwl : R) (mss max_depth : nat) (mid : R).
Variable random : bool.
Variable nf : nat.
Hypothesis msl_pos : 1 <= msl.
Variable pick : list frec -> nat.
Hypothesis pick_max : forall l, l <> [] -> exists r, nth_error l (pick l) = Some r /\ forall r', In r' l -> (fr_gain r' <= fr_gain r)%R.

Let best := random = false.
Notation add := (add_split_node cr X srt rnd rmax max_features msl mwl mss max_depth mid N random).
Notation loop := (bf_loop cr X srt rnd rmax max_features msl mwl mss max_depth mid N random pick).
Notation reason := (leaf_reason sp X nf max_features msl mwl mss max_depth mid).

(** a split the builder may make of samples [s] at depth [d] *)
Definition split_ok (imp : R) (f : nat) (t : R) (d : nat) (s : list nat) : Prop :=
  d < max_depth /\ mss <= length s /\ f < nf /\ allowed sp X msl mwl f t s /\
  (mid <= gain sp X imp f t s + EPSILON)%R /\
  exists ex, searched X nf max_features s ex /\ In f ex /\
    (best -> separated X f t s /\ optimal sp X msl mwl ex f t s).

Lemma split_ok_perm imp f t d s s' : Permutation s s' -> split_ok imp f t d s -> split_ok imp f t d s'.
Proof.
  intros P (A1 & A2 & A3 & A4 & A5 & ex & A6 & A7 & A8). unfold split_ok.
  rewrite <- (Permutation_length P). split; [auto|]. split; [auto|]. split; [auto|].
  split; [eapply (@allowed_perm _ _ cr sp N rel K); eauto|].
  split. { rewrite <- (@gain_perm _ _ cr sp N rel K X imp f t s s' P). auto. }
  exists ex. split; [eapply (@searched_perm X max_features nf); eauto|]. split; [auto|].
  intros B. destruct (A8 B). split; [eapply separated_perm; eauto|eapply (@optimal_perm _ _ cr sp N rel K); eauto].
Qed.

Definition spl_ok (p : spl) : Prop := Permutation (p_features p) (seq 0 nf) /\ length (p_const p) = nf.

Lemma add_ok start end_ oimp is_left parent depth (b : @bst V) :
  start < end_ <= length (p_samples (b_spl b)) -> spl_ok (b_spl b) ->
  let node := slice (p_samples (b_spl b)) start end_ in
  let imp := match oimp with None => cs_node sp node | Some v => v end in
  let id := length (b_nodes b) in
  exists spl', rearr start end_ (p_samples (b_spl b)) (p_samples spl') /\ spl_ok spl' /\
  ((add start end_ oimp is_left parent depth b =
     Ok (mkBst (add_node (b_nodes b) parent is_left (mkNode Leaf Leaf 0 0%R imp (length node) (cs_wn sp node)))
               (b_values b ++ [cs_value sp node]) spl' (b_max b),
         mkFrec id start end_ end_ depth true imp imp imp 0%R) /\
    (best -> reason depth imp node)) \/
   (exists f t pos il ir, add start end_ oimp is_left parent depth b =
     Ok (mkBst (add_node (b_nodes b) parent is_left (mkNode Unset Unset f t imp (length node) (cs_wn sp node)))
               (b_values b ++ [cs_value sp node]) spl' (b_max b),
         mkFrec id start end_ pos depth false imp il ir (gain sp X imp f t node)) /\
    split_ok imp f t depth node /\
    pos = start + length (left_of X f t node) /\
    Permutation (slice (p_samples spl') start pos) (left_of X f t node) /\
    Permutation (slice (p_samples spl') pos end_) (right_of X f t node) /\
    (il, ir) = cs_children sp (left_of X f t node) (right_of X f t node))).
Proof.
  intros H1 [H3 H4] node imp id. unfold add_split_node.
  set (samples := p_samples (b_spl b)) in *.
  set (c := cr_init cr N samples start end_).
  assert (Hle : start <= end_ <= length samples) by lia.
  assert (R0 : rel start end_ node c samples start) by (apply (k_init K); auto).
  destruct (@k_facts _ _ _ _ _ _ K _ _ _ _ _ _ R0) as (_ & _ & _ & FW & FN & FV & _). rewrite FW, FN. fold imp.
  assert (LN : length node = end_ - start) by (apply slice_length; lia).
  match goal with |- context [if ?b then Ok _ else _] => set (stop := b) end.
  destruct stop eqn:Es; subst stop.
  - exists (b_spl b). split; [apply rearr_refl|]. split; [split; auto|]. left. cbn [bind]. rewrite FV, LN. split; [reflexivity|].
    intros _. unfold leaf_reason. rewrite LN. repeat rewrite orb_true_iff in Es.
    rewrite Nat.leb_le, !Nat.ltb_lt in Es.
    destruct (Rlt_dec (cs_wn sp node) (2 * mwl)); destruct (Rle_dec imp EPSILON); try tauto; intuition congruence.
  - repeat rewrite orb_false_iff in Es. rewrite Nat.leb_gt, !Nat.ltb_ge in Es.
    destruct Es as ((((Es1 & Es2) & Es3) & Es4) & Es5).
    assert (LV : live rel start end_ samples c) by (exists samples, start; exact R0).
    assert (ND : NoDup (p_features (b_spl b))) by (eapply Permutation_NoDup; [symmetry; exact H3|apply seq_NoDup]).
    assert (LF : length (p_features (b_spl b)) = nf) by (rewrite (Permutation_length H3); apply seq_length).
    destruct (@node_split_ok _ _ cr sp N rel K X srt srt_perm srt_sorted rnd rmax rmax_pos rnd_le max_features msl mwl
                random imp start end_ 0 c (b_spl b)) as
      (p' & c' & bs & kc & ex & E & A1 & A2 & A3 & A4 & A5 & A6 & A7 & A8 & A9 & A10 & A11 & A12 & A13); auto; try lia.
    fold samples in A1, A7, A8, A11, A13. fold node in A7, A8, A11, A13. rewrite E. cbn [bind]. clear E.
    assert (PF : Permutation (p_features p') (seq 0 nf)) by (etransitivity; eauto).
    assert (CT : forall g, In g (firstn kc (p_const p')) -> constant_on X g node).
    { intros g Hg. apply A7. unfold slice. cbn [skipn]. now rewrite Nat.sub_0_r. }
    assert (SRC : searched X nf max_features node ex).
    { split; [auto|]. split.
      - intros f Hf. split; [|auto]. apply A10 in Hf. apply (Permutation_in _ H3) in Hf. apply in_seq in Hf. lia.
      - destruct A12 as [A12|(B1 & B2 & B3)]; [left|right].
        + intros f Hf. destruct (A12 f) as [G|G]; [apply (Permutation_in _ (Permutation_sym H3)); apply in_seq; lia|left; auto|right; auto].
        + exists (firstn kc (p_const p')). rewrite LF in *. split.
          * rewrite <- A5. eapply NoDup_firstn. eapply Permutation_NoDup; [symmetry; exact A2|auto].
          * split; [|rewrite firstn_length, A3; split; [auto|split; lia]].
            intros f Hf. split; [|auto]. rewrite <- A5 in Hf. apply firstn_In in Hf.
            apply (Permutation_in _ PF) in Hf. apply in_seq in Hf. lia. }
    exists p'. split; [auto|]. split; [split; [auto|lia]|].
    destruct bs as [s|].
    + destruct A13 as (B1 & B2 & B3 & B4 & B5 & B6 & B7 & B8). cbv zeta in *.
      set (f := sp_feature s) in *. set (t := sp_thr s) in *.
      assert (EI : sp_il s = fst (cs_children sp (left_of X f t node) (right_of X f t node)) /\
                   sp_ir s = snd (cs_children sp (left_of X f t node) (right_of X f t node))) by (rewrite <- B6; auto).
      assert (EG : sp_improvement s = gain sp X imp f t node).
      { rewrite B7. unfold gain. cbv zeta. destruct EI as [-> ->]. reflexivity. }
      assert (OPT : best -> separated X f t node /\ optimal sp X msl mwl ex f t node).
      { intros Ee. destruct (B8 Ee) as [D1 D2]. split; [auto|]. intros f' t' Hf' Af' Sf'. auto. }
      destruct (Rlt_dec (sp_improvement s + EPSILON) mid) as [HD|HD].
      * left. rewrite A8, LN. split; [reflexivity|].
        intros Ee. unfold leaf_reason. do 6 right. exists ex, f, t. destruct (OPT Ee). rewrite <- EG. auto 10.
      * right. exists f, t, (sp_pos s), (sp_il s), (sp_ir s). rewrite A8, LN, EG.
        split; [reflexivity|]. split; [|auto].
        unfold split_ok. split; [lia|]. split; [lia|].
        split. { apply A10 in B1. apply (Permutation_in _ H3) in B1. apply in_seq in B1. lia. }
        split; [auto|]. split; [rewrite <- EG; lra|]. exists ex. auto.
    + left. rewrite A8, LN. split; [reflexivity|].
      intros Ee. unfold leaf_reason. do 5 right. left. exists ex. split; [exact SRC|]. intros f t Hf Af Sf. eapply A13; eauto.
Qed.

(* ------------------------------------------------------------------------------------------------ *)
(** ** The invariant.  [S j] are the training samples of node [j], [D j] its depth. *)

Variable s0 : list nat.
Variable M : nat.

Definition isint (n : node) : bool := match nd_left n with To _ => true | _ => false end.

Definition internal (nodes : list node) (S : nat -> list nat) (D : nat -> nat) (j : nat) (nd : node) (a : nat) : Prop :=
  nd_left nd = To a /\ nd_right nd = To (1 + a) /\ j < a /\ 1 + a < length nodes /\
  split_ok (nd_imp nd) (nd_feature nd) (nd_thr nd) (D j) (S j) /\
  S a = left_of X (nd_feature nd) (nd_thr nd) (S j) /\ S (1 + a) = right_of X (nd_feature nd) (nd_thr nd) (S j) /\
  D a = 1 + D j /\ D (1 + a) = 1 + D j /\
  (nd_imp (nth a nodes node0), nd_imp (nth (1 + a) nodes node0)) = cs_children sp (S a) (S (1 + a)).

Definition gain_of (S : nat -> list nat) (j : nat) (nd : node) : R := gain sp X (nd_imp nd) (nd_feature nd) (nd_thr nd) (S j).

(** a node that was closed although it could be split: no node expanded after it was added gains less *)
Definition passed_over (nodes : list node) (S : nat -> list nat) (D : nat -> nat) (j : nat) (imp : R) : Prop :=
  exists f t, split_ok imp f t (D j) (S j) /\
    forall q ndq a, nth_error nodes q = Some ndq -> nd_left ndq = To a -> j < a -> (gain sp X imp f t (S j) <= gain_of S q ndq)%R.

Definition closed (nodes : list node) (budget : nat) (S : nat -> list nat) (D : nat -> nat) (j : nat) (nd : node) : Prop :=
  nd_left nd = Leaf /\ nd_right nd = Leaf /\
  ((best -> reason (D j) (nd_imp nd) (S j)) \/ (budget = 0 /\ passed_over nodes S D j (nd_imp nd))).

Definition frec_ok (nodes : list node) (samples : list nat) (S : nat -> list nat) (D : nat -> nat) (r : frec) : Prop :=
  fr_start r < fr_end r <= length samples /\ Permutation (slice samples (fr_start r) (fr_end r)) (S (fr_id r)) /\
  D (fr_id r) = fr_depth r /\
  exists nd, nth_error nodes (fr_id r) = Some nd /\ nd_imp nd = fr_imp r /\
  if fr_leaf r then nd_left nd = Leaf /\ nd_right nd = Leaf /\ (best -> reason (fr_depth r) (nd_imp nd) (S (fr_id r)))
  else nd_left nd = Unset /\ nd_right nd = Unset /\
       split_ok (nd_imp nd) (nd_feature nd) (nd_thr nd) (fr_depth r) (S (fr_id r)) /\
       let l := left_of X (nd_feature nd) (nd_thr nd) (S (fr_id r)) in
       let rr := right_of X (nd_feature nd) (nd_thr nd) (S (fr_id r)) in
       fr_pos r = fr_start r + length l /\
       Permutation (slice samples (fr_start r) (fr_pos r)) l /\ Permutation (slice samples (fr_pos r) (fr_end r)) rr /\
       (fr_il r, fr_ir r) = cs_children sp l rr /\ fr_gain r = gain_of S (fr_id r) nd.

Record inv (fr : list frec) (budget : nat) (b : @bst V) (S : nat -> list nat) (D : nat -> nat) : Prop := mkInv {
  v_len : length (b_values b) = length (b_nodes b);
  v_root : S 0 = s0 /\ D 0 = 0 /\ nd_imp (nth 0 (b_nodes b) node0) = cs_node sp s0 /\ 1 <= length (b_nodes b);
  v_spl : spl_ok (b_spl b);
  v_base : forall j nd, nth_error (b_nodes b) j = Some nd ->
     nd_n nd = length (S j) /\ nd_w nd = cs_wn sp (S j) /\ nth_error (b_values b) j = Some (cs_value sp (S j)) /\
     S j <> [] /\ D j <= max_depth;
  v_status : forall j nd, nth_error (b_nodes b) j = Some nd ->
     (exists r, In r fr /\ fr_id r = j) \/ closed (b_nodes b) budget S D j nd \/ exists a, internal (b_nodes b) S D j nd a;
  v_front : forall r, In r fr -> frec_ok (b_nodes b) (p_samples (b_spl b)) S D r;
  v_ids : NoDup (map fr_id fr);
  v_disj : forall r r', In r fr -> In r' fr -> fr_id r <> fr_id r' -> fr_end r <= fr_start r' \/ fr_end r' <= fr_start r;
  v_parent : forall j, 0 < j < length (b_nodes b) -> exists q nd a, nth_error (b_nodes b) q = Some nd /\
     internal (b_nodes b) S D q nd a /\ (j = a \/ j = 1 + a);
  v_count : length (filter isint (b_nodes b)) + budget = M - 1 /\ length (b_nodes b) = 1 + 2 * length (filter isint (b_nodes b));
  v_depth : (forall j, j < length (b_nodes b) -> ~ In j (map fr_id fr) -> D j <= b_max b) /\
            (b_max b = 0 \/ exists j, j < length (b_nodes b) /\ ~ In j (map fr_id fr) /\ D j = b_max b);
  v_greedy : forall r q nd a, In r fr -> fr_leaf r = false -> nth_error (b_nodes b) q = Some nd -> nd_left nd = To a ->
     fr_id r < a -> (fr_gain r <= gain_of S q nd)%R
}.

Lemma count_lset (l : list node) i v w : nth_error l i = Some w ->
  length (filter isint (lset l i v)) + (if isint w then 1 else 0) = length (filter isint l) + (if isint v then 1 else 0).
Proof.
  revert i. induction l as [|x l IH]; intros [|i] H; cbn in H; try discriminate.
  - injection H as ->. cbn [lset filter]. destruct (isint v), (isint w); cbn [length]; lia.
  - cbn [lset filter]. specialize (IH i H). destruct (isint x); cbn [length]; lia.
Qed.

Lemma in_remove (l : list frec) i r x : nth_error l i = Some r ->
  (In x (firstn i l ++ skipn (1 + i) l) -> In x l) /\ (In x l -> x = r \/ In x (firstn i l ++ skipn (1 + i) l)) /\
  (NoDup (map fr_id l) -> NoDup (map fr_id (firstn i l ++ skipn (1 + i) l)) /\
     forall y, In y (firstn i l ++ skipn (1 + i) l) -> fr_id y <> fr_id r) /\
  length (firstn i l ++ skipn (1 + i) l) = length l - 1.
Proof.
  intros H. destruct (nth_error_split _ _ H) as (l1 & l2 & -> & Li).
  assert (E : firstn i (l1 ++ r :: l2) ++ skipn (1 + i) (l1 ++ r :: l2) = l1 ++ l2).
  { rewrite firstn_app, skipn_app, Li. rewrite !firstn_all2 by lia. rewrite skipn_all2 by lia.
    replace (i - i) with 0 by lia. replace (1 + i - i) with 1 by lia. cbn. now rewrite app_nil_r. }
  rewrite E. split; [rewrite !in_app_iff; cbn; tauto|]. split; [rewrite !in_app_iff; cbn; intuition congruence|].
  split; [|rewrite !app_length; cbn; lia].
  rewrite !map_app. cbn [map]. intros ND. pose proof (NoDup_remove _ _ _ ND) as [N1 N2]. split; auto.
  intros y Hy Ey. apply N2. rewrite <- Ey, <- map_app. now apply in_map.
Qed.

(** *** closing a node *)
Lemma close_step fr budget b S D r i : inv fr budget b S D -> nth_error fr i = Some r ->
  (fr_leaf r || (budget <=? 0))%bool = true ->
  inv (firstn i fr ++ skipn (1 + i) fr) budget
      (mkBst (close_node (b_nodes b) (fr_id r)) (b_values b) (b_spl b) (Nat.max (fr_depth r) (b_max b))) S D.
Proof.
  intros [I1 I2 I3 I4 I5 I6 I7 I8 I9 I10 [I11 I12] I13] Hi Hl.
  assert (Hr : In r fr) by (eapply nth_error_In; eauto).
  pose proof (I6 r Hr) as (F1 & F2 & F3 & nd & F4 & F5 & F6).
  set (id := fr_id r) in *. set (nodes := b_nodes b) in *.
  assert (Lid : id < length nodes) by (apply nth_error_Some; congruence).
  set (nd' := mkNode Leaf Leaf 0 0%R (nd_imp nd) (nd_n nd) (nd_w nd)).
  assert (EC : close_node nodes id = lset nodes id nd').
  { unfold close_node. rewrite (nth_error_nth _ _ node0 F4). reflexivity. }
  assert (NE : forall j, nth_error (close_node nodes id) j = if j =? id then Some nd' else nth_error nodes j).
  { intros j. rewrite EC, ne_lset. apply Nat.ltb_lt in Lid. rewrite Lid, andb_true_r. reflexivity. }
  assert (NI : forall j, nd_imp (nth j (close_node nodes id) node0) = nd_imp (nth j nodes node0)).
  { intros j. rewrite EC, lset_nth. destruct (Nat.eqb_spec j id) as [->|]; cbn [andb]; auto.
    destruct (id <? length nodes); auto. now rewrite (nth_error_nth _ _ node0 F4). }
  assert (LE : length (close_node nodes id) = length nodes) by (rewrite EC; apply lset_length).
  assert (NT : forall q ndq a, nth_error (close_node nodes id) q = Some ndq -> nd_left ndq = To a -> nth_error nodes q = Some ndq).
  { intros q ndq a Hq Ha. rewrite NE in Hq. destruct (Nat.eqb_spec q id); [|auto]. injection Hq as <-. discriminate. }
  assert (NU : isint nd = false).
  { unfold isint. destruct (fr_leaf r); destruct F6 as (-> & _); reflexivity. }
  assert (INT : forall j ndj a, nth_error nodes j = Some ndj -> internal nodes S D j ndj a -> internal (close_node nodes id) S D j ndj a).
  { intros j ndj a Hj (A1 & A2 & A3 & A4 & A5). unfold internal. rewrite LE, !NI. auto. }
  assert (NOTID : forall j ndj a, nth_error nodes j = Some ndj -> nd_left ndj = To a -> j <> id).
  { intros j ndj a Hj Ha ->. assert (ndj = nd) by congruence. subst ndj. unfold isint in NU. rewrite Ha in NU. discriminate. }
  destruct (@in_remove fr i r r Hi) as (_ & _ & RM & _). destruct (RM I7) as [RM1 RM2].
  set (rest := firstn i fr ++ skipn (1 + i) fr) in *.
  assert (IR : forall x, In x rest -> In x fr) by (intros x; apply (@in_remove fr i r x Hi)).
  assert (IR' : forall x, In x fr -> x = r \/ In x rest) by (intros x; apply (@in_remove fr i r x Hi)).
  assert (IDS : forall j, In j (map fr_id fr) -> j = id \/ In j (map fr_id rest)).
  { intros j Hj. apply in_map_iff in Hj. destruct Hj as (x & <- & Hx). destruct (IR' x Hx) as [->|Hx']; [now left|right; now apply in_map]. }
  assert (NIDR : ~ In id (map fr_id rest)).
  { intros Hj. apply in_map_iff in Hj. destruct Hj as (x & Ex & Hx). now apply (RM2 x Hx). }
  constructor; cbn [b_nodes b_values b_spl b_max]; fold nodes.
  - rewrite LE. auto.
  - rewrite LE, NI. auto.
  - auto.
  - intros j ndj Hj. rewrite NE in Hj. destruct (Nat.eqb_spec j id) as [->|]; [|now apply I4].
    injection Hj as <-. cbn [nd_n nd_w nd']. now apply I4.
  - intros j ndj Hj. rewrite NE in Hj. destruct (Nat.eqb_spec j id) as [->|Nj].
    + injection Hj as <-. right. left. split; [auto|]. split; [auto|]. cbn [nd_imp nd'].
      destruct (fr_leaf r) eqn:El.
      * left. destruct F6 as (_ & _ & F6). intros B. rewrite F3. auto.
      * right. cbn [orb] in Hl. apply Nat.leb_le in Hl. split; [lia|].
        destruct F6 as (_ & _ & G1 & G2 & _ & _ & _ & G6). exists (nd_feature nd), (nd_thr nd). split; [rewrite F3; auto|].
        intros q ndq a Hq Ha Hlt. apply NT with (a := a) in Hq; auto.
        pose proof (I13 r q ndq a Hr El Hq Ha Hlt) as G. rewrite G6 in G. exact G.
    + destruct (I5 j ndj Hj) as [(x & Hx & Ex)|[(A1 & A2 & A3)|(a & A)]].
      * left. exists x. split; [|auto]. destruct (IR' x Hx) as [->|]; auto. subst j. now contradiction Nj.
      * right. left. split; [auto|]. split; [auto|]. destruct A3 as [A3|(A3 & f & t & A4 & A5)]; [now left|]. right. split; [auto|].
        exists f, t. split; [auto|]. intros q ndq a Hq Ha Hlt. apply NT with (a := a) in Hq; eauto.
      * right. right. exists a. now apply INT.
  - intros x Hx. pose proof (I6 x (IR x Hx)) as (A1 & A2 & A3 & ndx & A4 & A5 & A6). split; [auto|]. split; [auto|]. split; [auto|].
    exists ndx. split; [|auto]. rewrite NE. destruct (Nat.eqb_spec (fr_id x) id); [|auto]. exfalso. now apply (RM2 x Hx).
  - auto.
  - intros x y Hx Hy. apply I8; auto.
  - rewrite LE. intros j Hj. destruct (I9 j Hj) as (q & ndq & a & A1 & A2 & A3). exists q, ndq, a.
    split; [|split; [now apply INT|auto]]. rewrite NE. destruct (Nat.eqb_spec q id); [|auto]. exfalso. eapply NOTID; eauto. apply A2.
  - rewrite LE, EC. pose proof (@count_lset nodes id nd' nd F4) as CN. rewrite NU in CN. change (isint nd') with false in CN.
    rewrite !Nat.add_0_r in CN. rewrite CN. auto.
  - rewrite LE. split.
    + intros j Hj Nj. destruct (Nat.eq_dec j id) as [->|Ne]; [rewrite F3; lia|].
      assert (D j <= b_max b); [|lia]. apply I11; auto. intros Hin. destruct (IDS j Hin); auto.
    + destruct (Nat.le_gt_cases (b_max b) (fr_depth r)) as [G|G].
      * right. exists id. split; [auto|]. split; [auto|]. rewrite F3. lia.
      * destruct I12 as [I12|(j & J1 & J2 & J3)]; [lia|]. right. exists j. split; [auto|]. split; [|lia].
        intros Hin. apply J2. apply in_map_iff in Hin. destruct Hin as (x & <- & Hx). apply in_map. auto.
  - intros x q ndq a Hx Hxl Hq Ha Hlt. apply NT with (a := a) in Hq; eauto.
Qed.

(** *** adding a node *)
Definition state_ok (nd : node) (r : frec) (samples s : list nat) : Prop :=
  if fr_leaf r then nd_left nd = Leaf /\ nd_right nd = Leaf /\ (best -> reason (fr_depth r) (nd_imp nd) s)
  else nd_left nd = Unset /\ nd_right nd = Unset /\
       split_ok (nd_imp nd) (nd_feature nd) (nd_thr nd) (fr_depth r) s /\
       let l := left_of X (nd_feature nd) (nd_thr nd) s in
       let rr := right_of X (nd_feature nd) (nd_thr nd) s in
       fr_pos r = fr_start r + length l /\
       Permutation (slice samples (fr_start r) (fr_pos r)) l /\ Permutation (slice samples (fr_pos r) (fr_end r)) rr /\
       (fr_il r, fr_ir r) = cs_children sp l rr /\ fr_gain r = gain sp X (nd_imp nd) (nd_feature nd) (nd_thr nd) s.

Lemma add_new start end_ oimp is_left parent depth (b : @bst V) s :
  start < end_ <= length (p_samples (b_spl b)) -> spl_ok (b_spl b) ->
  Permutation (slice (p_samples (b_spl b)) start end_) s ->
  exists spl' nd r,
    add start end_ oimp is_left parent depth b =
      Ok (mkBst (add_node (b_nodes b) parent is_left nd) (b_values b ++ [cs_value sp s]) spl' (b_max b), r) /\
    rearr start end_ (p_samples (b_spl b)) (p_samples spl') /\ spl_ok spl' /\
    fr_id r = length (b_nodes b) /\ fr_start r = start /\ fr_end r = end_ /\ fr_depth r = depth /\ fr_imp r = nd_imp nd /\
    nd_imp nd = match oimp with None => cs_node sp s | Some v => v end /\
    nd_n nd = length s /\ nd_w nd = cs_wn sp s /\ state_ok nd r (p_samples spl') s.
Proof.
  intros H1 H2 P. destruct (@add_ok start end_ oimp is_left parent depth b H1 H2) as (spl' & R1 & R2 & A).
  set (node := slice (p_samples (b_spl b)) start end_) in *.
  destruct (@node_perm _ _ cr sp N rel K node s P) as (E1 & E2 & E3). rewrite E1, E2, E3, (Permutation_length P) in A.
  exists spl'. destruct A as [(A1 & A2)|(f & t & pos & il & ir & A1 & A2 & A3 & A4 & A5 & A6)].
  - eexists _, _. split; [exact A1|]. cbn [fr_id fr_start fr_end fr_depth fr_imp nd_imp nd_n nd_w]. do 10 (split; [auto|]).
    unfold state_ok. cbn [fr_leaf fr_depth nd_left nd_right nd_imp]. split; [auto|]. split; [auto|].
    intros B. eapply (@leaf_reason_perm _ _ cr sp N rel K); [exact P|auto].
  - eexists _, _. split; [exact A1|]. cbn [fr_id fr_start fr_end fr_depth fr_imp nd_imp nd_n nd_w]. do 10 (split; [auto|]).
    unfold state_ok. cbn [fr_leaf fr_depth nd_left nd_right nd_imp nd_feature nd_thr fr_pos fr_start fr_end fr_il fr_ir fr_gain].
    pose proof (left_perm X f t P) as PL. pose proof (right_perm X f t P) as PR.
    split; [auto|]. split; [auto|]. split; [eapply split_ok_perm; eauto|]. cbv zeta.
    split; [rewrite <- (Permutation_length PL); auto|]. split; [now rewrite A4|]. split; [now rewrite A5|].
    split; [rewrite <- (@children_perm _ _ cr sp N rel K X f t node s P); auto|].
    apply (@gain_perm _ _ cr sp N rel K); auto.
Qed.

Lemma state_frec nodes samples samples' S D r nd s :
  fr_start r < fr_end r <= length samples' -> Permutation (slice samples' (fr_start r) (fr_end r)) s ->
  nth_error nodes (fr_id r) = Some nd -> S (fr_id r) = s -> D (fr_id r) = fr_depth r -> fr_imp r = nd_imp nd ->
  (forall a c, fr_start r <= a -> c <= fr_end r -> slice samples' a c = slice samples a c) ->
  state_ok nd r samples s -> frec_ok nodes samples' S D r.
Proof.
  intros H1 H2 H3 H4 H5 H6 H7 H8. split; [auto|]. split; [now rewrite H4|]. split; [auto|]. exists nd. split; [auto|]. split; [auto|].
  unfold state_ok in H8. rewrite H4. destruct (fr_leaf r); [auto|]. destruct H8 as (A1 & A2 & A3 & A4 & A5 & A6 & A7 & A8).
  assert (LL : length (left_of X (nd_feature nd) (nd_thr nd) s) <= length s) by apply filter_length_le'.
  assert (LS : length s = fr_end r - fr_start r) by (rewrite <- (Permutation_length H2); apply slice_length; lia).
  split; [auto|]. split; [auto|]. split; [auto|]. cbv zeta. split; [auto|]. rewrite !H7 by lia. unfold gain_of. rewrite H4. auto.
Qed.

Lemma frec_state nodes samples S D r : frec_ok nodes samples S D r -> fr_leaf r = false ->
  exists nd, nth_error nodes (fr_id r) = Some nd /\ fr_imp r = nd_imp nd /\ state_ok nd r samples (S (fr_id r)).
Proof.
  intros (_ & _ & _ & nd & A1 & A2 & A3) E. exists nd. split; [auto|]. split; [auto|]. unfold state_ok. rewrite E in *. auto.
Qed.

(** *** expanding a node *)
Lemma expand_step fr budget b S D r i : inv fr budget b S D -> nth_error fr i = Some r -> fr_leaf r = false -> 1 <= budget ->
  (forall r', In r' fr -> (fr_gain r' <= fr_gain r)%R) ->
  exists lr rr S' D',
    add (fr_start r) (fr_pos r) (Some (fr_il r)) true (Some (fr_id r)) (1 + fr_depth r) b = Ok lr /\
    add (fr_pos r) (fr_end r) (Some (fr_ir r)) false (Some (fr_id r)) (1 + fr_depth r) (fst lr) = Ok rr /\
    inv ((firstn i fr ++ skipn (1 + i) fr) ++ [snd lr; snd rr]) (budget - 1)
        (mkBst (b_nodes (fst rr)) (b_values (fst rr)) (b_spl (fst rr)) (Nat.max (fr_depth r) (b_max (fst rr)))) S' D'.
Proof.
  intros [I1 I2 I3 I4 I5 I6 I7 I8 I9 [I10 I10'] [I11 I12] I13] Hi Hl Hb Hmax.
  assert (Hr : In r fr) by (eapply nth_error_In; eauto).
  pose proof (I6 r Hr) as (F1 & F2 & F3 & nd & F4 & F5 & F6). rewrite Hl in F6.
  destruct F6 as (G1 & G2 & G3 & G4 & G5 & G6 & G7 & G8). cbv zeta in *.
  set (id := fr_id r) in *. set (nodes := b_nodes b) in *. set (n := length nodes).
  set (f := nd_feature nd) in *. set (t := nd_thr nd) in *.
  set (L := left_of X f t (S id)) in *. set (Rt := right_of X f t (S id)) in *.
  assert (Lid : id < n) by (apply nth_error_Some; congruence).
  assert (LS : length (S id) = fr_end r - fr_start r) by (rewrite <- (Permutation_length F2); apply slice_length; lia).
  assert (LLR : length L + length Rt = length (S id)).
  { rewrite <- app_length. apply Permutation_length, left_right_perm. }
  assert (NL : L <> [] /\ Rt <> []) by (destruct G3 as (_ & _ & _ & (A1 & A2 & _) & _); auto).
  assert (LL : 1 <= length L /\ 1 <= length Rt) by (destruct NL; destruct L, Rt; try congruence; cbn; lia).
  destruct (@add_new (fr_start r) (fr_pos r) (Some (fr_il r)) true (Some id) (1 + fr_depth r) b L)
    as (spl1 & ndl & lr & E1 & R1 & K1 & P1 & P2 & P3 & P4 & P5 & P6 & P7 & P8 & P9); auto; [lia|].
  fold nodes in E1, P1. set (nodes1 := add_node nodes (Some id) true ndl) in *.
  set (b1 := mkBst nodes1 (b_values b ++ [cs_value sp L]) spl1 (b_max b)) in *.
  assert (Ls1 : length (p_samples spl1) = length (p_samples (b_spl b))) by (destruct R1 as (A & _); auto).
  assert (SR : Permutation (slice (p_samples spl1) (fr_pos r) (fr_end r)) Rt).
  { rewrite (@rearr_slice_out (fr_start r) (fr_pos r) (fr_pos r) (fr_end r) _ _ R1); auto. }
  destruct (@add_new (fr_pos r) (fr_end r) (Some (fr_ir r)) false (Some id) (1 + fr_depth r) b1 Rt)
    as (spl2 & ndr & rr & E2 & R2 & K2 & Q1 & Q2 & Q3 & Q4 & Q5 & Q6 & Q7 & Q8 & Q9); auto; [cbn [b_spl b1]; lia|].
  cbn [b_nodes b_values b_spl b_max b1] in *.
  set (nodes2 := add_node nodes1 (Some id) false ndr) in *.
  assert (Ln1 : length nodes1 = 1 + n) by (unfold nodes1, add_node; rewrite app_length, lset_length; cbn; unfold n; lia).
  assert (Ln2 : length nodes2 = 2 + n) by (unfold nodes2, add_node; rewrite app_length, lset_length, Ln1; cbn; lia).
  set (nd' := set_child false (1 + n) (set_child true n nd)).
  assert (N1 : forall j, j < n -> nth_error nodes1 j = if j =? id then Some (set_child true n nd) else nth_error nodes j).
  { intros j Hj. unfold nodes1, add_node. rewrite nth_error_app1 by (rewrite lset_length; auto). rewrite ne_lset.
    rewrite (nth_error_nth _ _ node0 F4). apply Nat.ltb_lt in Lid. fold n. rewrite Lid, andb_true_r. reflexivity. }
  assert (N1n : nth_error nodes1 n = Some ndl).
  { unfold nodes1, add_node. rewrite nth_error_app2 by (rewrite lset_length; auto). rewrite lset_length. fold n. now rewrite Nat.sub_diag. }
  assert (N2 : forall j, j < n -> nth_error nodes2 j = if j =? id then Some nd' else nth_error nodes j).
  { intros j Hj. unfold nodes2, add_node. rewrite nth_error_app1 by (rewrite lset_length; lia). rewrite ne_lset, Ln1.
    assert (nth id nodes1 node0 = set_child true n nd) as ->.
    { apply nth_error_nth. rewrite N1 by auto. now rewrite Nat.eqb_refl. }
    destruct (Nat.ltb_spec id (1 + n)); [|lia]. rewrite andb_true_r. destruct (Nat.eqb_spec j id) as [->|Ne]; [reflexivity|].
    rewrite N1 by auto. destruct (Nat.eqb_spec j id); [contradiction|reflexivity]. }
  assert (N2n : nth_error nodes2 n = Some ndl).
  { unfold nodes2, add_node. rewrite nth_error_app1 by (rewrite lset_length; lia). rewrite ne_lset.
    destruct (Nat.eqb_spec n id); [lia|]. exact N1n. }
  assert (N2m : nth_error nodes2 (1 + n) = Some ndr).
  { unfold nodes2, add_node. rewrite nth_error_app2 by (rewrite lset_length, Ln1; lia). rewrite lset_length, Ln1. now rewrite Nat.sub_diag. }
  assert (NI : forall j, j < n -> nd_imp (nth j nodes2 node0) = nd_imp (nth j nodes node0)).
  { intros j Hj. pose proof (N2 j Hj) as Ej. destruct (nth_error nodes j) as [x|] eqn:Ex.
    - rewrite (nth_error_nth _ _ node0 Ex). destruct (Nat.eqb_spec j id) as [->|].
      + rewrite (nth_error_nth _ _ node0 Ej). assert (x = nd) as -> by congruence. reflexivity.
      + now rewrite (nth_error_nth _ _ node0 Ej).
    - apply nth_error_None in Ex. fold n in Ex. lia. }
  set (S' := fun j => if j =? n then L else if j =? 1 + n then Rt else S j).
  set (D' := fun j => if j =? n then 1 + fr_depth r else if j =? 1 + n then 1 + fr_depth r else D j).
  assert (SO : forall j, j < n -> S' j = S j /\ D' j = D j).
  { intros j Hj. unfold S', D'. destruct (Nat.eqb_spec j n); [lia|]. destruct (Nat.eqb_spec j (1 + n)); [lia|auto]. }
  assert (SN : S' n = L /\ D' n = 1 + fr_depth r) by (unfold S', D'; now rewrite Nat.eqb_refl).
  assert (SM : S' (1 + n) = Rt /\ D' (1 + n) = 1 + fr_depth r).
  { unfold S', D'. destruct (Nat.eqb_spec (1 + n) n); [lia|]. now rewrite Nat.eqb_refl. }
  destruct (SO id Lid) as [SOi DOi].
  destruct (@in_remove fr i r r Hi) as (_ & _ & RM & RL). destruct (RM I7) as [RM1 RM2].
  set (rest := firstn i fr ++ skipn (1 + i) fr) in *.
  assert (IR : forall x, In x rest -> In x fr) by (intros x; apply (@in_remove fr i r x Hi)).
  assert (IR' : forall x, In x fr -> x = r \/ In x rest) by (intros x; apply (@in_remove fr i r x Hi)).
  assert (IDF : forall x, In x fr -> fr_id x < n).
  { intros x Hx. destruct (I6 x Hx) as (_ & _ & _ & ndx & Ex & _). apply nth_error_Some. fold nodes. congruence. }
  assert (OUT : forall a c, c <= fr_start r \/ fr_end r <= a -> slice (p_samples spl2) a c = slice (p_samples (b_spl b)) a c).
  { intros a c Hac. rewrite (@rearr_slice_out (fr_pos r) (fr_end r) a c _ _ R2) by lia.
    apply (@rearr_slice_out (fr_start r) (fr_pos r) a c _ _ R1). lia. }
  assert (Ls2 : length (p_samples spl2) = length (p_samples (b_spl b))) by (destruct R2 as (A & _); rewrite A; auto).
  assert (OLDINT : forall j ndj a, nth_error nodes j = Some ndj -> nd_left ndj = To a -> j <> id).
  { intros j ndj a Hj Ha ->. assert (ndj = nd) by congruence. subst ndj. congruence. }
  assert (INT : forall j ndj a, nth_error nodes j = Some ndj -> internal nodes S D j ndj a ->
            nth_error nodes2 j = Some ndj /\ internal nodes2 S' D' j ndj a).
  { intros j ndj a Hj (A1 & A2 & A3 & A4 & A5 & A6 & A7 & A8 & A9 & A10). fold n in A4.
    destruct (SO j) as [Sj Dj]; [lia|]. destruct (SO a) as [Sa Da]; [lia|]. destruct (SO (1 + a)) as [Sb Db]; [lia|].
    split. { rewrite N2 by lia. destruct (Nat.eqb_spec j id); [|auto]. exfalso. eapply OLDINT; eauto. }
    unfold internal. rewrite Sj, Dj, Sa, Da, Sb, Db, !NI by lia. rewrite Ln2. do 3 (split; [auto|]). split; [lia|auto 10]. }
  assert (NEWINT : internal nodes2 S' D' id nd' n).
  { unfold internal. rewrite SOi, DOi. destruct SN as [-> ->]. destruct SM as [-> ->]. rewrite Ln2.
    rewrite (nth_error_nth _ _ node0 N2n), (nth_error_nth _ _ node0 N2m), P6, Q6, G7. cbn [nd' set_child nd_left nd_right nd_imp nd_feature nd_thr]. fold f t L Rt.
    rewrite F3. do 3 (split; [auto|]). split; [lia|auto 10]. }
  assert (OLDT : forall q ndq a, nth_error nodes2 q = Some ndq -> nd_left ndq = To a ->
            (q = id /\ ndq = nd' /\ a = n) \/ (nth_error nodes q = Some ndq /\ q < n /\ q <> id)).
  { intros q ndq a Hq Ha. destruct (Nat.lt_ge_cases q n) as [Lq|Gq].
    - rewrite N2 in Hq by auto. destruct (Nat.eqb_spec q id) as [->|]; [|auto]. injection Hq as <-. left. split; [auto|]. split; [auto|].
      cbn in Ha. congruence.
    - exfalso. assert (q < 2 + n) by (rewrite <- Ln2; apply nth_error_Some; congruence).
      assert (q = n \/ q = 1 + n) as [->| ->] by lia.
      + assert (ndq = ndl) by congruence. subst ndq. unfold state_ok in P9. destruct (fr_leaf lr); destruct P9 as (P9 & _); congruence.
      + assert (ndq = ndr) by congruence. subst ndq. unfold state_ok in Q9. destruct (fr_leaf rr); destruct Q9 as (Q9 & _); congruence. }
  assert (GO : forall q ndq, q < n -> gain_of S' q ndq = gain_of S q ndq).
  { intros q ndq Hq. unfold gain_of. now destruct (SO q Hq) as [-> _]. }
  assert (FL : forall x, In x (rest ++ [lr; rr]) -> In x rest \/ x = lr \/ x = rr).
  { intros x Hx. apply in_app_or in Hx. destruct Hx as [Hx|[Hx|[Hx|[]]]]; auto. }
  assert (IDL : fr_id lr = n) by (rewrite P1; reflexivity).
  assert (IDR : fr_id rr = 1 + n) by (rewrite Q1; auto).
  eexists _, _, S', D'. split; [exact E1|]. split; [cbn [fst]; exact E2|]. cbn [fst snd b_nodes b_values b_spl b_max].
  fold nodes2. fold rest. constructor; cbn [b_nodes b_values b_spl b_max].
  - rewrite !app_length, Ln2. cbn [length]. rewrite I1. fold nodes n. lia.
  - destruct I2 as (A1 & A2 & A3 & A4). fold nodes n in A4. destruct (SO 0) as [-> ->]; [lia|]. rewrite NI by lia.
    split; [auto|]. split; [auto|]. split; [auto|]. lia.
  - auto.
  - intros j ndj Hj. destruct (Nat.lt_ge_cases j n) as [Lj|Gj].
    + assert (B : exists x, nth_error nodes j = Some x /\ nd_n ndj = nd_n x /\ nd_w ndj = nd_w x).
      { rewrite N2 in Hj by auto. destruct (Nat.eqb_spec j id) as [->|]; [|exists ndj; auto].
        injection Hj as <-. exists nd. split; [auto|]. cbn. auto. }
      destruct B as (x & B1 & -> & ->). destruct (SO j Lj) as [-> ->].
      destruct (I4 j x B1) as (A1 & A2 & A3 & A4). do 2 (split; [auto|]). split; [|auto].
      rewrite nth_error_app1 by (rewrite app_length, I1; fold nodes n; cbn; lia). rewrite nth_error_app1 by (rewrite I1; fold nodes n; lia). auto.
    + assert (j < 2 + n) by (rewrite <- Ln2; apply nth_error_Some; congruence).
      assert (j = n \/ j = 1 + n) as [->| ->] by lia.
      * assert (ndj = ndl) as -> by congruence. destruct SN as [-> ->]. do 2 (split; [auto|]).
        split; [|split; [tauto|destruct G3 as (G3 & _); lia]].
        rewrite nth_error_app1 by (rewrite app_length, I1; fold nodes n; cbn; lia).
        rewrite nth_error_app2 by (rewrite I1; fold nodes n; lia). rewrite I1. fold nodes n. now rewrite Nat.sub_diag.
      * assert (ndj = ndr) as -> by congruence. destruct SM as [-> ->]. do 2 (split; [auto|]).
        split; [|split; [tauto|destruct G3 as (G3 & _); lia]].
        rewrite nth_error_app2 by (rewrite app_length, I1; fold nodes n; cbn; lia). rewrite app_length, I1. fold nodes n. cbn [length].
        replace (1 + n - (n + 1)) with 0 by lia. reflexivity.
  - intros j ndj Hj. destruct (Nat.lt_ge_cases j n) as [Lj|Gj].
    + rewrite N2 in Hj by auto. destruct (Nat.eqb_spec j id) as [->|Nj].
      * injection Hj as <-. right. right. exists n. exact NEWINT.
      * destruct (I5 j ndj Hj) as [(x & Hx & Ex)|[(A1 & A2 & A3)|(a & A)]].
        -- left. exists x. split; [|auto]. destruct (IR' x Hx) as [->|Hx']; [now contradiction Nj|]. apply in_or_app. now left.
        -- right. left. destruct (SO j Lj) as [Sj Dj]. split; [auto|]. split; [auto|].
           destruct A3 as [A3|(A3 & _)]; [|lia]. left. rewrite Sj, Dj. auto.
        -- right. right. exists a. now apply INT.
    + assert (j < 2 + n) by (rewrite <- Ln2; apply nth_error_Some; congruence).
      assert (j = n \/ j = 1 + n) as [->| ->] by lia.
      * left. exists lr. split; [|auto]. apply in_or_app. right. now left.
      * left. exists rr. split; [|auto]. apply in_or_app. right. right. now left.
  - intros x Hx. destruct (FL x Hx) as [Hx'|[->| ->]].
    + pose proof (IR x Hx') as Hxf. pose proof (I6 x Hxf) as (A1 & A2 & A3 & ndx & A4 & A5 & A6).
      destruct (SO (fr_id x) (IDF x Hxf)) as [Sx Dx].
      assert (DJ : fr_end x <= fr_start r \/ fr_end r <= fr_start x) by (apply I8; auto).
      unfold frec_ok. rewrite Sx, Dx, Ls2. split; [auto|]. split; [rewrite OUT by lia; auto|]. split; [auto|].
      exists ndx. split. { rewrite N2 by auto. destruct (Nat.eqb_spec (fr_id x) id); [|auto]. exfalso. now apply (RM2 x Hx'). }
      split; [auto|]. destruct (fr_leaf x); [auto|]. destruct A6 as (B1 & B2 & B3 & B4 & B5 & B6 & B7 & B8). cbv zeta in *.
      assert (LLx : length (left_of X (nd_feature ndx) (nd_thr ndx) (S (fr_id x))) <= length (S (fr_id x))) by apply filter_length_le'.
      assert (LSx : length (S (fr_id x)) = fr_end x - fr_start x) by (rewrite <- (Permutation_length A2); apply slice_length; lia).
      rewrite !OUT by lia. unfold gain_of in *. rewrite Sx. auto 10.
    + apply state_frec with (nd := ndl) (s := L) (samples := p_samples spl1); auto.
      * rewrite P2, P3, Ls2. lia.
      * rewrite P2, P3. rewrite (@rearr_slice_out (fr_pos r) (fr_end r) _ _ _ _ R2) by lia.
        eapply Permutation_trans; [eapply rearr_slice; [|exact R1]; lia|auto].
      * now rewrite IDL.
      * rewrite IDL. apply SN.
      * rewrite IDL, P4. apply SN.
      * intros a c Ha Hc. apply (@rearr_slice_out (fr_pos r) (fr_end r) _ _ _ _ R2). rewrite P3 in Hc. lia.
    + apply state_frec with (nd := ndr) (s := Rt) (samples := p_samples spl2); auto.
      * rewrite Q2, Q3, Ls2. lia.
      * rewrite Q2, Q3. eapply Permutation_trans; [eapply rearr_slice; [|exact R2]; lia|auto].
      * now rewrite IDR.
      * rewrite IDR. apply SM.
      * rewrite IDR, Q4. apply SM.
  - rewrite map_app. cbn [map]. rewrite IDL, IDR. apply NoDup_app'; auto.
    + repeat constructor; cbn; lia.
    + intros j Hj Hj'. apply in_map_iff in Hj. destruct Hj as (x & <- & Hx). pose proof (IDF x (IR x Hx)). cbn in Hj'. lia.
  - assert (DJ : forall x, In x rest -> fr_end x <= fr_start r \/ fr_end r <= fr_start x) by (intros x Hx; apply I8; auto).
    intros x y Hx Hy Ne. destruct (FL x Hx) as [Hx'|[->| ->]]; destruct (FL y Hy) as [Hy'|[->| ->]]; try congruence.
    + apply I8; auto.
    + rewrite P2, P3. destruct (DJ x Hx'); lia.
    + rewrite Q2, Q3. destruct (DJ x Hx'); lia.
    + rewrite P2, P3. destruct (DJ y Hy'); lia.
    + rewrite P3, Q2. lia.
    + rewrite Q2, Q3. destruct (DJ y Hy'); lia.
    + rewrite P3, Q2. lia.
  - rewrite Ln2. intros j Hj. destruct (Nat.lt_ge_cases j n) as [Lj|Gj].
    + destruct (I9 j) as (q & ndq & a & A1 & A2 & A3); [fold nodes n; lia|]. exists q, ndq, a.
      destruct (INT q ndq a A1 A2) as [B1 B2]. auto.
    + exists id, nd', n. split; [rewrite N2 by auto; now rewrite Nat.eqb_refl|]. split; [exact NEWINT|lia].
  - assert (IL : isint ndl = false) by (unfold isint; unfold state_ok in P9; destruct (fr_leaf lr); destruct P9 as (-> & _); auto).
    assert (IRt : isint ndr = false) by (unfold isint; unfold state_ok in Q9; destruct (fr_leaf rr); destruct Q9 as (-> & _); auto).
    assert (INd : isint nd = false) by (unfold isint; now rewrite G1).
    assert (C1 : length (filter isint nodes1) = 1 + length (filter isint nodes)).
    { unfold nodes1, add_node. rewrite filter_app, app_length. cbn [filter]. rewrite IL. cbn [length].
      pose proof (@count_lset nodes id (set_child true (length nodes) (nth id nodes node0)) nd F4) as CN. rewrite INd in CN.
      change (isint (set_child true (length nodes) (nth id nodes node0))) with true in CN. cbv iota in CN. lia. }
    assert (C2 : length (filter isint nodes2) = 1 + length (filter isint nodes)).
    { unfold nodes2, add_node. rewrite filter_app, app_length. cbn [filter]. rewrite IRt. cbn [length].
      assert (F41 : nth_error nodes1 id = Some (set_child true n nd)) by (rewrite N1 by auto; now rewrite Nat.eqb_refl).
      pose proof (@count_lset nodes1 id (set_child false (length nodes1) (nth id nodes1 node0)) _ F41) as CN.
      rewrite (nth_error_nth _ _ node0 F41) in CN.
      change (isint (set_child true n nd)) with true in CN.
      change (isint (set_child false (length nodes1) (set_child true n nd))) with true in CN.
      rewrite (nth_error_nth _ _ node0 F41). cbv iota in CN. lia. }
    rewrite Ln2, C2. fold nodes n in I10, I10'. lia.
  - rewrite Ln2. rewrite map_app. cbn [map]. rewrite IDL, IDR.
    assert (MX : forall j, In j (map fr_id fr) -> j = id \/ In j (map fr_id rest)).
    { intros j Hj. apply in_map_iff in Hj. destruct Hj as (x & <- & Hx). destruct (IR' x Hx) as [->|Hx']; [now left|right; now apply in_map]. }
    split.
    + intros j Hj Nj. rewrite in_app_iff in Nj. cbn in Nj.
      assert (Lj : j < n) by lia. destruct (SO j Lj) as [_ ->].
      destruct (Nat.eq_dec j id) as [->|Ne]; [rewrite F3; lia|].
      assert (D j <= b_max b); [|lia]. apply I11; [fold nodes n; lia|]. intros Hin. destruct (MX j Hin); tauto.
    + destruct (Nat.le_gt_cases (b_max b) (fr_depth r)) as [G|G].
      * right. exists id. split; [lia|]. split; [|rewrite DOi, F3; lia]. rewrite in_app_iff. cbn.
        intros [Hin|Hin]; [|lia]. apply in_map_iff in Hin. destruct Hin as (x & Ex & Hx). now apply (RM2 x Hx).
      * destruct I12 as [I12|(j & J1 & J2 & J3)]; [lia|]. right. exists j. fold nodes n in J1. split; [lia|]. destruct (SO j J1) as [_ ->].
        split; [|lia]. rewrite in_app_iff. cbn. intros [Hin|Hin]; [|lia]. apply J2.
        apply in_map_iff in Hin. destruct Hin as (x & <- & Hx). apply in_map. auto.
  - intros x q ndq a Hx Hxl Hq Ha Hlt. destruct (OLDT q ndq a Hq Ha) as [(-> & -> & ->)|(Hq' & Lq & Nq)].
    + destruct (FL x Hx) as [Hx'|[->| ->]]; [|lia|lia].
      rewrite GO by auto. pose proof (Hmax x (IR x Hx')) as G. rewrite G8 in G. exact G.
    + rewrite GO by auto. destruct (FL x Hx) as [Hx'|[->| ->]]; [eapply I13; eauto| |].
      * exfalso. destruct (I5 q ndq Hq') as [(y & Hy & Ey)|[(A1 & _)|(a' & A)]].
        -- destruct (I6 y Hy) as (_ & _ & _ & ndy & B1 & _ & B2). rewrite Ey in B1. assert (ndy = ndq) by congruence. subst ndy.
           destruct (fr_leaf y); destruct B2 as (B2 & _); congruence.
        -- congruence.
        -- destruct A as (A1 & _ & _ & A2 & _). fold n in A2. assert (a' = a) by congruence. lia.
      * exfalso. destruct (I5 q ndq Hq') as [(y & Hy & Ey)|[(A1 & _)|(a' & A)]].
        -- destruct (I6 y Hy) as (_ & _ & _ & ndy & B1 & _ & B2). rewrite Ey in B1. assert (ndy = ndq) by congruence. subst ndy.
           destruct (fr_leaf y); destruct B2 as (B2 & _); congruence.
        -- congruence.
        -- destruct A as (A1 & _ & _ & A2 & _). fold n in A2. assert (a' = a) by congruence. lia.
Qed.

(** *** the loop *)
Lemma loop_ok : forall fuel fr budget b S D, inv fr budget b S D -> length fr + 2 * budget <= fuel ->
  exists b' S' D' budget', loop fuel fr budget b = Ok b' /\ inv [] budget' b' S' D'.
Proof.
  induction fuel as [|k IH]; intros fr budget b S D I Hf.
  - destruct fr as [|r fr]; [|cbn in Hf; lia]. exists b, S, D, budget. auto.
  - destruct fr as [|r0 fr0] eqn:Ef; [exists b, S, D, budget; auto|]. rewrite <- Ef in *.
    assert (NEf : fr <> []) by (rewrite Ef; discriminate).
    assert (EL : loop (Datatypes.S k) fr budget b =
      match nth_error fr (pick fr) with
      | None => Err IndexError
      | Some r =>
          let rest := firstn (pick fr) fr ++ skipn (1 + pick fr) fr in
          let seen b := mkBst (b_nodes b) (b_values b) (b_spl b) (Nat.max (fr_depth r) (b_max b)) in
          if (fr_leaf r || (budget <=? 0))%nat%bool
          then loop k rest budget (seen (mkBst (close_node (b_nodes b) (fr_id r)) (b_values b) (b_spl b) (b_max b)))
          else
            do lr <- add (fr_start r) (fr_pos r) (Some (fr_il r)) true (Some (fr_id r)) (1 + fr_depth r) b ;
            do rr <- add (fr_pos r) (fr_end r) (Some (fr_ir r)) false (Some (fr_id r)) (1 + fr_depth r) (fst lr) ;
            loop k (rest ++ [snd lr; snd rr]) (budget - 1) (seen (fst rr))
      end) by (rewrite Ef; reflexivity).
    rewrite EL. clear EL. destruct (pick_max NEf) as (r & Er & Mx). rewrite Er. cbv zeta.
    destruct (@in_remove fr (pick fr) r r Er) as (_ & _ & _ & RL).
    assert (L1 : 1 <= length fr) by (rewrite Ef; cbn; lia).
    destruct (fr_leaf r || (budget <=? 0))%bool eqn:Eb.
    + pose proof (@close_step fr budget b S D r (pick fr) I Er Eb) as I'. cbn [b_nodes b_values b_spl b_max].
      eapply IH; [exact I'|]. rewrite RL. lia.
    + apply orb_false_iff in Eb. destruct Eb as [Eb1 Eb2]. apply Nat.leb_gt in Eb2.
      destruct (@expand_step fr budget b S D r (pick fr) I Er Eb1 ltac:(lia) Mx) as (lr & rr & S' & D' & A1 & A2 & I').
      rewrite A1. cbn [bind]. rewrite A2. cbn [bind]. eapply IH; [exact I'|]. rewrite app_length, RL. cbn [length]. lia.
Qed.

Lemma bf_build_ok : s0 <> [] -> 1 <= M ->
  exists b S D budget, bf_build cr X srt rnd rmax max_features msl mwl mss max_depth mid N random pick M s0 nf = Ok b /\
    inv [] budget b S D.
Proof.
  intros Hs HM. unfold bf_build.
  set (b0 := mkBst [] [] (mkSpl s0 (seq 0 nf) (repeat 0%nat nf) 0) 0).
  assert (L0 : 1 <= length s0) by (destruct s0; [congruence|cbn; lia]).
  assert (SL : slice (p_samples (b_spl b0)) 0 (length s0) = s0).
  { unfold slice. cbn [b0 b_spl p_samples skipn]. rewrite Nat.sub_0_r. apply firstn_all. }
  destruct (@add_new 0 (length s0) None true None 0 b0 s0) as (spl1 & nd & r & E & R1 & K1 & P1 & P2 & P3 & P4 & P5 & P6 & P7 & P8 & P9).
  - cbn [b0 b_spl p_samples]. lia.
  - split; cbn [b0 b_spl p_features p_const]; [reflexivity|apply repeat_length].
  - now rewrite SL.
  - rewrite E. cbn [bind fst snd]. cbn [b0 b_nodes b_values b_spl b_max add_node app length] in *.
    set (b1 := mkBst [nd] [cs_value sp s0] spl1 0).
    assert (IV : inv [r] (M - 1) b1 (fun _ => s0) (fun _ => 0)).
    { assert (NIx : isint nd = false) by (unfold isint; unfold state_ok in P9; destruct (fr_leaf r); destruct P9 as (-> & _); auto).
      constructor; cbn [b1 b_nodes b_values b_spl b_max length map].
      - reflexivity.
      - cbn [nth]. rewrite P6. auto.
      - auto.
      - intros j x Hj. destruct j as [|j]; [|destruct j; discriminate]. injection Hj as <-. cbn [nth_error]. repeat split; auto. lia.
      - intros j x Hj. destruct j as [|j]; [|destruct j; discriminate]. left. exists r. split; [now left|auto].
      - intros x [<-|[]]. apply state_frec with (nd := nd) (s := s0) (samples := p_samples spl1); auto.
        + rewrite P2, P3. destruct R1 as (-> & _). cbn [p_samples]. lia.
        + rewrite P2, P3. rewrite <- SL at 2. eapply rearr_slice; [|exact R1]. lia.
        + now rewrite P1.
      - repeat constructor. intros [].
      - intros x y [<-|[]] [<-|[]]. congruence.
      - intros j Hj. lia.
      - cbn [filter]. rewrite NIx. cbn. lia.
      - rewrite P1. split; [|now left]. intros j Hj Nj. lia.
      - intros x q ndq a [<-|[]] _ Hq Ha _. destruct q as [|q]; [|destruct q; discriminate]. injection Hq as <-.
        unfold isint in NIx. rewrite Ha in NIx. discriminate. }
    destruct (@loop_ok (2 * M) [r] (M - 1) b1 _ _ IV) as (b' & S' & D' & bu & A1 & A2); [cbn [length]; lia|].
    exists b', S', D', bu. auto.
Qed.
End BF.
