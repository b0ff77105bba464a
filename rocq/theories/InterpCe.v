(** Theorems about CEInterpreter: C196 - C200. *)
From Coq Require Import ZArith Reals Lra String FunctionalExtensionality.
From Verif Require Import Base EstUtilsModel MetaProofs TreeCritModel TreeCritProps SplitterModel SplitterSpec TreeSpec SplitterProofs TreeProps RlossModel InterpModel InterpSpec InterpProofs InterpPolicy.
Set Implicit Arguments.
Local Notation length := List.length.
Local Open Scope nat_scope.

(** *** rows and paths *)
Lemma mapX_paths nodes v : (forall x, exists p, tree_path nodes x = Ok p) ->
  exists ps, mapX (tree_path nodes) v = Ok ps /\ length ps = length v /\ forall i, i < length v -> tree_path nodes (nth i v (fun _ => 0%R)) = Ok (nth i ps []).
Proof.
  intros P. induction v as [|x v (ps & E & L & H)].
  - exists []. split; [reflexivity|]. split; [reflexivity|]. cbn. lia.
  - destruct (P x) as [p Hp]. exists (p :: ps). cbn [mapX]. rewrite Hp, E. cbn [bind]. split; [reflexivity|]. split; [cbn; lia|].
    intros [|i] Hi; cbn [nth]; [auto|]. apply H. cbn in Hi. lia.
Qed.

Lemma map_filter_S {C} (g : nat -> C) (h : nat -> bool) l : map g (filter h (map S l)) = map (fun i => g (S i)) (filter (fun i => h (S i)) l).
Proof. induction l as [|i l IH]; [reflexivity|]. cbn [map filter]. destruct (h (S i)); cbn [map]; now rewrite IH. Qed.

Lemma filter_combine {A B} (f : A -> bool) (da : A) (db : B) (xs : list A) (ys : list B) : length xs = length ys ->
  map snd (filter (fun p => f (fst p)) (combine xs ys)) = map (fun i => nth i ys db) (filter (fun i => f (nth i xs da)) (seq 0 (length xs))).
Proof.
  revert ys. induction xs as [|x xs IH]; intros [|y ys] L; try discriminate; [reflexivity|]. cbn [combine filter length seq fst]. change (nth 0 (x :: xs) da) with x.
  rewrite <- seq_shift. cbn in L. injection L as L. specialize (IH ys L).
  assert (Q : map (fun i => nth i (y :: ys) db) (filter (fun i => f (nth i (x :: xs) da)) (map S (seq 0 (length xs)))) =
              map (fun i => nth i ys db) (filter (fun i => f (nth i xs da)) (seq 0 (length xs)))).
  { apply (@map_filter_S _ (fun i => nth i (y :: ys) db) (fun i => f (nth i (x :: xs) da))). }
  destruct (f x); cbn [map snd]; rewrite Q, IH; reflexivity.
Qed.

Lemma through_going nodes v ps eff j : length eff = length v -> length ps = length v ->
  (forall i, i < length v -> tree_path nodes (nth i v (fun _ => 0%R)) = Ok (nth i ps [])) ->
  through j ps eff = map (fun i => nth i eff []) (going nodes v j).
Proof.
  intros L1 L2 H. unfold through. rewrite (@filter_combine _ _ (existsb (Nat.eqb j)) [] []) by lia. f_equal. unfold going. rewrite L2.
  apply filter_ext_in. intros i Hi. apply in_seq in Hi. now rewrite H by lia.
Qed.

Lemma np_mean_mean l f k : np_mean (map f l) k = mean (fun i => nth k (f i) 0%R) l.
Proof. unfold np_mean, mean, np_sum. now rewrite map_map, map_length. Qed.

(** *** sums over the rows that go through a node *)
Lemma mean_sum f s : s <> [] -> (INR (length s) * mean f s = Rsum (map f s))%R.
Proof.
  intros H. unfold mean, Rsum. assert (0 < length s) by (destruct s; [congruence|cbn; lia]). apply lt_INR in H0. cbn [INR] in H0. field. lra.
Qed.

Lemma sum_sq f s : s <> [] -> (INR (length s) * mean (fun i => (f i - mean f s) ^ 2)%R s = Rsum (map (fun i => f i ^ 2)%R s) - INR (length s) * mean f s ^ 2)%R.
Proof.
  intros H. rewrite mean_sum by auto. pose proof (mean_sum f H) as M. set (m := mean f s) in *.
  assert (G : forall l, (Rsum (map (fun i => (f i - m) ^ 2)%R l) = Rsum (map (fun i => f i ^ 2)%R l) - 2 * m * Rsum (map f l) + INR (length l) * m ^ 2)%R).
  { induction l as [|i l IH]; [cbn; ring|]. cbn [map length]. unfold Rsum in *. cbn [fold_right]. rewrite IH, S_INR. ring. }
  rewrite G, <- M. ring.
Qed.

Lemma going_split nodes train v j a b : binary_tree nodes train -> nd_left (nth j nodes node0) = To a -> nd_right (nth j nodes node0) = To b ->
  Permutation (going nodes v j) (going nodes v a ++ going nodes v b).
Proof.
  intros B La Lb. unfold going.
  set (thr := fun c i => match tree_path nodes (nth i v (fun _ => 0%R)) with Ok p => existsb (Nat.eqb c) p | Err _ => false end).
  change (Permutation (filter (thr j) (seq 0 (length v))) (filter (thr a) (seq 0 (length v)) ++ filter (thr b) (seq 0 (length v)))).
  assert (K : forall i, (thr j i = true /\ thr a i = true /\ thr b i = false) \/ (thr j i = true /\ thr a i = false /\ thr b i = true) \/
                        (thr j i = false /\ thr a i = false /\ thr b i = false)).
  { intros i. unfold thr. set (x := nth i v (fun _ => 0%R)). destruct (bt_path B x) as [p Hp]. rewrite Hp.
    destruct (tree_facts B) as (U & Z & D & _).
    assert (CH : chain nodes 0 p) by (eapply path_chain; exact Hp).
    assert (Eja : edge nodes j a) by (unfold edge, kids; rewrite La, Lb; now left).
    assert (Ejb : edge nodes j b) by (unfold edge, kids; rewrite La, Lb; right; now left).
    assert (Nab : a <> b) by (intros ->; eauto).
    (* on a chain, a child is on it only right after its parent *)
    assert (UP : forall c, edge nodes j c -> In c p -> In j p).
    { intros c Ec Hc. destruct (in_split _ _ Hc) as (u & w & ->).
      assert (G : forall u id, chain nodes id (u ++ c :: w) -> u = [] /\ id = c \/ exists q, In q u /\ edge nodes q c).
      { clear. induction u as [|y u IH]; intros id H; cbn [app] in H.
        - left. inversion H; auto.
        - right. inversion H as [? E1 E2|? c' ? He Hc E]; subst; [destruct u; discriminate|]. destruct (IH _ Hc) as [[_ ->]|(q & Hq & Eq)].
          + exists y. split; [now left|auto].
          + exists q. split; [now right|auto]. }
      destruct (G _ _ CH) as [[_ <-]|(q & Hq & Eq)]; [destruct (Z _ Ec)|]. rewrite (U _ _ _ Ec Eq). apply in_or_app. auto. }
    assert (NX : In j p -> exists c, (c = a \/ c = b) /\ In c p).
    { intros Hj. destruct (in_split _ _ Hj) as (u & w & ->). 
      assert (G : forall u k id, path_row k nodes x id = Ok (u ++ j :: w) -> exists c, (c = a \/ c = b) /\ In c w).
      { clear - La Lb. induction u as [|y u IH]; intros k id H; cbn [app] in H; (destruct k; [discriminate|]).
        - destruct (path_step _ _ _ _ H) as [[L E]|(NL & c & p' & Hc & Hp & E)].
          + injection E as -> ->. congruence.
          + injection E as -> ->. exists c. split.
            * rewrite La, Lb in Hc. destruct (side nodes x id); injection Hc as <-; auto.
            * destruct k; [discriminate|]. destruct (path_step _ _ _ _ Hp) as [[_ ->]|(_ & ? & ? & _ & _ & ->)]; now left.
        - destruct (path_step _ _ _ _ H) as [[L E]|(NL & c & p' & Hc & Hp & E)].
          + injection E as _ E. destruct u; discriminate.
          + injection E as -> <-. eapply IH; eauto. }
      unfold tree_path in Hp. destruct (G _ _ _ Hp) as (c & Hc & Hin). exists c. split; [auto|]. apply in_or_app. right. now right. }
    assert (NB : In a p -> In b p -> False).
    { intros Ha Hb. assert (PRE : forall c, edge nodes j c -> In c p -> exists u w, p = u ++ j :: c :: w).
      { intros c Ec Hc. destruct (in_split _ _ Hc) as (u & w & Ep).
        assert (CU : chain nodes 0 (u ++ [c])).
        { rewrite Ep in CH. clear - CH. revert CH. generalize 0 as id. induction u as [|y u IH]; intros id H; cbn [app] in *.
          - inversion H; constructor.
          - inversion H as [? E1 E2|? c' ? He Hc E]; subst; [destruct u; discriminate|]. econstructor; eauto. }
        destruct (chain_pred _ _ CU) as [[_ ->]|(u' & q & -> & _ & Eq)]; [destruct (Z _ Ec)|].
        rewrite (U _ _ _ Eq Ec) in *. exists u', w. rewrite Ep, <- app_assoc. reflexivity. }
      destruct (PRE a Eja Ha) as (u1 & w1 & E1). destruct (PRE b Ejb Hb) as (u2 & w2 & E2).
      assert (u1 = u2).
      { assert (C1 : chain nodes 0 (u1 ++ [j])).
        { rewrite E1 in CH. clear - CH. revert CH. generalize 0 as id. induction u1 as [|y u IH]; intros id H; cbn [app] in *.
          - inversion H; constructor.
          - inversion H as [? E1 E2|? c' ? He Hc E]; subst; [destruct u; discriminate|]. econstructor; eauto. }
        assert (C2 : chain nodes 0 (u2 ++ [j])).
        { rewrite E2 in CH. clear - CH. revert CH. generalize 0 as id. induction u2 as [|y u IH]; intros id H; cbn [app] in *.
          - inversion H; constructor.
          - inversion H as [? E1 E2|? c' ? He Hc E]; subst; [destruct u; discriminate|]. econstructor; eauto. }
        eapply chain_unique; eauto. }
      subst u2. rewrite E1 in E2. apply app_inv_head in E2. injection E2 as E2 _. auto. }
    assert (EX : forall c, existsb (Nat.eqb c) p = true <-> In c p).
    { intros c. rewrite existsb_exists. split; [intros (y & Hy & E); apply Nat.eqb_eq in E; now subst|intros H; exists c; split; [auto|apply Nat.eqb_refl]]. }
    destruct (existsb (Nat.eqb j) p) eqn:Ej, (existsb (Nat.eqb a) p) eqn:Ea, (existsb (Nat.eqb b) p) eqn:Eb; auto.
    - exfalso. apply NB; apply EX; auto.
    - exfalso. apply EX in Ej. destruct (NX Ej) as (c & [-> | ->] & Hc); apply EX in Hc; congruence.
    - exfalso. assert (In j p) by (apply (UP a Eja); apply EX; auto). apply EX in H. congruence.
    - exfalso. assert (In j p) by (apply (UP a Eja); apply EX; auto). apply EX in H. congruence.
    - exfalso. assert (In j p) by (apply (UP b Ejb); apply EX; auto). apply EX in H. congruence. }
  generalize (seq 0 (length v)). intros l. induction l as [|i l IH]; [reflexivity|]. cbn [filter].
  destruct (K i) as [(-> & -> & ->)|[(-> & -> & ->)|(-> & -> & ->)]].
  - cbn [app]. now apply perm_skip.
  - rewrite IH at 1. apply Permutation_middle.
  - exact IH.
Qed.

Section CE.
Variable f32 : R -> R.
Variable sk_fit : mat -> list (list R) -> res stree.
Notation fit := (ci_fit f32 sk_fit).
Notation interpret := (ci_interpret f32).
Notation predict := (ci_predict f32).
Notation cast32 m := (mkMat (mt_w m) (cast f32 (mt_rows m))).

Lemma ci_fit_inv o data e o' : fit o data e = (o', Ok tt) ->
  exists cov m v eff t paths, ce_fitted e = true /\ ce_cov e = Some cov /\ mat_cols data cov = Ok m /\ ci_transform (Some e) m = Ok v /\
    ce_estimate e data = Ok eff /\ sk_fit v eff = Ok t /\ sk_paths f32 t v = Ok paths /\
    o' = mkCI true (Some e) cov v (Some t)
           (Some (map (node_info (match eff with r :: _ => length r | [] => 0 end) paths eff) (seq 0 (length (st_nodes t))))) /\
    ce_rows f32 e data = Ok (cast32 v).
Proof.
  unfold ci_fit. destruct (ce_fitted e) eqn:Ef; cbn [negb]; [|now intros [= _ ?]]. destruct (ce_cov e) as [cov|] eqn:Ec; [|now intros [= _ ?]].
  destruct (mat_cols data cov) as [m|] eqn:Em; cbn [bind]; [|now intros [= _ ?]].
  destruct (ci_transform (Some e) m) as [v|] eqn:Ev; [|now intros [= _ ?]].
  destruct (ce_estimate e data) as [eff|] eqn:Ee; [|now intros [= _ ?]]. destruct (sk_fit v eff) as [t|] eqn:Et; [|now intros [= _ ?]].
  destruct (sk_paths f32 t v) as [paths|] eqn:Ep; [|now intros [= _ ?]]. intros [= <-].
  exists cov, m, v, eff, t, paths. do 8 (split; [auto|]). unfold ce_rows. rewrite Ec, Em. cbn [bind]. cbn [ci_transform] in Ev. rewrite Ev. reflexivity.
Qed.

(** the fit, under sklearn's promise *)
Lemma ci_run o data e o' : sk_promise f32 sk_fit -> fit o data e = (o', Ok tt) ->
  exists cov v eff t ps, ce_cov e = Some cov /\ ce_rows f32 e data = Ok (cast32 v) /\ ce_estimate e data = Ok eff /\ sk_fit v eff = Ok t /\
    st_nf t = mt_w v /\ binary_tree (st_nodes t) (cast f32 (mt_rows v)) /\ length ps = length (mt_rows v) /\
    (forall i, i < length (mt_rows v) -> tree_path (st_nodes t) (nth i (cast f32 (mt_rows v)) (fun _ => 0%R)) = Ok (nth i ps [])) /\
    o' = mkCI true (Some e) cov v (Some t) (Some (map (node_info (match eff with r :: _ => length r | [] => 0 end) ps eff) (seq 0 (length (st_nodes t))))).
Proof.
  intros SK E. destruct (ci_fit_inv _ _ _ E) as (cov & m & v & eff & t & paths & _ & Ec & _ & _ & Ee & Et & Ep & -> & Er).
  destruct (SK _ _ _ Et) as [S1 S2]. exists cov, v, eff, t, paths. do 6 (split; [auto|]).
  unfold sk_paths, sk_rows in Ep. rewrite S1, Nat.eqb_refl in Ep. cbn [bind] in Ep.
  destruct (@mapX_paths (st_nodes t) (cast f32 (mt_rows v)) (bt_path S2)) as (ps & E' & L & H). assert (ps = paths) as -> by congruence.
  assert (LC : length (cast f32 (mt_rows v)) = length (mt_rows v)) by (unfold cast; apply map_length).
  rewrite LC in *. auto.
Qed.

(* ------------------------------------------------------------------------------------------------ *)
(** ** C196: node_dict_ *)

(** the mean and the standard deviation stored for a node are those of the estimated effects of the training rows that go through it *)
Theorem C196_node_dict o data e o' v eff w : sk_promise f32 sk_fit -> fit o data e = (o', Ok tt) -> ce_rows f32 e data = Ok v ->
  ce_estimate e data = Ok eff -> table (length (mt_rows v)) w eff ->
  exists t dict, ci_tree o' = Some t /\ ci_dict o' = Some dict /\ length dict = length (st_nodes t) /\
  forall j info, nth_error dict j = Some info ->
    let s := going (st_nodes t) (mt_rows v) j in
    let m k := mean (fun i => nth k (nth i eff []) 0%R) s in
    s <> [] /\ length (ni_mean info) = w /\ length (ni_std info) = w /\
    forall k, k < w -> nth k (ni_mean info) 0%R = m k /\
      nth k (ni_std info) 0%R = sqrt (mean (fun i => (nth k (nth i eff []) 0 - m k) ^ 2)%R s).
Proof.
  intros SK E Er Ee [Lt Wt]. destruct (ci_run _ _ _ SK E) as (cov & v0 & eff0 & t & ps & _ & Er0 & Ee0 & _ & _ & BT & Lp & Hp & ->).
  assert (eff0 = eff) as -> by congruence. assert (v = cast32 v0) as -> by congruence. cbn [mt_rows] in *.
  assert (LC : length (cast f32 (mt_rows v0)) = length (mt_rows v0)) by (unfold cast; apply map_length). rewrite LC in *.
  set (rows := cast f32 (mt_rows v0)) in *. cbn [ci_tree ci_dict]. eexists _, _. split; [reflexivity|]. split; [reflexivity|].
  split; [now rewrite map_length, seq_length|]. intros j info Hj. apply nth_error_mapseq in Hj. destruct Hj as [Hj ->].
  assert (TG : through j ps eff = map (fun i => nth i eff []) (going (st_nodes t) rows j)).
  { apply through_going; try lia. intros i Hi. apply Hp. lia. }
  cbv zeta. set (s := going (st_nodes t) rows j) in *.
  assert (NS : s <> []).
  { destruct (bt_used BT Hj) as (x & p & Hin & Px & Hjp). apply In_nth_error in Hin. destruct Hin as [i Hi].
    assert (In i s); [|intros Z; rewrite Z in *; contradiction]. unfold s, going. apply filter_In. split.
    - apply in_seq. assert (i < length rows) by (apply nth_error_Some; congruence). lia.
    - rewrite (nth_error_nth _ _ (fun _ => 0%R) Hi), Px. apply existsb_exists. exists j. split; [auto|apply Nat.eqb_refl]. }
  assert (Wd : (match eff with r :: _ => length r | [] => 0 end) = w).
  { destruct eff as [|r eff]; [|apply Wt; now left]. exfalso. cbn in Lt. apply NS. unfold s, going. rewrite LC, <- Lt. reflexivity. }
  rewrite Wd. unfold node_info. cbn [ni_mean ni_std]. split; [auto|]. split; [now rewrite map_length, seq_length|]. split; [now rewrite map_length, seq_length|].
  intros k Hk. rewrite TG.
  assert (N : forall f : nat -> R, nth k (map f (seq 0 w)) 0%R = f k).
  { intros f. rewrite (nth_indep _ 0%R (f 0)) by (rewrite map_length, seq_length; auto). rewrite map_nth, seq_nth by auto. reflexivity. }
  rewrite !N. split; [apply np_mean_mean|]. unfold np_std. rewrite np_mean_mean. unfold mean at 2. unfold np_sum. now rewrite map_map, map_length.
Qed.

(** in particular node 0 carries the average over all training rows, and a node combines its children: counts, means and variances *)
Theorem C196_root_and_children o data e o' v eff w : sk_promise f32 sk_fit -> fit o data e = (o', Ok tt) -> ce_rows f32 e data = Ok v ->
  ce_estimate e data = Ok eff -> table (length (mt_rows v)) w eff ->
  exists t dict, ci_tree o' = Some t /\ ci_dict o' = Some dict /\
    let size j := INR (length (going (st_nodes t) (mt_rows v) j)) in
    let mu j k := match nth_error dict j with Some i => nth k (ni_mean i) 0%R | None => 0%R end in
    let sd j k := match nth_error dict j with Some i => nth k (ni_std i) 0%R | None => 0%R end in
    (forall k, k < w -> mu 0 k = mean (fun i => nth k (nth i eff []) 0%R) (seq 0 (length (mt_rows v)))) /\
    forall j a b, nd_left (nth j (st_nodes t) node0) = To a -> nd_right (nth j (st_nodes t) node0) = To b ->
      (size j = size a + size b)%R /\
      forall k, k < w -> (size j * mu j k = size a * mu a k + size b * mu b k)%R /\
        (size j * sd j k ^ 2 = size a * (sd a k ^ 2 + (mu a k - mu j k) ^ 2) + size b * (sd b k ^ 2 + (mu b k - mu j k) ^ 2))%R.
Proof.
  intros SK E Er Ee T. destruct (@C196_node_dict o data e o' v eff w SK E Er Ee T) as (t & dict & Ht & Hd & Ld & H).
  exists t, dict. split; [auto|]. split; [auto|]. cbv zeta in *.
  destruct (ci_run _ _ _ SK E) as (cov & v0 & eff0 & t0 & ps & _ & Er0 & _ & _ & _ & BT & _ & _ & Eo). rewrite Eo in Ht. cbn [ci_tree] in Ht. injection Ht as <-.
  assert (v = cast32 v0) as -> by congruence. cbn [mt_rows] in *. set (rows := cast f32 (mt_rows v0)) in *. set (nodes := st_nodes t0) in *.
  destruct (tree_facts BT) as (_ & _ & _ & N1 & HK). fold nodes in N1, HK.
  assert (HD : forall j, j < length nodes -> exists info, nth_error dict j = Some info).
  { intros j Hj. destruct (nth_error dict j) eqn:Ej; [eauto|]. apply nth_error_None in Ej. lia. }
  assert (SQ : forall x, (0 <= x -> sqrt x ^ 2 = x)%R) by (intros x Hx; replace (sqrt x ^ 2)%R with (sqrt x * sqrt x)%R by ring; now apply sqrt_sqrt).
  assert (NN : forall f s, (0 <= mean (fun i => (f i) ^ 2)%R s)%R).
  { intros f s. unfold mean. destruct s as [|i s]; [cbn; unfold Rdiv; rewrite Rmult_0_l; lra|]. apply Rmult_le_pos.
    - clear. induction (i :: s) as [|y l IH]; cbn [map fold_right]; [lra|]. pose proof (pow2_ge_0 (f y)). lra.
    - apply Rlt_le, Rinv_0_lt_compat. cbn [length]. rewrite S_INR. pose proof (pos_INR (length s)). lra. }
  split.
  - intros k Hk. destruct (HD 0 N1) as [info Ei]. rewrite Ei. destruct (H 0 info Ei) as (_ & _ & _ & Q). destruct (Q k Hk) as [-> _]. f_equal.
    unfold going. apply filter_all. intros i _. destruct (bt_path BT (nth i rows (fun _ => 0%R))) as [p Hp]. fold nodes in Hp. rewrite Hp.
    apply existsb_exists. exists 0. split; [|reflexivity]. apply path_chain in Hp. inversion Hp; now left.
  - intros j a b La Lb. pose proof (@going_split nodes rows rows j a b BT La Lb) as P.
    assert (EJ : edge nodes j a /\ edge nodes j b).
    { unfold edge, kids. rewrite La, Lb. split; [now left|right; now left]. }
    assert (Hj : j < length nodes) by (apply (edge_in nodes j a); tauto).
    pose proof (HK _ _ (proj1 EJ)) as Ha. pose proof (HK _ _ (proj2 EJ)) as Hb.
    destruct (HD j Hj) as [ij Ej]. destruct (HD a Ha) as [ia Ea]. destruct (HD b Hb) as [ib Eb]. rewrite Ej, Ea, Eb.
    destruct (H j ij Ej) as (Nj & _ & _ & Qj). destruct (H a ia Ea) as (Na & _ & _ & Qa). destruct (H b ib Eb) as (Nb & _ & _ & Qb).
    set (sj := going nodes rows j) in *. set (sa := going nodes rows a) in *. set (sb := going nodes rows b) in *.
    assert (Ln : (INR (length sj) = INR (length sa) + INR (length sb))%R) by (rewrite <- plus_INR, <- app_length; f_equal; now apply Permutation_length).
    split; [auto|]. intros k Hk. destruct (Qj k Hk) as [-> ->]. destruct (Qa k Hk) as [-> ->]. destruct (Qb k Hk) as [-> ->].
    rewrite !SQ by apply NN. set (f := fun i => nth k (nth i eff []) 0%R).
    change (fun i => ((nth k (nth i eff []) 0 - mean f sj) ^ 2)%R) with (fun i => ((f i - mean f sj) ^ 2)%R).
    change (fun i => ((nth k (nth i eff []) 0 - mean f sa) ^ 2)%R) with (fun i => ((f i - mean f sa) ^ 2)%R).
    change (fun i => ((nth k (nth i eff []) 0 - mean f sb) ^ 2)%R) with (fun i => ((f i - mean f sb) ^ 2)%R).
    assert (SUM : forall g : nat -> R, Rsum (map g sj) = (Rsum (map g sa) + Rsum (map g sb))%R).
    { intros g. rewrite (Rsum_perm (Permutation_map g P)), map_app, Rsum_app. reflexivity. }
    assert (M : (INR (length sj) * mean f sj = INR (length sa) * mean f sa + INR (length sb) * mean f sb)%R) by (rewrite !mean_sum by auto; apply SUM).
    split; [exact M|]. rewrite !sum_sq by auto. pose proof (SUM (fun i => (f i) ^ 2)%R) as SS.
    pose proof (sum_sq f Na) as Va. pose proof (sum_sq f Nb) as Vb.
    rewrite !Rmult_plus_distr_l, Va, Vb. rewrite SS.
    generalize dependent (mean f sj). generalize (mean f sa), (mean f sb), (Rsum (map (fun i => (f i ^ 2)%R) sa)), (Rsum (map (fun i => (f i ^ 2)%R) sb)). rewrite Ln.
    generalize (INR (length sa)), (INR (length sb)). intros na nb ma mb qa qb mj M.
    replace (qa + qb - (na + nb) * mj ^ 2)%R with (qa + qb - mj * ((na + nb) * mj))%R by ring. rewrite M.
    replace (na * (ma - mj) ^ 2 + 0)%R with (na * (ma - mj) ^ 2)%R by ring.
    assert (X : (mj * ((na + nb) * mj) = mj * (na * ma + nb * mb))%R) by now rewrite M. nra.
Qed.

(* ------------------------------------------------------------------------------------------------ *)
(** ** C197: interpret *)

Lemma width_of e fr m : ce_rows f32 e fr = Ok m -> mt_w m = match ce_trans e with Some t => tr_out t | None => match ce_cov e with Some c => length c | None => 0 end end.
Proof.
  unfold ce_rows. destruct (ce_cov e) as [cov|]; [|discriminate]. unfold mat_cols. cbn [columns].
  destruct (mapX _ cov) as [cs|] eqn:Ec; cbn [bind]; [|discriminate].
  assert (L : length cs = length cov). { apply mapX_inv in Ec. symmetry. clear - Ec. induction Ec; cbn; auto. }
  destruct (ce_trans e) as [t|].
  - unfold transform. destruct (_ =? _); cbn [bind]; [|discriminate]. intros [= <-]. reflexivity.
  - cbn [bind]. intros [= <-]. cbn. auto.
Qed.

(** interpret on a query with covariates m (as the interpreter sees them) *)
Lemma ci_interpret_run o data e o' q m : sk_promise f32 sk_fit -> (forall x, f32 (f32 x) = f32 x) -> fit o data e = (o', Ok tt) ->
  match q with QFrame fr => ce_rows f32 e fr = Ok m | QNone => ce_rows f32 e data = Ok m | QArray a => m = cast32 a /\ exists v, ce_rows f32 e data = Ok v /\ mt_w a = mt_w v end ->
  forall t, ci_tree o' = Some t ->
  exists ess, interpret o' q = Ok ess /\ length ess = length (mt_rows m) /\
    forall i ls, nth_error ess i = Some ls -> exists x p leaf, nth_error (mt_rows m) i = Some x /\ tree_path (st_nodes t) x = Ok p /\
      tree_apply (st_nodes t) x = Ok leaf /\ ls = row_lines (st_nodes t) i x leaf p.
Proof.
  intros SK Hf E Hq t Ht. destruct (ci_run _ _ _ SK E) as (cov & v & eff & t0 & ps & Ec & Er & _ & _ & Snf & BT & _ & _ & ->).
  cbn [ci_tree] in Ht. injection Ht as ->.
  assert (FE : ci_features f32 (mkCI true (Some e) cov v (Some t) (Some (map (node_info (match eff with r :: _ => length r | [] => 0 end) ps eff) (seq 0 (length (st_nodes t)))))) t q
               = Ok m).
  { unfold ci_features. destruct q as [a|fr|].
    - destruct Hq as (-> & v' & Ev & Wa). assert (v' = cast32 v) as -> by congruence. cbn [mt_w] in Wa. rewrite Wa, Snf, Nat.eqb_refl. cbn [bind]. rewrite <- Wa. reflexivity.
    - pose proof (width_of e fr Hq) as W1. pose proof (width_of e data Er) as W2. cbn [mt_w] in W2.
      unfold ce_rows in Hq. rewrite Ec in Hq. cbn [ci_cov ci_est ci_transform]. destruct (mat_cols fr cov) as [m0|]; cbn [bind] in *; [|discriminate].
      destruct (match ce_trans e with Some t => transform t m0 | None => Ok m0 end) as [m1|]; cbn [bind] in *; [|discriminate]. injection Hq as <-.
      cbn [mt_w] in W1. rewrite Snf, W2, <- W1, Nat.eqb_refl. reflexivity.
    - assert (m = cast32 v) as -> by congruence. reflexivity. }
  assert (CI : cast f32 (mt_rows m) = mt_rows m).
  { destruct q as [a|fr|].
    - destruct Hq as [-> _]. cbn [mt_rows]. now apply cast_idem.
    - unfold ce_rows in Hq. rewrite Ec in Hq. destruct (mat_cols fr cov) as [m0|]; cbn [bind] in Hq; [|discriminate].
      destruct (match ce_trans e with Some t => transform t m0 | None => Ok m0 end) as [m1|]; cbn [bind] in Hq; [|discriminate]. injection Hq as <-. cbn [mt_rows]. now apply cast_idem.
    - assert (m = cast32 v) as -> by congruence. cbn [mt_rows]. now apply cast_idem. }
  rename FE into FE'.
  assert (Wm : mt_w m = st_nf t).
  { destruct q as [a|fr|].
    - destruct Hq as (-> & v' & Ev & Wa). assert (v' = cast32 v) as -> by congruence. cbn [mt_w] in *. congruence.
    - rewrite (width_of e fr Hq), <- (width_of e data Er). cbn. auto.
    - assert (m = cast32 v) as -> by congruence. cbn. auto. }
  unfold ci_interpret. cbn [ci_fitted negb ci_tree]. rewrite FE'. cbn [bind]. unfold sk_paths, sk_apply, sk_rows. rewrite Wm, Nat.eqb_refl. cbn [bind]. rewrite CI.
  destruct (@mapX_paths (st_nodes t) (mt_rows m) (bt_path BT)) as (pp & Ep & Lp & Hp). rewrite Ep. cbn [bind].
  destruct (@applies_ok (st_nodes t) (mt_rows m) (bt_path BT)) as (ls & El & Ll & Hl). rewrite El. cbn [bind].
  eexists. split; [reflexivity|]. unfold all_lines. split; [now rewrite map_length, seq_length|].
  intros i l Hi. apply nth_error_mapseq in Hi. destruct Hi as [Hi ->].
  destruct (nth_error (mt_rows m) i) as [x|] eqn:Ex; [|apply nth_error_None in Ex; lia]. pose proof (nth_error_nth _ _ (fun _ => 0%R) Ex) as Nx.
  exists x, (nth i pp []), (nth i ls 0). split; [auto|]. split; [rewrite <- Nx; apply Hp; auto|]. split; [apply Hl; auto|]. now rewrite Nx.
Qed.

(** Every row of the query gets an explanation; its conditions are about that row and true of it, some training row meets them,
    and they are the reason: a row x' of any query meets them exactly when it is given the same nodes and signs. *)
Theorem C197_interpret o data e o' q q' m m' : sk_promise f32 sk_fit -> (forall x, f32 (f32 x) = f32 x) -> fit o data e = (o', Ok tt) ->
  let about q m := match q with QFrame fr => ce_rows f32 e fr = Ok m | QNone => ce_rows f32 e data = Ok m
                              | QArray a => m = cast32 a /\ exists v, ce_rows f32 e data = Ok v /\ mt_w a = mt_w v end in
  about q m -> about q' m' ->
  exists ess ess' v, interpret o' q = Ok ess /\ interpret o' q' = Ok ess' /\ ce_rows f32 e data = Ok v /\ length ess = length (mt_rows m) /\
    forall i ls, nth_error ess i = Some ls -> exists x, nth_error (mt_rows m) i = Some x /\ honest i x ls /\ who ls (mt_rows v) <> [] /\
      forall i' ls' x', nth_error ess' i' = Some ls' -> nth_error (mt_rows m') i' = Some x' ->
      let skeleton l := (ln_node l, ln_feature l, ln_le l, ln_thr l) in
      (meets ls x' <-> map skeleton ls' = map skeleton ls).
Proof.
  intros SK Hf E about A A'. destruct (ci_run _ _ _ SK E) as (cov & v & eff & t & ps & Ec & Er & _ & _ & Snf & BT & _ & _ & Eo).
  assert (Ht : ci_tree o' = Some t) by (rewrite Eo; reflexivity).
  destruct (@ci_interpret_run o data e o' q m SK Hf E A t Ht) as (ess & I & L & H).
  destruct (@ci_interpret_run o data e o' q' m' SK Hf E A' t Ht) as (ess' & I' & L' & H').
  exists ess, ess', (cast32 v). do 4 (split; [auto|]). intros i ls Hi. destruct (H i ls Hi) as (x & p & leaf & Hx & Px & Ax & El).
  destruct (@lines_ok (st_nodes t) _ i x p leaf BT Px Ax) as (L1 & L2 & L3 & L4). rewrite <- El in *. exists x. split; [auto|]. split; [auto|]. split.
  { destruct (tree_path_apply _ _ Px) as (p0 & j & -> & Aj & Lf & _). assert (j = leaf) as -> by congruence.
    assert (Hlf : leaf < length (st_nodes t)).
    { destruct p0 as [|q0 p0] using rev_ind.
      - destruct (tree_facts BT) as (_ & _ & _ & N1 & _). apply path_chain in Px. cbn [app] in Px. inversion Px; lia.
      - apply path_chain in Px. destruct (chain_pred _ _ Px) as [[Z _]|(p' & q1 & _ & _ & Eq)]; [destruct p0; discriminate|].
        destruct (tree_facts BT) as (_ & _ & _ & _ & HK). eapply HK; eauto. }
    destruct (bt_used BT Hlf) as (y & py & Hy & Py & Hin). apply In_nth_error in Hy. destruct Hy as [r Hr].
    assert (Ay : tree_apply (st_nodes t) y = Ok leaf).
    { destruct (tree_path_apply _ _ Py) as (u & j & -> & Aj' & _ & NL). apply in_app_or in Hin. destruct Hin as [Hin|[->|[]]]; [|auto].
      exfalso. now apply (NL leaf Hin). }
    assert (In r (who ls (cast f32 (mt_rows v)))); [|intros Z; cbn [mt_rows] in Z; rewrite Z in *; contradiction].
    unfold who. apply filter_In. split.
    - apply in_seq. assert (r < length (cast f32 (mt_rows v))) by (apply nth_error_Some; congruence). lia.
    - rewrite (nth_error_nth _ _ (fun _ => 0%R) Hr). apply meetsb_ok. now apply L4. }
  intros i' ls' x' Hi' Hx' sk. destruct (H' i' ls' Hi') as (x1 & p' & leaf' & Hx1 & Px' & Ax' & El'). assert (x1 = x') as -> by congruence.
  destruct (@lines_ok (st_nodes t) _ i' x' p' leaf' BT Px' Ax') as (L1' & L2' & L3' & L4'). rewrite <- El' in *. split.
  - intros M. assert (leaf' = leaf) as -> by (apply L4 in M; congruence).
    assert (Pp : p' = p).
    { destruct (tree_facts BT) as (U & Z & _). rewrite L2, L2'. f_equal. eapply chain_unique; eauto.
      - rewrite <- L2'. eapply path_chain; exact Px'.
      - rewrite <- L2. eapply path_chain; exact Px. }
    destruct (tree_path_apply _ _ Px) as (p0 & j & Ep0 & Aj & Lf & NL). assert (j = leaf) as -> by congruence.
    rewrite El, El', Pp, Ep0. rewrite Ep0 in Px. rewrite (@row_lines_path _ i' x' p0 leaf Lf NL), (@row_lines_path _ i x p0 leaf Lf NL), !map_map.
    unfold sk. cbn [ln_node ln_feature ln_le ln_thr]. apply map_ext_in. intros y Hy.
    assert (side (st_nodes t) x' y = side (st_nodes t) x y) as ->; [|reflexivity].
    pose proof (@same_leaf (st_nodes t) _ x x' p0 leaf BT Px) as Q. apply Q; auto.
  - intros Q l Hl. apply (in_map sk) in Hl. rewrite <- Q in Hl. apply in_map_iff in Hl. destruct Hl as (l' & El1 & Hl').
    destruct (L1' l' Hl') as (_ & _ & T1). unfold sk in El1. injection El1 as _ E2 E3 E4. unfold true_of in *. now rewrite <- E2, <- E3, <- E4.
Qed.

(** without arguments, interpret explains the training data *)
Theorem C197_training_data o data e o' : sk_promise f32 sk_fit -> (forall x, f32 (f32 x) = f32 x) -> fit o data e = (o', Ok tt) ->
  interpret o' QNone = interpret o' (QFrame data).
Proof.
  intros SK Hf E. destruct (ci_run _ _ _ SK E) as (cov & v & eff & t & ps & Ec & Er & _ & _ & Snf & BT & _ & _ & Eo).
  assert (FE : ci_features f32 o' t QNone = ci_features f32 o' t (QFrame data)).
  { rewrite Eo. unfold ci_features. cbn [ci_v ci_cov ci_est ci_transform]. unfold ce_rows in Er. rewrite Ec in Er.
    destruct (mat_cols data cov) as [m0|]; cbn [bind] in *; [|discriminate].
    destruct (ci_fit_inv _ _ _ E) as (cov' & m & v' & eff' & t' & paths & _ & Ec' & Em & Ev & _ & _ & _ & Eo' & _).
    rewrite Eo in Eo'. injection Eo' as <- <- <- _.
    destruct (match ce_trans e with Some t => transform t m0 | None => Ok m0 end) as [m1|] eqn:E1; cbn [bind] in *; [|discriminate].
    assert (mt_w m1 = mt_w v) as W by (injection Er as Er _; auto). rewrite W, Snf, Nat.eqb_refl. cbn [bind]. rewrite W. now injection Er as _ ->. }
  unfold ci_interpret. rewrite Eo in *. cbn [ci_fitted negb ci_tree]. now rewrite FE.
Qed.

(* ------------------------------------------------------------------------------------------------ *)
(** ** C198: predict and decide *)

(** A frame whose columns are exactly the covariates, in the same order, and no transformer: the predicted effects of a row
    are the means of the estimated effects of the training rows that meet the conditions interpret prints for it
    (with sklearn's squared_error). *)
Theorem C198_predict_partial o data e o' fr m v eff cov : sk_promise f32 sk_fit -> sk_means f32 sk_fit -> (forall x, f32 (f32 x) = f32 x) ->
  fit o data e = (o', Ok tt) -> ce_rows f32 e data = Ok v -> ce_estimate e data = Ok eff -> ce_cov e = Some cov -> ce_trans e = None ->
  map fst fr = cov -> NoDup cov -> ce_rows f32 e fr = Ok m ->
  exists ess ps, interpret o' (QFrame fr) = Ok ess /\ predict o' fr = Ok ps /\ ci_decide f32 o' fr = Ok ps /\ length ps = length (mt_rows m) /\
    forall i ls r, nth_error ess i = Some ls -> nth_error ps i = Some r ->
      r = map (fun k => mean (fun i => nth k (nth i eff []) 0%R) (who ls (mt_rows v))) (seq 0 (match eff with r :: _ => length r | [] => 0 end)).
Proof.
  intros SK SM Hf E Er Ee Ec Et Efr ND Em.
  destruct (ci_run _ _ _ SK E) as (cov0 & v0 & eff0 & t & ps0 & Ec0 & Er0 & Ee0 & Esk & Snf & BT & _ & _ & Eo).
  assert (Ht : ci_tree o' = Some t) by (rewrite Eo; reflexivity).
  assert (v = cast32 v0) as -> by congruence. assert (eff0 = eff) as -> by congruence.
  destruct (@ci_interpret_run o data e o' (QFrame fr) m SK Hf E Em t Ht) as (ess & I & L & H). exists ess.
  assert (MA : mat_cols fr cov = Ok (mat_all fr)).
  { unfold mat_cols, mat_all. cbn [columns].
    assert (G : forall pre fr', fr = pre ++ fr' -> mapX (fun c => match get_col fr c with Some v => Ok v | None => Err KeyError end) (map fst fr') = Ok (map snd fr')).
    { intros pre fr' Epf. revert pre Epf. induction fr' as [|[c u] fr' IH]; intros pre Epf; [reflexivity|]. cbn [map fst snd mapX].
      assert (GC : get_col fr c = Some u).
      { rewrite Epf. rewrite <- Efr, Epf, map_app in ND. cbn [map fst] in ND. clear - ND. induction pre as [|[d w] pre IHp]; cbn [app get_col map fst] in *.
        - now rewrite String.eqb_refl.
        - inversion ND; subst. destruct (String.eqb_spec c d) as [->|]; [|auto]. exfalso. apply H1. apply in_or_app. right. now left. }
      rewrite GC. cbn [bind]. rewrite (IH (pre ++ [(c, u)])) by (rewrite <- app_assoc; auto). reflexivity. }
    rewrite <- Efr. rewrite (G [] fr eq_refl). reflexivity. }
  assert (ER : m = cast32 (mat_all fr)).
  { unfold ce_rows in Em. rewrite Ec, Et, MA in Em. cbn [bind] in Em. congruence. }
  assert (W : mt_w (mat_all fr) = st_nf t).
  { pose proof (width_of e fr Em) as W1. rewrite ER in W1. cbn [mt_w] in W1. rewrite W1, <- (width_of e data Er0). auto. }
  destruct (@applies_ok (st_nodes t) (mt_rows m) (bt_path BT)) as (lv & El & Ll & Hl).
  assert (PR : predict o' fr = Ok (map (fun j => nth j (st_values t) []) lv)).
  { unfold ci_predict. rewrite Eo. cbn [ci_est ci_transform ci_tree]. rewrite Et. cbn [bind]. unfold sk_predict, sk_apply, sk_rows.
    rewrite W, Nat.eqb_refl. cbn [bind]. rewrite ER in El. cbn [mt_rows] in El. rewrite El. reflexivity. }
  eexists. split; [auto|]. split; [exact PR|]. split; [exact PR|]. split; [now rewrite map_length|].
  intros i ls r Hi Hr. destruct (H i ls Hi) as (x & p & leaf & Hx & Px & Ax & Els).
  rewrite nth_error_map in Hr. destruct (nth_error lv i) as [j|] eqn:Ej; [|discriminate]. cbn in Hr. injection Hr as <-.
  pose proof (Hl i x Hx) as Q. rewrite (nth_error_nth _ _ 0 Ej) in Q. assert (j = leaf) as -> by congruence.
  assert (Hlf : leaf < length (st_nodes t)).
  { destruct (tree_path_apply _ _ Px) as (p0 & j & -> & Aj & Lf & _). assert (j = leaf) as -> by congruence.
    destruct p0 as [|q0 p0] using rev_ind.
    - destruct (tree_facts BT) as (_ & _ & _ & N1 & _). apply path_chain in Px. cbn [app] in Px. inversion Px; lia.
    - apply path_chain in Px. destruct (chain_pred _ _ Px) as [[Z _]|(p' & q1 & _ & _ & Eq)]; [destruct p0; discriminate|].
      destruct (tree_facts BT) as (_ & _ & _ & _ & HK). eapply HK; eauto. }
  rewrite (SM _ _ _ Esk leaf Hlf). apply map_ext. intros k. f_equal.
  destruct (@lines_ok (st_nodes t) _ i x p leaf BT Px Ax) as (_ & _ & _ & L4). rewrite <- Els in L4.
  unfold who, going. cbn [mt_rows]. apply filter_ext. intros y. apply Bool.eq_true_iff_eq. rewrite meetsb_ok, L4.
  destruct (bt_path BT (nth y (cast f32 (mt_rows v0)) (fun _ => 0%R))) as [py Py]. rewrite Py.
  destruct (tree_path_apply _ _ Py) as (u & j & -> & Aj & Lj & NL). rewrite Aj.
  destruct (tree_path_apply _ _ Px) as (_ & jl & _ & Ajl & Lf & _). assert (jl = leaf) as -> by congruence.
  rewrite existsb_exists. split.
  - intros (z & Hz & Ez). apply Nat.eqb_eq in Ez. subst z. apply in_app_or in Hz. destruct Hz as [Hz|[->|[]]]; [|auto]. exfalso. now apply (NL leaf Hz).
  - intros [= ->]. exists leaf. split; [apply in_or_app; right; now left|apply Nat.eqb_refl].
Qed.

(** predict does not select the covariates: on a frame with any other number of columns - such as the training data, which also
    holds treatment and outcome - it raises ValueError, *)
Theorem C198_other_columns_refuted o data e o' cov fr : sk_promise f32 sk_fit -> fit o data e = (o', Ok tt) -> ce_cov e = Some cov -> ce_trans e = None ->
  length fr <> length cov -> predict o' fr = Err ValueError /\ ci_decide f32 o' fr = Err ValueError.
Proof.
  intros SK E Ec Et Hl. destruct (ci_run _ _ _ SK E) as (cov0 & v0 & eff0 & t & ps0 & Ec0 & Er0 & _ & _ & Snf & _ & _ & _ & ->).
  assert (predict (mkCI true (Some e) cov0 v0 (Some t) (Some (map (node_info (match eff0 with r :: _ => length r | [] => 0 end) ps0 eff0) (seq 0 (length (st_nodes t)))))) fr = Err ValueError); [|auto].
  unfold ci_predict. cbn [ci_est ci_transform ci_tree]. rewrite Et. cbn [bind]. unfold sk_predict, sk_apply, sk_rows.
  pose proof (width_of e data Er0) as W. rewrite Et, Ec in W. cbn [mt_w] in W.
  destruct (Nat.eqb_spec (mt_w (mat_all fr)) (st_nf t)) as [Q|_]; [|reflexivity]. cbn in Q. rewrite map_length in Q. congruence.
Qed.

(** and on a frame with the right number of columns it takes them by position: the names have no influence, interpret goes by name *)
Theorem C198_by_position_refuted o fr fr' : map snd fr = map snd fr' -> predict o fr = predict o fr'.
Proof.
  intros H. unfold ci_predict. assert (M : mat_all fr = mat_all fr'); [|now rewrite M].
  unfold mat_all. rewrite H. f_equal. unfold n_rows. destruct fr as [|[c u] fr], fr' as [|[c' u'] fr']; try discriminate; [reflexivity|]. cbn in H. congruence.
Qed.

(* ------------------------------------------------------------------------------------------------ *)
(** ** C199: a fit that fails on a fitted interpreter *)

(** The estimator, the covariates and the stored training rows are replaced, the tree and node_dict_ are not: interpret then explains the
    rows of the new data by the old tree. *)
Theorem C199_failed_refit_refuted o data e o' cov v x t : ci_fitted o = true -> ci_tree o = Some t ->
  ce_fitted e = true -> ce_cov e = Some cov -> (do m <- mat_cols data cov; ci_transform (Some e) m) = Ok v -> ce_estimate e data = Err x ->
  fit o data e = (o', Err x) ->
  ci_fitted o' = true /\ ci_tree o' = Some t /\ ci_dict o' = ci_dict o /\
  interpret o' QNone = do paths <- sk_paths f32 t (cast32 v); do leaves <- sk_apply f32 t (cast32 v); Ok (all_lines (st_nodes t) (cast f32 (mt_rows v)) leaves paths).
Proof.
  intros Hf Ht Ef Ec Ev Ee. unfold ci_fit. rewrite Ef, Ec, Ev, Ee. cbn [negb]. intros [= <-]. cbn [ci_fitted ci_tree ci_dict]. do 3 (split; [auto|]).
  unfold ci_interpret. cbn [ci_fitted ci_tree]. rewrite Hf, Ht. cbn [negb]. reflexivity.
Qed.

(** A successful fit does not depend on earlier ones. *)
Theorem C199_refit o1 o2 data e : snd (fit o1 data e) = snd (fit o2 data e) /\ (snd (fit o1 data e) = Ok tt -> fit o1 data e = fit o2 data e).
Proof.
  unfold ci_fit. destruct (negb (ce_fitted e)); [cbn; split; [auto|discriminate]|]. destruct (ce_cov e); [|cbn; split; [auto|discriminate]].
  destruct (do m <- mat_cols data l; ci_transform (Some e) m) as [v|]; [|cbn; split; [auto|discriminate]]. destruct (ce_estimate e data); [|cbn; split; [auto|discriminate]].
  destruct (sk_fit v a) as [t|]; [|cbn; split; [auto|discriminate]]. destruct (sk_paths f32 t v); cbn; [auto|split; [auto|discriminate]].
Qed.

(** An interpreter that was never fitted answers nothing; one that was needs a fitted estimator with covariates. *)
Theorem C199_unfitted q fr data e : interpret ci_new q = Err AssertionError /\ predict ci_new fr = Err ValueError /\
  (ce_fitted e = false \/ ce_cov e = None -> forall o, snd (fit o data e) = Err AssertionError).
Proof.
  split; [reflexivity|]. split; [reflexivity|]. intros H o. unfold ci_fit. destruct (ce_fitted e); cbn [negb]; [|reflexivity].
  destruct H as [H|H]; [discriminate|]. now rewrite H.
Qed.

(** fit succeeds: the covariates are columns of the data, the transformer (if any) was fitted on that many columns, the estimator
    estimates and sklearn fits.  A transformer for another number of columns is an error. *)
Theorem C196_fit_succeeds o data e cov eff : sk_promise f32 sk_fit -> ce_fitted e = true -> ce_cov e = Some cov ->
  (forall c, In c cov -> get_col data c <> None) -> ce_estimate e data = Ok eff -> (forall m, exists t, sk_fit m eff = Ok t) ->
  (snd (fit o data e) = Ok tt <-> forall t, ce_trans e = Some t -> tr_in t = length cov) /\
  (forall t, ce_trans e = Some t -> tr_in t <> length cov -> snd (fit o data e) = Err ValueError).
Proof.
  intros SK Ef Ec HC Ee SF.
  assert (MC : exists m, mat_cols data cov = Ok m /\ mt_w m = length cov).
  { unfold mat_cols. cbn [columns]. assert (X : exists cs, mapX (fun c => match get_col data c with Some v => Ok v | None => Err KeyError end) cov = Ok cs /\ length cs = length cov).
    { clear - HC. induction cov as [|c cov IH]; [exists []; auto|]. cbn [mapX]. destruct (get_col data c) as [u|] eqn:G; [|exfalso; apply (HC c); [now left|auto]].
      destruct IH as (cs & -> & L); [intros d Hd; apply HC; now right|]. exists (u :: cs). cbn. auto. }
    destruct X as (cs & E & L). change (exists m, (do cs <- (do l <- mapX (fun c => match get_col data c with Some v => Ok v | None => Err KeyError end) cov; Ok (Some l));
       Ok (mat_of (n_rows data) match cs with Some l => l | None => [] end)) = Ok m /\ mt_w m = length cov). rewrite E. cbn [bind]. eexists. split; [reflexivity|]. exact L. }
  destruct MC as (m & Em & Wm). unfold ci_fit. rewrite Ef, Ec, Em. cbn [negb bind ci_transform].
  assert (GO : forall v, snd (match ce_estimate e data with Ok eff => match sk_fit v eff with Ok t => match sk_paths f32 t v with
      | Ok paths => (mkCI true (Some e) cov v (Some t) (Some (map (node_info (match eff with r :: _ => length r | [] => 0 end) paths eff) (seq 0 (length (st_nodes t))))), Ok tt)
      | Err x => (mkCI (ci_fitted o) (Some e) cov v (Some t) (ci_dict o), Err x) end
      | Err x => (mkCI (ci_fitted o) (Some e) cov v (ci_tree o) (ci_dict o), Err x) end | Err x => (mkCI (ci_fitted o) (Some e) cov v (ci_tree o) (ci_dict o), Err x) end) = Ok tt).
  { intros v. rewrite Ee. destruct (SF v) as [t Et]. rewrite Et. destruct (SK _ _ _ Et) as [W BT]. unfold sk_paths, sk_rows. rewrite W, Nat.eqb_refl. cbn [bind].
    destruct (@mapX_paths (st_nodes t) (cast f32 (mt_rows v)) (bt_path BT)) as (pp & -> & _). reflexivity. }
  destruct (ce_trans e) as [t|].
  - unfold transform. rewrite Wm. destruct (Nat.eqb_spec (length cov) (tr_in t)) as [Q|Q].
    + rewrite GO. split; [split; [intros _ t' [= <-]; auto|auto]|]. intros t' [= <-] N. congruence.
    + cbn [snd]. split; [split; [discriminate|intros H; specialize (H t eq_refl); congruence]|auto].
  - rewrite GO. split; [split; [discriminate|auto]|discriminate].
Qed.
End CE.
Print Assumptions C196_node_dict.
Print Assumptions C196_root_and_children.
Print Assumptions C197_interpret.
Print Assumptions C197_training_data.
Print Assumptions C198_predict_partial.
Print Assumptions C198_other_columns_refuted.
Print Assumptions C198_by_position_refuted.
Print Assumptions C199_failed_refit_refuted.
Print Assumptions C199_refit.
Print Assumptions C199_unfitted.
Print Assumptions C196_fit_succeeds.
