(** C251-C253: properties of the discovery of dynamic models (ylearn/causal_discovery/_dydiscovery.py). *)
From Coq Require Import ZArith Reals String List Bool Lia Lra Permutation FunctionalExtensionality.
From Verif Require Import Base NxModel NxSpec ReachProofs DiscoveryModel DiscoveryProps GenModel GenProps GenAccProps GenDynProps DyDiscoveryModel.
Unset Implicit Arguments.
Local Notation length := List.length.
Local Open Scope list_scope.
Local Open Scope nat_scope.

(** ** C251: data layout and predictions *)
(** the rows of the blocks one after the other, as dygen returns them *)
Definition stacked (n : nat) (l : list rmat) : list row := List.concat (map (fun X : rmat => map (B := row) (fun i => X i) (seq 0 n)) l).
Lemma nth_map_seq : forall {A} (f : nat -> A) n k x, k < n -> nth k (map f (seq 0 n)) x = f k.
Proof. intros A f n k x H. rewrite (nth_indep _ x (f 0)) by (rewrite map_length, seq_length; exact H). rewrite map_nth, seq_nth by exact H. reflexivity. Qed.
Lemma stacked_cons : forall n X l, stacked n (X :: l) = map (B := row) (fun i => X i) (seq 0 n) ++ stacked n l.
Proof. reflexivity. Qed.
Lemma stacked_length : forall n l, length (stacked n l) = length l * n.
Proof. intros n. induction l as [|X l IH]; [reflexivity|]. rewrite stacked_cons, app_length, IH, map_length, seq_length. cbn [length]. lia. Qed.
Lemma stacked_nth : forall n l t i x, t < length l -> i < n -> nth (t * n + i) (stacked n l) x = nth t l (fun _ _ => 0%R) i.
Proof.
  intros n. induction l as [|X l IH]; intros t i x Ht Hi; [cbn in Ht; lia|]. rewrite stacked_cons.
  destruct t as [|t]; cbn [nth].
  - rewrite app_nth1 by (rewrite map_length, seq_length; lia). apply nth_map_seq. lia.
  - rewrite app_nth2; rewrite map_length, seq_length; [|lia]. replace (S t * n + i - n) with (t * n + i) by lia. apply IH; [cbn in Ht; lia|exact Hi].
Qed.
(** block t of the reshaped data is made of the rows t*n .. t*n+n-1 *)
Theorem C251_layout : forall data step order n, 0 < step + order -> length data = (step + order) * n ->
  exists X, reshape_blocks data step order = Ok X /\ length X = step + order /\
  forall t i, t < step + order -> i < n -> block X t i = nth (t * n + i) data (fun _ => 0%R).
Proof.
  intros data step order n H E. unfold reshape_blocks. destruct (Nat.eqb_spec (step + order) 0); [lia|]. rewrite E.
  assert (Ed : (step + order) * n / (step + order) = n) by (rewrite Nat.mul_comm; apply Nat.div_mul; lia). rewrite Ed, Nat.eqb_refl.
  eexists. split; [reflexivity|]. split; [rewrite map_length, seq_length; reflexivity|]. intros t i Ht Hi. unfold block. rewrite nth_map_seq by exact Ht. reflexivity.
Qed.
Theorem C251_layout_error : forall data step order, 0 < step + order -> (forall n, length data <> (step + order) * n) -> reshape_blocks data step order = Err ValueError.
Proof.
  intros data step order H N. unfold reshape_blocks. destruct (Nat.eqb_spec (step + order) 0); [lia|].
  match goal with |- (if Nat.eqb ?a ?b then _ else _) = _ => destruct (Nat.eqb_spec a b) as [E|E]; [|reflexivity] end. elim (N (length data / (step + order))). lia.
Qed.
(** so the blocks of dygen come back *)
Theorem C251_dygen_layout : forall l n step order, 0 < length l -> length l = step + order ->
  exists X, reshape_blocks (stacked n l) step order = Ok X /\ length X = length l /\ forall t i, t < length l -> i < n -> block X t i = blk l t i.
Proof.
  intros l n step order H E. destruct (C251_layout (stacked n l) step order n) as (X & HX & HL & Hb); [lia|rewrite stacked_length; lia|].
  exists X. split; [exact HX|]. split; [lia|]. intros t i Ht Hi. rewrite Hb by lia. apply stacked_nth; assumption.
Qed.
Lemma lag_terms_sum : forall d P Xt i j ks m, lag_terms d P Xt i j ks m = (m + sumR ks (fun k => sum_to d (fun p => Xt i p * P k p j)))%R.
Proof.
  intros d P Xt i j. induction ks as [|k ks IH]; intros m; cbn [lag_terms]; [unfold sumR; cbn; ring|]. rewrite IH, sumR_to. unfold sumR. cbn [map fold_right]. ring.
Qed.
Lemma forward_at : forall d order X W P t i j, t < length X - order -> block (forward d order X W P) t i j =
  (sum_to d (fun p => block X (t + order) i p * W p j) + sum_to order (fun k => sum_to d (fun p => block X t i p * P k p j)))%R.
Proof.
  intros d order X W P t i j H. unfold forward, block. rewrite nth_map_seq by exact H. rewrite lag_terms_sum, !sumR_to. reflexivity.
Qed.
(** order 1: with the generating parameters the prediction errors for the data of dygen are its noise *)
Theorem C251_truth_fits_partial : forall d B A s zl l t i j, lag_equation d A B 1 s zl l (t + 1) -> t < length l - 1 -> j < d ->
  (block l (t + 1) i j - block (forward d 1 l B A) t i j)%R = zl 0 (scale_of s j) j i.
Proof.
  intros d B A s zl l t i j H Ht Hj. rewrite forward_at by exact Ht. specialize (H i j Hj). unfold blk in H. unfold block. rewrite H.
  cbn [sum_to]. replace (t + 1 - 1 + 0) with t by lia. ring.
Qed.
(** without noise they reach the least possible loss *)
Lemma sumR_zero : forall l f, (forall x, In x l -> f x = 0%R) -> sumR l f = 0%R.
Proof. intros l f H. unfold sumR. induction l as [|a l IH]; [reflexivity|]. cbn. rewrite IH by (intros x Hx; apply H; right; exact Hx). rewrite (H a (or_introl eq_refl)). ring. Qed.
Lemma sumR_nonneg : forall l f, (forall x, In x l -> 0 <= f x)%R -> (0 <= sumR l f)%R.
Proof.
  intros l f H. unfold sumR. induction l as [|a l IH]; [cbn; lra|]. cbn. assert (A := H a (or_introl eq_refl)).
  assert (B := IH (fun x Hx => H x (or_intror Hx))). lra.
Qed.
Lemma sumR_term : forall l f a, In a l -> (forall x, In x l -> 0 <= f x)%R -> (f a <= sumR l f)%R.
Proof.
  intros l f a Ha H. induction l as [|b l IH]; [destruct Ha|]. assert (Hb := H b (or_introl eq_refl)). assert (Hl := fun x Hx => H x (or_intror Hx)).
  assert (N := sumR_nonneg l f Hl). unfold sumR in *. cbn. destruct Ha as [->|Ha]; [lra|]. specialize (IH Ha Hl). lra.
Qed.
(** the loss is 0 exactly for perfect predictions *)
Lemma loss_zero : forall n d out tgt v, squared_loss n d out tgt = Ok v -> (0 <= v)%R /\
  (v = 0%R <-> forall t i j, t < length tgt -> i < n -> j < d -> block out t i j = block tgt t i j).
Proof.
  intros n d out tgt v H. unfold squared_loss in H. destruct (Nat.eqb_spec (length tgt) 0); [discriminate|]. injection H as H.
  set (e := fun t i j => ((block out t i j - block tgt t i j) * (block out t i j - block tgt t i j))%R) in *.
  assert (He : forall t i j, (0 <= e t i j)%R) by (intros t i j; unfold e; apply Rle_0_sqr).
  set (f2 := fun t i => sumR (seq 0 d) (e t i)) in *. set (f1 := fun t => sumR (seq 0 n) (f2 t)) in *.
  change (sumR (seq 0 (length tgt)) _) with (sumR (seq 0 (length tgt)) f1) in H.
  assert (H2 : forall t i, (0 <= f2 t i)%R) by (intros t i; apply sumR_nonneg; intros; apply He).
  assert (H1 : forall t, (0 <= f1 t)%R) by (intros t; apply sumR_nonneg; intros; apply H2).
  assert (H0 : (0 <= sumR (seq 0 (length tgt)) f1)%R) by (apply sumR_nonneg; intros; apply H1).
  assert (Hc : (0 < 1 / 2 / INR (length tgt))%R) by (apply Rdiv_lt_0_compat; [lra|apply lt_0_INR; lia]).
  split; [rewrite <- H; apply Rmult_le_pos; lra|]. split.
  - intros Hv t i j Ht Hi Hj. rewrite Hv in H. assert (Z : sumR (seq 0 (length tgt)) f1 = 0%R) by (apply Rmult_integral in H; destruct H; lra).
    assert (A1 : (f1 t <= 0)%R) by (rewrite <- Z; apply sumR_term; [apply in_seq; lia|intros; apply H1]).
    assert (A2 : (f2 t i <= f1 t)%R) by (apply sumR_term; [apply in_seq; lia|intros; apply H2]).
    assert (A3 : (e t i j <= f2 t i)%R) by (apply sumR_term; [apply in_seq; lia|intros; apply He]).
    assert (A4 := He t i j). assert (A5 : e t i j = 0%R) by lra. unfold e in A5. apply Rmult_integral in A5. destruct A5; lra.
  - intros E. rewrite <- H. assert (Z : sumR (seq 0 (length tgt)) f1 = 0%R).
    { apply sumR_zero. intros t Ht. apply in_seq in Ht. apply sumR_zero. intros i Hi. apply in_seq in Hi. apply sumR_zero. intros j Hj. apply in_seq in Hj.
      unfold e. rewrite (E t i j) by lia. ring. }
    rewrite Z. ring.
Qed.
Theorem C251_truth_optimal_partial : forall n d B A s zl l, 2 <= length l -> (forall t, 1 <= t -> t < length l -> lag_equation d A B 1 s (zl t) l t) ->
  (forall t k x j i, zl t k x j i = 0%R) -> data_loss n d 1 l B A = Ok 0%R.
Proof.
  intros n d B A s zl l HL H Hz. unfold data_loss. assert (El : length (skipn 1 l) = length l - 1) by apply skipn_length.
  destruct (squared_loss n d (forward d 1 l B A) (skipn 1 l)) as [v|e] eqn:E.
  - f_equal. apply (proj2 (loss_zero _ _ _ _ _ E)). intros t i j Ht Hi Hj. rewrite El in Ht. unfold block at 2. rewrite nth_of_skipn.
    assert (F := C251_truth_fits_partial d B A s (zl (t + 1)) l t i j (H (t + 1) ltac:(lia) ltac:(lia)) Ht Hj). rewrite Hz in F. unfold block at 1 in F.
    rewrite (Nat.add_comm 1 t). lra.
  - unfold squared_loss in E. rewrite El in E. destruct (Nat.eqb_spec (length l - 1) 0); [lia|discriminate].
Qed.
(** Several lags: every lag matrix multiplies the same block (the oldest), so the predictions depend on their sum only *)
Theorem C251_lags_refuted : forall d order X W P Q, (forall p j, p < d -> sum_to order (fun k => P k p j) = sum_to order (fun k => Q k p j)) ->
  forall t i j, t < length X - order -> block (forward d order X W P) t i j = block (forward d order X W Q) t i j.
Proof.
  intros d order X W P Q H t i j Ht. rewrite !forward_at by exact Ht. f_equal. rewrite !(sum_to_swap order d).
  apply sum_to_ext. intros p Hp. rewrite !sum_to_mult. rewrite (H p j Hp). reflexivity.
Qed.
(** and the generating parameters do not fit noise-free data of order 2: the blocks 0, 1, 1 of x_t = x_(t-1) *)
Definition const_block (v : R) : rmat := fun _ _ => v.
Theorem C251_truth_refuted : exists d A B l, lag_equation d A B 2 NoNoise (fun _ _ _ _ => 0%R) l 2 /\ length l = 3 /\
  exists v, data_loss 1 d 2 l B A = Ok v /\ (0 < v)%R.
Proof.
  exists 1, (fun k _ _ => if Nat.eqb k 1 then 1 else 0)%R, (fun _ _ => 0%R), [const_block 0; const_block 1; const_block 1].
  split; [|split; [reflexivity|]].
  - intros i j Hj. unfold blk, const_block. cbn. ring.
  - unfold data_loss. destruct (squared_loss 1 1 _ _) as [v|] eqn:E; [|unfold squared_loss in E; cbn in E; discriminate]. exists v. split; [reflexivity|].
    destruct (loss_zero _ _ _ _ _ E) as [Hv H0]. destruct (Req_dec v 0) as [Z|Z]; [|lra]. exfalso.
    assert (F := proj1 H0 Z 0 0 0 ltac:(cbn; lia) ltac:(lia) ltac:(lia)). rewrite forward_at in F by (cbn; lia). cbn in F. unfold const_block in F. lra.
Qed.

(** ** C252: the training loop *)
Section Training.
  Variables (rho_max h_tol : R) (hs : nat -> hval) (nan : nat -> bool) (K : nat).
  Hypothesis HK : (rho_max <= 10 ^ K)%R.
  Lemma rho_loop_ok : forall fuel k h hnew s, k <= K -> K - k < fuel -> ((10 ^ k < rho_max)%R \/ hnew <> None) ->
    exists k' h' s', rho_loop rho_max hs fuel (10 ^ k) h hnew s = Ok ((10 ^ k')%R, h', s') /\ k <= k' <= K /\
      s' <= s + (k' - k) + 1 /\ (hnew = None -> s < s').
  Proof.
    induction fuel as [|fuel IH]; intros k h hnew s Hk Hf Hor; [lia|]. cbn [rho_loop]. destruct (Rlt_dec (10 ^ k) rho_max) as [L|L].
    - destruct (too_slow (hs s) h).
      + assert (Hk' : k < K) by (apply Nat.nle_gt; intros C; assert (k = K) by lia; subst; lra).
        destruct (IH (S k) h (Some (hs s)) (s + 1)) as (k' & h' & s' & E & Hb & Hs & _); [lia|lia|right; discriminate|].
        exists k', h', s'. replace (10 ^ k * 10)%R with (10 ^ (S k))%R by (cbn; ring). split; [exact E|]. split; [lia|]. split; [lia|].
        intros _. assert (G : s + 1 <= s').
        { clear - E. assert (M : forall fuel rho h hn s r, rho_loop rho_max hs fuel rho h hn s = Ok r -> s <= snd r).
          { clear. induction fuel as [|fuel IH]; intros rho h hn s r H; cbn [rho_loop] in H; [discriminate|]. destruct (Rlt_dec rho rho_max).
            - destruct (too_slow (hs s) h); [apply IH in H; lia|injection H as <-; cbn; lia].
            - destruct hn; [injection H as <-; cbn; lia|discriminate]. }
          apply M in E. exact E. }
        lia.
      + exists k, (hs s), (s + 1). split; [reflexivity|]. split; [lia|]. split; [lia|]. lia.
    - destruct Hor as [C|C]; [contradiction|]. destruct hnew as [x|]; [|contradiction]. exists k, x, s. split; [reflexivity|]. split; [lia|]. split; [lia|]. discriminate.
  Qed.
  (** why the loop ended *)
  Definition finished (rho : R) (h : hval) (s : nat) : Prop := (exists a, h = HFin a /\ (a <= h_tol)%R) \/ (rho_max <= rho)%R \/ nan s = true.
  Lemma epochs_ok : forall fuel, K < fuel -> forall n k h s, k <= K -> (10 ^ k < rho_max)%R ->
    exists k' h' s', epochs rho_max h_tol hs nan fuel n (10 ^ k) h s = Ok ((10 ^ k')%R, h', s') /\ k <= k' <= K /\
      s' <= s + (k' - k) + n /\ s <= s' /\ (finished (10 ^ k') h' s' \/ s + n <= s').
  Proof.
    intros fuel Hf. induction n as [|n IH]; intros k h s Hk Hlt; cbn [epochs].
    - exists k, h, s. split; [reflexivity|]. split; [lia|]. split; [lia|]. split; [lia|right; lia].
    - destruct (rho_loop_ok fuel k h None s Hk ltac:(lia) (or_introl Hlt)) as (k1 & h1 & s1 & -> & Hb & Hs & Hp). specialize (Hp eq_refl). cbn [bind].
      destruct (le_tol h1 h_tol) eqn:E1.
      { exists k1, h1, s1. split; [reflexivity|]. split; [lia|]. split; [lia|]. split; [lia|]. left. left. unfold le_tol in E1.
        destruct h1 as [a| |]; try discriminate. destruct (Rle_dec a h_tol); [|discriminate]. exists a. auto. }
      destruct (Rle_dec rho_max (10 ^ k1)) as [L|L].
      { exists k1, h1, s1. split; [reflexivity|]. split; [lia|]. split; [lia|]. split; [lia|]. left. right. left. exact L. }
      destruct (nan s1) eqn:E3.
      { exists k1, h1, s1. split; [reflexivity|]. split; [lia|]. split; [lia|]. split; [lia|]. left. right. right. exact E3. }
      cbn [orb]. destruct (IH k1 h1 s1 ltac:(lia) ltac:(lra)) as (k2 & h2 & s2 & -> & Hb2 & Hs2 & Hp2 & Hr). exists k2, h2, s2.
      split; [reflexivity|]. split; [lia|]. split; [lia|]. split; [lia|]. destruct Hr as [Hr|Hr]; [left; exact Hr|right; lia].
  Qed.
  (** for every optimiser the training ends: at most epoch + K optimizer steps, rho a power of 10 up to 10^K *)
  Theorem C252_terminates : forall epoch fuel, (1 < rho_max)%R -> K < fuel ->
    exists k h s, train rho_max h_tol hs nan fuel epoch = Ok ((10 ^ k)%R, h, s) /\ k <= K /\ s <= epoch + K /\
      (finished (10 ^ k) h s \/ epoch <= s).
  Proof.
    intros epoch fuel H1 Hf. unfold train. destruct (epochs_ok fuel Hf epoch 0 HInf 0) as (k & h & s & E & Hk & Hs & _ & Hr); [lia|cbn; exact H1|].
    cbn [pow] in E. exists k, h, s. split; [exact E|]. split; [lia|]. split; [lia|exact Hr].
  Qed.
  Lemma finished_stop : forall rho h s, finished rho h s <-> le_tol h h_tol || (if Rle_dec rho_max rho then true else false) || nan s = true.
  Proof.
    intros rho h s. rewrite !orb_true_iff. unfold finished, le_tol. split.
    - intros [(a & -> & H)|[H|H]]; [left; left|left; right|right; exact H]; destruct (Rle_dec _ _); auto; contradiction.
    - intros [[H|H]|H]; [left|right; left|right; right; exact H].
      + destruct h as [a| |]; try discriminate. destruct (Rle_dec a h_tol); [|discriminate]. exists a. auto.
      + destruct (Rle_dec rho_max rho); [assumption|discriminate].
  Qed.
  Lemma epochs_stop : forall fuel m n rho h s rho' h' s', epochs rho_max h_tol hs nan fuel (S n) rho h s = Ok (rho', h', s') -> finished rho' h' s' ->
    epochs rho_max h_tol hs nan fuel (S n + m) rho h s = Ok (rho', h', s').
  Proof.
    intros fuel m. induction n as [|n IH]; intros rho h s rho' h' s' H F; cbn [epochs plus] in *;
      destruct (rho_loop rho_max hs fuel rho h None s) as [[[r1 h1] s1]|]; try discriminate; cbn [bind] in *.
    - destruct (le_tol h1 h_tol || _ || nan s1) eqn:E; [exact H|]. injection H as -> -> ->. apply finished_stop in F. congruence.
    - destruct (le_tol h1 h_tol || _ || nan s1) eqn:E; [exact H|]. apply (IH _ _ _ _ _ _ H F).
  Qed.
  (** once finished, further epochs do nothing; and they are run as long as it is not finished *)
  Theorem C252_stops : forall fuel e m rho h s, 1 <= e -> train rho_max h_tol hs nan fuel e = Ok (rho, h, s) -> finished rho h s ->
    train rho_max h_tol hs nan fuel (e + m) = Ok (rho, h, s).
  Proof. intros fuel [|e] m rho h s He H F; [lia|]. apply epochs_stop; assumption. Qed.
  Lemma epochs_go : forall fuel n rho h s rho' h' s', epochs rho_max h_tol hs nan fuel n rho h s = Ok (rho', h', s') -> (n = 0 \/ ~ finished rho' h' s') ->
    epochs rho_max h_tol hs nan fuel (n + 1) rho h s = epochs rho_max h_tol hs nan fuel 1 rho' h' s'.
  Proof.
    intros fuel. induction n as [|n IH]; intros rho h s rho' h' s' H F; [injection H as -> -> ->; reflexivity|].
    destruct F as [F|F]; [discriminate|]. change (S n + 1) with (S (n + 1)). cbn [epochs] in H. cbn [epochs].
    destruct (rho_loop rho_max hs fuel rho h None s) as [[[r1 h1] s1]|]; [|discriminate]. cbn [bind] in *.
    destruct (le_tol h1 h_tol || _ || nan s1) eqn:E.
    - injection H as -> -> ->. elim F. apply finished_stop. exact E.
    - rewrite (IH _ _ _ _ _ _ H) by (right; exact F). reflexivity.
  Qed.
  Theorem C252_continues : forall fuel e rho h s, train rho_max h_tol hs nan fuel e = Ok (rho, h, s) -> (e = 0 \/ ~ finished rho h s) ->
    train rho_max h_tol hs nan fuel (e + 1) = do r <- rho_loop rho_max hs fuel rho h None s; Ok r.
  Proof.
    intros fuel e rho h s H F. unfold train in *. rewrite (epochs_go _ _ _ _ _ _ _ _ H F). cbn [epochs].
    destruct (rho_loop rho_max hs fuel rho h None s) as [[[r1 h1] s1]|]; [|reflexivity]. cbn [bind]. destruct (_ || _ || _); reflexivity.
  Qed.
  (** the first epoch takes one step, whatever h becomes *)
  Theorem C252_first : forall fuel, (1 < rho_max)%R -> K < fuel -> train rho_max h_tol hs nan fuel 1 = Ok (1%R, hs 0, 1).
  Proof.
    intros [|fuel] H1 Hf; [lia|]. unfold train. cbn [epochs rho_loop]. destruct (Rlt_dec 1 rho_max); [|lra].
    assert (E : too_slow (hs 0) HInf = false) by (destruct (hs 0); reflexivity). rewrite E. cbn [bind plus]. destruct (_ || _ || _); reflexivity.
  Qed.
End Training.
(** rho_max at or below the initial rho of 1 *)
Theorem C252_small_refuted : forall rho_max h_tol hs nan fuel epoch, (rho_max <= 1)%R -> 0 < epoch -> 0 < fuel ->
  train rho_max h_tol hs nan fuel epoch = Err TypeError.
Proof. intros rho_max h_tol hs nan [|fuel] [|epoch] H He Hf; try lia. unfold train. cbn [epochs rho_loop]. destruct (Rlt_dec 1 rho_max); [lra|reflexivity]. Qed.

(** ** C253: the result *)
Lemma dict_ok : forall n w, exists d, matrix2dict n w (seq 0 n) None = Ok d.
Proof. intros n w. unfold matrix2dict. rewrite seq_length, Nat.eqb_refl. cbn. eexists. reflexivity. Qed.
Theorem C253_dag : forall (ord : list (list nat) -> list (list nat)) one tenths n columns return_dict th W P, (forall l, Permutation (ord l) l) -> nonneg n W ->
  exists w P', dy_result ord one tenths n columns return_dict th W P = Ok (w, P') /\ acyclic (arrow n w) /\
    (forall i j, arrow n w i j -> candidate n th W i j /\ w i j = W i j) /\
    (forall i j, candidate n th W i j -> ~ reach (candidate n th W) j i -> w i j = W i j).
Proof.
  intros ord one tenths n columns rd th W P Ho HW. destruct (@C67_discovered_dag ord n th W Ho HW) as (w & E & A & B & C & _).
  exists w, (match th with Some _ => cut_lags one tenths P | None => P end). split; [|auto]. unfold dy_result. rewrite E. cbn [bind].
  destruct rd; [destruct (dict_ok n w) as (d & ->)|]; reflexivity.
Qed.
(** weights of any sign: if the kept directions have no cycle they are the result *)
Theorem C253_signed_partial : forall (ord : list (list nat) -> list (list nat)) one tenths n columns return_dict th W P, (forall l, Permutation (ord l) l) ->
  acyclic (candidate n th W) ->
  exists w P', dy_result ord one tenths n columns return_dict th W P = Ok (w, P') /\
    (forall i j, arrow n w i j <-> candidate n th W i j) /\ forall i j, arrow n w i j -> w i j = W i j.
Proof.
  intros ord one tenths n columns rd th W P Ho AC. set (r := to_dag_loop n (cut th W)).
  assert (RA : forall i j, arrow n r i j <-> candidate n th W i j) by (intros; apply resolved_arrow).
  assert (Hd : no_diagonal n r) by (intros i Hi; unfold r; rewrite to_dag_loop_spec, Nat.eqb_refl; auto).
  destruct (@trim_cycle_run ord n r Ho Hd) as (es & E & Hi & _ & Hs & _).
  assert (Ees : es = nonzero_edges n r).
  { apply Hs. revert AC. apply acyclic_congr. intros a b. rewrite <- RA. apply nonzero_In. }
  assert (RW : forall i j, arrow n (to_matrix r es) i j <-> candidate n th W i j).
  { intros i j. rewrite (@to_matrix_arrow n r es i j Hi), Ees, nonzero_In. apply RA. }
  exists (to_matrix r es), (match th with Some _ => cut_lags one tenths P | None => P end). split; [|split].
  - unfold dy_result. change (discovered ord n th W) with (trim_cycle n r ord). rewrite E. cbn [bind].
    destruct rd; [destruct (dict_ok n (to_matrix r es)) as (d & ->)|]; reflexivity.
  - exact RW.
  - intros i j H. assert (C := proj1 (RW i j) H). destruct H as (_ & _ & H). unfold to_matrix in *. destruct (mem (i, j) es); [|congruence]. apply resolved_val. exact C.
Qed.
(** neither the column names nor return_dict change what is returned *)
Theorem C253_options_refuted : forall ord one tenths n columns return_dict th W P,
  dy_result ord one tenths n columns return_dict th W P = dy_result ord one tenths n None false th W P.
Proof.
  intros ord one tenths n columns rd th W P. unfold dy_result. destruct (discovered ord n th W) as [w|]; [|reflexivity]. cbn [bind].
  destruct rd; [destruct (dict_ok n w) as (d & ->)|]; reflexivity.
Qed.
(** the lag coefficients below a fixed number of tenths are removed if there is a threshold *)
Theorem C253_lags : forall ord one tenths n columns return_dict th W P w P', dy_result ord one tenths n columns return_dict th W P = Ok (w, P') ->
  forall k i j, P' k i j = match th with
                           | Some _ => if Z.ltb (10 * Z.abs (P k i j)) (tenths * one) then 0%Z else P k i j
                           | None => P k i j end.
Proof.
  intros ord one tenths n columns rd th W P w P' H k i j. rewrite C253_options_refuted in H. unfold dy_result in H.
  destruct (discovered ord n th W) as [v|]; [|discriminate]. cbn in H. injection H as _ <-. destruct th; reflexivity.
Qed.
(** so the threshold does not apply to them: 0.2 survives a threshold of 0.3 (one = 10) *)
Theorem C253_threshold_refuted : exists w P', dy_result (fun l => l) 10 1 1 None false (Some 3%Z) (fun _ _ => 0%Z) (fun _ _ _ => 2%Z) = Ok (w, P') /\ P' 0 0 0 = 2%Z.
Proof. eexists. eexists. split; [vm_compute; reflexivity|]. reflexivity. Qed.

(** ** Concrete cases *)
Example C251_case : exists X, reshape_blocks (stacked 2 [const_block 1; const_block 2; const_block 3]) 2 1 = Ok X /\ block X 2 1 0 = 3%R.
Proof.
  destruct (C251_dygen_layout [const_block 1; const_block 2; const_block 3] 2 2 1) as (X & HX & _ & H); [cbn; lia|reflexivity|].
  exists X. split; [exact HX|]. rewrite (H 2 1) by (cbn; lia). reflexivity.
Qed.
(** noise-free x_t = 2 x_(t-1) *)
Example C251_fit_case : data_loss 1 1 1 [const_block 1; const_block 2; const_block 4] (fun _ _ => 0%R) (fun _ _ _ => 2%R) = Ok 0%R.
Proof.
  apply (C251_truth_optimal_partial 1 1 (fun _ _ => 0%R) (fun _ _ _ => 2%R) NoNoise (fun _ _ _ _ _ => 0%R)); [cbn; lia| |reflexivity].
  intros [|[|[|t]]] H1 H2 i j Hj; cbn in H2; try lia; unfold blk, const_block; cbn; ring.
Qed.
(** h = 1, then 1 (too slow), then 1/2: rho goes to 10 *)
Example C252_case : train 100 0 (fun s => if Nat.ltb s 2 then HFin 1 else HFin (1 / 8)) (fun _ => false) 9 2 = Ok (10%R, HFin (1 / 8), 3).
Proof.
  unfold train. cbn [epochs].
  repeat (cbn [rho_loop Nat.ltb Nat.leb too_slow bind le_tol plus orb];
    match goal with |- context [Rlt_dec ?a ?b] => destruct (Rlt_dec a b); try lra | |- context [Rle_dec ?a ?b] => destruct (Rle_dec a b); try lra end).
  cbn [bind orb]. replace (1 * 10)%R with 10%R by ring. reflexivity.
Qed.
Example C253_case : exists w P', dy_result (fun l => l) 10 1 2 None true (Some 3%Z) (fun i j => if Nat.ltb i j then (-5)%Z else 4%Z) (fun _ _ _ => 0%Z) = Ok (w, P') /\
  w 0 1 = (-5)%Z /\ w 1 0 = 0%Z.
Proof. eexists. eexists. split; [vm_compute; reflexivity|]. split; reflexivity. Qed.
Print Assumptions C251_truth_optimal_partial.
Print Assumptions C252_terminates.
Print Assumptions C253_dag.
