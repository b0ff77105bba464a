(** C151, C152: when NP2SLS recovers the effect. *)
From Coq Require Import ZArith Reals Lra Psatz Sorting.Sorted.
From Verif Require Import Base ApiModel EstUtilsModel EstUtilsProps MetaModel MetaSpec MetaProofs MetaProps CrossFitModel DrModel DrProofs DrRobust
  MetaRefit DmlModel DmlProofs DmlProps BoundProofs TslsModel TslsSpec TslsProofs TslsProps.
Local Notation length := List.length.
Local Notation concat := List.concat.

(** the rows of the cell of r *)
Definition members (n : nat) (cell : nat -> nat) (r : nat) : list nat := filter (fun s => cell s =? cell r) (seq 0 n).

Lemma members_pos n cell r : r < n -> (0 < INR (length (members n cell r)))%R.
Proof.
  intros H. apply lt_0_INR. unfold members. assert (I : In r (filter (fun s => cell s =? cell r) (seq 0 n))).
  { apply filter_In. split; [apply in_seq; lia|apply Nat.eqb_refl]. }
  destruct (filter _ _); [easy|cbn; lia].
Qed.

(** errors with sum 0 in every cell are orthogonal to everything constant on cells *)
Lemma cell_orthogonal n cell e h :
  (forall r, r < n -> rsum e (members n cell r) = 0%R) -> (forall r s, r < n -> s < n -> cell r = cell s -> h r = h s) ->
  rsum (fun r => e r * h r)%R (seq 0 n) = 0%R.
Proof.
  intros He Hh. set (N := fun r => INR (length (members n cell r))).
  assert (HN : forall r s, cell r = cell s -> N r = N s) by (intros r s E; unfold N, members; now rewrite E).
  transitivity (rsum (fun s => h s / N s * rsum e (members n cell s))%R (seq 0 n)).
  2:{ transitivity (rsum (fun _ => 0%R) (seq 0 n)); [|apply rsum_zero]. apply rsum_ext. intros s Hs. apply in_seq in Hs.
      rewrite He by lia. ring. }
  symmetry. transitivity (rsum (fun s => rsum (fun r => if cell r =? cell s then h s / N s * e r else 0)%R (seq 0 n)) (seq 0 n)).
  { apply rsum_ext. intros s _. rewrite <- rsum_scal. unfold members. now rewrite rsum_filter. }
  rewrite rsum_swap. apply rsum_ext. intros r Hr. apply in_seq in Hr.
  transitivity (rsum (fun s => (h r / N r * e r) * (if cell s =? cell r then 1 else 0))%R (seq 0 n)).
  - apply rsum_ext. intros s Hs. apply in_seq in Hs. rewrite (Nat.eqb_sym (cell s)). destruct (Nat.eqb_spec (cell r) (cell s)) as [E|]; [|ring].
    rewrite (Hh r s), (HN r s) by (auto; lia). ring.
  - rewrite rsum_scal, rsum_count. change (length (filter (fun i => cell i =? cell r) (seq 0 n))) with (length (members n cell r)).
    pose proof (members_pos n cell r ltac:(lia)). unfold N. field. lra.
Qed.

Lemma rsum_swap_scal (k : nat -> R) (g : nat -> nat -> R) l m :
  rsum (fun s => rsum (fun i => k i * g s i)%R m) l = rsum (fun i => k i * rsum (fun s => g s i) l)%R m.
Proof. rewrite (rsum_swap (fun s i => k i * g s i)%R). apply rsum_ext. intros i _. apply rsum_scal. Qed.

(** C151: with least squares in the second stage, predictions of the first stage that are right on average in every cell of
    (instrument, covariates, adjustment), and structural errors u with mean 0 in every such cell, estimate() is the
    structural effect wherever the second-stage data determine it - however u is related to the treatment *)
Theorem C151_NP_recovers_effect Lx Ly a n x_d z_d k_v k_w x z cats phi zeta psi p q mx my c b B (u : nat -> nat -> R) cell :
  good_call a n x_d z_d k_v k_w x z cats phi zeta psi -> two_d Lx ->
  (forall r, length r = x_d -> length (phi r) = p) -> (forall r, length r = k_v -> length (psi r) = q) ->
  let pv := option_map (map psi) in
  let Z := drows n (fun r => zeta (nth r z [])) (pv (n_v a)) (n_w a) in
  let xhat := fun r => l_pred Lx mx (nth r Z []) in
  let D := drows n xhat (pv (n_v a)) (n_w a) in
  let F := fun j t v w => structural (B j) (phi t) (option_map psi v) w in
  l_fit Lx Z (nd_rows (map phi x)) = Ok mx -> l_fit Ly D (nd_rows (n_y a)) = Ok my -> ols Ly D (n_y a) my c b ->
  (forall r j, r < n -> j < width (n_y a) ->
     nth j (nth r (n_y a) []) 0%R = (F j (nth r x []) (at_row (n_v a) r) (at_row (n_w a) r) + u r j)%R) ->
  (forall r s, r < n -> s < n -> cell r = cell s ->
     nth r z [] = nth s z [] /\ at_row (n_v a) r = at_row (n_v a) s /\ at_row (n_w a) r = at_row (n_w a) s) ->
  (forall r i, r < n -> i < p -> rsum (fun s => nth i (phi (nth s x [])) 0 - nth i (xhat s) 0)%R (members n cell r) = 0%R) ->
  (forall r j, r < n -> j < width (n_y a) -> rsum (fun s => u s j) (members n cell r) = 0%R) ->
  exists s, np_fit Lx Ly a = Ok s /\
    forall data n' v w treat control t ct, est_data a n k_v k_w data n' v w ->
      t_means n' x_d 1 cats treat t -> t_means n' x_d 0 cats control ct ->
      exists e, np_estimate (Some s) data treat control NQNone = Ok e /\ nd_shape e = [n'; width (n_y a)] /\
        forall r j, r < n' -> j < width (n_y a) ->
          spans D (fwidth n p q k_w a) (drow (phi (nth r t [])) (option_map psi (at_row v r)) (at_row w r))
                                       (drow (phi (nth r ct [])) (option_map psi (at_row v r)) (at_row w r)) ->
          nd_at e [r; j] = (F j (nth r t []) (at_row v r) (at_row w r) - F j (nth r ct []) (at_row v r) (at_row w r))%R.
Proof.
  intros G H2 Hp Hq pv Z xhat D F Ex Ey HL HY HC HX HU.
  apply (np_recovery Lx Ly a n x_d z_d k_v k_w x z cats phi zeta psi p q mx my c b B G H2 Hp Hq Ex Ey HL).
  destruct G as [g_n0 g_xd0 g_zd0 g_kv0 g_y0 g_x0 g_xr0 g_z0 g_zr0 g_v0 g_w0 g_phi0 g_zeta0 g_psi0].
  intros j k Hj Hk. fold pv. fold Z. fold xhat. fold D.
  assert (HZ : forall r s, r < n -> s < n -> cell r = cell s -> nth r Z [] = nth s Z [] /\ at_row (pv (n_v a)) r = at_row (pv (n_v a)) s).
  { intros r s Hr Hs E. destruct (HC r s Hr Hs E) as (E1 & E2 & E3). unfold Z. rewrite !drows_nth by auto. unfold pv.
    rewrite !(at_row_map psi _ n k_v) by auto. rewrite E1, E2, E3. auto. }
  assert (HD : forall r s, r < n -> s < n -> cell r = cell s -> nth r D [] = nth s D []).
  { intros r s Hr Hs E. destruct (HC r s Hr Hs E) as (_ & _ & E3). destruct (HZ r s Hr Hs E) as (E4 & E5). unfold D. rewrite !drows_nth by auto.
    unfold xhat. now rewrite E3, E4, E5. }
  apply (cell_orthogonal n cell (fun r => nth j (nth r (n_y a) []) 0 - linear_part (B j) (nth r D []))%R (fun r => nth k (nth r D []) 0%R)).
  2:{ intros r s Hr Hs E. now rewrite (HD r s). }
  intros r Hr.
  assert (LX : forall s, s < n -> length (phi (nth s x [])) = p).
  { intros s Hs. apply Hp. destruct g_xr0 as [g g']. rewrite Forall_forall in g'. apply g', nth_In. lia. }
  assert (LH : forall s, s < n -> length (xhat s) = p).
  { intros s Hs. unfold xhat. destruct (H2 _ _ _ Ex) as (_ & Hw). rewrite Hw. rewrite (@width_all _ p); auto.
    - destruct x; [|discriminate]. destruct g_xr0 as [g _]. cbn in g. lia.
    - apply Forall_forall. intros w Hw'. apply in_map_iff in Hw' as (w' & <- & Hw'). apply Hp. destruct g_xr0 as [_ g]. rewrite Forall_forall in g. now apply g. }
  transitivity (rsum (fun s => u s j + rsum (fun i => kappa (B j) (at_row (pv (n_v a)) r) i * (nth i (phi (nth s x [])) 0 - nth i (xhat s) 0)) (seq 0 p))%R (members n cell r)).
  { apply rsum_ext. intros s Hs. unfold members in Hs. apply filter_In in Hs as (Hs & Ec). apply in_seq in Hs. apply Nat.eqb_eq in Ec.
    rewrite HY by lia. unfold F, structural. unfold D. rewrite drows_nth by lia. unfold pv. rewrite <- (at_row_map psi _ n k_v) by (auto; lia).
    fold pv. destruct (HZ s r ltac:(lia) Hr Ec) as (_ & E5). rewrite <- E5, <- (LX s) by lia.
    rewrite <- (linear_drow_diff (B j) (phi (nth s x [])) (xhat s) (at_row (pv (n_v a)) s) (at_row (n_w a) s)) by (rewrite LX, LH by lia; reflexivity).
    ring. }
  rewrite rsum_plus, HU, rsum_swap_scal by auto.
  transitivity (0 + rsum (fun _ => 0%R) (seq 0 p))%R; [|rewrite rsum_zero; ring]. f_equal. apply rsum_ext. intros i Hi. apply in_seq in Hi.
  rewrite HX by (auto; lia). ring.
Qed.

Lemma outer_one x : outer x [1%R] = x.
Proof. unfold outer. induction x as [|a x IH]; [reflexivity|]. cbn [flat_map map app] in *. rewrite IH. f_equal. ring. Qed.
Lemma drow_trivial x (v w : option row) : (forall u, v = Some u -> u = [1%R]) ->
  drow x v w = x ++ ((match w with Some w => w | None => [] end) ++ [1%R]).
Proof. intros H. unfold drow. destruct v as [u|]; [|reflexivity]. rewrite (H u eq_refl). now rewrite outer_one. Qed.

(** C152: two-stage least squares.  With linear least squares in both stages and no functions of the covariates besides
    the constant (covar_basis=("Poly", 0), or no covariates and an object as basis), structural errors orthogonal to the
    regressors of the first stage (functions of the instrument, adjustment, constant) are enough: estimate() is the
    structural effect wherever the second-stage data determine it. *)
Theorem C152_NP_two_stage_least_squares_partial Lx Ly a n x_d z_d k_v k_w x z cats phi zeta psi p pz mx my cx bx c b B (u : nat -> nat -> R) :
  good_call a n x_d z_d k_v k_w x z cats phi zeta psi -> two_d Lx ->
  (forall r, length r = x_d -> length (phi r) = p) -> (forall r, length r = z_d -> length (zeta r) = pz) -> (forall r, psi r = [1%R]) ->
  let pv := option_map (map psi) in
  let Z := drows n (fun r => zeta (nth r z [])) (pv (n_v a)) (n_w a) in
  let D := drows n (fun r => l_pred Lx mx (nth r Z [])) (pv (n_v a)) (n_w a) in
  let F := fun j t v w => structural (B j) (phi t) (option_map psi v) w in
  l_fit Lx Z (nd_rows (map phi x)) = Ok mx -> ols Lx Z (map phi x) mx cx bx ->
  l_fit Ly D (nd_rows (n_y a)) = Ok my -> ols Ly D (n_y a) my c b ->
  (forall r j, r < n -> j < width (n_y a) ->
     nth j (nth r (n_y a) []) 0%R = (F j (nth r x []) (at_row (n_v a) r) (at_row (n_w a) r) + u r j)%R) ->
  (forall j k, j < width (n_y a) -> k < fwidth n pz 1 k_w a -> rsum (fun r => u r j * nth k (nth r Z []) 0)%R (seq 0 n) = 0%R) ->
  exists s, np_fit Lx Ly a = Ok s /\
    forall data n' v w treat control t ct, est_data a n k_v k_w data n' v w ->
      t_means n' x_d 1 cats treat t -> t_means n' x_d 0 cats control ct ->
      exists e, np_estimate (Some s) data treat control NQNone = Ok e /\ nd_shape e = [n'; width (n_y a)] /\
        forall r j, r < n' -> j < width (n_y a) ->
          spans D (fwidth n p 1 k_w a) (drow (phi (nth r t [])) (option_map psi (at_row v r)) (at_row w r))
                                       (drow (phi (nth r ct [])) (option_map psi (at_row v r)) (at_row w r)) ->
          nd_at e [r; j] = (F j (nth r t []) (at_row v r) (at_row w r) - F j (nth r ct []) (at_row v r) (at_row w r))%R.
Proof.
  intros G H2 Hp Hpz H1 pv Z D F Ex (HLx & HMx) Ey HL HY HU.
  assert (Hq : forall r : row, length r = k_v -> length (psi r) = 1) by (intros r _; now rewrite H1).
  apply (np_recovery Lx Ly a n x_d z_d k_v k_w x z cats phi zeta psi p 1 mx my c b B G H2 Hp Hq Ex Ey HL).
  destruct G as [g_n0 g_xd0 g_zd0 g_kv0 g_y0 g_x0 g_xr0 g_z0 g_zr0 g_v0 g_w0 g_phi0 g_zeta0 g_psi0].
  intros j k Hj Hk. fold pv. fold Z. fold D. set (xhat := fun r => l_pred Lx mx (nth r Z [])).
  assert (LX : forall s, s < n -> length (phi (nth s x [])) = p).
  { intros s Hs. apply Hp. destruct g_xr0 as [g g']. rewrite Forall_forall in g'. apply g', nth_In. lia. }
  assert (WX : width (map phi x) = p).
  { apply width_all.
    - destruct x; [|discriminate]. destruct g_xr0 as [g _]. cbn in g. lia.
    - apply Forall_forall. intros w Hw'. apply in_map_iff in Hw' as (w' & <- & Hw'). apply Hp. destruct g_xr0 as [_ g]. rewrite Forall_forall in g. now apply g. }
  assert (LH : forall s, s < n -> length (xhat s) = p).
  { intros s Hs. unfold xhat. destruct (H2 _ _ _ Ex) as (_ & Hw). now rewrite Hw. }
  assert (LZ : length Z = n) by apply drows_length.
  assert (PV : forall r, r < n -> at_row (pv (n_v a)) r = option_map (fun _ => [1%R]) (n_v a)).
  { intros r Hr. unfold pv. rewrite (at_row_map psi _ n k_v) by auto. destruct (n_v a); [|reflexivity]. cbn [at_row option_map]. now rewrite H1. }
  assert (TV : forall r, r < n -> forall w, at_row (pv (n_v a)) r = Some w -> w = [1%R]).
  { intros r Hr w. rewrite PV by auto. destruct (n_v a); cbn [option_map]; congruence. }
  assert (Lz : forall r, r < n -> length (zeta (nth r z [])) = pz).
  { intros r Hr. apply Hpz. destruct g_zr0 as [g g']. rewrite Forall_forall in g'. apply g', nth_In. lia. }
  assert (HF : Forall (fun r : row => length r = fwidth n pz 1 k_w a) Z).
  { apply (drows_rect n (fun r => zeta (nth r z [])) (n_v a) (n_w a) psi k_v k_w pz 1 g_v0 g_w0 Hq Lz). }
  set (e := fun r => (nth j (nth r (n_y a) []) 0 - linear_part (B j) (nth r D []))%R).
  set (kap := kappa (B j) (option_map (fun _ => [1%R]) (n_v a))).
  assert (EE : forall r, r < n -> e r = (u r j + rsum (fun i => kap i * (nth i (phi (nth r x [])) 0 - nth i (xhat r) 0)) (seq 0 p))%R).
  { intros r Hr. unfold e, kap. rewrite HY by auto. unfold F, structural. unfold D. rewrite drows_nth by lia.
    unfold pv. rewrite <- (at_row_map psi _ n k_v) by (auto; lia). fold pv. rewrite <- (PV r) by auto. rewrite <- (LX r) by auto.
    rewrite <- (linear_drow_diff (B j) (phi (nth r x [])) (xhat r) (at_row (pv (n_v a)) r) (at_row (n_w a) r)) by (rewrite LX, LH by lia; reflexivity).
    unfold xhat. ring. }
  assert (EZ : forall l, l < fwidth n pz 1 k_w a -> rsum (fun r => e r * nth l (nth r Z []) 0)%R (seq 0 n) = 0%R).
  { intros l Hl.
    transitivity (rsum (fun r => u r j * nth l (nth r Z []) 0 +
      rsum (fun i => kap i * ((nth i (phi (nth r x [])) 0 - nth i (xhat r) 0) * nth l (nth r Z []) 0)) (seq 0 p))%R (seq 0 n)).
    - apply rsum_ext. intros r Hr. apply in_seq in Hr. rewrite EE by lia. rewrite Rmult_plus_distr_r. f_equal.
      rewrite Rmult_comm, <- rsum_scal. apply rsum_ext. intros i _. ring.
    - rewrite rsum_plus, HU, rsum_swap_scal by auto.
      transitivity (0 + rsum (fun _ => 0%R) (seq 0 p))%R; [|rewrite rsum_zero; ring]. f_equal. apply rsum_ext. intros i Hi. apply in_seq in Hi.
      transitivity (kap i * 0)%R; [|ring]. f_equal.
      pose proof (ols_normal Z (map phi x) (fwidth n pz 1 k_w a) i (cx i) (bx i) HF
        (fun c' b' => HMx i c' b' ltac:(rewrite WX; lia)) l Hl) as N. rewrite LZ in N.
      etransitivity; [|exact N]. apply rsum_ext. intros r Hr. apply in_seq in Hr.
      rewrite (nth_map_in phi x [] []) by (destruct g_xr0 as [g _]; lia). unfold xhat. rewrite (proj2 HLx), WX, nth_map_seq by lia. reflexivity. }
  assert (Kd : 0 < fwidth n pz 1 k_w a) by (unfold fwidth, dwidth; lia).
  assert (ZL : forall r, r < n -> nth (fwidth n pz 1 k_w a - 1) (nth r Z []) 0%R = 1%R).
  { intros r Hr. rewrite Forall_forall in HF. rewrite <- (HF (nth r Z [])) by (apply nth_In; lia). unfold Z. rewrite drows_nth by auto. apply drow_last. }
  assert (E1 : rsum e (seq 0 n) = 0%R).
  { etransitivity; [|apply (EZ (fwidth n pz 1 k_w a - 1)); lia]. apply rsum_ext. intros r Hr. apply in_seq in Hr. rewrite ZL by lia. ring. }
  destruct (Nat.ltb_spec k p) as [Hkp|Hkp].
  - transitivity (rsum (fun r => e r * linear_part (cx k) (nth r Z []) + bx k * e r)%R (seq 0 n)).
    + apply rsum_ext. intros r Hr. apply in_seq in Hr. fold (e r). unfold D at 1. rewrite drows_nth by lia.
      rewrite drow_trivial by (now apply TV; lia). rewrite app_nth1 by (fold (xhat r); rewrite LH; lia).
      rewrite (proj2 HLx), WX, nth_map_seq by lia. ring.
    + rewrite rsum_plus, rsum_scal, E1. rewrite <- LZ at 1. rewrite (linear_combination (cx k) Z e (length Z) _ HF eq_refl).
      transitivity (rsum (fun _ => 0%R) (seq 0 (fwidth n pz 1 k_w a)) + bx k * 0)%R; [|rewrite rsum_zero; ring]. f_equal.
      apply rsum_ext. intros l Hl. apply in_seq in Hl. rewrite LZ, EZ by lia. ring.
  - transitivity (rsum (fun r => e r * nth (k - p + pz) (nth r Z []) 0)%R (seq 0 n)).
    + apply rsum_ext. intros r Hr. apply in_seq in Hr. fold (e r). f_equal.
      assert (ZN : nth r Z [] = zeta (nth r z []) ++ ((match at_row (n_w a) r with Some w => w | None => [] end) ++ [1%R])).
      { unfold Z. rewrite drows_nth by lia. apply drow_trivial. now apply TV; lia. }
      assert (DN : nth r D [] = xhat r ++ ((match at_row (n_w a) r with Some w => w | None => [] end) ++ [1%R])).
      { unfold D. rewrite drows_nth by lia. apply drow_trivial. now apply TV; lia. }
      rewrite ZN, DN. rewrite (app_nth2 (xhat r)) by (rewrite LH; lia). rewrite (app_nth2 (zeta (nth r z []))) by (rewrite Lz; lia). rewrite LH, Lz by lia. f_equal. lia.
    + apply EZ. unfold fwidth, dwidth in *. destruct (n_v a), (n_w a); cbn [option_map] in *; lia.
Qed.
