(** Examples for C150-C152, and the refutation of C152 with functions of the covariates. *)
From Coq Require Import ZArith Reals Lra Psatz Sorting.Sorted.
From Verif Require Import Base ApiModel EstUtilsModel EstUtilsProps MetaModel MetaSpec MetaProofs MetaProps CrossFitModel DrModel DrProofs DrRobust
  MetaRefit DmlModel DmlProofs DmlProps BoundProofs TslsModel TslsSpec TslsProofs TslsProps TslsRecover.
Local Notation length := List.length.
Local Notation concat := List.concat.

(** orthogonality of the residuals is sufficient for least squares *)
Lemma ols_sufficient X Y d j c b : Forall (fun r => length r = d) X ->
  (forall k, k < d -> rsum (fun r => (nth j (nth r Y []) 0 - (linear_part c (nth r X []) + b)) * nth k (nth r X []) 0)%R (seq 0 (length X)) = 0%R) ->
  rsum (fun r => (nth j (nth r Y []) 0 - (linear_part c (nth r X []) + b)))%R (seq 0 (length X)) = 0%R ->
  forall c' b', (sq_error X Y j c b <= sq_error X Y j c' b')%R.
Proof.
  intros HX HO H1 c' b'. set (e := fun r => (nth j (nth r Y []) 0 - (linear_part c (nth r X []) + b))%R).
  set (g := fun r => ((linear_part c (nth r X []) + b) - (linear_part c' (nth r X []) + b'))%R).
  assert (OB : forall q, rsum (fun r => e r * linear_part q (nth r X []))%R (seq 0 (length X)) = 0%R).
  { intros q. rewrite (linear_combination q X e (length X) d HX eq_refl).
    transitivity (rsum (fun _ => 0%R) (seq 0 d)); [|apply rsum_zero]. apply rsum_ext. intros k Hk. apply in_seq in Hk.
    unfold e. rewrite HO by lia. ring. }
  assert (EG : rsum (fun r => e r * g r)%R (seq 0 (length X)) = 0%R).
  { transitivity (rsum (fun r => (e r * linear_part c (nth r X []) - e r * linear_part c' (nth r X [])) + (b - b') * e r)%R (seq 0 (length X))).
    - apply rsum_ext. intros r _. unfold g. ring.
    - rewrite rsum_plus, rsum_minus, rsum_scal, !OB. unfold e at 1. rewrite H1. ring. }
  assert (SC : sq_error X Y j c' b' = (sq_error X Y j c b + rsum (fun r => g r ^ 2)%R (seq 0 (length X)))%R).
  { unfold sq_error. transitivity (rsum (fun r => (e r ^ 2 + g r ^ 2) + 2 * (e r * g r))%R (seq 0 (length X))).
    - apply rsum_ext. intros r _. unfold e, g. ring.
    - rewrite rsum_plus, rsum_plus, (rsum_scal 2), EG. unfold e. ring. }
  rewrite SC. assert (0 <= rsum (fun r => g r ^ 2)%R (seq 0 (length X)))%R; [|lra].
  apply Rle_trans with (rsum (fun _ => 0%R) (seq 0 (length X))); [rewrite rsum_zero; apply Rle_refl|].
  apply rsum_le. intros r _. apply pow2_ge_0.
Qed.

(** a linear model with given coefficients, for targets with as many columns *)
Definition lin_learner (cs : list row) : learner :=
  {| Mdl := unit; l_fit := fun _ Y => if nth 1 (nd_shape Y) 0 =? length cs then Ok tt else Err ValueError;
     l_pred := fun _ z => map (fun c => linear_part c z) cs; l_dim := fun _ => Some (length cs);
     l_classes := fun _ => None; l_proba := fun _ _ => [] |}.
Lemma lin_two_d cs : two_d (lin_learner cs).
Proof.
  intros X Y m. cbn. destruct (Nat.eqb_spec (width Y) (length cs)) as [E|]; [|discriminate]. intros _. rewrite E. split; [reflexivity|].
  intros z. apply map_length.
Qed.
Lemma lin_fit cs X Y : width Y = length cs -> l_fit (lin_learner cs) X (nd_rows Y) = Ok tt.
Proof. intros E. cbn. now rewrite E, Nat.eqb_refl. Qed.
Lemma lin_ols cs X Y d : Forall (fun r => length r = d) X -> width Y = length cs ->
  (forall j k, j < length cs -> k < d ->
     rsum (fun r => (nth j (nth r Y []) 0 - linear_part (nth j cs []) (nth r X [])) * nth k (nth r X []) 0)%R (seq 0 (length X)) = 0%R) ->
  (forall j, j < length cs -> rsum (fun r => (nth j (nth r Y []) 0 - linear_part (nth j cs []) (nth r X [])))%R (seq 0 (length X)) = 0%R) ->
  ols (lin_learner cs) X Y tt (fun j => nth j cs []) (fun _ => 0%R).
Proof.
  intros HX HW HO H1. split.
  - split; [cbn; now rewrite HW|]. intros z. cbn [l_pred lin_learner]. rewrite HW. rewrite (map_eq_nth _ cs []). apply map_ext. intros j. ring.
  - intros j c' b' Hj. rewrite HW in Hj. apply (ols_sufficient X Y d); auto.
    + intros k Hk. etransitivity; [|apply (HO j k Hj Hk)]. apply rsum_ext. intros r _. ring.
    + etransitivity; [|apply (H1 j Hj)]. apply rsum_ext. intros r _. ring.
Qed.

(* ------------------------------------------------------------------------------------------------ *)
(** ** Six rows without any error: covariate v in {-1, 0, 1}, instrument z in {0, 1},
    treatment x = z + (3 v^2 - 2)(2 z - 1), outcome y = x v *)
Definition cx_v : list row := [[-1];[-1];[0];[0];[1];[1]]%R.
Definition cx_z : list row := [[0];[1];[0];[1];[0];[1]]%R.
Definition cx_x : list row := [[-1];[2];[2];[-1];[-1];[2]]%R.
Definition cx_y : list row := [[1];[-2];[0];[0];[-1];[2]]%R.
Definition cx_a : nargs := mkNargs cx_y (XCont cx_x) (Some (ZCont cx_z)) None (Some cx_v) (BTuple Poly 1) (BTuple Poly 1) (BTuple Poly 1).
(** the least squares coefficients of both stages *)
Definition cx_cx : list row := [[1;0;0;0;0];[0;0;1;0;0]]%R.
Definition cx_cy : list row := [[0;-1;0;3;0]]%R.
Definition cx_B : row := [0;0;0;1;0]%R.

Ltac rowcase r H := repeat (destruct r as [|r]; [|try (exfalso; cbn in H; lia)]).
Ltac rsolve := cbv - [Rplus Rminus Rmult Rinv Rdiv Ropp INR IZR Rlt Rmax Rmin]; lra.

Lemma poly1 a : poly 1 [a] = [1; a * 1]%R.
Proof. reflexivity. Qed.

Lemma cx_good : good_call cx_a 6 1 1 1 0 cx_x cx_z None (poly 1) (poly 1) (poly 1).
Proof.
  constructor; try (cbn; lia); try reflexivity; try constructor.
  all: try (repeat constructor); try discriminate.
Qed.

(** C152 is false when functions of the covariates enter: linear least squares in both stages, an exogenous instrument, an
    outcome that is exactly a linear function of treatment times covariate basis - no error, no confounding - and an
    estimate that is wrong by a factor of 3 *)
Theorem C152_NP_least_squares_refuted :
  exists Lx Ly a n x z mx my cx bx c b B,
    let phi := poly 1 in
    let pv := option_map (map phi) in
    let Z := drows n (fun r => phi (nth r z [])) (pv (n_v a)) (n_w a) in
    let D := drows n (fun r => l_pred Lx mx (nth r Z [])) (pv (n_v a)) (n_w a) in
    let F := fun t v w => structural B (phi t) (option_map phi v) w in
    good_call a n 1 1 1 0 x z None phi phi phi /\ two_d Lx /\
    l_fit Lx Z (nd_rows (map phi x)) = Ok mx /\ ols Lx Z (map phi x) mx cx bx /\
    l_fit Ly D (nd_rows (n_y a)) = Ok my /\ ols Ly D (n_y a) my c b /\
    (forall r, r < n -> nth 0 (nth r (n_y a) []) 0%R = F (nth r x []) (at_row (n_v a) r) (at_row (n_w a) r)) /\
    (forall r, r < n -> spans D 5 (drow (phi [1%R]) (option_map phi (at_row (n_v a) r)) (at_row (n_w a) r))
                                  (drow (phi [0%R]) (option_map phi (at_row (n_v a) r)) (at_row (n_w a) r))) /\
    exists s e, np_fit Lx Ly a = Ok s /\ np_estimate (Some s) None (NNum [1%R]) (NNum [0%R]) NQNone = Ok e /\
      nd_at e [4; 0] = 3%R /\
      (F [1%R] (at_row (n_v a) 4) (at_row (n_w a) 4) - F [0%R] (at_row (n_v a) 4) (at_row (n_w a) 4) = 1)%R.
Proof.
  exists (lin_learner cx_cx), (lin_learner cx_cy), cx_a, 6, cx_x, cx_z, tt, tt, (fun j => nth j cx_cx []), (fun _ => 0%R),
    (fun j => nth j cx_cy []), (fun _ => 0%R), cx_B.
  intros phi pv Z D F.
  assert (EX : l_fit (lin_learner cx_cx) Z (nd_rows (map phi cx_x)) = Ok tt) by (apply lin_fit; reflexivity).
  assert (EY : l_fit (lin_learner cx_cy) D (nd_rows (n_y cx_a)) = Ok tt) by (apply lin_fit; reflexivity).
  assert (FZ : Forall (fun r : row => length r = 5) Z) by (repeat constructor).
  assert (FD : Forall (fun r : row => length r = 5) D) by (repeat constructor).
  split; [exact cx_good|]. split; [apply lin_two_d|]. split; [exact EX|]. split.
  { apply (lin_ols cx_cx Z (map phi cx_x) 5 FZ); [reflexivity| |].
    - intros j k Hj Hk. cbn in Hj. rowcase j Hj; rowcase k Hk; rsolve.
    - intros j Hj. cbn in Hj. rowcase j Hj; rsolve. }
  split; [exact EY|]. split.
  { apply (lin_ols cx_cy D (n_y cx_a) 5 FD); [reflexivity| |].
    - intros j k Hj Hk. cbn in Hj. rowcase j Hj; rowcase k Hk; rsolve.
    - intros j Hj. cbn in Hj. rowcase j Hj; rsolve. }
  split. { intros r Hr. rowcase r Hr; rsolve. }
  split.
  { intros r Hr. set (v := nth 0 (nth r cx_v []) 0%R).
    exists (fun s => nth s [0; 0; - (1 - v); 1 - v; - v; v]%R 0%R). intros k Hk. unfold v. rowcase r Hr; rowcase k Hk; rsolve. }
  destruct (C150_NP_formula (lin_learner cx_cx) (lin_learner cx_cy) cx_a 6 1 1 1 0 cx_x cx_z None phi phi phi cx_good (lin_two_d _)) as (st & EF & EE).
  destruct (EE tt None 6 (n_v cx_a) (n_w cx_a) (NNum [1%R]) (NNum [0%R]) (repeat [1%R] 6) (repeat [0%R] 6)) as (e & E1 & _ & _ & V1).
  { constructor. }
  { constructor. apply (@rows_one R 6 1 [1%R]). reflexivity. }
  { constructor. apply (@rows_one R 6 1 [0%R]). reflexivity. }
  exists (st tt), e. split.
  { rewrite EF. fold pv. fold Z. rewrite EX. cbn [bind]. rewrite lin_fit by reflexivity. reflexivity. }
  split; [exact E1|]. split; [rewrite V1|]; rsolve.
Qed.
Print Assumptions C152_NP_least_squares_refuted.

(* ------------------------------------------------------------------------------------------------ *)
(** ** C151 applies: eight rows, instrument z and covariate v in {0, 1}, a hidden u in {-1, 1} that moves the treatment
    x = z + u and the outcome y = 2 x + x v + 3 u.  The estimated effect is 2 + v; regression of y on x would give more. *)
Definition ex_v : list row := [[0];[0];[0];[0];[1];[1];[1];[1]]%R.
Definition ex_z : list row := [[0];[0];[1];[1];[0];[0];[1];[1]]%R.
Definition ex_u : list R := [-1;1;-1;1;-1;1;-1;1]%R.
Definition ex_x : list row := [[-1];[1];[0];[2];[-1];[1];[0];[2]]%R.
Definition ex_y : list row := [[-5];[5];[-3];[7];[-6];[6];[-3];[9]]%R.
Definition ex_a : nargs := mkNargs ex_y (XCont ex_x) (Some (ZCont ex_z)) None (Some ex_v) (BTuple Poly 1) (BTuple Poly 1) (BTuple Poly 1).
Definition ex_c : list row := [[0;0;2;1;0]]%R.
Example C151_applies : exists s e, np_fit (lin_learner cx_cx) (lin_learner ex_c) ex_a = Ok s /\
  np_estimate (Some s) None (NNum [1%R]) (NNum [0%R]) NQNone = Ok e /\ nd_at e [0; 0] = 2%R /\ nd_at e [7; 0] = 3%R.
Proof.
  assert (G : good_call ex_a 8 1 1 1 0 ex_x ex_z None (poly 1) (poly 1) (poly 1)).
  { constructor; try (cbn; lia); try reflexivity; try constructor. all: try (repeat constructor); try discriminate. }
  assert (W : forall r : row, length r = 1 -> length (poly 1 r) = 2) by (intros [|a [|]]; easy).
  pose (Z := drows 8 (fun r => poly 1 (nth r ex_z [])) (option_map (map (poly 1)) (n_v ex_a)) (n_w ex_a)).
  pose (D := drows 8 (fun r => l_pred (lin_learner cx_cx) tt (nth r Z [])) (option_map (map (poly 1)) (n_v ex_a)) (n_w ex_a)).
  assert (FD : Forall (fun r : row => length r = 5) D) by (repeat constructor).
  assert (OY : ols (lin_learner ex_c) D (n_y ex_a) tt (fun j => nth j ex_c []) (fun _ => 0%R)).
  { apply (lin_ols ex_c D (n_y ex_a) 5 FD); [reflexivity| |].
    - intros j k Hj Hk. cbn in Hj. rowcase j Hj; rowcase k Hk; rsolve.
    - intros j Hj. cbn in Hj. rowcase j Hj; rsolve. }
  destruct (C151_NP_recovers_effect (lin_learner cx_cx) (lin_learner ex_c) ex_a 8 1 1 1 0 ex_x ex_z None (poly 1) (poly 1) (poly 1)
    2 2 tt tt (fun j => nth j ex_c []) (fun _ => 0%R) (fun _ => [0;0;2;1;0]%R) (fun r _ => 3 * nth r ex_u 0)%R (fun r => Nat.div2 r)
    G (lin_two_d _) W W) as (s & E1 & E2).
  - apply lin_fit. reflexivity.
  - apply lin_fit. reflexivity.
  - exact OY.
  - intros r j Hr Hj. cbn in Hj. rowcase j Hj. rowcase r Hr; rsolve.
  - intros r s Hr Hs. rowcase r Hr; rowcase s Hs; cbn; intros E; try discriminate E; auto.
  - intros r i Hr Hi. rowcase r Hr; rowcase i Hi; rsolve.
  - intros r j Hr Hj. cbn in Hj. rowcase j Hj. rowcase r Hr; rsolve.
  - destruct (E2 None 8 (n_v ex_a) (n_w ex_a) (NNum [1%R]) (NNum [0%R]) (repeat [1%R] 8) (repeat [0%R] 8)) as (e & E3 & _ & V).
    { constructor. }
    { constructor. apply (@rows_one R 8 1 [1%R]). reflexivity. }
    { constructor. apply (@rows_one R 8 1 [0%R]). reflexivity. }
    exists s, e. split; [exact E1|]. split; [exact E3|]. split.
    + rewrite V; [rsolve|lia|cbn; lia|]. exists (fun s => nth s [-1;0;1;0;0;0;0;0]%R 0%R). intros k Hk. unfold fwidth, dwidth in Hk. cbn in Hk. rowcase k Hk; rsolve.
    + rewrite V; [rsolve|lia|cbn; lia|]. exists (fun s => nth s [0;0;0;0;-1;0;1;0]%R 0%R). intros k Hk. unfold fwidth, dwidth in Hk. cbn in Hk. rowcase k Hk; rsolve.
Qed.

(** C152 applies: two-stage least squares with the same hidden u *)
Definition e2_z : list row := [[0];[0];[1];[1]]%R.
Definition e2_x : list row := [[-1];[1];[0];[2]]%R.
Definition e2_y : list row := [[-5];[5];[-3];[7]]%R.
Definition e2_v : list row := [[3];[4];[5];[6]]%R.
Definition e2_a : nargs := mkNargs e2_y (XCont e2_x) (Some (ZCont e2_z)) None (Some e2_v) (BTuple Poly 1) (BList Poly 1) (BTuple Poly 0).
Definition e2_cx : list row := [[1;0;0];[0;1;0]]%R.
Definition e2_cy : list row := [[0;2;0]]%R.
Example C152_applies : exists s e, np_fit (lin_learner e2_cx) (lin_learner e2_cy) e2_a = Ok s /\
  np_estimate (Some s) None (NNum [1%R]) (NNum [0%R]) NQNone = Ok e /\ nd_at e [3; 0] = 2%R.
Proof.
  assert (G : good_call e2_a 4 1 1 1 0 e2_x e2_z None (poly 1) (poly 1) (poly 0)).
  { constructor; try (cbn; lia); try reflexivity; try constructor. all: try (repeat constructor); try discriminate. }
  assert (W : forall r : row, length r = 1 -> length (poly 1 r) = 2) by (intros [|a [|]]; easy).
  pose (Z := drows 4 (fun r => poly 1 (nth r e2_z [])) (option_map (map (poly 0)) (n_v e2_a)) (n_w e2_a)).
  pose (D := drows 4 (fun r => l_pred (lin_learner e2_cx) tt (nth r Z [])) (option_map (map (poly 0)) (n_v e2_a)) (n_w e2_a)).
  assert (FZ : Forall (fun r : row => length r = 3) Z) by (repeat constructor).
  assert (FD : Forall (fun r : row => length r = 3) D) by (repeat constructor).
  assert (OX : ols (lin_learner e2_cx) Z (map (poly 1) e2_x) tt (fun j => nth j e2_cx []) (fun _ => 0%R)).
  { apply (lin_ols e2_cx Z (map (poly 1) e2_x) 3 FZ); [reflexivity| |].
    - intros j k Hj Hk. cbn in Hj. rowcase j Hj; rowcase k Hk; rsolve.
    - intros j Hj. cbn in Hj. rowcase j Hj; rsolve. }
  assert (OY : ols (lin_learner e2_cy) D (n_y e2_a) tt (fun j => nth j e2_cy []) (fun _ => 0%R)).
  { apply (lin_ols e2_cy D (n_y e2_a) 3 FD); [reflexivity| |].
    - intros j k Hj Hk. cbn in Hj. rowcase j Hj; rowcase k Hk; rsolve.
    - intros j Hj. cbn in Hj. rowcase j Hj; rsolve. }
  destruct (C152_NP_two_stage_least_squares_partial (lin_learner e2_cx) (lin_learner e2_cy) e2_a 4 1 1 1 0 e2_x e2_z None (poly 1) (poly 1) (poly 0)
    2 2 tt tt (fun j => nth j e2_cx []) (fun _ => 0%R) (fun j => nth j e2_cy []) (fun _ => 0%R) (fun _ => [0;2;0]%R) (fun r _ => 3 * nth r ex_u 0)%R
    G (lin_two_d _) W W) as (s & E1 & E2).
  - intros r. reflexivity.
  - apply lin_fit. reflexivity.
  - exact OX.
  - apply lin_fit. reflexivity.
  - exact OY.
  - intros r j Hr Hj. cbn in Hj. rowcase j Hj. rowcase r Hr; rsolve.
  - intros j k Hj Hk. cbn in Hj. unfold fwidth, dwidth in Hk. cbn in Hk. rowcase j Hj. rowcase k Hk; rsolve.
  - destruct (E2 None 4 (n_v e2_a) (n_w e2_a) (NNum [1%R]) (NNum [0%R]) (repeat [1%R] 4) (repeat [0%R] 4)) as (e & E3 & _ & V).
    { constructor. }
    { constructor. apply (@rows_one R 4 1 [1%R]). reflexivity. }
    { constructor. apply (@rows_one R 4 1 [0%R]). reflexivity. }
    exists s, e. split; [exact E1|]. split; [exact E3|].
    rewrite V; [rsolve|lia|cbn; lia|]. exists (fun s => nth s [-1;0;1;0]%R 0%R). intros k Hk. unfold fwidth, dwidth in Hk. cbn in Hk. rowcase k Hk; rsolve.
Qed.
