(** Concrete cases for C200 - C204 and the refuted claims about treat. *)
From Coq Require Import ZArith Reals Lra String Sorting.Sorted.
From Verif Require Import Base EstUtilsModel MetaModel MetaSpec MetaProofs CforestProofs PermModel PermSpec PermProofs PermProps PermHist.
Set Implicit Arguments.
Local Notation length := List.length.
Local Open Scope nat_scope.

(** a learner that knows the effect: the difference of the two values; [noisy]: every question adds one to the next answer *)
Definition lval (v : label) : R := match v with LInt z => IZR z | _ => 0%R end.
Definition tval (a : targ) : R := match a with TVal v => lval v | TList l => fold_right Rplus 0%R (map lval l) | _ => 0%R end.
Definition ldiff (noisy : bool) : blearner pframe unit :=
  @mkBL pframe unit (targ * targ * nat)
    (fun f _ _ tm t k s => match mapX (pf_col f) tm with Ok _ => ((t, k, 0), Ok tt) | Err x => (s, Err x) end)
    (fun f _ _ s => let '(t, k, n) := s in ((t, k, if noisy then S n else n), Ok (mkNd [3] (fun _ => tval t - tval k + INR n)%R)))
    (fun f s => let '(t, k, n) := s in (s, Ok (mkNd [match f with Some f => pf_len f | None => 0 end; 1; 2] (fun i => if (Nat.eqb (nth 2 i 0%nat) 0%nat) then 0 else tval t - tval k)%R)))
    (fun _ => None) false (fun s => Ok (fst (fst s))).
Definition fr3 : pframe := mkPF [("x"%string, [LInt 2; LInt 0; LInt 1])] (Some [[0%R]; [0%R]; [0%R]]) [[0%R]; [2%R]; [1%R]].
Definition a3 : pargs pframe unit := mkPArgs fr3 ["y"%string] ["x"%string] tt.
Notation fit n := (@perm_fit pframe unit pf_col (ldiff n)).
Notation estimate n := (@perm_estimate pframe unit (ldiff n) false).
Notation effect_nji n := (@perm_effect_nji pframe unit pf_len (ldiff n) false).
Notation treat n := (@perm_treat pframe unit (ldiff n)).
Definition b0 (n : bool) : B_St (ldiff n) := (TNone, TNone, 0).
Definition p3 n := fst (fit n a3 (perm_new (ldiff n) (b0 n))).
Lemma p3_fit n : fit n a3 (perm_new (ldiff n) (b0 n)) = (p3 n, Ok tt).
Proof. reflexivity. Qed.
Lemma grp3 z : (z = 0 \/ z = 1 \/ z = 2)%Z -> is_group pf_col (g_data a3) (g_treatment a3) [LInt z].
Proof. intros H. constructor; [|constructor]. exists [LInt 2; LInt 0; LInt 1]. split; [reflexivity|]. destruct H as [->|[->| ->]]; cbn; auto. Qed.

Example C200_case : glt [LInt 0] [LInt 2] /\ means (TVal (LInt 2)) [LInt 2] /\
  (exists e, snd (estimate false None (TVal (LInt 2)) (TVal (LInt 0)) None QNone (p3 false)) = Ok e /\ nd_at e [0] = 2%R) /\
  (exists e, snd (estimate false None (TVal (LInt 0)) (TList [LInt 2]) None QNone (p3 false)) = Ok e /\ nd_at e [0] = (-2)%R).
Proof.
  split; [apply glt_here; reflexivity|]. split; [now left|]. split; eexists; (split; [reflexivity|]); cbv - [Rplus Rmult Rminus Ropp IZR]; lra.
Qed.

(** two treatments: the keys are tuples *)
Definition fr22 : pframe := mkPF [("u"%string, [LInt 0; LInt 5]); ("v"%string, [LInt 1; LInt 7])] (Some [[0%R]; [0%R]]) [[0%R]; [2%R]].
Definition a22 : pargs pframe unit := mkPArgs fr22 ["y"%string] ["u"%string; "v"%string] tt.
Example C200_two_treatments : exists p' e, fit false a22 (perm_new (ldiff false) (b0 false)) = (p', Ok tt) /\ length (p_learners p') = 6 /\
  snd (estimate false None (TList [LInt 0; LInt 7]) (TList [LInt 5; LInt 1]) None QNone p') = Ok e /\ nd_at e [0] = 1%R.
Proof. eexists _, _. split; [reflexivity|]. split; [reflexivity|]. split; [reflexivity|]. cbv - [Rplus Rmult Rminus Ropp IZR]. lra. Qed.

(** C201 with a learner that changes with every question: the pair (2, 0) asked after (1, 0) twice *)
Example C201_case : exists e1 e2 e3,
  let p1 := fst (estimate true None (TVal (LInt 1)) (TVal (LInt 0)) None QNone (p3 true)) in
  snd (estimate true None (TVal (LInt 1)) (TVal (LInt 0)) None QNone (p3 true)) = Ok e1 /\
  snd (estimate true None (TVal (LInt 1)) (TVal (LInt 0)) None QNone p1) = Ok e2 /\ snd (estimate true None (TVal (LInt 2)) (TVal (LInt 0)) None QNone p1) = Ok e3 /\
  nd_at e1 [0] = 1%R /\ nd_at e2 [0] = 2%R /\ nd_at e3 [0] = 2%R.
Proof. eexists _, _, _. cbv zeta. do 3 (split; [reflexivity|]). repeat split; cbv - [Rplus Rmult Rminus Ropp IZR]; lra. Qed.

(** the contract of C202 holds for this learner *)
Definition eff3 (t c : list label) (i j : nat) : R := (tval (group_arg t) - tval (group_arg c))%R.
Lemma contract3 n : contract pf_col (ldiff n) false a3 (b0 n) fr3 None (pf_len fr3) 1 0 eff3.
Proof.
  intros t c s Gt Gc G E. unfold alone in E. cbn [b_fit ldiff] in E. cbn [mapX a3 g_data g_treatment pf_col fr3 pf_cols pf_find String.eqb] in E. injection E as <-.
  eexists. split; [reflexivity|]. split; [|split; reflexivity]. split; [reflexivity|]. left. intros i j _ _. split; reflexivity.
Qed.
Example C202_case : exists gs e, groups_in_order pf_col (g_data a3) (g_treatment a3) gs /\
  snd (effect_nji false true (Some fr3) (TVal (LInt 1)) None (p3 false)) = Ok e /\ nd_shape e = [3; 1; length gs] /\
  forall i k, i < 3 -> k < length gs -> entry (fun t c i j => eff3 t c i (0 + j)) (nth k gs []) [LInt 1] i 0 (nd_at e [i; 0; k]).
Proof.
  apply (@C202_effect_nji _ _ pf_len pf_col (ldiff false) false a3 _ _ true fr3 None [LInt 1] (TVal (LInt 1)) 1 0 eff3 (p3_fit false)); [apply grp3; lia|now left|reflexivity|apply contract3].
Qed.
(** ... and so does the one of the theorem about several outcomes: two outcomes, three groups, four columns *)
Definition ldiff2 : blearner pframe unit :=
  @mkBL pframe unit (targ * targ)
    (fun _ _ _ _ t k s => ((t, k), Ok tt))
    (fun _ _ _ s => (s, Ok (mkNd [3; 2] (fun _ => 0%R))))
    (fun f s => (s, Ok (mkNd [match f with Some f => pf_len f | None => 0 end; 2; 2] (fun i => if (Nat.eqb (nth 2 i 0%nat) 0%nat) then 0 else tval (fst s) - tval (snd s))%R)))
    (fun _ => None) false (fun s => Ok (fst s)).
Definition a3y : pargs pframe unit := mkPArgs fr3 ["y"%string; "z"%string] ["x"%string] tt.
Lemma contract3y : contract pf_col ldiff2 false a3y (TNone, TNone) fr3 None (pf_len fr3) 2 0 eff3.
Proof.
  intros t c s Gt Gc G E. unfold alone in E. cbn [b_fit ldiff2] in E. injection E as <-.
  eexists. split; [reflexivity|]. split; [|split; reflexivity]. split; [reflexivity|]. left. intros i j _ _. split; reflexivity.
Qed.
Example C202_several_case : exists p' gs e, @perm_fit _ _ pf_col ldiff2 a3y (perm_new ldiff2 (TNone, TNone)) = (p', Ok tt) /\
  groups_in_order pf_col (g_data a3y) (g_treatment a3y) gs /\
  snd (@perm_effect_nji _ _ pf_len ldiff2 false true (Some fr3) (TVal (LInt 0)) None p') = Ok e /\ length gs < nth 2 (nd_shape e) 0.
Proof.
  eexists. destruct (@C202_several_outcomes_refuted _ _ pf_len pf_col ldiff2 false a3y (perm_new ldiff2 (TNone, TNone)) _ true fr3 None [LInt 0] (TVal (LInt 0)) 2 0 eff3 eq_refl) as (gs & e & G & E & LT);
    [apply grp3; lia|now left|cbn; lia|apply contract3y|]. exists gs, e. split; [reflexivity|]. auto.
Qed.

(** C203: a failed fit, here on a frame without the treatment column, goes unnoticed *)
Definition a_bad : pargs pframe unit := mkPArgs (mkPF [] None [[0%R]]) ["y"%string] ["x"%string] tt.
Example C203_case : exists q e, fit false a_bad (p3 false) = (q, Err KeyError) /\ snd (estimate false None (TVal (LInt 2)) (TVal (LInt 0)) None QNone q) = Ok e.
Proof. eexists _, _. split; reflexivity. Qed.

(** C204: treat is not the treat that was asked: estimate(treat=0, control=2), then treat is 2 *)
Theorem C204_treat_refuted : exists t c p2 e, t <> c /\ is_group pf_col (g_data a3) (g_treatment a3) [t] /\ is_group pf_col (g_data a3) (g_treatment a3) [c] /\
  estimate false None (TVal t) (TVal c) None QNone (p3 false) = (p2, Ok e) /\ snd (treat false p2) = Ok (TVal c).
Proof.
  exists (LInt 0), (LInt 2). eexists _, _. split; [discriminate|]. split; [apply grp3; lia|]. split; [apply grp3; lia|]. split; [cbv - [Rplus Rmult Rminus Ropp IZR]; reflexivity|reflexivity].
Qed.
(** ... and it survives a new fit: a new object raises until it is asked something, a refitted one answers for the question before the fit *)
Theorem C204_stale_treat_refuted : exists p2 e p4,
  estimate false None (TVal (LInt 1)) (TVal (LInt 0)) None QNone (p3 false) = (p2, Ok e) /\ fit false a3 p2 = (p4, Ok tt) /\
  snd (treat false p4) = Ok (TVal (LInt 1)) /\ snd (treat false (p3 false)) = Err ValueError.
Proof. eexists _, _, _. split; [cbv - [Rplus Rmult Rminus Ropp IZR]; reflexivity|]. split; [cbv - [Rplus Rmult Rminus Ropp IZR]; reflexivity|]. split; reflexivity. Qed.

Example C204_quiet_case : quiet (ldiff false).
Proof. split; [intros d q t [[a b] n]; reflexivity|intros d [[a b] n]; reflexivity]. Qed.

Print Assumptions C200_estimate.
Print Assumptions C200_defaults.
Print Assumptions C201_independent.
Print Assumptions C202_effect_nji.
Print Assumptions C203_refit_fresh.
Print Assumptions C204_treat.
