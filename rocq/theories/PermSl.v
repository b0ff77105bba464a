(** PermutedLearner around an SLearner: C205; examples for C200 - C204. *)
From Coq Require Import ZArith Reals Lra String Sorting.Sorted.
From Verif Require Import Base EstUtilsModel EstUtilsProps MetaModel MetaSpec MetaProofs MetaProps CforestProofs PermModel PermSpec PermProofs PermProps PermHist.
Set Implicit Arguments.
Local Notation length := List.length.
Local Open Scope nat_scope.

Notation pfit L c := (@perm_fit pframe unit pf_col (s_learner L c)).
Notation pestimate L c := (@perm_estimate pframe unit (s_learner L c) false).

Lemma nth_ms {A} (f : nat -> A) n i d : i < n -> nth i (map f (seq 0 n)) d = f i.
Proof. intros H. rewrite nth_indep with (d' := f 0) by now rewrite map_length, seq_length. rewrite map_nth, seq_nth by auto. reflexivity. Qed.

(** the values of a group that can be passed to an SLearner: one treatment, or all strings, or no strings *)
Definition one_kind (g : list label) : Prop := length g = 1 \/ forallb is_str g = true \/ existsb is_str g = false.
(** the rows of the treatment columns *)
Definition treat_rows (f : pframe) (treatment : list string) (x : list (list label)) : Prop :=
  length x = pf_len f /\ forall i, i < pf_len f -> Forall2 (fun t v => exists c, pf_col f t = Ok c /\ nth_error c i = Some v) treatment (nth i x []).

(** ** C205: the first estimate(data, t, c) of a PermutedLearner around an SLearner is the difference of the predictions of the SLearner's model for t and
    for c, in both orders of t and c. *)
Theorem C205_slearner_estimate L c a p' wv t k at_ ak (data : option pframe) x :
  c_categories c = None -> pf_wv (g_data a) = Some wv ->
  (forall n col, In n (g_treatment a) -> pf_col (g_data a) n = Ok col -> length col = pf_len (g_data a)) ->
  pfit L c a (perm_new (s_learner L c) (sl_new L)) = (p', Ok tt) ->
  is_group pf_col (g_data a) (g_treatment a) t -> is_group pf_col (g_data a) (g_treatment a) k -> t <> k -> one_kind t -> one_kind k -> means at_ t -> means ak k ->
  treat_rows (g_data a) (g_treatment a) x ->
  (forall f, data = Some f -> exists w, pf_wv f = Some w) ->
  exists keys m e, groups_of (length (g_treatment a)) (occurs x) keys /\
    l_fit L (map (fun p => features keys (snd p) (fst p)) (combine wv x)) (squeeze (nd_rows (pf_y (g_data a)))) = Ok m /\
    snd (pestimate L c data at_ ak None QNone p') = Ok e /\
    forall D, match data with Some f => pf_wv f = Some D | None => D = wv end ->
    entrywise Rminus (pred_func L (c_proba c) m (map (features keys t) D)) (pred_func L (c_proba c) m (map (features keys k) D)) e.
Proof.
  intros HN HW HC H Gt Gk NE Kt Kk Mt Mk TR HD.
  pose proof (@group_len _ _ pf_col a t Gt) as Lt. pose proof (@group_len _ _ pf_col a k Gk) as Lk.
  (* the rows that the learner sees *)
  assert (PX : pf_x (g_data a) (g_treatment a) = Ok x).
  { unfold pf_x. assert (exists cs, mapX (pf_col (g_data a)) (g_treatment a) = Ok cs /\ Forall2 (fun n col => pf_col (g_data a) n = Ok col) (g_treatment a) cs) as (cs & E & F).
    { clear - Gt. unfold is_group in Gt. induction Gt as [|n v tm g (col & E & _) Gt IH]; [exists []; split; [reflexivity|constructor]|].
      destruct IH as (cs & E1 & F). exists (col :: cs). cbn [mapX]. rewrite E, E1. split; [reflexivity|constructor; auto]. }
    rewrite E. cbn [bind]. f_equal. destruct TR as [LX TR]. fold (pf_len (g_data a)). apply nth_ext with (d := []) (d' := []); [now rewrite map_length, seq_length|].
    intros i Hi. rewrite map_length, seq_length in Hi. rewrite nth_ms by auto. specialize (TR i Hi). clear - TR F.
    revert TR. generalize (nth i x []) as r. induction F as [|n col tm cs En F IH]; intros r TR; inversion TR as [|? v ? r' (col' & E' & Ev) TR']; subst; [reflexivity|].
    cbn [map]. rewrite En in E'. injection E' as <-. rewrite (nth_error_nth _ _ _ Ev). f_equal. now apply IH. }
  assert (LR : Forall (fun r => length r = length (g_treatment a)) x).
  { destruct TR as [LX TR]. apply Forall_forall. intros r Hr. apply (In_nth _ _ []) in Hr. destruct Hr as (i & Hi & <-). rewrite LX in Hi. specialize (TR i Hi).
    clear - TR. induction TR; cbn; auto. }
  assert (IK : forall g keys, is_group pf_col (g_data a) (g_treatment a) g -> groups_of (length (g_treatment a)) (occurs x) keys -> In g keys).
  { intros g keys Gg [_ GO]. apply GO. split; [now apply (@group_len _ _ pf_col a g)|]. intros j Hj. destruct TR as [LX TR].
    assert (exists col, pf_col (g_data a) (nth j (g_treatment a) ""%string) = Ok col /\ In (nth j g (LInt 0)) col) as (col & E & I).
    { clear - Gg Hj. revert j Hj. unfold is_group in Gg. induction Gg as [|n v tm g Hv Gg IH]; intros j Hj; [cbn in Hj; lia|]. destruct j; [exact Hv|]. cbn [nth]. apply IH. cbn in Hj. lia. }
    pose proof (HC _ _ (nth_In _ ""%string Hj) E) as LC. apply In_nth_error in I. destruct I as (i & I). assert (Hi : i < pf_len (g_data a)) by (rewrite <- LC; apply nth_error_Some; congruence).
    exists (nth i x []). split; [apply nth_In; congruence|]. specialize (TR i Hi). clear - TR Hj E I. revert I. generalize (nth j g (LInt 0)) as vv. intros vv I. revert j Hj E. generalize dependent (nth i x []). generalize (g_treatment a).
    intros tm r TR. induction TR as [|n v tm r (col' & E' & Ev) TR IH]; intros j Hj E; [cbn in Hj; lia|]. destruct j; cbn [nth] in *; [congruence|]. apply IH; auto. cbn in Hj. lia. }
  assert (AK : forall keys dflt g, is_group pf_col (g_data a) (g_treatment a) g -> one_kind g -> asks (length (g_treatment a)) keys dflt (group_arg g) g).
  { intros keys dflt g Gg Kg. pose proof (@group_len _ _ pf_col a g Gg) as Lg. unfold group_arg. destruct g as [|v [|v' g]].
    - apply asks_list. now left.
    - apply asks_val. auto.
    - apply asks_list. destruct Kg as [Kg|Kg]; [cbn in Kg; lia|exact Kg]. }
  assert (MAIN : forall u v, is_group pf_col (g_data a) (g_treatment a) u -> is_group pf_col (g_data a) (g_treatment a) v -> one_kind u -> one_kind v ->
     forall s, alone (s_learner L c) (sl_new L) a u v = (s, Ok tt) ->
     exists keys m e, groups_of (length (g_treatment a)) (occurs x) keys /\
       l_fit L (map (fun p => features keys (snd p) (fst p)) (combine wv x)) (squeeze (nd_rows (pf_y (g_data a)))) = Ok m /\
       snd (b_estimate (s_learner L c) data QNone None s) = Ok e /\
       forall D, match data with Some f => pf_wv f = Some D | None => D = wv end ->
       entrywise Rminus (pred_func L (c_proba c) m (map (features keys u) D)) (pred_func L (c_proba c) m (map (features keys v) D)) e).
  { intros u v Gu Gv Ku Kv s E. unfold alone in E. cbn [b_fit s_learner] in E. unfold mbind, mlift in E. rewrite PX, HW in E.
    destruct (C104_first_estimate L c (mkFitArgs x (Some wv) (pf_y (g_data a)) (group_arg u) (group_arg v) true) s wv (length (g_treatment a)) HN eq_refl eq_refl LR E) as (keys & m & GO & _ & _ & Em & EST).
    cbn [f_x f_y f_treat f_control] in *.
    set (dd := match data with Some f => pf_wv f | None => None end).
    destruct (EST dd u v (AK _ _ _ Gu Ku) (AK _ _ _ Gv Kv) (IK _ _ Gu GO) (IK _ _ Gv GO)) as (s2 & e & E2 & EW).
    exists keys, m, e. split; [auto|]. split; [auto|]. split.
    - cbn [b_estimate s_learner]. unfold mbind, mlift. assert (QQ : pf_query data = Ok dd).
      { unfold pf_query, dd. destruct data as [f|]; [|reflexivity]. destruct (HD f eq_refl) as [w Ew]. now rewrite Ew. }
      rewrite QQ, E2. reflexivity.
    - intros D ED. unfold dd in EW. destruct data as [f|]; [rewrite ED in EW; exact EW|subst D; exact EW]. }
  destruct (@C200_estimate _ _ pf_col (s_learner L c) false a _ p' data QNone None t k at_ ak H Gt Gk Mt Mk) as (A1 & A2 & _). cbn [p_base perm_new] in A1, A2.
  destruct (@glt_total t k ltac:(congruence)) as [E|[G|G]]; [contradiction| |].
  - destruct (A2 G) as (s & E & SR). destruct (MAIN k t Gk Gt Kk Kt s E) as (keys & m & e & GO & Em & Ee & EW). cbn [target_for] in SR. change (target_for (s_learner L c) false s None) with (@None label) in SR. rewrite Ee in SR.
    destruct (snd (pestimate L c data at_ ak None QNone p')) as [e'|] eqn:EP; [|contradiction]. destruct SR as [S1 S2].
    exists keys, m, e'. split; [auto|]. split; [auto|]. split; [auto|]. intros D ED. destruct (EW D ED) as (W1 & W2 & W3). split; [congruence|]. split; [congruence|]. intros idx. rewrite S2, W3. ring.
  - destruct (A1 G) as (s & E & SR). destruct (MAIN t k Gt Gk Kt Kk s E) as (keys & m & e & GO & Em & Ee & EW). change (target_for (s_learner L c) false s None) with (@None label) in SR. rewrite Ee in SR.
    destruct (snd (pestimate L c data at_ ak None QNone p')) as [e'|] eqn:EP; [|contradiction]. destruct SR as [S1 S2].
    exists keys, m, e'. split; [auto|]. split; [auto|]. split; [auto|]. intros D ED. destruct (EW D ED) as (W1 & W2 & W3). split; [congruence|]. split; [congruence|]. intros idx. rewrite S2, W3. reflexivity.
Qed.

(** asked again, it is not: two string values, the same question twice *)
Definition fr_sy : pframe := mkPF [("x"%string, [LStr "no"; LStr "yes"])] (Some [[0%R]; [1%R]]) [[0%R]; [2%R]].
Definition a_sy : pargs pframe unit := mkPArgs fr_sy ["y"%string] ["x"%string] tt.
Theorem C205_repeat_refuted : exists p' p2 e,
  pfit toy plain a_sy (perm_new (s_learner toy plain) (sl_new toy)) = (p', Ok tt) /\
  pestimate toy plain None (TVal (LStr "yes")) (TVal (LStr "no")) None QNone p' = (p2, Ok e) /\
  snd (pestimate toy plain None (TVal (LStr "yes")) (TVal (LStr "no")) None QNone p2) = Err ValueError.
Proof. eexists _, _, _. split; [reflexivity|]. split; [cbv - [Rplus Rmult Rminus Ropp IZR]; reflexivity|]. reflexivity. Qed.

(** the hypotheses of C205 are met *)
Example C205_case : exists p', pfit toy plain a_sy (perm_new (s_learner toy plain) (sl_new toy)) = (p', Ok tt) /\
  is_group pf_col (g_data a_sy) (g_treatment a_sy) [LStr "yes"] /\ is_group pf_col (g_data a_sy) (g_treatment a_sy) [LStr "no"] /\
  treat_rows (g_data a_sy) (g_treatment a_sy) [[LStr "no"]; [LStr "yes"]] /\
  (forall n col, In n (g_treatment a_sy) -> pf_col (g_data a_sy) n = Ok col -> length col = pf_len (g_data a_sy)).
Proof.
  eexists. split; [reflexivity|]. split; [constructor; [|constructor]; exists [LStr "no"; LStr "yes"]; cbn; auto|].
  split; [constructor; [|constructor]; exists [LStr "no"; LStr "yes"]; cbn; auto|]. split.
  - split; [reflexivity|]. intros [|[|i]] Hi; [| |cbn in Hi; lia]; (constructor; [|constructor]); exists [LStr "no"; LStr "yes"]; auto.
  - intros n col [<-|[]] [= <-]. reflexivity.
Qed.

Print Assumptions C205_slearner_estimate.
