(** Theorems about PermutedLearner after any history of calls: C203, C204. *)
From Coq Require Import ZArith Reals Lra String Sorting.Sorted.
From Verif Require Import Base EstUtilsModel MetaModel MetaSpec MetaProofs CforestProofs PermModel PermSpec PermProofs PermProps.
Set Implicit Arguments.
Local Notation length := List.length.
Local Open Scope nat_scope.

Section P.
Variables (Frame K : Type).
Variable fr_len : Frame -> nat.
Variable fr_col : Frame -> string -> res (list label).
Variable B : blearner Frame K.
Variable disc_out : bool.
Notation St := (B_St B).
Notation fit := (@perm_fit Frame K fr_col B).
Notation estimate := (@perm_estimate Frame K B disc_out).
Notation effect_nji := (@perm_effect_nji Frame K fr_len B disc_out).
Notation treat := (@perm_treat Frame K B).
Notation group a := (is_group fr_col (g_data a) (g_treatment a)).

(** the calls of a user; whatever a call raises is caught *)
Inductive call :=
| CFit (a : pargs Frame K)
| CEst (d : option Frame) (t c : targ) (target : option label) (q : quantity)
| CNji (keep : bool) (d : option Frame) (c : targ) (target : option label)
| CTreat.
Definition run (p : perm B) (x : call) : perm B :=
  match x with
  | CFit a => fst (fit a p)
  | CEst d t c tg q => fst (estimate d t c tg q p)
  | CNji k d c tg => fst (effect_nji k d c tg p)
  | CTreat => fst (treat p)
  end.
Definition question (x : call) : Prop := match x with CFit _ => False | _ => True end.

(** two objects that differ only in what was asked last *)
Definition like (p q : perm B) : Prop :=
  p_base p = p_base q /\ p_fitted p = p_fitted q /\ p_treatment p = p_treatment q /\ p_outcome p = p_outcome q /\ p_treats p = p_treats q /\ p_learners p = p_learners q.

Lemma mapM_inv {A C S} (I : S -> Prop) (f : A -> M S C) l : (forall x s, I s -> I (fst (f x s))) -> forall s, I s -> I (fst (mapM f l s)).
Proof.
  intros H. induction l as [|x l IH]; intros s Hs; cbn [mapM]; [exact Hs|]. unfold mbind at 1. pose proof (H x s Hs) as H1. destruct (f x s) as [s1 [y|]]; cbn [fst] in *; [|auto].
  unfold mbind at 1. pose proof (IH s1 H1) as H2. destruct (mapM f l s1) as [s2 [ys|]]; cbn [fst] in *; auto.
Qed.

(** ** C203: the caller's learner is never changed *)
Lemma run_base p x : p_base (run p x) = p_base p.
Proof.
  destruct x as [a|d t c tg q|k d c tg|]; unfold run.
  - unfold perm_fit, mbind, mset, mlift, mget. cbn [p_base p_fitted p_treatment p_outcome p_treats p_learners p_last].
    destruct (mapX (fun t => do c <- fr_col (g_data a) t; unique_labels c) (g_treatment a)) as [treats|]; [|reflexivity].
    destruct (g_treatment a) as [|t0 tm]; [reflexivity|]. cbn [p_base]. destruct (mapX _ (permute treats)); reflexivity.
  - unfold perm_estimate, mbind, mget, mlift, mset, mret, on_learner. destruct (p_treatment p); [|reflexivity].
    destruct (unwrap l c); [|reflexivity]. destruct (unwrap l t); [|reflexivity]. destruct (get_learner p _ _) as [[[[kk pos] s]|]|]; [|reflexivity|reflexivity].
    match goal with |- context [b_estimate B d q ?o s] => destruct (b_estimate B d q o s) as [s' [e|]] end; reflexivity.
  - unfold perm_effect_nji, mbind at 1, mget. unfold mbind at 1, mlift at 1. destruct (p_treatment p); [|reflexivity].
    unfold mbind at 1, mlift at 1. destruct (match c with TNone => default_of true (p_treats p) | _ => Ok c end); [|reflexivity].
    unfold mbind at 1, mlift at 1. destruct (unwrap l a); [|reflexivity]. unfold mbind at 1.
    assert (X : p_base (fst (mapM (task fr_len disc_out k d a0 tg) (combos (p_treats p)) p)) = p_base p).
    { apply mapM_inv with (I := fun q : perm B => p_base q = p_base p); [|reflexivity]. intros x s Hs. unfold task, mbind, mget, mlift.
      destruct (get_learner s x a0) as [g|]; [|exact Hs]. destruct (targ_eqb x a0); [exact Hs|]. destruct g as [[[kk pos] st]|]; [|exact Hs].
      unfold on_learner. destruct (b_nji B d st) as [s' [e|]]; destruct k; exact Hs. }
    destruct (mapM (task fr_len disc_out k d a0 tg) (combos (p_treats p)) p) as [q [es|]]; exact X.
  - reflexivity.
Qed.
Theorem C203_learner_unchanged h (p : perm B) : p_base (fold_left run h p) = p_base p.
Proof. revert p. induction h as [|x h IH]; intros p; cbn [fold_left]; [reflexivity|]. now rewrite IH, run_base. Qed.

Lemma like_get (p q : perm B) t c : like p q -> get_learner p t c = get_learner q t c.
Proof. intros (E1 & E2 & E3 & E4 & E5 & E6). unfold get_learner. now rewrite E2, E5, E6. Qed.
Lemma like_sym p q : like p q -> like q p.
Proof. intros (E1 & E2 & E3 & E4 & E5 & E6). repeat split; auto. Qed.
Lemma like_trans p q r : like p q -> like q r -> like p r.
Proof. intros (E1 & E2 & E3 & E4 & E5 & E6) (F1 & F2 & F3 & F4 & F5 & F6). repeat split; congruence. Qed.
Lemma like_refl p : like p p.
Proof. repeat split. Qed.

Lemma like_estimate (p q : perm B) d t c tg qq : like p q -> like (fst (estimate d t c tg qq p)) (fst (estimate d t c tg qq q)) /\ snd (estimate d t c tg qq p) = snd (estimate d t c tg qq q).
Proof.
  intros L. pose proof L as (E1 & E2 & E3 & E4 & E5 & E6). unfold perm_estimate, mbind, mget, mlift, mset, mret, on_learner. rewrite <- E3. destruct (p_treatment p) eqn:PT; [|auto].
  destruct (unwrap l c); [|auto]. destruct (unwrap l t); [|auto]. rewrite (@like_get p q _ _ L). destruct (get_learner q _ _) as [[[[kk pos] s]|]|]; [|auto|auto].
  match goal with |- context [b_estimate B d qq ?o s] => destruct (b_estimate B d qq o s) as [s' [e|]] end; (split; [|reflexivity]); cbn [fst]; repeat split; cbn; congruence.
Qed.
Lemma like_task (p q : perm B) k d c tg x : like p q -> like (fst (task fr_len disc_out k d c tg x p)) (fst (task fr_len disc_out k d c tg x q)) /\
  snd (task fr_len disc_out k d c tg x p) = snd (task fr_len disc_out k d c tg x q).
Proof.
  intros L. pose proof L as (E1 & E2 & E3 & E4 & E5 & E6). unfold task, mbind, mget, mlift. rewrite (@like_get p q _ _ L). destruct (get_learner q x c) as [g|]; [|auto].
  rewrite E4. destruct (targ_eqb x c); [auto|]. destruct g as [[[kk pos] st]|]; [|auto]. unfold on_learner. destruct (b_nji B d st) as [s' [e|]]; destruct k; cbn [fst snd]; (split; [|reflexivity]); auto; repeat split; cbn; congruence.
Qed.
Lemma like_nji (p q : perm B) k d c tg : like p q -> like (fst (effect_nji k d c tg p)) (fst (effect_nji k d c tg q)) /\ snd (effect_nji k d c tg p) = snd (effect_nji k d c tg q).
Proof.
  intros L. pose proof L as (E1 & E2 & E3 & E4 & E5 & E6). unfold perm_effect_nji, mbind, mget, mlift. rewrite <- E3, <- E5. destruct (p_treatment p); [|auto].
  destruct (match c with TNone => default_of true (p_treats p) | _ => Ok c end); [|auto]. destruct (unwrap l a); [|auto].
  assert (X : forall xs (p q : perm B), like p q -> like (fst (mapM (task fr_len disc_out k d a0 tg) xs p)) (fst (mapM (task fr_len disc_out k d a0 tg) xs q)) /\
     snd (mapM (task fr_len disc_out k d a0 tg) xs p) = snd (mapM (task fr_len disc_out k d a0 tg) xs q)).
  { clear. induction xs as [|x xs IH]; intros p q L; cbn [mapM]; [auto|]. unfold mbind at 1 3 5 7. destruct (@like_task p q k d a0 tg x L) as [L1 R1].
    destruct (task fr_len disc_out k d a0 tg x p) as [p1 r1], (task fr_len disc_out k d a0 tg x q) as [q1 r2]. cbn [fst snd] in L1, R1. subst r2. destruct r1 as [y|]; [|auto].
    unfold mbind. destruct (IH p1 q1 L1) as [L2 R2]. destruct (mapM _ xs p1) as [p2 s1], (mapM _ xs q1) as [q2 s2]. cbn [fst snd] in L2, R2. subst s2. destruct s1; auto. }
  destruct (X (combos (p_treats p)) p q L) as [L2 R2]. destruct (mapM _ _ p) as [p2 s1], (mapM _ _ q) as [q2 s2]. cbn [fst snd] in L2, R2. subst s2. destruct s1; auto.
Qed.

(** ** C203: after any history of calls, a successful fit leaves the object like a new one that was fitted once: every estimate and effect_nji that follows,
    after any questions, answers the same. *)
Theorem C203_refit_fresh h a b p' hq d t c tg q keep : fit a (fold_left run h (perm_new B b)) = (p', Ok tt) -> Forall question hq ->
  exists f, fit a (perm_new B b) = (f, Ok tt) /\
    snd (estimate d t c tg q (fold_left run hq p')) = snd (estimate d t c tg q (fold_left run hq f)) /\
    snd (effect_nji keep d c tg (fold_left run hq p')) = snd (effect_nji keep d c tg (fold_left run hq f)).
Proof.
  intros H HQ. pose proof (@C203_learner_unchanged h (perm_new B b)) as PB. set (p := fold_left run h (perm_new B b)) in *. clearbody p.
  destruct (@fit_inv _ _ fr_col B a _ _ H) as (treats & ls & E1 & NT & E2 & ->). rewrite PB in *. cbn [p_base perm_new] in *.
  exists (mkPerm B b true (Some (g_treatment a)) (g_outcome a) treats ls None). split.
  { unfold perm_fit, mbind, mset, mlift, mget. cbn [perm_new p_base p_fitted p_treatment p_outcome p_treats p_learners p_last]. rewrite E1. cbn [p_base p_fitted p_treatment p_outcome p_treats p_learners p_last].
    destruct (g_treatment a) as [|t0 tm]; [contradiction|]. rewrite E2. reflexivity. }
  assert (LK : forall r s, like r s -> like (fold_left run hq r) (fold_left run hq s)).
  { clear - HQ. induction HQ as [|x hq Hx HQ IH]; intros r s L; cbn [fold_left]; [auto|]. apply IH. destruct x as [|d t c tg q|k d c tg|]; [contradiction| | |].
    - now apply like_estimate. - now apply like_nji. - exact L. }
  specialize (LK (mkPerm B b true (Some (g_treatment a)) (g_outcome a) treats ls (p_last p)) (mkPerm B b true (Some (g_treatment a)) (g_outcome a) treats ls None) ltac:(repeat split)).
  split; [now apply like_estimate|now apply like_nji].
Qed.

(** a fit that raises keeps the learners of the fit before, and the object stays fitted *)
Lemma failed_fit a p q x : fit a p = (q, Err x) -> p_fitted q = p_fitted p /\ p_learners q = p_learners p.
Proof.
  unfold perm_fit, mbind, mset, mlift, mget. cbn [p_base p_fitted p_treatment p_outcome p_treats p_learners p_last].
  destruct (mapX (fun t => do c <- fr_col (g_data a) t; unique_labels c) (g_treatment a)) as [treats|] eqn:E1; [|intros [= <- _]; auto].
  destruct (g_treatment a) as [|t0 tm] eqn:Et; [intros [= <- _]; auto|]. cbn [p_base p_fitted p_treatment p_outcome p_treats p_learners p_last].
  destruct (mapX _ (permute treats)) as [ls|] eqn:E2; [discriminate|intros [= <- _]; auto].
Qed.
(** so a failed fit goes unnoticed: every pair of the old groups is still answered with the learners of the old data *)
Theorem C203_failed_refit_refuted a p p' a' q x d tg qq t c at_ ac : fit a p = (p', Ok tt) -> fit a' p' = (q, Err x) ->
  length (g_treatment a') = length (g_treatment a) -> group a t -> group a c -> means at_ t -> means ac c -> t <> c ->
  snd (estimate d at_ ac tg qq q) = snd (estimate d at_ ac tg qq p').
Proof.
  intros H H' LL Gt Gc Mt Mc NE. pose proof (@failed_fit a' p' q x H') as [F1 F2].
  pose proof (@group_len _ _ fr_col a t Gt) as Lt. pose proof (@group_len _ _ fr_col a c Gc) as Lc.
  assert (PQ : p_treatment q = Some (g_treatment a')).
  { clear - H'. unfold perm_fit, mbind, mset, mlift, mget in H'. cbn [p_base p_fitted p_treatment p_outcome p_treats p_learners p_last] in H'.
    destruct (mapX (fun t => do c <- fr_col (g_data a') t; unique_labels c) (g_treatment a')) as [treats|] eqn:E1; [|injection H' as <- _; reflexivity].
    destruct (g_treatment a') as [|t0 tm] eqn:Et; [injection H' as <- _; reflexivity|]. cbn [p_base p_fitted p_treatment p_outcome p_treats p_learners p_last] in H'.
    destruct (mapX _ (permute treats)) as [ls|] eqn:E2; [discriminate|injection H' as <- _; reflexivity]. }
  assert (PP : p_treatment p' = Some (g_treatment a)) by (destruct (@fit_inv _ _ fr_col B a _ _ H) as (? & ? & _ & _ & _ & ->); reflexivity).
  rewrite (@estimate_eq _ _ B disc_out q _ d qq tg at_ ac _ _ PQ (@unwrap_means (g_treatment a') _ _ Mt ltac:(congruence)) (@unwrap_means (g_treatment a') _ _ Mc ltac:(congruence))).
  rewrite (@estimate_eq _ _ B disc_out p' _ d qq tg at_ ac _ _ PP (@unwrap_means (g_treatment a) _ _ Mt ltac:(congruence)) (@unwrap_means (g_treatment a) _ _ Mc ltac:(congruence))).
  assert (GG : get_learner q (group_arg t) (group_arg c) = get_learner p' (group_arg t) (group_arg c)).
  { unfold get_learner. rewrite F1, F2. destruct (negb (p_fitted p')); [auto|].
    assert (GL : forall g d, match group_arg g with TNone => d | _ => Ok (group_arg g) end = Ok (group_arg g)) by (intros [|v [|v' y]] d0; reflexivity).
    now rewrite !GL. }
  rewrite GG. destruct (get_learner p' (group_arg t) (group_arg c)) as [[[[k pos] s]|]|]; auto. destruct (b_estimate B d qq (target_for B disc_out s tg) s) as [s' [e|]]; reflexivity.
Qed.

(** an object that was never fitted answers nothing *)
Theorem C203_unfitted b d t c tg q keep : snd (estimate d t c tg q (perm_new B b)) = Err TypeError /\ snd (effect_nji keep d c tg (perm_new B b)) = Err TypeError /\ snd (treat (perm_new B b)) = Err ValueError.
Proof. repeat split. Qed.

(** ** C204: learners whose estimate and effect_nji change nothing: no question changes any later answer *)
Lemma put_same ls k s : find_learner B ls k = Some s -> put_learner B ls k s = ls.
Proof.
  induction ls as [|[k' s'] ls IH]; cbn; [auto|]. destruct (key_eqb k k'); [intros [= ->]; auto|]. intros E. now rewrite IH.
Qed.
Lemma get_find (p : perm B) t c k pos s : get_learner p t c = Ok (Some (k, pos, s)) -> find_learner B (p_learners p) k = Some s.
Proof.
  unfold get_learner. destruct (negb (p_fitted p)); [discriminate|].
  destruct (match t with TNone => _ | _ => _ end); cbn [bind]; [|discriminate]. destruct (match c with TNone => _ | _ => _ end); cbn [bind]; [|discriminate].
  destruct (negb (hashable a && hashable a0)); [discriminate|]. destruct (find_learner B (p_learners p) (a, a0)) eqn:E1; [intros [= <- _ <-]; auto|].
  destruct (find_learner B (p_learners p) (a0, a)) eqn:E2; [intros [= <- _ <-]; auto|discriminate].
Qed.
Lemma quiet_run p x : quiet B -> question x -> like (run p x) p.
Proof.
  intros [Q1 Q2] QX. destruct x as [|d t c tg q|k d c tg|]; [contradiction| | |apply like_refl]; unfold run.
  - unfold perm_estimate, mbind, mget, mlift, mset, mret, on_learner. destruct (p_treatment p) eqn:PT; [|apply like_refl].
    destruct (unwrap l c); [|apply like_refl]. destruct (unwrap l t); [|apply like_refl]. destruct (get_learner p _ _) as [[[[kk pos] s]|]|] eqn:EG; [|apply like_refl|apply like_refl].
    apply get_find in EG.
    match goal with |- context [b_estimate B d q ?o s] => pose proof (Q1 d q o s) as EQ; destruct (b_estimate B d q o s) as [s' [e|]] end; cbn [fst] in EQ |- *; subst s';
    repeat split; cbn [p_learners p_treatment]; auto; now apply put_same.
  - unfold perm_effect_nji, mbind at 1, mget. unfold mbind at 1, mlift at 1. destruct (p_treatment p); [|apply like_refl].
    unfold mbind at 1, mlift at 1. destruct (match c with TNone => default_of true (p_treats p) | _ => Ok c end); [|apply like_refl].
    unfold mbind at 1, mlift at 1. destruct (unwrap l a); [|apply like_refl]. unfold mbind at 1.
    assert (X : like (fst (mapM (task fr_len disc_out k d a0 tg) (combos (p_treats p)) p)) p).
    { apply mapM_inv with (I := fun q : perm B => like q p); [|apply like_refl]. intros x s Hs. unfold task, mbind, mget, mlift.
      destruct (get_learner s x a0) as [g|] eqn:EG; [|exact Hs]. destruct (targ_eqb x a0); [exact Hs|]. destruct g as [[[kk pos] st]|]; [|exact Hs].
      apply get_find in EG. unfold on_learner. pose proof (Q2 d st) as EQ. destruct (b_nji B d st) as [s' [e|]]; cbn [fst] in EQ; subst s'; (destruct k; [|exact Hs]);
      (eapply like_trans; [|exact Hs]); repeat split; cbn [fst p_learners]; now apply put_same. }
    destruct (mapM (task fr_len disc_out k d a0 tg) (combos (p_treats p)) p) as [q [es|]]; exact X.
Qed.
Theorem C204_quiet_questions hq (p : perm B) d t c tg q keep : quiet B -> Forall question hq ->
  let p2 := fold_left run hq p in
  snd (estimate d t c tg q p2) = snd (estimate d t c tg q p) /\ snd (effect_nji keep d c tg p2) = snd (effect_nji keep d c tg p).
Proof.
  intros Q HQ p2. assert (L : like p2 p).
  { unfold p2. clear p2. revert p. induction HQ as [|x hq Hx HQ IH]; intros p; cbn [fold_left]; [apply like_refl|]. eapply like_trans; [apply IH|]. now apply quiet_run. }
  split; [now apply like_estimate|now apply like_nji].
Qed.

(** ** C204: treat, after an estimate, is the one of the learner that was asked, for estimate(t, c) and for estimate(c, t) *)
Theorem C204_treat a p p' d q tg t c at_ ac : fit a p = (p', Ok tt) -> group a t -> group a c -> glt c t -> means at_ t -> means ac c ->
  exists s, alone B (p_base p) a t c = (s, Ok tt) /\
    let s' := fst (b_estimate B d q (target_for B disc_out s tg) s) in
    forall e, snd (b_estimate B d q (target_for B disc_out s tg) s) = Ok e ->
    snd (treat (fst (estimate d at_ ac tg q p'))) = b_treat B s' /\ snd (treat (fst (estimate d ac at_ tg q p'))) = b_treat B s'.
Proof.
  intros H Gt Gc G Mt Mc. pose proof (@group_len _ _ fr_col a t Gt) as Lt. pose proof (@group_len _ _ fr_col a c Gc) as Lc.
  destruct (@get_fit _ _ fr_col B a p p' t c H Lt Lc) as [F _]. destruct (F Gt Gc G) as (s & E & G1 & G2). exists s. split; [auto|]. intros s' e Ee.
  assert (PP : p_treatment p' = Some (g_treatment a)) by (destruct (@fit_inv _ _ fr_col B a _ _ H) as (? & ? & _ & _ & _ & ->); reflexivity).
  rewrite (@estimate_eq _ _ B disc_out p' _ d q tg at_ ac _ _ PP (@unwrap_means (g_treatment a) _ _ Mt ltac:(congruence)) (@unwrap_means (g_treatment a) _ _ Mc ltac:(congruence))).
  rewrite (@estimate_eq _ _ B disc_out p' _ d q tg ac at_ _ _ PP (@unwrap_means (g_treatment a) _ _ Mc ltac:(congruence)) (@unwrap_means (g_treatment a) _ _ Mt ltac:(congruence))).
  rewrite G1, G2. unfold s'. clear s'. destruct (b_estimate B d q (target_for B disc_out s tg) s) as [s' r]. cbn [snd fst] in Ee |- *. subst r.
  assert (FF : find_learner B (p_learners p') (group_arg t, group_arg c) = Some s) by now apply get_find in G1.
  assert (FN : find_learner B (p_learners p') (group_arg c, group_arg t) = None).
  { destruct (find_learner B (p_learners p') (group_arg c, group_arg t)) eqn:X; [|auto]. exfalso. clear - G2 X PP H. unfold get_learner in G2.
    destruct (negb (p_fitted p')); [discriminate|].
    assert (GL : forall g d, match group_arg g with TNone => d | _ => Ok (group_arg g) end = Ok (group_arg g)) by (intros [|v [|v' y]] d0; reflexivity).
    rewrite !GL in G2. cbn [bind] in G2. rewrite !group_arg_hashable in G2. cbn [andb negb] in G2. rewrite X in G2. discriminate. }
  assert (TT : forall l, get_learner (mkPerm B (p_base p') (p_fitted p') (p_treatment p') (p_outcome p') (p_treats p') (put_learner B (p_learners p') (group_arg t, group_arg c) s') l) (group_arg t) (group_arg c)
       = Ok (Some ((group_arg t, group_arg c), true, s')) /\
     get_learner (mkPerm B (p_base p') (p_fitted p') (p_treatment p') (p_outcome p') (p_treats p') (put_learner B (p_learners p') (group_arg t, group_arg c) s') l) (group_arg c) (group_arg t)
       = Ok (Some ((group_arg t, group_arg c), false, s'))).
  { intros l. unfold get_learner. cbn [p_fitted p_treats p_learners].
    assert (PF : p_fitted p' = true) by (destruct (@fit_inv _ _ fr_col B a _ _ H) as (? & ? & _ & _ & _ & ->); reflexivity). rewrite PF. cbn [negb].
    assert (GL : forall g d, match group_arg g with TNone => d | _ => Ok (group_arg g) end = Ok (group_arg g)) by (intros [|v [|v' y]] d0; reflexivity).
    rewrite !GL. cbn [bind]. rewrite !group_arg_hashable. cbn [andb negb]. rewrite !find_put, FF, FN.
    rewrite key_eqb_refl by (cbn [fst snd]; apply group_arg_hashable).
    assert (KK : key_eqb (group_arg c, group_arg t) (group_arg t, group_arg c) = false).
    { destruct (key_eqb _ _) eqn:X; [|auto]. exfalso. apply key_eqb_eq in X. injection X as X _. apply group_arg_inj in X; [|congruence]. subst c. now apply glt_irrefl in G. }
    rewrite KK. auto. }
  cbn [fst]. unfold perm_treat, mbind, mget, mlift. cbn [p_last snd]. destruct (TT (Some (group_arg t, group_arg c))) as [T1 _]. destruct (TT (Some (group_arg c, group_arg t))) as [_ T2].
  rewrite T1, T2. cbn [bind]. auto.
Qed.
End P.
