(** Theorems about PermutedLearner: C200 - C204. *)
From Coq Require Import ZArith Reals Lra String Sorting.Sorted.
From Verif Require Import Base EstUtilsModel MetaModel MetaSpec MetaProofs CforestProofs PermModel PermSpec PermProofs.
Set Implicit Arguments.
Local Notation length := List.length.
Local Open Scope nat_scope.

Lemma F2_impl {A C} (P Q : A -> C -> Prop) l m : (forall x y, P x y -> Q x y) -> Forall2 P l m -> Forall2 Q l m.
Proof. intros H F. induction F; constructor; auto. Qed.

Lemma last_step {A} (w v : A) r : last (w :: r) v = last r w.
Proof. destruct r as [|u r]; [reflexivity|]. change (last (w :: u :: r) v) with (last (u :: r) v). revert u. induction r as [|x r IH]; intros u; [reflexivity|]. apply IH. Qed.
Lemma last_In' {A} (v : A) r : In (last r v) (v :: r).
Proof. revert v. induction r as [|w r IH]; intros v; [now left|]. right. rewrite last_step. apply IH. Qed.

Section P.
Variables (Frame K : Type).
Variable fr_len : Frame -> nat.
Variable fr_col : Frame -> string -> res (list label).
Variable B : blearner Frame K.
Variable disc_out : bool.
Notation St := (B_St B).
Notation fit := (@perm_fit Frame K fr_col B).
Notation estimate := (@perm_estimate Frame K B disc_out).
Notation effect_nji := (@perm_effect_nji Frame K fr_len B disc_out).
Notation group a := (is_group fr_col (g_data a) (g_treatment a)).

(** the learner of the caller, fitted for one pair *)
Definition alone (b : St) (a : pargs Frame K) (t c : list label) : St * res unit :=
  b_fit B (g_data a) (g_kw a) (g_outcome a) (g_treatment a) (group_arg t) (group_arg c) b.

Lemma fit_inv (a : pargs Frame K) p p' : fit a p = (p', Ok tt) -> exists treats ls,
  mapX (fun t => do c <- fr_col (g_data a) t; unique_labels c) (g_treatment a) = Ok treats /\ g_treatment a <> [] /\
  mapX (copy_and_fit B (p_base p) (g_data a) (g_kw a) (g_outcome a) (g_treatment a)) (permute treats) = Ok ls /\
  p' = mkPerm B (p_base p) true (Some (g_treatment a)) (g_outcome a) treats ls (p_last p).
Proof.
  unfold perm_fit, mbind, mset, mlift, mget. cbn [p_base p_fitted p_treatment p_outcome p_treats p_learners p_last].
  destruct (mapX (fun t => do c <- fr_col (g_data a) t; unique_labels c) (g_treatment a)) as [treats|] eqn:E1; [|discriminate].
  destruct (g_treatment a) as [|t0 tm] eqn:Et; [discriminate|]. cbn [p_base p_fitted p_treatment p_outcome p_treats p_learners p_last].
  destruct (mapX (copy_and_fit B (p_base p) (g_data a) (g_kw a) (g_outcome a) (t0 :: tm)) (permute treats)) as [ls|] eqn:E2; [|discriminate].
  intros [= <-]. exists treats, ls. rewrite <- Et in *. split; [auto|]. split; [congruence|]. auto.
Qed.

Lemma treats_groups (a : pargs Frame K) treats : mapX (fun t => do c <- fr_col (g_data a) t; unique_labels c) (g_treatment a) = Ok treats ->
  Forall (StronglySorted llt) treats /\ length treats = length (g_treatment a) /\ forall g, In g (product treats) <-> group a g.
Proof.
  intros H. apply mapX_inv in H.
  assert (F : Forall2 (fun t l => exists c, fr_col (g_data a) t = Ok c /\ StronglySorted llt l /\ forall v, In v l <-> In v c) (g_treatment a) treats).
  { eapply F2_impl; [|exact H]. intros t l E. cbn beta in E. destruct (fr_col (g_data a) t) as [c|]; cbn [bind] in E; [|discriminate]. apply unique_labels_spec in E. eauto. }
  clear H. split; [|split].
  - induction F as [|t l ? ? (c & _ & S & _)]; constructor; auto.
  - induction F; cbn; auto.
  - intros g. rewrite product_In. unfold is_group. revert g. induction F as [|t l tm tr (c & E & _ & HI) F IH]; intros g.
    + split; intros H; inversion H; constructor.
    + split; intros H; inversion H as [|? v ? g' Hv Hg]; subst; (constructor; [|now apply IH]).
      * exists c. split; [auto|]. now apply HI.
      * destruct Hv as (c' & E' & Hv). rewrite E in E'. injection E' as <-. now apply HI.
Qed.

Lemma group_len (a : pargs Frame K) g : group a g -> length g = length (g_treatment a).
Proof. unfold is_group. intros H. induction H; cbn; auto. Qed.

(** arguments *)
Lemma unwrap_means tm g x : means x g -> length g = length tm -> unwrap tm x = Ok (group_arg g).
Proof.
  unfold means, unwrap, group_arg. destruct g as [|v [|v' g]]; intros H L; destruct tm as [|t0 [|t1 tm]]; try discriminate.
  - now subst x.
  - destruct H as [->|[l ->]]; reflexivity.
  - now subst x.
Qed.

(** what _get_learner finds after a fit *)
Lemma get_fit a p p' t c : fit a p = (p', Ok tt) -> length t = length (g_treatment a) -> length c = length (g_treatment a) ->
  (group a t -> group a c -> glt c t -> exists s, alone (p_base p) a t c = (s, Ok tt) /\
     get_learner p' (group_arg t) (group_arg c) = Ok (Some ((group_arg t, group_arg c), true, s)) /\
     get_learner p' (group_arg c) (group_arg t) = Ok (Some ((group_arg t, group_arg c), false, s))) /\
  (t = c \/ ~ group a t \/ ~ group a c -> get_learner p' (group_arg t) (group_arg c) = Ok None).
Proof.
  intros H Lt Lc. destruct (fit_inv _ _ H) as (treats & ls & E1 & NE & E2 & ->). destruct (treats_groups _ E1) as (SS & LT & HG).
  assert (NT : treats <> []) by (destruct treats; [destruct (g_treatment a); [contradiction|discriminate]|discriminate]).
  assert (FD : forall t c, length t = length (g_treatment a) -> length c = length (g_treatment a) ->
     match find_learner B ls (group_arg t, group_arg c) with
     | Some s => (group a t /\ group a c /\ glt c t) /\ alone (p_base p) a t c = (s, Ok tt)
     | None => ~ (group a t /\ group a c /\ glt c t) end).
  { clear t c Lt Lc. intros t c Lt Lc. pose proof (@find_made _ _ B _ _ _ _ _ _ _ (group_arg t, group_arg c) E2 (group_arg_hashable t) (group_arg_hashable c)) as F.
    pose proof (@permute_groups treats t c NT SS ltac:(congruence) ltac:(congruence)) as PG. rewrite !HG in PG.
    destruct (find_learner B ls (group_arg t, group_arg c)); [destruct F as [F1 F2]; split; [now apply PG|auto]|]. now rewrite <- PG. }
  assert (GT : forall t c, get_learner (mkPerm B (p_base p) true (Some (g_treatment a)) (g_outcome a) treats ls (p_last p)) (group_arg t) (group_arg c) =
     match find_learner B ls (group_arg t, group_arg c) with
     | Some s => Ok (Some ((group_arg t, group_arg c), true, s))
     | None => match find_learner B ls (group_arg c, group_arg t) with Some s => Ok (Some ((group_arg c, group_arg t), false, s)) | None => Ok None end end).
  { clear. intros t c. unfold get_learner. cbn [p_fitted negb p_treats p_learners].
    assert (GL : forall g d, match group_arg g with TNone => d | _ => Ok (group_arg g) end = Ok (group_arg g)) by (intros [|v [|v' g]] d; reflexivity).
    rewrite !GL. cbn [bind]. now rewrite !group_arg_hashable. }
  split.
  - intros Gt Gc G. pose proof (FD t c Lt Lc) as F1. pose proof (FD c t Lc Lt) as F2.
    destruct (find_learner B ls (group_arg t, group_arg c)) as [s|] eqn:Q1; [|exfalso; apply F1; auto].
    destruct (find_learner B ls (group_arg c, group_arg t)) as [s'|] eqn:Q2.
    { exfalso. destruct F2 as [(_ & _ & G') _]. apply (@glt_irrefl t). eapply glt_trans; eauto. }
    exists s. split; [tauto|]. rewrite !GT, Q1, Q2. auto.
  - intros N. rewrite GT. pose proof (FD t c Lt Lc) as F1. pose proof (FD c t Lc Lt) as F2.
    destruct (find_learner B ls (group_arg t, group_arg c)) as [s|].
    { exfalso. destruct F1 as [(A1 & A2 & A3) _]. destruct N as [->|[N|N]]; [now apply glt_irrefl in A3|contradiction|contradiction]. }
    destruct (find_learner B ls (group_arg c, group_arg t)) as [s|]; [|auto].
    exfalso. destruct F2 as [(A1 & A2 & A3) _]. destruct N as [->|[N|N]]; [now apply glt_irrefl in A3|contradiction|contradiction].
Qed.

(** the target class passed on: only for discrete outcomes; by default the last class of the learner *)
Definition target_for (s : St) (target : option label) : option label :=
  if disc_out then match target with
                   | Some cl => Some cl
                   | None => if b_target B then match b_classes B s with Some (c0 :: cs) => Some (last cs c0) | _ => None end else None
                   end
  else None.
Lemma last_cons {A} (x : A) l : last (x :: l) x = last l x.
Proof. destruct l; reflexivity. Qed.

Lemma estimate_eq (p : perm B) tm data q target at_ ac t c : p_treatment p = Some tm -> unwrap tm at_ = Ok t -> unwrap tm ac = Ok c ->
  estimate data at_ ac target q p =
    match get_learner p t c with
    | Err x => (p, Err x)
    | Ok None => (p, Err ValueError)
    | Ok (Some (k, pos, s)) =>
        let '(s', r) := b_estimate B data q (target_for s target) s in
        let p1 := mkPerm B (p_base p) (p_fitted p) (p_treatment p) (p_outcome p) (p_treats p) (put_learner B (p_learners p) k s') (p_last p) in
        match r with
        | Ok e => (mkPerm B (p_base p) (p_fitted p) (p_treatment p) (p_outcome p) (p_treats p) (put_learner B (p_learners p) k s') (Some (t, c)), Ok (if pos then e else neg_nd e))
        | Err x => (p1, Err x)
        end
    end.
Proof.
  intros Et Ut Uc. unfold perm_estimate, mbind, mget, mlift, mset, mret. cbn beta. rewrite Et, Uc, Ut.
  destruct (get_learner p t c) as [[[[k pos] s]|]|]; auto. unfold on_learner.
  assert (TF : (if disc_out then match target with Some cl => Some cl | None => if b_target B then match b_classes B s with Some (c0 :: cs) => Some (last (c0 :: cs) c0) | _ => None end else None end else None) = target_for s target).
  { unfold target_for. destruct disc_out; [|auto]. destruct target; [auto|]. destruct (b_target B); [|auto]. destruct (b_classes B s) as [[|c0 cs]|]; auto. f_equal. apply last_cons. }
  rewrite TF. rewrite Et. destruct (b_estimate B data q (target_for s target) s) as [s' [e|x]]; reflexivity.
Qed.

Definition same_res (r r' : res (nd R)) (f : R -> R) : Prop :=
  match r, r' with
  | Ok e, Ok e' => nd_shape e = nd_shape e' /\ forall i, nd_at e i = f (nd_at e' i)
  | Err x, Err y => x = y
  | _, _ => False
  end.

(** ** C200: after fit, estimate(treat=t, control=c) is what the caller's learner, fitted alone on the same data with the later of the two groups as
    treat and the earlier one as control, estimates; with the sign changed if t is the earlier one. *)
Theorem C200_estimate a p p' data q target t c at_ ac : fit a p = (p', Ok tt) ->
  group a t -> group a c -> means at_ t -> means ac c ->
  (glt c t -> exists s, alone (p_base p) a t c = (s, Ok tt) /\
     same_res (snd (estimate data at_ ac target q p')) (snd (b_estimate B data q (target_for s target) s)) (fun x => x)) /\
  (glt t c -> exists s, alone (p_base p) a c t = (s, Ok tt) /\
     same_res (snd (estimate data at_ ac target q p')) (snd (b_estimate B data q (target_for s target) s)) (fun x => - x)%R) /\
  (t = c -> snd (estimate data at_ ac target q p') = Err ValueError).
Proof.
  intros H Gt Gc Mt Mc. pose proof (@group_len a t Gt) as Lt. pose proof (@group_len a c Gc) as Lc.
  assert (ES : estimate data at_ ac target q p' =
    match get_learner p' (group_arg t) (group_arg c) with
    | Err x => (p', Err x)
    | Ok None => (p', Err ValueError)
    | Ok (Some (k, pos, s)) =>
        let '(s', r) := b_estimate B data q (target_for s target) s in
        let p1 := mkPerm B (p_base p') (p_fitted p') (p_treatment p') (p_outcome p') (p_treats p') (put_learner B (p_learners p') k s') (p_last p') in
        match r with
        | Ok e => (mkPerm B (p_base p') (p_fitted p') (p_treatment p') (p_outcome p') (p_treats p') (put_learner B (p_learners p') k s') (Some (group_arg t, group_arg c)), Ok (if pos then e else neg_nd e))
        | Err x => (p1, Err x)
        end
    end).
  { destruct (fit_inv _ _ H) as (treats & ls & _ & _ & _ & Ep). apply estimate_eq with (tm := g_treatment a); [now rewrite Ep| |].
    - now apply unwrap_means.
    - now apply unwrap_means. }
  rewrite ES. split; [|split].
  - intros G. destruct (@get_fit a p p' t c H Lt Lc) as [F _]. destruct (F Gt Gc G) as (s & E & G1 & _). exists s. split; [auto|]. rewrite G1.
    destruct (b_estimate B data q (target_for s target) s) as [s' [e|x]]; cbn [snd same_res]; auto.
  - intros G. destruct (@get_fit a p p' c t H Lc Lt) as [F _]. destruct (F Gc Gt G) as (s & E & _ & G1). exists s. split; [auto|]. rewrite G1.
    destruct (b_estimate B data q (target_for s target) s) as [s' [e|x]]; cbn [snd same_res]; auto. split; [reflexivity|]. intros i. cbn [nd_at neg_nd]. ring.
  - intros E. destruct (@get_fit a p p' t c H Lt Lc) as [_ F]. rewrite F by auto. reflexivity.
Qed.

(** *** defaults *)
Lemma firsts_lasts (treats : list (list label)) : Forall (StronglySorted llt) treats -> (forall l, In l treats -> l <> []) ->
  exists lo hi, mapX (fun l => match l with [] => Err IndexError | v :: r => Ok v end) treats = Ok lo /\
    mapX (fun l => match l with [] => Err IndexError | v :: r => Ok (last r v) end) treats = Ok hi /\ In lo (product treats) /\ In hi (product treats) /\
    forall g, In g (product treats) -> (g = hi \/ glt g hi) /\ (g = lo \/ glt lo g).
Proof.
  intros H. induction H as [|l treats HS F IH]; intros HN.
  - exists [], []. cbn. do 2 (split; [auto|]). split; [auto|]. split; [auto|]. intros g [<-|[]]. auto.
  - destruct IH as (lo & hi & E1 & E2 & P1 & P2 & P3); [intros l' Hl'; apply HN; now right|]. destruct l as [|v r]; [exfalso; apply (HN []); [now left|auto]|].
    exists (v :: lo), (last r v :: hi). cbn [mapX]. rewrite E1, E2. cbn [bind]. split; [auto|]. split; [auto|].
    pose proof (last_In' v r) as HL.
    split; [apply product_In; constructor; [now left|now apply product_In]|]. split; [apply product_In; constructor; [auto|now apply product_In]|].
    intros g Hg. apply product_In in Hg. inversion Hg as [|? x ? g' Hx Hg']; subst. apply product_In in Hg'. destruct (P3 g' Hg') as [Q1 Q2].
    pose proof (product_len _ _ Hg') as L0. pose proof (product_len _ _ P1) as L1. pose proof (product_len _ _ P2) as L2.
    assert (HI : (x = last r v \/ llt x (last r v)) /\ (x = v \/ llt v x)).
    { split.
      - clear - HS Hx. revert v x HS Hx. induction r as [|w r IH]; intros v x HS Hx; [destruct Hx as [<-|[]]; now left|].
        inversion HS as [|? ? HS' FF]; subst. rewrite last_step. destruct Hx as [<-|Hx]; [|now apply IH]. right. rewrite Forall_forall in FF. apply FF. apply last_In'.
      - inversion HS as [|? ? _ FF]; subst. destruct Hx as [<-|Hx]; [now left|]. right. rewrite Forall_forall in FF. auto. }
    destruct HI as [HI1 HI2]. split.
    + destruct HI1 as [->|HI1]; [|right; apply glt_here; congruence]. destruct Q1 as [->|Q1]; [now left|right; now apply glt_next].
    + destruct HI2 as [->|HI2]; [|right; apply glt_here; congruence]. destruct Q2 as [->|Q2]; [now left|right; now apply glt_next].
Qed.

Lemma default_arg (p' : perm B) treats (g : list label) (first : bool) : p_treats p' = treats ->
  mapX (fun l => match l with [] => Err IndexError | v :: r => Ok (if first then v else last r v) end) treats = Ok g -> default_of first (p_treats p') = Ok (group_arg g).
Proof. intros -> E. unfold default_of. rewrite E. cbn [bind]. destruct g as [|v [|v' g]]; reflexivity. Qed.

(** treat= left out means the last group, control= left out the first one *)
Theorem C200_defaults a p p' data q target : fit a p = (p', Ok tt) -> (exists g, group a g) ->
  exists lo hi, group a lo /\ group a hi /\ (forall g, group a g -> (g = hi \/ glt g hi) /\ (g = lo \/ glt lo g)) /\
    snd (estimate data TNone TNone target q p') = snd (estimate data (group_arg hi) (group_arg lo) target q p') /\
    (forall t at_, group a t -> means at_ t ->
       snd (estimate data at_ TNone target q p') = snd (estimate data (group_arg t) (group_arg lo) target q p') /\
       snd (estimate data TNone at_ target q p') = snd (estimate data (group_arg hi) (group_arg t) target q p')) /\
    (forall keep, snd (effect_nji keep data TNone target p') = snd (effect_nji keep data (group_arg lo) target p')).
Proof.
  intros H (g0 & G0). destruct (fit_inv _ _ H) as (treats & ls & E1 & NE & E2 & Ep). destruct (treats_groups _ E1) as (SS & LT & HG).
  destruct (@firsts_lasts treats SS) as (lo & hi & F1 & F2 & I1 & I2 & I3).
  { intros l Hl ->. apply HG in G0. apply product_In in G0. clear - Hl G0. induction G0 as [|l x ls g Hx F IH]; [contradiction|]. destruct Hl as [->|Hl]; [contradiction|auto]. }
  exists lo, hi. split; [now apply HG|]. split; [now apply HG|]. split; [intros g Hg; apply I3; now apply HG|].
  assert (PT : p_treats p' = treats) by now rewrite Ep. assert (PM : p_treatment p' = Some (g_treatment a)) by now rewrite Ep.
  pose proof (@default_arg p' treats lo true PT F1) as D1. pose proof (@default_arg p' treats hi false PT F2) as D2.
  assert (GA : forall g, group_arg g <> TNone) by (intros [|v [|v' g]]; discriminate).
  assert (GL : forall x y t c, (x = TNone /\ t = group_arg hi \/ x = t /\ t <> TNone) -> (y = TNone /\ c = group_arg lo \/ y = c /\ c <> TNone) -> get_learner p' x y = get_learner p' t c).
  { intros x y t c Hx Hy. unfold get_learner. destruct (negb (p_fitted p')); [auto|].
    assert (X1 : match x with TNone => default_of false (p_treats p') | _ => Ok x end = Ok t) by (destruct Hx as [[-> ->]|[-> N]]; [auto|destruct t; auto; contradiction]).
    assert (X2 : match t with TNone => default_of false (p_treats p') | _ => Ok t end = Ok t)
      by (destruct Hx as [[_ ->]|[_ N]]; [|destruct t; auto; contradiction]; specialize (GA hi); destruct (group_arg hi); auto; contradiction).
    assert (Y1 : match y with TNone => default_of true (p_treats p') | _ => Ok y end = Ok c) by (destruct Hy as [[-> ->]|[-> N]]; [auto|destruct c; auto; contradiction]).
    assert (Y2 : match c with TNone => default_of true (p_treats p') | _ => Ok c end = Ok c)
      by (destruct Hy as [[_ ->]|[_ N]]; [|destruct c; auto; contradiction]; specialize (GA lo); destruct (group_arg lo); auto; contradiction).
    now rewrite X1, X2, Y1, Y2. }
  assert (UG : forall g, unwrap (g_treatment a) (group_arg g) = Ok (group_arg g) \/ length g <> length (g_treatment a)).
  { intros g. destruct (Nat.eq_dec (length g) (length (g_treatment a))) as [L|L]; [left|now right]. apply unwrap_means; [|auto]. destruct g as [|v [|v' g]]; cbn; auto. }
  assert (LH : length hi = length (g_treatment a)) by (apply product_len in I2; congruence). assert (LL : length lo = length (g_treatment a)) by (apply product_len in I1; congruence).
  assert (UN : unwrap (g_treatment a) TNone = Ok TNone) by (unfold unwrap; destruct (g_treatment a) as [|? [|]]; reflexivity).
  assert (ESN : forall x y t c x' y', unwrap (g_treatment a) x = Ok x' -> unwrap (g_treatment a) y = Ok y' -> unwrap (g_treatment a) t = Ok t -> unwrap (g_treatment a) c = Ok c ->
     get_learner p' x' y' = get_learner p' t c -> snd (estimate data x y target q p') = snd (estimate data t c target q p')).
  { intros x y t c x' y' U1 U2 U3 U4 G. rewrite (@estimate_eq p' _ data q target x y x' y' PM U1 U2), (@estimate_eq p' _ data q target t c t c PM U3 U4), G.
    destruct (get_learner p' t c) as [[[[k pos] s]|]|]; auto. destruct (b_estimate B data q (target_for s target) s) as [s' [e|]]; reflexivity. }
  destruct (UG hi) as [Uh|]; [|contradiction]. destruct (UG lo) as [Ul|]; [|contradiction].
  split; [|split].
  - eapply ESN; [exact UN|exact UN|exact Uh|exact Ul|]. apply GL; auto.
  - intros t at_ Gt Mt. pose proof (@group_len a t Gt) as Lt. pose proof (@unwrap_means _ _ _ Mt Lt) as Um. destruct (UG t) as [Ut|]; [|contradiction].
    split; [eapply ESN; [exact Um|exact UN|exact Ut|exact Ul|]|eapply ESN; [exact UN|exact Um|exact Uh|exact Ut|]]; apply GL; auto.
  - intros keep. unfold perm_effect_nji, mbind, mget, mlift. rewrite PM, D1. cbn beta. rewrite Ul.
    replace (match group_arg lo with TNone => Ok (group_arg lo) | _ => Ok (group_arg lo) end) with (@Ok targ (group_arg lo)) by (destruct (group_arg lo); reflexivity).
    now rewrite Ul.
Qed.

(** ** C201: pairs do not disturb each other *)
Lemma get_put (q : perm B) k s' g c : key_eqb (group_arg g, group_arg c) k = false -> key_eqb (group_arg c, group_arg g) k = false -> forall l,
  get_learner (mkPerm B (p_base q) (p_fitted q) (p_treatment q) (p_outcome q) (p_treats q) (put_learner B (p_learners q) k s') l) (group_arg g) (group_arg c)
  = get_learner q (group_arg g) (group_arg c).
Proof.
  intros K1 K2 l. unfold get_learner. cbn [p_fitted p_treats p_learners]. destruct (negb (p_fitted q)); [auto|].
  assert (GL : forall g d, match group_arg g with TNone => d | _ => Ok (group_arg g) end = Ok (group_arg g)) by (intros [|v [|v' x]] d; reflexivity).
  rewrite !GL. cbn [bind]. rewrite !group_arg_hashable. cbn [andb negb]. now rewrite !find_put, K1, K2.
Qed.

Lemma get_key (q : perm B) t c k pos s : get_learner q (group_arg t) (group_arg c) = Ok (Some (k, pos, s)) -> k = (group_arg t, group_arg c) \/ k = (group_arg c, group_arg t).
Proof.
  unfold get_learner. destruct (negb (p_fitted q)); [discriminate|].
  assert (GL : forall g d, match group_arg g with TNone => d | _ => Ok (group_arg g) end = Ok (group_arg g)) by (intros [|v [|v' x]] d; reflexivity).
  rewrite !GL. cbn [bind]. rewrite !group_arg_hashable. cbn [andb negb]. destruct (find_learner B (p_learners q) (group_arg t, group_arg c)); [intros [= <- _ _]; auto|].
  destruct (find_learner B (p_learners q) (group_arg c, group_arg t)); [intros [= <- _ _]; auto|discriminate].
Qed.

Lemma key_other t c t' c' : length t = length t' -> length c = length t' -> length c' = length t' ->
  ~ (t = t' /\ c = c') -> ~ (t = c' /\ c = t') -> forall k, k = (group_arg t, group_arg c) \/ k = (group_arg c, group_arg t) ->
  key_eqb (group_arg t', group_arg c') k = false /\ key_eqb (group_arg c', group_arg t') k = false.
Proof.
  intros L1 L2 L3 N1 N2 k Hk.
  assert (INJ : forall x y, length x = length t' -> length y = length t' -> group_arg x = group_arg y -> x = y) by (intros; apply group_arg_inj; congruence).
  split; (destruct (key_eqb _ k) eqn:E; [|auto]); exfalso; apply key_eqb_eq in E; destruct Hk as [->| ->]; injection E as E1 E2; apply INJ in E1; apply INJ in E2; auto; subst; auto.
Qed.

(** Estimates for other pairs, however many, leave the estimate for a pair as it was, whatever they do to their learners. *)
Theorem C201_independent a p p' h data q target t c at_ ac : fit a p = (p', Ok tt) -> group a t -> group a c -> means at_ t -> means ac c ->
  (forall d x y tg qq, In (d, x, y, tg, qq) h -> exists t1 c1, group a t1 /\ group a c1 /\ means x t1 /\ means y c1 /\ ~ (t1 = t /\ c1 = c) /\ ~ (t1 = c /\ c1 = t)) ->
  let after := fold_left (fun p '(d, x, y, tg, qq) => fst (estimate d x y tg qq p)) h p' in
  snd (estimate data at_ ac target q after) = snd (estimate data at_ ac target q p').
Proof.
  intros H Gt' Gc' Mt' Mc' Hh after. pose proof (@group_len a t Gt') as Lt'. pose proof (@group_len a c Gc') as Lc'.
  destruct (fit_inv _ _ H) as (treats & ls & _ & _ & _ & Ep). assert (PM : p_treatment p' = Some (g_treatment a)) by now rewrite Ep. clear Ep treats ls.
  assert (STEP : forall (r : perm B) d x y tg qq t1 c1, p_treatment r = Some (g_treatment a) -> get_learner r (group_arg t) (group_arg c) = get_learner p' (group_arg t) (group_arg c) ->
    group a t1 -> group a c1 -> means x t1 -> means y c1 -> ~ (t1 = t /\ c1 = c) -> ~ (t1 = c /\ c1 = t) ->
    let r' := fst (estimate d x y tg qq r) in p_treatment r' = Some (g_treatment a) /\ get_learner r' (group_arg t) (group_arg c) = get_learner p' (group_arg t) (group_arg c)).
  { clear - Lt' Lc'. intros r d x y tg qq t1 c1 PM G G1 G2 M1 M2 N1 N2 r'. pose proof (@group_len a t1 G1) as L1. pose proof (@group_len a c1 G2) as L2.
    unfold r'. rewrite (@estimate_eq r _ d qq tg x y _ _ PM (@unwrap_means _ _ _ M1 L1) (@unwrap_means _ _ _ M2 L2)).
    destruct (get_learner r (group_arg t1) (group_arg c1)) as [[[[k pos] s]|]|] eqn:E; [|auto|auto].
    apply get_key in E. destruct (@key_other t1 c1 t c ltac:(congruence) ltac:(congruence) ltac:(congruence) N1 N2 k E) as [K1 K2].
    destruct (b_estimate B d qq (target_for s tg) s) as [s' [e|]]; cbn [fst p_treatment]; (split; [auto|]); rewrite get_put by auto; auto. }
  assert (INV : p_treatment after = Some (g_treatment a) /\ get_learner after (group_arg t) (group_arg c) = get_learner p' (group_arg t) (group_arg c)).
  { unfold after. clear after. assert (X : forall r : perm B, p_treatment r = Some (g_treatment a) -> get_learner r (group_arg t) (group_arg c) = get_learner p' (group_arg t) (group_arg c) ->
       let r' := fold_left (fun p '(d, x, y, tg, qq) => fst (estimate d x y tg qq p)) h r in
       p_treatment r' = Some (g_treatment a) /\ get_learner r' (group_arg t) (group_arg c) = get_learner p' (group_arg t) (group_arg c)).
    { clear - STEP Hh. induction h as [|[[[[d x] y] tg] qq] h IH]; intros r P G; cbn [fold_left]; [auto|]. destruct (Hh d x y tg qq (or_introl eq_refl)) as (t1 & c1 & G1 & G2 & M1 & M2 & N1 & N2).
      destruct (STEP r d x y tg qq t1 c1 P G G1 G2 M1 M2 N1 N2) as [P' G']. apply IH; auto. intros; apply (Hh d0 x0 y0 tg0 qq0). now right. }
    apply X; auto. }
  destruct INV as [P2 G2].
  pose proof (@unwrap_means _ _ _ Mt' Lt') as U1. pose proof (@unwrap_means _ _ _ Mc' Lc') as U2.
  rewrite (@estimate_eq after _ data q target at_ ac _ _ P2 U1 U2), (@estimate_eq p' _ data q target at_ ac _ _ PM U1 U2), G2.
  destruct (get_learner p' (group_arg t) (group_arg c)) as [[[[k pos] s]|]|]; auto. destruct (b_estimate B data q (target_for s target) s) as [s' [e|]]; reflexivity.
Qed.

(** ** C202: effect_nji *)
(** what _effect_nji makes of the array of one learner.  [jo]: the outcome column kept, for discrete outcomes *)
Lemma zero_col1_true (e : nd R) n y x : nd_shape e = [n; y; x] -> (zero_col1 e = true <-> forall i j, i < n -> j < y -> nd_at e [i; j; 1] = 0%R).
Proof.
  intros E. unfold zero_col1. rewrite E, forallb_forall. split.
  - intros H i j Hi Hj. specialize (H i ltac:(apply in_seq; lia)). rewrite forallb_forall in H. specialize (H j ltac:(apply in_seq; lia)). destruct (Req_EM_T (nd_at e [i; j; 1]) 0); [auto|discriminate].
  - intros H i Hi. apply forallb_forall. intros j Hj. apply in_seq in Hi, Hj. destruct (Req_EM_T (nd_at e [i; j; 1]) 0); [auto|]. exfalso. apply n0. apply H; lia.
Qed.

Lemma pick_cols (e : nd R) n y eff pos : two_col n y e eff ->
  let e2 := if zero_col1 e then pick2 0 e else pick2 1 e in
  let r := if pos : bool then e2 else neg_nd e2 in
  nd_shape r = [n; y; 1] /\ forall i j, i < n -> j < y -> nd_at r [i; j; 0] = (if pos then eff i j else - eff i j)%R.
Proof.
  intros [S H] e2 r.
  assert (S2 : nd_shape e2 = [n; y; 1] /\ forall i j, i < n -> j < y -> nd_at e2 [i; j; 0] = eff i j).
  { unfold e2. destruct (zero_col1 e) eqn:Z.
    - unfold pick2. rewrite S. split; [reflexivity|]. intros i j Hi Hj. cbn [nd_at Nat.add].
      pose proof (proj1 (zero_col1_true e S) Z i j Hi Hj) as Z1. destruct H as [H|H]; destruct (H i j Hi Hj) as [A C]; congruence.
    - unfold pick2. rewrite S. split; [reflexivity|]. intros i j Hi Hj. cbn [nd_at Nat.add].
      destruct H as [H|H]; [now apply H|]. exfalso. assert (zero_col1 e = true); [|congruence]. apply (zero_col1_true e S). intros i' j' Hi' Hj'. now apply H. }
  unfold r. destruct S2 as [S2 H2]. destruct pos; [auto|]. split; [exact S2|]. intros i j Hi Hj. cbn [neg_nd nd_at]. rewrite H2 by auto. ring.
Qed.

(** the outcome of a learner that is kept: for a discrete outcome the class asked for, or the last one *)
Definition kept_class (cs : list label) (target : option label) (jo : nat) : Prop :=
  match target with Some cl => index_of cl cs = Some jo | None => jo = length cs - 1 end.

Lemma shape_effect_ok yc classes target pos e n y eff jo :
  two_col n y e eff ->
  (if disc_out then exists cs, classes = Some cs /\ y = length cs /\ kept_class cs target jo /\ jo < y /\ yc = 1 else y = yc /\ jo = 0) ->
  exists r, shape_effect disc_out yc classes target pos e = Ok r /\ nd_shape r = [n; yc; 1] /\
    forall i j, i < n -> j < yc -> nd_at r [i; j; 0] = (if pos then eff i (jo + j)%nat else - eff i (jo + j)%nat)%R.
Proof.
  intros T D. pose proof T as [S H]. unfold shape_effect. rewrite S. cbn [Nat.eqb negb]. destruct disc_out.
  - destruct D as (cs & -> & Ey & Hk & Lj & ->). rewrite Ey, Nat.eqb_refl. cbn [negb].
    assert (E1 : (match target with Some cl => match index_of cl cs with Some i => Ok (pick1 i e) | None => Err IndexError end | None => Ok (pick1 (length cs - 1) e) end) = Ok (pick1 jo e)).
    { unfold kept_class in Hk. destruct target; [now rewrite Hk|now subst jo]. }
    rewrite E1. cbn [bind]. eexists. split; [reflexivity|].
    assert (T1 : two_col n 1 (pick1 jo e) (fun i j => eff i (jo + j))).
    { unfold pick1. rewrite S. split; [reflexivity|]. destruct H as [H|H]; [left|right]; intros i j Hi Hj; cbn [nd_at]; apply H; lia. }
    apply (pick_cols pos T1).
  - destruct D as [-> ->]. rewrite Nat.eqb_refl. cbn [negb bind]. eexists. split; [reflexivity|]. apply (pick_cols pos T).
Qed.

(** concatenation of arrays of shapes (n, y, w) *)
Lemma concat2_ok (l : list (nd R)) n y ws : l <> [] -> Forall2 (fun e w => nd_shape e = [n; y; w]) l ws ->
  concat2 l = Ok (mkNd [n; y; fold_right plus 0 ws] (fun idx => match idx with i :: j :: k :: _ => cat2_at l i j k | _ => 0%R end)).
Proof.
  intros NE F. unfold concat2. destruct l as [|e0 l0]; [contradiction|]. inversion F as [|? w0 ? ws0 E0 F0]; subst.
  assert (FB : forallb (fun b => list_eqb (firstn 2 (nd_shape b)) (firstn 2 (nd_shape e0)) && (length (nd_shape b) =? 3)) (e0 :: l0) = true).
  { apply forallb_forall. intros b Hb. assert (exists w, nd_shape b = [n; y; w]) as [w Ew].
    { clear - F Hb. revert Hb. induction F as [|? w ? ? E F IH]; [contradiction|]. intros [<-|Hb]; eauto. }
    rewrite Ew, E0. apply andb_true_intro. split; [now apply list_eqb_eq|reflexivity]. }
  rewrite FB, E0. cbn [firstn app]. do 2 f_equal. f_equal. f_equal. f_equal.
  clear - F. induction F as [|e w l ws E F IH]; [reflexivity|]. cbn [map fold_right]. now rewrite E, IH.
Qed.
Lemma cat2_ones (l : list (nd R)) n y i j k : (forall e, In e l -> nd_shape e = [n; y; 1]) -> k < length l -> cat2_at l i j k = nd_at (nth k l (mkNd [] (fun _ => 0%R))) [i; j; 0].
Proof.
  revert k. induction l as [|e l IH]; intros k H Hk; [cbn in Hk; lia|]. cbn [cat2_at]. rewrite (H e (or_introl eq_refl)). cbn [nth].
  destruct k as [|k]; [reflexivity|]. cbn [Nat.ltb Nat.leb nth]. replace (S k - 1) with k by lia. apply IH; [intros; apply H; now right|cbn in Hk; lia].
Qed.

(** the learners of all pairs with control c give two-column effects [eff t c] *)
Definition contract (a : pargs Frame K) (b : St) (d : Frame) (target : option label) (n y jo : nat) (eff : list label -> list label -> nat -> nat -> R) : Prop :=
  forall t c s, group a t -> group a c -> glt c t -> alone b a t c = (s, Ok tt) ->
    exists e, snd (b_nji B (Some d) s) = Ok e /\ two_col n y e (eff t c) /\
      if disc_out then exists cs, b_classes B s = Some cs /\ y = length cs /\ kept_class cs target jo /\ jo < y /\ length (g_outcome a) = 1
      else y = length (g_outcome a) /\ jo = 0.

(** the entry of group g for control group c *)
Definition entry (eff : list label -> list label -> nat -> nat -> R) (g c : list label) (i j : nat) (v : R) : Prop :=
  (g = c -> v = 0%R) /\ (glt c g -> v = eff g c i j) /\ (glt g c -> v = (- eff c g i j)%R).

Lemma targ_group_eqb g c : length g = length c -> targ_eqb (group_arg g) (group_arg c) = true <-> g = c.
Proof.
  intros L. split.
  - intros E. apply group_arg_inj; [auto|]. apply targ_eqb_eq in E; auto using group_arg_hashable.
  - intros ->. apply targ_eqb_refl. apply group_arg_hashable.
Qed.

Lemma tasks_ok a p p' keep d target c y jo eff gs : fit a p = (p', Ok tt) -> group a c -> (forall g, In g gs -> group a g) -> NoDup gs ->
  contract a (p_base p) d target (fr_len d) y jo eff ->
  forall q : perm B, p_outcome q = g_outcome a -> (forall g, In g gs -> get_learner q (group_arg g) (group_arg c) = get_learner p' (group_arg g) (group_arg c)) ->
  exists q' es, mapM (task fr_len disc_out keep (Some d) (group_arg c) target) (map group_arg gs) q = (q', Ok es) /\
    Forall2 (fun e g => (g <> c -> nd_shape e = [fr_len d; length (g_outcome a); 1]) /\ (g = c -> nd_shape e = [fr_len d; length (g_outcome a); length (g_outcome a)]) /\
      forall i j, i < fr_len d -> j < length (g_outcome a) -> entry (fun t c i j => eff t c i (jo + j)) g c i j (nd_at e [i; j; 0])) es gs.
Proof.
  intros H Gc HG ND CT. induction gs as [|g gs IH]; intros q PO HL.
  - exists q, []. split; [reflexivity|constructor].
  - assert (Gg : group a g) by (apply HG; now left). pose proof (@group_len a g Gg) as Lg. pose proof (@group_len a c Gc) as Lc.
    inversion ND as [|? ? NI ND']; subst.
    assert (T : exists q1 e, task fr_len disc_out keep (Some d) (group_arg c) target (group_arg g) q = (q1, Ok e) /\
       p_outcome q1 = g_outcome a /\ (forall g', In g' gs -> get_learner q1 (group_arg g') (group_arg c) = get_learner q (group_arg g') (group_arg c)) /\
       (g <> c -> nd_shape e = [fr_len d; length (g_outcome a); 1]) /\ (g = c -> nd_shape e = [fr_len d; length (g_outcome a); length (g_outcome a)]) /\
       forall i j, i < fr_len d -> j < length (g_outcome a) -> entry (fun t c i j => eff t c i (jo + j)) g c i j (nd_at e [i; j; 0])).
    { unfold task, mbind, mget, mlift. rewrite (HL g (or_introl eq_refl)). rewrite PO.
      destruct (targ_eqb (group_arg g) (group_arg c)) eqn:EQ.
      - apply targ_group_eqb in EQ; [|congruence]. subst g. destruct (@get_fit a p p' c c H Lc Lc) as [_ GF]. rewrite GF by auto.
        eexists _, _. split; [reflexivity|]. split; [auto|]. split; [auto|]. split; [tauto|]. split; [reflexivity|]. intros i j _ _. cbn [nd_at]. split; [auto|].
        split; intros G; exfalso; eapply glt_irrefl; exact G.
      - assert (NE : g <> c) by (intros E; apply targ_group_eqb in E; congruence).
        assert (X : exists k pos s, get_learner p' (group_arg g) (group_arg c) = Ok (Some (k, pos, s)) /\ (k = (group_arg g, group_arg c) \/ k = (group_arg c, group_arg g)) /\
          (exists e, snd (b_nji B (Some d) s) = Ok e /\ exists f, two_col (fr_len d) y e f /\
            (if disc_out then exists cs, b_classes B s = Some cs /\ y = length cs /\ kept_class cs target jo /\ jo < y /\ length (g_outcome a) = 1 else y = length (g_outcome a) /\ jo = 0) /\
            forall i j, entry eff g c i j (if pos then f i j else - f i j)%R)).
        { destruct (@glt_total g c ltac:(congruence)) as [G|[G|G]]; [contradiction| |].
          - destruct (@get_fit a p p' c g H Lc Lg) as [GF _]. destruct (GF Gc Gg G) as (s & E & _ & E2). exists (group_arg c, group_arg g), false, s. split; [auto|]. split; [auto|].
            destruct (CT c g s Gc Gg G E) as (e & E3 & T & D). exists e. split; [auto|]. exists (eff c g). split; [auto|]. split; [auto|]. intros i j. split; [contradiction|]. split; [|auto].
            intros G'. exfalso. eapply glt_irrefl. eapply glt_trans; eauto.
          - destruct (@get_fit a p p' g c H Lg Lc) as [GF _]. destruct (GF Gg Gc G) as (s & E & E2 & _). exists (group_arg g, group_arg c), true, s. split; [auto|]. split; [auto|].
            destruct (CT g c s Gg Gc G E) as (e & E3 & T & D). exists e. split; [auto|]. exists (eff g c). split; [auto|]. split; [auto|]. intros i j. split; [contradiction|]. split; [auto|].
            intros G'. exfalso. eapply glt_irrefl. eapply glt_trans; eauto. }
        destruct X as (k & pos & s & E & Hk & e & Ee & f & T & D & EN). rewrite E. unfold on_learner. destruct (b_nji B (Some d) s) as [s' r] eqn:Eb. cbn [snd] in Ee. subst r.
        destruct (@shape_effect_ok (length (g_outcome a)) (b_classes B s) target pos e (fr_len d) y f jo T D) as (r & Er & Sr & Vr). rewrite Er.
        eexists _, r. split; [reflexivity|]. split; [destruct keep; exact PO|]. split.
        { intros g' Hg'. destruct keep; [|reflexivity]. assert (Gg' : group a g') by (apply HG; now right). pose proof (@group_len a g' Gg') as Lg'.
          assert (NG : g <> g') by (intros <-; contradiction).
          destruct (@key_other g c g' c ltac:(congruence) ltac:(congruence) ltac:(congruence)) with (k := k) as [K1 K2]; [tauto| |auto|].
          { intros [-> _]. contradiction. }
          apply get_put; auto. }
        split; [auto|]. split; [contradiction|]. intros i j Hi Hj. rewrite (Vr i j Hi Hj). apply (EN i (jo + j)). }
    destruct T as (q1 & e & E & PO1 & HL1 & S1 & S2 & V). destruct (IH ltac:(intros; apply HG; now right) ND' q1 PO1) as (q' & es & Em & F).
    { intros g' Hg'. rewrite HL1 by auto. apply HL. now right. }
    exists q', (e :: es). split; [|constructor; auto]. cbn [map mapM]. unfold mbind at 1. rewrite E. unfold mbind at 1. rewrite Em. reflexivity.
Qed.


Lemma cat2_app (l r : list (nd R)) n y i j k : (forall e, In e l -> nd_shape e = [n; y; 1]) ->
  cat2_at (l ++ r) i j k = if k <? length l then nd_at (nth k l (mkNd [] (fun _ => 0%R))) [i; j; 0] else cat2_at r i j (k - length l).
Proof.
  revert k. induction l as [|e l IH]; intros k H; [cbn; f_equal; lia|]. cbn [cat2_at app length]. rewrite (H e (or_introl eq_refl)). cbn [nth].
  destruct k as [|k]; [reflexivity|]. change (S k <? 1) with false. replace (S k - 1) with k by lia. rewrite IH by (intros; apply H; now right). reflexivity.
Qed.

Lemma F2_split {A C} (P : A -> C -> Prop) l m1 x m2 : Forall2 P l (m1 ++ x :: m2) -> exists l1 y l2, l = l1 ++ y :: l2 /\ Forall2 P l1 m1 /\ P y x /\ Forall2 P l2 m2.
Proof. intros F. apply Forall2_app_inv_r in F. destruct F as (l1 & l' & F1 & F2 & ->). inversion F2 as [|y ? l2 ? H1 H2]; subst. exists l1, y, l2. auto. Qed.

Lemma F2_len {A C} (P : A -> C -> Prop) l m : Forall2 P l m -> length l = length m.
Proof. intros F. induction F; cbn; auto. Qed.
Lemma F2_nth {A C} (P : A -> C -> Prop) l m da dc k : Forall2 P l m -> k < length m -> P (nth k l da) (nth k m dc).
Proof. intros F. revert k. induction F as [|x y l m H F IH]; intros k Hk; [cbn in Hk; lia|]. destruct k; [auto|]. cbn [nth]. apply IH. cbn in Hk. lia. Qed.
Lemma ones_sum n : fold_right plus 0 (repeat 1 n) = n.
Proof. induction n; cbn; auto. Qed.
Lemma sum_app l m : fold_right plus 0 (l ++ m) = fold_right plus 0 l + fold_right plus 0 m.
Proof. induction l; cbn; [auto|]. rewrite IHl. lia. Qed.

(** effect_nji(data, control=c) in general: the block of the control group has as many columns as there are outcomes *)
Theorem C202_effect_nji_columns a p p' keep d target c ac y jo eff : fit a p = (p', Ok tt) -> group a c -> means ac c ->
  contract a (p_base p) d target (fr_len d) y jo eff ->
  exists gs kc e, groups_in_order fr_col (g_data a) (g_treatment a) gs /\ kc < length gs /\ nth kc gs [] = c /\
    snd (effect_nji keep (Some d) ac target p') = Ok e /\
    nd_shape e = [fr_len d; length (g_outcome a); (length gs - 1) + length (g_outcome a)] /\
    forall i j k, i < fr_len d -> j < length (g_outcome a) -> k < length gs ->
      entry (fun t c i j => eff t c i (jo + j)) (nth k gs []) c i j (nd_at e [i; j; if k <=? kc then k else (k - 1) + length (g_outcome a)]).
Proof.
  intros H Gc Mc CT. destruct (fit_inv _ _ H) as (treats & ls & E1 & NT & E2 & Ep). destruct (treats_groups _ E1) as (SS & LT & HG).
  assert (NE : treats <> []) by (destruct treats; [destruct (g_treatment a); [contradiction|discriminate]|discriminate]).
  pose proof (product_sorted SS) as SP. pose proof (@group_len a c Gc) as Lc.
  assert (ND : NoDup (product treats)).
  { clear - SP. induction SP as [|g gs S IH F]; constructor; [|auto]. intros I. rewrite Forall_forall in F. apply F in I. now apply glt_irrefl in I. }
  assert (IO : groups_in_order fr_col (g_data a) (g_treatment a) (product treats)).
  { split; [|exact HG]. intros i j Hij. now apply ss_nth. }
  assert (Ic : In c (product treats)) by now apply HG.
  destruct (@tasks_ok a p p' keep d target c y jo eff (product treats) H Gc ltac:(intros; now apply HG) ND CT p' ltac:(now rewrite Ep) ltac:(auto)) as (q' & es & EM & F).
  destruct (in_split _ _ Ic) as (g1 & g2 & EG). pose proof EG as EG0. rewrite EG in F. apply F2_split in F. destruct F as (e1 & z & e2 & -> & F1 & Fz & F2).
  pose proof (@F2_len _ _ _ _ _ F1) as L1. pose proof (@F2_len _ _ _ _ _ F2) as L2.
  assert (N1 : forall g, In g g1 \/ In g g2 -> g <> c).
  { intros g Hg ->. rewrite EG in ND. apply NoDup_remove_2 in ND. apply ND, in_or_app. auto. }
  assert (W1 : forall e, In e e1 -> nd_shape e = [fr_len d; length (g_outcome a); 1]).
  { assert (X : forall g, In g g1 -> g <> c) by auto. clear - F1 X. induction F1 as [|e g ? ? (P1 & _) F1 IH]; [contradiction|]. intros e' [<-|I]; [apply P1, X; now left|apply IH; auto; intros; apply X; now right]. }
  assert (W2 : forall e, In e e2 -> nd_shape e = [fr_len d; length (g_outcome a); 1]).
  { assert (X : forall g, In g g2 -> g <> c) by auto. clear - F2 X. induction F2 as [|e g ? ? (P1 & _) F2 IH]; [contradiction|]. intros e' [<-|I]; [apply P1, X; now left|apply IH; auto; intros; apply X; now right]. }
  destruct Fz as (_ & Wz & Vz). specialize (Wz eq_refl).
  assert (FW : Forall2 (fun (e : nd R) w => nd_shape e = [fr_len d; length (g_outcome a); w]) (e1 ++ z :: e2) (repeat 1 (length g1) ++ length (g_outcome a) :: repeat 1 (length g2))).
  { assert (RP : forall (l : list (nd R)) m, length l = m -> (forall e, In e l -> nd_shape e = [fr_len d; length (g_outcome a); 1]) -> Forall2 (fun (e : nd R) w => nd_shape e = [fr_len d; length (g_outcome a); w]) l (repeat 1 m)).
    { intros l m <- Hl. induction l as [|e l IH]; cbn; constructor; [apply Hl; now left|apply IH; intros; apply Hl; now right]. }
    apply Forall2_app; [now apply RP|]. constructor; [auto|now apply RP]. }
  assert (CC : concat2 (e1 ++ z :: e2) = _) by (apply (concat2_ok (n := fr_len d) (y := length (g_outcome a))) with (2 := FW); destruct e1; discriminate).
  eexists (product treats), (length g1), _. split; [exact IO|]. split; [rewrite EG, app_length; cbn; lia|]. split; [rewrite EG; apply nth_middle|].
  split; [|split].
  - unfold perm_effect_nji, mbind, mget, mlift. rewrite Ep. cbn [p_treatment p_treats].
    assert (NN : match ac with TNone => default_of true treats | _ => Ok ac end = Ok ac).
    { destruct ac; auto. exfalso. clear - Mc. unfold means in Mc. destruct c as [|? [|]]; [discriminate|destruct Mc as [|[? ?]]; discriminate|discriminate]. }
    rewrite NN, (@unwrap_means _ _ _ Mc Lc). rewrite (combos_groups NE). rewrite <- Ep, EM. cbn [snd]. rewrite CC. reflexivity.
  - cbn [nd_shape]. do 3 f_equal. rewrite sum_app. cbn [fold_right]. rewrite !ones_sum, EG, app_length. cbn [length]. lia.
  - intros i j k Hi Hj Hk. cbn [nd_at]. set (x := if k <=? length g1 then k else k - 1 + length (g_outcome a)). rewrite (@cat2_app e1 (z :: e2) _ _ i j x W1).
    rewrite EG. unfold x. destruct (Nat.leb_spec k (length g1)) as [Q|Q].
    + destruct (Nat.ltb_spec k (length e1)) as [Q1|Q1].
      * rewrite app_nth1 by lia. destruct (@F2_nth _ _ _ e1 g1 (mkNd [] (fun _ => 0%R)) [] k F1 ltac:(lia)) as (_ & _ & V). now apply V.
      * assert (k = length g1) by lia. subst k. rewrite nth_middle. replace (length g1 - length e1) with 0 by lia. cbn [cat2_at]. rewrite Wz. cbn [nth].
        destruct (Nat.ltb_spec 0 (length (g_outcome a))); [|lia]. now apply Vz.
    + destruct (Nat.ltb_spec (k - 1 + length (g_outcome a)) (length e1)) as [Q1|Q1]; [lia|]. cbn [cat2_at]. rewrite Wz. cbn [nth].
      destruct (Nat.ltb_spec (k - 1 + length (g_outcome a) - length e1) (length (g_outcome a))) as [Q2|Q2]; [lia|].
      rewrite EG, app_length in Hk. cbn [length] in Hk.
      rewrite app_nth2 by lia. replace (k - length g1) with (S (k - length g1 - 1)) by lia. cbn [nth].
      replace (k - 1 + length (g_outcome a) - length e1 - length (g_outcome a)) with (k - length g1 - 1) by lia.
      rewrite <- (app_nil_r e2), (@cat2_app e2 [] _ _ i j (k - length g1 - 1) W2). destruct (Nat.ltb_spec (k - length g1 - 1) (length e2)); [|lia].
      destruct (@F2_nth _ _ _ e2 g2 (mkNd [] (fun _ => 0%R)) [] (k - length g1 - 1) F2 ltac:(lia)) as (_ & _ & V). now apply V.
Qed.

(** ** C202: with one outcome, effect_nji(data, control=c) has one column for each group, in the order of the groups: 0 for c itself, else the effect of
    the group against c, with the sign changed if the learner was fitted the other way round. *)
Theorem C202_effect_nji a p p' keep d target c ac y jo eff : fit a p = (p', Ok tt) -> group a c -> means ac c -> length (g_outcome a) = 1 ->
  contract a (p_base p) d target (fr_len d) y jo eff ->
  exists gs e, groups_in_order fr_col (g_data a) (g_treatment a) gs /\
    snd (effect_nji keep (Some d) ac target p') = Ok e /\ nd_shape e = [fr_len d; 1; length gs] /\
    forall i k, i < fr_len d -> k < length gs -> entry (fun t c i j => eff t c i (jo + j)) (nth k gs []) c i 0 (nd_at e [i; 0; k]).
Proof.
  intros H Gc Mc L CT. destruct (@C202_effect_nji_columns a p p' keep d target c ac y jo eff H Gc Mc CT) as (gs & kc & e & IO & Lk & Ek & Ee & Es & V).
  exists gs, e. rewrite L in *. split; [auto|]. split; [auto|]. split; [rewrite Es; do 3 f_equal; lia|].
  intros i k Hi Hk. specialize (V i 0 k Hi ltac:(lia) Hk). replace (if k <=? kc then k else k - 1 + 1) with k in V; [auto|]. destruct (Nat.leb_spec k kc); lia.
Qed.

(** with two or more outcomes there are always too many columns *)
Theorem C202_several_outcomes_refuted a p p' keep d target c ac y jo eff : fit a p = (p', Ok tt) -> group a c -> means ac c -> 2 <= length (g_outcome a) ->
  contract a (p_base p) d target (fr_len d) y jo eff ->
  exists gs e, groups_in_order fr_col (g_data a) (g_treatment a) gs /\
    snd (effect_nji keep (Some d) ac target p') = Ok e /\ length gs < nth 2 (nd_shape e) 0.
Proof.
  intros H Gc Mc L CT. destruct (@C202_effect_nji_columns a p p' keep d target c ac y jo eff H Gc Mc CT) as (gs & kc & e & IO & Lk & Ek & Ee & Es & V).
  exists gs, e. split; [auto|]. split; [auto|]. rewrite Es. cbn [nth]. lia.
Qed.

(** a control that is no group is refused *)
Theorem C202_unknown_control a p p' keep data target c ac g : fit a p = (p', Ok tt) -> group a g -> length c = length (g_treatment a) -> means ac c -> ~ group a c ->
  snd (effect_nji keep data ac target p') = Err AssertionError.
Proof.
  intros H Gg Lc Mc NG. destruct (fit_inv _ _ H) as (treats & ls & E1 & NT & E2 & Ep). destruct (treats_groups _ E1) as (SS & LT & HG).
  assert (NE : treats <> []) by (destruct treats; [destruct (g_treatment a); [contradiction|discriminate]|discriminate]).
  assert (NN : match ac with TNone => default_of true (p_treats p') | _ => Ok ac end = Ok ac).
  { destruct ac; auto. exfalso. clear - Mc. unfold means in Mc. destruct c as [|? [|]]; [discriminate|destruct Mc as [|[? ?]]; discriminate|discriminate]. }
  unfold perm_effect_nji, mbind at 1, mget at 1. unfold mbind at 1, mlift at 1. assert (PM : p_treatment p' = Some (g_treatment a)) by now rewrite Ep. rewrite PM.
  unfold mbind at 1, mlift at 1. rewrite NN. unfold mbind at 1, mlift at 1. rewrite (@unwrap_means _ _ _ Mc Lc). unfold mbind at 1.
  assert (PT : p_treats p' = treats) by now rewrite Ep. rewrite PT, (combos_groups NE).
  destruct (product treats) as [|g0 gs] eqn:EP; [exfalso; apply HG in Gg; contradiction|]. cbn [map mapM]. unfold mbind at 1.
  assert (G0 : group a g0) by (apply HG; now left). pose proof (@group_len a g0 G0) as L0.
  unfold task at 1, mbind at 1, mget at 1. unfold mbind at 1, mlift at 1. destruct (@get_fit a p p' g0 c H L0 Lc) as [_ GF]. rewrite GF by auto.
  destruct (targ_eqb (group_arg g0) (group_arg c)) eqn:EQ; [|reflexivity]. exfalso. apply targ_group_eqb in EQ; [|congruence]. subst g0. contradiction.
Qed.

(** without data it never answers, although estimate does *)
Theorem C202_no_data_refuted a p p' keep target c ac : fit a p = (p', Ok tt) -> group a c -> means ac c ->
  forall e, snd (effect_nji keep None ac target p') <> Ok e.
Proof.
  intros H Gc Mc e. destruct (fit_inv _ _ H) as (treats & ls & E1 & NT & E2 & Ep). destruct (treats_groups _ E1) as (SS & LT & HG).
  assert (NE : treats <> []) by (destruct treats; [destruct (g_treatment a); [contradiction|discriminate]|discriminate]). pose proof (@group_len a c Gc) as Lc.
  assert (NN : match ac with TNone => default_of true (p_treats p') | _ => Ok ac end = Ok ac).
  { destruct ac; auto. exfalso. clear - Mc. unfold means in Mc. destruct c as [|? [|]]; [discriminate|destruct Mc as [|[? ?]]; discriminate|discriminate]. }
  unfold perm_effect_nji, mbind at 1, mget at 1. unfold mbind at 1, mlift at 1. assert (PM : p_treatment p' = Some (g_treatment a)) by now rewrite Ep. rewrite PM.
  unfold mbind at 1, mlift at 1. rewrite NN. unfold mbind at 1, mlift at 1. rewrite (@unwrap_means _ _ _ Mc Lc). unfold mbind at 1.
  assert (PT : p_treats p' = treats) by now rewrite Ep. rewrite PT, (combos_groups NE). apply HG in Gc. clear - Gc.
  assert (X : forall gs (q q' : perm B) es, In c gs -> mapM (task fr_len disc_out keep None (group_arg c) target) (map group_arg gs) q <> (q', Ok es)).
  { induction gs as [|g gs IH]; intros q q' es I E; [contradiction|]. cbn [map mapM] in E. unfold mbind at 1 in E.
    destruct (task fr_len disc_out keep None (group_arg c) target (group_arg g) q) as [q1 [e1|]] eqn:ET; [|discriminate].
    destruct I as [->|I].
    - unfold task, mbind, mget, mlift in ET. destruct (get_learner q (group_arg c) (group_arg c)); [|discriminate]. rewrite targ_eqb_refl in ET by apply group_arg_hashable. discriminate.
    - unfold mbind at 1 in E. destruct (mapM _ (map group_arg gs) q1) as [q2 [es2|]] eqn:EM; [|discriminate]. exact (IH q1 q2 es2 I EM). }
  specialize (X (product treats) p'). destruct (mapM _ _ p') as [q' [es|]]; [|discriminate]. exfalso. eapply X; eauto.
Qed.
End P.
