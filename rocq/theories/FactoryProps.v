(** Theorems about the estimator factories (C219) and the automatic choice of an estimator (C220). *)
From Coq Require Import String Ascii ZArith.
From Verif Require Import Base UtilsModel MapModel TransModel FactoryModel.
Set Implicit Arguments.
Local Notation length := List.length.
Local Open Scope string_scope.
Local Open Scope list_scope.
Local Open Scope nat_scope.

(** what a task says: is the variable discrete?  (a flag, or the name of a task) *)
Variant discrete_task : task_arg -> Prop :=
| DT_flag : discrete_task (TBool true)
| DT_task t : t <> Regression -> discrete_task (TTask t).
Variant continuous_task : task_arg -> Prop :=
| CT_flag : continuous_task (TBool false)
| CT_task : continuous_task (TTask Regression).
Lemma task_cases t : t <> TNone -> (discrete_task t /\ is_discrete_task t = true) \/ (continuous_task t /\ is_discrete_task t = false).
Proof. destruct t as [|[]|[]]; intros H; try contradiction; cbn; ((left; split; [constructor; discriminate|reflexivity]) || (right; split; [constructor|reflexivity]) || (left; split; [constructor|reflexivity])). Qed.
Lemma discrete_iff t : t <> TNone -> (discrete_task t <-> is_discrete_task t = true).
Proof. intros H. destruct (task_cases H) as [[A B]|[A B]]; rewrite B; split; auto; try discriminate. intros D. inversion A; subst; inversion D; contradiction. Qed.
Lemma continuous_iff t : t <> TNone -> (continuous_task t <-> is_discrete_task t = false).
Proof. intros H. destruct (task_cases H) as [[A B]|[A B]]; rewrite B; split; auto; try discriminate. intros D. inversion A; subst; inversion D; subst; contradiction. Qed.

(** *** the registry *)
(** a name that is registered keeps its class whatever is registered later; names are unique *)
Lemma lookup_app {A} k (d e : list (string * A)) : lookup k (d ++ e) = match lookup k d with Some v => Some v | None => lookup k e end.
Proof. unfold lookup. induction d as [|a d IH]; cbn [app find]; [reflexivity|]. destruct (String.eqb k (fst a)); [reflexivity|exact IH]. Qed.
Lemma mem_In k (l : list string) : mem k l = true <-> In k l.
Proof. unfold mem. rewrite existsb_exists. split; [intros (x & A & B); apply String.eqb_eq in B; now subst|intros H; exists k; split; [auto|apply String.eqb_refl]]. Qed.
Lemma NoDup_snoc {A} (l : list A) a : NoDup l -> ~ In a l -> NoDup (l ++ [a]).
Proof. induction l as [|x l IH]; cbn [app]; intros ND NI; [repeat constructor; intros []|]. inversion ND; subst. constructor; [|apply IH; auto; intros X; apply NI; now right]. intros X. apply in_app_or in X. destruct X as [X|[<-|[]]]; [contradiction|]. apply NI. now left. Qed.
Theorem C219_registry_history r l r' : register_all r l = Ok r' ->
  (NoDup (map fst r) -> NoDup (map fst r')) /\ (forall k c, lookup k r = Some c -> lookup k r' = Some c) /\
  (forall e, In e l -> In (tag_of (fst e) (snd e), snd e) r').
Proof.
  revert r. induction l as [|e l IH]; intros r H; cbn [register_all] in H; [injection H as <-; split; [auto|split; [auto|intros _ []]]|].
  unfold register in H. destruct (mem (tag_of (fst e) (snd e)) (map fst r)) eqn:M; [discriminate|]. cbn [bind] in H. apply IH in H. destruct H as (A & B & C).
  assert (I0 : forall r0 r1 l, register_all r0 l = Ok r1 -> incl r0 r1).
  { clear. intros r0 r1 l. revert r0. induction l as [|e l IH]; intros r0 H; cbn [register_all] in H; [injection H as <-; apply incl_refl|]. unfold register in H. destruct (mem _ _); [discriminate|]. cbn [bind] in H. apply IH in H. intros x X. apply H, in_or_app. now left. }
  split; [|split].
  - intros ND. apply A. rewrite map_app. cbn [map fst]. apply NoDup_snoc; auto. intros X. apply mem_In in X. congruence.
  - intros k c Hk. apply B. rewrite lookup_app, Hk. reflexivity.
  - intros e' [<-|X]; [|now apply C]. (* it was appended *)
    assert (G : forall r0, register_all r0 l = Ok r' -> incl r0 r') by (intros; eapply I0; eauto).
    clear - M B C G A.
    (* use lookup: the first entry with this tag is the new one *)
    assert (L : lookup (tag_of (fst e) (snd e)) (r ++ [(tag_of (fst e) (snd e), snd e)]) = Some (snd e)).
    { rewrite lookup_app. destruct (lookup (tag_of (fst e) (snd e)) r) eqn:E; [|unfold lookup; cbn [find fst snd option_map]; rewrite String.eqb_refl; reflexivity].
      exfalso. unfold lookup in E. destruct (find _ r) as [p|] eqn:E1; [|discriminate]. apply find_some in E1. destruct E1 as [E1 E2]. apply String.eqb_eq in E2.
      assert (mem (tag_of (fst e) (snd e)) (map fst r) = true); [|congruence]. apply mem_In. rewrite E2. now apply in_map. }
    apply B in L. unfold lookup in L. destruct (find _ r') as [p|] eqn:E1; [|discriminate]. apply find_some in E1. destruct E1 as [E1 E2]. apply String.eqb_eq in E2. cbn in L. injection L as L. destruct p as [p1 p2]. cbn [fst snd] in *. now subst.
Qed.
(** the names Why(estimator=...) knows *)
Theorem C219_names : factories = Ok
  [("dml", "DMLFactory"); ("dr", "DRFactory"); ("ml", "MetaLearnerFactory"); ("meta_learner", "MetaLearnerFactory"); ("slearner", "SLearnerFactory"); ("tlearner", "TLearnerFactory");
   ("xlearner", "XLearnerFactory"); ("tree", "CausalTreeFactory"); ("causal_tree", "CausalTreeFactory"); ("grf", "GrfFactory"); ("bound", "ApproxBoundFactory"); ("approx_bound", "ApproxBoundFactory");
   ("iv", "IVFactory"); ("div", "DeepIVFactory"); ("deep_iv", "DeepIVFactory"); ("rloss", "RLossFactory")].
Proof. vm_compute. reflexivity. Qed.

Section Call.
Variables (lightgbm xgboost darwin : bool) (obj_proba : nat -> bool).
Notation call := (call lightgbm xgboost darwin).
Notation build := (build lightgbm xgboost darwin).
Notation construct := (construct obj_proba).
Lemma build_New e t l r o : build e t = Ok (KEst (New l r o)) -> t <> TNone /\ r = negb (is_discrete_task t).
Proof.
  unfold FactoryModel.build. destruct t as [|b|t]; [discriminate|..].
  all: assert (G : forall a d t' r', d <> TNone -> t' = d -> (do m <- general_estimator lightgbm xgboost darwin None a t' []; Ok (KEst m)) = Ok (KEst (New l r' o)) -> r' = negb (is_discrete_task d)).
  1,3: intros a d t' r' ND -> H; destruct (general_estimator lightgbm xgboost darwin None a d []) as [m|] eqn:E; cbn [bind] in H; [|discriminate]; injection H as ->; unfold general_estimator in E;
       destruct d as [|b'|t']; [contradiction|..]; cbn [bind] in E; destruct (match a with ENone => _ | EName s => _ | EObj n => _ end) as [|s|n]; try discriminate; destruct (creators s) as [l'|]; try discriminate;
       destruct l'; cbn [create with_kwargs existsb bind] in E; repeat match type of E with context [if ?c then _ else _] => destruct c eqn:?; cbn [bind] in E end; try discriminate; injection E as <- <- <-; cbn; try reflexivity; try congruence;
       try (destruct t'; cbn in *; congruence); try (destruct b'; cbn in *; congruence).
  - destruct e as [[| | | | |e'|a]|]; try discriminate; try (destruct a; try discriminate); intros H; split; try discriminate; eapply G; eauto; discriminate.
  - destruct e as [[| | | | |e'|a]|]; try discriminate; try (destruct a; try discriminate); intros H; split; try discriminate; eapply G; eauto; discriminate.
Qed.
Lemma lookup_None {A} k (d : list (string * A)) : ~ In k (map fst d) -> lookup k d = None.
Proof. unfold lookup. induction d as [|a d IH]; cbn [map In find]; intros H; [reflexivity|]. destruct (String.eqb_spec k (fst a)) as [->|N]; [tauto|]. apply IH. tauto. Qed.
Lemma lookup_In {A} k v (d : list (string * A)) : lookup k d = Some v -> In (k, v) d.
Proof. unfold lookup. intros H. destruct (find _ d) as [[a b]|] eqn:E; [|discriminate]. cbn in H. injection H as <-. apply find_some in E. destruct E as [E1 E2]. apply String.eqb_eq in E2. cbn in E2. now subst. Qed.
Lemma lookup_filter k (d u : kwargs) : ~ In k (map fst u) -> lookup k (filter (fun e => negb (mem (fst e) (map fst u))) d) = lookup k d.
Proof.
  intros N. unfold lookup. induction d as [|[a v] d IH]; [reflexivity|]. cbn [filter find fst]. destruct (String.eqb_spec k a) as [->|NE].
  - destruct (mem a (map fst u)) eqn:M; [apply mem_In in M; contradiction|]. cbn [negb find fst]. rewrite String.eqb_refl. reflexivity.
  - destruct (negb _); cbn [find fst]; [destruct (String.eqb_spec k a); [contradiction|]|]; exact IH.
Qed.
Lemma lookup_update k (d u : kwargs) : lookup k (update d u) = match lookup k u with Some v => Some v | None => lookup k d end.
Proof.
  unfold update. rewrite lookup_app. destruct (in_dec string_dec k (map fst u)) as [I|N].
  - assert (E : lookup k (filter (fun e => negb (mem (fst e) (map fst u))) d) = None).
    { apply lookup_None. intros X. apply in_map_iff in X. destruct X as ((a & v) & <- & X). apply filter_In in X. destruct X as [_ X]. cbn [fst] in *. apply mem_In in I. rewrite I in X. discriminate. }
    rewrite E. destruct (lookup k u) eqn:L; [reflexivity|]. exfalso. clear - I L. unfold lookup in L. destruct (find _ u) eqn:F; [discriminate|]. apply in_map_iff in I. destruct I as (e & <- & I). eapply find_none in F; eauto. cbn in F. rewrite String.eqb_refl in F. discriminate.
  - rewrite lookup_filter, (lookup_None k u) by auto. destruct (lookup k d); reflexivity.
Qed.
Ltac unbind H := repeat match type of H with (do _ <- ?r; _) = Ok _ => let E := fresh "E" in destruct r eqn:E; cbn [bind] in H; [|discriminate H] | (let _ := _ in _) = _ => cbv zeta in H end.
Ltac look := unfold lookup; cbn [find fst snd option_map String.eqb Ascii.eqb Bool.eqb andb app flags].

Ltac dsol := intros; try (eexists; split; [reflexivity|]); split; intros; (now apply discrete_iff) || (symmetry; now apply discrete_iff) || idtac.
(** the nuisance models fit the tasks: regressors for continuous variables, classifiers for discrete ones; final models are regressors *)
Definition own_options (f : factory) : Prop := forall k e, ~ In (k, KEst e) (fa_more f).
Theorem C219_models f rows y x cov ins seed c kw : own_options f -> call f rows y x cov ins seed = Ok (c, kw) ->
  (forall l r o, lookup "y_model" kw = Some (KEst (New l r o)) \/ lookup "model" kw = Some (KEst (New l r o)) -> (r = true <-> continuous_task y)) /\
  (forall l r o, lookup "x_model" kw = Some (KEst (New l r o)) -> (r = true <-> continuous_task x)) /\
  (forall l r o, lookup "yx_model" kw = Some (KEst (New l r o)) \/ lookup "final_proba_model" kw = Some (KEst (New l r o)) -> r = true).
Proof.
  intros OW H.
  assert (G : forall e t l r o, build e t = Ok (KEst (New l r o)) -> (r = true <-> continuous_task t)).
  { intros e t l r o B. apply build_New in B. destruct B as [ND ->]. rewrite (continuous_iff ND). destruct (is_discrete_task t); cbn; split; auto; discriminate. }
  assert (G' : forall e l r o, build e regr = Ok (KEst (New l r o)) -> r = true) by (intros e l r o B; apply build_New in B; now destruct B as [_ ->]).
  assert (U : forall d u n l r o, own_options (mkFac (fa_class f) (fa_attrs f) u) -> lookup n (update d u) = Some (KEst (New l r o)) -> lookup n d = Some (KEst (New l r o))).
  { intros d u n l r o O. rewrite lookup_update. destruct (lookup n u) eqn:E; [|auto]. intros X. injection X as ->. apply lookup_In in E. now apply O in E. }
  unfold FactoryModel.call in H. destruct f as [cls a more]. cbn [fa_class fa_attrs fa_more] in *.
  destruct cls; unbind H; try (injection H as <- <-).
  - split; [|split]; look; intros l r o Q; try destruct Q as [Q|Q]; try discriminate; injection Q as ->; eauto.
  - split; [|split]; look; intros l r o Q; try destruct Q as [Q|Q]; try discriminate; injection Q as ->; eauto.
  - split; [|split]; intros l r o Q; try destruct Q as [Q|Q]; apply U in Q; auto; revert Q; look; intros Q; try discriminate; injection Q as ->; eauto.
  - split; [|split]; look; intros l r o Q; try destruct Q as [Q|Q]; try discriminate; injection Q as ->; eauto.
  - split; [|split]; look; intros l r o Q; try destruct Q as [Q|Q]; try discriminate; injection Q as ->; eauto.
  - split; [|split]; look; intros l r o Q; try destruct Q as [Q|Q]; try discriminate; injection Q as ->; eauto. destruct (is_discrete_task y); [eauto|discriminate].
  - assert (N : forall n e, lookup n (match seed with Some _ => update more [("random_state", KSeed seed)] | None => more end) <> Some (KEst e)).
    { intros n e Q. destruct seed; [rewrite lookup_update in Q; revert Q; look; destruct (String.eqb n "random_state"); [discriminate|]; intros Q|]; apply lookup_In in Q; now apply OW in Q. }
    split; [|split]; intros l r o Q; try destruct Q as [Q|Q]; now apply N in Q.
  - assert (N : forall n e, lookup n (update (match seed with Some _ => update more [("random_state", KSeed seed)] | None => more end) [("is_discrete_outcome", KBool (is_discrete_task y)); ("is_discrete_treatment", KBool (is_discrete_task x))]) <> Some (KEst e)).
    { intros n e Q. rewrite lookup_update in Q. destruct (lookup n [("is_discrete_outcome", _); _]) eqn:L; [injection Q as ->; revert L; look; destruct (String.eqb n _); [discriminate|]; destruct (String.eqb n _); discriminate|]. clear L.
      destruct seed; [rewrite lookup_update in Q; revert Q; look; destruct (String.eqb n "random_state"); [discriminate|]; intros Q|]; apply lookup_In in Q; now apply OW in Q. }
    split; [|split]; intros l r o Q; try destruct Q as [Q|Q]; now apply N in Q.
  - split; [|split]; look; intros l r o Q; try destruct Q as [Q|Q]; try discriminate; injection Q as ->; eauto.
  - split; [|split]; look; intros l r o Q; try destruct Q as [Q|Q]; try discriminate; injection Q as ->; eauto.
  - split; [|split]; look; intros l r o Q; try destruct Q as [Q|Q]; try discriminate; injection Q as ->; eauto.
Qed.
(** the flags say what the tasks say, the seed arrives, folds go by the number of rows; for options that override none of these *)
Definition plain_options (f : factory) : Prop := forall k, In k (map fst (fa_more f)) -> ~ In k ["is_discrete_outcome"; "is_discrete_treatment"; "random_state"; "proba_output"; "model"].
Definition folds (rows n : nat) : Prop := (rows < 3000 /\ n = 1) \/ (3000 <= rows < 10000 /\ n = 3) \/ (10000 <= rows /\ n = 5).
Theorem C219_settings f rows y x cov ins z c kw : plain_options f -> y <> TNone -> x <> TNone -> call f rows y x cov ins (Some z) = Ok (c, kw) ->
  lookup "random_state" kw = Some (KSeed (Some z)) /\
  (c <> PDoublyRobust -> c <> PCausalTree -> exists b, lookup "is_discrete_treatment" kw = Some (KBool b) /\ (b = true <-> discrete_task x)) /\
  (In c [DoubleML; PSLearner; PTLearner; PXLearner; GRForest; NP2SLS] -> exists b, lookup "is_discrete_outcome" kw = Some (KBool b) /\ (b = true <-> discrete_task y)) /\
  (In c [DoubleML; PSLearner; PTLearner; PXLearner] -> truthy (lookup "proba_output" kw) = true <-> discrete_task y) /\
  (In c [DoubleML; PDoublyRobust; RLoss] -> (lookup "cf_fold" (fa_attrs f) = Some KNone \/ lookup "cf_fold" (fa_attrs f) = None) -> exists n, lookup "cf_fold" kw = Some (KNat n) /\ folds rows n).
Proof.
  intros PO NY NX H.
  assert (FO : (lookup "cf_fold" (fa_attrs f) = Some KNone \/ lookup "cf_fold" (fa_attrs f) = None) -> exists n, cf_fold (fa_attrs f) rows = KNat n /\ folds rows n).
  { intros Q. unfold cf_fold, folds. exists (if Nat.ltb rows 3000 then 1 else if Nat.ltb rows 10000 then 3 else 5). split; [destruct Q as [-> | ->]; reflexivity|]. destruct (Nat.ltb_spec rows 3000); [auto|]. destruct (Nat.ltb_spec rows 10000); [right; left; auto|right; right; auto]. }
  assert (UL : forall d n, In n ["is_discrete_outcome"; "is_discrete_treatment"; "random_state"; "proba_output"; "model"] -> lookup n (update d (fa_more f)) = lookup n d).
  { intros d n N. rewrite lookup_update, lookup_None; [reflexivity|]. intros X. now apply PO in X. }
  unfold FactoryModel.call in H. destruct f as [cls a more]. cbn [fa_class fa_attrs fa_more] in *.
  assert (PR : forall b, truthy (Some (proba b)) = b) by (intros []; reflexivity).
  destruct cls; unbind H; try (injection H as <- <-).
  3: { match goal with E : (if Ascii.eqb _ "s" then _ else _) = Ok ?k |- _ => assert (CC : In k [PSLearner; PTLearner; PXLearner]); [revert E; repeat match goal with |- context [if ?b then _ else _] => destruct b end; intros Q; try discriminate; injection Q as <-; cbn; tauto|] end.
       rewrite !UL by (cbn; tauto). look. rewrite PR. split; [reflexivity|]. split; [dsol|]. split; [dsol|]. split; [dsol|]. intros [<-|[<-|[<-|[]]]]; exfalso; revert CC; cbn; intuition discriminate. }
  7: { rewrite !lookup_update. look. split; [rewrite ?lookup_update; reflexivity|]. split; [dsol|]. split; [dsol|]. split; cbn; intuition discriminate. }
  all: rewrite ?lookup_update; look; rewrite ?PR; (split; [reflexivity|]); (split; [intros; try congruence; dsol|]); (split; [intros Q; try (exfalso; revert Q; cbn; intuition discriminate); dsol|]); (split; [intros Q; try (exfalso; revert Q; cbn; intuition discriminate); dsol|intros Q; try (exfalso; revert Q; cbn; intuition discriminate); intros Q'; destruct (FO Q') as (n & Fe & Fo); rewrite ?Fe; eauto]).
Qed.
(** *** which requests are served, for a factory with its default options *)
Definition served (c : fclass) (x : task_arg) (cov ins : bool) : Prop :=
  match c with
  | FDML | FBound => cov = true
  | FDR => x <> TTask Regression
  | FMeta | FS | FT | FX | FTree => discrete_task x
  | FIV => ins = true
  | FGrf | FRLoss => True
  end.
Definition request (c : fclass) (options : kwargs) rows y x cov ins seed : res (eclass * kwargs) :=
  do f <- new_factory c options; do e <- call f rows y x cov ins seed; do _ <- construct (fst e) (snd e); Ok e.
Theorem C219_accept c rows y x cov ins seed : y <> TNone -> x <> TNone ->
  ((exists e, request c [] rows y x cov ins seed = Ok e) <-> served c x cov ins) /\
  (~ served c x cov ins -> request c [] rows y x cov ins seed = Err AssertionError).
Proof.
  intros NY NX. split.
  - split.
    + intros [e H]. revert H.
      destruct c; cbn [served]; auto; destruct x as [|[]|[]], cov, ins; try contradiction; try discriminate; try (intros _; (reflexivity || discriminate || (constructor; discriminate) || constructor)); cbv [request new_factory params]; cbn [negb andb filter map app bind]; 
      cbv [FactoryModel.call]; lazy -[cf_fold]; discriminate.
    + intros SV. revert SV. unfold request.
      destruct c; cbn [served]; intros SV; destruct x as [|[]|[]], cov, ins; try contradiction; try discriminate; try (exfalso; inversion SV; contradiction); destruct y as [|[]|[]]; try contradiction; destruct seed; lazy -[cf_fold]; eexists; reflexivity.
  - intros SV. destruct c; cbn [served] in SV; try (exfalso; now apply SV); destruct x as [|[]|[]], cov, ins; try contradiction; try (exfalso; apply SV; (reflexivity || discriminate || (now constructor))); reflexivity.
Qed.
(** "a factory accepts or rejects a task the same way however it is written" fails: the doubly robust factory rejects a continuous treatment given as the
    name of the task and accepts one given as a flag *)
Theorem C219_dr_refuted rows y cov ins seed : y <> TNone ->
  request FDR [] rows y (TTask Regression) cov ins seed = Err AssertionError /\ exists e, request FDR [] rows y (TBool false) cov ins seed = Ok e.
Proof. intros NY. split; [reflexivity|]. destruct y as [|[]|[]]; try contradiction; destruct seed; eexists; reflexivity. Qed.
(** "a new estimator is not fitted" fails for the two-stage estimator: its mark is the text 'auto', which counts as true; every other class is right *)
Theorem C219_fresh c options rows y x cov ins seed e : request c options rows y x cov ins seed = Ok e ->
  if match fst e with NP2SLS => true | _ => false end then truthy (Some (fresh_is_fitted (fst e) (snd e))) = true else fresh_is_fitted (fst e) (snd e) = KBool false.
Proof.
  unfold request. intros H. unbind H. injection H as ->. destruct (fst e) eqn:FE; try reflexivity. cbn [fresh_is_fitted].
  assert (X : lookup "categories" (snd e) = None); [|rewrite X; reflexivity].
  unfold new_factory in E. destruct c; cbn [params] in E.
  all: match type of E with (if ?b then _ else _) = _ => destruct b; [discriminate|] end.
  all: try (cbv zeta in E; injection E as <-).
  all: unfold FactoryModel.call in E0; cbn [fa_class fa_attrs fa_more] in E0; cbv zeta in E0.
  3: { cbv zeta in E. unbind E. destruct (is_sx _); [|discriminate]. injection E as <-. cbn [fa_class fa_attrs fa_more] in E0. unbind E0. injection E0 as <-. cbn [fst] in FE. subst.
       repeat match goal with H : (if ?b then _ else _) = Ok NP2SLS |- _ => destruct b; try discriminate end. }
  all: unbind E0; injection E0 as <-; cbn [fst] in FE; try discriminate; reflexivity.
Qed.

(** *** estimator='auto' (C220) *)
Notation auto := (create_estimator lightgbm xgboost darwin obj_proba "auto" []).
Definition no_instruments (i : option (list string)) : Prop := i = None \/ i = Some [].
(** what is chosen *)
Theorem C220_choice rows dy dx cov i seed e : auto rows dy dx cov i seed = Ok e ->
  (fst e = NP2SLS <-> ~ no_instruments i) /\
  (fst e = PTLearner <-> no_instruments i /\ dx = true) /\
  (fst e = DoubleML <-> no_instruments i /\ dx = false /\ dy = false).
Proof.
  unfold create_estimator. rewrite C219_names. cbn [bind String.eqb Ascii.eqb Bool.eqb]. intros H.
  assert (N : no_instruments i <-> match i with Some (_ :: _) => false | _ => true end = true) by (unfold no_instruments; destruct i as [[|]|]; intuition congruence).
  rewrite N. destruct i as [[|a l]|]; cbn [default_estimator] in *; destruct dx, dy; cbn -[cf_fold] in H; destruct cov, lightgbm; cbn -[cf_fold] in H; try discriminate; injection H as <-; cbn [fst]; intuition congruence.
Qed.
(** when an estimator can be made: with instruments always; without, for a discrete treatment always, for a continuous treatment with a continuous outcome and covariates *)
Theorem C220_auto rows dy dx cov i seed :
  ((exists e, auto rows dy dx cov i seed = Ok e) <-> ~ no_instruments i \/ dx = true \/ (dy = false /\ cov = true)) /\
  ((forall e, auto rows dy dx cov i seed <> Ok e) -> auto rows dy dx cov i seed = Err AssertionError).
Proof.
  unfold create_estimator. rewrite C219_names. cbn [bind String.eqb Ascii.eqb Bool.eqb].
  assert (N : no_instruments i <-> match i with Some (_ :: _) => false | _ => true end = true) by (unfold no_instruments; destruct i as [[|]|]; intuition congruence).
  rewrite N. destruct i as [[|a l]|], dx, dy, cov, lightgbm; cbn -[cf_fold no_instruments]; (split; [split; [intros [e H]; try discriminate; intuition congruence|intros Q; try (eexists; reflexivity); exfalso; intuition congruence]|intros Q; try reflexivity; exfalso; eapply Q; reflexivity]).
Qed.
(** "the automatic choice is an estimator that can handle the data" fails: for a discrete outcome, a continuous treatment and no instruments the choice is
    the T-learner, which only takes discrete treatments, whatever the rest is; the double machine learning estimator would take it *)
Theorem C220_auto_refuted rows cov i seed : no_instruments i ->
  auto rows true false cov i seed = Err AssertionError /\ exists e, create_estimator lightgbm xgboost darwin obj_proba "dml" [] rows true false true i seed = Ok e.
Proof.
  intros N. split; [destruct N as [-> | ->]; unfold create_estimator; rewrite C219_names; reflexivity|].
  unfold create_estimator. rewrite C219_names. cbn [bind String.eqb Ascii.eqb Bool.eqb]. destruct i as [[|]|], lightgbm; eexists; reflexivity.
Qed.
(** a name that is not registered, or an option the factory does not have, is an error and nothing is made *)
Theorem C220_unknown name options rows dy dx cov i seed : name <> "auto" ->
  ~ In name ["dml"; "dr"; "ml"; "meta_learner"; "slearner"; "tlearner"; "xlearner"; "tree"; "causal_tree"; "grf"; "bound"; "approx_bound"; "iv"; "div"; "deep_iv"; "rloss"] ->
  create_estimator lightgbm xgboost darwin obj_proba name options rows dy dx cov i seed = Err AssertionError.
Proof.
  intros NA NI. unfold create_estimator. rewrite C219_names. cbn [bind]. rewrite (proj2 (String.eqb_neq _ _) NA), lookup_None; [reflexivity|]. exact NI.
Qed.
End Call.

(** concrete cases *)
Example C219_settings_used : exists kw, call false false false (mkFac FDML (fst (params FDML)) []) 5000 (TTask Binary) (TBool false) true false (Some 7%Z) = Ok (DoubleML, kw) /\
  lookup "cf_fold" kw = Some (KNat 3) /\ lookup "is_discrete_treatment" kw = Some (KBool false) /\ lookup "y_model" kw = Some (KEst (New RF false (own RF))) /\ lookup "random_state" kw = Some (KSeed (Some 7%Z)).
Proof. eexists. vm_compute. repeat split. Qed.
Example C219_settings_hyp : plain_options (mkFac FDML (fst (params FDML)) []) /\ own_options (mkFac FMeta [] [("proba_output", KBool true)]).
Proof. split; [intros k []|intros k e [H|[]]; discriminate]. Qed.
Example C220_choice_used : exists e, create_estimator false false false (fun _ => false) "auto" [] 10 false true false None None = Ok e /\ fst e = PTLearner.
Proof. eexists. vm_compute. split; reflexivity. Qed.
Print Assumptions C219_registry_history.
Print Assumptions C219_names.
Print Assumptions C219_models.
Print Assumptions C219_settings.
Print Assumptions C219_accept.
Print Assumptions C219_dr_refuted.
Print Assumptions C219_fresh.
Print Assumptions C220_choice.
Print Assumptions C220_auto.
Print Assumptions C220_auto_refuted.
Print Assumptions C220_unknown.
