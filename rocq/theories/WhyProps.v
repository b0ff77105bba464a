(** Theorems about the all-in-one object Why: fitting and the caller's data (C221), histories of fits (C222), causal effects (C223, C226),
    individual causal effects (C224), scores (C225). *)
From Coq Require Import String Ascii ZArith QArith Sorted.
From Verif Require Import Base UtilsModel EstUtilsModel MetaModel TransModel FactoryModel ApiModel WhyModel WhyProofs.
From Verif Require MetaProofs ApiProps.
Set Implicit Arguments.
Local Notation length := List.length.
Local Open Scope string_scope.
Local Open Scope list_scope.
Local Open Scope nat_scope.

Section Why.
Context {I : Type} {EI : EqDec I}.
Notation frame := (@frame I).
Variables P F ID : Type.
Variable is_discrete : list Z -> bool.
Variable id_treatment : frame -> string -> option bool -> res (list string).
Variable id_roles : frame -> string -> list string -> res (roles string).
Variable id_object : frame -> string -> option ID.
Variable prep_fit : list (string * list Z) -> list Z -> res (P * list (string * list Z)).
Variable prep_transform : P -> list (string * list Z) -> res (list (string * list Z)).
Variable learn : eclass * kwargs -> frame -> string -> list string -> roles string -> res F.
Variable estimate : F -> option frame -> tval -> tval -> option Z -> res (list Q).
Variable rloss : eclass * kwargs -> frame -> string -> string -> roles string -> F -> tval -> tval -> res Q.
Variables (lightgbm xgboost darwin : bool) (obj_proba : nat -> bool).
Notation why_obj := (@why_obj P F ID).
Notation fit := (@fit I P F ID is_discrete id_treatment id_roles id_object prep_fit learn lightgbm xgboost darwin obj_proba).
Notation fit_body := (@fit_body I P F ID is_discrete id_treatment id_roles id_object prep_fit learn lightgbm xgboost darwin obj_proba).
Notation new_why := (@new_why P F ID).
Notation create := (@create I lightgbm xgboost darwin obj_proba).

(** *** C221: fit and the frame of the caller *)
(** with copy=True (the default) the caller's frame is not touched, and everything else is as with copy=False *)
Theorem C221_copy cf y o d o' d' r : fit cf true y o d = (o', d', r) -> d' = d /\ exists d2, fit cf false y o d = (o', d2, r).
Proof. unfold WhyModel.fit. destruct (fit_body cf y (mkRun o d)) as [s q]. intros H. injection H as <- <- <-. eauto. Qed.
(** with copy=False rows and columns stay, however the fit ends *)
Theorem C221_shape cf copy y o d o' d' r : fit cf copy y o d = (o', d', r) -> f_index d' = f_index d /\ map fst (f_cols d') = map fst (f_cols d).
Proof. unfold WhyModel.fit. destruct (fit_body cf y (mkRun o d)) as [s q] eqn:E. apply fit_body_spec in E. destruct E as (_ & _ & A & B & _). intros H. injection H as <- <- <-. destruct copy; auto. Qed.
Lemma encodes_other xs (f g : frame) es c : encodes xs f g es -> ~ In c xs -> column g c = column f c.
Proof. induction 1 as [|x xs f g l k es A B D IH]; intros N; [reflexivity|]. rewrite IH by (intros X; apply N; now right). apply set_column_other. intros ->. apply N. now left. Qed.
Lemma encodes_names xs (f g : frame) es : encodes xs f g es -> map fst es = xs.
Proof. induction 1; cbn; congruence. Qed.
Lemma encodes_at xs (f g : frame) es x : encodes xs f g es -> NoDup xs -> In x xs ->
  exists l c, column f x = Ok l /\ column g x = Ok c /\ encoded (classes l) l c /\ FactoryModel.lookup x es = Some (classes l).
Proof.
  induction 1 as [|x0 xs f g l k es A B D IH]; intros ND X; [destruct X|]. inversion ND as [|? ? NI ND']; subst. destruct (string_dec x x0) as [->|N].
  - exists l, k. split; [auto|]. split; [erewrite encodes_other by eauto; apply set_column_same|]. split; [now apply transform_encoded|]. unfold FactoryModel.lookup. cbn [find fst]. rewrite String.eqb_refl. reflexivity.
  - destruct X as [X|X]; [congruence|]. destruct (IH ND' X) as (l' & c' & A1 & A2 & A3 & A4). exists l', c'. rewrite set_column_other in A1 by auto. split; [auto|]. split; [auto|]. split; [auto|].
    unfold FactoryModel.lookup in *. cbn [find fst]. rewrite (proj2 (String.eqb_neq x x0) N). exact A4.
Qed.
Lemma fit_all_spec cf (f : frame) y dy dx r ks es : fit_all learn lightgbm xgboost darwin obj_proba cf f y dy dx r ks = Ok es ->
  map fst es = ks /\ forall k e m, In (k, (e, m)) es -> create cf f dy dx r = Ok e /\ learn e f y (key_names k) r = Ok m.
Proof.
  revert es. induction ks as [|k ks IH]; intros es H; cbn [fit_all] in H; [injection H as <-; split; [reflexivity|intros k e m []]|].
  destruct (create cf f dy dx r) as [e|] eqn:C; cbn [bind] in H; [|discriminate].
  destruct (call_fit learn e f y (key_names k) r) as [m|] eqn:CF; cbn [bind] in H; [|discriminate].
  destruct (fit_all _ _ _ _ _ _ _ _ _ _ _ _) as [l|] eqn:FA; cbn [bind] in H; [|discriminate]. injection H as <-. destruct (IH _ eq_refl) as [A B]. split; [cbn; congruence|].
  intros k' e' m' [X|X]; [|auto]. injection X as <- <- <-. split; [reflexivity|]. unfold call_fit in CF. destruct (snd r); [destruct (fit_takes_instrument (fst e)); [auto|discriminate]|auto].
Qed.
Lemma keys_spec dx (ts : list string) k : In k (estimator_keys dx ts) <-> (exists x, In x ts /\ k = One x) \/ (dx = true /\ exists x x', In x ts /\ In x' ts /\ x <> x' /\ k = Two x x').
Proof.
  unfold estimator_keys. rewrite in_app_iff, in_map_iff. split.
  - intros [(x & <- & X)|X]; [left; eauto|]. right. destruct dx; [|destruct X]. cbn [andb] in X. destruct (Nat.ltb _ _); [|destruct X]. apply in_map_iff in X. destruct X as ((u & v) & <- & X). apply filter_In in X. destruct X as [X N].
    apply in_prod_iff in X. cbn [fst snd] in *. apply negb_true_iff, eqb_neq in N. split; [reflexivity|]. exists u, v. tauto.
  - intros [(x & X & ->)|(-> & x & x' & X & X' & N & ->)]; [left; eauto|]. right. cbn [andb].
    assert (L : Nat.ltb 1 (length ts) = true). { apply Nat.ltb_lt. destruct ts as [|a [|b ts]]; cbn; try lia; [destruct X|]. destruct X as [<-|[]], X' as [<-|[]]. contradiction. }
    rewrite L. apply in_map_iff. exists (x, x'). split; [reflexivity|]. apply filter_In. split; [now apply in_prod_iff|]. cbn [fst snd]. apply negb_true_iff, eqb_neq. exact N.
Qed.
(** the roles do not overlap: what identify takes care of, but for an outcome that the caller repeats (C69) *)
Definition disjoint_roles (y : string) (ts : list string) (r : roles string) : Prop :=
  NoDup ts /\ ~ In y ts /\ ~ In y (role_columns r) /\ forall x, In x ts -> ~ In x (role_columns r).
Definition is_fit (b : why_obj) (s : fit_state P F) := w_fit b = Some s.
(** the class and arguments of an estimator: those of the given object, or those the factories make for a name (C219, C220) from the number of rows,
    the kinds of outcome and treatment, whether there is a covariate, the instruments and the seed *)
Definition chosen (cf : conf) (rows : nat) (dy dx : bool) (r : roles string) (e : eclass * kwargs) : Prop :=
  match c_est cf with
  | ByObject c k => e = (c, k)
  | ByName n options => create_estimator lightgbm xgboost darwin obj_proba n options rows dy dx (match snd (fst r) with Some _ => true | None => false end) (snd r) (c_seed cf) = Ok e
  end.
(** a successful fit: the columns that are no outcome, treatment or role stay; discrete outcomes and treatments become places among their distinct values
    in ascending order, which are kept for later; continuous ones stay; there is one estimator for each treatment and, if treatments are discrete, for each
    ordered pair of two, trained on the frame that results *)
Theorem C221_fit cf y o d o' d' : fit cf false y o d = (o', d', Ok tt) -> exists s dy dx,
  w_fit o' = Some s /\ w_dy o' = Some dy /\ w_dx o' = Some dx /\ s_outcome s = y /\ s_names s = map fst (f_cols d) /\
  (forall c, c <> y -> ~ In c (s_treatment s) -> ~ In c (role_columns (s_roles s)) -> column d' c = column d c) /\
  (forall b, w_dy o = Some b -> dy = b) /\ (forall b, w_dx o = Some b -> dx = b) /\
  (exists l, column d y = Ok l /\ (w_dy o = None -> dy = is_discrete l)) /\
  (disjoint_roles y (s_treatment s) (s_roles s) ->
     (if dy then exists l c, column d y = Ok l /\ column d' y = Ok c /\ exists cls, s_yenc s = Some cls /\ encoded cls l c else column d' y = column d y /\ s_yenc s = None) /\
     (forall x, In x (s_treatment s) -> if dx then exists l c, column d x = Ok l /\ column d' x = Ok c /\ encoded (enc_of s x) l c else column d' x = column d x) /\
     (forall k, In k (map fst (s_ests s)) <-> (exists x, In x (s_treatment s) /\ k = One x) \/ (dx = true /\ exists x x', In x (s_treatment s) /\ In x' (s_treatment s) /\ x <> x' /\ k = Two x x'))) /\
  (forall k e m, In (k, (e, m)) (s_ests s) -> chosen cf (length (f_index d)) dy dx (s_roles s) e /\ learn e d' y (key_names k) (s_roles s) = Ok m).
Proof.
  unfold WhyModel.fit. destruct (fit_body cf y (mkRun o d)) as [st q] eqn:E. apply fit_body_spec in E. destruct E as (K1 & K2 & KI & _ & _ & E). intros H. injection H as <- <- ->.
  destruct (E eq_refl) as (dy & dx & f1 & f2 & s & A1 & A2 & _ & A3 & C). clear E. exists s, dy, dx. repeat (split; [assumption|]).
  destruct C as [yc tcols sub y2 sub' NY CY DY F1 YE IT CT DX IR F2 RN CS CY2 PF NM F3 FA SN SO].
  split; [exact SO|]. split; [exact SN|].
  assert (O1 : forall c, c <> y -> column f1 c = column d c) by (intros c N; destruct dy; [destruct F1 as (k & _ & ->); now apply set_column_other|now subst]).
  assert (O2 : forall c, ~ In c (s_treatment s) -> column f2 c = column f1 c) by (intros c N; destruct dx; [destruct F2 as (es & En & _); eapply encodes_other; eauto|destruct F2; now subst]).
  assert (O3 : forall c, ~ In c (role_columns (s_roles s)) -> column (r_data st) c = column f2 c) by (intros c N; rewrite F3; apply set_columns_other; now rewrite NM).
  split; [intros c N1 N2 N3; rewrite O3, O2, O1; auto|].
  split; [intros b B; rewrite B in *; cbn in K1; congruence|]. split; [intros b B; rewrite B in *; cbn in K2; congruence|].
  split; [exists yc; split; [exact CY|intros N; rewrite N in DY; exact DY]|].
  destruct (@fit_all_spec _ _ _ _ _ _ _ _ FA) as [FK FE]. split; [|intros k e m X; destruct (FE k e m X) as [X1 X2]; split; [|exact X2]; unfold chosen; unfold WhyModel.create in X1; destruct (c_est cf); cbn [r_data] in KI; [rewrite <- KI; exact X1|congruence]].
  intros (ND & YT & YR & TR). split; [|split].
  - destruct dy.
    + destruct F1 as (c & TC & ->). exists yc, c. split; [auto|]. split; [rewrite O3, O2 by auto; apply set_column_same|]. exists (classes yc). split; [auto|now apply transform_encoded].
    + split; [|exact YE]. rewrite O3, O2 by auto. now subst.
  - intros x X. assert (XY : x <> y) by congruence. destruct dx.
    + destruct F2 as (es & En & XE). destruct (@encodes_at _ _ _ _ x En ND X) as (l & c & B1 & B2 & B3 & B4). exists l, c. rewrite O1 in B1 by auto. split; [auto|]. split; [rewrite O3 by auto; exact B2|]. unfold enc_of. rewrite XE, B4. exact B3.
    + destruct F2 as [-> _]. rewrite O3, O1 by auto. reflexivity.
  - intros k. rewrite FK. apply keys_spec.
Qed.

(** *** C222: histories of fits *)
(** the objects that calls of fit, successful or not, on any data and with any settings, can lead to *)
Inductive reachable (dy dx : option bool) : why_obj -> Prop :=
| R_new : reachable dy dx (new_why dy dx)
| R_fit o cf copy y d : reachable dy dx o -> reachable dy dx (fst (fst (fit cf copy y o d))).
Lemma fit_flags cf copy y o d o' d' r : fit cf copy y o d = (o', d', r) -> flag_kept (w_dy o) (w_dy o') /\ flag_kept (w_dx o) (w_dx o') /\ (forall e, r = Err e -> w_fit o' = w_fit o) /\ (r = Ok tt -> w_dy o' <> None /\ w_dx o' <> None).
Proof.
  unfold WhyModel.fit. destruct (fit_body cf y (mkRun o d)) as [st q] eqn:E. apply fit_body_spec in E. destruct E as (K1 & K2 & _ & _ & K3 & K4). intros H. injection H as <- <- <-.
  split; [auto|]. split; [auto|]. split; [auto|]. intros Q. destruct (K4 Q) as (a & b & f1 & f2 & s & -> & -> & _). split; discriminate.
Qed.
Lemma reachable_flags dy dx o : reachable dy dx o -> (w_fit o <> None -> w_dy o <> None /\ w_dx o <> None) /\ flag_kept dy (w_dy o) /\ flag_kept dx (w_dx o).
Proof.
  induction 1 as [|o cf copy y d R IH]; [cbn; split; [congruence|]; split; [destruct dy; reflexivity|destruct dx; reflexivity]|].
  destruct (fit cf copy y o d) as [[o' d'] r] eqn:E. apply fit_flags in E. destruct E as (K1 & K2 & K3 & K4). cbn [fst]. destruct IH as (I1 & I2 & I3). split; [|split].
  - intros W. destruct r as [[]|e]; [auto|]. rewrite (K3 e eq_refl) in W. destruct (I1 W) as [A B]. destruct (w_dy o) eqn:Q1; [|contradiction]. destruct (w_dx o) eqn:Q2; [|contradiction]. cbn in K1, K2. rewrite K1, K2. split; discriminate.
  - destruct dy; [|reflexivity]. cbn in I2. rewrite I2 in K1. cbn in *. congruence.
  - destruct dx; [|reflexivity]. cbn in I3. rewrite I3 in K2. cbn in *. congruence.
Qed.
(** a fit that fails, at any point, on an object that was fitted before leaves everything that the questions to the object use *)
Theorem C222_failed_fit dy dx o cf copy y d o' d' e : reachable dy dx o -> w_fit o <> None -> fit cf copy y o d = (o', d', Err e) ->
  w_fit o' = w_fit o /\ w_dy o' = w_dy o /\ w_dx o' = w_dx o.
Proof.
  intros R W H. apply reachable_flags in R. destruct R as (R & _). destruct (R W) as [A B]. apply fit_flags in H. destruct H as (K1 & K2 & K3 & _).
  split; [now apply (K3 e)|]. destruct (w_dy o); [|contradiction]. destruct (w_dx o); [|contradiction]. auto.
Qed.
(** a fit depends on the object only through the two flags ... *)
Theorem C222_refit_flags o cf copy y d o' d' r : fit cf copy y o d = (o', d', r) -> exists o2,
  fit cf copy y (new_why (w_dy o) (w_dx o)) d = (o2, d', r) /\ w_dy o2 = w_dy o' /\ w_dx o2 = w_dx o' /\ (r = Ok tt -> o2 = o').
Proof.
  unfold WhyModel.fit, WhyModel.new_why. destruct o as [a b i w]. cbn [w_dy w_dx]. destruct (fit_body cf y (mkRun (mkWhy a b i w) d)) as [st q] eqn:E.
  eapply fit_two in E. destruct E as (s1 & E & F1 & F2 & F3 & F4). rewrite E. intros H. injection H as <- <- <-. exists (r_obj s1). rewrite F3. auto.
Qed.
(** ... so on an object made with both flags given, a fit after any history gives exactly what it gives on a new object *)
Theorem C222_refit_partial dy dx o cf copy y d o' d' : reachable (Some dy) (Some dx) o -> fit cf copy y o d = (o', d', Ok tt) ->
  fit cf copy y (new_why (Some dy) (Some dx)) d = (o', d', Ok tt).
Proof.
  intros R H. apply reachable_flags in R. destruct R as (_ & A & B). cbn in A, B. apply C222_refit_flags in H. destruct H as (o2 & H & _ & _ & E). rewrite A, B in H. now rewrite (E eq_refl) in H.
Qed.


(** *** C223: causal_effect with discrete treatments *)
Notation preprocess_opt := (@preprocess_opt I P F prep_transform).
Notation map_effect := (@map_effect I P F ID prep_transform estimate).
Notation effect_discrete := (@effect_discrete I P F ID prep_transform estimate).
(** the value that treat or control takes for an estimator: a code for one treatment, a tuple of codes for two *)
Variant code_arg : list nat -> tval -> Prop := CA_one n : code_arg [n] (TCode n) | CA_two n m : code_arg [n; m] (TCodes [n; m]).
(** the labels of codes *)
Definition labels (s : fit_state P F) (xs : list string) (ns : list nat) (vs : list Z) : Prop :=
  Forall2 (fun xn v => nth_error (enc_of s (fst xn)) (snd xn) = Some v) (combine xs ns) vs /\ length xs = length ns.
(** the outcome value asked for, as the code the estimators get *)
Variant target_code (o : why_obj) (s : fit_state P F) (target : option Z) : option (option Z) -> Prop :=
| TC_none : w_dy o <> Some true -> target = None -> target_code o s target None
| TC_some cls v i : w_dy o = Some true -> s_yenc s = Some cls -> (target = Some v \/ (target = None /\ exists r, cls = r ++ [v])) -> nth_error cls i = Some v -> target_code o s target (Some (Some (Z.of_nat i))).
(** the effects of the rows after the cost function: row by row, only if there are test data *)
Definition costed (cf : conf) (t : option frame) (eff eff' : list Q) : Prop :=
  match c_cost cf, t with
  | Some g, Some t => length (f_index t) = length eff /\ eff' = map (fun p => g (row_of t (fst p)) (snd p)) (combine (seq 0 (length eff)) eff)
  | _, _ => eff' = eff
  end.
Lemma decode_labels (s : fit_state P F) xs ns vs : length xs = length ns -> decode_all s xs ns = Ok vs -> labels s xs ns vs.
Proof.
  intros L H. split; [|exact L]. unfold decode_all in H. apply MetaProofs.mapX_inv in H. clear L. induction H as [|xn v l m E F2 IH]; constructor; auto.
  unfold decode in E. destruct (nth_error _ _); congruence.
Qed.
Lemma get_est_spec (s : fit_state P F) xs em : get_est s xs = Ok em -> exists k, key_names k = xs /\ In (k, em) (s_ests s).
Proof.
  unfold get_est. intros H. destruct (get_estimator _ xs) as [k|] eqn:E; cbn [bind] in H; [|discriminate].
  destruct (find _ (s_ests s)) as [[k' em']|] eqn:Fi; [|discriminate]. injection H as <-. apply find_some in Fi. destruct Fi as [Fi Q]. cbn [fst snd] in *.
  assert (k = k'). { destruct k, k'; cbn in Q; try discriminate; [apply String.eqb_eq in Q; congruence|]. apply andb_prop in Q. destruct Q as [Q1 Q2]. apply String.eqb_eq in Q1, Q2. congruence. }
  subst k'. exists k. split; [|exact Fi]. destruct xs as [|x [|x' [|? ?]]]; cbn in E; try discriminate; destruct (existsb _ _); try discriminate; injection E as <-; reflexivity.
Qed.
Lemma mapR_length {A B} (f : A -> res B) l m : mapR f l = Ok m -> length m = length l.
Proof. revert m. induction l as [|a l IH]; intros m H; cbn in H; [injection H as <-; reflexivity|]. destruct (f a); cbn in H; [|discriminate]. destruct (mapR f l); cbn in H; [|discriminate]. injection H as <-. cbn. f_equal. now apply IH. Qed.
Lemma mapR_inv {A B} (f : A -> res B) l m : mapR f l = Ok m -> Forall2 (fun a b => f a = Ok b) l m.
Proof. revert m. induction l as [|a l IH]; intros m H; cbn in H; [injection H as <-; constructor|]. destruct (f a) eqn:E; cbn in H; [|discriminate]. destruct (mapR f l); cbn in H; [|discriminate]. injection H as <-. constructor; auto. Qed.
Lemma encode_all_length (cl : string -> list Z) xs vs ns : length xs = length vs -> encode_all cl xs vs = Ok ns -> length ns = length xs.
Proof.
  revert vs ns. induction xs as [|x xs IH]; intros vs ns L H; destruct vs as [|v vs]; cbn in *; try discriminate; [injection H as <-; reflexivity|].
  destruct (encode cl x v); cbn in H; [|discriminate]. destruct (encode_all cl xs vs) eqn:E; cbn in H; [|discriminate]. injection H as <-. cbn. f_equal. eapply IH; eauto.
Qed.
Definition call_plain (c : eclass) : Prop := c <> NP2SLS /\ c <> GRForest /\ c <> ApproxBound.
Lemma map_effect_inv cf o s t a treat control target combined l : map_effect cf o s t a treat control target combined = Ok l ->
  exists d tg, preprocess_opt s t true = Ok d /\ target_code o s target tg /\
  Forall (fun k => exists key e m tn cn ta ca eff,
            key_names key = k_x k /\ In (key, (e, m)) (s_ests s) /\ get_est s (k_x k) = Ok (e, m) /\
            labels s (k_x k) tn (k_t k) /\ labels s (k_x k) cn (k_c k) /\ code_arg tn ta /\ code_arg cn ca /\
            call_estimate estimate (e, m) d ta ca tg = Ok eff /\ costed cf t eff (k_eff k)) l.
Proof.
  unfold WhyModel.map_effect. destruct (preprocess_opt s t true) as [d|]; cbn [bind]; [|discriminate].
  set (xs := match a with NmNone => s_treatment s | NmStr n => split n | NmList l0 => l0 end). clearbody xs.
  destruct (combined && negb (Nat.leb (length xs) 2)) eqn:CB; cbn [bind]; [discriminate|].
  assert (X2 : combined = true -> length xs <= 2). { intros ->. cbn in CB. apply negb_false_iff, Nat.leb_le in CB. exact CB. }
  destruct (match treat with Some l0 => if length l0 =? length xs then Ok tt else Err AssertionError | None => Ok tt end) as [[]|] eqn:TL; cbn [bind]; [|discriminate].
  destruct (match control with Some l0 => if length l0 =? length xs then Ok tt else Err AssertionError | None => Ok tt end) as [[]|] eqn:CL; cbn [bind]; [|discriminate].
  destruct (known s xs) as [[]|]; cbn [bind]; [|discriminate].
  match goal with |- (do tg <- ?m; _) = _ -> _ => destruct m as [tg|] eqn:TG; cbn [bind]; [|discriminate] end.
  match goal with |- (do itr <- ?m; _) = _ -> _ => destruct m as [itr|] eqn:IT; cbn [bind]; [|discriminate] end.
  intros H. exists d, tg. split; [reflexivity|]. split.
  { clear - TG. unfold truthy_opt in TG. destruct (w_dy o) as [[]|] eqn:W.
    - destruct (s_yenc s) as [cls|] eqn:Y; [|discriminate].
      destruct (match target with Some v => Ok v | None => match rev cls with [] => Err IndexError | v :: _ => Ok v end end) as [v|] eqn:V; cbn [bind] in TG; [|discriminate].
      destruct (Base.index_of v cls) as [i|] eqn:X; [|discriminate]. injection TG as <-. apply index_of_Some in X. destruct X as [X _]. econstructor; eauto.
      destruct target as [w|]; [left; congruence|]. right. split; [reflexivity|]. destruct (rev cls) as [|w r] eqn:R; [discriminate|]. injection V as <-. exists (rev r). rewrite <- (rev_involutive cls), R. reflexivity.
    - destruct target; [discriminate|]. injection TG as <-. constructor; [congruence|auto].
    - destruct target; [discriminate|]. injection TG as <-. constructor; [congruence|auto]. }
  clear TG.
  (* the shape of the contrasts *)
  assert (SH : Forall (fun e => let '(x, tn, cn) := e in length tn = length x /\ length cn = length x /\ (length x = 1 \/ length x = 2)) itr).
  { destruct combined.
    - unfold permute_combined in IT. cbv zeta in IT. destruct (Nat.eqb_spec (length xs) 0) as [Z0|NZ]; [discriminate|]. 
      match type of IT with (do c <- ?q; _) = _ => destruct q as [c|] eqn:C; cbn [bind] in IT; [|discriminate] end.
      destruct (encode_all (enc_of s) xs c) as [cn|] eqn:EC; cbn [bind] in IT; [|discriminate].
      match type of IT with (do c <- ?q; _) = _ => destruct q as [ts'|] eqn:MR; cbn [bind] in IT; [|discriminate] end. injection IT as <-.
      assert (LC : length cn = length xs). { eapply encode_all_length; [|exact EC]. destruct control as [c0|]; [destruct (Nat.eqb_spec (length c0) (length xs)); [injection C as <-; congruence|discriminate]|]. symmetry. eapply mapR_length; eauto. }
      apply mapR_inv in MR. apply Forall_forall. intros e X. apply in_map_iff in X. destruct X as (tn & <- & X). apply filter_In in X. destruct X as [X _].
      assert (LT : length tn = length xs). { clear - MR X. induction MR as [|b c l m E F2 IH]; [destruct X|]. destruct X as [<-|X]; [|auto]. destruct (Nat.eqb_spec (length b) (length xs)); [|discriminate]. eapply encode_all_length; [|exact E]. congruence. }
      split; [auto|]. split; [auto|]. specialize (X2 eq_refl). lia.
    - match type of IT with (do c <- ?q; _) = _ => destruct q as [l0|]; cbn [bind] in IT; [|discriminate] end. injection IT as <-. apply Forall_forall. intros e X. apply in_map_iff in X. destruct X as ([[x tn] cn] & <- & X). cbn. auto. }
  clear IT. apply MetaProofs.mapX_inv in H. induction H as [|e k itr l E F2 IH]; [constructor|]. inversion SH as [|? ? S1 S2]; subst. constructor; [|auto]. clear IH F2 S2 SH.
  destruct e as [[x tn] cn]. destruct S1 as (L1 & L2 & L3).
  destruct (get_est s x) as [[e m]|] eqn:GE; cbn [bind] in E; [|discriminate].
  destruct (call_estimate estimate (e, m) d _ _ tg) as [eff|] eqn:CE; cbn [bind] in E; [|discriminate].
  match type of E with (do eff <- ?q; _) = _ => destruct q as [eff'|] eqn:CO; cbn [bind] in E; [|discriminate] end.
  destruct (decode_all s x tn) as [tl|] eqn:DT; cbn [bind] in E; [|discriminate]. destruct (decode_all s x cn) as [cl|] eqn:DC; cbn [bind] in E; [|discriminate]. injection E as <-. cbn [k_x k_t k_c k_eff].
  pose proof GE as GE0. apply get_est_spec in GE. destruct GE as (key & GK & GI).
  assert (CA : forall ns, length ns = length x -> code_arg ns (match x, ns with [_], [n] => TCode n | _, _ => TCodes ns end)).
  { intros ns L. destruct L3 as [L3|L3]; destruct x as [|x0 [|x1 [|]]]; try discriminate; destruct ns as [|n0 [|n1 [|]]]; try discriminate; constructor. }
  exists key, e, m, tn, cn. do 3 eexists. split; [exact GK|]. split; [exact GI|]. split; [exact GE0|]. split; [now apply decode_labels|]. split; [now apply decode_labels|]. split; [now apply CA|]. split; [now apply CA|].
  split.
  - exact CE.
  - unfold costed. destruct (c_cost cf) as [g|]; [destruct t as [t|]|]; try (injection CO as <-; reflexivity). unfold cost_effect in CO. destruct (Nat.eqb_spec (length (f_index t)) (length eff)); [|discriminate]. injection CO as <-. auto.
Qed.
Theorem C223_contrasts cf o s t a treat control target combined l : map_effect cf o s t a treat control target combined = Ok l ->
  exists d tg, preprocess_opt s t true = Ok d /\ target_code o s target tg /\
  Forall (fun k => exists key e m tn cn ta ca eff,
            key_names key = k_x k /\ In (key, (e, m)) (s_ests s) /\
            labels s (k_x k) tn (k_t k) /\ labels s (k_x k) cn (k_c k) /\ code_arg tn ta /\ code_arg cn ca /\
            (call_plain (fst e) -> estimate m d ta ca (match tg with Some v => v | None => None end) = Ok eff) /\ costed cf t eff (k_eff k)) l.
Proof.
  intros H. apply map_effect_inv in H. destruct H as (d & tg & A & B & C). exists d, tg. split; [exact A|]. split; [exact B|]. eapply Forall_impl; [|exact C].
  intros k (key & e & m & tn & cn & ta & ca & eff & K1 & K2 & _ & K3 & K4 & K5 & K6 & K7 & K8). exists key, e, m, tn, cn, ta, ca, eff. repeat (split; [assumption|]). split; [|exact K8].
  intros (P1 & P2 & P3). unfold call_estimate in K7. cbn [fst snd] in K7. destruct (fst e); try contradiction; destruct tg; exact K7.
Qed.
(** one line of an answer with quantity='ATE': mean, minimum and maximum of the column of the answer with quantity='ITE' *)
Definition sum (l : list Q) : Q := fold_right Qplus 0%Q l.
Definition summarizes (col : list Q) (r : Q * Q * Q) : Prop :=
  let '(m, lo, hi) := r in (m * inject_Z (Z.of_nat (length col)) == sum col)%Q /\ In lo col /\ In hi col /\ (forall e, In e col -> lo <= e <= hi)%Q /\ (lo <= m <= hi)%Q.
Lemma qmin_fold r x : In (fold_left qmin r x) (x :: r) /\ (forall e, In e (x :: r) -> fold_left qmin r x <= e)%Q.
Proof.
  revert x. induction r as [|y r IH]; intros x; cbn [fold_left]; [split; [now left|intros e [<-|[]]; apply Qle_refl]|]. destruct (IH (qmin x y)) as [A B].
  assert (Q1 : (qmin x y <= x)%Q /\ (qmin x y <= y)%Q /\ (qmin x y = x \/ qmin x y = y)).
  { unfold qmin. destruct (Qle_bool x y) eqn:E; [apply Qle_bool_iff in E; repeat split; auto; apply Qle_refl|]. assert (y <= x)%Q by (destruct (Qlt_le_dec y x) as [L|L]; [now apply Qlt_le_weak|apply Qle_bool_iff in L; congruence]). repeat split; auto. apply Qle_refl. }
  destruct Q1 as (Q1 & Q2 & Q3). split.
  - destruct A as [A|A]; [rewrite <- A; destruct Q3 as [-> | ->]; cbn; auto|cbn; auto].
  - intros e [<-|[<-|X]]; [eapply Qle_trans; [apply B; now left|exact Q1]|eapply Qle_trans; [apply B; now left|exact Q2]|apply B; now right].
Qed.
Lemma qmax_fold r x : In (fold_left qmax r x) (x :: r) /\ (forall e, In e (x :: r) -> e <= fold_left qmax r x)%Q.
Proof.
  revert x. induction r as [|y r IH]; intros x; cbn [fold_left]; [split; [now left|intros e [<-|[]]; apply Qle_refl]|]. destruct (IH (qmax x y)) as [A B].
  assert (Q1 : (x <= qmax x y)%Q /\ (y <= qmax x y)%Q /\ (qmax x y = x \/ qmax x y = y)).
  { unfold qmax. destruct (Qle_bool x y) eqn:E; [apply Qle_bool_iff in E; repeat split; auto; apply Qle_refl|]. assert (y <= x)%Q by (destruct (Qlt_le_dec y x) as [L|L]; [now apply Qlt_le_weak|apply Qle_bool_iff in L; congruence]). repeat split; auto. apply Qle_refl. }
  destruct Q1 as (Q1 & Q2 & Q3). split.
  - destruct A as [A|A]; [rewrite <- A; destruct Q3 as [-> | ->]; cbn; auto|cbn; auto].
  - intros e [<-|[<-|X]]; [eapply Qle_trans; [exact Q1|apply B; now left]|eapply Qle_trans; [exact Q2|apply B; now left]|apply B; now right].
Qed.
Lemma sum_bounds lo hi l : (forall e, In e l -> lo <= e <= hi)%Q -> (lo * inject_Z (Z.of_nat (length l)) <= sum l <= hi * inject_Z (Z.of_nat (length l)))%Q.
Proof.
  induction l as [|x l IH]; intros H; cbn [sum fold_right length]; [cbn; split; ring_simplify; apply Qle_refl|].
  destruct IH as [A B]; [intros e X; apply H; now right|]. destruct (H x (or_introl eq_refl)) as [C D]. rewrite Nat2Z.inj_succ. unfold Z.succ. rewrite inject_Z_plus.
  change (fold_right Qplus 0%Q l) with (sum l). split.
  - setoid_replace (lo * (inject_Z (Z.of_nat (length l)) + inject_Z 1))%Q with (lo + lo * inject_Z (Z.of_nat (length l)))%Q by (unfold inject_Z; ring). now apply Qplus_le_compat.
  - setoid_replace (hi * (inject_Z (Z.of_nat (length l)) + inject_Z 1))%Q with (hi + hi * inject_Z (Z.of_nat (length l)))%Q by (unfold inject_Z; ring). now apply Qplus_le_compat.
Qed.
Lemma summary_spec col : col <> [] -> exists r, summary col = Ok r /\ summarizes col r.
Proof.
  destruct col as [|x r]; [congruence|]. intros _. cbn [summary]. eexists. split; [reflexivity|]. cbn [summarizes].
  assert (POS : (0 < inject_Z (Z.of_nat (length (x :: r))))%Q) by (cbn [length]; rewrite Nat2Z.inj_succ; unfold Qlt; cbn; lia).
  destruct (qmin_fold r x) as [A1 A2]. destruct (qmax_fold r x) as [B1 B2].
  assert (M : (mean (x :: r) * inject_Z (Z.of_nat (length (x :: r))) == sum (x :: r))%Q).
  { unfold mean, Qdiv. rewrite <- Qmult_assoc, (Qmult_comm (/ _)), Qmult_inv_r; [rewrite Qmult_1_r; reflexivity|]. intros Z0. rewrite Z0 in POS. now apply Qlt_irrefl in POS. }
  split; [exact M|]. split; [exact A1|]. split; [exact B1|]. split; [intros e X; split; auto|].
  destruct (@sum_bounds (fold_left qmin r x) (fold_left qmax r x) (x :: r)) as [S1 S2]; [intros e X; split; auto|].
  split; apply (Qmult_le_r _ _ _ POS); rewrite M; assumption.
Qed.
Lemma answer_summary {K} (l : list (K * list Q)) cols : answer_of false l = Ok (ITE cols) -> (forall c, In c cols -> snd c <> []) ->
  exists rows, answer_of true l = Ok (ATE rows) /\ Forall2 (fun c r => fst r = fst c /\ summarizes (snd c) (snd r)) cols rows.
Proof.
  unfold answer_of. destruct l as [|e l]; [discriminate|]. set (l0 := e :: l). clearbody l0. intros H NE. injection H as <-.
  assert (G : exists rows, mapX (fun e => do s <- summary (snd e); Ok (fst e, s)) l0 = Ok rows /\ Forall2 (fun c r => fst r = fst c /\ summarizes (snd c) (snd r)) l0 rows).
  { clear - NE. induction l0 as [|c l0 IH]; [exists []; split; [reflexivity|constructor]|]. destruct IH as (rows & E & F2); [intros c' X; apply NE; now right|].
    destruct (@summary_spec (snd c)) as (r & E1 & S1); [apply NE; now left|]. exists ((fst c, r) :: rows). cbn [mapX]. rewrite E1. cbn [bind]. rewrite E. cbn [bind]. split; [reflexivity|]. constructor; auto. }
  destruct G as (rows & -> & F2). cbn [bind]. eauto.
Qed.
(** quantity='ATE' is the summary of quantity='ITE' *)
Theorem C223_summary cf o s t a treat control target combined cols :
  effect_discrete cf o s t a treat control target combined false = Ok (ITE cols) -> (forall c, In c cols -> snd c <> []) ->
  exists rows, effect_discrete cf o s t a treat control target combined true = Ok (ATE rows) /\ Forall2 (fun c r => fst r = fst c /\ summarizes (snd c) (snd r)) cols rows.
Proof. unfold WhyModel.effect_discrete. destruct (map_effect _ _ _ _ _ _ _ _ _); cbn [bind]; [|discriminate]. apply answer_summary. Qed.
(** fn_cost "is applied to every effect": not without test data *)
Theorem C223_cost_refuted cf o s a treat control target combined :
  map_effect cf o s None a treat control target combined = map_effect (mkConf (c_est cf) None (c_seed cf)) o s None a treat control target combined.
Proof.
  unfold WhyModel.map_effect. cbn [c_cost]. repeat match goal with |- bind ?m _ = bind ?m _ => destruct m; cbn [bind]; [|reflexivity] end.
  match goal with |- mapX ?f ?l = mapX ?g ?l => assert (E : forall e, f e = g e) by (intros [[xs' tv] cv]; destruct (c_cost cf); reflexivity); induction l as [|e r IH]; cbn [mapX]; [reflexivity|]; rewrite E, IH; reflexivity end.
Qed.
(** every estimator the object holds is of this class (true after fit with that estimator, C221) *)
Definition all_of (c : eclass) (s : fit_state P F) : Prop := forall k e m, In (k, (e, m)) (s_ests s) -> fst e = c.
(** "causal_effect works for every registered estimator" fails for the bounds ... *)
Theorem C223_bound_refuted cf o s t a treat control target combined ate v : all_of ApproxBound s -> effect_discrete cf o s t a treat control target combined ate <> Ok v.
Proof.
  intros AL H. unfold WhyModel.effect_discrete in H. destruct (map_effect cf o s t a treat control target combined) as [l|] eqn:E; cbn [bind] in H; [|discriminate].
  apply map_effect_inv in E. destruct E as (d & tg & _ & _ & Fo). destruct l as [|k l]; [discriminate|]. inversion Fo as [|? ? (key & e & m & tn & cn & ta & ca & eff & _ & K2 & _ & _ & _ & _ & _ & K7 & _) _]; subst.
  apply AL in K2. unfold call_estimate in K7. cbn [fst snd] in K7. rewrite K2 in K7. destruct tg; destruct (estimate m d ta ca None); discriminate.
Qed.
(** ... for the two stage estimator if the outcome is discrete ... *)
Theorem C223_iv_refuted cf o s t a treat control target combined ate v : all_of NP2SLS s -> w_dy o = Some true -> effect_discrete cf o s t a treat control target combined ate <> Ok v.
Proof.
  intros AL W H. unfold WhyModel.effect_discrete in H. destruct (map_effect cf o s t a treat control target combined) as [l|] eqn:E; cbn [bind] in H; [|discriminate].
  apply map_effect_inv in E. destruct E as (d & tg & _ & TC & Fo). destruct l as [|k l]; [discriminate|]. inversion Fo as [|? ? (key & e & m & tn & cn & ta & ca & eff & _ & K2 & _ & _ & _ & _ & _ & K7 & _) _]; subst.
  apply AL in K2. unfold call_estimate in K7. cbn [fst snd] in K7. rewrite K2 in K7. inversion TC; subst; [contradiction|discriminate].
Qed.
(** ... and with a random forest all contrasts of a treatment have the same effects, whatever treat and control are *)
Theorem C223_grf_refuted cf o s t a treat control target combined l k k' : all_of GRForest s -> c_cost cf = None -> map_effect cf o s t a treat control target combined = Ok l ->
  In k l -> In k' l -> k_x k = k_x k' -> k_eff k = k_eff k'.
Proof.
  intros AL NC E X X' EX. apply map_effect_inv in E. destruct E as (d & tg & _ & _ & Fo). rewrite Forall_forall in Fo.
  destruct (Fo _ X) as (key & e & m & tn & cn & ta & ca & eff & _ & K2 & K3 & _ & _ & _ & _ & K7 & K8). destruct (Fo _ X') as (key' & e' & m' & tn' & cn' & ta' & ca' & eff' & _ & K2' & K3' & _ & _ & _ & _ & K7' & K8').
  rewrite EX, K3' in K3. injection K3 as -> ->. apply AL in K2. unfold call_estimate in K7, K7'. cbn [fst snd] in *. rewrite K2 in *. unfold costed in *. rewrite NC in *. destruct tg; congruence.
Qed.
(** without treat and control: every class of every treatment but the first against the first, each once *)
Theorem C223_default_contrasts cf o s t a target l : map_effect cf o s t a None None target false = Ok l ->
  let xs := match a with NmNone => s_treatment s | NmStr n => split n | NmList q => q end in
  NoDup xs -> (forall x, In x xs -> NoDup (enc_of s x)) ->
  let cs := map (fun k => (k_x k, k_t k, k_c k)) l in
  NoDup cs /\ forall ys vs ws, In (ys, vs, ws) cs <-> exists x c v r, ys = [x] /\ vs = [v] /\ ws = [c] /\ In x xs /\ enc_of s x = c :: r /\ In v r.
Proof.
  intros H xs ND NE cs. unfold WhyModel.map_effect in H. fold xs in H. clearbody xs. destruct (preprocess_opt s t true) as [d|]; cbn [bind andb] in H; [|discriminate].
  destruct (known s xs) as [[]|]; cbn [bind] in H; [|discriminate].
  match type of H with (do tg <- ?m; _) = _ => destruct m as [tg|] eqn:TG; cbn [bind] in H; [|discriminate] end.
  cbn [option_map] in H. destruct (permute_sequential (enc_of s) xs None None) as [itr|] eqn:PS; cbn [bind] in H; [|discriminate].
  assert (XN : xs <> []) by (intros ->; discriminate).
  assert (CN : forall x, In x xs -> enc_of s x <> []).
  { unfold permute_sequential in PS. destruct (Nat.eqb _ _); [discriminate|]. destruct (mapR (first_class (enc_of s)) xs) as [c|] eqn:M; [|discriminate]. apply mapR_inv in M. clear - M. induction M as [|x b l m E F2 IH]; intros y Y; [destruct Y|]. destruct Y as [<-|Y]; [|auto]. unfold first_class in E. destruct (enc_of s x); congruence. }
  destruct (@ApiProps.C43_sequential_default string Z _ (enc_of s) xs XN ND NE CN) as (itr' & PS' & NDi & SPi). rewrite PS in PS'. injection PS' as <-.
  apply MetaProofs.mapX_inv in H.
  (* each contrast carries the labels of its codes *)
  assert (F2 : Forall2 (fun e k => let '(x, tn, cn) := e in exists v c, k_x k = [x] /\ k_t k = [v] /\ k_c k = [c] /\ nth_error (enc_of s x) tn = Some v /\ nth_error (enc_of s x) cn = Some c) itr l).
  { clear - H. remember (map _ itr) as m eqn:EM. revert itr EM. induction H as [|e k m l E F2 IH]; intros itr EM; destruct itr as [|[[x tn] cn] itr]; try discriminate; constructor; [|apply IH; now injection EM].
    injection EM as -> _. destruct (get_est s [x]) as [em|]; cbn [bind] in E; [|discriminate]. destruct (call_estimate _ _ _ _ _ _) as [eff|]; cbn [bind] in E; [|discriminate].
    match type of E with (do q0 <- ?q; _) = _ => destruct q as [eff'|]; cbn [bind] in E; [|discriminate] end.
    unfold decode_all, decode in E. cbn [combine mapX fst snd] in E. destruct (nth_error (enc_of s x) tn) as [v|]; cbn [bind] in E; [|discriminate]. destruct (nth_error (enc_of s x) cn) as [c|]; cbn [bind] in E; [|discriminate]. injection E as <-. exists v, c. cbn. auto. }
  clear H. split.
  - unfold cs. clear cs.
    assert (IX : forall x t k, In (x, t, k) itr -> In x xs) by (intros x t0 k X; apply SPi in X; tauto).
    clear SPi PS TG. induction F2 as [|[[x tn] cn] k itr l E F2 IH]; cbn [map]; constructor.
    + inversion NDi as [|? ? NI _]; subst. intros X. apply in_map_iff in X. destruct X as (k' & EQ & X). destruct E as (v & c & E1 & E2 & E3 & E4 & E5). rewrite E1, E2, E3 in EQ. injection EQ as Q1 Q2 Q3.
      apply NI. assert (G : exists e, In e itr /\ let '(x', tn', cn') := e in exists v c, k_x k' = [x'] /\ k_t k' = [v] /\ k_c k' = [c] /\ nth_error (enc_of s x') tn' = Some v /\ nth_error (enc_of s x') cn' = Some c).
      { clear - F2 X. induction F2 as [|e k l m E F2 IH]; [destruct X|]. destruct X as [<-|X]; [exists e; split; [now left|exact E]|]. destruct (IH X) as (e' & A & B). exists e'. split; [now right|exact B]. }
      destruct G as ([[x' tn'] cn'] & GI & v' & c' & G1 & G2 & G3 & G4 & G5). rewrite Q1 in G1. rewrite Q2 in G2. rewrite Q3 in G3. injection G1 as <-. injection G2 as <-. injection G3 as <-.
      assert (NX : NoDup (enc_of s x)) by (eapply NE, IX; now left).
      assert (tn = tn') by (eapply (proj1 (NoDup_nth_error _) NX); [apply nth_error_Some; congruence|congruence]). assert (cn = cn') by (eapply (proj1 (NoDup_nth_error _) NX); [apply nth_error_Some; congruence|congruence]). now subst.
    + inversion NDi; subst. apply IH; auto. intros x' t' k' X. eapply IX. right. exact X.
  - intros ys vs ws. unfold cs. rewrite in_map_iff. split.
    + intros (k & EQ & X). assert (G : exists e, In e itr /\ let '(x', tn', cn') := e in exists v c, k_x k = [x'] /\ k_t k = [v] /\ k_c k = [c] /\ nth_error (enc_of s x') tn' = Some v /\ nth_error (enc_of s x') cn' = Some c).
      { clear - F2 X. induction F2 as [|e k0 l m E F2 IH]; [destruct X|]. destruct X as [<-|X]; [exists e; split; [now left|exact E]|]. destruct (IH X) as (e' & A & B). exists e'. split; [now right|exact B]. }
      destruct G as ([[x tn] cn] & GI & v & c & G1 & G2 & G3 & G4 & G5). apply SPi in GI. destruct GI as (GX & -> & GL & GN). rewrite G1, G2, G3 in EQ. injection EQ as <- <- <-.
      destruct (enc_of s x) as [|c0 r] eqn:EN; [discriminate|]. cbn in G5. injection G5 as ->. destruct tn as [|tn]; [contradiction|]. cbn in G4. exists x, c, v, r. repeat split; auto. eapply nth_error_In; eauto.
    + intros (x & c & v & r & -> & -> & -> & GX & EN & VR). apply In_nth_error in VR. destruct VR as (n & VN).
      assert (GI : In (x, S n, 0) itr). { apply SPi. split; [auto|]. split; [auto|]. split; [|lia]. rewrite EN. cbn. assert (n < length r) by (apply nth_error_Some; congruence). lia. }
      assert (G : exists k, In k l /\ exists v c, k_x k = [x] /\ k_t k = [v] /\ k_c k = [c] /\ nth_error (enc_of s x) (S n) = Some v /\ nth_error (enc_of s x) 0 = Some c).
      { clear - F2 GI. induction F2 as [|e k0 l m E F2 IH]; [destruct GI|]. destruct GI as [->|X]; [exists k0; split; [now left|exact E]|]. destruct (IH X) as (e' & A & B). exists e'. split; [now right|exact B]. }
      destruct G as (k & KI & v' & c' & G1 & G2 & G3 & G4 & G5). rewrite EN in G4, G5. cbn in G4, G5. exists k. split; [|exact KI]. rewrite G1, G2, G3. congruence.
Qed.

(** *** C224: individual_causal_effect *)
Notation preprocess := (@preprocess I P F prep_transform).
Notation individual_row := (@individual_row I P F ID estimate).
Notation individual_discrete := (@individual_discrete I EI P F ID prep_transform estimate).
(** what the answer for one row and one treatment says *)
Definition individual_answer (o : why_obj) (s : fit_state P F) (tg : option Z) (row0 : frame) (x : string) (v c : Z) (eff : Q) : Prop :=
  (v = c -> eff = 0%Q) /\
  (v <> c -> exists em tn cn row rest, get_est s [x] = Ok em /\ nth_error (enc_of s x) tn = Some v /\ nth_error (enc_of s x) cn = Some c /\
     f_index row = f_index row0 /\ (forall k, ~ In k (s_treatment s) -> column row k = column row0 k) /\
     call_estimate estimate em (Some row) (TCode tn) (TCode cn) (if truthy_opt (w_dy o) then Some tg else None) = Ok (eff :: rest)).
Lemma individual_row_spec o s tg ri row0 row xcs l : individual_row o s tg ri row xcs = Ok l -> NoDup (map fst xcs) -> incl (map fst xcs) (s_treatment s) ->
  f_index row = f_index row0 -> (forall x, In x (map fst xcs) -> column row x = column row0 x) -> (forall k, ~ In k (s_treatment s) -> column row k = column row0 k) ->
  Forall2 (fun xc e => exists v r eff, column row0 (fst xc) = Ok (v :: r) /\ e = (ri, fst xc, v, snd xc, eff) /\ individual_answer o s tg row0 (fst xc) v (snd xc) eff) xcs l.
Proof.
  revert row l. induction xcs as [|[x c] xcs IH]; intros row l H ND IN IX CX CO; cbn [WhyModel.individual_row] in H; [injection H as <-; constructor|].
  cbn [map fst] in *. inversion ND as [|? ? NI ND']; subst.
  destruct (column row x) as [col|] eqn:C; cbn [bind] in H; [|discriminate]. destruct col as [|v r]; cbn [first_value bind] in H; [discriminate|].
  assert (C0 : column row0 x = Ok (v :: r)) by (rewrite <- C; symmetry; apply CX; now left).
  destruct (Z.eqb_spec v c) as [->|NV].
  - cbn [bind] in H. destruct (individual_row o s tg ri row xcs) as [l'|] eqn:E; cbn [bind] in H; [|discriminate]. injection H as <-. constructor.
    + exists c, r, 0%Q. cbn [fst snd]. split; [exact C0|]. split; [reflexivity|]. split; [auto|congruence].
    + apply (IH row); auto. intros y Y. apply IN. now right. intros y Y. apply CX. now right.
  - destruct (transform (enc_of s x) (v :: r)) as [codes|] eqn:T; cbn [bind] in H; [|discriminate].
    destruct (Base.index_of v (enc_of s x)) as [tn|] eqn:TN; cbn [bind] in H; [|discriminate]. destruct (Base.index_of c (enc_of s x)) as [cn|] eqn:CN; cbn [bind] in H; [|discriminate].
    destruct (get_est s [x]) as [em|] eqn:GE; cbn [bind] in H; [|discriminate].
    destruct (call_estimate estimate em (Some (set_column x codes row)) (TCode tn) (TCode cn) _) as [[|q es]|] eqn:CE; cbn [bind] in H; try discriminate.
    destruct (individual_row o s tg ri (set_column x codes row) xcs) as [l'|] eqn:E; cbn [bind] in H; [|discriminate]. injection H as <-.
    assert (XT : In x (s_treatment s)) by (apply IN; now left).
    assert (CO' : forall k, ~ In k (s_treatment s) -> column (set_column x codes row) k = column row0 k) by (intros k N; rewrite set_column_other by congruence; auto).
    constructor.
    + exists v, r, q. cbn [fst snd]. split; [exact C0|]. split; [reflexivity|]. split; [congruence|]. intros _. apply index_of_Some in TN, CN. exists em, tn, cn, (set_column x codes row), es. repeat split; auto; tauto.
    + apply (IH (set_column x codes row)); auto; [intros y Y; apply IN; now right|]. intros y Y. rewrite set_column_other by congruence. apply CX. now right.
Qed.
(** frames whose columns all have one value for each row; preprocessors that keep names and rows *)
Definition well_formed (f : frame) : Prop := forall c l, column f c = Ok l -> length l = length (f_index f).
Definition keeps_columns : Prop := forall p a b, prep_transform p a = Ok b -> Forall2 (fun x y => fst y = fst x /\ length (snd y) = length (snd x)) a b.
Lemma columns_inv (f : frame) cs l : columns f cs = Ok l -> map fst l = cs /\ Forall (fun e => column f (fst e) = Ok (snd e)) l.
Proof.
  unfold columns. intros H. apply MetaProofs.mapX_inv in H. induction H as [|c e cs l E F2 [A B]]; [split; [reflexivity|constructor]|]. destruct (column f c) as [q|] eqn:Q; [|discriminate]. cbn [bind] in E. injection E as <-. split; [cbn; congruence|]. constructor; auto.
Qed.
Lemma set_columns_wf cs (f : frame) : well_formed f -> (forall c l, In (c, l) cs -> length l = length (f_index f)) -> well_formed (set_columns cs f).
Proof.
  revert f. unfold set_columns. induction cs as [|[c l] cs IH]; intros f W H; cbn [fold_left fst snd]; [exact W|]. apply IH; [|intros c' l' X; cbn; apply (H c' l'); now right].
  intros k q E. cbn. destruct (string_dec k c) as [->|N]; [rewrite set_column_same in E; injection E as <-; apply (H c l); now left|]. rewrite set_column_other in E by auto. exact (W _ _ E).
Qed.
Lemma encode_cols_spec es (f g : frame) : encode_cols es f = Ok g -> f_index g = f_index f /\ (forall k, ~ In k (map fst es) -> column g k = column f k) /\ (well_formed f -> well_formed g).
Proof.
  unfold encode_cols. revert f. induction es as [|[c cls] es IH]; intros f H; cbn [fold_left fst snd] in H; [injection H as <-; auto|]. cbn [bind] in H.
  assert (ER : forall e, fold_left (fun rf e => do f <- rf; if has f (fst e) then do l <- column f (fst e); do c <- transform (snd e) l; Ok (set_column (fst e) c f) else Ok f) es (Err e) = @Err frame e) by (intros e; clear; induction es; cbn; auto).
  destruct (has f c).
  - destruct (column f c) as [l|] eqn:C; cbn [bind] in H; [|rewrite ER in H; discriminate]. destruct (transform cls l) as [k|] eqn:T; cbn [bind] in H; [|rewrite ER in H; discriminate].
    apply IH in H. destruct H as (A & B & D). split; [exact A|]. split; [intros q N; cbn [map fst In] in N; rewrite B by tauto; apply set_column_other; intros ->; tauto|].
    intros W. apply D. intros q z E. cbn. destruct (string_dec q c) as [->|N]; [|rewrite set_column_other in E by auto; exact (W _ _ E)]. rewrite set_column_same in E. injection E as <-. apply transform_places in T. apply MetaProofs.F2_length in T. rewrite <- T. exact (W _ _ C).
  - apply IH in H. destruct H as (A & B & D). split; [exact A|]. split; [|exact D]. intros q N. apply B. cbn in N. tauto.
Qed.
Lemma encode_cols_has es (f g : frame) k : encode_cols es f = Ok g -> has f k = true -> has g k = true.
Proof.
  unfold encode_cols. revert f. induction es as [|[c cls] es IH]; intros f H; cbn [fold_left fst snd] in H; [injection H as <-; auto|]. cbn [bind] in H.
  assert (ER : forall e, fold_left (fun rf e => do f <- rf; if has f (fst e) then do l <- column f (fst e); do c <- transform (snd e) l; Ok (set_column (fst e) c f) else Ok f) es (Err e) = @Err frame e) by (intros e; clear; induction es; cbn; auto).
  destruct (has f c) eqn:HC; [|eauto]. destruct (column f c) as [l|] eqn:C; cbn [bind] in H; [|rewrite ER in H; discriminate]. destruct (transform cls l) as [q|] eqn:T; cbn [bind] in H; [|rewrite ER in H; discriminate].
  intros K. apply (IH _ H). rewrite <- K. apply has_names, set_column_names, HC.
Qed.
(** what preprocessing leaves alone *)
Lemma preprocess_spec s t et d : keeps_columns -> preprocess s t et = Ok d -> f_index d = f_index t /\
  (forall k, ~ In k (role_columns (s_roles s)) -> k <> s_outcome s -> (et = true -> forall es, s_xenc s = Some es -> ~ In k (map fst es)) -> column d k = column t k) /\ (well_formed t -> well_formed d).
Proof.
  intros KC H. unfold WhyModel.preprocess in H. destruct (columns t (role_columns (s_roles s))) as [sub|] eqn:CS; cbn [bind] in H; [|discriminate].
  destruct (prep_transform (s_prep s) sub) as [sub'|] eqn:PT; cbn [bind] in H; [|discriminate]. apply KC in PT. apply columns_inv in CS. destruct CS as [CN CF].
  set (t1 := set_columns sub' t) in *.
  assert (N' : map fst sub' = map fst sub) by (clear - PT; induction PT as [|a b l m [A _] F2 IH]; cbn; congruence).
  assert (T1 : f_index t1 = f_index t /\ (forall k, ~ In k (role_columns (s_roles s)) -> column t1 k = column t k) /\ (well_formed t -> well_formed t1)).
  { split; [apply set_columns_index|]. split; [intros k N; apply set_columns_other; rewrite N', CN; exact N|]. intros W. apply set_columns_wf; [exact W|]. intros c l X. clear - PT X W CF. induction PT as [|a b l1 m [A B] F2 IH]; [destruct X|]. inversion CF; subst. destruct X as [->|X]; [|auto]. cbn in *. rewrite B. eapply W; eauto. }
  destruct (match s_yenc s with Some cls => encode_cols [(s_outcome s, cls)] t1 | None => Ok t1 end) as [t2|] eqn:E2; cbn [bind] in H; [|discriminate].
  assert (T2 : f_index t2 = f_index t1 /\ (forall k, k <> s_outcome s -> column t2 k = column t1 k) /\ (well_formed t1 -> well_formed t2)).
  { destruct (s_yenc s) as [cls|]; [|injection E2 as <-; auto]. apply encode_cols_spec in E2. destruct E2 as (A & B & D). split; [exact A|]. split; [|exact D]. intros k N. apply B. cbn. intuition. }
  assert (T3 : f_index d = f_index t2 /\ (forall k, (et = true -> forall es, s_xenc s = Some es -> ~ In k (map fst es)) -> column d k = column t2 k) /\ (well_formed t2 -> well_formed d)).
  { destruct et; [destruct (s_xenc s) as [es|]|]; try (injection H as <-; auto). apply encode_cols_spec in H. destruct H as (A & B & D). split; [exact A|]. split; [|exact D]. intros k N. apply B. now apply N. }
  destruct T1 as (A1 & B1 & D1), T2 as (A2 & B2 & D2), T3 as (A3 & B3 & D3). split; [congruence|]. split; [intros k N1 N2 N3; rewrite B3, B2, B1; auto|auto].
Qed.
Lemma positions_at (l : list I) ri p k : NoDup l -> nth_error l p = Some ri -> map fst (filter (fun e => eqb (snd e) ri) (combine (seq k (length l)) l)) = [k + p].
Proof.
  revert p k. induction l as [|a l IH]; intros p k ND N; [destruct p; discriminate|]. inversion ND as [|? ? NI ND']; subst. cbn [length seq combine filter snd]. destruct p as [|p]; cbn in N.
  - injection N as ->. rewrite eqb_refl. cbn [map fst].
    replace (filter _ _) with (@nil (nat * I)); [cbn; f_equal; lia|]. symmetry. clear - NI. revert k. induction l as [|b l IH]; intros k; [reflexivity|]. cbn [length seq combine filter snd]. rewrite (proj2 (eqb_neq b ri)) by (intros ->; apply NI; now left). apply IH. intros X. apply NI. now right.
  - rewrite (proj2 (eqb_neq a ri)) by (intros ->; apply NI; eapply nth_error_In; eauto). rewrite (IH p (S k)) by auto. f_equal. lia.
Qed.
Lemma loc_unique ri (f : frame) p : NoDup (f_index f) -> nth_error (f_index f) p = Some ri -> loc ri f = Ok [p].
Proof. intros ND N. unfold loc, positions. rewrite (@positions_at (f_index f) ri p 0 ND N). cbn. rewrite Nat.eqb_refl. reflexivity. Qed.
Lemma take_rows_column ps (f : frame) c l : column f c = Ok l -> column (take_rows ps f) c = Ok (pick ps l).
Proof.
  unfold column, take_rows. cbn [f_cols]. unfold FactoryModel.lookup. intros H. induction (f_cols f) as [|[a x] d IH]; [discriminate|]. cbn [map find fst snd] in *. destruct (String.eqb c a); [cbn in *; congruence|]. now apply IH.
Qed.
Lemma take_rows_column_inv ps (f : frame) c q : column (take_rows ps f) c = Ok q -> exists l, column f c = Ok l /\ q = pick ps l.
Proof.
  unfold column, take_rows. cbn [f_cols]. unfold FactoryModel.lookup. intros H. induction (f_cols f) as [|[a x] d IH]; [discriminate|]. cbn [map find fst snd] in *. destruct (String.eqb c a); [cbn in *; exists x; split; congruence|]. now apply IH.
Qed.
Lemma pick_one {A} p (l : list A) q r : pick [p] l = q :: r -> nth_error l p = Some q /\ r = [].
Proof. unfold pick. cbn. destruct (nth_error l p); cbn; [|discriminate]. intros H. injection H as <- <-. auto. Qed.
(** the answer of individual_causal_effect on data with unique row labels: for each row in order and each treatment in order one line with the value the row
    has, the control value asked for (the first class by default) and the effect: zero if these are equal, otherwise the answer of the estimator of the
    treatment for this row alone *)
Definition controls_of (s : fit_state P F) (control : option (list Z)) (cs : list Z) : Prop :=
  match control with Some l => cs = l /\ length l = length (s_treatment s) | None => Forall2 (fun x c => exists r, enc_of s x = c :: r) (s_treatment s) cs end.
Theorem C224_rows o s t control target rows : keeps_columns -> well_formed t -> NoDup (f_index t) -> disjoint_roles (s_outcome s) (s_treatment s) (s_roles s) ->
  individual_discrete o s t control target = Ok rows -> exists d cs tg groups,
  preprocess s t false = Ok d /\ controls_of s control cs /\ (target = None -> tg = None) /\ rows = List.concat groups /\ length groups = length (f_index t) /\
  forall p ri, nth_error (f_index t) p = Some ri -> exists g, nth_error groups p = Some g /\
    Forall2 (fun xc e => exists l v eff, column t (fst xc) = Ok l /\ nth_error l p = Some v /\ e = (ri, fst xc, v, snd xc, eff) /\
                          individual_answer o s tg (take_rows [p] d) (fst xc) v (snd xc) eff) (combine (s_treatment s) cs) g.
Proof.
  intros KC WF ND (NT & YT & YR & TR) H. unfold WhyModel.individual_discrete in H. destruct (forallb (has t) (s_treatment s)); cbn [bind] in H; [|discriminate].
  destruct (preprocess s t false) as [d|] eqn:PR; cbn [bind] in H; [|discriminate].
  match type of H with (do q0 <- ?q; _) = _ => destruct q as [[]|] eqn:CL; cbn [bind] in H; [|discriminate] end.
  match type of H with (do q0 <- ?q; _) = _ => destruct q as [cs|] eqn:CS; cbn [bind] in H; [|discriminate] end.
  match type of H with (do q0 <- ?q; _) = _ => destruct q as [tg|] eqn:TG; cbn [bind] in H; [|discriminate] end.
  match type of H with (do q0 <- ?q; _) = _ => destruct q as [groups|] eqn:GS; cbn [bind] in H; [|discriminate] end.
  assert (RW : rows = List.concat groups) by (destruct (List.concat groups); [discriminate|congruence]). clear H.
  assert (CO : controls_of s control cs).
  { unfold controls_of. destruct control as [l|].
    - injection CS as <-. split; [reflexivity|]. destruct (Nat.eqb_spec (length l) (length (s_treatment s))); [auto|discriminate].
    - apply MetaProofs.mapX_inv in CS. clear - CS. induction CS as [|x c l m E F2 IH]; constructor; auto. unfold first_value in E. destruct (enc_of s x); [discriminate|]. injection E as ->. eauto. }
  assert (LC : length cs = length (s_treatment s)). { unfold controls_of in CO. destruct control; [destruct CO; congruence|]. apply MetaProofs.F2_length in CO. congruence. }
  pose proof (@preprocess_spec s t false d KC PR) as (PI & PC & PW). specialize (PW WF).
  exists d, cs, tg, groups. split; [reflexivity|]. split; [exact CO|]. split; [intros ->; injection TG as <-; reflexivity|]. split; [exact RW|].
  apply MetaProofs.mapX_inv in GS. split; [apply MetaProofs.F2_length in GS; congruence|].
  intros p ri N. rewrite <- PI in N, ND.
  assert (G : exists g, nth_error groups p = Some g /\ (do ps <- loc ri d; individual_row o s tg ri (take_rows ps d) (combine (s_treatment s) cs)) = Ok g).
  { clear - GS N. revert p N. induction GS as [|r0 g0 l m E F2 IH]; intros p N; [destruct p; discriminate|]. destruct p; cbn in *; [injection N as ->; eauto|auto]. }
  destruct G as (g & GN & GE). exists g. split; [exact GN|]. rewrite (@loc_unique ri d p ND N) in GE. cbn [bind] in GE.
  assert (MF : map fst (combine (s_treatment s) cs) = s_treatment s) by (clear - LC; revert LC; generalize (s_treatment s); induction cs as [|c cs IH]; intros [|x l] L; cbn in *; try discriminate; [reflexivity|f_equal; auto]).
  eapply (@individual_row_spec o s tg ri (take_rows [p] d)) in GE; [|rewrite MF; exact NT|rewrite MF; apply incl_refl|reflexivity|auto|auto].
  assert (IC : Forall (fun xc => In (fst xc) (s_treatment s)) (combine (s_treatment s) cs)) by (apply Forall_forall; intros xc X; rewrite <- MF; now apply in_map).
  clear - GE IC PC TR YT. induction GE as [|xc e l m (v & r & eff & E1 & E2 & E3) F2 IH]; [constructor|]. inversion IC as [|? ? X1 X2]; subst. constructor; [|auto].
  apply take_rows_column_inv in E1. destruct E1 as (col & E1 & Q). symmetry in Q. apply pick_one in Q. destruct Q as [Q _]. exists col, v, eff. rewrite PC in E1; [auto|now apply TR|congruence|discriminate].
Qed.
(** an estimator that answers each row from the columns of the roles of that row alone *)
Definition row_wise (vars : list string) (m : F) : Prop := forall d d1 p es t c tg,
  length (f_index d1) = 1 -> p < length (f_index d) -> (forall x, In x vars -> exists l v, column d x = Ok l /\ nth_error l p = Some v /\ column d1 x = Ok [v]) ->
  estimate m (Some d) t c tg = Ok es -> exists q, nth_error es p = Some q /\ estimate m (Some d1) t c tg = Ok [q].
Lemma call_row_wise vars e m d d1 p es t c : row_wise vars m -> length (f_index d1) = 1 -> p < length (f_index d) ->
  (forall x, In x vars -> exists l v, column d x = Ok l /\ nth_error l p = Some v /\ column d1 x = Ok [v]) ->
  call_estimate estimate (e, m) (Some d) t c None = Ok es -> exists q, nth_error es p = Some q /\ call_estimate estimate (e, m) (Some d1) t c None = Ok [q].
Proof.
  intros RW L1 L2 AG H. unfold call_estimate in *. cbn [fst snd] in *. destruct (fst e); try (eapply RW; eauto; fail). destruct (estimate m (Some d) t c None); discriminate.
Qed.
(** what a fit makes sure of: encoders for the treatments only, with distinct classes *)
Definition encoders_fit (s : fit_state P F) : Prop := (forall es, s_xenc s = Some es -> incl (map fst es) (s_treatment s)) /\ forall x, NoDup (enc_of s x).
(** for a continuous outcome and estimators that work row by row the individual effect is the entry of the row in causal_effect(quantity='ITE') for the same contrast *)
Theorem C224_ite_partial cf o s t control rows p ri x v c eff cols :
  keeps_columns -> well_formed t -> NoDup (f_index t) -> disjoint_roles (s_outcome s) (s_treatment s) (s_roles s) -> encoders_fit s ->
  (forall k e m, In (k, (e, m)) (s_ests s) -> row_wise (role_columns (s_roles s)) m) -> w_dy o <> Some true -> c_cost cf = None ->
  individual_discrete o s t control None = Ok rows -> In (ri, x, v, c, eff) rows -> nth_error (f_index t) p = Some ri -> v <> c ->
  effect_discrete cf o s (Some t) (NmList [x]) (Some [v]) (Some [c]) None false false = Ok (ITE cols) ->
  exists col, cols = [(([x], [v], [c]), col)] /\ nth_error col p = Some eff.
Proof.
  intros KC WF ND DR (EF1 & EF2) RW WD NC HI HR HP NV HE.
  destruct (@C224_rows o s t control None rows KC WF ND DR HI) as (d & cs & tg & groups & PR & _ & _ & -> & LG & GR).
  (* the line is in the group of its row *)
  assert (HX : exists em tn cn row rest, get_est s [x] = Ok em /\ nth_error (enc_of s x) tn = Some v /\ nth_error (enc_of s x) cn = Some c /\ In x (s_treatment s) /\
     f_index row = f_index (take_rows [p] d) /\ (forall k, ~ In k (s_treatment s) -> column row k = column (take_rows [p] d) k) /\
     call_estimate estimate em (Some row) (TCode tn) (TCode cn) None = Ok (eff :: rest)).
  { apply in_concat in HR. destruct HR as (g & G1 & G2). apply In_nth_error in G1. destruct G1 as (p' & G1).
    destruct (nth_error (f_index t) p') as [ri'|] eqn:N'; [|apply nth_error_None in N'; rewrite <- LG in N'; apply nth_error_None in N'; congruence].
    destruct (GR p' ri' N') as (g' & G3 & G4). rewrite G1 in G3. injection G3 as <-.
    assert (Q : exists xc l v' eff', In xc (combine (s_treatment s) cs) /\ column t (fst xc) = Ok l /\ nth_error l p' = Some v' /\ (ri, x, v, c, eff) = (ri', fst xc, v', snd xc, eff') /\ individual_answer o s tg (take_rows [p'] d) (fst xc) v' (snd xc) eff').
    { clear - G4 G2. induction G4 as [|xc e l m (l0 & v0 & eff0 & E1 & E2 & E3 & E4) F2 IH]; [destruct G2|]. destruct G2 as [->|G2]; [exists xc, l0, v0, eff0; split; [now left|auto]|]. destruct (IH G2) as (xc' & l' & v' & eff' & A & B). exists xc', l', v', eff'. split; [now right|exact B]. }
    destruct Q as ([x' c'] & l & v' & eff' & QI & Q1 & Q2 & Q3 & [_ Q4]). cbn [fst snd] in *. injection Q3 as <- <- <- <- <-.
    assert (p' = p) by (eapply (proj1 (NoDup_nth_error _) ND); [apply nth_error_Some; congruence|congruence]). subst p'.
    destruct (Q4 NV) as (em & tn & cn & row & rest & A1 & A2 & A3 & A4 & A5 & A6). exists em, tn, cn, row, rest. apply in_combine_l in QI.
    replace (truthy_opt (w_dy o)) with false in A6 by (unfold truthy_opt; destruct (w_dy o) as [[]|]; congruence). auto 10. }
  destruct HX as (em & tn & cn & row & rest & GE & TN & CN & XT & RI & RC & CE).
  unfold WhyModel.effect_discrete in HE. destruct (map_effect cf o s (Some t) (NmList [x]) (Some [v]) (Some [c]) None false) as [l|] eqn:ME; cbn [bind] in HE; [|discriminate].
  (* the other answer has one contrast *)
  pose proof (@map_effect_inv cf o s (Some t) (NmList [x]) (Some [v]) (Some [c]) None false l ME) as (d2 & tg2 & PR2 & TC2 & FO).
  assert (LL : exists k, l = [k] /\ k_x k = [x] /\ k_t k = [v] /\ k_c k = [c]).
  { clear - ME TN CN EF2. unfold WhyModel.map_effect in ME. destruct (preprocess_opt s (Some t) true); cbn [bind andb length Nat.eqb] in ME; [|discriminate]. destruct (known s [x]) as [[]|]; cbn [bind] in ME; [|discriminate].
    match type of ME with (do q0 <- ?q; _) = _ => destruct q as [tg'|]; cbn [bind] in ME; [|discriminate] end.
    assert (IX : forall w n, nth_error (enc_of s x) n = Some w -> Base.index_of w (enc_of s x) = Some n) by (intros w n N; apply (@ApiProps.index_of_nth Z _ (enc_of s x) w n (EF2 x)); exact N).
    unfold permute_sequential in ME. cbn [length Nat.eqb bind option_map sequential_loop mapR] in ME. unfold sequential_one, encode in ME.
    destruct (negb (Base.mem c (enc_of s x))); cbn [bind] in ME; [discriminate|]. cbn [mapR] in ME. rewrite (IX v tn TN), (IX c cn CN) in ME. cbn [bind app map mapX] in ME.
    destruct (get_est s [x]) as [em|]; cbn [bind] in ME; [|discriminate]. destruct (call_estimate _ _ _ _ _ _) as [e0|]; cbn [bind] in ME; [|discriminate].
    match type of ME with (do q0 <- ?q; _) = _ => destruct q as [e1|] eqn:E1; cbn [bind] in ME; [|discriminate] end. injection ME as <-. exists e1. split; [reflexivity|].
    match type of E1 with (do q0 <- ?q; _) = _ => destruct q as [e2|]; cbn [bind] in E1; [|discriminate] end.
    unfold decode_all, decode in E1. cbn [combine mapX fst snd] in E1. rewrite TN, CN in E1. cbn [bind] in E1. injection E1 as <-. repeat split. }
  destruct LL as (k & -> & KX & KT & KCo). inversion FO as [|? ? (key & e & m & tn2 & cn2 & ta & ca & eff2 & _ & K2 & K3 & (K4 & L4) & (K5 & L5) & K6 & K7 & K8 & K9) _]; subst.
  rewrite KX, KT, KCo in *. rewrite GE in K3. injection K3 as ->.
  destruct tn2 as [|n1 [|]]; try discriminate. destruct cn2 as [|n2 [|]]; try discriminate. cbn [combine] in K4, K5. inversion K4 as [|? ? ? ? K4' _]; subst. inversion K5 as [|? ? ? ? K5' _]; subst. cbn [fst snd] in *. inversion K6; subst. inversion K7; subst.
  assert (n1 = tn) by (eapply (proj1 (NoDup_nth_error _) (EF2 x)); [apply nth_error_Some; congruence|congruence]). assert (n2 = cn) by (eapply (proj1 (NoDup_nth_error _) (EF2 x)); [apply nth_error_Some; congruence|congruence]). subst n1 n2.
  inversion TC2; subst; [|contradiction]. unfold costed in K9. rewrite NC in K9. subst eff2.
  (* the frames agree *)
  cbn [WhyModel.preprocess_opt] in PR2. destruct (preprocess s t true) as [d2'|] eqn:PR3; cbn [bind] in PR2; [|discriminate]. injection PR2 as <-.
  pose proof (@preprocess_spec s t false d KC PR) as (PI & _ & PW). pose proof (@preprocess_spec s t true d2' KC PR3) as (PI2 & _ & _).
  assert (D2 : forall q, ~ In q (s_treatment s) -> column d2' q = column d q).
  { intros q NQ. unfold WhyModel.preprocess in PR, PR3. destruct (columns t _); cbn [bind] in *; [|discriminate]. destruct (prep_transform _ _); cbn [bind] in *; [|discriminate].
    destruct (match s_yenc s with Some _ => _ | None => _ end) as [t2|]; cbn [bind] in *; [|discriminate]. injection PR as ->. destruct (s_xenc s) as [es|] eqn:XE; [|congruence]. apply encode_cols_spec in PR3. apply PR3. intros X. apply NQ. eapply EF1; eauto. }
  destruct DR as (NT & YT & YR & TR).
  destruct (@call_row_wise (role_columns (s_roles s)) e m d2' row p (k_eff k) (TCode tn) (TCode cn)) as (q & Q1 & Q2).
  - eapply RW; eauto.
  - rewrite RI. unfold take_rows, pick. cbn [f_index flat_map]. rewrite PI, HP. reflexivity.
  - rewrite PI2. apply nth_error_Some. congruence.
  - intros y Y. assert (NY : ~ In y (s_treatment s)) by (intros X; now apply (TR y)).
    assert (HY : exists l, column d y = Ok l).
    { rewrite <- D2 by exact NY. apply has_column. unfold WhyModel.preprocess in PR3. destruct (columns t _) as [sub|] eqn:CS; cbn [bind] in *; [|discriminate]. destruct (prep_transform _ _) as [sub'|] eqn:PT; cbn [bind] in *; [|discriminate].
      assert (H1 : has (set_columns sub' t) y = true).
      { pose proof (columns_has _ _ CS) as HA. rewrite <- (HA _ Y). apply has_names, set_columns_names. intros z Z. apply HA. apply KC in PT. apply columns_inv in CS. destruct CS as [CNm _].
        assert (N' : map fst sub' = map fst sub) by (clear - PT; induction PT as [|a b l1 m1 [A _] F2 IH]; cbn; congruence). rewrite N', CNm in Z. exact Z. }
      destruct (match s_yenc s with Some _ => _ | None => _ end) as [t2|] eqn:T2; cbn [bind] in PR3; [|discriminate].
      assert (H2 : has t2 y = true) by (destruct (s_yenc s); [eapply encode_cols_has; eauto|congruence]).
      destruct (s_xenc s); [eapply encode_cols_has; eauto|congruence]. }
    destruct HY as (l0 & HY). assert (LY : length l0 = length (f_index t)) by (rewrite <- PI; exact (PW WF _ _ HY)).
    destruct (nth_error l0 p) as [w|] eqn:NW; [|apply nth_error_None in NW; assert (p < length (f_index t)) by (apply nth_error_Some; congruence); lia].
    exists l0, w. rewrite D2 by exact NY. split; [exact HY|]. split; [exact NW|]. rewrite RC by exact NY. rewrite (@take_rows_column [p] d y l0 HY). unfold pick. cbn. rewrite NW. reflexivity.
  - exact K8.
  - rewrite Q2 in CE. injection CE as <- _. unfold answer_of in HE. cbn [map] in HE. injection HE as <-. rewrite KX, KT, KCo. eauto.
Qed.
(** "target_outcome: outcome value" - the value is taken for the place of a class: any value that is not a place is refused *)
Theorem C224_target_refuted o s t control v cls rows : s_yenc s = Some cls -> (v < 0 \/ Z.of_nat (length cls) <= v)%Z -> individual_discrete o s t control (Some v) <> Ok rows.
Proof.
  intros E V H. unfold WhyModel.individual_discrete in H. do 4 match type of H with (do q0 <- ?q; _) = _ => first [destruct q as [[]|]; cbn [bind] in H; [|discriminate] | destruct q; cbn [bind] in H; [|discriminate]] end.
  rewrite E in H. destruct (Z.leb_spec 0 v); [|discriminate]. destruct (nth_error cls (Z.to_nat v)) eqn:N; [|discriminate]. assert (Z.to_nat v < length cls) by (apply nth_error_Some; congruence). lia.
Qed.

Lemma combine_seq_nth {A} (l : list A) i a : nth_error l i = Some a -> nth_error (combine l (seq 0 (length l))) i = Some (a, i).
Proof.
  change i with (0 + i) at 3. generalize 0 as k. revert i. induction l as [|b l IH]; intros i k N; [destruct i; discriminate|]. cbn [length seq combine]. destruct i as [|i]; cbn in *; [rewrite Nat.add_0_r; congruence|]. rewrite (IH i (S k) N). f_equal. f_equal. lia.
Qed.
Lemma nth_error_same {A} (l m : list A) : (forall i, nth_error l i = nth_error m i) -> l = m.
Proof. revert m. induction l as [|a l IH]; intros [|b m] H; auto; [discriminate (H 0)|discriminate (H 0)|]. pose proof (H 0) as E. injection E as ->. f_equal. apply IH. intros i. exact (H (S i)). Qed.
(** *** C225: score with R-loss *)
Notation score := (@score I P F ID prep_transform rloss lightgbm xgboost darwin obj_proba).
(** treat or control of one treatment, as handed to the scorer *)
Variant score_arg (o : why_obj) (s : fit_state P F) (x : string) (i : nat) : option (list Z) -> tval -> Prop :=
| SA_none : score_arg o s x i None TNo
| SA_code l v n : w_dx o = Some true -> nth_error l i = Some v -> nth_error (enc_of s x) n = Some v -> score_arg o s x i (Some l) (TCode n)
| SA_num l v : w_dx o <> Some true -> nth_error l i = Some v -> score_arg o s x i (Some l) (TNum (inject_Z v)).
(** a score is the mean over the treatments of the R-loss of the treatment's estimator, on the test data prepared like the training data; there must be a covariate and no instrument *)
Theorem C225_score cf o s t treat control target q : score cf o s t treat control target = Ok q -> exists d ls,
  preprocess s t true = Ok d /\ length ls = length (s_treatment s) /\ (s_treatment s <> [] -> snd (s_roles s) = None /\ snd (fst (s_roles s)) <> None /\ (q * inject_Z (Z.of_nat (length ls)) == sum ls)%Q) /\
  forall i x, nth_error (s_treatment s) i = Some x -> exists e em tv cv l,
    create_estimator lightgbm xgboost darwin obj_proba "rloss" [] (length (f_index t)) (truthy_opt (w_dy o)) (truthy_opt (w_dx o)) true None (c_seed cf) = Ok e /\
    get_est s [x] = Ok em /\ score_arg o s x i treat tv /\ score_arg o s x i control cv /\ nth_error ls i = Some l /\ rloss e d (s_outcome s) x (s_roles s) (snd em) tv cv = Ok l.
Proof.
  unfold WhyModel.score, score_rloss. intros H.
  match type of H with (do q0 <- ?q; _) = _ => destruct q as [sc|] eqn:SC; cbn [bind] in H; [|discriminate] end.
  destruct (preprocess s t true) as [d|] eqn:PR; cbn [bind] in H; [|discriminate].
  match type of H with (do q0 <- ?q; _) = _ => destruct q as [[]|] eqn:TL; cbn [bind] in H; [|discriminate] end.
  match type of H with (do q0 <- ?q; _) = _ => destruct q as [[]|] eqn:CL; cbn [bind] in H; [|discriminate] end.
  match type of H with (do q0 <- ?q; _) = _ => destruct q as [ls|] eqn:LS; cbn [bind] in H; [|discriminate] end. injection H as <-.
  apply MetaProofs.mapX_inv in SC, LS.
  assert (L1 : length sc = length (s_treatment s)) by (apply MetaProofs.F2_length in SC; congruence).
  assert (L2 : length ls = length (s_treatment s)) by (apply MetaProofs.F2_length in LS; rewrite <- LS, combine_length, seq_length; lia).
  (* one treatment *)
  assert (AT : forall i x, nth_error (s_treatment s) i = Some x -> exists e l, nth_error ls i = Some l /\
     create_estimator lightgbm xgboost darwin obj_proba "rloss" [] (length (f_index t)) (truthy_opt (w_dy o)) (truthy_opt (w_dx o)) (match snd (fst (s_roles s)) with Some _ => true | None => false end) (snd (s_roles s)) (c_seed cf) = Ok e /\
     (fun xi => let '((x, e), i) := (xi : (string * (eclass * kwargs)) * nat) in
      let val := fun (v : option (list Z)) => match v with
                                              | None => Ok TNo
                                              | Some l => let z := nth i l 0%Z in
                                                          if truthy_opt (w_dx o) then match Base.index_of z (enc_of s x) with Some n => Ok (TCode n) | None => Err ValueError end else Ok (TNum (inject_Z z))
                                              end in
      do tv <- val treat; do cv <- val control;
      do _ <- (match snd (s_roles s) with Some _ => Err TypeError | None => Ok tt end);
      do _ <- (match snd (fst (s_roles s)) with None => Err AssertionError | Some _ => Ok tt end);
      do est <- get_est s [x];
      rloss e d (s_outcome s) x (s_roles s) (snd est) tv cv) ((x, e), i) = Ok l).
  { intros i x N. assert (LI : i < length (s_treatment s)) by (apply nth_error_Some; congruence).
    destruct (nth_error sc i) as [[x' e]|] eqn:NS; [|apply nth_error_None in NS; lia]. destruct (nth_error ls i) as [l|] eqn:NL; [|apply nth_error_None in NL; lia].
    assert (E1 := SC). assert (E2 := LS).
    assert (G1 : forall A B (Rel : A -> B -> Prop) l m k a b, Forall2 Rel l m -> nth_error l k = Some a -> nth_error m k = Some b -> Rel a b).
    { clear. intros A B Rel l m k a b F2. revert k. induction F2; intros k N1 N2; destruct k; cbn in *; try discriminate; [congruence|eauto]. }
    pose proof (G1 _ _ _ _ _ _ _ _ E1 N NS) as Q1. cbn beta in Q1.
    match type of Q1 with (do q0 <- ?q; _) = _ => destruct q as [e'|] eqn:CE; cbn [bind] in Q1; [|discriminate] end. injection Q1 as -> ->.
    assert (NC : nth_error (combine sc (seq 0 (length sc))) i = Some (x', e, i)).
    { now apply combine_seq_nth. }
    pose proof (G1 _ _ _ _ _ _ _ _ E2 NC NL) as Q2. exists e, l. auto. }
  exists d, ls. split; [reflexivity|]. split; [exact L2|]. split.
  - intros NE. destruct (s_treatment s) as [|x xs] eqn:TS; [contradiction|]. destruct (AT 0 x eq_refl) as (e & l & _ & _ & Q). cbn beta iota zeta in Q.
    do 2 match type of Q with (do q0 <- ?q; _) = _ => destruct q; cbn [bind] in Q; [|discriminate] end. destruct (snd (s_roles s)); [discriminate|]. cbn [bind] in Q. destruct (snd (fst (s_roles s))); [|discriminate].
    split; [reflexivity|]. split; [discriminate|]. unfold mean, Qdiv. rewrite <- Qmult_assoc, (Qmult_comm (/ _)), Qmult_inv_r; [rewrite Qmult_1_r; reflexivity|]. rewrite L2. cbn [length]. rewrite Nat2Z.inj_succ. unfold inject_Z, Qeq. cbn. lia.
  - intros i x N. destruct (AT i x N) as (e & l & N1 & CE & Q). cbn beta iota zeta in Q.
    assert (LI : i < length (s_treatment s)) by (apply nth_error_Some; congruence).
    match type of Q with (do q0 <- ?q; _) = _ => destruct q as [tv|] eqn:TV; cbn [bind] in Q; [|discriminate] end. match type of Q with (do q0 <- ?q; _) = _ => destruct q as [cv|] eqn:CV; cbn [bind] in Q; [|discriminate] end.
    destruct (snd (s_roles s)); [discriminate|]. cbn [bind] in Q. destruct (snd (fst (s_roles s))); [|discriminate]. cbn [bind] in Q. destruct (get_est s [x]) as [em|]; cbn [bind] in Q; [|discriminate].
    assert (AR : forall (v : option (list Z)) tv, (match v with Some l => if Nat.eqb (length l) (length (s_treatment s)) then Ok tt else Err AssertionError | None => Ok tt end) = Ok tt ->
       match v with None => Ok TNo | Some l => let z := nth i l 0%Z in if truthy_opt (w_dx o) then match Base.index_of z (enc_of s x) with Some n => Ok (TCode n) | None => Err ValueError end else Ok (TNum (inject_Z z)) end = Ok tv -> score_arg o s x i v tv).
    { clear - LI. intros [w|] tv A B; [|injection B as <-; constructor]. destruct (Nat.eqb_spec (length w) (length (s_treatment s))) as [LW|]; [|discriminate].
      assert (NW : nth_error w i = Some (nth i w 0%Z)) by (apply nth_error_nth'; lia). cbn zeta in B. destruct (w_dx o) as [[]|] eqn:WD; cbn [truthy_opt] in B.
      - destruct (Base.index_of _ _) as [n|] eqn:IX; [|discriminate]. injection B as <-. econstructor; eauto. now apply index_of_Some.
      - injection B as <-. econstructor; eauto; congruence.
      - injection B as <-. econstructor; eauto; congruence. }
    exists e, em, tv, cv, l. auto 10.
Qed.
(** "score accepts every fitted object": not if an instrument was given or found, and not without covariates *)
Theorem C225_instrument_refuted cf o s t treat control target q : s_treatment s <> [] -> snd (s_roles s) <> None \/ snd (fst (s_roles s)) = None -> score cf o s t treat control target <> Ok q.
Proof. intros NE B H. destruct (C225_score _ _ _ _ _ _ _ H) as (d & ls & _ & _ & A & _). destruct (A NE) as (A1 & A2 & _). tauto. Qed.
(** "target_outcome: only effective when the outcome is discrete": it has no effect at all *)
Theorem C225_target_refuted cf o s t treat control v w : score cf o s t treat control v = score cf o s t treat control w.
Proof. reflexivity. Qed.

(** *** C226: causal_effect with continuous treatments *)
Notation effect_continuous := (@effect_continuous I P F prep_transform estimate).
(** the pair of values an estimator gets: what was given; if one of the two is missing, 0 for the control and 1 for treat, in the form of the other *)
Definition all_equal (q : Q) (a b : tval) : Prop := match a with TArr l => b = TArr (repeat q (length l)) | _ => b = TNum q end.
Definition contrast_values (t c t' c' : tval) : Prop :=
  (t <> TNo -> t' = t) /\ (c <> TNo -> c' = c) /\ (t = TNo -> c = TNo -> t' = TNo /\ c' = TNo) /\ (t <> TNo -> c = TNo -> all_equal 0 t c') /\ (t = TNo -> c <> TNo -> all_equal 1 c t').
Lemma fill_spec t c : contrast_values t c (fst (fill t c)) (snd (fill t c)).
Proof.
  assert (R : forall (q : Q) (l : list Q), map (fun _ => q) l = repeat q (length l)) by (intros q l; induction l; cbn; congruence).
  unfold contrast_values, fill, all_equal. destruct t, c; cbn [fst snd const_like]; rewrite ?R; repeat split; intros; try congruence; try contradiction.
Qed.
Definition given (l : option (list tval)) (i : nat) (v : tval) : Prop := match l with Some l => nth_error l i = Some v | None => v = TNo end.
Definition costed_all (cf : conf) (t : option frame) (eff eff' : list Q) : Prop :=
  match c_cost cf, t with
  | None, _ => eff' = eff
  | Some g, Some t => length (f_index t) = length eff /\ eff' = map (fun p => g (row_of t (fst p)) (snd p)) (combine (seq 0 (length eff)) eff)
  | Some g, None => eff' = map (g []) eff
  end.
Theorem C226_continuous cf s t xs treat control cols : effect_continuous cf s t (NmList xs) treat control false = Ok (ITE cols) -> exists d,
  preprocess_opt s t false = Ok d /\ map fst cols = xs /\
  forall i x, nth_error xs i = Some x -> exists em tg cg tv cv eff col,
    get_est s [x] = Ok em /\ given treat i tg /\ given control i cg /\ contrast_values tg cg tv cv /\
    call_estimate estimate em d tv cv None = Ok eff /\ costed_all cf t eff col /\ nth_error cols i = Some (x, col).
Proof.
  unfold WhyModel.effect_continuous. intros H. destruct (preprocess_opt s t false) as [d|] eqn:PR; cbn [bind] in H; [|discriminate].
  match type of H with (do q0 <- ?q; _) = _ => destruct q as [[]|] eqn:TL; cbn [bind] in H; [|discriminate] end.
  match type of H with (do q0 <- ?q; _) = _ => destruct q as [[]|] eqn:CL; cbn [bind] in H; [|discriminate] end.
  match type of H with (do q0 <- ?q; _) = _ => destruct q as [l|] eqn:LE; cbn [bind] in H; [|discriminate] end.
  assert (l = cols) by (unfold answer_of in H; destruct l; [discriminate|congruence]). subst l. clear H. apply MetaProofs.mapX_inv in LE.
  assert (G1 : forall A B (Rel : A -> B -> Prop) l m k a, Forall2 Rel l m -> nth_error l k = Some a -> exists b, nth_error m k = Some b /\ Rel a b).
  { clear. intros A B Rel l m k a F2. revert k. induction F2; intros k N1; destruct k; cbn in *; try discriminate; [injection N1 as <-; eauto|eauto]. }
  assert (AT : forall i x, nth_error xs i = Some x -> exists b, nth_error cols i = Some b /\ exists em eff col, get_est s [x] = Ok em /\ call_estimate estimate em d (fst (fill (nth_val treat i) (nth_val control i))) (snd (fill (nth_val treat i) (nth_val control i))) None = Ok eff /\ costed_all cf t eff col /\ b = (x, col)).
  { intros i x N. destruct (G1 _ _ _ _ _ i (x, i) LE) as (b & B1 & B2); [now apply combine_seq_nth|]. exists b. split; [exact B1|]. cbn beta iota in B2.
    destruct (get_est s [x]) as [em|]; cbn [bind] in B2; [|discriminate]. destruct (fill (nth_val treat i) (nth_val control i)) as [tv cv]. destruct (call_estimate estimate em d tv cv None) as [eff|] eqn:CE; cbn [bind] in B2; [|discriminate].
    match type of B2 with (do q0 <- ?q; _) = _ => destruct q as [col|] eqn:CO; cbn [bind] in B2; [|discriminate] end. injection B2 as <-. exists em, eff, col. cbn [fst snd]. repeat split; auto.
    unfold costed_all. destruct (c_cost cf) as [g|]; [|congruence]. unfold cost_effect in CO. destruct t as [t|]; [|congruence]. destruct (Nat.eqb_spec (length (f_index t)) (length eff)); [|discriminate]. split; [auto|congruence]. }
  exists d. split; [reflexivity|]. split.
  - assert (L : length cols = length xs) by (apply MetaProofs.F2_length in LE; rewrite <- LE, combine_length, seq_length; lia).
    apply nth_error_same. intros i. rewrite nth_error_map. destruct (nth_error xs i) as [x|] eqn:N.
    + destruct (AT i x N) as (b & -> & em & eff & col & _ & _ & _ & ->). reflexivity.
    + apply nth_error_None in N. assert (Q : nth_error cols i = None) by (apply nth_error_None; lia). now rewrite Q.
  - intros i x N. destruct (AT i x N) as (b & B & em & eff & col & E1 & E2 & E3 & ->). exists em, (nth_val treat i), (nth_val control i), (fst (fill (nth_val treat i) (nth_val control i))), (snd (fill (nth_val treat i) (nth_val control i))), eff, col.
    assert (LI : i < length xs) by (apply nth_error_Some; congruence).
    assert (GV : forall v, (match v with Some l => if Nat.eqb (length l) (length xs) then Ok tt else Err AssertionError | None => Ok tt end) = Ok tt -> given v i (nth_val v i)).
    { intros [v|] W; [|reflexivity]. cbn [given nth_val]. destruct (Nat.eqb_spec (length v) (length xs)); [|discriminate]. apply nth_error_nth'. lia. }
    split; [exact E1|]. split; [now apply GV|]. split; [now apply GV|]. split; [apply fill_spec|]. auto.
Qed.
Theorem C226_summary cf s t a treat control cols : effect_continuous cf s t a treat control false = Ok (ITE cols) -> (forall c, In c cols -> snd c <> []) ->
  exists rows, effect_continuous cf s t a treat control true = Ok (ATE rows) /\ Forall2 (fun c r => fst r = fst c /\ summarizes (snd c) (snd r)) cols rows.
Proof.
  unfold WhyModel.effect_continuous. intros H. repeat match type of H with (do q0 <- ?q; _) = _ => destruct q; cbn [bind] in *; [|discriminate] end. revert H. apply answer_summary.
Qed.
(** "treatment: str or list" - a string is walked through letter by letter: with treatments whose names have two letters or more it never works *)
Theorem C226_string_refuted cf s t n treat control ate v : (forall x, In (One x) (map fst (s_ests s)) -> String.length x <> 1) -> effect_continuous cf s t (NmStr n) treat control ate <> Ok v.
Proof.
  intros NK H. unfold WhyModel.effect_continuous in H. do 3 match type of H with (do q0 <- ?q; _) = _ => destruct q; cbn [bind] in *; [|discriminate] end.
  destruct n as [|c n]; [cbn in H; discriminate|]. unfold chars in H. cbn [list_ascii_of_string map length seq combine mapX] in H. destruct (get_est s [String c ""]) as [em|] eqn:GE; cbn [bind] in H; [|discriminate].
  unfold get_est in GE. cbn [get_estimator] in GE. destruct (existsb _ (map fst (s_ests s))) eqn:EX; cbn [bind] in GE; [|discriminate]. apply existsb_exists in EX. destruct EX as (k & K1 & K2).
  destruct k as [x|]; [|discriminate]. apply (NK x K1). unfold ekey_eqb in K2. apply String.eqb_eq in K2. now subst.
Qed.
End Why.

(** *** Concrete runs: a preprocessor that changes nothing, an estimator that keeps the outcome and the column "v" it was trained on and answers the
    difference of the codes times "v", row by row *)
Definition t_disc (l : list Z) : bool := Nat.leb (length (classes l)) 2.
Definition t_prep_fit (sub : list (string * list Z)) (y : list Z) : res (unit * list (string * list Z)) := Ok (tt, sub).
Definition t_prep (p : unit) (sub : list (string * list Z)) : res (list (string * list Z)) := Ok sub.
Definition t_learn (e : eclass * kwargs) (f : @frame nat) (y : string) (xs : list string) (r : roles string) : res (list Z * list Z) := do a <- column f y; do b <- column f "v"; Ok (a, b).
Definition t_code (t : tval) : Z := match t with TCode n => Z.of_nat n | TCodes l => Z.of_nat (fold_right Nat.add 0 l) | TNum q => Qnum q | _ => 0%Z end.
Definition t_estimate (m : list Z * list Z) (d : option (@frame nat)) (t c : tval) (tg : option Z) : res (list Q) :=
  do vs <- (match d with Some d => column d "v" | None => Ok (snd m) end); Ok (map (fun v => inject_Z ((t_code t - t_code c) * v)) vs).
Definition t_rloss (e : eclass * kwargs) (d : @frame nat) (y x : string) (r : roles string) (m : list Z * list Z) (t c : tval) : res Q := do l <- column d x; Ok (inject_Z (fold_right Z.add 0%Z l)).
Definition t_fit (xs : list string) (r : roles string) := @fit nat unit (list Z * list Z) unit t_disc (fun _ _ _ => Ok xs) (fun _ _ _ => Ok r) (fun _ _ => None) t_prep_fit t_learn false false false (fun _ => true).
Definition t_new dy dx := @new_why unit (list Z * list Z) unit dy dx.
Definition t_conf : conf := mkConf (ByObject DoubleML []) None None.
Definition v_only : roles string := (None, Some ["v"], None).
Definition t_data : @frame nat := mkFr [10; 11; 12] [("y", [5; 9; 7]%Z); ("x", [30; 20; 30]%Z); ("z", [1; 2; 2]%Z); ("v", [1; 2; 3]%Z); ("w", [8; 8; 8]%Z)].
Definition t_obj := fst (fst (t_fit ["x"; "z"] v_only t_conf true "y" (t_new None None) t_data)).
(** C221: the treatments are encoded, the rest stays, four estimators *)
Example C221_run : exists o, t_fit ["x"; "z"] v_only t_conf false "y" (t_new None None) t_data =
    (o, mkFr [10; 11; 12] [("y", [5; 9; 7]%Z); ("x", [1; 0; 1]%Z); ("z", [0; 1; 1]%Z); ("v", [1; 2; 3]%Z); ("w", [8; 8; 8]%Z)], Ok tt) /\
  exists s, w_fit o = Some s /\ map fst (s_ests s) = [One "x"; One "z"; Two "x" "z"; Two "z" "x"] /\ enc_of s "x" = [20; 30]%Z /\ disjoint_roles "y" (s_treatment s) (s_roles s).
Proof.
  eexists. split; [vm_compute; reflexivity|]. eexists. split; [reflexivity|]. split; [reflexivity|]. split; [reflexivity|]. unfold disjoint_roles. cbn. repeat split.
  - repeat constructor; cbn; intuition congruence.
  - intuition congruence.
  - intuition congruence.
  - intros x X. intuition congruence.
Qed.
(** C222: "a second fit is like a fit of a new object" fails when a flag was left open: after a fit on an outcome with two values, or after a mere attempt
    on it that failed, a continuous outcome is taken for a discrete one and replaced by ranks *)
Definition t_first : @frame nat := mkFr [0; 1] [("y", [4; 6]%Z); ("x", [0; 1]%Z); ("v", [1; 2]%Z)].
Definition t_broken : @frame nat := mkFr [0; 1] [("y", [4; 6]%Z); ("x", [0; 1]%Z)].
Definition trained_on {ID} (r : @why_obj unit (list Z * list Z) ID * @frame nat * res unit) : option (list Z) := match r with (o, _, Ok _) => match w_fit o with Some s => match s_ests s with (_, (_, m)) :: _ => Some (fst m) | [] => None end | None => None end | _ => None end.
Theorem C222_refit_refuted :
  trained_on (t_fit ["x"] v_only t_conf true "y" (t_new None None) t_data) = Some [5; 9; 7]%Z /\
  (exists o, t_fit ["x"] v_only t_conf true "y" (t_new None None) t_first = (o, t_first, Ok tt) /\ trained_on (t_fit ["x"] v_only t_conf true "y" o t_data) = Some [0; 2; 1]%Z) /\
  (exists o, t_fit ["x"] v_only t_conf true "y" (t_new None None) t_broken = (o, t_broken, Err KeyError) /\ trained_on (t_fit ["x"] v_only t_conf true "y" o t_data) = Some [0; 2; 1]%Z).
Proof. split; [vm_compute; reflexivity|]. split; eexists; (split; [vm_compute; reflexivity|vm_compute; reflexivity]). Qed.
(** with both flags given the hypothesis of C222_refit_partial and C222_failed_fit is met *)
Example C222_history : exists o, @reachable nat unit (list Z * list Z) unit t_disc (fun _ _ _ => Ok ["x"]) (fun _ _ _ => Ok v_only) (fun _ _ => None) t_prep_fit t_learn false false false (fun _ => true) (Some false) (Some true) o /\
  w_fit o <> None /\ fst (fst (t_fit ["x"] v_only t_conf true "y" o t_broken)) = o /\ snd (t_fit ["x"] v_only t_conf true "y" o t_broken) = Err KeyError /\ snd (t_fit ["x"] v_only t_conf true "y" o t_data) = Ok tt.
Proof.
  eexists. split; [eapply R_fit with (cf := t_conf) (copy := true) (y := "y") (d := t_first); apply R_new|]. split; [vm_compute; discriminate|]. split; [vm_compute; reflexivity|]. split; vm_compute; reflexivity.
Qed.
(** C223 *)
Definition t_state := match w_fit t_obj with Some s => s | None => @mkFit unit (list Z * list Z) [] "" [] (None, None, None) [] None None tt end.
Definition t_effect := @effect_discrete nat unit (list Z * list Z) unit t_prep t_estimate.
Example C223_run : t_effect t_conf t_obj t_state (Some t_data) NmNone None None None false false = Ok (ITE [((["x"], [30]%Z, [20]%Z), [1; 2; 3]%Q); ((["z"], [2]%Z, [1]%Z), [1; 2; 3]%Q)]) /\
  t_effect t_conf t_obj t_state (Some t_data) (NmStr "z,x") (Some [1; 20]%Z) (Some [2; 30]%Z) None true true = Ok (ATE [((["z"; "x"], [1; 20]%Z, [2; 30]%Z), (mean [-2; -4; -6], -6, -2)%Q)]) /\
  (exists l, map_effect t_prep t_estimate t_conf t_obj t_state (Some t_data) NmNone None None None false = Ok l /\ length l = 2).
Proof. split; [vm_compute; reflexivity|]. split; [vm_compute; reflexivity|]. eexists. split; vm_compute; reflexivity. Qed.
(** C224 *)
Definition t_individual := @individual_discrete nat _ unit (list Z * list Z) unit t_prep t_estimate.
Example C224_run : t_individual t_obj t_state t_data None None = Ok
  [(10%nat, "x", 30, 20, 1%Q); (10%nat, "z", 1, 1, 0%Q); (11%nat, "x", 20, 20, 0%Q); (11%nat, "z", 2, 1, 2%Q); (12%nat, "x", 30, 20, 3%Q); (12%nat, "z", 2, 1, 3%Q)]%Z.
Proof. vm_compute. reflexivity. Qed.
Example C224_hypotheses : keeps_columns t_prep /\ well_formed t_data /\ NoDup (f_index t_data) /\ disjoint_roles (s_outcome t_state) (s_treatment t_state) (s_roles t_state) /\ encoders_fit t_state /\
  (forall k e m, In (k, (e, m)) (s_ests t_state) -> row_wise t_estimate (role_columns (s_roles t_state)) m) /\ w_dy t_obj <> Some true.
Proof.
  split; [intros p a b H; injection H as <-; induction a; constructor; auto|]. split.
  { intros c l H. unfold column, FactoryModel.lookup in H. cbn in H. repeat match type of H with context [if ?b then _ else _] => destruct b; [injection H as <-; reflexivity|] end. discriminate. }
  split; [repeat constructor; cbn; intuition congruence|]. split.
  { unfold disjoint_roles. cbn. repeat split; [repeat constructor; cbn; intuition congruence|intuition congruence|intuition congruence|intros x X; intuition congruence]. }
  split.
  { split; [intros es H; vm_compute in H; injection H as <-; cbn; apply incl_refl|]. intros x. unfold enc_of. change (s_xenc t_state) with (Some [("x", [20; 30]%Z); ("z", [1; 2]%Z)]). unfold FactoryModel.lookup. cbn [find fst].
    destruct (String.eqb x "x"); [repeat constructor; cbn; intuition congruence|]. destruct (String.eqb x "z"); repeat constructor; cbn; intuition congruence. }
  split; [|vm_compute; discriminate].
  intros k e m _ d d1 p es t c tg L1 LP AG H. destruct (AG "v") as (l & v & E1 & E2 & E3); [now left|]. unfold t_estimate in *. rewrite E1 in H. rewrite E3. cbn [bind map] in *. injection H as <-.
  eexists. split; [|reflexivity]. now rewrite nth_error_map, E2.
Qed.
(** "one answer for each row": with a repeated label the row with the second gets the values of the first, and labels repeated at a distance are an error *)
Theorem C224_labels_refuted :
  t_individual t_obj t_state (mkFr [10; 10] [("x", [30; 20]%Z); ("z", [1; 1]%Z); ("v", [1; 2]%Z)]) None None = Ok [(10%nat, "x", 30, 20, 1%Q); (10%nat, "z", 1, 1, 0%Q); (10%nat, "x", 30, 20, 1%Q); (10%nat, "z", 1, 1, 0%Q)]%Z /\
  t_individual t_obj t_state (mkFr [10; 11; 10] [("x", [30; 20; 20]%Z); ("z", [1; 1; 1]%Z); ("v", [1; 2; 3]%Z)]) None None = Err KeyError.
Proof. split; vm_compute; reflexivity. Qed.
(** "fn_cost is applied to the effects": to those of causal_effect, not to those of individual_causal_effect *)
Definition t_cost : conf := mkConf (ByObject DoubleML []) (Some (fun _ e => e - 1)%Q) None.
Theorem C224_cost_refuted :
  t_effect t_cost t_obj t_state (Some t_data) (NmList ["x"]) None None None false false = Ok (ITE [((["x"], [30]%Z, [20]%Z), [0; 1; 2]%Q)]) /\
  t_fit ["x"; "z"] v_only t_cost true "y" (t_new None None) t_data = t_fit ["x"; "z"] v_only t_conf true "y" (t_new None None) t_data /\
  exists rows, t_individual t_obj t_state t_data None None = Ok rows /\ In (12%nat, "x", 30, 20, 3%Q)%Z rows.
Proof. split; [vm_compute; reflexivity|]. split; [vm_compute; reflexivity|]. eexists. split; [vm_compute; reflexivity|]. cbn. auto 10. Qed.
(** C224_target: outcome classes 4 and 6; causal_effect takes the value 6, individual_causal_effect refuses it *)
Definition t_obj2 := fst (fst (t_fit ["x"] v_only t_conf true "y" (t_new None None) t_first)).
Definition t_state2 := match w_fit t_obj2 with Some s => s | None => t_state end.
Example C224_target_run : s_yenc t_state2 = Some [4; 6]%Z /\ (exists a, t_effect t_conf t_obj2 t_state2 (Some t_first) NmNone None None (Some 6%Z) false false = Ok a) /\
  t_individual t_obj2 t_state2 t_first None (Some 6%Z) = Err ValueError.
Proof. split; [vm_compute; reflexivity|]. split; [eexists; vm_compute; reflexivity|vm_compute; reflexivity]. Qed.
(** C225 *)
Definition t_score := @score nat unit (list Z * list Z) unit t_prep t_rloss false false false (fun _ => true).
Example C225_run : exists q, t_score t_conf t_obj t_state t_data (Some [30; 2]%Z) None None = Ok q /\ (q == 2)%Q.
Proof. eexists. split; vm_compute; reflexivity. Qed.
(** C226 *)
Definition t_objc := fst (fst (t_fit ["x"] v_only t_conf true "y" (t_new None (Some false)) t_data)).
Definition t_statec := match w_fit t_objc with Some s => s | None => t_state end.
Definition t_cont := @effect_continuous nat unit (list Z * list Z) t_prep t_estimate.
Example C226_run : t_cont t_conf t_statec (Some t_data) (NmList ["x"]) (Some [TNum 2]) None false = Ok (ITE [("x", [2; 4; 6]%Q)]) /\
  t_cont t_conf t_statec (Some t_data) NmNone None (Some [TNum 3]) false = Ok (ITE [("x", [-2; -4; -6]%Q)]).
Proof. split; vm_compute; reflexivity. Qed.
Definition t_objs := fst (fst (t_fit ["xx"] v_only t_conf true "y" (t_new None (Some false)) (mkFr [0; 1; 2] [("y", [5; 9; 7]%Z); ("xx", [1; 2; 3]%Z); ("v", [1; 2; 3]%Z)]))).
Example C226_string_run : exists s, w_fit t_objs = Some s /\ map fst (s_ests s) = [One "xx"] /\ t_cont t_conf s None (NmStr "xx") None None true = Err KeyError /\ (exists a, t_cont t_conf s None (NmList ["xx"]) None None true = Ok a).
Proof. eexists. split; [vm_compute; reflexivity|]. split; [reflexivity|]. split; [vm_compute; reflexivity|]. eexists. vm_compute. reflexivity. Qed.

Print Assumptions C221_copy. Print Assumptions C221_shape. Print Assumptions C221_fit.
Print Assumptions C222_failed_fit. Print Assumptions C222_refit_flags. Print Assumptions C222_refit_partial. Print Assumptions C222_refit_refuted.
Print Assumptions C223_contrasts. Print Assumptions C223_summary. Print Assumptions C223_cost_refuted. Print Assumptions C223_bound_refuted.
Print Assumptions C223_iv_refuted. Print Assumptions C223_grf_refuted. Print Assumptions C223_default_contrasts.
Print Assumptions C224_rows. Print Assumptions C224_ite_partial. Print Assumptions C224_labels_refuted. Print Assumptions C224_cost_refuted. Print Assumptions C224_target_refuted.
Print Assumptions C225_score. Print Assumptions C225_instrument_refuted. Print Assumptions C225_target_refuted.
Print Assumptions C226_continuous. Print Assumptions C226_summary. Print Assumptions C226_string_refuted.
