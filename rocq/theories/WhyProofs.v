(** Lemmas about WhyModel: frames, label encoding, and what a fit does step by step. *)
From Coq Require Import String Ascii ZArith QArith Sorted.
From Verif Require Import Base UtilsModel EstUtilsModel MetaModel TransModel FactoryModel ApiModel WhyModel.
From Verif Require CforestProofs MetaProofs.
Set Implicit Arguments.
Local Notation length := List.length.
Local Open Scope string_scope.
Local Open Scope list_scope.
Local Open Scope nat_scope.

(** *** labels and codes: [classes] are the distinct values in ascending order, a code is a place among them *)
Definition encoded (cls l codes : list Z) : Prop :=
  StronglySorted Z.lt cls /\ (forall v, In v cls <-> In v l) /\ Forall2 (fun v c => exists n, c = Z.of_nat n /\ nth_error cls n = Some v) l codes.
Lemma insert_u_In z l v : In v (insert_u z l) <-> v = z \/ In v l.
Proof.
  induction l as [|x l IH]; cbn [insert_u In]; [intuition|]. destruct (Z.ltb z x); [cbn; intuition|]. destruct (Z.eqb_spec z x) as [->|N]; cbn [In]; [intuition|]. rewrite IH. intuition.
Qed.
Lemma insert_u_sorted z l : StronglySorted Z.lt l -> StronglySorted Z.lt (insert_u z l).
Proof.
  induction l as [|x l IH]; cbn [insert_u]; intros H; [repeat constructor|]. inversion H as [|? ? A B]; subst. destruct (Z.ltb_spec z x).
  - constructor; auto. constructor; auto. eapply Forall_impl; [|exact B]. intros; lia.
  - destruct (Z.eqb_spec z x) as [->|N]; auto. constructor; auto. apply Forall_forall. intros v V. apply insert_u_In in V. destruct V as [->|V]; [lia|]. rewrite Forall_forall in B. auto.
Qed.
Lemma classes_In l v : In v (classes l) <-> In v l.
Proof. unfold classes. induction l as [|x l IH]; cbn [fold_right In]; [tauto|]. rewrite insert_u_In, IH. intuition. Qed.
Lemma classes_sorted l : StronglySorted Z.lt (classes l).
Proof. unfold classes. induction l as [|x l IH]; cbn [fold_right]; [constructor|now apply insert_u_sorted]. Qed.
Lemma transform_ok cls l : incl l cls -> exists c, transform cls l = Ok c.
Proof.
  unfold transform. induction l as [|v l IH]; intros H; [now exists []|]. destruct IH as [c E]; [intros w W; apply H; now right|]. cbn [mapX]. rewrite E.
  destruct (Base.index_of v cls) eqn:X; [cbn [bind]; eauto|]. apply index_of_None in X. exfalso. apply X, H. now left.
Qed.
Lemma transform_places cls l c : transform cls l = Ok c -> Forall2 (fun v c => exists n, c = Z.of_nat n /\ nth_error cls n = Some v) l c.
Proof.
  intros H. unfold transform in H. apply MetaProofs.mapX_inv in H. induction H as [|v k l' c' E F2 IH]; constructor; auto. destruct (Base.index_of v cls) as [i|] eqn:X; [|discriminate]. injection E as <-. apply index_of_Some in X. exists i. tauto.
Qed.
Lemma transform_encoded l c : transform (classes l) l = Ok c -> encoded (classes l) l c.
Proof. intros H. split; [apply classes_sorted|]. split; [apply classes_In|now apply transform_places]. Qed.
Lemma sorted_NoDup l : StronglySorted Z.lt l -> NoDup l.
Proof. induction 1 as [|x l S1 IH F]; constructor; auto. intros X. rewrite Forall_forall in F. apply F in X. lia. Qed.

Section Why.
Context {I : Type} {EI : EqDec I}.
Notation frame := (@frame I).
Lemma lookup_has (d : list (string * list Z)) c : MapModel.mem c (map fst d) = true <-> exists l, FactoryModel.lookup c d = Some l.
Proof.
  unfold FactoryModel.lookup. induction d as [|[a l] d IH]; cbn [map fst MapModel.mem existsb find]; [split; [discriminate|intros [l H]; discriminate]|].
  change (existsb _ (map fst d)) with (MapModel.mem c (map fst d)). destruct (String.eqb c a) eqn:E; cbn [orb fst snd option_map]; [split; eauto|]. exact IH.
Qed.
Lemma has_column (f : frame) c : has f c = true <-> exists l, column f c = Ok l.
Proof. unfold has, column. rewrite lookup_has. destruct (FactoryModel.lookup c (f_cols f)) as [l0|]; split; intros [q H]; eauto; discriminate. Qed.
Lemma set_column_same c l (f : frame) : column (set_column c l f) c = Ok l.
Proof.
  unfold column, set_column. destruct (has f c) eqn:H; cbn [f_cols].
  - unfold has in H. apply lookup_has in H. destruct H as [l0 H]. unfold FactoryModel.lookup in *. induction (f_cols f) as [|[a x] d IH]; [discriminate|]. cbn [map find fst] in *.
    destruct (String.eqb_spec c a) as [->|N]; [rewrite String.eqb_refl; cbn [find fst]; rewrite String.eqb_refl; reflexivity|]. rewrite (proj2 (String.eqb_neq a c)) by congruence. cbn [find fst]. rewrite (proj2 (String.eqb_neq c a)) by auto. auto.
  - assert (N : FactoryModel.lookup c (f_cols f) = None) by (destruct (FactoryModel.lookup c (f_cols f)) eqn:E; [|reflexivity]; unfold has in H; rewrite (proj2 (lookup_has _ _)) in H; [discriminate|eauto]).
    unfold FactoryModel.lookup in *. induction (f_cols f) as [|[a x] d IH]; cbn [app find fst] in *; [rewrite String.eqb_refl; reflexivity|]. destruct (String.eqb c a); [discriminate|]. apply IH; auto.
Qed.
Lemma set_column_other c l (f : frame) k : k <> c -> column (set_column c l f) k = column f k.
Proof.
  intros N. unfold column, set_column. destruct (has f c); cbn [f_cols]; unfold FactoryModel.lookup; induction (f_cols f) as [|[a x] d IH]; cbn [map app find fst]; auto.
  - destruct (String.eqb_spec a c) as [->|N1]; cbn [find fst]; [rewrite (proj2 (String.eqb_neq k c) N); exact IH|]. destruct (String.eqb k a); [reflexivity|exact IH].
  - rewrite (proj2 (String.eqb_neq k c) N). reflexivity.
  - destruct (String.eqb k a); [reflexivity|exact IH].
Qed.
Lemma set_column_index c l (f : frame) : f_index (set_column c l f) = f_index f.
Proof. reflexivity. Qed.
Lemma set_column_names c l (f : frame) : has f c = true -> map fst (f_cols (set_column c l f)) = map fst (f_cols f).
Proof. unfold set_column. intros ->. cbn [f_cols]. rewrite map_map. apply map_ext. intros [a x]. cbn [fst]. destruct (String.eqb_spec a c); cbn; auto. Qed.
Lemma has_names (f g : frame) c : map fst (f_cols f) = map fst (f_cols g) -> has f c = has g c.
Proof. unfold has. now intros ->. Qed.
Lemma set_columns_other cs (f : frame) k : ~ In k (map fst cs) -> column (set_columns cs f) k = column f k.
Proof. revert f. unfold set_columns. induction cs as [|[c l] cs IH]; intros f N; cbn [fold_left fst snd map In] in *; [reflexivity|]. rewrite IH by tauto. apply set_column_other. intros ->. tauto. Qed.
Lemma set_columns_index cs (f : frame) : f_index (set_columns cs f) = f_index f.
Proof. revert f. unfold set_columns. induction cs as [|[c l] cs IH]; intros f; cbn [fold_left]; [reflexivity|]. rewrite IH. reflexivity. Qed.
Lemma set_columns_names cs (f : frame) : (forall c, In c (map fst cs) -> has f c = true) -> map fst (f_cols (set_columns cs f)) = map fst (f_cols f).
Proof.
  revert f. unfold set_columns. induction cs as [|[c l] cs IH]; intros f H; cbn [fold_left fst snd]; [reflexivity|]. rewrite IH; [apply set_column_names, H; now left|].
  intros k K. rewrite (has_names (set_column c l f) f); [apply H; now right|]. apply set_column_names, H. now left.
Qed.
Lemma columns_has (f : frame) cs l : columns f cs = Ok l -> forall c, In c cs -> has f c = true.
Proof.
  unfold columns. intros H. apply MetaProofs.mapX_inv in H. induction H as [|c x cs l E F IH]; intros k K; [destruct K|]. destruct K as [<-|K]; [|auto]. destruct (column f c) eqn:Q; [|discriminate]. apply has_column. eauto.
Qed.
(** two frames with the same rows and names, which agree but for some columns *)
Definition differ_only (cs : list string) (f g : frame) : Prop :=
  f_index g = f_index f /\ map fst (f_cols g) = map fst (f_cols f) /\ forall c, ~ In c cs -> column g c = column f c.
Lemma differ_refl cs f : differ_only cs f f.
Proof. repeat split. Qed.
Lemma differ_trans cs f g h : differ_only cs f g -> differ_only cs g h -> differ_only cs f h.
Proof. intros (A & B & C) (A' & B' & C'). split; [congruence|]. split; [congruence|]. intros c N. rewrite C', C; auto. Qed.
Lemma differ_weaken cs ds f g : incl cs ds -> differ_only cs f g -> differ_only ds f g.
Proof. intros L (A & B & C). repeat split; auto. Qed.
Lemma differ_set c l f cs : has f c = true -> In c cs -> differ_only cs f (set_column c l f).
Proof. intros H N. split; [reflexivity|]. split; [now apply set_column_names|]. intros k K. apply set_column_other. congruence. Qed.

Variables P F ID : Type.
Variable is_discrete : list Z -> bool.
Variable id_treatment : frame -> string -> option bool -> res (list string).
Variable id_roles : frame -> string -> list string -> res (roles string).
Variable id_object : frame -> string -> option ID.
Variable prep_fit : list (string * list Z) -> list Z -> res (P * list (string * list Z)).
Variable learn : eclass * kwargs -> frame -> string -> list string -> roles string -> res F.
Variables (lightgbm xgboost darwin : bool) (obj_proba : nat -> bool).
Notation why_obj := (@why_obj P F ID).
Notation run := (@run I P F ID).
Notation fit_body := (@fit_body I P F ID is_discrete id_treatment id_roles id_object prep_fit learn lightgbm xgboost darwin obj_proba).
Notation fit_all := (@fit_all I F learn lightgbm xgboost darwin obj_proba).
Notation identify := (@identify I P F ID is_discrete id_treatment id_roles id_object).

(** the treatments are encoded one after the other *)
Inductive encodes : list string -> frame -> frame -> list (string * list Z) -> Prop :=
| En_nil f : encodes [] f f []
| En_cons x xs f g l c es : column f x = Ok l -> transform (classes l) l = Ok c -> encodes xs (set_column x c f) g es -> encodes (x :: xs) f g ((x, classes l) :: es).
Lemma encode_run xs (o : why_obj) f s r : encode_treatments xs (mkRun o f) = (s, r) ->
  r_obj s = o /\ differ_only xs f (r_data s) /\ (forall es, r = Ok es -> encodes xs f (r_data s) es).
Proof.
  revert f s r. induction xs as [|x xs IH]; intros f s r H; cbn [encode_treatments] in H.
  - injection H as <- <-. cbn. split; [auto|]. split; [apply differ_refl|]. intros es E. injection E as <-. constructor.
  - unfold mbind, data, mget, mret, mlift, on_data, mset in H. unfold mbind in H. cbn [r_data r_obj] in H.
    destruct (column f x) as [l|] eqn:C; [|injection H as <- <-; cbn; split; [auto|]; split; [apply differ_refl|discriminate]].
    destruct (transform (classes l) l) as [c|] eqn:T; [|injection H as <- <-; cbn; split; [auto|]; split; [apply differ_refl|discriminate]].
    cbn [r_data r_obj] in H. destruct (encode_treatments xs (mkRun o (set_column x c f))) as [s1 r1] eqn:E. apply IH in E. destruct E as (A & B & D).
    assert (HX : has f x = true) by (apply has_column; eauto).
    assert (DO : differ_only (x :: xs) f (r_data s1)).
    { eapply differ_trans; [apply differ_set; [exact HX|now left]|]. eapply differ_weaken; [|exact B]. intros z Z. now right. }
    destruct r1 as [es|]; injection H as <- <-; (split; [auto|]; split; [exact DO|]); [|discriminate]. intros es' Q. injection Q as <-. econstructor; eauto.
Qed.
(** what a fit does, in the terms of the frame: [f1] with the outcome encoded, [f2] also the treatments, [f3] also the columns of the roles *)
Inductive course (o : why_obj) (cf : conf) (y : string) (f : frame) (dy dx : bool) (f1 f2 f3 : frame) (s : fit_state P F) : Prop :=
| Course yc tcols sub y2 sub' :
  y <> "" -> column f y = Ok yc ->
  dy = match w_dy o with Some b => b | None => is_discrete yc end ->
  (if dy then exists c, transform (classes yc) yc = Ok c /\ f1 = set_column y c f else f1 = f) ->
  s_yenc s = (if dy then Some (classes yc) else None) ->
  id_treatment f1 y (w_dx o) = Ok (s_treatment s) -> columns f1 (s_treatment s) = Ok tcols ->
  match w_dx o with Some b => dx = b | None => match tcols with [] => False | c :: _ => dx = is_discrete (snd c) end end ->
  id_roles f1 y (s_treatment s) = Ok (s_roles s) ->
  (if dx then exists es, encodes (s_treatment s) f1 f2 es /\ s_xenc s = Some es else f2 = f1 /\ s_xenc s = None) ->
  role_columns (s_roles s) <> [] -> columns f2 (role_columns (s_roles s)) = Ok sub -> column f2 y = Ok y2 ->
  prep_fit sub y2 = Ok (s_prep s, sub') -> (forall c, In c (map fst sub') <-> In c (role_columns (s_roles s))) ->
  f3 = set_columns sub' f2 ->
  fit_all cf f3 y dy dx (s_roles s) (estimator_keys dx (s_treatment s)) = Ok (s_ests s) ->
  s_names s = map fst (f_cols f) -> s_outcome s = y ->
  course o cf y f dy dx f1 f2 f3 s.
Definition flag_kept (a b : option bool) : Prop := match a with Some _ => b = a | None => True end.
(** a fit: what it leaves behind when it fails and when it succeeds *)
Lemma fit_body_spec cf y o f s r : fit_body cf y (mkRun o f) = (s, r) ->
  flag_kept (w_dy o) (w_dy (r_obj s)) /\ flag_kept (w_dx o) (w_dx (r_obj s)) /\
  f_index (r_data s) = f_index f /\ map fst (f_cols (r_data s)) = map fst (f_cols f) /\
  (forall e, r = Err e -> w_fit (r_obj s) = w_fit o) /\
  (r = Ok tt -> exists dy dx f1 f2 st, w_dy (r_obj s) = Some dy /\ w_dx (r_obj s) = Some dx /\ w_id (r_obj s) = id_object f1 y /\ w_fit (r_obj s) = Some st /\ course o cf y f dy dx f1 f2 (r_data s) st).
Proof.
  intros H. unfold WhyModel.fit_body, WhyModel.identify, massert, on_obj, on_data, obj, data, mset, mget, mlift, mret in H. unfold mbind in H. cbn [r_data r_obj] in H.
  Ltac bad H := injection H as <- <-; cbn [r_data r_obj w_dy w_dx w_id w_fit] in *; unfold flag_kept.
  destruct o as [ody odx oid ofit]. cbn [w_dy w_dx w_id w_fit] in *.
  destruct (negb (String.eqb y "") && has f y) eqn:G0; cbv iota beta in H; [|bad H; repeat split; auto; try discriminate; destruct ody, odx; auto].
  destruct (column f y) as [yc|e] eqn:CY; cbv iota beta in H; [|bad H; repeat split; auto; try discriminate; destruct ody, odx; auto].
  assert (YN : y <> "") by (apply andb_prop in G0; destruct G0 as [G0 _]; apply negb_true_iff, String.eqb_neq in G0; exact G0).
  set (dy := match ody with Some b => b | None => is_discrete yc end).
  set (o1 := mkWhy (ID := ID) (Some dy) odx oid ofit).
  match type of H with (let (_, _) := ?m in _) = _ => replace m with (mkRun o1 f, @Ok unit tt) in H by (unfold o1, dy; destruct ody; reflexivity) end.
  cbv iota beta in H. cbn [r_data r_obj o1 w_dy w_dx w_id w_fit] in H.
  assert (HY : has f y = true) by (apply has_column; eauto).
  destruct (transform_ok (cls := classes yc) (l := yc)) as [c TC]; [intros v V; now apply classes_In|].
  set (f1 := if dy then set_column y c f else f).
  match type of H with (let (_, _) := ?m in _) = _ => replace m with (mkRun o1 f1, Ok (if dy then Some (classes yc) else None)) in H by (unfold truthy_opt, f1, o1; rewrite TC; destruct dy; reflexivity) end.
  cbv iota beta in H. cbn [r_data r_obj o1 w_dy w_dx w_id w_fit] in H.
  assert (D1 : differ_only [y] f f1) by (unfold f1; destruct dy; [apply differ_set; [auto|now left]|apply differ_refl]).
  assert (FK : flag_kept ody (Some dy)) by (unfold dy; destruct ody; reflexivity).
  destruct D1 as (Di & Dn & Dc).
  destruct (id_treatment f1 y odx) as [ts|e] eqn:IT; cbv iota beta in H; [|bad H; repeat split; auto; try discriminate; destruct odx; auto].
  destruct (columns f1 ts) as [tcols|e] eqn:CT; cbv iota beta in H; [|bad H; repeat split; auto; try discriminate; destruct odx; auto].
  match type of H with context [let (_, _) := ?m (mkRun o1 f1) in match _ with Ok _ => match id_roles _ _ _ with _ => _ end | _ => _ end] =>
    assert (DX : (exists dx, m (mkRun o1 f1) = (mkRun (mkWhy (Some dy) (Some dx) oid ofit) f1, Ok tt) /\ match odx with Some b => dx = b | None => match tcols with [] => False | c :: _ => dx = is_discrete (snd c) end end) \/ (odx = None /\ m (mkRun o1 f1) = (mkRun o1 f1, Err IndexError)));
    [unfold o1; destruct odx as [b|]; [left; exists b; auto|destruct tcols as [|t0 tl]; [right; auto|left; eexists; split; reflexivity]]|]
  end.
  destruct DX as [(dx & DX & DXs)|[-> DX]]; rewrite DX in H; clear DX; [|bad H; repeat split; auto; discriminate].
  assert (FKx : flag_kept odx (Some dx)) by (clear - DXs; destruct odx; cbn; [congruence|exact Logic.I]).
  cbv iota beta in H. cbn [r_data r_obj w_dy w_dx w_id w_fit] in H.
  destruct (id_roles f1 y ts) as [ro|e] eqn:IR; cbv iota beta in H; [|bad H; repeat split; auto; discriminate].
  cbn [r_data r_obj w_dy w_dx w_id w_fit] in H.
  set (o2 := mkWhy (Some dy) (Some dx) (id_object f1 y) ofit) in *.
  match type of H with (let (_, _) := ?m in _) = _ => destruct m as [s2 x2] eqn:EM end.
  assert (E2 : r_obj s2 = o2 /\ differ_only ts f1 (r_data s2) /\ forall xenc, x2 = Ok xenc -> if dx then exists es, encodes ts f1 (r_data s2) es /\ xenc = Some es else r_data s2 = f1 /\ xenc = None).
  { cbn [truthy_opt] in EM. destruct dx; cbv iota beta in EM.
    - destruct (encode_treatments ts (mkRun o2 f1)) as [s3 x3] eqn:E3. apply encode_run in E3. destruct E3 as (A & B & C). destruct x3 as [es|]; injection EM as <- <-; (split; [auto|]; split; [auto|]); [|discriminate]. intros xenc Q. injection Q as <-. exists es. auto.
    - injection EM as <- <-. split; [reflexivity|]. split; [apply differ_refl|]. intros xenc Q. injection Q as <-. auto. }
  clear EM. destruct s2 as [o2' f2]. cbn [r_obj r_data] in E2. destruct E2 as (-> & (Ei & En & Ec) & EX).
  destruct x2 as [xenc|e]; cbv iota beta in H; [|bad H; repeat split; auto; try congruence; discriminate].
  specialize (EX _ eq_refl). cbn [r_obj r_data] in H.
  destruct (Nat.eqb_spec (length (role_columns ro)) 0) as [RL|RL]; cbn [negb] in H; cbv iota beta in H; [bad H; repeat split; auto; try congruence; discriminate|].
  destruct (columns f2 (role_columns ro)) as [sub|e] eqn:CS; cbv iota beta in H; [|bad H; repeat split; auto; try congruence; discriminate].
  destruct (column f2 y) as [y2|e] eqn:CY2; cbv iota beta in H; [|bad H; repeat split; auto; try congruence; discriminate].
  destruct (prep_fit sub y2) as [[p sub']|e] eqn:PF; cbv iota beta in H; [|bad H; repeat split; auto; try congruence; discriminate].
  destruct (forallb _ _ && forallb _ _) eqn:FB; cbv iota beta in H; [|bad H; repeat split; auto; try congruence; discriminate].
  apply andb_prop in FB. destruct FB as [FB1 FB2]. rewrite forallb_forall in FB1, FB2.
  assert (NM : forall k, In k (map fst sub') <-> In k (role_columns ro)).
  { intros k. split; intros K; [apply FB2 in K|apply FB1 in K]; unfold MapModel.mem in K; apply existsb_exists in K; destruct K as (k' & K & Q); apply String.eqb_eq in Q; now subst. }
  assert (SN : map fst (f_cols (set_columns sub' f2)) = map fst (f_cols f2)) by (apply set_columns_names; intros k K; apply NM in K; eapply columns_has; eauto).
  cbn [r_obj r_data w_dy w_dx truthy_opt o2] in H.
  replace (if dy then true else false) with dy in H by (destruct dy; reflexivity). replace (if dx then true else false) with dx in H by (destruct dx; reflexivity).
  destruct (fit_all _ _ _ _ _ _ _) as [es|e] eqn:FA; cbv iota beta in H; [|bad H; rewrite set_columns_index; repeat split; auto; try congruence; discriminate].
  bad H. rewrite set_columns_index. repeat split; auto; try congruence; try discriminate. intros _.
  assert (EX' : if dx then exists es, encodes ts f1 f2 es /\ xenc = Some es else f2 = f1 /\ xenc = None) by exact EX. clear EX.
  eexists dy, dx, f1, f2, _. repeat (split; [reflexivity|]). econstructor; cbn [s_yenc s_treatment s_roles s_xenc s_prep s_ests s_names s_outcome w_dy w_dx]; eauto; try reflexivity.
  all: try (intros Q; rewrite Q in RL; now apply RL).
  - unfold f1. destruct dy; eauto.
Qed.
(** a fit reads the two flags of the object and nothing else of it *)
Lemma encode_uniform xs (f : frame) : exists (f' : frame) r, forall o : why_obj, encode_treatments xs (mkRun o f) = (mkRun o f', r).
Proof.
  revert f. induction xs as [|x xs IH]; intros f; cbn [encode_treatments]; [do 2 eexists; intros; reflexivity|].
  unfold mbind, data, mget, mret, mlift, on_data, mset. unfold mbind. cbn [r_data r_obj].
  destruct (column f x) as [l|]; [|do 2 eexists; intros; reflexivity]. destruct (transform (classes l) l) as [c|]; [|do 2 eexists; intros; reflexivity].
  destruct (IH (set_column x c f)) as (f' & r & E). destruct r as [es|e]; do 2 eexists; intros o; rewrite E; reflexivity.
Qed.
Ltac red1 := cbv iota beta; cbn [r_data r_obj w_dy w_dx w_id w_fit truthy_opt].
Ltac fin := let H := fresh in intros H; injection H as <- <-; eexists; split; [reflexivity|]; split; [reflexivity|]; split; [reflexivity|]; split; [reflexivity|]; try discriminate; auto.
Lemma fit_two cf y a b i w i' w' f s0 r0 : fit_body cf y (mkRun (mkWhy a b i' w') f) = (s0, r0) ->
  exists s1, fit_body cf y (mkRun (mkWhy a b i w) f) = (s1, r0) /\ w_dy (r_obj s1) = w_dy (r_obj s0) /\ w_dx (r_obj s1) = w_dx (r_obj s0) /\ r_data s1 = r_data s0 /\ (r0 = Ok tt -> r_obj s1 = r_obj s0).
Proof.
  unfold WhyModel.fit_body, WhyModel.identify, massert, on_obj, on_data, obj, data, mset, mget, mlift, mret. unfold mbind. cbn [r_data r_obj w_dy w_dx w_id w_fit].
  destruct (negb (String.eqb y "") && has f y); red1; [|fin].
  destruct (column f y) as [yc|e]; red1; [|fin].
  destruct (transform_ok (cls := classes yc) (l := yc)) as [c TC]; [intros v V; now apply classes_In|].
  assert (YC : exists d, (a = Some d \/ (a = None /\ is_discrete yc = d))) by (destruct a; eauto). destruct YC as [dy YC].
  destruct YC as [->|[-> YC]]; [|rewrite YC]; red1; destruct dy; red1; rewrite ?TC; red1.
  all: match goal with |- context [id_treatment ?g ?n ?k] => destruct (id_treatment g n k) as [ts|]; red1; [|fin]; destruct (columns g ts) as [tcols|]; red1; [|fin] end.
  all: destruct b as [dx|]; red1; [|destruct tcols as [|tc tcols]; red1; [fin|set (dx := is_discrete (snd tc)); clearbody dx]].
  all: match goal with |- context [id_roles ?g ?n ?k] => destruct (id_roles g n k) as [ro|]; red1; [|fin] end.
  all: destruct dx; red1.
  all: try match goal with |- context [encode_treatments ?t {| r_obj := _; r_data := ?g |}] => let f2 := fresh "f2" in destruct (encode_uniform t g) as (f2 & x2 & EE); rewrite !EE; clear EE; destruct x2 as [xe|]; red1 end.
  all: try (fin; fail).
  all: destruct (negb (length (role_columns ro) =? 0)); red1; [|fin].
  all: match goal with |- context [columns ?g ?n] => destruct (columns g n) as [sub|]; red1; [|fin] end.
  all: match goal with |- context [column ?g ?n] => destruct (column g n) as [y2|]; red1; [|fin] end.
  all: match goal with |- context [prep_fit ?g ?n] => destruct (prep_fit g n) as [[p sub']|]; red1; [|fin] end.
  all: destruct (forallb _ _ && forallb _ _); red1; [|fin].
  all: destruct (fit_all _ _ _ _ _ _ _) as [es|]; red1; fin.
Qed.
End Why.
