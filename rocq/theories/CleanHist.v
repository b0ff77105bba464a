(** Theorems about DataCleaner after the fit: C207 - C210. *)
From Coq Require Import ZArith QArith Qcanon String.
From Verif Require Import Base EstUtilsModel MetaModel MetaProofs CleanModel CleanSpec CleanProofs CleanProps.
Set Implicit Arguments.
Local Notation length := List.length.
Local Open Scope nat_scope.

Section H.
Variable parse : string -> option cell.
Variable parse_int : string -> option Z.
Variable show : cell -> string.
Notation pclean := (pclean parse parse_int show).
Notation finish := (finish parse parse_int show).
Notation fit_col := (fit_col parse parse_int show).
Notation tr_col := (tr_col parse parse_int show).
Notation fit_transform := (fit_transform parse parse_int show).
Notation transform := (transform parse parse_int show).

Lemma rows_int p idx x c : ints_ok x -> wf x -> (forall i, In i idx -> i < f_rows x) -> In c (f_cols x) ->
  k_type (at_rows p idx c) = DInt -> forall v, In v (k_cells (at_rows p idx c)) -> exists q, v = CNum q.
Proof.
  intros HI [_ HL] HX HC T v Hv. cbn in T, Hv. apply in_map_iff in Hv. destruct Hv as (i & <- & Hi). rewrite Forall_forall in HL.
  destruct (HI c HC T (nth i (k_cells c) CNaN)) as [q ->]; [apply nth_In; rewrite (HL c HC); auto|]. exists q. unfold nanned. destruct (c_nan_chars p); reflexivity.
Qed.

Lemma labelled_fun p n y i j : labelled p n y i -> labelled p n y j -> i = j.
Proof.
  intros [S1 H1] [S2 H2]. assert (E : forall k, In k i <-> In k j) by (intros k; now rewrite H1, H2). clear H1 H2. revert j S2 E. induction i as [|a i IH]; intros j S2 E.
  - destruct j as [|b j]; [auto|]. exfalso. apply (proj2 (E b)). now left.
  - destruct j as [|b j]; [exfalso; apply (proj1 (E a)); now left|].
    assert (LT : forall c l, (forall i j, i < j < length (c :: l) -> nth i (c :: l) 0 < nth j (c :: l) 0) -> forall k, In k l -> c < k).
    { clear. intros c l H k Hk. apply In_nth with (d := 0) in Hk. destruct Hk as (m & L & <-). apply (H 0 (S m)). cbn. lia. }
    assert (AB : a = b). { pose proof (proj1 (E a) (or_introl eq_refl)) as [?|Ha]; [auto|]. pose proof (proj2 (E b) (or_introl eq_refl)) as [?|Hb]; [auto|]. pose proof (LT _ _ S2 _ Ha). pose proof (LT _ _ S1 _ Hb). lia. }
    subst b. f_equal. apply IH.
    + intros u v H. apply (S1 (S u) (S v)). cbn. lia.
    + intros u v H. apply (S2 (S u) (S v)). cbn. lia.
    + intros k. pose proof (E k) as [A B]. split; intros Hk.
      * destruct (A (or_intror Hk)) as [->|?]; [|auto]. pose proof (LT _ _ S1 _ Hk). lia.
      * destruct (B (or_intror Hk)) as [->|?]; [|auto]. pose proof (LT _ _ S2 _ Hk). lia.
Qed.
Lemma classic_res p n : is_reserved p n \/ ~ is_reserved p n.
Proof. rewrite <- reserved_iff. destruct (reserved p n); [now left|now right]. Qed.

(** C207 *)
Theorem clean_fit_values p copy x y s s' g y' cl : (forall t, show (CStr t) = t) -> good_input x y -> fit_transform p copy x y s = (s', Ok (g, y', cl)) ->
  exists idx, labelled p (f_rows x) y idx /\ y' = label_at p idx y /\ f_rows g = length idx /\
    forall c', In c' (f_cols g) -> exists c, In c (f_cols x) /\ col_out parse show p (at_rows p idx c) c'.
Proof.
  intros SS GI HF. destruct (@fit_inv parse parse_int show p copy x y s s' g y' cl GI HF) as (idx & l3 & LB & HP & HY & ND & HI & HG & HS). exists idx. split; [auto|]. split; [auto|]. subst g. split; [reflexivity|].
  intros c' Hc. unfold map_cols in Hc. cbn [f_cols] in Hc. apply in_map_iff in Hc. destruct Hc as (c & <- & Hc). unfold F4, F2 in Hc. repeat (apply without_In in Hc; destruct Hc as [Hc _]).
  cbn [f_cols] in Hc. apply in_map_iff in Hc. destruct Hc as (c0 & <- & Hc). exists c0. split; [auto|]. apply fit_col_out; [auto|]. destruct GI as (W & IO & _). eapply rows_int; eauto. intros i Hi. now apply LB in Hi.
Qed.

(** replace_inf_values: no infinity is left, except in columns of objects *)
Theorem clean_no_infinity_partial p copy x y s s' g y' cl r : (forall t, show (CStr t) = t) -> good_input x y -> fit_transform p copy x y s = (s', Ok (g, y', cl)) ->
  c_inf p = Some r -> (forall b, r <> CInf b) ->
  forall c c', In c (f_cols x) -> k_type c <> DObj -> In c' (f_cols g) -> k_name c' = k_name c -> forall b, ~ In (CInf b) (k_cells c').
Proof.
  intros SS GI HF HR NI c c' Hc T Hc' EN b HB. destruct (@clean_fit_values p copy x y s s' g y' cl SS GI HF) as (idx & LB & _ & _ & H). destruct (H c' Hc') as (c0 & H0 & N & A & B & C).
  assert (c0 = c) by (eapply (@uniq x); [apply GI|auto|auto|]; cbn in N; congruence). subst c0.
  assert (NM : forall l, ~ In (CInf b) (map (infd p) l)).
  { intros l Hl. apply in_map_iff in Hl. destruct Hl as (v & E & _). unfold infd in E. rewrite HR in E. destruct v; try discriminate. now apply (NI b). }
  destruct (classic_res p (k_name c)) as [R|R].
  - destruct (A (or_introl R)) as [_ E]. rewrite E in HB. now apply NM in HB.
  - destruct (k_type c) eqn:KT; [contradiction| | | |].
    + destruct (c_int p) as [[|]|] eqn:CI.
      * destruct (proj1 (B R KT) eq_refl) as [_ E]. rewrite E in HB. assert (GG := GI). destruct GG as (W & IO & _). destruct (@rows_int p idx x c IO W ltac:(intros i Hi; now apply LB in Hi) Hc KT _ HB) as [q Hq]. discriminate.
      * destruct (proj2 (B R KT) eq_refl) as [_ E]. rewrite E in HB. apply in_map_iff in HB. destruct HB as (v & Hv & _). discriminate.
      * assert (X : k_type (at_rows p idx c) = DInt /\ @None itype = None) by (split; auto). destruct (A ltac:(tauto)) as [_ E]. rewrite E in HB. now apply NM in HB.
    + destruct (A ltac:(cbn; tauto)) as [_ E]. rewrite E in HB. now apply NM in HB.
    + destruct (A ltac:(cbn; tauto)) as [_ E]. rewrite E in HB. now apply NM in HB.
    + destruct (A ltac:(cbn; tauto)) as [_ E]. rewrite E in HB. now apply NM in HB.
Qed.
(** C208 *)
Lemma lem_upd on o l : lem on (upd on o (lem on o l)) l = lem on o l.
Proof. unfold lem, upd. destruct on; [|auto]. destruct o; auto. Qed.
Lemma lem_upd' on o l l' : lem on (upd on o (lem on o l)) l' = lem on o l.
Proof. unfold lem, upd. destruct on; [|auto]. destruct o; auto. Qed.
Lemma upd_upd on o l : upd on (upd on o l) l = upd on o l.
Proof. unfold upd. destruct on; auto. Qed.

Lemma select_all f : NoDup (names f) -> select (names f) f = Ok f.
Proof.
  intros ND. unfold select. assert (X : mapX (fun n => match find_col n f with Some c => Ok c | None => Err KeyError end) (names f) = Ok (f_cols f)).
  { apply mapX_F2. unfold names. assert (H : forall l, (forall c, In c l -> find_col (k_name c) f = Some c) -> Forall2 (fun n c => match find_col n f with Some c => Ok c | None => Err KeyError end = Ok c) (map k_name l) l).
    { induction l as [|c l IH]; intros H; cbn; constructor; [now rewrite H by now left|]. apply IH. intros; apply H; now right. }
    apply H. intros c Hc. now apply find_col_uniq. }
  rewrite X. cbn. destruct f; reflexivity.
Qed.

Theorem clean_training_again p copy copy2 x y s s' g y' cl : (forall t, show (CStr t) = t) -> good_input x y -> fit_transform p copy x y s = (s', Ok (g, y', cl)) ->
  exists cl2, transform p copy2 x y s' = (s', Ok (g, y', cl2)).
Proof.
  intros SS GI HF. destruct (@fit_inv parse parse_int show p copy x y s s' g y' cl GI HF) as (idx & l3 & LB & HP & HY & ND & HI & HG & HS). set (f0 := mkF (length idx) (map (at_rows p idx) (f_cols x))) in *.
  assert (E1 : L1 s' = L1 s) by (rewrite HS; reflexivity).
  assert (E2 : L2 p s' f0 = L2 p s f0) by (unfold L2; rewrite E1, HS; cbn [s_dup]; apply lem_upd').
  assert (EF2 : F2 p s' f0 = F2 p s f0) by (unfold F2; now rewrite E1, E2).
  assert (E3 : ids p s' (F2 p s' f0) = Ok l3). { rewrite EF2. unfold ids in *. rewrite HS. cbn [s_id]. unfold upd. destruct (c_id p); auto. }
  assert (E4 : L4 p s' f0 l3 = L4 p s f0 l3) by (unfold L4; rewrite EF2, HS; cbn [s_const]; apply lem_upd').
  assert (EF4 : F4 p s' f0 l3 = F4 p s f0 l3) by (unfold F4; now rewrite EF2, E4).
  assert (ND4 : NoDup (names (F4 p s f0 l3))) by (unfold F4, F2; repeat apply without_names; auto).
  assert (NG : names g = names (F4 p s f0 l3)) by (rewrite HG; apply names_map; intros; apply fit_col_name).
  destruct (@meta_of_spec parse parse_int g ltac:(now rewrite NG)) as (M1 & M2 & M3).
  assert (FN : finish p (Some (meta_of g)) (F4 p s f0 l3) = Ok g).
  { rewrite finish_tr; [|auto|intros n Hn; rewrite <- NG; now apply M2]. transitivity (Ok (map_cols (fit_col p) (F4 p s f0 l3))); [f_equal|now rewrite HG]. apply map_cols_ext. intros c Hc.
    pose proof (M3 (fit_col p c)) as Q. rewrite fit_col_name in Q. rewrite Q; [now apply tr_fit_col|]. rewrite HG. unfold map_cols. cbn [f_cols]. now apply in_map. }
  assert (SM : s_meta s' = Some (meta_of g)) by (rewrite HS; reflexivity).
  assert (PC : pclean p (s_meta s') x y s' = (s', Ok (g, y'))).
  { rewrite (@pclean_ok parse parse_int show p (s_meta s') x y s' f0 y' l3 HP E3). rewrite SM, EF4, FN. cbn [bind]. f_equal. unfold S4. rewrite E2, E4, HS. cbn [s_drop s_meta s_cols s_const s_id s_dup]. now rewrite !upd_upd. }
  pose proof (tr_run parse parse_int show p copy2 x y s') as TR. rewrite PC in TR. assert (SC : s_cols s' = Some (names g)) by (rewrite HS; reflexivity).
  destruct (transform p copy2 x y s') as [s2 [[[g2 y2] cl2]|e]].
  - destruct TR as (-> & -> & ns & A & B). rewrite SC in A. injection A as <-. rewrite select_all in B by now rewrite NG. injection B as ->. eauto.
  - destruct TR as (_ & _ & [A|(ns & A & n & B & C)]); [congruence|]. rewrite SC in A. injection A as <-. contradiction.
Qed.

(** *** after the fit *)
Definition keepn (app : list string) (n : string) : bool := negb (inb n app).
Record fitted (p : cparams) (g : frame) (app : list string) (s : cst) : Prop := {
  ft_m : exists m, s_meta s = Some m /\ NoDup (flat m) /\ (forall n, In n (flat m) <-> In n (filter (keepn app) (names g))) /\
         (forall c, In c (f_cols g) -> ~ In (k_name c) app -> lookup m (k_name c) = Some (k_type c));
  ft_c : s_cols s = Some (filter (keepn app) (names g));
  ft_n : NoDup (names g);
  ft_1 : forall n, In n (names g) -> ~ In n (L1 s);
  ft_2 : c_dup p = true -> exists l, s_dup s = Some l /\ forall n, In n (names g) -> ~ In n l;
  ft_3 : c_id p = true -> exists l, s_id s = Some l /\ forall n, In n (names g) -> ~ In n l;
  ft_4 : c_const p = true -> exists l, s_const s = Some l /\ forall n, In n (names g) -> ~ In n l }.

Lemma filter_all {A} (g : A -> bool) l : (forall a, In a l -> g a = true) -> filter g l = l.
Proof. induction l as [|a l IH]; cbn; intros H; [auto|]. rewrite (H a) by now left. f_equal. apply IH. auto. Qed.
Lemma fit_fitted p copy x y s s' g y' cl : good_input x y -> fit_transform p copy x y s = (s', Ok (g, y', cl)) -> fitted p g [] s'.
Proof.
  intros GI HF. destruct (@fit_inv parse parse_int show p copy x y s s' g y' cl GI HF) as (idx & l3 & LB & HP & HY & ND & HI & HG & HS). set (f0 := mkF (length idx) (map (at_rows p idx) (f_cols x))) in *.
  assert (ND4 : NoDup (names (F4 p s f0 l3))) by (unfold F4, F2; repeat apply without_names; auto).
  assert (NG : names g = names (F4 p s f0 l3)) by (rewrite HG; apply names_map; intros; apply fit_col_name).
  destruct (@meta_of_spec parse parse_int g ltac:(now rewrite NG)) as (M1 & M2 & M3).
  assert (KN : filter (keepn []) (names g) = names g) by (apply filter_all; auto).
  assert (OUT : forall n, In n (names g) -> ~ In n (L1 s ++ L2 p s f0 ++ l3 ++ L4 p s f0 l3)).
  { intros n Hn. rewrite NG, F4_all in Hn. unfold names in Hn. apply in_map_iff in Hn. destruct Hn as (c & <- & Hc). now apply without_In in Hc. }
  constructor.
  - exists (meta_of g). rewrite KN. subst s'. repeat split; auto; intros; now apply M2.
  - rewrite KN. now subst s'.
  - now rewrite NG.
  - intros n Hn H. apply (OUT n Hn). apply in_or_app. left. subst s'. exact H.
  - intros E. exists (L2 p s f0). subst s'. cbn [s_dup]. unfold upd. rewrite E. split; [auto|]. intros n Hn H. apply (OUT n Hn). rewrite !in_app_iff. auto.
  - intros E. exists l3. subst s'. cbn [s_id]. unfold upd. rewrite E. split; [auto|]. intros n Hn H. apply (OUT n Hn). rewrite !in_app_iff. auto.
  - intros E. exists (L4 p s f0 l3). subst s'. cbn [s_const]. unfold upd. rewrite E. split; [auto|]. intros n Hn H. apply (OUT n Hn). rewrite !in_app_iff. auto.
Qed.

(** the lists used by transform *)
Lemma fitted_lists p g app s f0 : fitted p g app s -> exists l3, ids p s (F2 p s f0) = Ok l3 /\ S4 p s f0 l3 = s /\ forall n, In n (names g) -> ~ In n (L1 s ++ L2 p s f0 ++ l3 ++ L4 p s f0 l3).
Proof.
  intros F.
  assert (E3 : exists l3, ids p s (F2 p s f0) = Ok l3 /\ (forall n, In n (names g) -> ~ In n l3) /\ upd (c_id p) (s_id s) l3 = s_id s).
  { unfold ids, upd. destruct (c_id p) eqn:E; [|exists []; auto]. destruct (ft_3 F E) as (l & -> & H). eauto. }
  destruct E3 as (l3 & E3 & D3 & U3).
  assert (E2 : (forall n, In n (names g) -> ~ In n (L2 p s f0)) /\ upd (c_dup p) (s_dup s) (L2 p s f0) = s_dup s).
  { unfold L2, lem, upd. destruct (c_dup p) eqn:E; [|auto]. destruct (ft_2 F E) as (l & -> & H). auto. }
  assert (E4 : (forall n, In n (names g) -> ~ In n (L4 p s f0 l3)) /\ upd (c_const p) (s_const s) (L4 p s f0 l3) = s_const s).
  { unfold L4, lem, upd. destruct (c_const p) eqn:E; [|auto]. destruct (ft_4 F E) as (l & -> & H). auto. }
  exists l3. split; [auto|]. split; [unfold S4; rewrite U3, (proj2 E2), (proj2 E4); now destruct s|]. intros n Hn. rewrite !in_app_iff. pose proof (ft_1 F n Hn). pose proof (proj1 E2 n Hn). pose proof (proj1 E4 n Hn). specialize (D3 n Hn). tauto.
Qed.

(** a transform does not change the state, whatever its input and its outcome *)
Lemma fitted_state p g app s copy x y : fitted p g app s -> fst (transform p copy x y s) = s.
Proof.
  intros F. pose proof (tr_run parse parse_int show p copy x y s) as TR. destruct (prep p x y) as [[f0 y0]|e] eqn:HP.
  - destruct (fitted_lists f0 F) as (l3 & E3 & ES & _). rewrite (@pclean_ok parse parse_int show p (s_meta s) x y s f0 y0 l3 HP E3), ES in TR.
    destruct (transform p copy x y s) as [s1 [[[g1 y1] cl]|e]]; cbn [fst]; destruct (do g0 <- finish p (s_meta s) (F4 p s f0 l3); Ok (g0, y0)) as [[? ?]|]; tauto.
  - rewrite (@pclean_bad parse parse_int show p (s_meta s) x y s e HP) in TR. destruct (transform p copy x y s) as [s1 [[[g1 y1] cl]|e']]; cbn [fst]; tauto.
Qed.

Lemma flat_filter app m : flat (map (fun dl => (fst dl, filter (fun c => negb (inb c app)) (snd dl))) m) = filter (keepn app) (flat m).
Proof. induction m as [|[d l] m IH]; cbn; [auto|]. rewrite filter_app. f_equal. exact IH. Qed.
Lemma lookup_filter app m n : ~ In n app -> lookup (map (fun dl => (fst dl, filter (fun c => negb (inb c app)) (snd dl))) m) n = lookup m n.
Proof.
  intros N. induction m as [|[d l] m IH]; cbn [map lookup fst snd]; [auto|]. rewrite IH. assert (E : inb n (filter (fun c => negb (inb c app)) l) = inb n l); [|now rewrite E].
  apply eq_true_iff_eq. rewrite !inb_In, filter_In, negb_true_iff, inb_not. tauto.
Qed.
Lemma append_fitted p g app cols s : fitted p g app s -> exists s', append_drop cols s = (s', Ok tt) /\ fitted p g (app ++ cols) s'.
Proof.
  intros F. destruct (ft_m F) as (m & SM & N1 & N2 & N3). unfold append_drop, mbind, mset, mget, mlift. rewrite SM. cbn [s_cols]. rewrite (ft_c F). eexists. split; [reflexivity|]. cbn [s_drop s_meta s_const s_id s_dup].
  assert (KK : forall l, filter (fun c => negb (inb c cols)) (filter (keepn app) l) = filter (keepn (app ++ cols)) l).
  { intros l. rewrite filter_filter. apply filter_ext. intros n. unfold keepn, inb. rewrite existsb_app, negb_orb. reflexivity. }
  constructor; cbn [s_cols s_meta s_dup s_id s_const]; try (destruct F; assumption).
  - eexists. split; [reflexivity|]. split; [rewrite flat_filter; now apply NoDup_filter|]. split.
    + intros n. rewrite flat_filter, filter_In, N2, <- KK. change (fun c => negb (inb c cols)) with (keepn cols). rewrite !filter_In. reflexivity.
    + intros c Hc HN. rewrite in_app_iff in HN. rewrite lookup_filter by tauto. apply N3; tauto.
  - now rewrite KK.
Qed.

Definition exec (p : cparams) (s : cst) (o : op) : cst :=
  match o with OTransform copy x y => fst (transform p copy x y s) | OAppendDrop l => fst (append_drop l s) end.
Lemma exec_fitted p g app s ops : fitted p g app s -> fitted p g (app ++ appended ops) (fold_left (exec p) ops s).
Proof.
  revert app s. induction ops as [|o ops IH]; intros app s F; cbn [fold_left]; [unfold appended; cbn; now rewrite app_nil_r|]. destruct o as [copy x y|l]; cbn [exec appended flat_map].
  - rewrite (@fitted_state p g app s copy x y F). apply IH. exact F.
  - destruct (append_fitted l F) as (s' & E & F'). rewrite E. cbn [fst]. rewrite app_assoc. apply IH. exact F'.
Qed.
Definition col_of (f : frame) (n : string) : column := match find_col n f with Some c => c | None => mkCol n DObj [] end.
Lemma col_of_In f n : In n (names f) -> In (col_of f n) (f_cols f) /\ k_name (col_of f n) = n.
Proof. intros H. unfold col_of. destruct (find_col_some _ _ H) as [c E]. rewrite E. now apply find_col_In in E. Qed.
Lemma col_of_uniq f c : NoDup (names f) -> In c (f_cols f) -> col_of f (k_name c) = c.
Proof. intros ND H. unfold col_of. now rewrite find_col_uniq. Qed.
Lemma select_ok ns f : (forall n, In n ns -> In n (names f)) -> select ns f = Ok (mkF (f_rows f) (map (col_of f) ns)).
Proof.
  intros H. unfold select. assert (X : mapX (fun n => match find_col n f with Some c => Ok c | None => Err KeyError end) ns = Ok (map (col_of f) ns)); [|now rewrite X].
  induction ns as [|n ns IH]; [reflexivity|]. cbn [mapX map]. rewrite IH by (intros; apply H; now right). unfold col_of at 2. destruct (find_col_some _ _ (H n (or_introl eq_refl))) as [c ->]. reflexivity.
Qed.

(** the exact result of transform in a fitted state *)
Lemma fitted_transform p g app s copy x y : fitted p g app s -> good_input x y -> exists idx, labelled p (f_rows x) y idx /\
  let ns := filter (keepn app) (names g) in
  ((forall n, In n ns -> In n (names x)) -> exists cl, transform p copy x y s =
     (s, Ok (mkF (length idx) (map (fun n => tr_col p (Some (k_type (col_of g n))) (at_rows p idx (col_of x n))) ns), label_at p idx y, cl))) /\
  (forall n, In n ns -> ~ In n (names x) -> transform p copy x y s = (s, Err KeyError)).
Proof.
  intros F GI. destruct (prep_spec p GI) as (idx & LB & HP). exists idx. split; [auto|]. set (f0 := mkF (length idx) (map (at_rows p idx) (f_cols x))) in *.
  assert (N0 : names f0 = names x) by (unfold names, f0; cbn [f_cols]; apply at_names).
  assert (ND : NoDup (names f0)) by (rewrite N0; apply GI).
  destruct (fitted_lists f0 F) as (l3 & E3 & ES & OUT). destruct (ft_m F) as (m & SM & M1 & M2 & M3).
  pose proof (tr_run parse parse_int show p copy x y s) as TR. rewrite (@pclean_ok parse parse_int show p (s_meta s) x y s f0 _ l3 HP E3), ES in TR.
  set (f4 := F4 p s f0 l3) in *. assert (N4 : forall n, In n (names g) -> (In n (names f4) <-> In n (names x))).
  { intros n Hn. unfold f4. rewrite F4_all, <- N0. unfold names. rewrite !in_map_iff. specialize (OUT n Hn). split.
    - intros (c & E & H). apply without_In in H. exists c. tauto. - intros (c & E & H). exists c. split; [auto|]. apply without_In. split; [auto|]. rewrite E. exact OUT. }
  assert (ND4 : NoDup (names f4)) by (unfold f4; rewrite F4_all; now apply without_names).
  assert (NS : forall n, In n (filter (keepn app) (names g)) -> In n (names g) /\ ~ In n app) by (intros n Hn; apply filter_In in Hn; unfold keepn in Hn; rewrite negb_true_iff, inb_not in Hn; exact Hn).
  cbn zeta. split.
  - intros HA. assert (HM : forall n, In n (flat m) -> In n (names f4)) by (intros n Hn; apply M2 in Hn; apply N4; [now apply NS|auto]).
    rewrite SM, finish_tr in TR by auto. cbn [bind] in TR. set (h := fun c => tr_col p (lookup m (k_name c)) c) in *.
    assert (NH : names (map_cols h f4) = names f4) by (apply names_map; intros; apply tr_col_name).
    assert (SEL : select (filter (keepn app) (names g)) (map_cols h f4) = Ok (mkF (length idx) (map (fun n => tr_col p (Some (k_type (col_of g n))) (at_rows p idx (col_of x n))) (filter (keepn app) (names g))))).
    { rewrite select_ok by (intros n Hn; rewrite NH; apply N4; [now apply NS|auto]). do 2 f_equal. apply map_ext_in. intros n Hn. destruct (NS n Hn) as [Hg Ha]. pose proof (HA n Hn) as Hx.
      destruct (col_of_In x n Hx) as [Cx Ex]. destruct (col_of_In g n Hg) as [Cg Eg].
      assert (C4 : In (at_rows p idx (col_of x n)) (f_cols f4)). { unfold f4. rewrite F4_all. apply without_In. split; [unfold f0; cbn [f_cols]; now apply in_map|]. cbn [at_rows k_name]. rewrite Ex. now apply OUT. }
      assert (CH : In (h (at_rows p idx (col_of x n))) (f_cols (map_cols h f4))) by (unfold map_cols; cbn [f_cols]; now apply in_map).
      assert (NE : k_name (h (at_rows p idx (col_of x n))) = n) by (unfold h; rewrite tr_col_name; exact Ex).
      pose proof (@col_of_uniq (map_cols h f4) _ ltac:(now rewrite NH) CH) as Q. rewrite NE in Q. rewrite Q. unfold h. cbn [at_rows k_name]. rewrite Ex. f_equal. rewrite <- Eg at 1. apply M3; [auto|]. now rewrite Eg. }
    destruct (transform p copy x y s) as [s1 [[[g1 y1] cl]|e]].
    + destruct TR as (-> & -> & ns & A & B). rewrite (ft_c F) in A. injection A as <-. rewrite SEL in B. injection B as <-. eauto.
    + destruct TR as (_ & _ & [A|(ns & A & n & B & C)]); [rewrite (ft_c F) in A; discriminate|]. rewrite (ft_c F) in A. injection A as <-. exfalso. apply C. rewrite NH. apply N4; [now apply NS|auto].
  - intros n Hn Hx. assert (H4 : ~ In n (names f4)) by (rewrite N4; [auto|now apply NS]). rewrite SM in TR.
    destruct (c_correct p) eqn:CC.
    + assert (FE : finish p (Some m) f4 = Err KeyError).
      { unfold CleanProofs.finish. rewrite CC. cbn [CleanModel.correct]. rewrite (@correct_all_missing parse parse_int m _ n); [reflexivity|now apply M2|]. rewrite names_map by apply inf_name. exact H4. }
      rewrite FE in TR. cbn [bind] in TR. destruct (transform p copy x y s) as [s1 [[[g1 y1] cl]|e]]; [contradiction|]. destruct TR as [-> ->]. reflexivity.
    + unfold CleanProofs.finish in TR. rewrite CC in TR. cbn [bind] in TR. rewrite !map_cols_comp in TR. destruct (transform p copy x y s) as [s1 [[[g1 y1] cl]|e]].
      * exfalso. destruct TR as (_ & _ & ns & A & B). rewrite (ft_c F) in A. injection A as <-. unfold select in B. destruct (mapX _ _) as [cs|] eqn:M in B; [|discriminate]. apply mapX_F2 in M.
        destruct (in_split _ _ Hn) as (a & b & Eab). rewrite Eab in M. apply Forall2_app_inv_l in M. destruct M as (? & ? & _ & M & _). inversion M as [|? c ? ? Q]; subst. destruct (find_col n _) eqn:FC in Q; [|discriminate].
        apply find_col_In in FC. destruct FC as [FC1 FC2]. apply H4. rewrite <- FC2. unfold map_cols in FC1. cbn [f_cols] in FC1. apply in_map_iff in FC1. destruct FC1 as (cz & <- & FC1). rewrite obj_name, int_name, inf_name. unfold names. now apply in_map.
      * destruct TR as (-> & -> & _). reflexivity.
Qed.

(** C209 *)
Lemma float_id p l : (forall v, In v l -> is_float v) -> (forall r, c_inf p = Some r -> is_float r) -> forall fv, Forall2 (fun v w => to_float parse v = Ok w) (map (infd p) l) fv -> fv = map (infd p) l.
Proof.
  intros H HR. induction l as [|v l IH]; cbn [map]; intros fv F; inversion F as [|? w ? fv' E F']; subst; [reflexivity|]. f_equal.
  - assert (FV : is_float (infd p v)). { pose proof (H v (or_introl eq_refl)) as Q. unfold infd. destruct (c_inf p) as [r|]; [|exact Q]. destruct v; auto. }
    destruct (infd p v); cbn in FV, E; try contradiction; injection E as <-; reflexivity.
  - apply IH; [intros; apply H; now right|auto].
Qed.
Lemma tr_col_out p d c : c_correct p = true -> (forall t, show (CStr t) = t) -> (k_type c = DInt -> forall v, In v (k_cells c) -> exists q, v = CNum q) ->
  (k_type c = DFloat -> forall v, In v (k_cells c) -> is_float v) -> (forall r, c_inf p = Some r -> is_float r) -> tr_out parse parse_int show p d c (tr_col p (Some d) c).
Proof.
  intros CC SS HI HF HR. split; [apply tr_col_name|].
  assert (NR : forall n, ~ is_reserved p n -> reserved p n = false) by (intros n H; rewrite <- reserved_iff in H; destruct (reserved p n); [contradiction|auto]).
  unfold CleanProofs.tr_col. rewrite CC, inf_cells by auto. unfold ttype. cbn [k_type k_name k_cells].
  assert (FIN : forall n t v, t <> DObj -> t <> DInt -> obj_step show p (int_step parse parse_int show p (mkCol n t v)) = mkCol n t v).
  { intros n t v N1 N2. unfold int_step, obj_step. cbn [k_type]. replace (dtype_eqb t DInt) with false by (destruct t; auto; contradiction). cbn [andb].
    assert (X : match c_int p with Some _ => mkCol n t v | None => mkCol n t v end = mkCol n t v) by (destruct (c_int p); auto). destruct (c_int p); cbn [k_type]; replace (dtype_eqb t DObj) with false by (destruct t; auto; contradiction); reflexivity. }
  assert (FINO : forall v, reserved p (k_name c) = false -> obj_step show p (int_step parse parse_int show p (mkCol (k_name c) DObj v)) = mkCol (k_name c) DObj (map (fun w => CStr (show w)) v)).
  { intros v R. unfold int_step, obj_step, as_str. cbn [k_type dtype_eqb andb]. destruct (c_int p); cbn [k_type k_name k_cells dtype_eqb andb]; rewrite R; reflexivity. }
  split; [|split; [|split; [|split]]].
  - intros -> fv F. destruct (dtype_eqb (k_type c) DFloat) eqn:T.
    + apply dtype_eqb_eq in T. rewrite T, FIN by discriminate. cbn [k_type k_cells]. split; [auto|]. symmetry. eapply float_id; eauto.
    + unfold try_type, astype. cbn [k_cells k_name]. apply mapX_F2 in F. rewrite F. cbn [bind]. rewrite FIN by discriminate. auto.
  - intros -> T R (s & Hs & Es). apply NR in R. rewrite T. cbn [dtype_eqb]. unfold try_type, astype. cbn [k_cells k_name].
    destruct (@mapX_fail _ _ (to_float parse) (map (infd p) (k_cells c)) (CStr s) ValueError) as [e' ->].
    { apply in_map_iff. exists (CStr s). split; [unfold infd; destruct (c_inf p); reflexivity|auto]. }
    { cbn. now rewrite Es. }
    cbn [bind]. rewrite FINO by auto. cbn [k_type k_cells]. rewrite map_map. auto.
  - intros -> R. apply NR in R. assert (X : (if dtype_eqb (k_type c) DObj then mkCol (k_name c) (k_type c) (map (infd p) (k_cells c)) else try_type parse parse_int DObj (mkCol (k_name c) (k_type c) (map (infd p) (k_cells c)))) = mkCol (k_name c) DObj (map (infd p) (k_cells c))).
    { destruct (dtype_eqb (k_type c) DObj) eqn:T; [apply dtype_eqb_eq in T; now rewrite T|reflexivity]. }
    rewrite X, FINO by auto. cbn [k_type k_cells]. rewrite map_map. auto.
  - intros -> R iv F.
    assert (X : (if dtype_eqb (k_type c) DInt then mkCol (k_name c) (k_type c) (map (infd p) (k_cells c)) else try_type parse parse_int DInt (mkCol (k_name c) (k_type c) (map (infd p) (k_cells c)))) = mkCol (k_name c) DInt iv).
    { destruct (dtype_eqb (k_type c) DInt) eqn:T.
      - apply dtype_eqb_eq in T. rewrite T. f_equal. clear -F. revert iv F. generalize (map (infd p) (k_cells c)) as l. induction l as [|a l IH]; intros iv F; inversion F; subst; [auto|]. f_equal. now apply IH.
      - unfold try_type, astype. cbn [k_cells k_name]. apply mapX_F2 in F. rewrite F. reflexivity. }
    rewrite X. unfold int_step, obj_step. cbn [k_type k_name dtype_eqb]. destruct R as [R|R].
    + apply reserved_iff in R. rewrite R. cbn [negb andb]. destruct (c_int p); cbn; auto.
    + rewrite R. cbn. auto.
  - intros E H. assert (T : dtype_eqb (k_type c) d = true) by (apply dtype_eqb_eq; auto). rewrite T. destruct H as [R|H].
    + apply reserved_iff in R. rewrite int_res by exact R. rewrite obj_res by exact R. cbn. auto.
    + rewrite FIN; [cbn; auto| |]; destruct H as [H|[H|H]]; rewrite <- E, H; discriminate.
Qed.

Lemma rows_float p idx x c : floats_ok p x -> wf x -> (forall i, In i idx -> i < f_rows x) -> In c (f_cols x) ->
  k_type (at_rows p idx c) = DFloat -> forall v, In v (k_cells (at_rows p idx c)) -> is_float v.
Proof.
  intros [HI _] [_ HL] HX HC T v Hv. cbn in T, Hv. apply in_map_iff in Hv. destruct Hv as (i & <- & Hi). rewrite Forall_forall in HL.
  pose proof (HI c HC T (nth i (k_cells c) CNaN) ltac:(apply nth_In; rewrite (HL c HC); auto)) as Q. unfold nanned. destruct (c_nan_chars p); [|exact Q]. destruct (nth i (k_cells c) CNaN); auto. contradiction.
Qed.

Theorem clean_transform_columns p copy x y s s' g y' cl ops copy2 x2 y2 : (forall t, show (CStr t) = t) -> good_input x y -> fit_transform p copy x y s = (s', Ok (g, y', cl)) -> good_input x2 y2 ->
  let kept := filter (fun n => if in_dec string_dec n (appended ops) then false else true) (map k_name (f_cols g)) in
  let r := snd (transform p copy2 x2 y2 (fold_left (exec p) ops s')) in
  ((exists n, In n kept /\ ~ In n (map k_name (f_cols x2))) -> r = Err KeyError) /\
  ((forall n, In n kept -> In n (map k_name (f_cols x2))) -> exists idx g2 cl2, labelled p (f_rows x2) y2 idx /\ r = Ok (g2, label_at p idx y2, cl2) /\ f_rows g2 = length idx /\ map k_name (f_cols g2) = kept /\
     (c_correct p = true -> floats_ok p x2 -> forall c', In c' (f_cols g2) -> exists c cg, In c (f_cols x2) /\ In cg (f_cols g) /\ k_name cg = k_name c' /\ tr_out parse parse_int show p (k_type cg) (at_rows p idx c) c')).
Proof.
  intros SS GI HF GI2 kept r.
  assert (KE : kept = filter (keepn (appended ops)) (names g)).
  { unfold kept, names. apply filter_ext. intros n. unfold keepn. destruct (in_dec string_dec n (appended ops)) as [H|H]; [apply inb_In in H|apply inb_not in H]; now rewrite H. }
  pose proof (exec_fitted ops (@fit_fitted p copy x y s s' g y' cl GI HF)) as FT. cbn [app] in FT.
  destruct (@fitted_transform p g (appended ops) _ copy2 x2 y2 FT GI2) as (idx & LB & A & B). fold (names x2). rewrite <- KE in A, B. cbn zeta in A, B. split.
  - intros (n & Hn & Hx). unfold r. rewrite (B n Hn Hx). reflexivity.
  - intros H. destruct (A H) as [cl2 E]. exists idx. eexists. exists cl2. split; [auto|]. unfold r. rewrite E. cbn [snd]. split; [reflexivity|]. split; [reflexivity|]. cbn [f_cols]. split.
    + rewrite map_map. rewrite <- (map_id kept) at 2. apply map_ext_in. intros n Hn. rewrite tr_col_name. cbn [at_rows k_name]. now apply col_of_In, H.
    + intros CC FO c' Hc. apply in_map_iff in Hc. destruct Hc as (n & <- & Hn). pose proof (H n Hn) as Hx. rewrite KE in Hn. apply filter_In in Hn. destruct Hn as [Hg _].
      destruct (col_of_In x2 n Hx) as [C1 E1]. destruct (col_of_In g n Hg) as [C2 E2]. exists (col_of x2 n), (col_of g n). split; [auto|]. split; [auto|]. split; [rewrite tr_col_name; cbn [at_rows k_name]; congruence|].
      destruct GI2 as (W & IO & _). assert (LT : forall i, In i idx -> i < f_rows x2) by (intros i Hi; now apply LB in Hi). apply tr_col_out; [auto|auto|eapply rows_int; eauto|eapply rows_float; eauto|apply FO].
Qed.

(** other columns of the frame do not matter *)
Theorem clean_transform_local p copy x y s s' g y' cl ops copy2 x2 copy3 x3 y2 : good_input x y -> fit_transform p copy x y s = (s', Ok (g, y', cl)) -> good_input x2 y2 -> good_input x3 y2 ->
  f_rows x2 = f_rows x3 -> (forall n c, In n (map k_name (f_cols g)) -> (has_col x2 n c <-> has_col x3 n c)) ->
  match snd (transform p copy2 x2 y2 (fold_left (exec p) ops s')), snd (transform p copy3 x3 y2 (fold_left (exec p) ops s')) with
  | Ok (g2, y2', _), Ok (g3, y3', _) => g2 = g3 /\ y2' = y3'
  | Err e2, Err e3 => e2 = KeyError /\ e3 = KeyError
  | _, _ => False
  end.
Proof.
  intros GI HF G2 G3 ER HC. pose proof (exec_fitted ops (@fit_fitted p copy x y s s' g y' cl GI HF)) as FT. cbn [app] in FT. set (st := fold_left (exec p) ops s') in *.
  destruct (@fitted_transform p g (appended ops) st copy2 x2 y2 FT G2) as (i2 & LB2 & A2 & B2). destruct (@fitted_transform p g (appended ops) st copy3 x3 y2 FT G3) as (i3 & LB3 & A3 & B3). cbn zeta in A2, B2, A3, B3.
  set (ns := filter (keepn (appended ops)) (names g)) in *. assert (NG : forall n, In n ns -> In n (names g)) by (intros n Hn; apply filter_In in Hn; tauto).
  assert (SAME : forall n, In n (names g) -> In n (names x2) -> In n (names x3) /\ col_of x2 n = col_of x3 n).
  { intros n Hn H2. destruct (col_of_In x2 n H2) as [C E]. assert (HH : has_col x3 n (col_of x2 n)) by (apply HC; [auto|split; auto]). destruct HH as [C3 E3]. split; [rewrite <- E3; unfold names; now apply in_map|].
    rewrite <- (@col_of_uniq x3 (col_of x2 n) ltac:(apply G3) C3). now rewrite E3. }
  assert (SAME' : forall n, In n (names g) -> In n (names x3) -> In n (names x2)).
  { intros n Hn H3. destruct (col_of_In x3 n H3) as [C E]. assert (HH : has_col x2 n (col_of x3 n)) by (apply HC; [auto|split; auto]). destruct HH as [C2 E2]. rewrite <- E2. unfold names. now apply in_map. }
  assert (EI : i2 = i3). { rewrite <- ER in LB3. eapply labelled_fun; eauto. }
  subst i3. destruct (forallb (fun n => inb n (names x2)) ns) eqn:FB.
  - rewrite forallb_forall in FB. assert (H2 : forall n, In n ns -> In n (names x2)) by (intros n Hn; now apply inb_In, FB). assert (H3 : forall n, In n ns -> In n (names x3)) by (intros n Hn; now apply SAME; auto).
    destruct (A2 H2) as [c2 ->]. destruct (A3 H3) as [c3 ->]. cbn [snd]. split; [|auto]. f_equal. apply map_ext_in. intros n Hn. now rewrite (proj2 (SAME n (NG n Hn) (H2 n Hn))).
  - assert (X : exists n, In n ns /\ ~ In n (names x2)). { clear -FB. induction ns as [|n ns IH]; [discriminate|]. cbn in FB. apply andb_false_iff in FB. destruct FB as [FB|FB]; [exists n; split; [now left|now apply inb_not]|]. destruct (IH FB) as (m & A & B). exists m. split; [now right|auto]. }
    destruct X as (n & Hn & Hx). rewrite (B2 n Hn Hx), (B3 n Hn ltac:(intros H; apply Hx; apply SAME'; auto)). cbn. auto.
Qed.

(** C210 *)
Theorem clean_transform_keeps_state p copy x y s s' g y' cl ops copy2 x2 y2 : good_input x y -> fit_transform p copy x y s = (s', Ok (g, y', cl)) ->
  fst (transform p copy2 x2 y2 (fold_left (exec p) ops s')) = fold_left (exec p) ops s'.
Proof. intros GI HF. eapply fitted_state. apply exec_fitted. eapply fit_fitted; eauto. Qed.
End H.
