(** Lemmas about the model of NP2SLS. *)
From Coq Require Import ZArith Reals Lra Sorting.Sorted.
From Verif Require Import Base ApiModel EstUtilsModel EstUtilsProps MetaModel MetaSpec MetaProofs MetaProps CrossFitModel DrModel DrProofs
  MetaRefit DmlModel DmlProofs BoundProofs TslsModel TslsSpec.
Local Notation length := List.length.
Local Notation concat := List.concat.

Lemma kron_outer x v : kron x v = outer x v.
Proof. reflexivity. Qed.

Lemma rect_pos {A} n k (l : list (list A)) : rect n k l -> 0 < n -> l <> [].
Proof. intros [H _] Hn ->. cbn in H. lia. Qed.
Lemma rect_width {A} n k (l : list (list A)) : rect n k l -> 0 < n -> width l = k.
Proof. intros H Hn. apply width_all; [eapply rect_pos; eauto|apply H]. Qed.
Lemma rect_check {A} n k (l : list (list A)) : rect n k l -> 0 < n -> 0 < k -> check_X k l = Ok tt.
Proof. intros H Hn Hk. apply check_X_ok; [eapply rect_pos; eauto|lia|apply H]. Qed.
Lemma rect_repeat {A} n k (r : list A) : length r = k -> rect n k (repeat r n).
Proof. intros H. split; [apply repeat_length|]. apply Forall_forall. intros q Hq. apply repeat_spec in Hq. now subst. Qed.

Lemma Forall2_length_eq {A B} (P : A -> B -> Prop) l m : Forall2 P l m -> length l = length m.
Proof. induction 1; cbn; congruence. Qed.

(** ** Encoders *)
Lemma unique_labels_ok (col : list label) b cats : (forall a, In a col -> is_str a = b) -> StronglySorted llt cats ->
  (forall a, In a cats <-> In a col) -> unique_labels col = Ok cats.
Proof.
  intros Hb HS HI. assert (E : exists c, unique_labels col = Ok c).
  { unfold unique_labels. replace (_ || _) with true; [eauto|]. symmetry. apply orb_true_iff.
    destruct b; [left|right]; apply forallb_forall; intros a Ha; now rewrite (Hb a Ha). }
  destruct E as (c & E). rewrite E. f_equal. apply unique_labels_spec in E as [S1 I1].
  apply sorted_unique; auto. intros a. now rewrite I1, HI.
Qed.

Lemma enc_fit_ok n k x cats : rect n k x -> 0 < n -> 0 < k -> one_kind k x -> length cats = k -> values_of x cats ->
  enc_fit None x = Ok cats.
Proof.
  intros HR Hn Hk H1 HL (HS & HI). unfold enc_fit. rewrite (rect_width _ _ _ HR Hn), (rect_check _ _ _ HR Hn Hk). cbn [bind].
  rewrite <- (map_nth_seq [] cats), HL. apply mapX_ok. intros j Hj. apply in_seq in Hj.
  destruct (H1 j) as (b & Hb); [lia|]. apply (unique_labels_ok _ b).
  - intros a Ha. apply column_In in Ha as (r & Hr & <-). now apply Hb.
  - rewrite Forall_forall in HS. apply HS, nth_In. lia.
  - intros a. rewrite column_In. apply HI. lia.
Qed.

Lemma coded_row cats : Forall (@NoDup label) cats -> forall (r : list label) c, length r = length cats -> coded cats r c ->
  exists is, mapX (fun p => enc_value (fst p) (snd p)) (combine cats r) = Ok is /\ map INR is = c.
Proof.
  induction 1 as [|cs cats HN HF IH]; intros r c HL (Hc & Hp).
  - exists []. split; [reflexivity|]. destruct c; [reflexivity|easy].
  - destruct r as [|a r]; [easy|]. destruct c as [|u c]; [easy|]. cbn [length] in *.
    destruct (Hp 0) as (i & Hi & Hu); [lia|]. cbn [nth] in Hi, Hu.
    destruct (IH r c) as (is & E & M); [lia| |].
    { split; [lia|]. intros j Hj. destruct (Hp (S j)) as (i' & Hi'); [lia|]. exists i'. exact Hi'. }
    exists (i :: is). cbn [combine mapX fst snd]. rewrite (@enc_value_ok _ _ _ (index_of_nth _ _ _ HN Hi)). cbn [bind].
    rewrite E. cbn [bind map]. split; congruence.
Qed.

Lemma ord_transform_ok n cats x rows : rect n (length cats) x -> 0 < n -> 0 < length cats -> Forall (StronglySorted llt) cats ->
  Forall2 (coded cats) x rows -> exists c, ord_transform cats x = Ok c /\ codes_to_rows c = rows.
Proof.
  intros HR Hn Hk HS HF. unfold ord_transform. rewrite (rect_check _ _ _ HR Hn Hk). cbn [bind].
  assert (HN : Forall (@NoDup label) cats) by (eapply Forall_impl; [|exact HS]; intros l; apply ssort_NoDup).
  destruct HR as [_ HL]. clear Hn. induction HF as [|r c x rows Hc HF IH]; [now exists []|].
  inversion HL as [|? ? Hr HL']; subst. destruct (IH HL') as (cs & E & M).
  destruct (coded_row cats HN r c Hr Hc) as (is & E1 & M1). exists (is :: cs). cbn [mapX]. rewrite E1. cbn [bind]. rewrite E.
  cbn [bind]. split; auto. unfold codes_to_rows in *. cbn [map]. congruence.
Qed.

Lemma fit_x_ok X n k x cats : x_means X k x cats -> rect n k x -> 0 < n -> 0 < k -> fit_x X = Ok (x, cats).
Proof.
  intros H HR Hn Hk. destruct H as [k x|k x cats rows H1 HL HV HF H2]; [reflexivity|]. cbn [fit_x].
  assert (HRx : rect n k x) by (split; auto; rewrite (Forall2_length_eq _ _ _ H2); apply HR).
  rewrite (enc_fit_ok _ _ _ _ HRx Hn Hk H1 HL HV). cbn [bind]. subst k.
  destruct (ord_transform_ok n cats x rows HRx Hn Hk (proj1 HV) H2) as (c & E & M). rewrite E. cbn [bind]. now rewrite M.
Qed.

(** ** Basis functions *)
Definition acts (f : fbasis) (k : nat) (phi : row -> row) : Prop :=
  forall n x, rect n k x -> 0 < n -> basis_transform f (Some x) = Ok (Some (map phi x)).
Lemma basis_means b phi n k x : xz_means b phi -> rect n k x -> 0 < n -> 0 < k ->
  exists b' f, xz_basis b = Ok b' /\ basis_fit b' (Some x) = Ok f /\ acts f k phi.
Proof.
  intros H HR Hn Hk. destruct H; cbn [xz_basis get_basis_func]; do 2 eexists; (split; [reflexivity|]); cbn [basis_fit].
  1,2: rewrite (rect_width _ _ _ HR Hn), (rect_check _ _ _ HR Hn Hk); cbn [bind]; split; [reflexivity|];
    intros n' x' HR' Hn'; cbn [basis_transform]; now rewrite (rect_check _ _ _ HR' Hn' Hk).
  split; [reflexivity|]. intros n' x' _ _. reflexivity.
Qed.
Lemma v_basis_means b v psi n k : v_means v b psi -> orect n k v -> 0 < n -> 0 < k ->
  exists b' f, v_basis b = Ok b' /\ basis_fit b' v = Ok f /\ basis_transform f v = Ok (option_map (map psi) v) /\
    (v <> None -> acts f k psi).
Proof.
  intros H HR Hn Hk. destruct H as [d Hv|f]; cbn [v_basis get_basis_func]; do 2 eexists; (split; [reflexivity|]); cbn [basis_fit].
  - destruct v as [v|]; [|easy]. cbn [orect] in HR. rewrite (rect_width _ _ _ HR Hn), (rect_check _ _ _ HR Hn Hk). cbn [bind].
    split; [reflexivity|]. split; [cbn [basis_transform]; now rewrite (rect_check _ _ _ HR Hn Hk)|].
    intros _ n' x' HR' Hn'. cbn [basis_transform]. now rewrite (rect_check _ _ _ HR' Hn' Hk).
  - split; [reflexivity|]. split; [reflexivity|]. intros _ n' x' _ _. reflexivity.
Qed.

(** ** Rows of the regressions *)
Lemma rkron_ok n x v : length x = n -> length v = n ->
  rkron x v = Ok (map (fun r => outer (nth r x []) (nth r v [])) (seq 0 n)).
Proof.
  intros Hx Hv. unfold rkron. rewrite Hx, Hv, Nat.eqb_refl. f_equal. rewrite (combine_nth_map _ x v [] []) by congruence.
  rewrite Hx. reflexivity.
Qed.
Definition vprod (x : row) (v : option row) : row := match v with Some v => outer x v | None => x end.
Lemma kron_v_ok n x v : length x = n -> (forall v', v = Some v' -> length v' = n) ->
  kron_v (Some x) v = Ok (Some (map (fun r => vprod (nth r x []) (at_row v r)) (seq 0 n))).
Proof.
  intros Hx Hv. unfold kron_v. destruct v as [v|].
  - rewrite (rkron_ok n) by auto. reflexivity.
  - cbn [at_row option_map vprod]. subst n. now rewrite (map_nth_seq []).
Qed.
Lemma nth_ones n r : r < n -> nth r (ones n) [] = [1%R].
Proof. intros H. unfold ones. rewrite nth_indep with (d' := [1%R]) by now rewrite repeat_length. apply nth_repeat. Qed.
Lemma get_wv_rows n xv w : length xv = n -> (forall w', w = Some w' -> length w' = n) ->
  get_wv [Some xv; w; Some (ones n)] =
  Ok (map (fun r => nth r xv [] ++ (match at_row w r with Some w => w | None => [] end) ++ [1%R]) (seq 0 n)).
Proof.
  intros Hx Hw. unfold get_wv. destruct w as [w|]; cbn [flat_map app at_row option_map]; unfold hcat; cbn [forallb fold_left].
  - unfold ones. rewrite repeat_length, Hx, (Hw w eq_refl), Nat.eqb_refl. cbn [andb]. f_equal.
    rewrite (combine_nth_map _ xv w [] []) by (rewrite Hx; symmetry; now apply Hw).
    rewrite (combine_nth_map _ _ _ [] []) by (rewrite map_length, seq_length, repeat_length; auto).
    rewrite map_length, seq_length, Hx. apply map_ext_in. intros r Hr. apply in_seq in Hr. cbn [fst snd].
    rewrite nth_map_seq by lia. change (repeat [1%R] n) with (ones n). rewrite nth_ones by lia. now rewrite <- app_assoc.
  - unfold ones. rewrite repeat_length, Hx, Nat.eqb_refl. cbn [andb]. f_equal.
    rewrite (combine_nth_map _ xv _ [] []) by (rewrite repeat_length; auto).
    rewrite Hx. apply map_ext_in. intros r Hr. apply in_seq in Hr. cbn [fst snd].
    change (repeat [1%R] n) with (ones n). rewrite nth_ones by lia. reflexivity.
Qed.

Lemma drows_length n x v w : length (drows n x v w) = n.
Proof. unfold drows. now rewrite map_length, seq_length. Qed.
Lemma drows_nth n x v w r : r < n -> nth r (drows n x v w) [] = drow (x r) (at_row v r) (at_row w r).
Proof. intros H. unfold drows. now rewrite nth_map_seq. Qed.
Lemma orect_length {A} n k (o : option (list (list A))) : orect n k o -> forall l, o = Some l -> length l = n.
Proof. intros H l ->. apply H. Qed.
Lemma map_length_o {A B} n (f : A -> B) (o : option (list A)) : (forall l, o = Some l -> length l = n) ->
  forall l, option_map (map f) o = Some l -> length l = n.
Proof. intros H l. destruct o; cbn; [|easy]. intros [= <-]. rewrite map_length. now apply H. Qed.

Lemma np_predict_ok {L} (s : nstate L) v w x n : length x = n -> (forall l, v = Some l -> length l = n) ->
  (forall l, w = Some l -> length l = n) ->
  np_predict s v w (Some x) n = Ok (predict L (s_m s) (drows n (fun r => nth r x []) v w)).
Proof.
  intros Hx Hv Hw. unfold np_predict. rewrite (kron_v_ok n) by auto. cbn [bind].
  rewrite (get_wv_rows n) by (auto; now rewrite map_length, seq_length). cbn [bind]. do 2 f_equal.
  unfold drows. apply map_ext_in. intros r Hr. apply in_seq in Hr. rewrite nth_map_seq by lia. unfold drow, vprod.
  now destruct (at_row v r).
Qed.

(** ** fit *)
Definition fitted_state {L} (a : nargs) n x_d y_d (cats : option (list (list label))) fx fv psi (m : Mdl L) : nstate L :=
  mkNst fx fv cats (option_map (map psi) (n_v a)) (n_w a) n x_d y_d (negb (is_none (n_w a))) (negb (is_none (n_v a))) m.

Lemma np_fit_ok Lx Ly a n x_d z_d k_v k_w x z cats phi zeta psi :
  good_call a n x_d z_d k_v k_w x z cats phi zeta psi -> two_d Lx ->
  exists fx fv, acts fx x_d phi /\ (n_v a <> None -> acts fv k_v psi) /\
    np_fit Lx Ly a =
    (do mx <- l_fit Lx (drows n (fun r => zeta (nth r z [])) (option_map (map psi) (n_v a)) (n_w a)) (nd_rows (map phi x));
     do my <- l_fit Ly (drows n (fun r => l_pred Lx mx (drow (zeta (nth r z [])) (option_map psi (at_row (n_v a) r)) (at_row (n_w a) r)))
                              (option_map (map psi) (n_v a)) (n_w a)) (nd_rows (n_y a));
     Ok (fitted_state a n x_d (width (n_y a)) cats fx fv psi my)).
Proof.
  intros G H2. destruct G as [g_n0 g_xd0 g_zd0 g_kv0 g_y0 g_x0 g_xr0 g_z0 g_zr0 g_v0 g_w0 g_phi0 g_zeta0 g_psi0].
  destruct (basis_means _ _ _ _ _ g_phi0 g_xr0 g_n0 g_xd0) as (bx & fx & Bx & Fx & Ax).
  destruct (basis_means _ _ _ _ _ g_zeta0 g_zr0 g_n0 g_zd0) as (bz & fz & Bz & Fz & Az).
  destruct (v_basis_means _ _ _ _ _ g_psi0 g_v0 g_n0 g_kv0) as (bv & fv & Bv & Fv & Tv & Av).
  exists fx, fv. split; [exact Ax|]. split; [exact Av|].
  unfold np_fit. rewrite g_z0.
  replace (match n_xb a, n_zb a, n_vb a with BNone, BNone, BNone => true | _, _, _ => false end) with false
    by (destruct g_phi0; reflexivity).
  rewrite (fit_x_ok _ _ _ _ _ g_x0 g_xr0 g_n0 g_xd0). cbn [bind fst snd enc_z]. rewrite Bx, Bz, Bv. cbn [bind]. rewrite Fx.
  cbn [bind]. rewrite (Ax _ _ g_xr0 g_n0). cbn [bind]. unfold fit_z. rewrite Fz. cbn [bind]. rewrite (Az _ _ g_zr0 g_n0).
  cbn [bind]. rewrite Fv. cbn [bind]. rewrite Tv. cbn [bind].
  set (V := option_map (map psi) (n_v a)).
  assert (HV : forall l, V = Some l -> length l = n) by (apply map_length_o; now apply (orect_length n k_v)).
  assert (HW : forall l, n_w a = Some l -> length l = n) by (now apply (orect_length n k_w)).
  assert (Hz : length (map zeta z) = n) by (rewrite map_length; apply g_zr0).
  rewrite (kron_v_ok n) by auto. cbn [bind]. rewrite Hz. rewrite (get_wv_rows n) by (auto; now rewrite map_length, seq_length).
  cbn [bind].
  assert (ED : map (fun r => nth r (map (fun r0 => vprod (nth r0 (map zeta z) []) (at_row V r0)) (seq 0 n)) [] ++
                 match at_row (n_w a) r with Some w => w | None => [] end ++ [1%R]) (seq 0 n) =
               drows n (fun r => zeta (nth r z [])) V (n_w a)).
  { unfold drows. apply map_ext_in. intros r Hr. apply in_seq in Hr. rewrite nth_map_seq by lia. unfold drow, vprod.
    rewrite (nth_map_in _ _ [] []) by (rewrite <- Hz, map_length in Hr; lia). now destruct (at_row V r). }
  rewrite ED. clear ED. set (D := drows n (fun r => zeta (nth r z [])) V (n_w a)).
  destruct (l_fit Lx D (nd_rows (map phi x))) as [mx|] eqn:Em; [|reflexivity]. cbn [bind].
  destruct (H2 _ _ _ Em) as (Hd & Hp).
  assert (EK : kron_hat (predict Lx mx D) V = Ok (map (fun r => vprod (l_pred Lx mx (nth r D [])) (at_row V r)) (seq 0 n))).
  { unfold predict. rewrite Hd. unfold kron_hat. cbn [nd_shape nd_at]. assert (LD : length D = n) by apply drows_length. rewrite LD.
    assert (EX : map (fun r => map (fun k => nth k (l_pred Lx mx (nth r D [])) 0%R) (seq 0 (width (map phi x)))) (seq 0 n) =
                 map (fun r => l_pred Lx mx (nth r D [])) (seq 0 n)).
    { apply map_ext. intros r. rewrite <- (Hp (nth r D [])). apply (map_nth_seq 0%R). }
    cbn [nth]. rewrite EX. clear EX. destruct V as [v|].
    - rewrite (rkron_ok n) by (auto; now rewrite map_length, seq_length). f_equal. apply map_ext_in. intros r Hr.
      apply in_seq in Hr. cbn [at_row option_map vprod]. now rewrite nth_map_seq by lia.
    - reflexivity. }
  rewrite EK. clear EK. cbn [bind]. rewrite map_length, seq_length.
  rewrite (get_wv_rows n) by (auto; now rewrite map_length, seq_length). cbn [bind].
  match goal with |- bind (l_fit Ly ?A _) _ = bind (l_fit Ly ?B _) _ => assert (ED : A = B) end.
  { unfold drows. apply map_ext_in. intros r Hr. apply in_seq in Hr. rewrite nth_map_seq by lia. unfold drow at 1, vprod.
    assert (EV : option_map psi (at_row (n_v a) r) = at_row V r).
    { unfold V, at_row. pose proof g_v0 as G0; destruct (n_v a) as [v|] eqn:E; [|reflexivity]. cbn [option_map].
      rewrite (nth_map_in _ _ [] []); [reflexivity|]. rewrite (orect_length _ _ _ G0 _ eq_refl). lia. }
    rewrite EV. unfold D. rewrite drows_nth by lia. now destruct (at_row V r). }
  rewrite ED. clear ED. destruct (l_fit Ly _ _) as [my|]; [|reflexivity]. cbn [bind]. unfold fitted_state.
  rewrite (rect_width _ _ _ g_xr0 g_n0), g_y0. reflexivity.
Qed.

(** ** estimate *)
Lemma expand_ok {A} n x_d (l : list A) t : rows_arg n x_d l t -> 0 < x_d -> 0 < n -> expand x_d n l = Ok t.
Proof.
  intros H Hx Hn. unfold expand. destruct H as [r Hr|t [Hl HF]].
  - replace (reshape_rows x_d r) with (Ok [r]); [reflexivity|]. symmetry.
    rewrite <- (@reshape_concat _ x_d [r]); [cbn [concat]; now rewrite app_nil_r|lia|constructor; auto].
  - rewrite (@reshape_concat _ x_d t) by (auto; lia). cbn [bind]. destruct t as [|r [|r' t]]; cbn [length] in *; [lia| |].
    + subst n. reflexivity.
    + now rewrite Hl, Nat.eqb_refl.
Qed.
Lemma rows_arg_rect {A} n x_d (l : list A) t : rows_arg n x_d l t -> rect n x_d t.
Proof. destruct 1 as [r Hr|t H]; auto. now apply rect_repeat. Qed.
Lemma expand_repeat {A} n x_d (u : A) : 0 < x_d -> 0 < n -> expand x_d n (repeat u x_d) = Ok (repeat (repeat u x_d) n).
Proof. intros. apply expand_ok; auto. constructor. apply repeat_length. Qed.

Definition good_cats (x_d : nat) (cats : option (list (list label))) : Prop :=
  match cats with Some cs => length cs = x_d /\ Forall (StronglySorted llt) cs | None => True end.
Lemma x_means_cats X k x cats : x_means X k x cats -> good_cats k cats.
Proof. destruct 1 as [|k x cats rows _ HL HV _ _]; cbn; auto. split; auto. apply HV. Qed.

Lemma coded_rect cats n vs t : Forall2 (coded cats) vs t -> length vs = n -> rect n (length cats) t.
Proof.
  intros H Hn. split; [rewrite <- Hn; symmetry; eapply Forall2_length_eq; eauto|].
  clear Hn. induction H as [|v c vs t Hc H IH]; constructor; auto. apply Hc.
Qed.

Lemma np_arg_ok {L} (s : nstate L) n dflt t rows : 0 < n -> 0 < s_xd s -> good_cats (s_xd s) (s_cats s) ->
  t_means n (s_xd s) dflt (s_cats s) t rows ->
  exists u, np_arg s n dflt t = Ok u /\ np_encode s u = Ok rows /\ rect n (s_xd s) rows.
Proof.
  intros Hn Hx Hc Ht. unfold np_arg, np_encode. destruct (s_cats s) as [cats|] eqn:Ec.
  - cbn [good_cats] in Hc. destruct Hc as (HL & HS).
    assert (G : forall vs, rect n (s_xd s) vs -> Forall2 (coded cats) vs rows ->
              (do c <- ord_transform cats vs; Ok (codes_to_rows c)) = Ok rows /\ rect n (s_xd s) rows).
    { intros vs HR HF. rewrite <- HL in *. destruct (ord_transform_ok n cats vs rows HR Hn Hx HS HF) as (c & E & M). rewrite E. cbn [bind].
      split; [congruence|]. eapply coded_rect; eauto. apply HR. }
    inversion Ht as [| |cs l vs t0 HA HF|cs t0 HF]; subst.
    + rewrite (expand_ok _ _ _ _ HA Hx Hn). cbn [bind]. eexists. split; [reflexivity|]. apply G; auto. eapply rows_arg_rect; eauto.
    + rewrite (expand_repeat _ _ _ Hx Hn). cbn [bind]. eexists. split; [reflexivity|]. apply G; auto. apply rect_repeat, repeat_length.
  - inversion Ht as [|l t0 HA| |]; subst.
    + rewrite (expand_repeat _ _ _ Hx Hn). cbn [bind]. eexists. split; [reflexivity|]. split; [reflexivity|]. apply rect_repeat, repeat_length.
    + rewrite (expand_ok _ _ _ _ HA Hx Hn). cbn [bind]. eexists. split; [reflexivity|]. split; [reflexivity|]. eapply rows_arg_rect; eauto.
Qed.

Lemma np_check_ok {L} a n k_v k_w x_d y_d cats fx fv psi (m : Mdl L) data n' v w : 0 < n -> orect n k_v (n_v a) -> orect n k_w (n_w a) ->
  (n_v a <> None -> acts fv k_v psi) -> est_data a n k_v k_w data n' v w ->
  exists x, np_check (fitted_state a n x_d y_d cats fx fv psi m) data = Ok (option_map (map psi) v, w, x, n') /\
    0 < n' /\ orect n' k_v v /\ orect n' k_w w.
Proof.
  intros Hn HV HW HA HD. unfold np_check, fitted_state. cbn [s_vt s_w s_n s_wn s_vn s_vb].
  destruct HD as [|d v w Hd Hx Hv Hw]; [eexists; split; [reflexivity|]; auto|].
  destruct (nd_x d) as [x|] eqn:Ex; [|easy]. exists (Some x). unfold named.
  assert (EW : (if negb (is_none (n_w a)) then match nd_w d with Some c => Ok (Some c) | None => Err KeyError end else Ok None) = Ok w /\ orect (nd_n d) k_w w).
  { destruct (n_w a); cbn [is_none negb]; [|subst; split; [reflexivity|exact I]]. destruct Hw as (<- & Hw1 & Hw2). destruct (nd_w d); [now split|easy]. }
  destruct EW as (-> & EW). cbn [bind].
  assert (EV : (if negb (is_none (n_v a)) then match nd_v d with Some c => Ok (Some c) | None => Err KeyError end else Ok None) = Ok v /\ orect (nd_n d) k_v v).
  { destruct (n_v a); cbn [is_none negb]; [|subst; split; [reflexivity|exact I]]. destruct Hv as (<- & Hv1 & Hv2). destruct (nd_v d); [now split|easy]. }
  destruct EV as (-> & EV). cbn [bind].
  assert (ET : match v with Some v0 => basis_transform fv (Some v0) | None => Ok None end = Ok (option_map (map psi) v)).
  { destruct v as [v|]; [|reflexivity]. destruct (n_v a) eqn:E; [|easy]. apply (HA ltac:(discriminate) _ _ EV Hd). }
  rewrite ET. cbn [bind]. auto.
Qed.

Lemma np_prepare_ok {L} a n k_v k_w x_d y_d cats fx fv phi psi (m : Mdl L) data n' v w treat control t c :
  0 < n -> 0 < x_d -> good_cats x_d cats -> orect n k_v (n_v a) -> orect n k_w (n_w a) ->
  acts fx x_d phi -> (n_v a <> None -> acts fv k_v psi) -> est_data a n k_v k_w data n' v w ->
  t_means n' x_d 1 cats treat t -> t_means n' x_d 0 cats control c ->
  np_prepare (fitted_state a n x_d y_d cats fx fv psi m) data treat control false =
  Ok (predict L m (drows n' (fun r => phi (nth r t [])) (option_map (map psi) v) w),
      predict L m (drows n' (fun r => phi (nth r c [])) (option_map (map psi) v) w)).
Proof.
  intros Hn Hx Hc HV HW Ax Av HD Ht H0. unfold np_prepare.
  destruct (np_check_ok a n k_v k_w x_d y_d cats fx fv psi m data n' v w Hn HV HW Av HD) as (x & E & Hn' & HV' & HW').
  rewrite E. cbn [bind]. set (s := fitted_state _ _ _ _ _ _ _ _ _).
  destruct (np_arg_ok s n' 1 treat t Hn' Hx Hc Ht) as (ut & Et1 & Et2 & Rt).
  destruct (np_arg_ok s n' 0 control c Hn' Hx Hc H0) as (uc & Ec1 & Ec2 & Rc).
  rewrite Et1. cbn [bind]. rewrite Ec1. cbn [bind]. rewrite Et2. cbn [bind]. rewrite Ec2. cbn [bind fst snd].
  change (s_xb s) with fx. rewrite (Ax _ _ Rt Hn'), (Ax _ _ Rc Hn'). cbn [bind].
  assert (P : forall u, rect n' x_d u -> np_predict s (option_map (map psi) v) w (Some (map phi u)) n' =
            Ok (predict L m (drows n' (fun r => phi (nth r u [])) (option_map (map psi) v) w))).
  { intros u [Hu _]. rewrite (np_predict_ok s _ _ (map phi u) n').
    - change (s_m s) with m. do 2 f_equal. unfold drows. apply map_ext_in. intros r Hr. apply in_seq in Hr.
      now rewrite (nth_map_in _ _ [] []) by lia.
    - now rewrite map_length.
    - apply map_length_o. now apply (orect_length n' k_v).
    - now apply (orect_length n' k_w). }
  rewrite (P t Rt), (P c Rc). reflexivity.
Qed.

Lemma zip_same f a b : nd_shape a = nd_shape b ->
  exists e, zip_nd f a b = Ok e /\ entrywise f a b e.
Proof.
  intros E. unfold zip_nd. rewrite <- E. replace (list_eqb (nd_shape a) (nd_shape a)) with true.
  - eexists. split; [reflexivity|]. split; [reflexivity|]. split; auto.
  - symmetry. now apply list_eqb_eq.
Qed.
Lemma predict_shape L m X Y : length X = length Y -> nd_shape (predict L m X) = nd_shape (predict L m Y).
Proof. intros H. unfold predict. destruct (l_dim L m); cbn [nd_shape]; congruence. Qed.
