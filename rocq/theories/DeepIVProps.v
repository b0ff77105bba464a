(** C231-C236: properties of DeepIV and of DeepIVWrapper._f64to32 (deepiv.py, _nn.py, _factory.py). *)
From Coq Require Import ZArith QArith Qround String Lia.
From Verif Require Import Base DeepIVModel.
Unset Implicit Arguments.
Local Notation length := List.length.
Local Open Scope string_scope.
Local Open Scope list_scope.
Local Open Scope nat_scope.

Section Fit.
Context {P Cfg : Type}.
Variable K : kit P Cfg.
Notation DIV := (div P).

(** the configurations the two networks receive *)
Definition x_cfg (a : fargs Cfg) : option (cfg Cfg) := match a_xc a, a_yc a with None, None => Some (a_kw a) | c, _ => c end.
Definition y_cfg (a : fargs Cfg) : option (cfg Cfg) := match a_xc a, a_yc a with None, None => Some (a_kw a) | _, c => c end.
Definition enc (b : bool) (m : matrix) : matrix := if b then k_cat K m else m.

Ltac dcase H := match type of H with context [match ?q with DOk _ => _ | DErr _ => _ end] => let E := fresh "E" in destruct q eqn:E end.

Lemma wfit_ok : forall n c x w y n', wfit K n c x (Some w) y = (n', DOk tt) ->
  exists cc ex, c = Some cc /\ (c_dev cc = CPU \/ k_cuda K = true) /\
    items (to_lab (w_din n && (w_mdn n || negb (w_yn n))) x) w (to_lab (negb (w_mdn n) && w_dout n) y) = DOk ex /\
    n' = mkW (w_mdn n) (k_train K (c_opt cc) (w_din n && w_yn n) (w_par n) ex) (c_dev cc) (w_yn n) (w_din n) (w_dout n).
Proof.
  intros n c x w y n' H. unfold wfit in H. destruct c as [c|]; [|discriminate].
  destruct (c_dev c) eqn:Ed; [|destruct (k_cuda K) eqn:Ec; [|discriminate]];
    (destruct (items _ _ _) as [ex|e] eqn:Ei in H; [|discriminate]); injection H as <-;
    exists c, ex; repeat split; auto; rewrite Ed; reflexivity.
Qed.

Definition arr (m : option matrix) : matrix := match m with Some m => m | None => [] end.

(** everything a successful fit has gone through *)
Lemma fit_ok_inv : forall s a o o', fit K s a o = (o', DOk tt) ->
  exists inst adj y x z w xn xn' yn yn' xs ws,
    a_inst a = Some inst /\ a_adj a = Some adj /\
    get_array (a_data a) (Some (a_out a)) = DOk y /\ get_array (a_data a) (Some (a_treat a)) = DOk x /\
    get_array (a_data a) (Some inst) = DOk z /\ get_array (a_data a) (Some adj) = DOk (Some w) /\
    let y := enc (s_do s) (arr y) in let x := enc (s_dt s) (arr x) in let z := enc (s_dz s) (arr z) in
    let yd := width y (length (a_out a)) in let xd := width x (length (a_treat a)) in
    let wd := width w (length adj) in let zd := width z (length inst) in
    gen_x K s zd wd xd = DOk xn /\ gen_y K s xd wd yd = DOk yn /\
    wfit K xn (x_cfg a) z (Some w) x = (xn', DOk tt) /\
    (if a_approx a then sample K xn' z w (a_n a) else DOk x) = DOk xs /\
    (if s_dt s then DOk w else match a_n a with None => DErr (Py TypeError) | Some k => DOk (repeat_rows w k) end) = DOk ws /\
    wfit K yn (y_cfg a) xs (Some ws) y = (yn', DOk tt) /\
    o' = mkD (Some w) (Some adj) (Some (yd, xd, wd, zd)) (Some xn') (Some yn') true.
Proof.
  intros s a o o' H. unfold fit in H. destruct (a_inst a) as [inst|] eqn:Ei; [|discriminate].
  destruct (get_array (a_data a) (Some (a_out a))) as [y|e] eqn:Ey; cbn [dbind] in H; [|discriminate].
  destruct (get_array (a_data a) (Some (a_treat a))) as [x|e] eqn:Ex; cbn [dbind] in H; [|discriminate].
  destruct (get_array (a_data a) (Some inst)) as [z|e] eqn:Ez; cbn [dbind] in H; [|discriminate].
  destruct (a_adj a) as [adj|] eqn:Ea; [|cbn in H; discriminate].
  destruct (get_array (a_data a) (Some adj)) as [w|e] eqn:Ew; cbn [dbind] in H; [|discriminate].
  destruct w as [w|]; [|discriminate].
  cbn zeta in H.
  destruct (gen_x K s _ _ _) as [xn|e] eqn:Egx in H; [|discriminate].
  destruct (gen_y K s _ _ _) as [yn|e] eqn:Egy in H; [|discriminate].
  destruct (wfit K xn _ _ _ _) as [xn' rx] eqn:Ewx in H. destruct rx as [[]|e]; [|discriminate].
  destruct (if a_approx a then _ else _) as [xs|e] eqn:Es in H; cbn [dbind] in H; [|discriminate].
  destruct (if s_dt s then DOk w else _) as [ws|e] eqn:Ews in H; cbn [dbind] in H; [|discriminate].
  destruct (wfit K yn _ _ _ _) as [yn' ry] eqn:Ewy in H. destruct ry as [[]|e]; [|discriminate].
  injection H as <-.
  exists inst, adj, y, x, z, w, xn, xn', yn, yn', xs, ws. cbn zeta.
  repeat split; auto.
Qed.

Lemma run_dev : forall A (n : wrapper P) (f : nat -> inp -> row -> A) x w r, run n f x w = DOk r -> w_dev n = CPU.
Proof. intros A n f x w r H. unfold run in H. destruct (w_dev n); [reflexivity|discriminate]. Qed.
Lemma sample_dev : forall n z w k r, sample K n z w k = DOk r -> w_dev n = CPU.
Proof.
  intros n z w k r H. unfold sample in H. destruct (w_mdn n).
  - destruct (run n _ _ _) as [u|e] eqn:E in H; cbn [dbind] in H; [|discriminate]. eapply run_dev; exact E.
  - unfold predict_proba in H. destruct (negb (w_dout n)); [discriminate|]. eapply run_dev; exact H.
Qed.

Definition no_int (h : hid) : Prop := forall k, h <> HInt k.

(** C231: what a successful fit needs - the adjustment names, no user outcome network, hidden sizes that are not ints, both
    configurations or none, the number of draws for a continuous treatment, and the cpu for the treatment network *)
Theorem C231_fit_needs : forall s a o, snd (fit K s a o) = DOk tt ->
  a_inst a <> None /\ a_adj a <> None /\ s_ynet s = None /\ no_int (s_xh s) /\ no_int (s_yh s) /\
  (a_xc a = None <-> a_yc a = None) /\ (s_dt s = false -> a_n a <> None) /\
  (a_approx a = true -> exists c, x_cfg a = Some c /\ c_dev c = CPU).
Proof.
  intros s a o H. destruct (fit K s a o) as [o' r] eqn:E. cbn [snd] in H. subst r.
  apply fit_ok_inv in E.
  destruct E as (inst & adj & y & x & z & w & xn & xn' & yn & yn' & xs & ws & Hi & Ha & _ & _ & _ & _ & Hx & Hy & Hfx & Hs & Hws & Hfy & _).
  apply wfit_ok in Hfx. destruct Hfx as (cx & ex & Hcx & _ & _ & Exn).
  apply wfit_ok in Hfy. destruct Hfy as (cy & ey & Hcy & _ & _ & _).
  rewrite Hi, Ha. split; [discriminate|]. split; [discriminate|].
  unfold gen_y in Hy. unfold gen_x in Hx.
  destruct (hidden_list (s_yh s)) as [hy|e] eqn:Ehy in Hy; cbn [dbind] in Hy; [|discriminate].
  destruct (hidden_list (s_xh s)) as [hx|e] eqn:Ehx in Hx; cbn [dbind] in Hx; [|discriminate].
  split; [destruct (s_ynet s); [discriminate|reflexivity]|].
  split; [intros k Hk; rewrite Hk in Ehx; discriminate|].
  split; [intros k Hk; rewrite Hk in Ehy; discriminate|].
  split.
  { unfold x_cfg in Hcx. unfold y_cfg in Hcy. destruct (a_xc a), (a_yc a); split; intros Hn; try discriminate; auto. }
  split.
  { intros Hd. rewrite Hd in Hws. destruct (a_n a); [discriminate|discriminate Hws]. }
  intros Hap. rewrite Hap in Hs. apply sample_dev in Hs. exists cx. split; [exact Hcx|].
  rewrite Exn in Hs. exact Hs.
Qed.

(** the documented defaults: adjustment=None; device='cuda' with approx_grad=True; sample_n=None with a continuous treatment;
    x_hidden_d an int; y_net given *)
Theorem C231_default_device_refuted : forall s a o,
  a_xc a = None -> a_yc a = None -> c_dev (a_kw a) = CUDA -> a_approx a = true -> snd (fit K s a o) <> DOk tt.
Proof.
  intros s a o H1 H2 Hc Ha H. apply C231_fit_needs in H. destruct H as (_ & _ & _ & _ & _ & _ & _ & Hd).
  destruct (Hd Ha) as (c & E & E2). unfold x_cfg in E. rewrite H1, H2 in E. injection E as <-. congruence.
Qed.
Theorem C231_no_adjustment_refuted : forall s a o inst y x z,
  a_inst a = Some inst -> a_adj a = None ->
  get_array (a_data a) (Some (a_out a)) = DOk y -> get_array (a_data a) (Some (a_treat a)) = DOk x ->
  get_array (a_data a) (Some inst) = DOk z ->
  fit K s a o = (mkD None None (d_dims o) (d_x o) (d_y o) (d_fit o), DErr (Py ValueError)).
Proof. intros s a o inst y x z Hi Ha Hy Hx Hz. unfold fit. rewrite Hi, Hy, Hx, Hz, Ha. reflexivity. Qed.
Theorem C231_continuous_default_refuted : forall s a o, s_dt s = false -> a_n a = None -> snd (fit K s a o) <> DOk tt.
Proof. intros s a o Hd Hn H. apply C231_fit_needs in H. destruct H as (_ & _ & _ & _ & _ & _ & Hs & _). exact (Hs Hd Hn). Qed.
Theorem C231_user_outcome_net_refuted : forall s a o u, s_ynet s = Some u -> snd (fit K s a o) <> DOk tt.
Proof. intros s a o u Hu H. apply C231_fit_needs in H. destruct H as (_ & _ & E & _). congruence. Qed.
Theorem C231_int_hidden_refuted : forall s a o k, s_xh s = HInt k \/ s_yh s = HInt k -> snd (fit K s a o) <> DOk tt.
Proof. intros s a o k Hk H. apply C231_fit_needs in H. destruct H as (_ & _ & _ & H1 & H2 & _). destruct Hk as [Hk|Hk]; [exact (H1 k Hk)|exact (H2 k Hk)]. Qed.

(** C232: which examples the two networks are trained on.  Row i of the frame, as the code reads it *)
Fixpoint row_at (d : frame) (names : list string) (i : nat) : row :=
  match names with [] => [] | c :: r => nth i (match col c (f_cols d) with Some v => v | None => [] end) 0%Q :: row_at d r i end.
Definition has_cols (d : frame) (names : list string) : Prop := forall c, In c names -> col c (f_cols d) <> None.
Definition rows (d : frame) (names : list string) : matrix := map (row_at d names) (seq 0 (f_n d)).

Lemma dmapM_cols : forall d names cs,
  dmapM (fun c => match col c (f_cols d) with Some v => DOk v | None => DErr (Py KeyError) end) names = DOk cs ->
  has_cols d names /\ forall i, map (fun c : list Q => nth i c 0%Q) cs = row_at d names i.
Proof.
  intros d names. induction names as [|c r IH]; intros cs H; cbn in H.
  - injection H as <-. split; [intros c []|reflexivity].
  - destruct (col c (f_cols d)) as [v|] eqn:Ec; cbn in H; [|discriminate].
    destruct (dmapM _ r) as [bs|e] eqn:Eb; cbn in H; [|discriminate]. injection H as <-.
    destruct (IH bs eq_refl) as [H1 H2]. split.
    + intros c' [<-|Hc]; [congruence|exact (H1 c' Hc)].
    + intros i. cbn. rewrite Ec, H2. reflexivity.
Qed.
Lemma dmapM_cols_ok : forall d names, has_cols d names ->
  exists cs, dmapM (fun c => match col c (f_cols d) with Some v => DOk v | None => DErr (Py KeyError) end) names = DOk cs.
Proof.
  intros d names. induction names as [|c r IH]; intros H; cbn; [eexists; reflexivity|].
  destruct (col c (f_cols d)) as [v|] eqn:Ec; [|exfalso; exact (H c (or_introl eq_refl) Ec)].
  cbn. destruct IH as [cs E]; [intros c' Hc; apply H; right; exact Hc|]. rewrite E. eexists; reflexivity.
Qed.
Lemma get_array_rows : forall d names m, get_array d (Some names) = DOk m -> has_cols d names /\ m = Some (rows d names).
Proof.
  intros d names m H. unfold get_array in H. destruct (dmapM _ names) as [cs|e] eqn:E in H; cbn in H; [|discriminate].
  apply dmapM_cols in E. destruct E as [E1 E2]. injection H as <-. split; [exact E1|]. f_equal. unfold rows.
  apply map_ext. intros i. apply E2.
Qed.
Lemma get_array_ok : forall d names, has_cols d names -> get_array d (Some names) = DOk (Some (rows d names)).
Proof.
  intros d names H. destruct (dmapM_cols_ok d names H) as [cs E]. unfold get_array. rewrite E. cbn.
  apply dmapM_cols in E. destruct E as [_ E]. do 2 f_equal. unfold rows. apply map_ext. intros i. apply E.
Qed.

Lemma items_ok : forall x w y ex, items x w y = DOk ex ->
  length ex = length y /\ forall i, i < length y -> forall d, exists a b c,
    nth_error x i = Some a /\ nth_error w i = Some b /\ nth_error y i = Some c /\ nth i ex d = (a, b, c).
Proof.
  intros x w y. revert x w. induction y as [|t y IH]; intros x w ex H; cbn in H.
  - inversion H; subst. split; [reflexivity|]. cbn. intros i Hi. lia.
  - destruct x as [|a x]; [discriminate|]. destruct w as [|b w]; [discriminate|].
    destruct (items x w y) as [r|e] eqn:E; cbn in H; [|discriminate]. inversion H; subst ex.
    destruct (IH x w r E) as [H1 H2]. cbn. split; [congruence|].
    intros [|i] Hi d; [exists a, b, t; repeat split|]. cbn. apply H2. lia.
Qed.
Lemma items_prefix : forall y x x' w w' ex, items x w y = DOk ex -> items (x ++ x') (w ++ w') y = DOk ex.
Proof.
  induction y as [|t y IH]; intros x x' w w' ex H; cbn in *; [exact H|].
  destruct x as [|a x]; [discriminate|]. destruct w as [|b w]; [discriminate|]. cbn.
  destruct (items x w y) as [r|e] eqn:E; cbn in H; [|discriminate]. rewrite (IH x x' w w' r E). exact H.
Qed.
Lemma items_total : forall y x w, length y <= length x -> length y <= length w -> exists ex, items x w y = DOk ex.
Proof.
  induction y as [|t y IH]; intros x w H1 H2; [eexists; reflexivity|].
  destruct x as [|a x]; cbn in *; [lia|]. destruct w as [|b w]; cbn in *; [lia|].
  destruct (IH x w) as [ex E]; [lia|lia|]. rewrite E. eexists; reflexivity.
Qed.

Lemma dmapM_ok : forall A B (f : A -> dres B) (g : A -> B) l, (forall a, In a l -> f a = DOk (g a)) -> dmapM f l = DOk (map g l).
Proof.
  intros A B f g l. induction l as [|a l IH]; intros H; [reflexivity|]. cbn. rewrite (H a (or_introl eq_refl)). cbn.
  rewrite IH; [reflexivity|]. intros b Hb. apply H. right. exact Hb.
Qed.
Lemma run_ok_gen : forall A (din : bool) (f : nat -> inp -> row -> A) x w k,
  length x = length w -> (forall a, In a x -> fwd_ok din a = true) ->
  dmapM (fun ixw => let '(i, (a, b)) := ixw in if fwd_ok din a then DOk (f i a b) else DErr RuntimeErr)
        (combine (seq k (length x)) (combine x w))
  = DOk (map (fun i => f (k + i) (nth i x (Lab 0)) (nth i w [])) (seq 0 (length x))).
Proof.
  intros A din f x. induction x as [|a x IH]; intros w k Hl Hf; [reflexivity|].
  destruct w as [|b w]; [discriminate|]. cbn [length seq combine dmapM].
  rewrite (Hf a (or_introl eq_refl)). cbn [dbind]. rewrite IH; [|cbn in Hl; lia|intros c Hc; apply Hf; right; exact Hc].
  cbn [dbind map nth]. rewrite Nat.add_0_r. do 2 f_equal. rewrite <- seq_shift, map_map. apply map_ext.
  intros i. cbn. rewrite Nat.add_succ_r. reflexivity.
Qed.
Lemma run_ok : forall A (n : wrapper P) (f : nat -> inp -> row -> A) x w,
  w_dev n = CPU -> length x = length w -> (forall a, In a x -> fwd_ok (w_din n) a = true) ->
  run n f x w = DOk (map (fun i => f i (nth i x (Lab 0)) (nth i w [])) (seq 0 (length x))).
Proof.
  intros A n f x w Hd Hl Hf. unfold run. rewrite Hd, Hl, Nat.eqb_refl. cbn [negb]. rewrite <- Hl.
  rewrite (run_ok_gen A (w_din n) f x w 0 Hl Hf). reflexivity.
Qed.

Lemma map_seq_nth : forall A (l : list A) d, map (fun i => nth i l d) (seq 0 (length l)) = l.
Proof.
  intros A l d. induction l as [|a l IH]; [reflexivity|]. cbn. rewrite <- seq_shift, map_map. rewrite IH. reflexivity.
Qed.
Lemma items_seq : forall (x : nat -> inp) (w : nat -> row) (y : nat -> inp) n k,
  items (map x (seq k n)) (map w (seq k n)) (map y (seq k n)) = DOk (map (fun i => (x i, w i, y i)) (seq k n)).
Proof.
  intros x w y n. induction n as [|n IH]; intros k; [reflexivity|]. cbn. rewrite IH. reflexivity.
Qed.
Lemma row_at_length : forall d names i, length (row_at d names i) = length names.
Proof. intros d names i. induction names; cbn; congruence. Qed.
Lemma width_rows : forall d names, width (rows d names) (length names) = length names.
Proof. intros d names. unfold rows, width. destruct (f_n d); [reflexivity|]. cbn. apply row_at_length. Qed.
Lemma rows_length : forall d names, length (rows d names) = f_n d.
Proof. intros. unfold rows. rewrite map_length, seq_length. reflexivity. Qed.

(** the hidden sizes a default network gets, of the three documented options *)
Definition sizes (h : hid) : option (list nat) :=
  match h with HNone => Some [64; 128; 64] | HInt _ => None | HList l => if length l <=? 3 then Some l else None end.
Lemma sizes_hidden : forall h l, sizes h = Some l -> hidden_list h = DOk l /\ (3 <? length l) = false.
Proof.
  intros h l H. destruct h as [|k|m]; unfold sizes in H; [injection H as <-; split; reflexivity|discriminate|].
  destruct (length m <=? 3) eqn:E; [|discriminate]. injection H as <-. split; [reflexivity|].
  apply Nat.leb_le in E. assert (X : (3 <? length m) = false) by (apply Nat.ltb_ge; exact E). exact X.
Qed.

(** a call of fit on existing columns, with the configurations cx and cy, both on the cpu *)
Record good_call (s : spec P) (a : fargs Cfg) (inst adj : list string) (hx hy : list nat) (cx cy : cfg Cfg) : Prop := {
  g_inst : a_inst a = Some inst; g_adj : a_adj a = Some adj;
  g_cols : has_cols (a_data a) (a_out a) /\ has_cols (a_data a) (a_treat a) /\ has_cols (a_data a) inst /\ has_cols (a_data a) adj;
  g_x : s_xnet s = None; g_y : s_ynet s = None; g_hx : sizes (s_xh s) = Some hx; g_hy : sizes (s_yh s) = Some hy;
  g_cx : x_cfg a = Some cx; g_cy : y_cfg a = Some cy; g_dx : c_dev cx = CPU; g_dy : c_dev cy = CPU;
  g_treat : a_treat a <> [] }.

Lemma fit_step : forall s a o inst adj hx hy cx cy, good_call s a inst adj hx hy cx cy ->
  forall y x z w, y = enc (s_do s) (rows (a_data a) (a_out a)) -> x = enc (s_dt s) (rows (a_data a) (a_treat a)) ->
  z = enc (s_dz s) (rows (a_data a) inst) -> w = rows (a_data a) adj ->
  forall yd xd wd zd, yd = width y (length (a_out a)) -> xd = width x (length (a_treat a)) -> wd = length adj -> zd = width z (length inst) ->
  forall xn yn xn' yn' xs ws,
  gen_x K s zd wd xd = DOk xn -> gen_y K s xd wd yd = DOk yn ->
  wfit K xn (Some cx) z (Some w) x = (xn', DOk tt) ->
  (if a_approx a then sample K xn' z w (a_n a) else DOk x) = DOk xs ->
  (if s_dt s then DOk w else match a_n a with None => DErr (Py TypeError) | Some k => DOk (repeat_rows w k) end) = DOk ws ->
  wfit K yn (Some cy) xs (Some ws) y = (yn', DOk tt) ->
  fit K s a o = (mkD (Some w) (Some adj) (Some (yd, xd, wd, zd)) (Some xn') (Some yn') true, DOk tt).
Proof.
  intros s a o inst adj hx hy cx cy G y x z w Ey Ex Ez Ew yd xd wd zd Eyd Exd Ewd Ezd xn yn xn' yn' xs ws Hx Hy Hfx Hs Hw Hfy.
  destruct G as [Gi Ga [Gc1 [Gc2 [Gc3 Gc4]]] _ _ _ _ Gcx Gcy _ _ _].
  unfold fit. rewrite Gi, Ga. fold (x_cfg a). fold (y_cfg a). rewrite Gcx, Gcy.
  rewrite (get_array_ok _ _ Gc1), (get_array_ok _ _ Gc2), (get_array_ok _ _ Gc3), (get_array_ok _ _ Gc4). cbn [dbind].
  cbv zeta. cbn beta iota.
  change (if s_dt s then k_cat K (rows (a_data a) (a_treat a)) else rows (a_data a) (a_treat a)) with (enc (s_dt s) (rows (a_data a) (a_treat a))).
  change (if s_dz s then k_cat K (rows (a_data a) inst) else rows (a_data a) inst) with (enc (s_dz s) (rows (a_data a) inst)).
  change (if s_do s then k_cat K (rows (a_data a) (a_out a)) else rows (a_data a) (a_out a)) with (enc (s_do s) (rows (a_data a) (a_out a))).
  rewrite (width_rows (a_data a) adj), <- Ewd.
  rewrite <- Ey, <- Ex, <- Ez, <- Ew. rewrite <- Eyd, <- Exd, <- Ezd.
  rewrite Hx, Hy, Hfx. rewrite Hs. cbn [dbind]. rewrite Hw. cbn [dbind]. rewrite Hfy. reflexivity.
Qed.

Lemma any_args : forall a b c, c <> 0 -> negb (negb (a =? 0) || negb (b =? 0) || negb (c =? 0)) = false.
Proof. intros a b c H. destruct (c =? 0) eqn:E; [apply Nat.eqb_eq in E; contradiction|]. rewrite !Bool.orb_true_r. reflexivity. Qed.
Lemma any_args1 : forall a b c, a <> 0 -> negb (negb (a =? 0) || negb (b =? 0) || negb (c =? 0)) = false.
Proof. intros a b c H. destruct (a =? 0) eqn:E; [apply Nat.eqb_eq in E; contradiction|]. reflexivity. Qed.

Lemma wfit_good : forall n cc x w y ex, c_dev cc = CPU ->
  items (to_lab (w_din n && (w_mdn n || negb (w_yn n))) x) w (to_lab (negb (w_mdn n) && w_dout n) y) = DOk ex ->
  wfit K n (Some cc) x (Some w) y = (mkW (w_mdn n) (k_train K (c_opt cc) (w_din n && w_yn n) (w_par n) ex) CPU (w_yn n) (w_din n) (w_dout n), DOk tt).
Proof. intros n cc x w y ex Hd Hi. unfold wfit. rewrite Hd, Hi. reflexivity. Qed.

Lemma items_two : forall (x : nat -> inp) (w : nat -> row) (y : nat -> inp) n xs ws,
  (exists x', xs = map x (seq 0 n) ++ x') -> (exists w', ws = map w (seq 0 n) ++ w') ->
  items xs ws (map y (seq 0 n)) = DOk (map (fun i => (x i, w i, y i)) (seq 0 n)).
Proof. intros x w y n xs ws [x' ->] [w' ->]. apply items_prefix. apply items_seq. Qed.

(** C232: the whole outcome of a fit with continuous treatment, instrument and outcome, whatever the number S k of draws asked
    for: one example per row of the frame, with draw number 0 (or the observed treatment if approx_grad is off) *)
Theorem C232_fit_continuous : forall s a o inst adj hx hy cx cy k, good_call s a inst adj hx hy cx cy ->
  s_dt s = false -> s_dz s = false -> s_do s = false -> a_n a = Some (S k) ->
  let d := a_data a in let ids := seq 0 (f_n d) in
  let z i := Vec (row_at d inst i) in let w i := row_at d adj i in
  let x i := Vec (row_at d (a_treat a) i) in let y i := Vec (row_at d (a_out a) i) in
  let zd := length inst in let wd := length adj in let xd := length (a_treat a) in let yd := length (a_out a) in
  let px := k_train K (c_opt cx) false (k_mdn K zd wd xd hx (match s_ng s with Some g => g | None => 5 end) false)
                    (map (fun i => (z i, w i, x i)) ids) in
  let x2 i := if a_approx a then Vec (k_draw K px 0 i (z i) (w i)) else x i in
  let py := k_train K (c_opt cy) false (k_net K xd wd yd hy false false) (map (fun i => (x2 i, w i, y i)) ids) in
  fit K s a o = (mkD (Some (map w ids)) (Some adj) (Some (yd, xd, wd, zd))
                     (Some (mkW true px CPU false false false)) (Some (mkW false py CPU true false false)) true, DOk tt).
Proof.
  intros s a o inst adj hx hy cx cy k G Ht Hz Ho Hn d ids z w x y zd wd xd yd px x2 py.
  assert (Hxd : xd <> 0). { unfold xd. destruct (a_treat a) eqn:E; [exfalso; exact (g_treat _ _ _ _ _ _ _ _ G E)|discriminate]. }
  destruct (sizes_hidden _ _ (g_hx _ _ _ _ _ _ _ _ G)) as [Hhx Hhx3].
  destruct (sizes_hidden _ _ (g_hy _ _ _ _ _ _ _ _ G)) as [Hhy Hhy3].
  eapply (fit_step s a o inst adj hx hy cx cy G) with (y := rows d (a_out a)) (x := rows d (a_treat a)) (z := rows d inst)
    (w := map w ids) (xs := if a_approx a then List.concat (map (fun j => map (fun i => k_draw K px j i (z i) (w i)) ids) (seq 0 (S k))) else rows d (a_treat a))
    (ws := repeat_rows (map w ids) (S k))
    (xn := mkW true (k_mdn K zd wd xd hx (match s_ng s with Some g => g | None => 5 end) false) CPU false false false)
    (yn := mkW false (k_net K xd wd yd hy false false) CPU true false false);
    [rewrite Ho; reflexivity|rewrite Ht; reflexivity|rewrite Hz; reflexivity|reflexivity|
     symmetry; apply width_rows|symmetry; apply width_rows|reflexivity|symmetry; apply width_rows| | | | | |].
  - unfold gen_x. rewrite Hhx. cbn [dbind]. rewrite (g_x _ _ _ _ _ _ _ _ G), (any_args _ _ _ Hxd), Hhx3, Ht, Hz. reflexivity.
  - unfold gen_y. rewrite Hhy. cbn [dbind]. rewrite (g_y _ _ _ _ _ _ _ _ G), (any_args1 _ _ _ Hxd), Hhy3, Ht, Ho. reflexivity.
  - apply wfit_good; [exact (g_dx _ _ _ _ _ _ _ _ G)|]. cbn [w_din w_mdn w_yn w_dout andb orb negb].
    unfold to_lab, rows. rewrite !map_map. apply (items_seq z w x).
  - cbn [w_din w_mdn w_yn w_par w_dout andb orb negb]. fold px. destruct (a_approx a) eqn:Eap; [|reflexivity].
    unfold sample. cbn [w_mdn w_par]. rewrite Hn.
    assert (Hrun : forall A (f : nat -> inp -> row -> A), run (mkW true px CPU false false false) f (map Vec (rows d inst)) (map w ids)
                   = DOk (map (fun i => f i (z i) (w i)) ids)).
    { intros A f. rewrite run_ok; [|reflexivity|unfold rows; rewrite !map_length; reflexivity|].
      - unfold rows. rewrite !map_length, seq_length. f_equal. apply map_ext_in. intros i Hi. apply in_seq in Hi.
        rewrite map_map. unfold ids. f_equal.
        + rewrite nth_indep with (d' := Vec (row_at d inst 0)) by (rewrite map_length, seq_length; lia).
          rewrite (map_nth (fun i => Vec (row_at d inst i))). rewrite seq_nth by lia. reflexivity.
        + rewrite nth_indep with (d' := w 0) by (rewrite map_length, seq_length; lia).
          rewrite (map_nth w). rewrite seq_nth by lia. reflexivity.
      - intros b Hb. apply in_map_iff in Hb. destruct Hb as (r & <- & _). reflexivity. }
    rewrite Hrun. cbn [dbind]. rewrite (dmapM_ok _ _ _ (fun j => map (fun i => k_draw K px j i (z i) (w i)) ids)); [reflexivity|].
    intros j _. apply Hrun.
  - rewrite Ht, Hn. reflexivity.
  - rewrite (wfit_good _ cy _ _ _ (map (fun i => (x2 i, w i, y i)) ids)); [reflexivity|exact (g_dy _ _ _ _ _ _ _ _ G)|].
    cbn [w_din w_mdn w_yn w_dout andb orb negb]. unfold to_lab.
    unfold rows at 2. rewrite map_map. apply (items_two x2 w y).
    + unfold x2. destruct (a_approx a).
      * cbn [seq map List.concat]. rewrite map_app, map_map. eexists. reflexivity.
      * unfold rows. rewrite map_map. exists []. rewrite app_nil_r. reflexivity.
    + unfold repeat_rows. cbn. eexists. reflexivity.
Qed.

(** C232: sample_n has no effect beyond being given and positive *)
Definition with_n (a : fargs Cfg) (k : option nat) : fargs Cfg :=
  mkA (a_data a) (a_out a) (a_treat a) (a_inst a) (a_adj a) (a_approx a) k (a_xc a) (a_yc a) (a_kw a).
Theorem C232_sample_n_ignored_refuted : forall s a o inst adj hx hy cx cy k m, good_call s a inst adj hx hy cx cy ->
  s_dt s = false -> s_dz s = false -> s_do s = false ->
  fit K s (with_n a (Some (S k))) o = fit K s (with_n a (Some (S m))) o.
Proof.
  intros s a o inst adj hx hy cx cy k m G Ht Hz Ho.
  assert (G' : forall j, good_call s (with_n a j) inst adj hx hy cx cy) by (intros j; destruct G; constructor; assumption).
  rewrite (C232_fit_continuous s (with_n a (Some (S k))) o inst adj hx hy cx cy k (G' _) Ht Hz Ho eq_refl).
  rewrite (C232_fit_continuous s (with_n a (Some (S m))) o inst adj hx hy cx cy m (G' _) Ht Hz Ho eq_refl).
  reflexivity.
Qed.

(** C232: discrete treatment, continuous instrument and outcome: the treatment network learns the label of each row, the outcome
    network is trained on the predicted probabilities, one example per row (cats: the one-hot rows of sklearn) *)
Theorem C232_fit_discrete : forall s a o inst adj hx hy cx cy cats, good_call s a inst adj hx hy cx cy ->
  s_dt s = true -> s_dz s = false -> s_do s = false -> a_approx a = true ->
  let d := a_data a in let ids := seq 0 (f_n d) in
  (forall i, i < f_n d -> nth_error (k_cat K (rows d (a_treat a))) i = Some (cats i)) -> length (k_cat K (rows d (a_treat a))) = f_n d ->
  let z i := Vec (row_at d inst i) in let w i := row_at d adj i in
  let x i := Lab (argmax (cats i)) in let y i := Vec (row_at d (a_out a) i) in
  let zd := length inst in let wd := length adj in let yd := length (a_out a) in
  forall xd, xd = width (k_cat K (rows d (a_treat a))) (length (a_treat a)) -> xd <> 0 ->
  let px := k_train K (c_opt cx) false (k_net K zd wd xd hx false true) (map (fun i => (z i, w i, x i)) ids) in
  let x2 i := Vec (k_soft K (k_fwd K px (z i) (w i))) in
  let py := k_train K (c_opt cy) true (k_net K xd wd yd hy true false) (map (fun i => (x2 i, w i, y i)) ids) in
  fit K s a o = (mkD (Some (map w ids)) (Some adj) (Some (yd, xd, wd, zd))
                     (Some (mkW false px CPU false false true)) (Some (mkW false py CPU true true false)) true, DOk tt).
Proof.
  intros s a o inst adj hx hy cx cy cats G Ht Hz Ho Hap d ids Hc Hcl z w x y zd wd yd xd Exd Hxd px x2 py.
  destruct (sizes_hidden _ _ (g_hx _ _ _ _ _ _ _ _ G)) as [Hhx Hhx3].
  destruct (sizes_hidden _ _ (g_hy _ _ _ _ _ _ _ _ G)) as [Hhy Hhy3].
  assert (Hcat : k_cat K (rows d (a_treat a)) = map cats ids).
  { rewrite <- (map_seq_nth _ (k_cat K (rows d (a_treat a))) []). rewrite Hcl. apply map_ext_in. intros i Hi. apply in_seq in Hi.
    apply nth_error_nth. apply Hc. lia. }
  eapply (fit_step s a o inst adj hx hy cx cy G) with (y := rows d (a_out a)) (x := map cats ids) (z := rows d inst)
    (w := map w ids) (xs := map (fun i => k_soft K (k_fwd K px (z i) (w i))) ids)
    (ws := map w ids)
    (xn := mkW false (k_net K zd wd xd hx false true) CPU false false true)
    (yn := mkW false (k_net K xd wd yd hy true false) CPU true true false);
    [rewrite Ho; reflexivity|rewrite Ht; symmetry; exact Hcat|rewrite Hz; reflexivity|reflexivity|
     symmetry; apply width_rows|rewrite <- Hcat; exact Exd|reflexivity|symmetry; apply width_rows| | | | | |].
  - unfold gen_x. rewrite Hhx. cbn [dbind]. rewrite (g_x _ _ _ _ _ _ _ _ G), (any_args _ _ _ Hxd), Hhx3, Ht, Hz. reflexivity.
  - unfold gen_y. rewrite Hhy. cbn [dbind]. rewrite (g_y _ _ _ _ _ _ _ _ G), (any_args1 _ _ _ Hxd), Hhy3, Ht, Ho. reflexivity.
  - apply wfit_good; [exact (g_dx _ _ _ _ _ _ _ _ G)|]. cbn [w_din w_mdn w_yn w_dout andb orb negb].
    unfold to_lab, rows. rewrite !map_map. apply (items_seq z w x).
  - cbn [w_din w_mdn w_yn w_par w_dout andb orb negb]. fold px. rewrite Hap.
    unfold sample, predict_proba. cbn [w_mdn w_par w_dout negb]. unfold labels. cbn [w_din].
    rewrite run_ok; [|reflexivity|unfold rows; rewrite !map_length; reflexivity|].
    + unfold rows. rewrite !map_length, seq_length. f_equal. apply map_ext_in. intros i Hi. apply in_seq in Hi.
      rewrite map_map. unfold ids. f_equal. f_equal.
      * rewrite nth_indep with (d' := Vec (row_at d inst 0)) by (rewrite map_length, seq_length; lia).
        rewrite (map_nth (fun i => Vec (row_at d inst i))). rewrite seq_nth by lia. reflexivity.
      * rewrite nth_indep with (d' := w 0) by (rewrite map_length, seq_length; lia).
        rewrite (map_nth w). rewrite seq_nth by lia. reflexivity.
    + intros b Hb. apply in_map_iff in Hb. destruct Hb as (r & <- & _). reflexivity.
  - rewrite Ht. reflexivity.
  - rewrite (wfit_good _ cy _ _ _ (map (fun i => (x2 i, w i, y i)) ids)); [reflexivity|exact (g_dy _ _ _ _ _ _ _ _ G)|].
    cbn [w_din w_mdn w_yn w_dout andb orb negb]. unfold to_lab, rows. rewrite !map_map. apply (items_seq x2 w y).
Qed.

(** C232: a continuous treatment with a discrete instrument cannot be drawn: the mixture network gets one-hot vectors where it
    wants labels *)
Theorem C232_discrete_instrument_refuted : forall s a o,
  s_dt s = false -> s_dz s = true -> s_xnet s = None -> a_approx a = true ->
  f_n (a_data a) <> 0 -> (forall m, length (k_cat K m) = length m) -> snd (fit K s a o) <> DOk tt.
Proof.
  intros s a o Ht Hz Hx Hap Hn Hcat H. destruct (fit K s a o) as [o' r] eqn:E. cbn in H. subst r.
  apply fit_ok_inv in E.
  destruct E as (inst & adj & y & x & z & w & xn & xn' & yn & yn' & xs & ws & _ & _ & _ & _ & Gz & Gw & Gx & _ & Hfx & Hs & _).
  apply get_array_rows in Gz. destruct Gz as [_ ->]. apply get_array_rows in Gw. destruct Gw as [_ Gw]. injection Gw as ->.
  cbn [arr] in *. unfold enc in *. rewrite Hz in *. rewrite Hap in Hs.
  unfold gen_x in Gx. destruct (hidden_list (s_xh s)); cbn [dbind] in Gx; [|discriminate]. rewrite Hx in Gx.
  destruct (negb _) in Gx; [discriminate|]. destruct (3 <? _) in Gx; [discriminate|]. injection Gx as <-.
  apply wfit_ok in Hfx. destruct Hfx as (cc & ex & _ & _ & _ & ->). cbn in Hs. unfold sample in Hs. rewrite Ht, Hz in Hs. cbn in Hs.
  unfold run in Hs. cbn in Hs. destruct (c_dev cc); [|discriminate].
  rewrite map_length, Hcat, !rows_length, Nat.eqb_refl in Hs. cbn in Hs.
  destruct (k_cat K (rows (a_data a) inst)) as [|c1 cr] eqn:Ec.
  { apply (f_equal (@List.length _)) in Ec. rewrite Hcat, rows_length in Ec. cbn in Ec. lia. }
  assert (Hr : f_n (a_data a) = S (length cr)). { rewrite <- (rows_length (a_data a) inst), <- Hcat, Ec. reflexivity. }
  unfold rows in Hs. rewrite Hr in Hs. cbn in Hs. discriminate.
Qed.
End Fit.

Section Estimate.
Context {P Cfg : Type}.
Variable K : kit P Cfg.

(** weights of the trained outcome network *)
Definition outcome_weights (o : div P) : option P := match d_y o with Some n => Some (w_par n) | None => None end.
(** the rows estimate works on: those of the frame of fit, or those of the test frame *)
Definition test_frame (a : fargs Cfg) (adj : list string) (data : option frame) (d : frame) : Prop :=
  match data with None => d = a_data a | Some d' => d = d' /\ has_cols d' adj end.

Lemma fit_state : forall s a o o' adj cy, fit K s a o = (o', DOk tt) -> a_adj a = Some adj -> y_cfg a = Some cy -> c_dev cy = CPU ->
  exists xn p xd wd zd yd,
    o' = mkD (Some (rows (a_data a) adj)) (Some adj) (Some (yd, xd, wd, zd)) (Some xn) (Some (mkW false p CPU true (s_dt s) (s_do s))) true /\
    (s_dt s = false -> xd = length (a_treat a)) /\ (s_do s = false -> yd = length (a_out a)).
Proof.
  intros s a o o' adj cy H Ha Hcy Hd. apply fit_ok_inv in H.
  destruct H as (inst & adj' & y & x & z & w & xn & xn' & yn & yn' & xs & ws & _ & Ha' & Gy & Gx & _ & Gw & _ & Hy & _ & _ & _ & Hfy & ->).
  rewrite Ha in Ha'. injection Ha' as <-. apply get_array_rows in Gw. destruct Gw as [_ Gw]. injection Gw as ->.
  apply get_array_rows in Gx. destruct Gx as [_ ->]. apply get_array_rows in Gy. destruct Gy as [_ ->]. cbn [arr] in *.
  unfold gen_y in Hy. destruct (hidden_list (s_yh s)) as [h|e]; cbn [dbind] in Hy; [|discriminate].
  destruct (s_ynet s); [discriminate|]. destruct (negb _) in Hy; [discriminate|]. destruct (3 <? _) in Hy; [discriminate|].
  injection Hy as <-. apply wfit_ok in Hfy. destruct Hfy as (cc & ex & Hcc & _ & _ & ->). rewrite Hcy in Hcc. injection Hcc as <-.
  cbn [w_mdn w_yn w_din w_dout w_par]. rewrite Hd. do 6 eexists. split; [reflexivity|].
  unfold enc. split; intros E; rewrite E; apply width_rows.
Qed.

Lemma get_w_test : forall a adj data d xn yn dims b, test_frame a adj data d ->
  get_w (mkD (Some (rows (a_data a) adj)) (Some adj) dims xn yn b : div P) data = DOk (rows d adj).
Proof.
  intros a adj data d xn yn dims b H. unfold get_w. destruct data as [d'|]; cbn [d_adj d_w].
  - destruct H as [-> Hc]. rewrite (get_array_ok _ _ Hc). reflexivity.
  - cbn in H. subst d. reflexivity.
Qed.

(** predictions of a continuous-input network on the rows f 0 .. f (n-1) *)
Lemma predict_rows : forall p b f d adj,
  predict K (mkW false p CPU b false false) (map f (seq 0 (f_n d))) (rows d adj)
  = DOk (PRows (map (fun i => k_fwd K p (Vec (f i)) (row_at d adj i)) (seq 0 (f_n d)))).
Proof.
  intros p b f d adj. unfold predict, labels. cbn [w_dout w_din w_par].
  rewrite run_ok; [|reflexivity|unfold rows; rewrite !map_length; reflexivity|].
  - cbn [dbind]. unfold rows. rewrite !map_length, seq_length, map_map. do 2 f_equal. apply map_ext_in. intros i Hi. apply in_seq in Hi.
    f_equal.
    + rewrite nth_indep with (d' := Vec (f 0)) by (rewrite map_length, seq_length; lia).
      rewrite (map_nth (fun i => Vec (f i))). rewrite seq_nth by lia. reflexivity.
    + rewrite nth_indep with (d' := row_at d adj 0) by (rewrite map_length, seq_length; lia).
      rewrite (map_nth (row_at d adj)). rewrite seq_nth by lia. reflexivity.
  - intros c Hc. rewrite map_map in Hc. apply in_map_iff in Hc. destruct Hc as (r & <- & _). reflexivity.
Qed.
Lemma argmax_unit : forall xd k, k < xd -> argmax (eye_row xd 1%Q k) = k.
Proof.
  intros xd k Hk. unfold eye_row.
  assert (Hgen : forall n s best, (k < s \/ s + n <= k) -> (argmax_from best 1 s (map (fun j => if Nat.eqb k j then 1%Q else 0%Q) (seq s n)) = best)%nat).
  { induction n as [|n IH]; intros s best H; [reflexivity|]. cbn [seq map argmax_from].
    destruct (Nat.eqb k s) eqn:E; [apply Nat.eqb_eq in E; lia|].
    destruct (Qlt_le_dec 1 0) as [L|L]; [exfalso; revert L; apply Qle_not_lt; discriminate|]. apply IH. lia. }
  assert (H0 : forall n s best, s <= k < s + n -> (argmax_from best 0 s (map (fun j => if Nat.eqb k j then 1%Q else 0%Q) (seq s n)) = k)%nat).
  { induction n as [|n IH]; intros s best H; [lia|]. cbn [seq map argmax_from].
    destruct (Nat.eqb k s) eqn:E.
    - apply Nat.eqb_eq in E. subst s. destruct (Qlt_le_dec 0 1) as [L|L]; [|exfalso; revert L; apply Qlt_not_le; reflexivity].
      apply Hgen. lia.
    - apply Nat.eqb_neq in E. destruct (Qlt_le_dec 0 0) as [L|L]; [exfalso; exact (Qlt_irrefl 0 L)|]. apply IH. lia. }
  destruct xd as [|n]; [lia|]. cbn [seq map argmax].
  destruct (Nat.eqb k 0) eqn:E.
  - apply Nat.eqb_eq in E. rewrite Hgen; [congruence|lia].
  - apply Nat.eqb_neq in E. apply H0. lia.
Qed.
Lemma argmax_zero : forall xd k, xd <= k -> argmax (eye_row xd 1%Q k) = 0.
Proof.
  intros xd k Hk. unfold eye_row.
  assert (H : forall n s, (s + n <= k)%nat -> argmax_from 0 0 s (map (fun j => if Nat.eqb k j then 1%Q else 0%Q) (seq s n)) = 0).
  { induction n as [|n IH]; intros s H; [reflexivity|]. cbn [seq map argmax_from].
    destruct (Nat.eqb k s) eqn:E; [apply Nat.eqb_eq in E; lia|].
    destruct (Qlt_le_dec 0 0) as [L|L]; [exfalso; exact (Qlt_irrefl 0 L)|]. apply IH. lia. }
  destruct xd as [|n]; [reflexivity|]. cbn [seq map argmax]. destruct (Nat.eqb k 0) eqn:E; [apply Nat.eqb_eq in E; lia|]. apply H. lia.
Qed.
Lemma predict_labels : forall p b l xd d adj,
  predict K (mkW false p CPU b true false) (repeat (eye_row xd 1%Q l) (f_n d)) (rows d adj)
  = DOk (PRows (map (fun i => k_fwd K p (Lab (if l <? xd then l else 0)) (row_at d adj i)) (seq 0 (f_n d)))).
Proof.
  intros p b l xd d adj. unfold predict, labels. cbn [w_dout w_din w_par].
  assert (E : argmax (eye_row xd 1%Q l) = if l <? xd then l else 0).
  { destruct (l <? xd) eqn:E; [apply Nat.ltb_lt in E; apply argmax_unit; exact E|apply Nat.ltb_ge in E; apply argmax_zero; exact E]. }
  rewrite run_ok; [|reflexivity|unfold rows; rewrite !map_length, seq_length, repeat_length; reflexivity|].
  - cbn [dbind]. rewrite map_length, repeat_length. do 2 f_equal. apply map_ext_in. intros i Hi. apply in_seq in Hi. f_equal.
    + rewrite nth_indep with (d' := Lab (argmax (eye_row xd 1%Q l))) by (rewrite map_length, repeat_length; lia).
      rewrite (map_nth (fun r => Lab (argmax r))). rewrite nth_repeat, E. reflexivity.
    + unfold rows. rewrite nth_indep with (d' := row_at d adj 0) by (rewrite map_length, seq_length; lia).
      rewrite (map_nth (row_at d adj)). rewrite seq_nth by lia. reflexivity.
  - intros c Hc. apply in_map_iff in Hc. destruct Hc as (r & <- & _). reflexivity.
Qed.

Lemma nth_map_seq : forall A (f : nat -> A) n i d, i < n -> nth i (map f (seq 0 n)) d = f i.
Proof.
  intros A f n i d Hi. rewrite nth_indep with (d' := f 0) by (rewrite map_length, seq_length; exact Hi).
  rewrite map_nth, seq_nth by exact Hi. reflexivity.
Qed.
(** the mean over dim 0 *)
Lemma mean0_map : forall yd n (f : nat -> row), 0 < n ->
  mean0 yd (map f (seq 0 n)) = AMean (map (fun j => col_mean n (fun i => nth j (f i) 0%Q)) (seq 0 yd)).
Proof.
  intros yd n f Hn. assert (Hl : length (map f (seq 0 n)) = n) by (rewrite map_length, seq_length; reflexivity).
  assert (E : mean0 yd (map f (seq 0 n)) = AMean (map (fun j => col_mean (length (map f (seq 0 n))) (fun i => nth j (nth i (map f (seq 0 n)) []) 0%Q)) (seq 0 yd))).
  { unfold mean0. destruct (map f (seq 0 n)); [cbn in Hl; lia|reflexivity]. }
  rewrite E, Hl. f_equal. apply map_ext. intros j. unfold col_mean. do 2 f_equal. apply map_ext_in. intros i Hi. apply in_seq in Hi.
  rewrite nth_map_seq by lia. reflexivity.
Qed.
(** of the differences of two predictions *)
Lemma mean0_diff : forall yd n (f g : nat -> row), 0 < n ->
  mean0 yd (map (fun ab : row * row => map (fun j => (nth j (fst ab) 0 - nth j (snd ab) 0)%Q) (seq 0 yd))
                (combine (map f (seq 0 n)) (map g (seq 0 n))))
  = AMean (map (fun j => col_mean n (fun i => nth j (f i) 0 - nth j (g i) 0)%Q) (seq 0 yd)).
Proof.
  intros yd n f g Hn.
  assert (Hc : forall k m, combine (map f (seq k m)) (map g (seq k m)) = map (fun i => (f i, g i)) (seq k m)).
  { intros k m. revert k. induction m as [|m IH]; intros k; [reflexivity|]. cbn. rewrite IH. reflexivity. }
  rewrite Hc, map_map. rewrite mean0_map by exact Hn. f_equal. apply map_ext_in. intros j Hj. apply in_seq in Hj.
  unfold col_mean. do 2 f_equal. apply map_ext. intros i. rewrite nth_map_seq by lia. reflexivity.
Qed.

Definition is_mean (q : option string) : Prop := q = Some "CATE"%string \/ q = Some "ATE"%string.
Lemma is_mean_ok : forall q, is_mean q -> (match q with Some q => String.eqb q "CATE" || String.eqb q "ATE" | None => false end) = true.
Proof. intros q [->| ->]; reflexivity. Qed.

(** C233: continuous treatment.  Row i of the treated (control) data is zero except that column i, if there is one, is treat
    (control); the answer is the mean over the rows of the difference *)
Theorem C233_continuous : forall s a o o' adj cy data d t c q, fit K s a o = (o', DOk tt) ->
  s_dt s = false -> s_do s = false -> a_adj a = Some adj -> y_cfg a = Some cy -> c_dev cy = CPU ->
  test_frame a adj data d -> 0 < f_n d -> is_mean q ->
  exists p, outcome_weights o' = Some p /\
    let xd := length (a_treat a) in
    let at_row (v : Q) i := k_fwd K p (Vec (map (fun j => if Nat.eqb i j then v else 0%Q) (seq 0 xd))) (row_at d adj i) in
    estimate K s o' data (Some t) (Some c) q false
    = DOk (AMean (map (fun j => col_mean (f_n d) (fun i => nth j (at_row t i) 0 - nth j (at_row c i) 0)%Q) (seq 0 (length (a_out a))))).
Proof.
  intros s a o o' adj cy data d t c q H Ht Ho Ha Hcy Hd Htf Hn Hq.
  destruct (fit_state s a o o' adj cy H Ha Hcy Hd) as (xn & p & xd & wd & zd & yd & -> & Hxd & Hyd).
  specialize (Hxd Ht). specialize (Hyd Ho). subst xd yd.
  exists p. split; [reflexivity|]. cbv zeta. unfold estimate, prepare. cbn [d_x d_y d_dims].
  rewrite (get_w_test a adj data d _ _ _ _ Htf). cbn [dbind]. rewrite Ht, Ho, rows_length.
  rewrite (predict_rows p true (eye_row (length (a_treat a)) t) d adj). cbn [dbind].
  rewrite (predict_rows p true (eye_row (length (a_treat a)) c) d adj). cbn [dbind].
  rewrite (is_mean_ok q Hq). rewrite mean0_diff; [|exact Hn]. reflexivity.
Qed.

Lemma qsum_single : forall f n, (forall i, 0 < i < n -> (f i == 0)%Q) -> (0 < n)%nat -> (qsum (map f (seq 0 n)) == f 0%nat)%Q.
Proof.
  intros f n H Hn. destruct n as [|n]; [lia|]. cbn [seq map qsum fold_right].
  assert (E : forall m k, (forall i, (k <= i < k + m)%nat -> (f i == 0)%Q) -> (qsum (map f (seq k m)) == 0)%Q).
  { induction m as [|m IH]; intros k Hk; [reflexivity|]. cbn [seq map qsum fold_right]. rewrite (Hk k) by lia.
    fold (qsum (map f (seq (S k) m))). rewrite (IH (S k)); [reflexivity|]. intros i Hi. apply Hk. lia. }
  change (fold_right Qplus 0%Q (map f (seq 1 n))) with (qsum (map f (seq 1 n))).
  rewrite (E n 1%nat); [apply Qplus_0_r|]. intros i Hi. apply H. lia.
Qed.

(** C233: with one continuous treatment only the first row counts, and its difference is divided by the number of rows *)
Theorem C233_one_treatment : forall s a o o' adj cy data d tn t c q, fit K s a o = (o', DOk tt) ->
  s_dt s = false -> s_do s = false -> a_adj a = Some adj -> y_cfg a = Some cy -> c_dev cy = CPU ->
  test_frame a adj data d -> 0 < f_n d -> is_mean q -> a_treat a = [tn] ->
  exists p v, outcome_weights o' = Some p /\ estimate K s o' data (Some t) (Some c) q false = DOk (AMean v) /\
    length v = length (a_out a) /\
    forall j, j < length (a_out a) ->
      (nth j v 0 == (nth j (k_fwd K p (Vec [t]) (row_at d adj 0)) 0 - nth j (k_fwd K p (Vec [c]) (row_at d adj 0)) 0) / inject_Z (Z.of_nat (f_n d)))%Q.
Proof.
  intros s a o o' adj cy data d tn t c q H Ht Ho Ha Hcy Hd Htf Hn Hq Htn.
  destruct (C233_continuous s a o o' adj cy data d t c q H Ht Ho Ha Hcy Hd Htf Hn Hq) as (p & Hp & E).
  cbv zeta in E. exists p. eexists. split; [exact Hp|]. split; [exact E|].
  split; [rewrite map_length, seq_length; reflexivity|]. intros j Hj. rewrite Htn in *. cbn [List.length seq map] in *.
  set (F := fun j => col_mean (f_n d) _) in *.
  rewrite nth_indep with (d' := F 0) by (rewrite map_length, seq_length; exact Hj). rewrite (map_nth F). rewrite seq_nth by exact Hj.
  unfold F, col_mean. cbn [plus]. rewrite qsum_single; [reflexivity| |exact Hn].
  intros i Hi. destruct i as [|i]; [lia|]. cbn [Nat.eqb]. ring.
Qed.

(** C233: so a network that answers b times the treatment plus anything of the covariates does not give the effect b*(t-c) *)
Theorem C233_linear_refuted : forall s a o o' adj cy data d tn yn b g t c q, fit K s a o = (o', DOk tt) ->
  s_dt s = false -> s_do s = false -> a_adj a = Some adj -> y_cfg a = Some cy -> c_dev cy = CPU ->
  test_frame a adj data d -> 1 < f_n d -> is_mean q -> a_treat a = [tn] -> a_out a = [yn] ->
  (forall p, outcome_weights o' = Some p -> forall x w, k_fwd K p (Vec [x]) w = [(b * x + g w)%Q]) ->
  ~ (b * (t - c) == 0)%Q ->
  exists e, estimate K s o' data (Some t) (Some c) q false = DOk (AMean [e]) /\ ~ (e == b * (t - c))%Q.
Proof.
  intros s a o o' adj cy data d tn yn b g t c q H Ht Ho Ha Hcy Hd Htf Hn Hq Htn Hyn Hlin Hb.
  destruct (C233_one_treatment s a o o' adj cy data d tn t c q H Ht Ho Ha Hcy Hd Htf ltac:(lia) Hq Htn) as (p & v & Hp & E & Hl & Hv).
  rewrite Hyn in Hl, Hv. cbn [List.length] in *. destruct v as [|e [|? ?]]; try discriminate. exists e. split; [exact E|].
  specialize (Hv 0%nat ltac:(lia)). rewrite !(Hlin p Hp) in Hv. cbn [nth] in Hv. rewrite Hv. intros F. apply Hb.
  assert (Hne : ~ (inject_Z (Z.of_nat (f_n d)) == 0)%Q). { intros X. unfold Qeq in X. cbn in X. lia. }
  assert (Haux : forall X N : Q, (X == X * N)%Q -> (X * (N - 1) == 0)%Q).
  { intros X N HX. assert (Y : (X * (N - 1) == X * N - X)%Q) by ring. rewrite Y, <- HX. ring. }
  assert (F3 : (b * (t - c) * (inject_Z (Z.of_nat (f_n d)) - 1) == 0)%Q).
  { apply Haux. rewrite <- F at 2. field. exact Hne. }
  apply Qmult_integral in F3. destruct F3 as [F3|F3]; [exact F3|]. exfalso.
  unfold Qeq, Qminus, Qplus in F3. cbn in F3. lia.
Qed.

(** C234: discrete treatment.  treat is a class number below both the number of rows and the number of classes; class 0 is always
    the control *)
Theorem C234_discrete : forall s a o o' adj cy data d k c q, fit K s a o = (o', DOk tt) ->
  s_dt s = true -> s_do s = false -> a_adj a = Some adj -> y_cfg a = Some cy -> c_dev cy = CPU ->
  test_frame a adj data d -> k < f_n d -> is_mean q ->
  exists p yd xd wd zd, outcome_weights o' = Some p /\ d_dims o' = Some (yd, xd, wd, zd) /\
    let at_row l i := k_fwd K p (Lab l) (row_at d adj i) in
    estimate K s o' data (Some (inject_Z (Z.of_nat k))) c q false
    = DOk (AMean (map (fun j => col_mean (f_n d) (fun i => nth j (at_row (if (k <? xd)%nat then k else 0%nat) i) 0 - nth j (at_row 0%nat i) 0)%Q) (seq 0 yd))).
Proof.
  intros s a o o' adj cy data d k c q H Ht Ho Ha Hcy Hd Htf Hn Hq.
  destruct (fit_state s a o o' adj cy H Ha Hcy Hd) as (xn & p & xd & wd & zd & yd & -> & _ & _).
  exists p, yd, xd, wd, zd. split; [reflexivity|]. split; [reflexivity|]. cbv zeta. unfold estimate, prepare. cbn [d_x d_y d_dims].
  rewrite (get_w_test a adj data d _ _ _ _ Htf). cbn [dbind]. rewrite Ht, Ho, rows_length.
  assert (Htr : trunc (inject_Z (Z.of_nat k)) = Z.of_nat k).
  { unfold trunc. destruct (Qlt_le_dec _ 0) as [L|L]; [unfold Qlt in L; cbn in L; lia|]. unfold Qfloor, inject_Z. apply Z.div_1_r. }
  rewrite Htr. unfold select. destruct (f_n d =? 0)%nat eqn:E0; [apply Nat.eqb_eq in E0; lia|].
  assert (E1 : ((Z.of_nat k <? 0)%Z || (Z.of_nat (f_n d) <=? Z.of_nat k)%Z)%bool = false).
  { apply Bool.orb_false_iff. split; [apply Z.ltb_ge; lia|apply Z.leb_gt; lia]. }
  assert (E2 : ((0 <? 0)%Z || (Z.of_nat (f_n d) <=? 0)%Z)%bool = false). { apply Bool.orb_false_iff. split; [reflexivity|apply Z.leb_gt; lia]. }
  rewrite E1, E2. cbn [dbind]. rewrite Nat2Z.id. change (Z.to_nat 0) with 0%nat.
  rewrite !predict_labels. cbn [dbind]. rewrite (is_mean_ok q Hq). rewrite mean0_diff; [|lia].
  do 3 f_equal. destruct (0 <? xd) eqn:E3; reflexivity.
Qed.
(** C234: a class number not below the number of rows is an IndexError, so a one-row frame has no answer for treat=1 *)
Theorem C234_code_beyond_rows_refuted : forall s a o o' adj cy data d k c q m, fit K s a o = (o', DOk tt) ->
  s_dt s = true -> a_adj a = Some adj -> y_cfg a = Some cy -> c_dev cy = CPU ->
  test_frame a adj data d -> 0 < f_n d -> (Z.of_nat (f_n d) <= trunc k \/ trunc k < 0)%Z ->
  estimate K s o' data (Some k) c q m = DErr (Py IndexError).
Proof.
  intros s a o o' adj cy data d k c q m H Ht Ha Hcy Hd Htf Hn Hk.
  destruct (fit_state s a o o' adj cy H Ha Hcy Hd) as (xn & p & xd & wd & zd & yd & -> & _ & _).
  unfold estimate, prepare. cbn [d_x d_y d_dims]. rewrite (get_w_test a adj data d _ _ _ _ Htf). cbn [dbind].
  rewrite Ht, rows_length. unfold select. destruct (f_n d =? 0)%nat eqn:E0; [apply Nat.eqb_eq in E0; lia|].
  assert (E1 : ((trunc k <? 0)%Z || (Z.of_nat (f_n d) <=? trunc k)%Z)%bool = true).
  { apply Bool.orb_true_iff. destruct Hk; [right; apply Z.leb_le; assumption|left; apply Z.ltb_lt; assumption]. }
  rewrite E1. reflexivity.
Qed.
(** C233: None stands for treat = 1 and control = 0 *)
Theorem C233_defaults : forall s o data q m,
  estimate K s o data None None q m = estimate K s o data (Some 1%Q) (Some 0%Q) q m.
Proof. reflexivity. Qed.
(** C234: control is not looked at *)
Theorem C234_control_ignored_refuted : forall s o data t c c' q m, s_dt s = true ->
  estimate K s o data t c q m = estimate K s o data t c' q m.
Proof.
  intros s o data t c c' q m Ht. unfold estimate, prepare. destruct (d_x o); [|reflexivity]. destruct (d_y o); [|reflexivity].
  destruct (d_dims o) as [[[[? ?] ?] ?]|]; [|reflexivity]. destruct (get_w o data); [|reflexivity]. cbn [dbind]. rewrite Ht. reflexivity.
Qed.
(** C234: with marginal_effect=True a discrete treatment gives the mean prediction under treat, not an effect; CATE and ATE are
    the same answer *)
Theorem C234_cate_is_ate : forall s o data t c m,
  estimate K s o data t c (Some "CATE"%string) m = estimate K s o data t c (Some "ATE"%string) m.
Proof. reflexivity. Qed.

(** C235: what never works: the marginal effect of a continuous treatment, effect_nji, the mean effect on a discrete outcome, an
    estimate before fit, an estimate on the device cuda *)
Theorem C235_marginal_refuted : forall s o data t c q r, s_dt s = false -> estimate K s o data t c q true <> DOk r.
Proof.
  intros s o data t c q r Ht H. unfold estimate, prepare in H. destruct (d_x o); [|discriminate]. destruct (d_y o); [|discriminate].
  destruct (d_dims o) as [[[[? ?] ?] ?]|]; [|discriminate]. destruct (get_w o data); [|discriminate]. cbn [dbind] in H. rewrite Ht in H.
  destruct (predict _ _ _ _); discriminate.
Qed.
Theorem C235_effect_nji_refuted : forall (o : div P) data, effect_nji o data <> DOk tt.
Proof.
  intros o data H. unfold effect_nji in H. destruct (d_x o); [|discriminate]. destruct (d_y o); [|discriminate].
  destruct (get_w o data); discriminate.
Qed.
Lemma predict_disc : forall n x w r, w_dout n = true -> predict K n x w = DOk r -> exists l, r = PLabs l.
Proof.
  intros n x w r H E. unfold predict in E. rewrite H in E. destruct (run n _ _ _) as [l|]; [|discriminate]. cbn in E. injection E as <-.
  exists l. reflexivity.
Qed.
Theorem C235_discrete_outcome_refuted : forall s a o o' data t c q m r, fit K s a o = (o', DOk tt) -> s_do s = true -> is_mean q ->
  estimate K s o' data t c q m <> DOk r.
Proof.
  intros s a o o' data t c q m r H Ho Hq E. apply fit_ok_inv in H.
  destruct H as (inst & adj' & y & x & z & w & xn & xn' & yn & yn' & xs & ws & _ & Ha' & Gy & Gx & _ & Gw & _ & Hy & _ & _ & _ & Hfy & ->).
  unfold gen_y in Hy. destruct (hidden_list (s_yh s)) as [h|e]; cbn [dbind] in Hy; [|discriminate].
  destruct (s_ynet s); [discriminate|]. destruct (negb _) in Hy; [discriminate|]. destruct (3 <? _) in Hy; [discriminate|].
  injection Hy as <-. apply wfit_ok in Hfy. destruct Hfy as (cc & ex & _ & _ & _ & ->). cbn [w_mdn w_yn w_din w_dout w_par] in E.
  set (n := mkW _ _ _ _ _ _) in E. assert (Hn : w_dout n = true) by exact Ho. clearbody n.
  unfold estimate in E. destruct (prepare K s _ data t c m) as [[yt y0]|e] eqn:Ep in E; [|discriminate]. cbn [dbind] in E.
  rewrite (is_mean_ok q Hq) in E.
  assert (Hyt : exists l, yt = PLabs l).
  { unfold prepare in Ep. cbn [d_x d_y d_dims] in Ep. destruct (get_w _ data) as [ww|]; [|discriminate]. cbn [dbind] in Ep.
    destruct (s_dt s).
    - destruct (select _ _ _) as [xt|]; [|discriminate]. cbn [dbind] in Ep. destruct (select _ _ _) as [x0|]; [|discriminate]. cbn [dbind] in Ep.
      destruct (predict K n xt ww) as [u|] eqn:Eu; [|discriminate]. cbn [dbind] in Ep. destruct (predict K n x0 ww) as [v|]; [|discriminate].
      injection Ep as <- _. exact (predict_disc n xt ww u Hn Eu).
    - destruct (predict K n _ ww) as [u|] eqn:Eu in Ep; [|discriminate]. cbn [dbind] in Ep. destruct m; [discriminate|].
      destruct (predict K n _ ww) as [v|] in Ep; [|discriminate]. injection Ep as <- _. exact (predict_disc n _ ww u Hn Eu). }
  destruct Hyt as [l ->]. destruct y0; discriminate.
Qed.
Theorem C235_unfitted : forall s data t c q m, estimate K s div_new data t c q m = DErr PlainExc.
Proof. reflexivity. Qed.
Theorem C235_cuda_refuted : forall s a o o' cy data t c q m r, fit K s a o = (o', DOk tt) -> y_cfg a = Some cy -> c_dev cy = CUDA ->
  estimate K s o' data t c q m <> DOk r.
Proof.
  intros s a o o' cy data t c q m r H Hcy Hd E. apply fit_ok_inv in H.
  destruct H as (inst & adj' & y & x & z & w & xn & xn' & yn & yn' & xs & ws & _ & _ & _ & _ & _ & _ & _ & _ & _ & _ & _ & Hfy & ->).
  apply wfit_ok in Hfy. destruct Hfy as (cc & ex & Hcc & _ & _ & ->). rewrite Hcy in Hcc. injection Hcc as <-. rewrite Hd in E.
  set (n := mkW _ _ _ _ _ _) in E. assert (Hn : w_dev n = CUDA) by reflexivity. clearbody n.
  assert (Hp : forall x w r', predict K n x w <> DOk r').
  { intros x1 w1 r' F. unfold predict, run in F. rewrite Hn in F. destruct (w_dout n); discriminate. }
  unfold estimate, prepare in E. cbn [d_x d_y d_dims] in E. destruct (get_w _ data) as [ww|]; [|discriminate]. cbn [dbind] in E.
  destruct (s_dt s).
  - destruct (select _ _ _) as [xt|]; [|discriminate]. cbn [dbind] in E. destruct (select _ _ _) as [x0|]; [|discriminate]. cbn [dbind] in E.
    destruct (predict K n xt ww) as [u|] eqn:Eu; [exact (Hp _ _ _ Eu)|discriminate].
  - destruct (predict K n _ ww) as [u|] eqn:Eu in E; [exact (Hp _ _ _ Eu)|discriminate].
Qed.

(** C236: a successful fit does not depend on what was fitted before, nor on an earlier failure *)
Theorem C236_refit_independent : forall s a o o', snd (fit K s a o) = DOk tt -> fit K s a o' = fit K s a o.
Proof.
  intros s a o o' H. unfold fit in *. cbv zeta in *.
  repeat match type of H with snd (match ?q with _ => _ end) = _ => destruct q; try discriminate H end. reflexivity.
Qed.
End Estimate.

(** a toy torch: weights are the list of examples seen (None: untrained), the network answers 3*treatment + 2*first covariate (label
    k counts as k), draw j of row i is z + j, no cuda *)
Definition toy_fwd (p : option (list (inp * row * inp))) (x : inp) (w : row) : row :=
  match p with None => [100%Q]
  | Some _ => [(3 * match x with Vec r => hd 0 r | Lab k => inject_Z (Z.of_nat k) end + 2 * hd 0 w)%Q] end.
Definition toy : kit (option (list (inp * row * inp))) unit :=
  mkK false (fun m => map (fun r => if Qeq_bool (hd 0%Q r) 0 then [1; 0]%Q else [0; 1]%Q) m) (fun _ _ _ _ _ _ => None) (fun _ _ _ _ _ _ => None)
      (fun _ _ _ ex => Some ex) toy_fwd (fun r => r) (fun _ j _ z _ => [(match z with Vec r => hd 0 r | _ => 0 end + inject_Z (Z.of_nat j))%Q]).
Definition toy_frame : frame := mkF 2 [("y", [1; 2]%Q); ("x", [0; 1]%Q); ("z", [5; 6]%Q); ("w", [7; 8]%Q)].
Definition toy_spec (disc : bool) : spec (option (list (inp * row * inp))) := mkS None None HNone HNone (Some 5) disc false false.
Definition toy_call (n : option nat) (dev : device) : fargs unit :=
  mkA toy_frame ["y"] ["x"] (Some ["z"]) (Some ["w"]) true n (Some (mkC CPU tt)) (Some (mkC dev tt)) (mkC CPU tt).

(** the hypotheses of C232, C233 and C234 are met *)
Example toy_good : forall disc n, good_call (toy_spec disc) (toy_call n CPU) ["z"] ["w"] [64; 128; 64] [64; 128; 64] (mkC CPU tt) (mkC CPU tt).
Proof.
  intros disc n. constructor; try reflexivity; [|discriminate].
  repeat split; intros c Hc; destruct Hc as [<-|[]]; discriminate.
Qed.
Example toy_cont : exists o', fit toy (toy_spec false) (toy_call (Some 3) CPU) div_new = (o', DOk tt) /\
  estimate toy (toy_spec false) o' None (Some 1%Q) (Some 0%Q) (Some "ATE") false = DOk (AMean [(3 # 2)%Q]) /\
  outcome_weights o' = Some (Some [(Vec [5%Q], [7%Q], Vec [1%Q]); (Vec [6%Q], [8%Q], Vec [2%Q])]).
Proof. eexists. split; [vm_compute; reflexivity|]. split; vm_compute; reflexivity. Qed.
Example toy_disc : exists o', fit toy (toy_spec true) (toy_call None CPU) div_new = (o', DOk tt) /\
  estimate toy (toy_spec true) o' None None None (Some "ATE") false = DOk (AMean [(6 # 2)%Q]) /\
  estimate toy (toy_spec true) o' None (Some 2%Q) None (Some "ATE") false = DErr (Py IndexError) /\
  estimate toy (toy_spec true) o' None None None (Some "ATE") true = DOk (AMean [(36 # 2)%Q]).
Proof. eexists. split; [vm_compute; reflexivity|]. repeat split; vm_compute; reflexivity. Qed.

(** C234: so with marginal_effect=True the answer on a discrete treatment, 18 here, is a level and not the effect 3 *)
Theorem C234_marginal_refuted : exists P Cfg (K : kit P Cfg) s a o', s_dt s = true /\ fit K s a div_new = (o', DOk tt) /\
  estimate K s o' None None None (Some "ATE") false = DOk (AMean [(6 # 2)%Q]) /\
  estimate K s o' None None None (Some "ATE") true = DOk (AMean [(36 # 2)%Q]).
Proof.
  exists _, _, toy, (toy_spec true), (toy_call None CPU). eexists. split; [reflexivity|]. split; [vm_compute; reflexivity|].
  split; vm_compute; reflexivity.
Qed.

(** C236: after a fit that failed, on an object never fitted, estimate answers from untrained weights: neither _is_fitted nor the
    failure is looked at; after a fit that succeeded and one that failed the answer changes *)
Theorem C236_failed_fit_refuted : exists P Cfg (K : kit P Cfg) s a,
  let o' := fst (fit K s a div_new) in
  snd (fit K s a div_new) = DErr RuntimeErr /\ d_fit o' = false /\
  (exists r, estimate K s o' None None None (Some "ATE") false = DOk r) /\
  outcome_weights o' = Some (k_net K 1 1 1 [64; 128; 64] false false).
Proof.
  exists _, _, toy, (toy_spec false), (toy_call (Some 1) CUDA). cbv zeta. split; [vm_compute; reflexivity|]. split; [vm_compute; reflexivity|].
  split; [eexists; vm_compute; reflexivity|vm_compute; reflexivity].
Qed.
Theorem C236_failed_refit_refuted : exists P Cfg (K : kit P Cfg) s a a2 o1, fit K s a div_new = (o1, DOk tt) /\
  let o2 := fst (fit K s a2 o1) in snd (fit K s a2 o1) <> DOk tt /\ d_fit o2 = true /\
  exists r1 r2, estimate K s o1 None None None (Some "ATE") false = DOk r1 /\ estimate K s o2 None None None (Some "ATE") false = DOk r2 /\ r1 <> r2.
Proof.
  exists _, _, toy, (toy_spec false), (toy_call (Some 1) CPU), (toy_call (Some 1) CUDA). eexists. split; [vm_compute; reflexivity|].
  cbv zeta. split; [vm_compute; discriminate|]. split; [vm_compute; reflexivity|].
  do 2 eexists. split; [vm_compute; reflexivity|]. split; [vm_compute; reflexivity|]. discriminate.
Qed.

(** C237: DeepIVWrapper._f64to32 - a frame of float64 columns comes back with the same column names, every column float32 and
    rounded; a frame without a float64 column comes back as it is; any mixture fails *)
Theorem C237_all_float64 : forall V (rnd : V -> V) d, d <> [] -> (forall c, In c d -> cl_t c = F64) ->
  exists r, f64to32 rnd d = Ok r /\ map cl_name r = map cl_name d /\ map cl_v r = map (fun c => map rnd (cl_v c)) d /\
            forall c, In c r -> cl_t c = F32.
Proof.
  intros V rnd d Hne H. unfold f64to32.
  assert (Hf : filter is64 d = d).
  { clear Hne. induction d as [|c d IH]; [reflexivity|]. cbn. unfold is64 at 1. rewrite (H c (or_introl eq_refl)). f_equal. apply IH.
    intros x Hx. apply H. right. exact Hx. }
  rewrite Hf, Nat.eqb_refl. destruct (0 <? length d) eqn:E; [|apply Nat.ltb_ge in E; destruct d; [congruence|cbn in E; lia]].
  eexists. split; [reflexivity|]. clear. rewrite !map_map.
  assert (G : forall l : list (column V), combine (map cl_name l) l = map (fun c => (cl_name c, c)) l).
  { induction l as [|c l IH]; [reflexivity|]. cbn. rewrite IH. reflexivity. }
  rewrite G, !map_map. cbn. split; [reflexivity|]. split; [reflexivity|].
  intros c Hc. apply in_map_iff in Hc. destruct Hc as (b & <- & _). reflexivity.
Qed.
Theorem C237_no_float64 : forall V (rnd : V -> V) d, (forall c, In c d -> cl_t c <> F64) -> f64to32 rnd d = Ok d.
Proof.
  intros V rnd d H. unfold f64to32. assert (Hf : filter is64 d = []).
  { induction d as [|c d IH]; [reflexivity|]. cbn. unfold is64 at 1. destruct (cl_t c) eqn:E; [exfalso; exact (H c (or_introl eq_refl) E)| |];
      apply IH; intros x Hx; apply H; right; exact Hx. }
  rewrite Hf. reflexivity.
Qed.
Theorem C237_mixed_refuted : forall V (rnd : V -> V) d a b, In a d -> In b d -> cl_t a = F64 -> cl_t b <> F64 ->
  f64to32 rnd d = Err ValueError.
Proof.
  intros V rnd d a b Ha Hb Ea Eb. unfold f64to32.
  assert (Hin : In a (filter is64 d)) by (apply filter_In; split; [exact Ha|unfold is64; rewrite Ea; reflexivity]).
  assert (Hlt : forall l : list (column V), In b l -> length (filter is64 l) < length l).
  { induction l as [|c l IH]; intros Hl; [destruct Hl|]. cbn. destruct Hl as [->|Hl].
    - assert (is64 b = false) as -> by (unfold is64; destruct (cl_t b); congruence).
      apply Nat.lt_succ_r. clear. induction l as [|c l IH]; [reflexivity|]. cbn. destruct (is64 c); cbn; lia.
    - specialize (IH Hl). destruct (is64 c); cbn; lia. }
  specialize (Hlt d Hb). destruct (filter is64 d) as [|x r] eqn:E; [destruct Hin|].
  destruct (0 <? length (x :: r)) eqn:E1; [|apply Nat.ltb_ge in E1; cbn in E1; lia].
  destruct (length (x :: r) =? length d) eqn:E2; [apply Nat.eqb_eq in E2; lia|]. reflexivity.
Qed.
Example f64_ok : f64to32 (fun q => q) [mkCol "a" F64 [1%Q]; mkCol "b" F64 [2%Q]] = Ok [mkCol "a" F32 [1%Q]; mkCol "b" F32 [2%Q]].
Proof. reflexivity. Qed.
Example f64_mixed : f64to32 (fun q => q) [mkCol "a" F64 [1%Q]; mkCol "k" Other [2%Q]] = Err ValueError.
Proof. reflexivity. Qed.

Print Assumptions C231_fit_needs.
Print Assumptions C231_default_device_refuted.
Print Assumptions C231_no_adjustment_refuted.
Print Assumptions C231_continuous_default_refuted.
Print Assumptions C231_user_outcome_net_refuted.
Print Assumptions C231_int_hidden_refuted.
Print Assumptions C232_fit_continuous.
Print Assumptions C232_sample_n_ignored_refuted.
Print Assumptions C232_fit_discrete.
Print Assumptions C232_discrete_instrument_refuted.
Print Assumptions C233_continuous.
Print Assumptions C233_one_treatment.
Print Assumptions C233_linear_refuted.
Print Assumptions C234_discrete.
Print Assumptions C234_code_beyond_rows_refuted.
Print Assumptions C234_control_ignored_refuted.
Print Assumptions C234_cate_is_ate.
Print Assumptions C235_marginal_refuted.
Print Assumptions C235_effect_nji_refuted.
Print Assumptions C235_discrete_outcome_refuted.
Print Assumptions C235_unfitted.
Print Assumptions C235_cuda_refuted.
Print Assumptions C236_refit_independent.
Print Assumptions C234_marginal_refuted.
Print Assumptions C236_failed_fit_refuted.
Print Assumptions C236_failed_refit_refuted.
Print Assumptions C237_all_float64.
Print Assumptions C237_no_float64.
Print Assumptions C237_mixed_refuted.
Print Assumptions C233_defaults.
