(** Lemmas about the ApproxBound model: what a fit of a new object has computed, what the estimate computes. *)
From Coq Require Import ZArith Reals Lra.
From Verif Require Import Base ApiModel EstUtilsModel EstUtilsProps MetaModel MetaSpec MetaProofs MetaProps
  CrossFitModel CrossFitProofs DrModel DrProofs DrSpec DrProps DrRobust BoundModel.
Local Notation length := List.length.
Local Notation concat := List.concat.

(* ------------------------------------------------------------------------------------------------ *)
(** ** Specification vocabulary *)

(** the input of the outcome model for a unit of group g with covariates w: the indicator of g, then w *)
Definition group_input (keys : list (list label)) (g : list label) (w : row) : row := indicator keys g ++ w.
(** the covariates of row r; none without covariates *)
Definition cov (v : option (list row)) (r : nat) : row := match v with Some v => nth r v [] | None => [] end.
(** the training inputs of the outcome model *)
Definition group_inputs (keys x : list (list label)) (v : option (list row)) : list row :=
  map (fun r => group_input keys (nth r x []) (cov v r)) (seq 0 (length x)).
(** the number of answers: one per row with covariates, one without *)
Definition answers (v : option (list row)) (n : nat) : nat := match v with Some _ => n | None => 1 end.
(** the prediction of the outcome model for row r, had its group been g *)
Definition outcome_of (L : learner) (m : Mdl L) (keys : list (list label)) (v : option (list row)) (g : list label) (r : nat) : R :=
  nth 0 (l_pred L m (group_input keys g (cov v r))) 0%R.
(** the share of group g among the rows *)
Definition share_of (x : list (list label)) (g : list label) : R :=
  (INR (length (filter (fun r => eqb r g) x)) / INR (length x))%R.
(** the outcomes of the rows of two groups *)
Definition outcomes_of (x : list (list label)) (y : list row) (g h : list label) (a : R) : Prop :=
  exists r, r < length x /\ (nth r x [] = g \/ nth r x [] = h) /\ a = nth 0 (nth r y []) 0%R.
Definition greatest (P : R -> Prop) (u : R) : Prop := P u /\ forall a, P a -> (a <= u)%R.
Definition least (P : R -> Prop) (u : R) : Prop := P u /\ forall a, P a -> (u <= a)%R.

(** the propensities a fit works with: P r g is the probability that row r has group g.  Given probabilities are used as
    they are; with covariates they come from the treatment model; otherwise they are the shares of the groups. *)
Definition propensity (Lx : learner) (x_prob : option row) (keys : list (list label)) (a : abdata) (P : nat -> list label -> R) : Prop :=
  match x_prob, q_v a with
  | Some p, _ => length p = length keys /\ forall r g, In g keys -> P r g = nth (group_no keys g) p 0%R
  | None, Some v => exists mx, l_fit Lx v (nd_vec (group_nos keys (q_x a))) = Ok mx /\ n_classes Lx mx = length keys /\
                      forall r g, r < length v -> In g keys -> P r g = row_prob Lx mx (nth r v []) (group_no keys g)
  | None, None => (forall g, In g keys -> In g (q_x a)) /\ forall r g, In g keys -> P r g = share_of (q_x a) g
  end.

(* ------------------------------------------------------------------------------------------------ *)
(** ** Small lemmas *)

Definition zcodes (keys x : list (list label)) : list Z := map (fun r => Z.of_nat (group_no keys r)) x.
Lemma zcodes_of keys x : NoDup keys -> (forall r, In r x -> In r keys) -> convert4onehot (map (ind keys) x) = zcodes keys x.
Proof.
  intros ND H. unfold convert4onehot, zcodes. rewrite map_map. apply map_ext_in. intros r Hr.
  destruct (index_of_In r keys (H r Hr)) as (q & Eq).
  rewrite (@dot_ind _ _ keys r q ND (index_of_Some _ _ Eq)). unfold group_no. now rewrite Eq.
Qed.

Lemma map_eq_nth {A B} (f : A -> B) (l : list A) d : map f l = map (fun r => f (nth r l d)) (seq 0 (length l)).
Proof.
  induction l as [|a l IH]; [reflexivity|]. cbn [map length seq]. f_equal.
  rewrite <- seq_shift, map_map. exact IH.
Qed.

Lemma get_wv_none (a : list row) : get_wv [Some a; None] = Ok a.
Proof. reflexivity. Qed.

Lemma combine_nth_map {A B C} (f : A * B -> C) (a : list A) (b : list B) da db :
  length a = length b -> map f (combine a b) = map (fun r => f (nth r a da, nth r b db)) (seq 0 (length a)).
Proof.
  intros H. rewrite (map_eq_nth f _ (da, db)), combine_length, <- H, Nat.min_id. apply map_ext. intros r.
  now rewrite combine_nth.
Qed.

Lemma group_inputs_of keys x v X :
  get_wv [Some (map (indicator keys) x); v] = Ok X ->
  X = group_inputs keys x v /\ (forall v', v = Some v' -> length v' = length x).
Proof.
  destruct v as [v|]; unfold get_wv; cbn [flat_map app].
  - intros H. apply hcat2 in H as [H ->]. rewrite map_length in H. split; [|intros v' [= <-]; congruence].
    rewrite (combine_nth_map _ _ _ (indicator keys []) []) by now rewrite map_length. rewrite map_length. unfold group_inputs.
    apply map_ext. intros r. cbn [fst snd cov]. now rewrite map_nth.
  - intros H. replace X with (map (indicator keys) x) by (cbn in H; congruence). split; [|easy].
    unfold group_inputs. rewrite (map_eq_nth _ _ []). apply map_ext. intros r. unfold group_input, cov. now rewrite app_nil_r.
Qed.

Lemma repeat_map_seq {A} (u : A) n : repeat u n = map (fun _ => u) (seq 0 n).
Proof. induction n; cbn; [reflexivity|]. rewrite IHn. f_equal. now rewrite <- seq_shift, map_map. Qed.

Lemma target_inputs keys g v n : (forall v', v = Some v' -> length v' = n) ->
  get_wv [Some (repeat (indicator keys g) (answers v n)); v] = Ok (map (fun r => group_input keys g (cov v r)) (seq 0 (answers v n))).
Proof.
  intros H. destruct v as [v|]; unfold answers.
  - rewrite repeat_map_seq. unfold get_wv; cbn [flat_map app]. rewrite hcat2_ok by (rewrite map_length, seq_length, (H v eq_refl); reflexivity).
    f_equal. rewrite (combine_nth_map _ _ _ (indicator keys g) []) by (rewrite map_length, seq_length, (H v eq_refl); reflexivity).
    rewrite map_length, seq_length. apply map_ext. intros r. cbn [fst snd cov]. unfold group_input. f_equal.
    rewrite (map_nth (fun _ : nat => indicator keys g) _ 0 r). reflexivity.
  - cbn. unfold group_input. now rewrite app_nil_r.
Qed.

(* ------------------------------------------------------------------------------------------------ *)
(** ** A fit of a new object *)

Lemma ab_fit_spec Lx Ly categories disc xp a s1 d :
  Forall (fun r => length r = d) (q_x a) -> (forall cs, categories = Some cs -> Forall (@NoDup label) cs) ->
  ab_fit Lx Ly categories disc a (ab_new Lx Ly xp) = (s1, Ok tt) ->
  exists keys my e p mx,
    groups_of d (dr_values categories (q_x a)) keys /\ (d = 1 -> categories = None -> increasing keys) /\
    (forall r, In r (q_x a) -> In r keys) /\ q_x a <> [] /\ Enc e d keys /\
    (forall v, q_v a = Some v -> length v = length (q_x a)) /\
    l_fit Ly (group_inputs keys (q_x a) (q_v a)) (squeeze (nd_rows (q_y a))) = Ok my /\
    s1 = mkAB Lx Ly e true (Some p) (q_v a) (match q_v a with Some _ => true | None => false end) (q_y a) (zcodes keys (q_x a)) (length keys) mx (Some my) /\
    match xp, q_v a with
    | Some p0, _ => p = [p0]
    | None, Some v => disc = false /\ exists m, l_fit Lx v (nd_vec (group_nos keys (q_x a))) = Ok m /\ mx = Some m /\ p = proba_rows Lx m v
    | None, None => p = [shares (zcodes keys (q_x a)) (length keys)]
    end.
Proof.
  intros HL HN H. unfold ab_fit in H.
  apply mbind_inv in H as (s0 & [] & H0 & H). unfold mset in H0. injection H0 as <-.
  apply mbind_inv in H as (s0 & s & H0 & H). unfold mget in H0. injection H0 as <- <-.
  apply mbind_inv in H as (s0 & z & H0 & H). unfold ab_enc, ab_begin, ab_new in H0. cbn [b_enc b_isf b_prob b_v b_named b_y b_x b_xd b_mx b_my] in H0.
  destruct (sl_comp false (q_x a) categories no_encs) as [e r] eqn:E1. injection H0 as <- ->.
  destruct (@sl_comp_fresh _ _ _ _ _ _ HL HN E1) as (keys & cats & Ef & HE & -> & Hk & Hd1 & Hn1).
  destruct (@enc_fit_spec _ _ _ _ HL Ef) as (Hx & _ & Hlen & Hin & Hnone & Hsome).
  destruct (Enc_keys HE) as (ND & _ & _).
  pose proof (groups_product _ _ _ _ _ HL Ef ND Hk) as Hg.
  assert (Hall : forall r, In r (q_x a) -> In r keys) by (intros r Hr; apply Hk, Hin; exact Hr).
  cbn zeta in H. rewrite (zcodes_of keys _ ND Hall) in H.
  assert (Wi : width (map (ind keys) (q_x a)) = length keys) by now apply width_map_ind.
  rewrite Wi, to_rows_ind in H.
  apply mbind_inv in H as (s0 & [] & H0 & H). unfold mset in H0. injection H0 as <-.
  apply mbind_inv in H as (s0 & s & H0 & H). unfold mget in H0. injection H0 as <- <-.
  cbn [ab_labels b_enc b_isf b_prob b_v b_named b_y b_x b_xd b_mx b_my] in H.
  apply mbind_inv in H as (s2 & [] & H2 & H).
  apply mbind_inv in H as (s3 & [] & H3 & H). unfold mset in H3. injection H3 as <-.
  apply mbind_inv in H as (s4 & X & H4 & H). unfold mlift in H4.
  apply mbind_inv in H as (s5 & my & H5 & H). unfold mlift in H5. injection H5 as <- H5. unfold mset in H. injection H as <-.
  assert (EC : map IZR (zcodes keys (q_x a)) = group_nos keys (q_x a)).
  { unfold zcodes, group_nos. rewrite map_map. apply map_ext. intros r. now rewrite <- INR_IZR_INZ. }
  rewrite EC in H2.
  assert (HX : get_wv [Some (map (indicator keys) (q_x a)); q_v a] = Ok X /\ s4 = ab_v (q_v a) s2).
  { destruct (q_v a), xp, disc; cbn [option_map] in H4; injection H4; intros; try discriminate; split; congruence. }
  destruct HX as [HX ->]. apply group_inputs_of in HX as [-> Hv].
  assert (Hinc : d = 1 -> categories = None -> increasing keys).
  { intros Hd HN0. exists (nth 0 cats []). split; auto. destruct (Hnone HN0) as [HS _].
    rewrite Forall_forall in HS. apply HS. apply nth_In. lia. }
  destruct xp as [p0|]; cbn [option_map] in H2.
  - unfold mset in H2. injection H2 as <-. eexists keys, my, e, _, None. do 7 (split; [eassumption|]). split; [reflexivity|].
    cbn. now rewrite app_nil_r.
  - destruct (q_v a) as [v|] eqn:Ev.
    + apply mbind_inv in H2 as (s6 & m & H6 & H2). unfold mlift in H6. injection H6 as <- H6.
      apply mbind_inv in H2 as (s6 & [] & H7 & H2). unfold mset in H7, H2. injection H7 as <-. injection H2 as <-.
      exists keys, my, e, (proba_rows Lx m v), (Some m). do 7 (split; [eassumption|]). split; [reflexivity|].
      split; [|eauto]. cbn [option_map] in H4. destruct disc; [|reflexivity]. discriminate H4.
    + unfold mset in H2. injection H2 as <-. eexists keys, my, e, _, None. do 7 (split; [eassumption|]). split; reflexivity.
Qed.

(* ------------------------------------------------------------------------------------------------ *)
(** ** The estimate *)

Lemma fold_max l a u : fold_left Rmax l a = u -> (a <= u)%R /\ (forall b, In b l -> (b <= u)%R) /\ (u = a \/ In u l).
Proof.
  revert a. induction l as [|b l IH]; intros a; cbn; intros H.
  - subst. split; [lra|]. split; [easy|auto].
  - destruct (IH _ H) as (H1 & H2 & H3). pose proof (Rmax_l a b). pose proof (Rmax_r a b). split; [lra|]. split.
    + intros c [<-|Hc]; [lra|auto].
    + destruct H3 as [H3|H3]; [|auto]. unfold Rmax in H3. destruct (Rle_dec a b); auto.
Qed.
Lemma fold_min l a u : fold_left Rmin l a = u -> (u <= a)%R /\ (forall b, In b l -> (u <= b)%R) /\ (u = a \/ In u l).
Proof.
  revert a. induction l as [|b l IH]; intros a; cbn; intros H.
  - subst. split; [lra|]. split; [easy|auto].
  - destruct (IH _ H) as (H1 & H2 & H3). pose proof (Rmin_l a b). pose proof (Rmin_r a b). split; [lra|]. split.
    + intros c [<-|Hc]; [lra|auto].
    + destruct H3 as [H3|H3]; [|auto]. unfold Rmin in H3. destruct (Rle_dec a b); auto.
Qed.
Lemma vmax_ok l : l <> [] -> exists u, vmax l = Ok u /\ greatest (fun a => In a l) u.
Proof.
  destruct l as [|a l]; [easy|]. intros _. eexists. split; [reflexivity|].
  destruct (fold_max l a _ eq_refl) as (H1 & H2 & H3). split; [destruct H3 as [H3|H3]; [left; now symmetry|now right]|]. intros b [Hb|Hb]; [now subst b|auto].
Qed.
Lemma vmin_ok l : l <> [] -> exists u, vmin l = Ok u /\ least (fun a => In a l) u.
Proof.
  destruct l as [|a l]; [easy|]. intros _. eexists. split; [reflexivity|].
  destruct (fold_min l a _ eq_refl) as (H1 & H2 & H3). split; [destruct H3 as [H3|H3]; [left; now symmetry|now right]|]. intros b [Hb|Hb]; [now subst b|auto].
Qed.
Lemma greatest_max P Q u w : greatest P u -> greatest Q w -> greatest (fun a => P a \/ Q a) (Rmax u w).
Proof.
  intros [H1 H2] [H3 H4]. split.
  - unfold Rmax. destruct (Rle_dec u w); auto.
  - intros a [Ha|Ha]; [specialize (H2 a Ha)|specialize (H4 a Ha)]; pose proof (Rmax_l u w); pose proof (Rmax_r u w); lra.
Qed.
Lemma least_min P Q u w : least P u -> least Q w -> least (fun a => P a \/ Q a) (Rmin u w).
Proof.
  intros [H1 H2] [H3 H4]. split.
  - unfold Rmin. destruct (Rle_dec u w); auto.
  - intros a [Ha|Ha]; [specialize (H2 a Ha)|specialize (H4 a Ha)]; pose proof (Rmin_l u w); pose proof (Rmin_r u w); lra.
Qed.
Lemma greatest_ext (P Q : R -> Prop) u : (forall a, P a <-> Q a) -> greatest P u -> greatest Q u.
Proof. intros E [H1 H2]. split; [now apply E|]. intros a Ha. now apply H2, E. Qed.
Lemma least_ext (P Q : R -> Prop) u : (forall a, P a <-> Q a) -> least P u -> least Q u.
Proof. intros E [H1 H2]. split; [now apply E|]. intros a Ha. now apply H2, E. Qed.

(** the rows of a mask *)
Lemma bool_select_In {A} mask (l : list A) a d : length mask = length l ->
  In a (bool_select mask l) <-> exists r, r < length l /\ nth r mask false = true /\ a = nth r l d.
Proof.
  revert l. induction mask as [|b mask IH]; intros [|c l]; cbn [length]; intros H; try lia.
  - cbn. split; [easy|]. intros (r & Hr & _). lia.
  - assert (G := IH l ltac:(lia)). clear IH. destruct b; cbn [bool_select In]; rewrite G; clear G.
    + split.
      * intros [<-|(r & H1 & H2 & H3)]; [exists 0; cbn; repeat split; lia|exists (S r); cbn; repeat split; auto; lia].
      * intros ([|r] & H1 & H2 & H3); [now left|right; exists r; cbn in *; repeat split; auto; lia].
    + split.
      * intros (r & H1 & H2 & H3). exists (S r); cbn; repeat split; auto; lia.
      * intros ([|r] & H1 & H2 & H3); [discriminate H2|exists r; cbn in *; repeat split; auto; lia].
Qed.

Definition group_outcome (x : list (list label)) (y : list row) (g : list label) (a : R) : Prop :=
  exists r, r < length x /\ nth r x [] = g /\ a = nth 0 (nth r y []) 0%R.

Lemma group_rows_ok x y mask g :
  length y = length x -> (forall r, r < length x -> nth r mask false = true <-> nth r x [] = g) -> length mask = length x -> In g x ->
  exists l, group_rows mask y = Ok l /\ l <> [] /\ forall a, In a l <-> group_outcome x y g a.
Proof.
  intros Hy Hm Hl Hg. unfold group_rows, bool_index. rewrite (proj2 (Nat.eqb_eq _ _)) by congruence. cbn [bind].
  eexists. split; [reflexivity|].
  assert (I : forall a, In a (map (fun r : row => nth 0 r 0%R) (bool_select mask y)) <-> group_outcome x y g a).
  { intros a. rewrite in_map_iff. split.
    - intros (r & <- & Hr). apply (bool_select_In _ _ _ []) in Hr as (i & H1 & H2 & ->); [|congruence].
      exists i. rewrite Hy in H1. split; [exact H1|]. split; [now apply Hm|reflexivity].
    - intros (i & H1 & H2 & ->). exists (nth i y []). split; [reflexivity|]. apply (bool_select_In _ _ _ []); [congruence|].
      exists i. split; [lia|]. split; [now apply Hm|reflexivity]. }
  split; [|exact I]. intros E. apply (In_nth _ _ []) in Hg as (i & H1 & H2).
  assert (J : group_outcome x y g (nth 0 (nth i y []) 0%R)) by (exists i; repeat split; assumption).
  apply I in J. rewrite E in J. destruct J.
Qed.

(** the bounds of the outcome: given, or the extreme outcomes of the two groups *)
Definition upper_bound (x : list (list label)) (y : list row) (rt rk : list label) (given : option R) (U : R) : Prop :=
  match given with Some u => U = u | None => greatest (outcomes_of x y rt rk) U end.
Definition lower_bound (x : list (list label)) (y : list row) (rt rk : list label) (given : option R) (L : R) : Prop :=
  match given with Some l => L = l | None => least (outcomes_of x y rt rk) L end.

Lemma outcomes_split x y rt rk a : group_outcome x y rt a \/ group_outcome x y rk a <-> outcomes_of x y rt rk a.
Proof.
  split.
  - intros [(r & H1 & H2 & H3)|(r & H1 & H2 & H3)]; exists r; auto.
  - intros (r & H1 & [H2|H2] & H3); [left|right]; exists r; auto.
Qed.

Lemma prob_col_ok q p : Forall (fun r : row => q < length r) p -> prob_col (Z.of_nat q) p = Ok (map (fun r => nth q r 0%R) p).
Proof.
  intros H. unfold prob_col. apply mapX_ok. intros r Hr. rewrite (proj2 (Z.ltb_ge _ _)) by lia. rewrite Nat2Z.id.
  rewrite Forall_forall in H. now rewrite (nth_error_nth' r 0%R (H r Hr)).
Qed.

(** the six vectors *)
Definition vectors (U L : R) (n : nat) (pt pk yt yk : nat -> R) : abounds :=
  let each f := map (fun r => f U L (pt r) (pk r) (yt r) (yk r)) (seq 0 n) in
  mkBounds (each bound_lower) (each bound_upper) (each bound_u1) (each bound_l1) (each bound_u2) (each bound_l2).

Lemma vectors_ext U L n pt pk yt yk pt' pk' yt' yk' :
  (forall r, r < n -> pt r = pt' r /\ pk r = pk' r /\ yt r = yt' r /\ yk r = yk' r) ->
  vectors U L n pt pk yt yk = vectors U L n pt' pk' yt' yk'.
Proof.
  intros H. unfold vectors. f_equal; apply map_ext_in; intros r Hr; apply in_seq in Hr; destruct (H r ltac:(lia)) as (-> & -> & -> & ->); reflexivity.
Qed.

Lemma vat_map (f : nat -> R) n r : r < n -> vat (map f (seq 0 n)) r = f r.
Proof.
  intros H. unfold vat. rewrite map_length, seq_length. destruct (Nat.eqb_spec n 1) as [->|].
  - replace r with 0 by lia. reflexivity.
  - rewrite (nth_indep _ 0%R (f 0)) by (rewrite map_length, seq_length; lia). rewrite map_nth, seq_nth by lia. reflexivity.
Qed.

(** [x] are the groups of the rows [y]; the bounds for two groups that have rows *)
Lemma ab_bounds_ok Ly keys my (x : list (list label)) y v p rt rk tr ct yu yl :
  NoDup keys -> In rt keys -> In rk keys -> In rt x -> In rk x ->
  Forall (fun r => length r = 1) y -> length y = length x -> (forall v', v = Some v' -> length v' = length x) ->
  length tr = length x -> (forall r, r < length x -> nth r tr false = true <-> nth r x [] = rt) ->
  length ct = length x -> (forall r, r < length x -> nth r ct false = true <-> nth r x [] = rk) ->
  l_dim Ly my = None -> Forall (fun r => length r = length keys) p -> (length p = 1 \/ length p = answers v (length x)) ->
  exists U L, upper_bound x y rt rk yu U /\ lower_bound x y rt rk yl L /\
    ab_bounds Ly (length keys) (Some my) (Z.of_nat (group_no keys rt)) (Z.of_nat (group_no keys rk)) yu yl
              (mkWork (answers v (length x)) v y p tr ct) =
    Ok (vectors U L (answers v (length x)) (vat (map (fun r => nth (group_no keys rt) r 0%R) p))
                (vat (map (fun r => nth (group_no keys rk) r 0%R) p))
                (outcome_of Ly my keys v rt) (outcome_of Ly my keys v rk)).
Proof.
  intros ND Kt Kk Xt Xk Hy1 Hy Hv Lt Mt Lc Mc Hd Hp Hp1.
  destruct (group_no_lt _ _ Kt) as [Qt Nt]. destruct (group_no_lt _ _ Kk) as [Qk Nk].
  destruct (group_rows_ok _ _ _ _ Hy Mt Lt Xt) as (lt & Et & Et0 & It). destruct (group_rows_ok _ _ _ _ Hy Mc Lc Xk) as (lk & Ek & Ek0 & Ik).
  destruct (vmax_ok _ Et0) as (tu & Etu & Gtu). destruct (vmin_ok _ Et0) as (tl & Etl & Gtl).
  destruct (vmax_ok _ Ek0) as (ku & Eku & Gku). destruct (vmin_ok _ Ek0) as (kl & Ekl & Gkl).
  exists (match yu with Some u => u | None => Rmax tu ku end), (match yl with Some l => l | None => Rmin tl kl end).
  split; [|split].
  - destruct yu; cbn; [reflexivity|]. eapply greatest_ext; [apply outcomes_split|].
    apply greatest_max; [exact (greatest_ext _ _ _ It Gtu)|exact (greatest_ext _ _ _ Ik Gku)].
  - destruct yl; cbn; [reflexivity|]. eapply least_ext; [apply outcomes_split|].
    apply least_min; [exact (least_ext _ _ _ It Gtl)|exact (least_ext _ _ _ Ik Gkl)].
  - unfold ab_bounds. cbn [k_n k_v k_y k_p k_tr k_ct].
    assert (W : width y = 1). { destruct y as [|r y]; [|now inversion Hy1]. destruct x; [easy|discriminate Hy]. }
    rewrite W. cbn [Nat.eqb negb]. rewrite Et, Ek. cbn [bind]. rewrite Etu, Etl. cbn [bind]. rewrite Eku, Ekl. cbn [bind].
    rewrite (unit_vec_ok _ _ _ ND Nt), (unit_vec_ok _ _ _ ND Nk). cbn [bind].
    rewrite (target_inputs keys rt v _ Hv), (target_inputs keys rk v _ Hv). cbn [bind]. rewrite Hd.
    rewrite !prob_col_ok by (eapply Forall_impl; [|exact Hp]; cbn; intros r ->; assumption). cbn [bind].
    set (n := answers v (length x)) in *.
    assert (En : vsize (map (fun r : row => nth (group_no keys rt) r 0%R) p)
                   (map (fun x0 => nth 0 (l_pred Ly my x0) 0%R) (map (fun r => group_input keys rt (cov v r)) (seq 0 n))) = Ok n).
    { unfold vsize. rewrite !map_length, seq_length. destruct (Nat.eqb_spec (length p) n) as [->|Ne]; [reflexivity|].
      destruct Hp1 as [->|]; [|contradiction]. reflexivity. }
    rewrite En. cbn [bind]. f_equal. apply vectors_ext. intros r Hr. rewrite !map_map, !vat_map by assumption. repeat split.
Qed.
