(** C133-C136, C139: DoubleML with discrete treatments. *)
From Coq Require Import ZArith Reals Lra.
From Verif Require Import Base ApiModel EstUtilsModel EstUtilsProps MetaModel MetaSpec MetaProofs MetaProps MetaRefit MetaT MetaX
  CrossFitModel CrossFitProofs DrModel DrProofs DrSpec DrProps DrCalls DrRobust DmlModel DmlProofs DmlProps DmlCalls.
Local Notation length := List.length.
Local Notation concat := List.concat.

(** [names d keys dflt t r]: with d treatment columns, the argument t names the group r; no argument names group number
    dflt *)
Inductive names (d : nat) (keys : list (list label)) (dflt : nat) : dtarg -> list label -> Prop :=
  | names_none r : nth_error keys dflt = Some r -> names d keys dflt ANone r
  | names_val a : d = 1 -> names d keys dflt (AVal a) [a]
  | names_list l : forallb is_str l = true \/ existsb is_str l = false -> names d keys dflt (AList l) l.

Lemma dml_enc_run {A} (m : M encs A) (h : heap) o r : m (d_encs o) = (d_encs o, r) -> dml_enc m (h, o) = ((h, o), r).
Proof. intros E. unfold dml_enc. cbn [snd fst]. rewrite E. destruct o; reflexivity. Qed.

Lemma dml_arg_ok (h : heap) o d keys t (treat : bool) r q :
  d_isf o = true -> Enc (d_encs o) d keys -> names d keys (if treat then 1 else 0) t r -> nth_error keys q = Some r ->
  dml_arg true t treat (h, o) = ((h, o), Ok (VCode (Z.of_nat q))).
Proof.
  intros Hi HE HN Hq. destruct (Enc_keys HE) as (ND & _ & _).
  assert (G : forall t', asks d keys (if treat then 1 else 0) t' r ->
     dml_enc (get_tr_ctrl t' (fun v => sl_comp true v None) treat) (h, o) = ((h, o), Ok (Z.of_nat q))).
  { intros t' HA. apply dml_enc_run. eapply get_tr_ctrl_ok; eauto. intros x _. apply sl_comp_ready. }
  unfold dml_arg, mbind, obj_get. cbn [snd]. rewrite Hi. destruct HN as [r Hr|a Hd|l Hl].
  - assert (q = if treat then 1 else 0) as ->.
    { pose proof (index_of_nth r keys _ ND Hr). pose proof (index_of_nth r keys _ ND Hq). congruence. }
    now destruct treat.
  - rewrite (G (TVal a)) by now constructor. reflexivity.
  - rewrite (G (TList l)) by now constructor. reflexivity.
Qed.

Lemma dml_arg_unknown (h : heap) o d keys t (treat : bool) r :
  d_isf o = true -> Enc (d_encs o) d keys -> names d keys (if treat then 1 else 0) t r -> length r = d -> ~ In r keys -> t <> ANone ->
  dml_arg true t treat (h, o) = ((h, o), Err ValueError).
Proof.
  intros Hi HE HN Hl Hn Ht.
  assert (G : forall t', t' <> TNone -> asks d keys (if treat then 1 else 0) t' r ->
     dml_enc (get_tr_ctrl t' (fun v => sl_comp true v None) treat) (h, o) = ((h, o), Err ValueError)).
  { intros t' Hne HA. apply dml_enc_run. eapply get_tr_ctrl_unknown; eauto. intros x _. apply sl_comp_ready. }
  unfold dml_arg, mbind, obj_get. cbn [snd]. rewrite Hi. destruct HN as [r Hr|a Hd|l Hl'].
  - easy.
  - rewrite (G (TVal a)) by (easy || now constructor). reflexivity.
  - rewrite (G (TList l)) by (easy || now constructor). reflexivity.
Qed.

(** the propensities of the first stage *)
Definition first_stage_disc (L : learner) (cf : nat) (wv : list row) (labels : list R) (x_d : nat) (p : nat -> nat -> R) : Prop :=
  if cf <=? 1
  then exists m, l_fit L wv (nd_vec labels) = Ok m /\ n_classes L m = x_d /\ forall r i, p r i = row_prob L m (nth r wv []) i
  else let n := length labels in
       forall r, r < n -> exists F m, fold_of n cf r F /\ ~ In r (outside n F) /\
         l_fit L (take_rows [] (outside n F) wv) (nd_vec (take_rows 0%R (outside n F) labels)) = Ok m /\
         ((n_classes L m = x_d /\ forall i, p r i = row_prob L m (nth r wv []) i) \/
          (n_classes L m = 1 /\ forall i, p r i = row_prob L m (nth r wv []) 0)).

Lemma dml_cross_disc_first L wv x x_d cf p :
  dml_cross_disc L wv x x_d cf = Ok p -> x_d <> 1 /\ first_stage_disc L cf wv (map IZR (convert4onehot x)) x_d p.
Proof.
  unfold dml_cross_disc, first_stage_disc. intros H. destruct (Nat.eqb_spec x_d 1); [discriminate H|]. split; auto.
  set (labels := map IZR (convert4onehot x)) in *.
  assert (Ll : length labels = length x) by (unfold labels, convert4onehot; now rewrite !map_length).
  destruct (cf <=? 1) eqn:Ec.
  - destruct (l_fit L wv _) as [m|] eqn:Em; [|discriminate H]. cbn [bind] in H.
    destruct (Nat.eqb_spec (n_classes L m) x_d); [|discriminate H]. injection H as <-. exists m. auto.
  - destruct (kfold (length x) cf) as [folds|] eqn:EK; [|discriminate H]. cbn [bind] in H. cbn zeta. rewrite Ll. intros r Hr.
    set (step := fun f : list nat * list nat =>
      do m <- l_fit L (take_rows [] (fst f) wv) (nd_vec (take_rows 0%R (fst f) labels));
      (let p := predict_proba L m (take_rows [] (snd f) wv) in
               if n_classes L m =? x_d then Ok (fun r i => nd_at p [r; i])
               else if n_classes L m =? 1 then Ok (fun r (i : nat) => nd_at p [r; 0]) else Err ValueError)).
    assert (H' : fold_left (fun acc f => do o <- acc; do v <- step f; Ok (put_rows o (snd f) v)) folds (Ok (fun _ _ => 0%R)) = Ok p).
    { rewrite <- H. clear H. generalize (@Ok (nat -> nat -> R) (fun _ _ => 0%R)). clear EK.
      induction folds as [|f folds IH]; intros acc; cbn [fold_left]; auto. rewrite <- IH. f_equal.
      destruct acc as [o|]; cbn [bind]; auto. unfold step. destruct (l_fit L _ _) as [m|]; cbn [bind]; auto. }
    destruct (folds_row step _ _ _ _ _ _ EK Hr H') as (F & v & pos & HF & HN & Hp & Hs & Hv).
    unfold step in Hs. cbn [fst snd] in Hs. destruct (l_fit L _ _) as [m|] eqn:Em; [|discriminate Hs]. cbn [bind] in Hs. cbn zeta in Hs.
    exists F, m. do 3 (split; [assumption|]). rewrite Hv.
    assert (RP : forall i, nd_at (predict_proba L m (take_rows [] F wv)) [pos; i] = row_prob L m (nth r wv []) i).
    { intros i. unfold predict_proba, row_prob. cbn [nd_at nth]. now rewrite (take_rows_nth _ _ _ _ _ Hp). }
    destruct (Nat.eqb_spec (n_classes L m) x_d).
    + left. split; auto. intros i. injection Hs as <-. apply RP.
    + destruct (Nat.eqb_spec (n_classes L m) 1); [|discriminate Hs]. right. split; auto. intros i. injection Hs as <-. apply RP.
Qed.

Lemma no_categories (cs : list (list label)) : None = Some cs -> Forall (@NoDup label) cs.
Proof. intros F. discriminate F. Qed.

(** a successful fit of a new object on d discrete treatment columns *)
Lemma fit_disc_ready Lx Ly lin categories cf a x h k s1 d :
  m_x a = XDisc x -> Forall (fun r => length r = d) x -> (forall cs, categories = Some cs -> Forall (@NoDup label) cs) ->
  dml_fit Lx Ly lin categories cf a (h, dml_new k) = (s1, Ok tt) ->
  exists keys v wv p yhat c,
    groups_of d (dr_values categories x) keys /\ (d = 1 -> categories = None -> increasing keys) /\
    (forall r, In r x -> In r keys) /\ x <> [] /\
    m_v a = Some v /\ get_wv [m_w a; m_v a] = Ok wv /\ 2 <= length keys /\
    first_stage_disc Lx cf wv (group_nos keys x) (length keys) p /\ first_stage Ly cf wv (m_y a) (width (m_y a)) yhat /\
    lin (design (map (indicator keys) x) p v) (residuals (m_y a) yhat) = Ok c /\
    Enc (d_encs (snd s1)) d keys /\ d_isf (snd s1) = true /\ d_tr (snd s1) = k_treat a /\ d_ct (snd s1) = k_control a /\
    (d <> 1 -> Enc (d_encs (snd s1)) 1 (map (fun i => [LN i]) (seq 0 (length keys)))) /\
    forall v_d, ready s1 c (width (m_y a)) (length keys) v_d v.
Proof.
  intros Ex HL HN H. destruct (dml_fit_disc _ _ _ _ _ _ _ _ _ Ex H) as (e & z & v & wv & p & yhat & c & E1 & H1 & H2 & H3 & H4 & H5 & ->).
  cbn [snd fst dml_new d_isf d_encs d_yx d_tr d_ct] in *.
  destruct (@sl_comp_fresh _ _ _ _ _ _ HL HN E1) as (keys & cats & Ef & HE & -> & Hk & Hd1 & Hn1).
  destruct (@enc_fit_spec _ _ _ _ HL Ef) as (Hx & _ & Hlen & Hin & Hnone & Hsome).
  destruct (Enc_keys HE) as (ND & _ & _).
  pose proof (groups_product _ _ _ _ _ HL Ef ND Hk) as Hg.
  assert (Hall : forall r, In r x -> In r keys) by (intros r Hr; apply Hk, Hin; exact Hr).
  apply dml_cross_disc_first in H3 as [H30 H3]. rewrite (codes_of keys x ND Hall) in H3.
  assert (Wi : width (to_rows (map (ind keys) x)) = length keys).
  { rewrite to_rows_ind. destruct x; [easy|]. cbn. apply indicator_length. }
  rewrite Wi in *. rewrite to_rows_ind in H5.
  assert (K2 : 2 <= length keys).
  { destruct keys as [|g [|g' keys]]; cbn in *; try lia. destruct x as [|r x]; [easy|]. destruct (Hall r (or_introl eq_refl)). }
  exists keys, v, wv, p, yhat, c. split; [exact Hg|]. split.
  { intros Hd HN0. exists (nth 0 cats []). split; auto. destruct (Hnone HN0) as [HS _].
    rewrite Forall_forall in HS. apply HS. apply nth_In. lia. }
  do 8 (split; [assumption|]). split; [exact HE|]. split; [reflexivity|].
  split; [now destruct (k_treat a)|]. split; [now destruct (k_control a)|]. split; [exact Hn1|].
  intros v_d. unfold ready, upd. cbn [fst snd].
  cbn [d_yx d_isf d_stage1 d_encs d_tv d_named d_nx d_ny d_tr d_ct]. rewrite Nat.eqb_refl. repeat split.
Qed.

Lemma pick_ok n y x f q : q < x -> pick_group (mkNd [n; y; x] f) (VCode (Z.of_nat q)) =
  Ok (mkNd [n; y] (fun idx => f [nth 0 idx 0; nth 1 idx 0; q])).
Proof.
  intros H. unfold pick_group. cbn [nd_shape]. unfold norm_index. rewrite (proj2 (Z.leb_le _ _)) by lia.
  rewrite (proj2 (Z.ltb_lt _ _)) by lia. cbn [andb bind nd_at]. now rewrite Nat2Z.id.
Qed.

(** one estimate of a fitted object *)
Lemma estimate_groups s c y_d keys d v_d V data t k rt rk dt dk :
  ready s c y_d (length keys) v_d V -> 0 < y_d -> coef_shape c y_d (length keys) v_d ->
  Forall (fun r => length r = v_d) (data_rows data V) ->
  Enc (d_encs (snd s)) d keys ->
  dt = kept t (d_tr (snd s)) -> dk = kept k (d_ct (snd s)) ->
  names d keys 1 dt rt -> In rt keys -> names d keys 0 dk rk -> In rk keys ->
  exists e, dml_estimate true data t k QNone s = ((fst s, dml_treat (AVal (LN (group_no keys rt))) (snd s)), Ok e) /\
    nd_shape e = [length (data_rows data V); y_d] /\
    forall r j, r < length (data_rows data V) -> j < y_d ->
      nd_at e [r; j] = (slope (nth j c []) (group_no keys rt) (1 :: nth r (data_rows data V) []) -
                        slope (nth j c []) (group_no keys rk) (1 :: nth r (data_rows data V) []))%R.
Proof.
  intros HR Hy Hc HV HE -> -> Nt It Nk Ik.
  destruct (group_no_lt _ _ It) as [Lt Et]. destruct (group_no_lt _ _ Ik) as [Lk Ek].
  assert (Hx : 0 < length keys) by lia.
  destruct (dml_prepare_ok _ _ _ _ _ _ _ HR Hy Hx Hc HV) as (f & E & Hf).
  set (D := data_rows data V) in *. destruct s as [h o]. cbn [snd fst] in *.
  assert (Hi : d_isf o = true) by apply HR.
  pose proof (dml_arg_ok h o d keys _ true _ _ Hi HE Nt Et) as At. pose proof (dml_arg_ok h o d keys _ false _ _ Hi HE Nk Ek) as Ak.
  destruct (bcast_same Rminus (mkNd [length D; y_d] (fun idx => f [nth 0 idx 0; nth 1 idx 0; group_no keys rt]))
              (mkNd [length D; y_d] (fun idx => f [nth 0 idx 0; nth 1 idx 0; group_no keys rk])) eq_refl) as (e & Eb & Sb & Vb).
  cbn [nd_shape nd_at] in Sb, Vb.
  exists e. split.
  - unfold dml_estimate, mbind. rewrite E. unfold obj_get at 1. cbn [snd].
    change (match t with ANone => d_tr o | _ => t end) with (kept t (d_tr o)).
    change (match k with ANone => d_ct o | _ => k end) with (kept k (d_ct o)).
    replace (match t with ANone => d_tr o | AVal _ => _ | AList _ => _ | AArr _ => _ | ANum _ => _ | AArrR _ => _ end) with (kept t (d_tr o)) by now destruct t.
    replace (match k with ANone => d_ct o | AVal _ => _ | AList _ => _ | AArr _ => _ | ANum _ => _ | AArrR _ => _ end) with (kept k (d_ct o)) by now destruct k.
    rewrite At, Ak. unfold obj_set, mlift. cbn [fst snd]. rewrite !pick_ok by auto. cbn [bind]. rewrite Eb. reflexivity.
  - split; auto. intros r j Hr Hj. rewrite Vb by now apply F2_two. cbn [nth]. now rewrite !Hf by lia.
Qed.

(** C133: fit a new DoubleML object on d discrete treatment columns.  There is a list [keys] of at least two groups -- all
    tuples of treatment values, each once, increasing for one column -- such that: the treatment model is trained on w
    and v with the group numbers and gives the group probabilities p; the final model is trained on the products of
    (indicator of the row's group - p) with (1, v) and on the outcome residuals; the effect of treat group t against
    control group k on row r, outcome j is the difference of the two groups' coefficients applied to (1, v[r]). *)
Theorem C133_DML_discrete_estimate Lx Ly lin categories cf a x h0 k s1 d :
  m_x a = XDisc x -> Forall (fun r => length r = d) x -> (forall cs, categories = Some cs -> Forall (@NoDup label) cs) ->
  dml_fit Lx Ly lin categories cf a (h0, dml_new k) = (s1, Ok tt) ->
  exists keys v wv p yhat c,
    groups_of d (dr_values categories x) keys /\ (d = 1 -> categories = None -> increasing keys) /\
    m_v a = Some v /\ get_wv [m_w a; m_v a] = Ok wv /\ 2 <= length keys /\
    first_stage_disc Lx cf wv (group_nos keys x) (length keys) p /\ first_stage Ly cf wv (m_y a) (width (m_y a)) yhat /\
    lin (design (map (indicator keys) x) p v) (residuals (m_y a) yhat) = Ok c /\
    forall v_d data treat control rt rk, coef_shape c (width (m_y a)) (length keys) v_d -> 0 < width (m_y a) ->
      let D := match data with Some d => d | None => v end in
      Forall (fun r => length r = v_d) D ->
      names d keys 1 (kept treat (k_treat a)) rt -> In rt keys -> names d keys 0 (kept control (k_control a)) rk -> In rk keys ->
      exists s2 e, dml_estimate true data treat control QNone s1 = (s2, Ok e) /\
        nd_shape e = [length D; width (m_y a)] /\
        forall r j, r < length D -> j < width (m_y a) ->
          nd_at e [r; j] = (slope (nth j c []) (group_no keys rt) (1 :: nth r D []) -
                            slope (nth j c []) (group_no keys rk) (1 :: nth r D []))%R.
Proof.
  intros Ex HL HN H. destruct (fit_disc_ready _ _ _ _ _ _ _ _ _ _ _ Ex HL HN H)
    as (keys & v & wv & p & yhat & c & H1 & H2 & H3 & H4 & H5 & H6 & H7 & H8 & H9 & H10 & HE & Hi & Ht & Hk & _ & HR).
  exists keys, v, wv, p, yhat, c. do 8 (split; [assumption|]). intros v_d data treat control rt rk Hc Hy D HD Nt It Nk Ik.
  rewrite <- Ht in Nt. rewrite <- Hk in Nk.
  destruct (estimate_groups _ _ _ _ _ _ _ data _ _ _ _ _ _ (HR v_d) Hy Hc HD HE eq_refl eq_refl Nt It Nk Ik) as (e & E & S & V).
  eexists _, e. split; [exact E|]. split; [exact S|]. exact V.
Qed.

(** ... and an unknown group is a ValueError *)
Theorem C133_DML_unknown_group Lx Ly lin categories cf a x h0 k s1 d :
  m_x a = XDisc x -> Forall (fun r => length r = d) x -> (forall cs, categories = Some cs -> Forall (@NoDup label) cs) ->
  dml_fit Lx Ly lin categories cf a (h0, dml_new k) = (s1, Ok tt) ->
  exists keys X Y c v, groups_of d (dr_values categories x) keys /\ m_v a = Some v /\ lin X Y = Ok c /\
    forall v_d data treat control rt q, coef_shape c (width (m_y a)) (length keys) v_d -> 0 < width (m_y a) ->
      Forall (fun r => length r = v_d) (match data with Some d => d | None => v end) ->
      treat <> ANone -> names d keys 1 treat rt -> length rt = d -> ~ In rt keys ->
      snd (dml_estimate true data treat control q s1) = Err ValueError.
Proof.
  intros Ex HL HN H. destruct (fit_disc_ready _ _ _ _ _ _ _ _ _ _ _ Ex HL HN H)
    as (keys & v & wv & p & yhat & c & H1 & H2 & H3 & H4 & H5 & H6 & H7 & H8 & H9 & H10 & HE & Hi & Ht & Hk & _ & HR).
  exists keys, (design (map (indicator keys) x) p v), (residuals (m_y a) yhat), c, v. do 3 (split; [assumption|]). intros v_d data treat control rt q Hc Hy HD Hne Nt Lt It.
  destruct (dml_prepare_ok _ _ _ _ _ _ data (HR v_d) Hy ltac:(lia) Hc HD) as (f & E & _).
  destruct s1 as [h o]. cbn [snd] in *. unfold dml_estimate, mbind. rewrite E. unfold obj_get at 1. cbn [snd].
  replace (match treat with ANone => d_tr o | AVal _ => _ | AList _ => _ | AArr _ => _ | ANum _ => _ | AArrR _ => _ end) with treat by (destruct treat; easy).
  rewrite (dml_arg_unknown h o d keys _ true _ Hi HE Nt Lt It Hne). reflexivity.
Qed.

(** C135 is false when some combination of treatment values has no row (or a given category has none): without cross
    fitting no call of fit succeeds *)
Theorem C135_DML_missing_group_refuted Lx Ly lin categories cf a x h0 k d g :
  m_x a = XDisc x -> Forall (fun r => length r = d) x -> (forall cs, categories = Some cs -> Forall (@NoDup label) cs) ->
  cf <= 1 -> counts_classes Lx ->
  length g = d -> (forall j, j < d -> dr_values categories x j (nth j g (LInt 0))) -> ~ In g x ->
  snd (dml_fit Lx Ly lin categories cf a (h0, dml_new k)) <> Ok tt.
Proof.
  intros Ex HL HN Hcf HC Hl Hv Hn H.
  destruct (dml_fit Lx Ly lin categories cf a (h0, dml_new k)) as [s1 r] eqn:E. cbn in H. subst r.
  destruct (fit_disc_ready _ _ _ _ _ _ _ _ _ _ _ Ex HL HN E)
    as (keys & v & wv & p & yhat & c & Hg & H2 & Hall & H4 & H5 & H6 & H7 & H8 & _).
  unfold first_stage_disc in H8. rewrite (proj2 (Nat.leb_le cf 1) Hcf) in H8. destruct H8 as (mx & Emx & Encl & _).
  rewrite (HC _ _ _ Emx) in Encl.
  destruct Hg as [ND Hg]. assert (Ig : In g keys) by (apply Hg; auto).
  assert (Inj : forall r, In r keys -> group_no keys r = group_no keys g -> r = g).
  { intros r Ir Eq. destruct (group_no_lt _ _ Ir) as [_ E1]. destruct (group_no_lt _ _ Ig) as [_ E2]. congruence. }
  assert (NI : ~ In (INR (group_no keys g)) (nodup Req_EM_T (group_nos keys x))).
  { intros I. apply nodup_In in I. unfold group_nos in I. apply in_map_iff in I as (r & E1 & Ir).
    apply INR_eq in E1. apply Hn. rewrite <- (Inj r (Hall r Ir) E1). exact Ir. }
  assert (S : length (INR (group_no keys g) :: nodup Req_EM_T (group_nos keys x)) <= length (map INR (seq 0 (length keys)))).
  { apply NoDup_incl_length; [constructor; auto; apply NoDup_nodup|].
    intros z [<-|Iz].
    - apply in_map, in_seq. destruct (group_no_lt _ _ Ig). lia.
    - apply nodup_In in Iz. unfold group_nos in Iz. apply in_map_iff in Iz as (r & <- & Ir).
      apply in_map, in_seq. destruct (group_no_lt _ _ (Hall r Ir)). lia. }
  cbn in S. rewrite map_length, seq_length in S. lia.
Qed.

(** ... and when all rows have the same treatment *)
Theorem C135_DML_one_group_refuted Lx Ly lin cf a x h0 k d g :
  m_x a = XDisc x -> length g = d -> (forall r, In r x -> r = g) ->
  snd (dml_fit Lx Ly lin None cf a (h0, dml_new k)) <> Ok tt.
Proof.
  intros Ex Hl Hx H. destruct (dml_fit Lx Ly lin None cf a (h0, dml_new k)) as [s1 r] eqn:E. cbn in H. subst r.
  assert (HL : Forall (fun r => length r = d) x) by (apply Forall_forall; intros r Hr; now rewrite (Hx r Hr)).
  destruct (fit_disc_ready _ _ _ _ _ _ _ _ _ _ _ Ex HL no_categories E)
    as (keys & v & wv & p & yhat & c & Hg & _ & _ & Hne & _ & _ & H7 & _). destruct Hg as [ND Hg].
  assert (A : forall r, In r keys -> r = g).
  { intros r Hr. apply Hg in Hr as [Lr Hr]. apply (nth_ext _ _ (LInt 0) (LInt 0)); [lia|]. intros j Hj.
    destruct (Hr j ltac:(lia)) as (r' & I & E'). now rewrite <- E', (Hx r' I). }
  destruct keys as [|g1 [|g2 keys]]; cbn in H7; try lia. rewrite (A g1), (A g2) in ND by (cbn; auto). inversion ND as [|? ? N _]. apply N. now left.
Qed.

(* ------------------------------------------------------------------------------------------------ *)
(** ** C134: the same estimate twice *)

Lemma names_value_1 keys a : names 1 keys 1 (AVal a) [a].
Proof. now constructor. Qed.

(** C134 is false: on one treatment column, with treat and control never given, estimate() compares group 1 with group 0;
    the same call again compares the group of the VALUE 1 with group 0, or is a ValueError if 1 is not a value. *)
Theorem C134_DML_repeat_refuted Lx Ly lin cf a x h0 k s1 :
  m_x a = XDisc x -> Forall (fun r => length r = 1) x -> k_treat a = ANone -> k_control a = ANone ->
  dml_fit Lx Ly lin None cf a (h0, dml_new k) = (s1, Ok tt) ->
  exists keys X Y c v, groups_of 1 (occurs x) keys /\ increasing keys /\ m_v a = Some v /\ lin X Y = Ok c /\
    forall v_d, coef_shape c (width (m_y a)) (length keys) v_d -> 0 < width (m_y a) -> Forall (fun r => length r = v_d) v ->
    let effect g r j := (slope (nth j c []) g (1 :: nth r v []) - slope (nth j c []) 0 (1 :: nth r v []))%R in
    exists s2 e1, dml_estimate true None ANone ANone QNone s1 = (s2, Ok e1) /\
      (forall r j, r < length v -> j < width (m_y a) -> nd_at e1 [r; j] = effect 1 r j) /\
      (occurs x 0 (LInt 1) -> exists e2, snd (dml_estimate true None ANone ANone QNone s2) = Ok e2 /\
         forall r j, r < length v -> j < width (m_y a) -> nd_at e2 [r; j] = effect (group_no keys [LInt 1]) r j) /\
      (~ occurs x 0 (LInt 1) -> snd (dml_estimate true None ANone ANone QNone s2) = Err ValueError).
Proof.
  intros Ex HL Kt Kc H. destruct (fit_disc_ready _ _ _ _ _ _ _ _ _ _ _ Ex HL no_categories H)
    as (keys & v & wv & p & yhat & c & H1 & H2 & H3 & H4 & H5 & H6 & H7 & H8 & H9 & H10 & HE & Hi & Ht & Hk & _ & HR).
  exists keys, (design (map (indicator keys) x) p v), (residuals (m_y a) yhat), c, v. split; [exact H1|]. split; [now apply H2|].
  do 2 (split; [assumption|]). intros v_d Hc Hy HD effect. rewrite Kt in Ht. rewrite Kc in Hk.
  destruct (nth_error keys 0) as [g0|] eqn:E0; [|apply nth_error_None in E0; lia].
  destruct (nth_error keys 1) as [g1|] eqn:E1; [|apply nth_error_None in E1; lia].
  destruct (Enc_keys HE) as (ND & _ & _).
  assert (N0 : names 1 keys 0 ANone g0) by now constructor. assert (N1 : names 1 keys 1 ANone g1) by now constructor.
  assert (T : kept ANone (d_tr (snd s1)) = ANone) by exact Ht. assert (K : kept ANone (d_ct (snd s1)) = ANone) by exact Hk.
  destruct (estimate_groups _ _ _ _ _ _ _ None ANone ANone g1 g0 ANone ANone (HR v_d) Hy Hc HD HE (eq_sym T) (eq_sym K) N1 (nth_error_In _ _ E1) N0 (nth_error_In _ _ E0))
    as (e1 & Ee & Se & Ve).
  rewrite (group_no_nth _ _ _ ND E0), (group_no_nth _ _ _ ND E1) in Ve. rewrite (group_no_nth _ _ _ ND E1) in Ee.
  eexists _, e1. split; [exact Ee|]. split; [exact Ve|].
  set (s2 := (fst s1, dml_treat (AVal (LN 1)) (snd s1))).
  assert (HR2 : ready s2 c (width (m_y a)) (length keys) v_d v) by exact (HR v_d).
  assert (HE2 : Enc (d_encs (snd s2)) 1 keys) by exact HE.
  assert (Dg : forall b, occurs x 0 b <-> In [b] keys).
  { intros b. destruct H1 as [_ H1]. rewrite H1. split.
    - intros Hb. split; [reflexivity|]. intros j Hj. assert (j = 0) as -> by lia. exact Hb.
    - intros [_ Hb]. exact (Hb 0 ltac:(lia)). }
  split.
  - intros Hb. apply Dg in Hb.
    destruct (estimate_groups _ _ _ _ _ _ _ None ANone ANone [LInt 1] g0 (AVal (LInt 1)) ANone HR2 Hy Hc HD HE2 eq_refl (eq_sym K)
               (names_value_1 keys (LInt 1)) Hb N0 (nth_error_In _ _ E0)) as (e2 & Ee2 & Se2 & Ve2).
    exists e2. rewrite Ee2. split; [reflexivity|]. intros r j Hr Hj. rewrite Ve2 by auto. now rewrite (group_no_nth _ _ _ ND E0).
  - intros Hb. assert (Hb' : ~ In [LInt 1] keys) by (intros I; apply Hb, Dg, I).
    destruct (dml_prepare_ok _ _ _ _ _ _ None HR2 Hy ltac:(lia) Hc HD) as (f & E & _).
    unfold dml_estimate, mbind. rewrite E. unfold obj_get at 1. unfold s2 at 1 2 3. cbn [snd dml_treat d_tr].
    pose proof (dml_arg_unknown (fst s2) (snd s2) 1 keys (AVal (LN 1)) true [LInt 1] Hi HE2 (names_value_1 keys (LInt 1)) eq_refl Hb' ltac:(discriminate)) as A.
    change ((fst s2, snd s2)) with s2 in A. change (AVal (LN 1)) with (AVal (LInt 1)) in *. unfold s2 in A at 1. cbn [fst snd] in A. 
    rewrite A. reflexivity.
Qed.

(** C134 holds when there are several treatment columns, or one column with the values 0, 1, 2, ...: a call without
    arguments gives the same result after any number of calls without arguments *)
Theorem C134_DML_repeat_partial Lx Ly lin categories cf a x h0 k s1 d :
  m_x a = XDisc x -> Forall (fun r => length r = d) x -> (forall cs, categories = Some cs -> Forall (@NoDup label) cs) ->
  k_treat a = ANone -> k_control a = ANone ->
  dml_fit Lx Ly lin categories cf a (h0, dml_new k) = (s1, Ok tt) ->
  exists keys X Y c v, groups_of d (dr_values categories x) keys /\ m_v a = Some v /\ lin X Y = Ok c /\
    forall v_d calls, coef_shape c (width (m_y a)) (length keys) v_d -> 0 < width (m_y a) -> Forall (fun r => length r = v_d) v ->
      d <> 1 \/ keys = map (fun i => [LN i]) (seq 0 (length keys)) ->
      exists e, snd (dml_estimate true None ANone ANone QNone (fold_left (run_call true) (repeat (CEst None ANone ANone QNone) calls) s1)) = Ok e /\
        forall r j, r < length v -> j < width (m_y a) ->
          nd_at e [r; j] = (slope (nth j c []) 1 (1 :: nth r v []) - slope (nth j c []) 0 (1 :: nth r v []))%R.
Proof.
  intros Ex HL HN Kt Kc H. destruct (fit_disc_ready _ _ _ _ _ _ _ _ _ _ _ Ex HL HN H)
    as (keys & v & wv & p & yhat & c & H1 & H2 & H3 & H4 & H5 & H6 & H7 & H8 & H9 & H10 & HE & Hi & Ht & Hk & Hn1 & HR).
  exists keys, (design (map (indicator keys) x) p v), (residuals (m_y a) yhat), c, v. do 3 (split; [assumption|]).
  intros v_d calls Hc Hy HD Hcase. rewrite Kt in Ht. rewrite Kc in Hk.
  set (codes := map (fun i => [LN i]) (seq 0 (length keys))) in *.
  assert (Lc : length codes = length keys) by (unfold codes; now rewrite map_length, seq_length).
  assert (HEc : Enc (d_encs (snd s1)) 1 codes).
  { destruct (Nat.eq_dec d 1) as [->|Nd]; [|now apply Hn1]. destruct Hcase as [N|E]; [easy|]. now rewrite <- E. }
  destruct (Enc_keys HEc) as (ND & _ & _).
  assert (C0 : nth_error codes 0 = Some [LN 0]) by (unfold codes; destruct (length keys) as [|[|m]]; [lia|lia|reflexivity]).
  assert (C1 : nth_error codes 1 = Some [LN 1]) by (unfold codes; destruct (length keys) as [|[|m]]; [lia|lia|reflexivity]).
  assert (One : forall s, (d_tr s = ANone \/ d_tr s = AVal (LN 1)) -> ready (fst s1, s) c (width (m_y a)) (length keys) v_d v ->
     Enc (d_encs s) 1 codes -> d_ct s = ANone ->
     exists e, dml_estimate true None ANone ANone QNone (fst s1, s) = ((fst s1, dml_treat (AVal (LN 1)) s), Ok e) /\
        forall r j, r < length v -> j < width (m_y a) ->
          nd_at e [r; j] = (slope (nth j c []) 1 (1 :: nth r v []) - slope (nth j c []) 0 (1 :: nth r v []))%R).
  { intros s Hs HRs HEs Hks. rewrite <- Lc in HRs, Hc.
    assert (Nt : names 1 codes 1 (kept ANone (d_tr s)) [LN 1]).
    { unfold kept. destruct Hs as [-> | ->]; [now constructor|now constructor]. }
    assert (Nk : names 1 codes 0 (kept ANone (d_ct s)) [LN 0]) by (unfold kept; rewrite Hks; now constructor).
    destruct (estimate_groups _ _ _ _ _ _ _ None ANone ANone _ _ _ _ HRs Hy Hc HD HEs eq_refl eq_refl Nt (nth_error_In _ _ C1) Nk (nth_error_In _ _ C0))
      as (e & Ee & _ & Ve).
    rewrite (group_no_nth _ _ _ ND C0), (group_no_nth _ _ _ ND C1) in Ve. rewrite (group_no_nth _ _ _ ND C1) in Ee.
    exists e. split; [exact Ee|exact Ve]. }
  assert (St_ : exists tr, (tr = ANone \/ tr = AVal (LN 1)) /\
     fold_left (run_call true) (repeat (CEst None ANone ANone QNone) calls) s1 = (fst s1, dml_treat tr (snd s1))).
  { induction calls as [|n IH].
    - exists ANone. split; auto. cbn [repeat fold_left]. rewrite <- Ht, dml_treat_same. now destruct s1.
    - destruct IH as (tr & Htr & IH). exists (AVal (LN 1)). split; auto.
      replace (repeat (CEst None ANone ANone QNone) (S n)) with (repeat (CEst None ANone ANone QNone) n ++ [CEst None ANone ANone QNone]).
      2:{ clear. induction n; cbn; [reflexivity|]. f_equal. exact IHn. }
      rewrite fold_left_app, IH. cbn [fold_left run_call].
      destruct (One (dml_treat tr (snd s1)) Htr (HR v_d) HEc Hk) as (e & Ee & _). rewrite Ee. reflexivity. }
  destruct St_ as (tr & Htr & ->). destruct (One (dml_treat tr (snd s1)) Htr (HR v_d) HEc Hk) as (e & Ee & Ve).
  exists e. rewrite Ee. auto.
Qed.

(* ------------------------------------------------------------------------------------------------ *)
(** ** C136: effect_nji *)

(** C136: effect_nji(control) of a discrete treatment has one column per group: column i is the estimate for treat group i
    against the control group; the column of the control group is 0. *)
Theorem C136_DML_effect_nji Lx Ly lin categories cf a x h0 k s1 d :
  m_x a = XDisc x -> Forall (fun r => length r = d) x -> (forall cs, categories = Some cs -> Forall (@NoDup label) cs) ->
  dml_fit Lx Ly lin categories cf a (h0, dml_new k) = (s1, Ok tt) ->
  exists keys X Y c v, groups_of d (dr_values categories x) keys /\ m_v a = Some v /\ lin X Y = Ok c /\
    forall v_d data control rk, coef_shape c (width (m_y a)) (length keys) v_d -> 0 < width (m_y a) ->
      let D := match data with Some d => d | None => v end in
      Forall (fun r => length r = v_d) D ->
      names d keys 0 (kept control (k_control a)) rk -> In rk keys ->
      exists e, dml_effect_nji true data control s1 = (s1, Ok e) /\ nd_shape e = [length D; width (m_y a); length keys] /\
        (forall r j, r < length D -> j < width (m_y a) -> nd_at e [r; j; group_no keys rk] = 0%R) /\
        forall i g treat, nth_error keys i = Some g -> names d keys 1 treat g -> treat <> ANone ->
          exists est, snd (dml_estimate true data treat control QNone s1) = Ok est /\
            forall r j, r < length D -> j < width (m_y a) -> nd_at e [r; j; i] = nd_at est [r; j].
Proof.
  intros Ex HL HN H. destruct (fit_disc_ready _ _ _ _ _ _ _ _ _ _ _ Ex HL HN H)
    as (keys & v & wv & p & yhat & c & H1 & H2 & H3 & H4 & H5 & H6 & H7 & H8 & H9 & H10 & HE & Hi & Ht & Hk & _ & HR).
  exists keys, (design (map (indicator keys) x) p v), (residuals (m_y a) yhat), c, v. do 3 (split; [assumption|]).
  intros v_d data control rk Hc Hy D HD Nk Ik. rewrite <- Hk in Nk.
  destruct (dml_prepare_ok _ _ _ _ _ _ data (HR v_d) Hy ltac:(lia) Hc HD) as (f & E & Hf). change (data_rows data v) with D in *.
  destruct (group_no_lt _ _ Ik) as [Lk Ek]. destruct (Enc_keys HE) as (ND & _ & _).
  assert (A : forall m, (exists t', m = get_tr_ctrl t' (fun v0 => sl_comp true v0 None) false /\ asks d keys 0 t' rk) ->
     dml_enc m s1 = (s1, Ok (Z.of_nat (group_no keys rk)))).
  { intros m (t' & -> & HA). destruct s1 as [h o]. apply dml_enc_run. eapply get_tr_ctrl_ok; eauto. intros x0 _. apply sl_comp_ready. }
  assert (EN : dml_effect_nji true data control s1 = (s1, Ok (mkNd [length D; width (m_y a); length keys]
    (fun idx => (f [nth 0 idx 0%nat; nth 1 idx 0%nat; nth 2 idx 0%nat] - f [nth 0 idx 0%nat; nth 1 idx 0%nat; group_no keys rk])%R)))).
  { unfold dml_effect_nji, mbind. rewrite E. unfold obj_get. rewrite Hi.
    assert (G : forall m, dml_enc m s1 = (s1, Ok (Z.of_nat (group_no keys rk))) ->
      (let (s', r) := dml_enc m s1 in
       match r with
       | Ok c0 => mlift (match nd_shape (mkNd [length D; width (m_y a); length keys] f) with
           | [n; y; x0] => do i <- norm_index x0 c0;
                          Ok (mkNd [n; y; x0] (fun idx => (f [nth 0 idx 0%nat; nth 1 idx 0%nat; nth 2 idx 0%nat] -
                                                           f [nth 0 idx 0%nat; nth 1 idx 0%nat; i])%R))
           | _ => Err ValueError end) s'
       | Err e0 => (s', Err e0) end) = (s1, Ok (mkNd [length D; width (m_y a); length keys]
    (fun idx => (f [nth 0 idx 0%nat; nth 1 idx 0%nat; nth 2 idx 0%nat] - f [nth 0 idx 0%nat; nth 1 idx 0%nat; group_no keys rk])%R)))).
    { intros m Em. rewrite Em. unfold mlift. cbn [nd_shape]. unfold norm_index. rewrite (proj2 (Z.leb_le _ _)) by lia.
      rewrite (proj2 (Z.ltb_lt _ _)) by lia. cbn [andb bind]. now rewrite Nat2Z.id. }
    apply G. apply A. unfold kept in Nk. clear - Nk.
    set (ct := match control with ANone => d_ct (snd s1) | _ => _ end) in *. clearbody ct.
    destruct Nk as [r0 H0|a0 H0|l0 H0]; [exists TNone|exists (TVal a0)|exists (TList l0)]; (split; [reflexivity|]); constructor; auto. }
  eexists. split; [exact EN|]. cbn [nd_shape nd_at]. split; [reflexivity|]. split; [intros r j Hr Hj; cbn [nth]; lra|].
  intros i g treat Eg Ng Hne. 
  assert (Ng' : names d keys 1 (kept treat (d_tr (snd s1))) g) by (unfold kept; destruct treat; easy).
  destruct (estimate_groups _ _ _ _ _ _ _ data _ _ _ _ _ _ (HR v_d) Hy Hc HD HE eq_refl eq_refl Ng' (nth_error_In _ _ Eg) Nk Ik) as (e & Ee & _ & Ve).
  exists e. rewrite Ee. split; [reflexivity|]. intros r j Hr Hj. rewrite Ve by auto. cbn [nth].
  assert (i < length keys) by (apply nth_error_Some; congruence).
  rewrite (group_no_nth _ _ _ ND Eg). rewrite !Hf by auto. reflexivity.
Qed.

(** ... and of a continuous treatment it is the effect of one unit *)
Theorem C136_DML_effect_nji_cont Lx Ly lin categories cf a x s s1 :
  m_x a = XCont x -> dml_fit Lx Ly lin categories cf a s = (s1, Ok tt) ->
  exists v X Y c, m_v a = Some v /\ lin X Y = Ok c /\
    forall v_d data control, coef_shape c (width (m_y a)) (width x) v_d -> 0 < width (m_y a) -> 0 < width x ->
      let D := match data with Some d => d | None => v end in
      Forall (fun r => length r = v_d) D ->
      exists e est, dml_effect_nji false data control s1 = (s1, Ok e) /\ nd_shape e = [length D; width (m_y a); width x] /\
        snd (dml_estimate false data (ANum 1%R) (ANum 0%R) QNone s1) = Ok est /\
        forall r j i, r < length D -> j < width (m_y a) -> i < width x -> nd_at e [r; j; i] = nd_at est [r; j; i].
Proof.
  intros Ex H. destruct (fit_ready _ _ _ _ _ _ _ _ _ Ex H) as (v & wv & xhat & yhat & c & H1 & H2 & H3 & H4 & H5 & _ & HR).
  exists v, (design x xhat v), (residuals (m_y a) yhat), c. do 2 (split; [assumption|]). intros v_d data control Hc Hy Hx D HD.
  destruct (dml_prepare_ok _ _ _ _ _ _ data (HR v_d) Hy Hx Hc HD) as (f & E & Hf). change (data_rows data v) with D in *.
  destruct (estimate_nums _ _ _ _ _ _ data 1%R 0%R (HR v_d) Hy Hx Hc HD) as (e & Ee & S & V).
  eexists _, e. split; [unfold dml_effect_nji, mbind; rewrite E; reflexivity|]. split; [reflexivity|]. rewrite Ee. split; [reflexivity|].
  intros r j i Hr Hj Hi. cbn [nd_at]. rewrite V, Hf by auto. change (data_rows data v) with D. lra.
Qed.

(* ------------------------------------------------------------------------------------------------ *)
(** ** C139: ndarrays for discrete treatments *)

(** C139 is false: the documentation gives array(['run', 'read']) as the treat of two discrete treatments, but an ndarray
    is not encoded.  With strings every estimate is an IndexError. *)
Theorem C139_DML_array_strings_refuted s c y_d x_d v_d V l control q k0 :
  ready s c y_d x_d v_d V -> 0 < y_d -> 0 < x_d -> coef_shape c y_d x_d v_d -> Forall (fun r => length r = v_d) V ->
  existsb is_str l = true -> (forall z, LInt z <> nth 0 l (LInt 0)) ->
  snd (dml_arg true (kept control (d_ct (snd s))) false s) = Ok k0 ->
  snd (dml_estimate true None (AArr l) control q s) = Err IndexError.
Proof.
  intros HR Hy Hx Hc HV Hs Hf0 Hk.
  destruct (dml_prepare_ok _ _ _ _ _ _ None HR Hy Hx Hc HV) as (f & E & _).
  assert (Hi : d_isf (snd s) = true) by apply HR.
  unfold dml_estimate, mbind. rewrite E. unfold obj_get at 1.
  replace (match control with ANone => d_ct (snd s) | AVal _ => _ | AList _ => _ | AArr _ => _ | ANum _ => _ | AArrR _ => _ end) with (kept control (d_ct (snd s))) by now destruct control.
  assert (At : dml_arg true (AArr l) true s = (s, Ok (VArr l))) by reflexivity. rewrite At.
  pose proof (dml_arg_pure true (kept control (d_ct (snd s))) false s Hi) as P.
  destruct (dml_arg true (kept control (d_ct (snd s))) false s) as [s' r]. cbn in P, Hk. subst s' r.
  unfold obj_set, mlift. cbn [fst snd].
  assert (G : mapX (fun l0 => match l0 with LInt z => norm_index x_d z | LStr _ => Err IndexError end) l = Err IndexError).
  { destruct l as [|[z|z] l]; [easy| |reflexivity]. exfalso. exact (Hf0 z eq_refl). }
  unfold pick_group at 1. cbn [nd_shape]. rewrite G. reflexivity.
Qed.

(** ... and with integers the entries are taken as group numbers: the result has an extra axis, one entry for each *)
Theorem C139_DML_array_codes_refuted s c y_d x_d v_d V a b :
  ready s c y_d x_d v_d V -> 0 < y_d -> coef_shape c y_d x_d v_d -> Forall (fun r => length r = v_d) V ->
  a < x_d -> b < x_d ->
  exists e, snd (dml_estimate true None (AArr [LN a; LN b]) (AArr [LN b; LN a]) QNone s) = Ok e /\
    nd_shape e = [length V; y_d; 2] /\
    forall r j i, r < length V -> j < y_d -> i < 2 ->
      nd_at e [r; j; i] = (slope (nth j c []) (if i =? 0 then a else b) (1 :: nth r V []) -
                           slope (nth j c []) (if i =? 0 then b else a) (1 :: nth r V []))%R.
Proof.
  intros HR Hy Hc HV Ha Hb.
  destruct (dml_prepare_ok _ _ _ _ _ _ None HR Hy ltac:(lia) Hc HV) as (f & E & Hf). cbn [data_rows] in *.
  assert (NI : forall q, q < x_d -> norm_index x_d (Z.of_nat q) = Ok q).
  { intros q Hq. unfold norm_index. rewrite (proj2 (Z.leb_le _ _)) by lia. rewrite (proj2 (Z.ltb_lt _ _)) by lia. cbn [andb]. now rewrite Nat2Z.id. }
  assert (P : forall p q, p < x_d -> q < x_d -> pick_group (mkNd [length V; y_d; x_d] f) (VArr [LN p; LN q]) =
     Ok (mkNd [length V; y_d; 2] (fun idx => f [nth 0 idx 0; nth 1 idx 0; nth (nth 2 idx 0) [p; q] 0]))).
  { intros p q Hp Hq. unfold pick_group, LN. cbn [nd_shape mapX]. rewrite !NI by auto. reflexivity. }
  destruct (bcast_same Rminus (mkNd [length V; y_d; 2] (fun idx => f [nth 0 idx 0; nth 1 idx 0; nth (nth 2 idx 0) [a; b] 0]))
     (mkNd [length V; y_d; 2] (fun idx => f [nth 0 idx 0; nth 1 idx 0; nth (nth 2 idx 0) [b; a] 0])) eq_refl) as (e & Eb & Sb & Vb).
  exists e. split; [|split; [exact Sb|]].
  - unfold dml_estimate, mbind. rewrite E. unfold obj_get, dml_arg, mbind, obj_get, mret, mlift, obj_set. cbn [fst snd].
    rewrite !P by auto. cbn [bind]. rewrite Eb. reflexivity.
  - intros r j i Hr Hj Hi. rewrite Vb by (cbn [nd_shape]; apply Forall2_cons; [exact Hr|]; apply Forall2_cons; [exact Hj|]; apply Forall2_cons; [exact Hi|apply Forall2_nil]). cbn [nd_at nth].
    destruct i as [|[|i]]; [| |lia]; cbn [Nat.eqb nth]; rewrite !Hf by lia; reflexivity.
Qed.

(* ------------------------------------------------------------------------------------------------ *)
(** ** C140: fitting again *)

(** C140 is false: a fitted object keeps its encoders.  A second data set with a new combination of treatment values is
    never accepted, whatever the models are -- and after the failed call estimate() describes the covariates of the
    second data set with the coefficients of the first. *)
Theorem C140_DML_refit_refuted Lx Ly lin categories cf a x h0 k s1 d :
  m_x a = XDisc x -> Forall (fun r => length r = d) x -> (forall cs, categories = Some cs -> Forall (@NoDup label) cs) ->
  dml_fit Lx Ly lin categories cf a (h0, dml_new k) = (s1, Ok tt) ->
  exists keys X Y c v, groups_of d (dr_values categories x) keys /\ m_v a = Some v /\ lin X Y = Ok c /\
    forall Lx2 Ly2 lin2 cf2 a2 x2 v2 g, m_x a2 = XDisc x2 -> m_v a2 = Some v2 -> Forall (fun r => length r = d) x2 -> In g x2 -> ~ In g keys ->
      exists s2, dml_fit Lx2 Ly2 lin2 categories cf2 a2 s1 = (s2, Err ValueError) /\
        forall v_d treat control rt rk, coef_shape c (width (m_y a)) (length keys) v_d -> 0 < width (m_y a) ->
          width (m_y a2) = width (m_y a) -> Forall (fun r => length r = v_d) v2 ->
          treat <> ANone -> control <> ANone -> names d keys 1 treat rt -> In rt keys -> names d keys 0 control rk -> In rk keys ->
          exists e, snd (dml_estimate true None treat control QNone s2) = Ok e /\ nd_shape e = [length v2; width (m_y a)] /\
            forall r j, r < length v2 -> j < width (m_y a) ->
              nd_at e [r; j] = (slope (nth j c []) (group_no keys rt) (1 :: nth r v2 []) -
                                slope (nth j c []) (group_no keys rk) (1 :: nth r v2 []))%R.
Proof.
  intros Ex HL HN H. destruct (fit_disc_ready _ _ _ _ _ _ _ _ _ _ _ Ex HL HN H)
    as (keys & v & wv & p & yhat & c & H1 & H2 & H3 & H4 & H5 & H6 & H7 & H8 & H9 & H10 & HE & Hi & Ht & Hk & _ & HR).
  exists keys, (design (map (indicator keys) x) p v), (residuals (m_y a) yhat), c, v. do 3 (split; [assumption|]).
  intros Lx2 Ly2 lin2 cf2 a2 x2 v2 g Ex2 Ev2 HL2 Hg Hng. destruct s1 as [h o]. cbn [snd fst] in *.
  exists (h, dml_begin a2 o). split.
  - unfold dml_fit. rewrite Ev2, Ex2.
    assert (E : sl_comp (d_isf (dml_begin a2 o)) x2 categories (d_encs (dml_begin a2 o)) = (d_encs (dml_begin a2 o), Err ValueError)).
    { change (d_isf (dml_begin a2 o)) with (d_isf o). rewrite Hi, sl_comp_ready. change (d_encs (dml_begin a2 o)) with (d_encs o).
      eapply comp_ready_unknown_any; eauto. }
    assert (E2 : dml_enc (sl_comp (d_isf (dml_begin a2 o)) x2 categories) (h, dml_begin a2 o) = ((h, dml_begin a2 o), Err ValueError)) by (now apply dml_enc_run).
    destruct (m_w a2); unfold mbind, obj_set, obj_get; cbn [fst snd]; rewrite E2; reflexivity.
  - intros v_d treat control rt rk Hc Hy Hw HV2 Hnt Hnk Nt It Nk Ik.
    assert (HR2 : ready (h, dml_begin a2 o) c (width (m_y a)) (length keys) v_d v2).
    { destruct (HR v_d) as (A1 & A2 & A3 & A4 & A5 & A6 & A7). unfold ready, dml_begin in *. cbn [snd fst] in *.
      cbn [d_yx d_isf d_stage1 d_encs d_tv d_named d_nx d_ny d_tr d_ct]. rewrite Ev2, Hw. repeat split; auto. }
    assert (HE2 : Enc (d_encs (snd (h, dml_begin a2 o))) d keys) by exact HE.
    assert (Nt' : names d keys 1 (kept treat (d_tr (snd (h, dml_begin a2 o)))) rt) by (unfold kept; destruct treat; easy).
    assert (Nk' : names d keys 0 (kept control (d_ct (snd (h, dml_begin a2 o)))) rk) by (unfold kept; destruct control; easy).
    destruct (estimate_groups _ _ _ _ _ _ _ None _ _ _ _ _ _ HR2 Hy Hc HV2 HE2 eq_refl eq_refl Nt' It Nk' Ik) as (e & Ee & S & V).
    exists e. rewrite Ee. split; [reflexivity|]. split; [exact S|exact V].
Qed.

(** C140 holds for continuous treatments: on objects with any two histories the same fit succeeds or fails alike, and after
    success every estimate with explicit treatment values is the same *)
Theorem C140_DML_refit_cont_partial Lx Ly lin categories cf a x s s' :
  m_x a = XCont x ->
  snd (dml_fit Lx Ly lin categories cf a s) = snd (dml_fit Lx Ly lin categories cf a s') /\
  forall s1 s1' data t ct q,
    dml_fit Lx Ly lin categories cf a s = (s1, Ok tt) -> dml_fit Lx Ly lin categories cf a s' = (s1', Ok tt) ->
    snd (dml_estimate false data (ANum t) (ANum ct) q s1) = snd (dml_estimate false data (ANum t) (ANum ct) q s1').
Proof.
  intros Ex.
  assert (G : exists r, forall s, exists e2 h2 tr2 ct2 tr ct,
    dml_fit Lx Ly lin categories cf a s =
      match r with
      | Ok (c, v) => ((upd (d_yx (snd s)) c (fst s), mkDML (d_yx (snd s)) true true (d_encs (snd s)) (Some v) true (width x) (width (m_y a)) tr ct), Ok tt)
      | Err e => ((h2, mkDML (d_yx (snd s)) (d_isf (snd s)) e2 (d_encs (snd s)) (d_tv (snd (fst (dml_fit Lx Ly lin categories cf a s))))
                   (d_named (snd (fst (dml_fit Lx Ly lin categories cf a s)))) (d_nx (snd (fst (dml_fit Lx Ly lin categories cf a s))))
                   (d_ny (snd (fst (dml_fit Lx Ly lin categories cf a s)))) tr2 ct2), Err e)
      end).
  { unfold dml_fit. rewrite Ex. destruct (m_w a) as [w|] eqn:Ew, (m_v a) as [v|] eqn:Ev.
    4: { exists (Err AssertionError). intros [h o]. exists (d_stage1 o), h, (d_tr o), (d_ct o), ANone, ANone. unfold mlift. cbn [fst snd]. now destruct o. }
    all: destruct (get_wv _) as [wv|er] eqn:Eg.
    all: try (exists (Err er); intros [h o]; eexists _, _, _, _, ANone, ANone; unfold mbind, obj_set, obj_get, mret, mlift; cbn [fst snd]; reflexivity).
    all: destruct (dml_cross Lx wv x (width x) cf) as [xhat|er] eqn:E1.
    all: try (exists (Err er); intros [h o]; eexists _, _, _, _, ANone, ANone; unfold mbind, obj_set, obj_get, mret, mlift; cbn [fst snd]; rewrite E1; reflexivity).
    all: destruct (dml_cross Ly wv (m_y a) (width (m_y a)) cf) as [yhat|er] eqn:E2.
    all: try (exists (Err er); intros [h o]; eexists _, _, _, _, ANone, ANone; unfold mbind, obj_set, obj_get, mret, mlift; cbn [fst snd]; rewrite E1, E2; reflexivity).
    2: { exists (Err AttributeError). intros [h o]. eexists _, _, _, _, ANone, ANone; unfold mbind, obj_set, obj_get, mret, attr, mlift; cbn [fst snd]; rewrite E1, E2; reflexivity. }
    all: destruct (lin (x_prime x xhat v) (y_prime (m_y a) yhat)) as [c|er] eqn:E3.
    all: try (exists (Err er); intros [h o]; eexists _, _, _, _, ANone, ANone; unfold mbind, obj_set, obj_get, mret, attr, mlift; cbn [fst snd]; rewrite E1, E2, E3; reflexivity).
    all: exists (Ok (c, v)); intros [h o]; eexists false, h, ANone, ANone, _, _; unfold mbind, obj_set, obj_get, mret, attr, mlift; cbn [fst snd]; rewrite E1, E2, E3;
      unfold dml_begin; rewrite Ev; reflexivity. }
  destruct G as [r G]. destruct (G s) as (e2 & h2 & tr2 & ct2 & tr & ct & E). destruct (G s') as (e2' & h2' & tr2' & ct2' & tr' & ct' & E').
  split.
  - rewrite E, E'. destruct r as [[c v]|er]; reflexivity.
  - intros s1 s1' data t k q H H'. rewrite H in E. rewrite H' in E'. destruct r as [[c v]|er]; [|discriminate E].
    injection E as ->. injection E' as ->.
    set (st := fun (e : encs) h k0 tr0 ct0 => (upd k0 c h, mkDML k0 true true e (Some v) true (width x) (width (m_y a)) tr0 ct0)).
    change (snd (dml_estimate false data (ANum t) (ANum k) q (st (d_encs (snd s)) (fst s) (d_yx (snd s)) tr ct)) =
            snd (dml_estimate false data (ANum t) (ANum k) q (st (d_encs (snd s')) (fst s') (d_yx (snd s')) tr' ct'))).
    assert (P : exists r, forall e h k0 tr0 ct0, dml_prepare data (st e h k0 tr0 ct0) = (st e h k0 tr0 ct0, r)).
    { exists (snd (dml_prepare data (st no_encs (fun _ => None) 0 ANone ANone))). intros e h k0 tr0 ct0.
      unfold dml_prepare, mbind, mret, st, upd. cbn [fst snd]. cbn [d_yx d_isf d_stage1 d_encs d_tv d_named d_nx d_ny d_tr d_ct andb negb].
      rewrite !Nat.eqb_refl. unfold attr, mlift. destruct data as [D|]; cbn [fst snd];
      match goal with |- context [if 1 <? ?y then ?p else ?q0] => destruct (if 1 <? y then p else q0) as [ef|er] end; reflexivity. }
    destruct P as [r P]. 
    assert (Q : forall e h k0 tr0 ct0, snd (dml_estimate false data (ANum t) (ANum k) q (st e h k0 tr0 ct0)) =
       (do fij <- r; do e <- cont_effect fij (width x) (VNum t) (VNum k); match q with QNone => Ok e | QATE => mean0 e end)).
    { intros e h k0 tr0 ct0. unfold dml_estimate, mbind. rewrite P. destruct r as [fij|er]; [|reflexivity].
      unfold obj_get, dml_arg, mbind, obj_get, mret, mlift, obj_set, st. cbn [fst snd]. cbn [d_nx bind].
      destruct (cont_effect fij (width x) (VNum t) (VNum k)) as [ef|er]; [|reflexivity]. destruct q; reflexivity. }
    now rewrite !Q.
Qed.
