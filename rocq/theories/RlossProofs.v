(** Lemmas about the RLoss model. *)
From Coq Require Import ZArith Reals Lra String.
From Verif Require Import Base ApiModel EstUtilsModel EstUtilsProps MetaModel MetaSpec MetaProofs CrossFitModel DmlModel DmlProofs DrSpec DmlProps DmlDisc
  CforestProofs RlossModel.
Unset Implicit Arguments.
Local Notation length := List.length.
Local Open Scope nat_scope.

(** adjustments and covariates as given to the first stage *)
Definition trans (tr : option (list row -> list row)) (v : option (list row)) : option (list row) :=
  match tr with Some f => option_map f v | None => v end.

Lemma trans_some tr v : Some (match tr with Some f => f v | None => v end) = trans tr (Some v).
Proof. now destruct tr. Qed.

(** what a successful fit did, continuous treatments *)
Lemma rl_fit_raw Lx Ly categories cf trw trv a x s s1 :
  ra_x a = XCont x -> rl_fit Lx Ly categories cf trw trv a s = (s1, Ok tt) ->
  exists w v wv xhat yhat,
    columns (ra_data a) (ra_adj a) = Ok w /\ columns (ra_data a) (ra_cov a) = Ok (Some v) /\
    get_wv [trans trw (option_map (rows_of (length (ra_y a))) w); trans trv (Some (rows_of (length (ra_y a)) v))] = Ok wv /\
    dml_cross Lx wv x (width x) cf = Ok xhat /\ dml_cross Ly wv (ra_y a) (width (ra_y a)) cf = Ok yhat /\
    rl_disc s = false /\
    s1 = mkRL false true (rl_encs s) (ra_cov a) (ra_adj a) (ra_comb a) v w (length (ra_y a)) (width (ra_y a)) (width x)
              (Some (rl_resid (length (ra_y a)) (width x) x xhat, rl_resid (length (ra_y a)) (width (ra_y a)) (ra_y a) yhat)).
Proof.
  intros Ex H. unfold rl_fit in H. set (body := (mbind _ _ : M rloss unit)) in H.
  assert (Hb : body s = (s1, Ok tt) /\ ra_cov a <> NNone) by (destruct (ra_cov a); [discriminate H|split; auto; discriminate..]).
  clear H. destruct Hb as [Hb Hn]. subst body.
  apply mbind_inv in Hb as (a1 & [] & A1 & H). unfold rl_upd in A1. injection A1 as <-.
  apply mbind_inv in H as (a2 & w & A2 & H). apply mlift_inv in A2 as [-> A2].
  apply mbind_inv in H as (a3 & v & A3 & H). apply mlift_inv in A3 as [-> A3].
  destruct v as [v|].
  2:{ exfalso. unfold columns in A3. destruct (ra_cov a); [congruence|..]; destruct (bind _ _) eqn:Eb in A3; try discriminate A3;
      try (destruct (get_col _ _); discriminate Eb); try (destruct (mapX _ _); discriminate Eb). injection A3 as ->.
      destruct (get_col _ _); discriminate Eb. injection A3 as ->. destruct (mapX _ _); discriminate Eb. }
  apply mbind_inv in H as (a4 & [] & A4 & H). unfold rl_upd in A4. injection A4 as <-.
  apply mbind_inv in H as (a5 & o & A5 & H). unfold rl_get in A5. injection A5 as <- <-.
  apply mbind_inv in H as (a6 & [x' z] & A6 & H). rewrite Ex in A6. cbn [rl_disc rl_data rl_named] in A6.
  destruct (rl_disc s) eqn:Ed; [discriminate A6|]. unfold mret in A6. injection A6 as <- <- <-.
  apply mbind_inv in H as (a7 & [] & A7 & H). unfold rl_upd in A7. injection A7 as <-.
  apply mbind_inv in H as (a8 & wv & A8 & H). apply mlift_inv in A8 as [-> A8].
  apply mbind_inv in H as (a9 & xhat & A9 & H). apply mlift_inv in A9 as [-> A9].
  apply mbind_inv in H as (b & yhat & B & H). apply mlift_inv in B as [-> B].
  unfold rl_upd in H. injection H as <-.
  exists w, v, wv, xhat, yhat. split; [exact A2|]. split; [exact A3|]. rewrite trans_some in A8. split; [exact A8|].
  split; [exact A9|]. split; [exact B|]. split; [reflexivity|].
  unfold rl_done, rl_setnx, rl_data, rl_named. cbn [rl_disc rl_isf rl_encs rl_cov rl_adj rl_comb rl_v rl_w rl_n rl_yd rl_nx rl_res]. now rewrite Ed.
Qed.

(** conversely *)
Lemma rl_fit_run Lx Ly categories cf trw trv a x s w v wv xhat yhat :
  ra_x a = XCont x -> ra_cov a <> NNone -> rl_disc s = false ->
  columns (ra_data a) (ra_adj a) = Ok w -> columns (ra_data a) (ra_cov a) = Ok (Some v) ->
  get_wv [trans trw (option_map (rows_of (length (ra_y a))) w); trans trv (Some (rows_of (length (ra_y a)) v))] = Ok wv ->
  dml_cross Lx wv x (width x) cf = Ok xhat -> dml_cross Ly wv (ra_y a) (width (ra_y a)) cf = Ok yhat ->
  exists s1, rl_fit Lx Ly categories cf trw trv a s = (s1, Ok tt).
Proof.
  intros Ex Hn Hd C1 C2 G D1 D2. unfold rl_fit. set (body := (mbind _ _ : M rloss unit)).
  assert (Hb : exists s1, body s = (s1, Ok tt)); [|destruct (ra_cov a); [congruence|exact Hb..]]. subst body.
  unfold mbind, rl_upd, rl_get, mlift, mret. rewrite C1, C2. rewrite Ex. cbn [rl_disc rl_data rl_named]. rewrite Hd.
  cbn iota beta. rewrite trans_some. change (match trw with Some f => option_map f (option_map (rows_of (length (ra_y a))) w) | None => option_map (rows_of (length (ra_y a))) w end)
    with (trans trw (option_map (rows_of (length (ra_y a))) w)). rewrite G, D1, D2. eauto.
Qed.

(** with the specification of the first stage *)
Lemma rl_fit_cont Lx Ly categories cf trw trv a x s s1 :
  ra_x a = XCont x -> rl_fit Lx Ly categories cf trw trv a s = (s1, Ok tt) ->
  exists w v wv xhat yhat,
    columns (ra_data a) (ra_adj a) = Ok w /\ columns (ra_data a) (ra_cov a) = Ok (Some v) /\
    get_wv [trans trw (option_map (rows_of (length (ra_y a))) w); trans trv (Some (rows_of (length (ra_y a)) v))] = Ok wv /\
    first_stage Lx cf wv x (width x) xhat /\ first_stage Ly cf wv (ra_y a) (width (ra_y a)) yhat /\
    rl_disc s = false /\
    s1 = mkRL false true (rl_encs s) (ra_cov a) (ra_adj a) (ra_comb a) v w (length (ra_y a)) (width (ra_y a)) (width x)
              (Some (rl_resid (length (ra_y a)) (width x) x xhat, rl_resid (length (ra_y a)) (width (ra_y a)) (ra_y a) yhat)).
Proof.
  intros Ex H. destruct (rl_fit_raw _ _ _ _ _ _ _ _ _ _ Ex H) as (w & v & wv & xhat & yhat & C1 & C2 & G & D1 & D2 & E & S).
  exists w, v, wv, xhat, yhat. do 3 (split; [assumption|]). split; [now apply dml_cross_first|]. split; [now apply dml_cross_first|]. auto.
Qed.

(** ... discrete treatments, any object *)
Lemma rl_fit_disc Lx Ly categories cf trw trv a x s s1 :
  ra_x a = XDisc x -> rl_fit Lx Ly categories cf trw trv a s = (s1, Ok tt) ->
  exists w v wv e z xhat yhat,
    columns (ra_data a) (ra_adj a) = Ok w /\ columns (ra_data a) (ra_cov a) = Ok (Some v) /\
    get_wv [trans trw (option_map (rows_of (length (ra_y a))) w); trans trv (Some (rows_of (length (ra_y a)) v))] = Ok wv /\
    sl_comp (rl_isf s) x categories (rl_encs s) = (e, Ok z) /\
    dml_cross_disc Lx wv z (width (to_rows z)) cf = Ok xhat /\ first_stage Ly cf wv (ra_y a) (width (ra_y a)) yhat /\
    rl_disc s = true /\
    s1 = mkRL true true e (ra_cov a) (ra_adj a) (ra_comb a) v w (length (ra_y a)) (width (ra_y a)) (width (to_rows z))
              (Some (rl_resid (length (ra_y a)) (width (to_rows z)) (to_rows z) xhat, rl_resid (length (ra_y a)) (width (ra_y a)) (ra_y a) yhat)).
Proof.
  intros Ex H. unfold rl_fit in H. set (body := (mbind _ _ : M rloss unit)) in H.
  assert (Hb : body s = (s1, Ok tt) /\ ra_cov a <> NNone) by (destruct (ra_cov a); [discriminate H|split; auto; discriminate..]).
  clear H. destruct Hb as [Hb Hn]. subst body.
  apply mbind_inv in Hb as (a1 & [] & A1 & H). unfold rl_upd in A1. injection A1 as <-.
  apply mbind_inv in H as (a2 & w & A2 & H). apply mlift_inv in A2 as [-> A2].
  apply mbind_inv in H as (a3 & v & A3 & H). apply mlift_inv in A3 as [-> A3].
  destruct v as [v|].
  2:{ exfalso. unfold columns in A3. destruct (ra_cov a); [congruence|..]; destruct (bind _ _) eqn:Eb in A3; try discriminate A3;
      try (destruct (get_col _ _); discriminate Eb); try (destruct (mapX _ _); discriminate Eb). injection A3 as ->.
      destruct (get_col _ _); discriminate Eb. injection A3 as ->. destruct (mapX _ _); discriminate Eb. }
  apply mbind_inv in H as (a4 & [] & A4 & H). unfold rl_upd in A4. injection A4 as <-.
  apply mbind_inv in H as (a5 & o & A5 & H). unfold rl_get in A5. injection A5 as <- <-.
  apply mbind_inv in H as (a6 & [x' zz] & A6 & H). rewrite Ex in A6. cbn [rl_disc rl_data rl_named] in A6.
  destruct (rl_disc s) eqn:Ed; [|discriminate A6].
  apply mbind_inv in A6 as (b6 & z & B6 & A6). unfold mret in A6. injection A6 as <- <- <-.
  unfold rl_enc in B6. cbn [rl_encs rl_isf rl_data rl_named] in B6.
  destruct (sl_comp (rl_isf s) x categories (rl_encs s)) as [e r] eqn:Es. injection B6 as <- ->.
  apply mbind_inv in H as (a7 & [] & A7 & H). unfold rl_upd in A7. injection A7 as <-.
  apply mbind_inv in H as (a8 & wv & A8 & H). apply mlift_inv in A8 as [-> A8].
  apply mbind_inv in H as (a9 & xhat & A9 & H). apply mlift_inv in A9 as [-> A9].
  apply mbind_inv in H as (b & yhat & B & H). apply mlift_inv in B as [-> B].
  unfold rl_upd in H. injection H as <-.
  exists w, v, wv, e, z, xhat, yhat. split; [exact A2|]. split; [exact A3|]. rewrite trans_some in A8. split; [exact A8|].
  split; [reflexivity|]. split; [exact A9|]. split; [now apply dml_cross_first|]. split; [reflexivity|].
  unfold rl_done, rl_setnx, rl_data, rl_named. cbn [rl_disc rl_isf rl_encs rl_cov rl_adj rl_comb rl_v rl_w rl_n rl_yd rl_nx rl_res]. now rewrite Ed.
Qed.

From Verif Require Import RlossSpec.

Lemma get_set fr c v d : get_col (set_col fr c v) d = if String.eqb d c then Some v else get_col fr d.
Proof.
  induction fr as [|[e u] fr IH]; cbn [set_col get_col]; [reflexivity|].
  destruct (String.eqb_spec c e) as [->|N]; cbn [get_col].
  - destruct (String.eqb_spec d e); reflexivity.
  - rewrite IH. destruct (String.eqb_spec d e) as [->|]; [|reflexivity]. destruct (String.eqb_spec e c); [congruence|reflexivity].
Qed.

Lemma place_same data names cols : mapX (fun c => match get_col data c with Some v => Ok v | None => Err KeyError end) names = Ok cols ->
  forall fr, exists fr', place names cols fr = Ok fr' /\ agrees fr' data names /\
    (forall c, get_col fr c = get_col data c -> get_col fr' c = get_col data c).
Proof.
  revert cols. induction names as [|c names IH]; intros cols H fr.
  - exists fr. split; [reflexivity|]. split; [intros c []|auto].
  - cbn [mapX] in H. destruct (get_col data c) as [v|] eqn:Ec; [|discriminate H]. cbn [bind] in H.
    destruct (mapX _ names) as [vs|] eqn:Ev; [|discriminate H]. cbn [bind] in H. injection H as <-.
    destruct (IH _ eq_refl (set_col fr c v)) as (fr' & E & A & K). cbn [place]. exists fr'. split; [exact E|].
    split.
    + intros d [<-|Hd]; [|now apply A]. apply K. rewrite get_set, String.eqb_refl. now symmetry.
    + intros d Hd. apply K. rewrite get_set. destruct (String.eqb_spec d c) as [->|]; auto.
Qed.

Lemma lists_iterate a l : lists a l -> iterate a = Ok l.
Proof.
  intros [->|(s & -> & Hl & ->)]; [reflexivity|]. destruct s as [|c [|c' s]]; try discriminate Hl. reflexivity.
Qed.

Lemma columns_names data a cols : columns data a = Ok (Some cols) ->
  mapX (fun c => match get_col data c with Some v => Ok v | None => Err KeyError end) (names_of a) = Ok cols.
Proof.
  intros H. destruct a as [|s|l]; cbn [columns names_of mapX] in *.
  - discriminate H.
  - destruct (get_col data _); [|discriminate H]. cbn [bind] in *. now injection H as <-.
  - destruct (mapX _ l); [|discriminate H]. cbn [bind] in H. now injection H as <-.
Qed.

Lemma columns_none data a : columns data a = Ok None -> a = NNone.
Proof.
  unfold columns. destruct a; intros C2; [reflexivity|..]; exfalso; (destruct (bind _ _) eqn:Eb in C2; [|discriminate C2]);
    injection C2 as ->; [destruct (get_col _ _)|destruct (mapX _ _)]; discriminate Eb.
Qed.

(** the frame given to an estimator fitted with the same names *)
Lemma test_frame_same data o te v w :
  rl_cov o <> NNone -> columns data (rl_cov o) = Ok (Some v) -> columns data (rl_adj o) = Ok w -> rl_v o = v -> rl_w o = w ->
  lists (te_cov te) (names_of (rl_cov o)) -> (rl_adj o <> NNone -> lists (te_adj te) (names_of (rl_adj o))) ->
  exists fr, test_frame o te = Ok fr /\ agrees fr data (names_of (rl_cov o) ++ names_of (rl_adj o)).
Proof.
  intros Hn C1 C2 <- <- T1 T2. unfold test_frame.
  pose proof (columns_names _ _ _ C1) as M1.
  destruct (place_same _ _ _ M1 []) as (f1 & P1 & A1 & _).
  assert (E1 : (match rl_cov o with NNone => Ok [] | _ => do l <- iterate (te_cov te); place l (rl_v o) [] end) = Ok f1).
  { rewrite (lists_iterate _ _ T1). cbn [bind]. destruct (rl_cov o); [congruence|exact P1..]. }
  rewrite E1. cbn [bind].
  assert (D : rl_adj o = NNone \/ rl_adj o <> NNone) by (destruct (rl_adj o); [now left|right; discriminate..]).
  destruct D as [D|D].
  - rewrite D. cbn [names_of]. rewrite app_nil_r. eauto.
  - destruct (rl_w o) as [w|]; [|now apply columns_none in C2].
    pose proof (columns_names _ _ _ C2) as M2. destruct (place_same _ _ _ M2 f1) as (f2 & P2 & A2 & K2).
    exists f2. split.
    + rewrite (lists_iterate _ _ (T2 D)). cbn [bind]. destruct (rl_adj o); [congruence|exact P2..].
    + intros c Hc. apply in_app_or in Hc as [Hc|Hc]; [apply K2, A1, Hc|apply A2, Hc].
Qed.

Lemma clamp_lt n r : r < n -> clamp n r = r.
Proof. unfold clamp. destruct (Nat.eqb_spec n 1); lia. Qed.
Lemma dim2_same n : dim2 n n = Ok n.
Proof. unfold dim2. now rewrite Nat.eqb_refl. Qed.

(** the value computed from an effect of the right shape *)
Lemma score_value n yd k e x' y' :
  nd_shape e = [n; yd; k] -> nd_shape x' = [n; k] -> nd_shape y' = [n; yd] ->
  exists p d s, einsum_nij e x' = Ok p /\ bcast2 Rminus y' p = Ok d /\
    mean0 (mkNd (nd_shape d) (fun idx => (nd_at d idx * nd_at d idx)%R)) = Ok s /\ nd_shape s = [yd] /\
    forall j, j < yd -> nd_at s [j] = r_loss n k (fun r j => nd_at y' [r; j]) (fun r i => nd_at x' [r; i]) (fun r j i => nd_at e [r; j; i]) j.
Proof.
  intros S1 S2 S3. unfold einsum_nij. rewrite S1, S2, !dim2_same. cbn [bind].
  set (p := mkNd _ _). exists p.
  destruct (bcast_same Rminus y' p) as (d & Ed & Sd & Vd); [now rewrite S3|].
  exists d. unfold mean0. cbn [nd_shape]. rewrite Sd, S3. eexists. split; [reflexivity|]. split; [exact Ed|]. split; [reflexivity|].
  split; [reflexivity|]. intros j Hj. cbn [nd_at]. unfold r_loss, Sum. f_equal. f_equal. apply map_ext_in. intros r Hr.
  apply in_seq in Hr. rewrite (Vd [r; j]); [|rewrite S3; repeat constructor; lia].
  assert (Ep : nd_at p [r; j] = fold_right Rplus 0%R (map (fun i => (nd_at e [r; j; i] * nd_at x' [r; i])%R) (seq 0 k))).
  { unfold p. cbn [nd_at nth]. f_equal. apply map_ext_in. intros i Hi. apply in_seq in Hi. rewrite !clamp_lt by lia. reflexivity. }
  rewrite Ep. ring.
Qed.

Lemma set_col_lens n fr c v : length v = n -> Forall (fun p => length (snd p) = n) fr -> Forall (fun p => length (snd p) = n) (set_col fr c v).
Proof.
  intros Hv. induction 1 as [|[d u] fr Hd HF IH]; cbn [set_col]; [repeat constructor; exact Hv|].
  destruct (String.eqb c d); constructor; auto.
Qed.
Lemma set_col_nonempty fr c v : set_col fr c v <> [].
Proof. destruct fr as [|[d u] fr]; cbn; [discriminate|]. destruct (String.eqb c d); discriminate. Qed.
Lemma place_lens n names : forall cols fr fr', place names cols fr = Ok fr' ->
  Forall (fun v => length v = n) cols -> Forall (fun p => length (snd p) = n) fr ->
  Forall (fun p => length (snd p) = n) fr' /\ (names <> [] \/ fr <> [] -> fr' <> []).
Proof.
  induction names as [|c names IH]; intros cols fr fr' H Hc Hf; cbn [place] in H.
  - injection H as <-. split; auto. intros [F|F]; [destruct (F eq_refl)|exact F].
  - destruct cols as [|v cols]; [discriminate H|]. inversion Hc; subst.
    destruct (IH _ _ _ H) as [A B]; [assumption|now apply set_col_lens|]. split; [exact A|]. intros _. apply B. right. apply set_col_nonempty.
Qed.

Lemma columns_lens n data a cols : Forall (fun p => length (snd p) = n) data -> columns data a = Ok (Some cols) ->
  Forall (fun v => length v = n) cols.
Proof.
  intros HF H. apply columns_names in H. revert cols H. induction (names_of a) as [|c l IH]; intros cols H; cbn [mapX] in H.
  - injection H as <-. constructor.
  - destruct (get_col data c) as [v|] eqn:Ec; [|discriminate H]. cbn [bind] in H. destruct (mapX _ l); [|discriminate H].
    cbn [bind] in H. injection H as <-. constructor; auto.
    clear - HF Ec. induction HF as [|[d u] fr Hd HF IH]; cbn [get_col] in Ec; [discriminate|].
    destruct (String.eqb c d); [injection Ec as <-; exact Hd|apply IH; exact Ec].
Qed.

(** its columns have as many entries as the validation set has rows *)
Lemma test_frame_len n data o te v w fr :
  Forall (fun p => length (snd p) = n) data -> rl_cov o <> NNone ->
  columns data (rl_cov o) = Ok (Some v) -> columns data (rl_adj o) = Ok w -> rl_v o = v -> rl_w o = w ->
  test_frame o te = Ok fr -> Forall (fun p => length (snd p) = n) fr.
Proof.
  intros HF Hn C1 C2 <- <- H. unfold test_frame in H.
  assert (F0 : exists f, Forall (fun p => length (snd p) = n) f /\
     match rl_adj o with NNone => Ok f | _ => do l <- iterate (te_adj te); place l (match rl_w o with Some w => w | None => [] end) f end = Ok fr).
  { destruct (rl_cov o) eqn:Ec; [congruence|..]; (destruct (iterate (te_cov te)) as [l0|]; [|discriminate H]); cbn [bind] in H;
      (destruct (place l0 (rl_v o) []) as [f|] eqn:Ep; [|discriminate H]); cbn [bind] in H;
      (exists f; split; [|exact H]); (eapply place_lens in Ep as [A _]; [exact A|eapply columns_lens; eauto|constructor]). }
  destruct F0 as (f & A & H1).
  { destruct (rl_adj o) eqn:Ea; [injection H1 as <-; exact A|..];
    (destruct (rl_w o) as [w|]; [|apply columns_none in C2; discriminate C2]); cbn [bind] in H1;
    (destruct (iterate (te_adj te)); [|discriminate H1]); cbn [bind] in H1;
      (eapply place_lens in H1 as [B _]; [exact B|eapply (columns_lens n data); [exact HF|exact C2]|exact A]). }
Qed.

(** the rows an estimator reads by name from a frame that agrees with the data *)
Lemma columns_agree fr data a : agrees fr data (names_of a) -> columns fr a = columns data a.
Proof.
  intros H. destruct a as [|s|l]; cbn [columns names_of] in *; [reflexivity|now rewrite (H s (or_introl eq_refl))|].
  assert (E : mapX (fun c => match get_col fr c with Some v => Ok v | None => Err KeyError end) l =
              mapX (fun c => match get_col data c with Some v => Ok v | None => Err KeyError end) l); [|now rewrite E].
  induction l as [|c l IH]; cbn [mapX]; [reflexivity|]. rewrite (H c (or_introl eq_refl)), IH; [reflexivity|]. intros d Hd. apply H. now right.
Qed.
