(** Lemmas about CausalForest: what a successful fit did. *)
From Coq Require Import ZArith Reals Lra.
From Verif Require Import Base ApiModel EstUtilsModel EstUtilsProps MetaModel MetaSpec MetaProofs MetaProps MetaRefit MetaT MetaX
  CrossFitModel CrossFitProofs DrModel DrProofs DrSpec DrProps DrCalls DrRobust DmlModel DmlProofs DmlProps DmlCalls DmlDisc
  TreeCritModel SplitterModel TreeSpec BestFirstModel GrfCritModel GrfModel GrfSpec GrfProofs CforestModel.
Unset Implicit Arguments.
Local Notation length := List.length.
Local Open Scope nat_scope.

Lemma mbind_inv {S A B} (m : M S A) (k : A -> M S B) s s1 b : mbind m k s = (s1, Ok b) ->
  exists s' a, m s = (s', Ok a) /\ k a s' = (s1, Ok b).
Proof. unfold mbind. destruct (m s) as [s' [a|e]]; intros H; [eauto|discriminate]. Qed.
Lemma on_dml_inv {A} (m : M St A) s s1 b : on_dml m s = (s1, Ok b) ->
  exists h o, m (fun _ => None, snd s) = ((h, o), Ok b) /\ s1 = (fst s, o).
Proof. unfold on_dml. destruct (m _) as [[h o] r]. intros H. injection H as <- <-. eauto. Qed.
Lemma on_forest_inv {A} (m : M forest A) s s1 b : on_forest m s = (s1, Ok b) ->
  exists f, m (fst s) = (f, Ok b) /\ s1 = (f, snd s).
Proof. unfold on_forest. destruct (m _) as [f r]. intros H. injection H as <- <-. eauto. Qed.
Lemma mlift_inv {S A} (r : res A) (s s1 : S) a : mlift r s = (s1, Ok a) -> s1 = s /\ r = Ok a.
Proof. unfold mlift. intros H. injection H as <- ->. auto. Qed.

(** the attribute control as a set of deleted columns *)
Definition drops (e : encs) (x_d : nat) (t : dtarg) (cols : list nat) : Prop :=
  match t with
  | ANone => cols = [0%nat]
  | AArr l => mapX (fun l => match l with LInt z => norm_index x_d z | LStr _ => Err IndexError end) l = Ok cols
  | AVal l => exists z i, snd (get_tr_ctrl (TVal l) (fun v => sl_comp true v None) false e) = Ok z /\ norm_index x_d z = Ok i /\ cols = [i]
  | AList l => exists z i, snd (get_tr_ctrl (TList l) (fun v => sl_comp true v None) false e) = Ok z /\ norm_index x_d z = Ok i /\ cols = [i]
  | _ => False
  end.

Lemma cf_columns_inv disc s s1 keep : cf_columns disc s = (s1, Ok keep) ->
  fst s1 = fst s /\ d_stage1 (snd s1) = d_stage1 (snd s) /\
  if disc then exists cols, drops (d_encs (snd s)) (d_nx (snd s)) (d_ct (snd s)) cols /\ keep = Some (keep_cols (d_nx (snd s)) cols)
  else keep = None.
Proof.
  intros H. unfold cf_columns in H. apply mbind_inv in H as (s0 & o & H0 & H).
  apply on_dml_inv in H0 as (h & o' & H0 & ->). unfold obj_get in H0. injection H0 as _ <- <-.
  destruct s as [f o]. cbn [fst snd] in *. destruct disc; [|injection H as <- <-; auto].
  apply mbind_inv in H as (s2 & cols & H1 & H). unfold mret in H. injection H as <- <-.
  assert (G : forall t z0 (s3 : CSt), (mdo _ <- on_dml (obj_set (set_isf true));
                             mdo z <- on_dml (dml_enc (get_tr_ctrl t (fun v => sl_comp true v None) false));
                             mdo _ <- on_dml (obj_set (set_isf false));
                             mdo i <- mlift (norm_index (d_nx o) z); mret [i]) (f, o) = (s3, Ok z0) ->
     fst s3 = f /\ d_stage1 (snd s3) = d_stage1 o /\ exists z i, snd (get_tr_ctrl t (fun v => sl_comp true v None) false (d_encs o)) = Ok z /\ norm_index (d_nx o) z = Ok i /\ z0 = [i]).
  { intros t z0 s3 Hm. apply mbind_inv in Hm as (a1 & [] & A1 & Hm). apply on_dml_inv in A1 as (h1 & o1 & A1 & ->).
    unfold obj_set in A1. injection A1 as <- <-. apply mbind_inv in Hm as (a2 & z & A2 & Hm). apply on_dml_inv in A2 as (h2 & o2 & A2 & ->).
    unfold dml_enc in A2. cbn [fst snd] in A2. change (d_encs (set_isf true o)) with (d_encs o) in A2.
    destruct (get_tr_ctrl t _ false (d_encs o)) as [e2 r2]. injection A2 as _ <- ->.
    apply mbind_inv in Hm as (a3 & [] & A3 & Hm). apply on_dml_inv in A3 as (h3 & o3 & A3 & ->). unfold obj_set in A3. injection A3 as _ <-.
    apply mbind_inv in Hm as (a4 & i & A4 & Hm). apply mlift_inv in A4 as [-> A4]. unfold mret in Hm. injection Hm as <- <-.
    cbn [fst snd]. split; [reflexivity|]. split; [reflexivity|]. exists z, i. auto. }
  unfold drops. destruct (d_ct o) eqn:Ec; cbn [fst snd] in *.
  - unfold mret in H1. injection H1 as <- <-. split; [|split]; auto. eauto.
  - apply G in H1 as (-> & -> & Z). split; [|split]; auto. eauto.
  - apply G in H1 as (-> & -> & Z). split; [|split]; auto. eauto.
  - apply mlift_inv in H1 as [-> H1]. split; [|split]; auto. eauto.
  - apply mlift_inv in H1 as [-> H1]. discriminate H1.
  - apply mlift_inv in H1 as [-> H1]. discriminate H1.
Qed.

Lemma columns_of_width {A B} (f : A -> B) (v : option A) : match option_map f v with None => True | Some _ => v <> None end.
Proof. destruct v; cbn; auto. discriminate. Qed.

Definition transformed (trf : option (list row -> list row)) (v : option (list row)) : option (list row) :=
  match trf with Some f => option_map f v | None => v end.

(** what a successful fit on continuous treatments did *)
Lemma cf_fit_cont Lx Ly E categories cf trf a x s s1 :
  m_x a = XCont x -> cf_fit Lx Ly E categories cf trf a s = (s1, Ok tt) ->
  exists wv xhat yhat,
    get_wv [m_w a; transformed trf (m_v a)] = Ok wv /\
    first_stage Lx cf wv x (width x) xhat /\ first_stage Ly cf wv (m_y a) (width (m_y a)) yhat /\
    grf_fit E (cf_data x xhat None (m_y a) yhat (transformed trf (m_v a))) None (fst s) = (fst s1, Ok tt) /\
    d_isf (snd s1) = true /\ d_stage1 (snd s1) = true.
Proof.
  intros Ex H. unfold cf_fit in H. set (body := (mbind _ _ : M CSt unit)) in H.
  assert (Hb : body s = (s1, Ok tt)) by (destruct (m_w a), (m_v a); auto; discriminate H). clear H. subst body.
  apply mbind_inv in Hb as (a1 & [] & A1 & H). apply on_dml_inv in A1 as (h1 & o1 & A1 & ->). unfold obj_set in A1. injection A1 as _ <-.
  apply mbind_inv in H as (a2 & o2 & A2 & H). apply on_dml_inv in A2 as (h2 & o2' & A2 & ->). unfold obj_get in A2. injection A2 as _ <- <-.
  rewrite Ex in H. cbn [fst snd] in H. apply mbind_inv in H as (a3 & [x' z] & A3 & H). unfold mret in A3. injection A3 as <- <- <-.
  apply mbind_inv in H as (a4 & [] & A4 & H). apply on_dml_inv in A4 as (h4 & o4 & A4 & ->). unfold obj_set in A4. injection A4 as _ <-.
  apply mbind_inv in H as (a5 & wv & A5 & H). apply mlift_inv in A5 as [-> A5].
  apply mbind_inv in H as (a6 & xhat & A6 & H). apply mlift_inv in A6 as [-> A6].
  apply mbind_inv in H as (a7 & yhat & A7 & H). apply mlift_inv in A7 as [-> A7].
  apply mbind_inv in H as (a8 & [] & A8 & H). apply on_dml_inv in A8 as (h8 & o8 & A8 & ->). unfold obj_set in A8. injection A8 as _ <-.
  apply mbind_inv in H as (a9 & keep & A9 & H). pose proof A9 as A9'. apply cf_columns_inv in A9' as (F9 & _ & ->).
  cbn [fst snd dml_stage1 dml_nx d_nx] in *.
  assert (S9 : a9 = (fst s, dml_stage1 (dml_nx (width x) (cf_begin a (snd s))))).
  { unfold cf_columns in A9. apply mbind_inv in A9 as (b1 & o & B1 & B2). apply on_dml_inv in B1 as (h & o' & B1 & ->).
    unfold obj_get in B1. injection B1 as _ <- <-. unfold mret in B2. injection B2; intros; subst; reflexivity. }
  subst a9. apply mbind_inv in H as (b & [] & B & H). apply on_forest_inv in B as (f & B & ->).
  apply on_dml_inv in H as (h9 & o9 & H & ->). unfold obj_set in H. injection H as _ <-. cbn [fst snd].
  exists wv, xhat, yhat. split; [exact A5|]. split; [now apply dml_cross_first|]. split; [now apply dml_cross_first|].
  split; [exact B|]. split; reflexivity.
Qed.

(** ... on discrete treatments, for a new object *)
Lemma cf_fit_disc Lx Ly E categories cf trf a x p s1 d :
  m_x a = XDisc x -> Forall (fun r => length r = d) x -> (forall cs, categories = Some cs -> Forall (@NoDup label) cs) ->
  cf_fit Lx Ly E categories cf trf a (cf_new p) = (s1, Ok tt) ->
  exists keys e wv ph yhat cols,
    groups_of d (dr_values categories x) keys /\ (d = 1 -> categories = None -> increasing keys) /\
    (forall r, In r x -> In r keys) /\ x <> [] /\
    get_wv [m_w a; transformed trf (m_v a)] = Ok wv /\ 2 <= length keys /\
    first_stage_disc Lx cf wv (group_nos keys x) (length keys) ph /\ first_stage Ly cf wv (m_y a) (width (m_y a)) yhat /\
    Enc e d keys /\ drops e (length keys) (k_control a) cols /\
    grf_fit E (cf_data (map (indicator keys) x) ph (Some (keep_cols (length keys) cols)) (m_y a) yhat (transformed trf (m_v a))) None (grf_init p) =
      (fst s1, Ok tt) /\
    d_isf (snd s1) = true /\ d_stage1 (snd s1) = true.
Proof.
  intros Ex HL HN H. unfold cf_fit in H. set (body := (mbind _ _ : M CSt unit)) in H.
  assert (Hb : body (cf_new p) = (s1, Ok tt)) by (destruct (m_w a), (m_v a); auto; discriminate H). clear H. subst body.
  apply mbind_inv in Hb as (a1 & [] & A1 & H). apply on_dml_inv in A1 as (h1 & o1 & A1 & ->). unfold obj_set in A1. injection A1 as _ <-.
  apply mbind_inv in H as (a2 & o2 & A2 & H). apply on_dml_inv in A2 as (h2 & o2' & A2 & ->). unfold obj_get in A2. injection A2 as _ <- <-.
  rewrite Ex in H. cbn [fst snd cf_new] in H. apply mbind_inv in H as (a3 & [x' z'] & A3 & H).
  apply mbind_inv in A3 as (a3' & z & A3 & A3'). unfold mret in A3'. injection A3' as <- <- <-.
  apply on_dml_inv in A3 as (h3 & o3 & A3 & ->). unfold dml_enc in A3. cbn [fst snd] in A3.
  change (d_encs (cf_begin a (dml_new 0))) with no_encs in A3. change (d_isf (cf_begin a (dml_new 0))) with false in A3.
  destruct (sl_comp false x categories no_encs) as [e r3] eqn:Ez. injection A3 as _ <- ->.
  apply mbind_inv in H as (a4 & [] & A4 & H). apply on_dml_inv in A4 as (h4 & o4 & A4 & ->). unfold obj_set in A4. injection A4 as _ <-.
  apply mbind_inv in H as (a5 & wv & A5 & H). apply mlift_inv in A5 as [-> A5].
  apply mbind_inv in H as (a6 & xhat & A6 & H). apply mlift_inv in A6 as [-> A6].
  apply mbind_inv in H as (a7 & yhat & A7 & H). apply mlift_inv in A7 as [-> A7].
  apply mbind_inv in H as (a8 & [] & A8 & H). apply on_dml_inv in A8 as (h8 & o8 & A8 & ->). unfold obj_set in A8. injection A8 as _ <-.
  apply mbind_inv in H as (a9 & keep & A9 & H). apply cf_columns_inv in A9 as (F9 & G9 & cols & D9 & ->).
  cbn [fst snd dml_stage1 dml_nx cf_begin d_nx d_encs d_ct] in *.
  apply mbind_inv in H as (b & [] & B & H). apply on_forest_inv in B as (f & B & ->).
  apply on_dml_inv in H as (h9 & o9 & H & ->). unfold obj_set in H. injection H as _ <-. rewrite F9 in B. cbn [fst snd] in *.
  destruct (@sl_comp_fresh _ _ _ _ _ _ HL HN Ez) as (keys & cats & Ef & HE & -> & Hk & Hd1 & Hn1).
  destruct (@enc_fit_spec _ _ _ _ HL Ef) as (Hx & _ & Hlen & Hin & Hnone & Hsome).
  destruct (Enc_keys HE) as (ND & _ & _).
  pose proof (groups_product _ _ _ _ _ HL Ef ND Hk) as Hg.
  assert (Hall : forall r, In r x -> In r keys) by (intros r Hr; apply Hk, Hin; exact Hr).
  apply dml_cross_disc_first in A6 as [A60 A6]. rewrite (codes_of keys x ND Hall) in A6.
  assert (Wi : width (to_rows (map (ind keys) x)) = length keys).
  { rewrite to_rows_ind. destruct x; [easy|]. cbn. apply indicator_length. }
  rewrite Wi in *. rewrite to_rows_ind in B.
  assert (K2 : 2 <= length keys).
  { destruct keys as [|g [|g' keys]]; cbn in *; try lia. destruct x as [|r x]; [easy|]. destruct (Hall r (or_introl eq_refl)). }
  exists keys, e, wv, xhat, yhat, cols. split; [exact Hg|]. split.
  { intros Hd HN0. exists (nth 0 cats []). split; auto. destruct (Hnone HN0) as [HS _].
    rewrite Forall_forall in HS. apply HS. apply nth_In. lia. }
  split; [exact Hall|]. split; [exact Hx|]. split; [exact A5|]. split; [exact K2|]. split; [exact A6|]. split; [now apply dml_cross_first|].
  split; [exact HE|]. split; [exact D9|]. split; [exact B|]. split; [reflexivity|]. exact G9.
Qed.

Lemma norm_index_nat n q : q < n -> norm_index n (Z.of_nat q) = Ok q.
Proof.
  intros H. unfold norm_index. rewrite (proj2 (Z.leb_le _ _)) by lia. rewrite (proj2 (Z.ltb_lt _ _)) by lia. cbn [andb]. now rewrite Nat2Z.id.
Qed.

(** a named control drops the column of its group *)
Lemma drops_named e d keys t rk cols : Enc e d keys -> names d keys 0 t rk -> In rk keys -> 0 < length keys -> drops e (length keys) t cols ->
  cols = [group_no keys rk].
Proof.
  intros HE HN Hi H0 HD. destruct (group_no_lt _ _ Hi) as [Lt Et]. destruct (Enc_keys HE) as (ND & _ & _).
  assert (G : forall t', asks d keys 0 t' rk -> get_tr_ctrl t' (fun v => sl_comp true v None) false e = (e, Ok (Z.of_nat (group_no keys rk)))).
  { intros t' HA. eapply get_tr_ctrl_ok; eauto. intros y _. apply sl_comp_ready. }
  destruct HN as [r Hr|l Hd|l Hl]; cbn [drops] in HD.
  - subst cols. f_equal. pose proof (index_of_nth _ keys _ ND Hr) as A. unfold group_no. now rewrite A.
  - destruct HD as (z & i & Hz & Hn & ->). rewrite (G (TVal l)) in Hz by now constructor. cbn [snd] in Hz. injection Hz as <-.
    rewrite norm_index_nat in Hn by auto. injection Hn as <-. reflexivity.
  - destruct HD as (z & i & Hz & Hn & ->). rewrite (G (TList l)) in Hz by now constructor. cbn [snd] in Hz. injection Hz as <-.
    rewrite norm_index_nat in Hn by auto. injection Hn as <-. reflexivity.
Qed.
