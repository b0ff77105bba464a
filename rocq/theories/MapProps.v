(** Theorems about DataFrameMapper (C211-C214). *)
From Coq Require Import String Permutation.
From Verif Require Import Base EstUtilsModel MetaModel MetaProofs CforestProofs CleanProofs MapModel MapSpec MapProofs.
Set Implicit Arguments.
Local Notation length := List.length.
Local Open Scope string_scope.
Local Open Scope list_scope.
Local Open Scope nat_scope.

Section P.
Variables (V Y T : Type).
Notation mframe := (mframe V).
Variable t_fit : T -> bool * mframe -> option Y -> T * res unit.
Variable t_tr : T -> bool * mframe -> res (list (list V)).
Variable t_ft : T -> option (bool * mframe -> option Y -> T * res (list (list V))).
Variable t_names : T -> list (list string -> option (list string)).
Variable md5 : string -> string.
Variable num : nat -> string.
Notation feature := (feature V).
Notation mparams := (mparams V).
Notation mst := (mst T).
Notation get_names := (get_names t_names md5 num).
Notation mfit := (mfit t_fit).
Notation mtransform := (mtransform t_tr t_names md5 num).
Notation mfit_transform := (mfit_transform t_fit t_tr t_ft t_names md5 num).
Notation ev := (ev t_tr t_names md5 num).

(** *** C211: which feature gets which columns *)
Lemma picks_S (f : feature) fs (X : mframe) i c : picks (f :: fs) X (S i) c <-> picks fs X i c.
Proof. reflexivity. Qed.
Lemma picks_0 d t o fs (X : mframe) c : picks ((d, t, o) :: fs) X 0 c <-> In c (named d X).
Proof. split; [intros (d' & t' & o' & E & H); cbn in E; injection E as <- <- <-; auto|intros H; exists d, t, o; auto]. Qed.

Lemma assign_len (X : mframe) fs sel : length (assign X fs sel) = length fs.
Proof. revert sel. induction fs as [|[[d t] o] fs IH]; intros sel; cbn; auto. Qed.
Lemma assign_nth (X : mframe) fs sel i d t o : nth_error fs i = Some (d, t, o) -> exists f, nth_error (assign X fs sel) i = Some (filter f (named d X), t, o) /\
  forall c, f c = true <-> ~ In c sel /\ forall j, j < i -> ~ picks fs X j c.
Proof.
  revert sel i. induction fs as [|[[d0 t0] o0] fs IH]; intros sel [|i] H; cbn [nth_error] in H; try discriminate.
  - injection H as -> -> ->. exists (fun c => negb (mem c sel)). split; [reflexivity|]. intros c. rewrite negb_true_iff, mem_not. split; [intros K; split; [auto|lia]|tauto].
  - cbn [assign nth_error]. destruct (IH (sel ++ filter (fun c => negb (mem c sel)) (named d0 X)) i H) as (f & A & B). exists f. split; [auto|]. intros c. rewrite B, in_app_iff, filter_In, negb_true_iff, mem_not. split.
    + intros [K1 K2]. split; [tauto|]. intros [|j] Hj; [rewrite picks_0; tauto|]. rewrite picks_S. apply K2. lia.
    + intros [K1 K2]. split; [|intros j Hj; apply (K2 (S j)); lia]. intros [K|[K _]]; [auto|]. apply (K2 0); [lia|]. now apply picks_0.
Qed.
Lemma all_cols_picks (X : mframe) fs sel c : In c (sel ++ all_cols (assign X fs sel)) <-> In c sel \/ exists i, picks fs X i c.
Proof.
  revert sel. induction fs as [|[[d t] o] fs IH]; intros sel; cbn [assign all_cols flat_map cols fst].
  - rewrite app_nil_r. split; [auto|intros [H|(i & d & t & o & H & _)]; [auto|destruct i; discriminate]].
  - unfold all_cols in *. cbn [flat_map cols fst]. rewrite app_assoc. rewrite IH, in_app_iff, filter_In, negb_true_iff, mem_not. split.
    + intros [[K|[K _]]|(i & K)]; [auto|right; exists 0; now apply picks_0|right; now exists (S i)].
    + intros [K|([|i] & K)]; [auto| |right; now exists i]. apply picks_0 in K. destruct (in_dec string_dec c sel); auto.
Qed.
Lemma all_cols_nodup (X : mframe) fs sel : (forall d t o, In (d, t, o) fs -> NoDup (named d X)) -> NoDup sel -> NoDup (sel ++ all_cols (assign X fs sel)).
Proof.
  revert sel. induction fs as [|[[d t] o] fs IH]; intros sel H N; cbn [assign all_cols flat_map cols fst].
  - now rewrite app_nil_r.
  - unfold all_cols in *. cbn [flat_map cols fst]. rewrite app_assoc. apply IH; [intros; eapply H; right; eauto|].
    assert (N2 : NoDup (filter (fun c => negb (mem c sel)) (named d X))) by (apply NoDup_filter; apply (H d t o); now left).
    revert N2. assert (D : forall c, In c (filter (fun c => negb (mem c sel)) (named d X)) -> ~ In c sel) by (intros c K; apply filter_In in K; destruct K as [_ K]; now apply negb_true_iff, mem_not in K).
    revert D. generalize (filter (fun c => negb (mem c sel)) (named d X)). clear -N. intros l D N2. induction sel as [|a sel IH]; [exact N2|]. cbn. inversion N; subst. constructor; [|apply IH; auto; intros c K1 K2; apply (D c); auto; now right].
    rewrite in_app_iff. intros [K|K]; [auto|]. apply (D a K). now left.
Qed.
Lemma in_sel (X : mframe) fs c : In c (all_cols (assign X fs [])) <-> exists i, picks fs X i c.
Proof. pose proof (all_cols_picks X fs [] c) as H. cbn in H. rewrite H. tauto. Qed.
Lemma mfit_fitted p X y s s' : NoDup (fnames X) -> mfit p X y s = (s', Ok tt) -> h_fitted s' = Some (entries p X) /\ h_names s' = Some (fnames X).
Proof. intros ND H. rewrite (@mfit_entries _ _ _ _ _ _ y s ND) in H. apply mbind_inv in H. destruct H as (s1 & [] & A & B). injection B as <-. auto. Qed.

(** the columns of a frame that no feature picks *)
Definition unpicked (fs : list feature) (X : mframe) (c : string) : Prop := forall i, ~ picks fs X i c.

(** each feature gets the columns of its definition that no earlier feature has, in the order of its definition, with its own transformer and
    options; without overlap or unknown names, the default gets the columns that are left, in the order of the frame, and there is such an entry
    iff a column is left: so with a default each column of the frame is in exactly one entry *)
Theorem C211_columns_assigned (p : mparams) X y s s' : NoDup (map fst X) -> mfit p X y s = (s', Ok tt) -> exists fl, h_fitted s' = Some fl /\ h_names s' = Some (map fst X) /\
  (forall i d t o, nth_error (mp_features p) i = Some (d, t, o) -> exists f, nth_error fl i = Some (filter f (named d X), t, o) /\ forall c, f c = true <-> forall j, j < i -> ~ picks (mp_features p) X j c) /\
  (mp_default p = DDrop -> length fl = length (mp_features p)) /\
  (clean_defs (mp_features p) X -> mp_default p <> DDrop ->
     Permutation (flat_map (fun e => fst (fst e)) fl) (map fst X) /\
     (length fl = S (length (mp_features p)) <-> exists c, In c (map fst X) /\ unpicked (mp_features p) X c) /\ length fl <= S (length (mp_features p)) /\
     forall cs t o, nth_error fl (length (mp_features p)) = Some (cs, t, o) ->
       o = no_opts /\ t = match mp_default p with DTr i => Some i | _ => None end /\ exists f, cs = filter f (map fst X) /\ forall c, f c = true <-> unpicked (mp_features p) X c).
Proof.
  intros ND H. destruct (@mfit_fitted p X y s s' ND H) as [F N]. exists (entries p X). split; [auto|]. split; [exact N|]. unfold entries. set (A := assign X (mp_features p) []). assert (LA : length A = length (mp_features p)) by apply assign_len.
  split; [|split].
  - intros i d t o E. destruct (assign_nth X (mp_features p) [] i E) as (f & B & C). exists f. split; [|intros c; rewrite C; cbn; tauto]. rewrite nth_error_app1; [exact B|]. fold A. rewrite LA. apply nth_error_Some. congruence.
  - intros D. unfold dflt_entry. rewrite D, app_nil_r. exact LA.
  - intros CD ND'. set (sel := all_cols A). set (rest := filter (fun c => negb (mem c sel)) (fnames X)).
    assert (NS : NoDup sel). { pose proof (@all_cols_nodup X (mp_features p) []) as K. cbn in K. apply K; [|constructor]. intros d t o I. apply (CD d t o I). }
    assert (IS : incl sel (fnames X)). { intros c K. apply in_sel in K. destruct K as (i & d & t & o & E & K). apply nth_error_In in E. now apply (CD d t o E). }
    assert (IU : forall c, negb (mem c sel) = true <-> unpicked (mp_features p) X c). { intros c. rewrite negb_true_iff, mem_not. unfold sel, A. rewrite in_sel. unfold unpicked. split; [intros K i L; apply K; eauto|intros K [i L]; exact (K i L)]. }
    assert (PM : Permutation (sel ++ rest) (fnames X)).
    { unfold rest. clear -ND NS IS. apply NoDup_Permutation; [| exact ND|].
      - assert (K : forall l m, NoDup l -> NoDup m -> (forall c : string, In c m -> ~ In c l) -> NoDup (l ++ m)).
        { clear. induction l as [|a l IH]; intros m Hl Hm D; [auto|]. cbn. inversion Hl; subst. constructor; [rewrite in_app_iff; intros [K|K]; [auto|]; apply (D a K); now left|apply IH; auto; intros c K1 K2; apply (D c K1); now right]. }
        apply K; auto; [now apply NoDup_filter|]. intros c L. apply filter_In in L. destruct L as [_ L]. now apply negb_true_iff, mem_not in L.
      - intros c. rewrite in_app_iff, filter_In, negb_true_iff, mem_not. split; [intros [K|[K _]]; auto|]. intros K. destruct (in_dec string_dec c sel); auto. }
    assert (LL : length sel < length X <-> exists c, In c (map fst X) /\ unpicked (mp_features p) X c).
    { pose proof (Permutation_length PM) as L. rewrite app_length in L. unfold fnames in L. rewrite map_length in L. split.
      - intros K. destruct rest as [|c r] eqn:R; [cbn in L; lia|]. exists c. assert (I : In c rest) by (rewrite R; now left). unfold rest in I. apply filter_In in I. destruct I as [I1 I2]. apply IU in I2. auto.
      - intros (c & I1 & I2). apply IU in I2. assert (I : In c rest) by (unfold rest; apply filter_In; auto). destruct rest; [contradiction|]. cbn in L. lia. }
    assert (DE : dflt_entry p X sel = if length sel <? length X then [(rest, match mp_default p with DTr i => Some i | _ => None end, no_opts)] else []).
    { unfold dflt_entry. destruct (mp_default p); [contradiction|reflexivity..]. }
    assert (RE : length sel <? length X = false -> rest = []). { intros L. apply Nat.ltb_ge in L. pose proof (Permutation_length PM) as K. rewrite app_length in K. unfold fnames in K. rewrite map_length in K. destruct rest; [auto|cbn in K; lia]. }
    fold sel. rewrite DE. split; [|split; [|split]].
    + rewrite flat_map_app. change (flat_map (fun e : fitted => fst (fst e)) A) with sel. destruct (length sel <? length X) eqn:L; [cbn; rewrite app_nil_r; exact PM|]. rewrite (RE eq_refl) in PM. exact PM.
    + rewrite <- LL, app_length, LA. destruct (length sel <? length X) eqn:L; [apply Nat.ltb_lt in L|apply Nat.ltb_ge in L]; cbn; lia.
    + rewrite app_length, LA. destruct (length sel <? length X); cbn; lia.
    + intros cs t o E. rewrite nth_error_app2 in E by lia. rewrite LA, Nat.sub_diag in E. destruct (length sel <? length X); [|discriminate]. injection E as <- <- <-. split; [auto|]. split; [auto|]. exists (fun c => negb (mem c sel)). split; [reflexivity|exact IU].
Qed.

(** *** C212: fit_transform *)
(** a column passed through by the default is called by its own name; transform abbreviates a lone one of more than 64 characters *)
Definition lone_short (p : mparams) (X : mframe) : Prop := mp_default p = DPass -> forall c, In c (map fst X) -> unpicked (mp_features p) X c ->
  (forall c', In c' (map fst X) -> unpicked (mp_features p) X c' -> c' = c) -> String.length c <= 64.
Lemma lone_short_rest p X : lone_short p X -> short_rest p X.
Proof.
  intros H c D E. unfold dflt_entry in E. rewrite D in E. destruct (_ <? _); [|discriminate]. injection E as E.
  assert (K : forall x, x = c <-> In x (fnames X) /\ unpicked (mp_features p) X x).
  { intros x. assert (K : x = c <-> In x [c]) by (cbn; intuition). rewrite K, <- E, filter_In, negb_true_iff, mem_not, in_sel. unfold unpicked. split; intros [A B]; (split; [auto|]); [intros i L; apply B; eauto|intros [i L]; exact (B i L)]. }
  destruct (proj1 (K c) eq_refl) as [K1 K2]. apply H; auto. intros c' A B. apply K. auto.
Qed.
Theorem C212_fit_transform_is_fit_then_transform_partial (p : mparams) X y s s' out :
  NoDup (map fst X) -> contract t_fit t_tr t_ft -> NoDup (ids p) -> (forall d t o, In (d, t, o) (mp_features p) -> is_tuple d = false) -> lone_short p X ->
  mfit_transform p X y s = (s', Ok out) <-> exists s1 fl, mfit p X y s = (s1, Ok tt) /\ mtransform p X s1 = (s1, Ok out) /\ h_fitted s1 = Some fl /\
    h_objs s' = h_objs s1 /\ h_names s' = h_names s1 /\ h_fitted s' = Some (filter (fun e : fitted => match fst (fst e) with [] => false | _ => true end) fl).
Proof.
  intros ND C NI NT LS. rewrite (@fit_transform_iff _ _ _ _ _ _ _ _ _ p X y s out ND NT (lone_short_rest LS) C NI s'). split.
  - intros (s1 & fl & A & B & D & ->). exists s1, fl. repeat split; auto.
  - intros (s1 & fl & A & B & D & E1 & E2 & E3). exists s1, fl. repeat split; auto. destruct s'. cbn in *. subst. reflexivity.
Qed.

(** *** C213: the result of transform *)
Definition cols_ok (X : mframe) (cs : list string) (Xt : mframe) : Prop := Forall2 (fun c nv => fst nv = c /\ In nv X) cs Xt.
Lemma subset_ok (X : mframe) cs Xt : subset X cs = Ok Xt -> cols_ok X cs Xt.
Proof.
  intros H. apply mapX_inv in H. unfold cols_ok. induction H as [|c nv cs Xt E H IH]; constructor; auto. destruct (find _ _) as [nv'|] eqn:F; [|discriminate]. injection E as ->. apply find_some in F. destruct F as [F1 F2]. apply String.eqb_eq in F2. auto.
Qed.
Lemma get_names_len cs t k al : k <> 0 -> length (get_names cs t k al) = k.
Proof.
  intros K. unfold MapModel.get_names. destruct (1 <? k) eqn:E; [|apply Nat.ltb_ge in E; cbn; lia].
  destruct (match step_names _ _ _ _ with None => _ | _ => _ end) as [l|]; [|now rewrite map_length, seq_length]. destruct (length l =? k) eqn:L; [now apply Nat.eqb_eq|now rewrite map_length, seq_length].
Qed.
(** what transform does with one fitted feature *)
Definition block (p : mparams) (X : mframe) (objs : list T) (e : fitted) (b : list (list V)) : Prop :=
  exists Xt, cols_ok X (fst (fst e)) Xt /\
    match snd (fst e) with
    | None => b = map snd Xt
    | Some i => exists t, nth_error objs i = Some t /\ t_tr t (match o_input (snd e) with Some d => d | None => mp_input p end, Xt) = Ok b
    end.
Lemma ev_block p X objs e b ns : ev p X objs e = Ok (b, ns) -> block p X objs e b /\ ns = get_names (fst (fst e)) (obj_of objs (snd (fst e))) (length b) (o_alias (snd e)).
Proof.
  destruct e as [[c t] o]. unfold MapProofs.ev, block. cbn [fst snd]. destruct (subset X c) as [Xt|] eqn:S; [|discriminate]. cbn [bind]. destruct t as [i|].
  - destruct (nth_error objs i) as [t|] eqn:E; [|discriminate]. destruct (t_tr t (inp p o, Xt)) as [out|] eqn:R; [|discriminate]. cbn [bind]. intros H. injection H as <- <-. split; [|auto]. exists Xt. split; [now apply subset_ok|]. exists t. auto.
  - cbn [bind]. intros H. injection H as <- <-. split; [|auto]. exists Xt. split; [now apply subset_ok|auto].
Qed.
Definition nonempty (e : fitted) : bool := match fst (fst e) with [] => false | _ => true end.
(** a successful transform gives the blocks of the fitted features with columns, in order, and leaves the mapper as it was; as a frame every column has a name *)
Theorem C213_transform_result (p : mparams) X s s' out : mtransform p X s = (s', Ok out) -> s' = s /\ exists fl bs, h_fitted s = Some fl /\ Forall2 (block p X (h_objs s)) (filter nonempty fl) bs /\
  bs <> [] /\ match out with OArr cols => mp_df_out p = false /\ cols = List.concat bs | ODf l => mp_df_out p = true /\ map snd l = List.concat bs end.
Proof.
  rewrite mtransform_ev. intros H. injection H as <- H. split; [auto|]. destruct (h_fitted s) as [fl|]; [|discriminate]. destruct (mapX _ _) as [r|] eqn:R in H; [|discriminate]. cbn [bind] in H.
  exists fl, (map fst r). split; [auto|]. split.
  - apply mapX_inv in R. clear -R. change (filter nonempty fl) with (filter has_cols fl). induction R as [|e [b ns] l r E R IH]; cbn; constructor; auto. cbn. now apply ev_block in E.
  - unfold to_result in H. destruct (map fst r) as [|b bs] eqn:B; [discriminate|]. split; [discriminate|]. rewrite <- B in *. destruct (mp_df_out p); [|injection H as <-; auto].
    destruct (length (flat_map snd r) =? length (List.concat (map fst r))) eqn:L; [|discriminate]. injection H as <-. split; [auto|]. apply Nat.eqb_eq in L. clear -L. revert L. generalize (List.concat (map fst r)). induction (flat_map snd r) as [|n ns IH]; intros [|c cs] L; cbn in *; try discriminate; auto. f_equal. apply IH. lia.
Qed.
(** conversely it fails only if a column is missing, a transformer fails, there is nothing to put out - or a transformer puts out no column at all *)
Theorem C213_transform_succeeds_partial (p : mparams) X s fl : h_fitted s = Some fl -> filter nonempty fl <> [] ->
  (forall e c, In e fl -> In c (fst (fst e)) -> In c (map fst X)) ->
  (forall cs i o, In (cs, Some i, o) fl -> exists t, nth_error (h_objs s) i = Some t /\ forall Xt, cols_ok X cs Xt -> exists b, t_tr t (match o_input o with Some d => d | None => mp_input p end, Xt) = Ok b /\ b <> []) ->
  exists out, mtransform p X s = (s, Ok out) /\ match out with
    | OArr _ => mp_df_out p = false
    | ODf l => mp_df_out p = true /\ exists bs, Forall2 (block p X (h_objs s)) (filter nonempty fl) bs /\
        map fst l = List.concat (map (fun eb => get_names (fst (fst (fst eb))) (obj_of (h_objs s) (snd (fst (fst eb)))) (length (snd eb)) (o_alias (snd (fst eb)))) (combine (filter nonempty fl) bs))
    end.
Proof.
  intros F NE HC HT. rewrite mtransform_ev, F. change (filter nonempty fl) with (filter has_cols fl) in *.
  assert (K : forall l, incl l fl -> (forall e, In e l -> has_cols e = true) -> exists r, mapX (ev p X (h_objs s)) l = Ok r /\ Forall (fun bn => length (snd bn) = length (fst bn)) r /\ length r = length l /\ Forall2 (block p X (h_objs s)) l (map fst r) /\
     flat_map snd r = List.concat (map (fun eb => get_names (fst (fst (fst eb))) (obj_of (h_objs s) (snd (fst (fst eb)))) (length (snd eb)) (o_alias (snd (fst eb)))) (combine l (map fst r)))).
  { induction l as [|e l IH]; intros I HN; [exists []; repeat split; constructor|]. destruct IH as (r & R1 & R2 & R3 & R4 & R5); [intros x Hx; apply I; now right|intros x Hx; apply HN; now right|].
    assert (Ie : In e fl) by (apply I; now left). destruct e as [[cs t] o]. assert (S : exists Xt, subset X cs = Ok Xt).
    { assert (Q : forall cs, (forall c, In c cs -> In c (map fst X)) -> exists Xt, subset X cs = Ok Xt).
      { clear. induction cs as [|c cs IH]; intros H; [now exists []|]. destruct IH as (Xt & E); [intros; apply H; now right|]. unfold subset in *. cbn [mapX].
        destruct (find (fun nv => String.eqb c (fst nv)) X) as [nv|] eqn:G.
        - rewrite E. cbn [bind]. now exists (nv :: Xt).
        - exfalso. assert (In c (map fst X)) by (apply H; now left). apply in_map_iff in H0. destruct H0 as (nv & <- & Hn). pose proof (find_none _ _ G nv Hn) as Z. cbn in Z. now rewrite String.eqb_refl in Z. }
      apply Q. intros c Hc. apply (HC (cs, t, o) c Ie Hc). }
    destruct S as (Xt & S). assert (B : exists b ns, ev p X (h_objs s) (cs, t, o) = Ok (b, ns) /\ b <> []).
    { unfold MapProofs.ev. rewrite S. cbn [bind]. destruct t as [i|].
      - destruct (HT cs i o Ie) as (t & E & Q). destruct (Q Xt (@subset_ok _ _ _ S)) as (b & E2 & Nb). rewrite E. fold (inp p o) in E2. rewrite E2. cbn [bind]. eauto.
      - cbn [bind]. do 2 eexists. split; [reflexivity|]. specialize (HN (cs, None, o) (or_introl eq_refl)). destruct cs as [|c0 cs]; [discriminate|]. apply subset_len in S. destruct Xt; [discriminate|]. discriminate. }
    destruct B as (b & ns & B & Nb). destruct (@ev_block _ _ _ _ _ _ B) as [B1 B2]. exists ((b, ns) :: r). cbn [mapX]. rewrite B. cbn [bind]. rewrite R1. cbn [bind]. split; [auto|]. split; [|split; [|split]].
    - constructor; auto. cbn [fst snd]. rewrite B2. apply get_names_len. destruct b; [contradiction|discriminate].
    - cbn. now rewrite R3.
    - cbn [map fst]. constructor; auto.
    - cbn [flat_map map combine fst snd List.concat]. rewrite R5. f_equal. exact B2. }
  destruct (K (filter has_cols fl)) as (r & R1 & R2 & R3 & R4 & R5); [intros x Hx; apply filter_In in Hx; tauto|intros x Hx; apply filter_In in Hx; tauto|]. rewrite R1. cbn [bind]. unfold to_result.
  assert (LE : length (flat_map snd r) = length (List.concat (map fst r))). { clear -R2. induction R2 as [|[b ns] r E R IH]; [auto|]. cbn. cbn in E. rewrite !app_length. lia. }
  destruct (map fst r) as [|b0 bs] eqn:B.
  - destruct r; [|discriminate]. cbn in R3. destruct (filter has_cols fl); [contradiction|discriminate].
  - rewrite <- B in *. destruct (mp_df_out p); [|eexists; split; [reflexivity|reflexivity]]. rewrite LE, Nat.eqb_refl. eexists. split; [reflexivity|]. split; [auto|]. exists (map fst r). split; [auto|]. rewrite <- R5. clear -LE. revert LE. generalize (List.concat (map fst r)).
    induction (flat_map snd r) as [|n ns IH]; intros [|c cs] L; cbn in *; try discriminate; auto. f_equal. apply IH. lia.
Qed.
(** the names of a block: one per column; the input columns for a passthrough; those the estimator offers if they are as many as its columns, the input
    columns if it offers none and they are as many *)
Theorem C213_names (cs : list string) (t : option T) k al : k <> 0 ->
  length (get_names cs t k al) = k /\
  (k = 1 -> al = None -> forall c, cs = [c] -> String.length c <= 64 -> get_names cs t k al = [c]) /\
  (1 < k -> t = None -> length cs = k -> get_names cs t k al = cs) /\
  (1 < k -> forall t' f l, t = Some t' -> t_names t' = [f] -> f cs = Some l -> length l = k -> get_names cs t k al = l) /\
  (1 < k -> forall t' f, t = Some t' -> t_names t' = [f] -> f cs = None -> length cs = k -> get_names cs t k al = cs).
Proof.
  intros K. split; [now apply get_names_len|]. unfold MapModel.get_names. split; [|split; [|split]].
  - intros -> -> c -> L. change (1 <? 1) with false. cbn iota. cbn [base_name String.concat]. destruct (64 <? String.length c) eqn:E; [apply Nat.ltb_lt in E; lia|reflexivity].
  - intros L -> E. apply Nat.ltb_lt in L. rewrite L. cbn [step_names rev]. rewrite E, Nat.eqb_refl, E, Nat.eqb_refl. reflexivity.
  - intros L t' f l -> E1 E2 E3. apply Nat.ltb_lt in L. rewrite L, E1. cbn [step_names rev app]. rewrite E2, E3, Nat.eqb_refl, E3, Nat.eqb_refl. reflexivity.
  - intros L t' f -> E1 E2 E3. apply Nat.ltb_lt in L. rewrite L, E1. cbn [step_names rev app]. rewrite E2, E3, Nat.eqb_refl, E3, Nat.eqb_refl. reflexivity.
Qed.

(** *** C214: what transform and a refit depend on *)
(** transform reads only the fitted columns *)
Theorem C214_transform_reads_fitted_columns (p : mparams) X X' s fl : h_fitted s = Some fl ->
  (forall e c, In e fl -> In c (fst (fst e)) -> find (fun nv => String.eqb c (fst nv)) X = find (fun nv => String.eqb c (fst nv)) X') ->
  mtransform p X s = mtransform p X' s /\ fst (mtransform p X s) = s.
Proof.
  intros F H. rewrite !mtransform_ev, F. split; [|reflexivity]. f_equal. f_equal.
  assert (K : forall l, incl l fl -> mapX (ev p X (h_objs s)) l = mapX (ev p X' (h_objs s)) l).
  { induction l as [|e l IH]; intros I; [reflexivity|]. cbn [mapX]. rewrite IH by (intros x Hx; apply I; now right). assert (E : ev p X (h_objs s) e = ev p X' (h_objs s) e); [|now rewrite E].
    destruct e as [[cs t] o]. unfold MapProofs.ev. assert (S : subset X cs = subset X' cs); [|now rewrite S]. specialize (H (cs, t, o)). cbn [fst] in H. assert (Hi : In (cs, t, o) fl) by (apply I; now left).
    assert (H' := fun c => H c Hi). clear H. unfold subset. clear -H'. induction cs as [|c cs IH]; [reflexivity|]. cbn [mapX]. rewrite (H' c) by now left. rewrite IH by (intros x Hx; apply H'; now right). reflexivity. }
  apply K. intros x Hx. apply filter_In in Hx. tauto.
Qed.
Theorem C214_transform_missing_column (p : mparams) X s fl cs t o c : h_fitted s = Some fl -> In (cs, t, o) fl -> In c cs -> ~ In c (map fst X) -> exists e, mtransform p X s = (s, Err e).
Proof.
  intros F I Hc N. rewrite mtransform_ev, F. destruct (mapX _ _) as [r|e] eqn:R; [|eexists; reflexivity]. exfalso. apply mapX_inv in R. assert (J : In (cs, t, o) (filter has_cols fl)) by (apply filter_In; split; [auto|destruct cs; [contradiction|reflexivity]]).
  clear -R J Hc N. induction R as [|e [b ns] l r E R IH]; [contradiction|]. destruct J as [->|J]; [|auto]. apply ev_block in E. destruct E as [(Xt & C & _) _]. cbn [fst] in C. apply N. clear -C Hc. induction C as [|c' nv cs Xt [E1 E2] C IH]; [contradiction|].
  destruct Hc as [->|Hc]; [|auto]. apply in_map_iff. exists nv. auto.
Qed.

(** calls *)
Definition mrun1 (p : mparams) (o : mop V Y) (s : mst) : mst :=
  match o with OFit X y => fst (mfit p X y s) | OTr X => fst (mtransform p X s) | OFitTr X y => fst (mfit_transform p X y s) end.
Definition mrun (p : mparams) (l : list (mop V Y)) (s : mst) : mst := fold_left (fun s o => mrun1 p o s) l s.

Section Refit.
Variable K : Type.
Variable kind : T -> K.
Hypothesis ML : memoryless t_fit t_ft kind.
Definition same_kinds (a b : list T) : Prop := map kind a = map kind b.
Lemma kinds_set i t (l : list T) x : nth_error l i = Some x -> kind t = kind x -> same_kinds (set_nth i t l) l.
Proof. unfold same_kinds. revert i. induction l as [|z l IH]; intros [|i] H E; cbn in *; try discriminate; [injection H as ->; now rewrite E|]. now rewrite (IH i H E). Qed.
Lemma kinds_nth (a b : list T) i : same_kinds a b -> option_map kind (nth_error a i) = option_map kind (nth_error b i).
Proof. intros H. rewrite <- !nth_error_map. unfold same_kinds in H. now rewrite H. Qed.
Lemma call_fit_kind t a y : kind (fst (call_fit t_fit t a y)) = kind t.
Proof. destruct ML as (_ & M & _). unfold call_fit. pose proof (M t a (Some y)) as M1. destruct (t_fit t a (Some y)) as [t1 [[]|e]]; [exact M1|]. cbn [fst] in M1. destruct e; try exact M1. rewrite <- M1. apply M. Qed.
Lemma on_obj_kinds {R} i (f : T -> T * res R) s : (forall t, kind (fst (f t)) = kind t) -> same_kinds (h_objs (fst (on_obj i f s))) (h_objs s).
Proof. intros H. unfold on_obj. destruct (nth_error (h_objs s) i) as [t|] eqn:E; [|reflexivity]. specialize (H t). destruct (f t) as [t' r]. cbn. eapply kinds_set; eauto. Qed.
Lemma ft_obj_kinds i a y s : same_kinds (h_objs (fst (ft_obj t_fit t_tr t_ft i a y s))) (h_objs s).
Proof.
  destruct ML as (_ & _ & M3). unfold ft_obj. destruct (nth_error (h_objs s) i) as [t|] eqn:E; [|reflexivity]. destruct (t_ft t) as [f|] eqn:F.
  - apply on_obj_kinds. intros t0. unfold call_fit. destruct (t_ft t0) as [f0|] eqn:F0; [|reflexivity]. pose proof (M3 _ _ F0 a (Some y)) as M. destruct (f0 a (Some y)) as [t1 [r|e]]; [exact M|]. cbn [fst] in M. destruct e; try exact M.
    destruct (t_ft t1) as [f1|] eqn:F1; [|exact M]. pose proof (M3 _ _ F1 a None) as M'. congruence.
  - unfold mbind. assert (A : same_kinds (h_objs (fst (fit_obj t_fit i a y s))) (h_objs s)) by (apply on_obj_kinds; intros; apply call_fit_kind).
    destruct (fit_obj t_fit i a y s) as [s1 [[]|e]]; [|exact A]. rewrite tr_obj_pure. exact A.
Qed.
Lemma fit_entries_kinds p X y l s : same_kinds (h_objs (fst (fit_entries t_fit p X y l s))) (h_objs s).
Proof.
  revert s. induction l as [|e l IH]; intros s; cbn [fit_entries]; [reflexivity|]. unfold mbind. assert (A : same_kinds (h_objs (fst (fit_entry t_fit p X y e s))) (h_objs s)).
  { destruct e as [[[|c0 c] [i|]] o]; cbn [fit_entry]; try reflexivity. unfold mbind, mlift. destruct (subset X (c0 :: c)); [|reflexivity]. apply on_obj_kinds. intros. apply call_fit_kind. }
  destruct (fit_entry t_fit p X y e s) as [s1 [[]|e1]]; [|exact A]. unfold same_kinds in *. cbn [fst] in A. now rewrite IH.
Qed.
Lemma fit_loop_kinds p X y s : same_kinds (h_objs (fst (mfit p X y s))) (h_objs s).
Proof.
  unfold MapModel.mfit. unfold mbind at 1. rewrite fit_loop_entries. unfold mbind at 1. pose proof (fit_entries_kinds p X y (assign X (mp_features p) []) s) as A. destruct (fit_entries t_fit p X y (assign X (mp_features p) []) s) as [s1 [[]|e]]; [|exact A]. cbn [fst] in A. unfold mret at 1. cbn [app].
  destruct (mp_default p) as [| |i]; unfold mbind, mret, mset; [exact A|destruct (_ <? _); exact A|]. destruct (_ <? _); [|exact A]. unfold mlift. destruct (subset X _) as [Xt|]; [|exact A].
  assert (B : same_kinds (h_objs (fst (fit_obj t_fit i (mp_input p, Xt) y s1))) (h_objs s1)) by (apply on_obj_kinds; intros; apply call_fit_kind). destruct (fit_obj t_fit i (mp_input p, Xt) y s1) as [s2 [[]|e]]; cbn in *; unfold same_kinds in *; congruence.
Qed.
Lemma ft_loop_kinds p X y fs sel done ex ns s : same_kinds (h_objs (fst (ft_loop t_fit t_tr t_ft t_names md5 num p X y fs sel done ex ns s))) (h_objs s).
Proof.
  revert sel done ex ns s. induction fs as [|[[d t] o] fs IH]; intros sel done ex ns s; cbn [ft_loop]; [reflexivity|]. destruct (if existsb _ _ then _ else _) as [|c0 c]; [apply IH|].
  unfold mbind, mlift, mget, mret. destruct (if is_tuple d && _ then _ else _) as [Xt|]; [|reflexivity]. destruct t as [i|]; [|apply IH]. pose proof (ft_obj_kinds i (match o_input o with Some b => b | None => mp_input p end, Xt) y s) as A.
  destruct (ft_obj _ _ _ i _ y s) as [s1 [out|e]]; [|exact A]. cbn [fst] in A. unfold same_kinds in *. rewrite IH. exact A.
Qed.
Lemma mfit_transform_kinds p X y s : same_kinds (h_objs (fst (mfit_transform p X y s))) (h_objs s).
Proof.
  unfold MapModel.mfit_transform. unfold mbind at 1. pose proof (ft_loop_kinds p X y (mp_features p) [] [] [] [] s) as A. destruct (ft_loop _ _ _ _ _ _ p X y (mp_features p) [] [] [] [] s) as [s1 [[[[sel done] ex] ns]|e]]; [|exact A]. cbn [fst] in A.
  destruct (mp_default p) as [| |i]; unfold mbind, mret, mset, mlift; [exact A|destruct (_ <? _); [|exact A]; destruct (subset X _); exact A|]. destruct (_ <? _); [|exact A]. destruct (subset X _) as [Xt|]; [|exact A].
  pose proof (ft_obj_kinds i (mp_input p, Xt) y s1) as B. destruct (ft_obj _ _ _ i _ y s1) as [s2 [out|e]]; cbn in *; unfold same_kinds in *; congruence.
Qed.
Lemma mrun_kinds p l s : same_kinds (h_objs (mrun p l s)) (h_objs s).
Proof.
  unfold mrun. revert s. induction l as [|o l IH]; intros s; [reflexivity|]. cbn [fold_left]. unfold same_kinds in *. rewrite IH. destruct o as [X y|X|X y]; cbn [mrun1]; [apply fit_loop_kinds|now rewrite mtransform_ev|apply mfit_transform_kinds].
Qed.

(** two mappers with objects of the same kinds: fit does the same *)
Lemma call_fit_same t t' a y : kind t = kind t' -> call_fit t_fit t a y = call_fit t_fit t' a y.
Proof. intros E. unfold call_fit. now rewrite (proj1 ML t t' a (Some y) E). Qed.
Lemma fit_entries_same p X y l s s' : same_kinds (h_objs s) (h_objs s') ->
  snd (fit_entries t_fit p X y l s) = snd (fit_entries t_fit p X y l s') /\
  (forall i, snd (fit_entries t_fit p X y l s) = Ok tt -> (In i (eids (filter has_cols l)) \/ nth_error (h_objs s) i = nth_error (h_objs s') i) ->
     nth_error (h_objs (fst (fit_entries t_fit p X y l s))) i = nth_error (h_objs (fst (fit_entries t_fit p X y l s'))) i).
Proof.
  revert s s'. induction l as [|e l IH]; intros s s' H; cbn [fit_entries].
  - cbn. split; [auto|]. intros i _ [[]|E]; auto.
  - assert (A : snd (fit_entry t_fit p X y e s) = snd (fit_entry t_fit p X y e s') /\ same_kinds (h_objs (fst (fit_entry t_fit p X y e s))) (h_objs (fst (fit_entry t_fit p X y e s'))) /\
      forall i, snd (fit_entry t_fit p X y e s) = Ok tt -> (has_cols e = true /\ In i (eids [e])) \/ nth_error (h_objs s) i = nth_error (h_objs s') i -> nth_error (h_objs (fst (fit_entry t_fit p X y e s))) i = nth_error (h_objs (fst (fit_entry t_fit p X y e s'))) i).
    { destruct e as [[[|c0 c] [j|]] o]; cbn [fit_entry]; try (split; [auto|split; [auto|intros i _ [[_ []]|E]; exact E]]).
      - split; [auto|split; [auto|intros i _ [[E _]|E]; [discriminate|exact E]]].
      - unfold mbind, mlift. destruct (subset X (c0 :: c)) as [Xt|]; [|split; [auto|split; [auto|discriminate]]]. unfold fit_obj, on_obj. pose proof (kinds_nth j H) as N. destruct (nth_error (h_objs s) j) as [t|] eqn:E; destruct (nth_error (h_objs s') j) as [t'|] eqn:E'; try discriminate N.
        + cbn in N. injection N as N. rewrite (@call_fit_same t t' _ _ N). pose proof (call_fit_kind t' (inp p o, Xt) y) as M. destruct (call_fit t_fit t' (inp p o, Xt) y) as [t1 r]. cbn [fst snd h_objs]. split; [auto|]. split.
          * cbn [fst] in M. unfold same_kinds. pose proof (@kinds_set j t1 (h_objs s) t E) as Q1. pose proof (@kinds_set j t1 (h_objs s') t' E') as Q2. unfold same_kinds in *. rewrite Q1, Q2; congruence.
          * intros i _ [[_ I]|I].
            -- destruct I as [->|[]]. now rewrite (nth_set_same _ _ _ E), (nth_set_same _ _ _ E').
            -- destruct (Nat.eq_dec j i) as [->|D]; [now rewrite (nth_set_same _ _ _ E), (nth_set_same _ _ _ E')|]. now rewrite !nth_set_other.
        + split; [auto|split; [auto|discriminate]]. }
    destruct A as (A1 & A2 & A3). unfold mbind. destruct (fit_entry t_fit p X y e s) as [s1 [[]|e1]]; destruct (fit_entry t_fit p X y e s') as [s1' [[]|e1']]; cbn [fst snd] in *; try discriminate A1.
    + destruct (IH s1 s1' A2) as (B1 & B2). split; [auto|]. intros i Ok1 D. apply B2; auto. cbn [filter] in D. destruct D as [D|D]; [|right; apply A3; auto].
      destruct (has_cols e) eqn:HC; [|auto]. unfold eids in D. cbn [flat_map] in D. apply in_app_or in D. destruct D as [D|D]; [|auto]. right. apply A3; auto. left. split; [auto|]. unfold eids. cbn [flat_map]. now rewrite app_nil_r.
    + split; [auto|discriminate].
Qed.
Theorem C214_refit_forgets (p : mparams) s0 h X y : NoDup (map fst X) ->
  let s := mrun p h s0 in
  snd (mfit p X y s) = snd (mfit p X y s0) /\
  (snd (mfit p X y s0) = Ok tt -> h_fitted (fst (mfit p X y s)) = h_fitted (fst (mfit p X y s0)) /\ h_names (fst (mfit p X y s)) = h_names (fst (mfit p X y s0)) /\
     forall X', snd (mtransform p X' (fst (mfit p X y s))) = snd (mtransform p X' (fst (mfit p X y s0)))).
Proof.
  intros ND s. pose proof (mrun_kinds p h s0) as KS. fold s in KS. rewrite !(@mfit_entries _ _ _ _ p X y _ ND). destruct (@fit_entries_same p X y (entries p X) s s0 KS) as (A & B). unfold mbind.
  destruct (fit_entries t_fit p X y (entries p X) s) as [s1 [[]|e]]; destruct (fit_entries t_fit p X y (entries p X) s0) as [s2 [[]|e']]; cbn [fst snd] in *; try discriminate A.
  - split; [reflexivity|]. intros _. split; [reflexivity|]. split; [reflexivity|]. intros X'. unfold mset. rewrite !mtransform_ev. cbn [fst snd h_fitted h_objs]. f_equal.
    assert (Q : forall l, incl l (filter has_cols (entries p X)) -> mapX (ev p X' (h_objs s1)) l = mapX (ev p X' (h_objs s2)) l).
    { induction l as [|e l IH]; intros I; [reflexivity|]. cbn [mapX]. rewrite IH by (intros x Hx; apply I; now right). assert (E : ev p X' (h_objs s1) e = ev p X' (h_objs s2) e); [|now rewrite E]. apply ev_ext. intros i Hi. apply B; [auto|]. left.
      unfold eids in *. apply in_flat_map. exists e. split; [apply I; now left|]. cbn [flat_map] in Hi. now rewrite app_nil_r in Hi. }
    now rewrite Q by apply incl_refl.
  - split; [now rewrite A|]. intros E. discriminate.
Qed.
End Refit.
End P.
Print Assumptions C211_columns_assigned.
Print Assumptions C212_fit_transform_is_fit_then_transform_partial.
Print Assumptions C213_transform_result.
Print Assumptions C213_transform_succeeds_partial.
Print Assumptions C213_names.
Print Assumptions C214_transform_reads_fitted_columns.
Print Assumptions C214_transform_missing_column.
Print Assumptions C214_refit_forgets.
