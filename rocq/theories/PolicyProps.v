(** Theorems about PolicyTree: C100 - C103. *)
From Coq Require Import ZArith Reals Lra.
From Verif Require Import Base TreeCritModel TreeCritProps SplitterModel SplitterSpec TreeSpec SplitterProofs
  CritOk TreeProps SortProps TreeExamples BestFirstModel BestFirstProps PolicyModel.
Set Implicit Arguments.
Local Notation length := List.length.
Open Scope nat_scope.

(** *** argmax *)
Lemma argmax_spec l : l <> [] -> argmax l < length l /\ (forall k, k < length l -> (nth k l 0 <= nth (argmax l) l 0)%R) /\
  (forall k, k < argmax l -> (nth k l 0 < nth (argmax l) l 0)%R).
Proof.
  induction l as [|x tl IH]; [congruence|]. intros _. destruct tl as [|y tl].
  - cbn [argmax length nth]. split; [lia|]. split; [|lia]. intros k Hk. replace k with 0 by lia. lra.
  - destruct IH as (A & B & C); [discriminate|]. change (argmax (x :: y :: tl)) with
      (if Rle_dec (nth (argmax (y :: tl)) (y :: tl) 0%R) x then 0 else 1 + argmax (y :: tl)).
    set (m := argmax (y :: tl)) in *. destruct (Rle_dec _ _) as [Q|Q].
    + split; [cbn; lia|]. split; [|lia]. intros [|k] Hk; [cbn [nth]; lra|].
      change (nth (S k) (x :: y :: tl) 0%R) with (nth k (y :: tl) 0%R). cbn [length] in Hk.
      specialize (B k ltac:(cbn; lia)). change (nth 0 (x :: y :: tl) 0%R) with x. lra.
    + cbn [length] in *. change (nth (1 + m) (x :: y :: tl) 0%R) with (nth m (y :: tl) 0%R). split; [lia|]. split.
      * intros [|k] Hk; [change (nth 0 (x :: y :: tl) 0%R) with x; lra|].
        change (nth (S k) (x :: y :: tl) 0%R) with (nth k (y :: tl) 0%R). apply B. lia.
      * intros [|k] Hk; [change (nth 0 (x :: y :: tl) 0%R) with x; lra|].
        change (nth (S k) (x :: y :: tl) 0%R) with (nth k (y :: tl) 0%R). apply C. lia.
Qed.

(** *** sums by group *)
Lemma sum_by_group (leaf : nat -> nat) (f g : nat -> R) (s : list nat) :
  (forall j, Rsum (map f (filter (fun i => leaf i =? j) s)) <= Rsum (map g (filter (fun i => leaf i =? j) s)))%R ->
  (Rsum (map f s) <= Rsum (map g s))%R.
Proof.
  remember (length s) as k eqn:Ek. revert s Ek. induction k as [k IH] using lt_wf_ind. intros s Ek H.
  destruct s as [|i s]; [cbn; lra|].
  set (j := leaf i). set (a := filter (fun x => leaf x =? j) (i :: s)). set (b := filter (fun x => negb (leaf x =? j)) (i :: s)).
  assert (P : Permutation (i :: s) (a ++ b)).
  { unfold a, b. generalize (i :: s). intros l. induction l as [|x l IHl]; [reflexivity|]. cbn [filter].
    destruct (leaf x =? j); cbn [negb app]; [now apply perm_skip|]. rewrite IHl at 1. apply Permutation_middle. }
  assert (Lb : length b < k).
  { rewrite Ek. apply Permutation_length in P. rewrite app_length in P. rewrite P.
    assert (In i a) by (unfold a; apply filter_In; split; [now left|apply Nat.eqb_refl]). destruct a; [contradiction|]. cbn. lia. }
  rewrite (Rsum_perm (Permutation_map f P)), (Rsum_perm (Permutation_map g P)), !map_app, !Rsum_app.
  apply Rplus_le_compat; [apply H|]. apply (IH (length b) Lb b eq_refl). intros j'.
  destruct (Nat.eq_dec j' j) as [->|Ne].
  - assert (E : filter (fun x => leaf x =? j) b = []).
    { unfold b. generalize (i :: s). intros l. induction l as [|x l IHl]; [reflexivity|]. cbn [filter].
      destruct (leaf x =? j) eqn:El; cbn [negb filter]; [auto|]. now rewrite El. }
    rewrite E. cbn. lra.
  - assert (E : filter (fun x => leaf x =? j') b = filter (fun x => leaf x =? j') (i :: s)).
    { unfold b. generalize (i :: s). intros l. induction l as [|x l IHl]; [reflexivity|]. cbn [filter].
      destruct (Nat.eqb_spec (leaf x) j) as [El|El]; cbn [negb filter].
      - destruct (Nat.eqb_spec (leaf x) j'); [congruence|auto].
      - now rewrite IHl. }
    rewrite E. apply H.
Qed.

Lemma tree_predicts_ok (b : @bst (nat -> R)) rows :
  (forall x, exists v, tree_predict (fun _ => 0%R) b x = Ok v) ->
  exists vs, tree_predicts b rows = Ok vs /\ length vs = length rows /\
    forall i v, nth_error vs i = Some v -> exists r, nth_error rows i = Some r /\ tree_predict (fun _ => 0%R) b r = Ok v.
Proof.
  intros H. unfold tree_predicts.
  assert (G : forall acc, exists vs, fold_left (fun acc r => do l <- acc ; do v <- tree_predict (fun _ => 0%R) b r ; Ok (l ++ [v])) rows (Ok acc)
              = Ok (acc ++ vs) /\ length vs = length rows /\
    forall i v, nth_error vs i = Some v -> exists r, nth_error rows i = Some r /\ tree_predict (fun _ => 0%R) b r = Ok v).
  { induction rows as [|x rows IH]; intros acc.
    - exists []. cbn. rewrite app_nil_r. split; [auto|]. split; [auto|]. intros [|i] v; discriminate.
    - destruct (H x) as [v Ev]. cbn [fold_left]. rewrite Ev. cbn [bind].
      destruct (IH (acc ++ [v])) as (vs & A & B & C). exists (v :: vs). rewrite A, <- app_assoc. cbn [app]. split; [auto|]. split; [cbn; lia|].
      intros [|i] u Hu; cbn in Hu |- *; [injection Hu as <-; eauto|eauto]. }
  destruct (G []) as (vs & A & B). exists vs. auto.
Qed.

Section Props.
Variables (Frame Names : Type).
Variable cols : Frame -> Names -> list (nat -> R).
Variable f32 : R -> R.
Notation fit := (pt_fit cols f32).
Notation pX := (pt_X f32).

(** the weights the builder sees *)
Definition seen_data (mln : option nat) (d : data) : data := match mln with None => d | Some _ => without_weights d end.

Lemma seen_out mln d : d_out (seen_data mln d) = d_out d. Proof. now destruct mln. Qed.

Lemma pt_y out ce w i k : k < out -> y_at (pt_data out ce w) i k = ce i k.
Proof.
  intros H. unfold y_at, pt_data. cbn [d_out d_y]. f_equal.
  - rewrite Nat.div_add_l by lia. rewrite Nat.div_small by lia. lia.
  - rewrite Nat.add_comm, Nat.mod_add by lia. now apply Nat.mod_small.
Qed.

Lemma fit_tree prev cn e g pick mln df cov src out ce n_ce w nf p :
  sane e -> takes_largest pick -> 1 <= g_min_samples_leaf g -> (forall m, mln = Some m -> 1 <= m) ->
  fit prev cn e g pick mln df cov src out ce n_ce w nf = Ok p ->
  let d := seen_data mln (pt_data out ce w) in
  let n := length (pt_v p) in
  kept_samples d n <> [] ->
  n_ce = n /\ pt_out p = out /\
  forall x, exists j, tree_apply (b_nodes (pt_tree p)) x = Ok j /\
    let s := samples_at (b_nodes (pt_tree p)) (pX (pt_v p)) j (kept_samples d n) in
    tree_predict (fun _ => 0%R) (pt_tree p) x = Ok (wmean d s) /\ s <> [].
Proof.
  intros He Hp Hm HM E d n Hk. unfold pt_fit in E. destruct (pt_covariates cols prev df cov src) as [[c v] t] eqn:Ec.
  destruct (n_ce =? length v) eqn:En; cbn [negb] in E; [|discriminate].
  destruct (pt_build _ _ _ _ _ _ _ _ _) as [b|] eqn:Eb; [|discriminate]. cbn [bind] in E. injection E as <-.
  cbn [pt_v pt_out pt_tree] in *. apply Nat.eqb_eq in En. split; [auto|]. split; [auto|]. intros x.
  set (d0 := pt_data out ce w) in *. unfold pt_build in Eb.
  assert (G : forall C (cr : crit C (nat -> R)) sp, computes d0 (weighted_n d0 n) cr sp -> cs_value sp = wmean d0 -> mln = None ->
     grow cr e g (pX v) d0 n nf = Ok b ->
     exists j, tree_apply (b_nodes b) x = Ok j /\
     let s := samples_at (b_nodes b) (pX v) j (kept_samples d n) in tree_predict (fun _ => 0%R) b x = Ok (wmean d s) /\ s <> []).
  { intros C cr sp Hc Hv Hn Eg. subst mln. cbn [seen_data] in d. subst d.
    destruct (@C91_predict _ _ cr sp e g (pX v) d0 n nf b (fun _ => 0%R) Hc He Hm Hk Eg x) as (j & nd & A1 & _ & _ & A2 & _ & _ & A3 & _).
    exists j. split; [auto|]. cbv zeta. rewrite <- Hv. auto. }
  assert (G' : forall C (mk : data -> crit C (nat -> R)) sp m, let u := without_weights d0 in
     computes u (weighted_n u n) (mk u) sp -> cs_value sp = wmean u -> mln = Some m ->
     bf_grow mk e g pick m (pX v) d0 n nf = Ok b ->
     exists j, tree_apply (b_nodes b) x = Ok j /\
     let s := samples_at (b_nodes b) (pX v) j (kept_samples d n) in tree_predict (fun _ => 0%R) b x = Ok (wmean d s) /\ s <> []).
  { intros C mk sp m u Hc Hv Hn Eg. subst mln. cbn [seen_data] in d. subst d.
    assert (Hn1 : 1 <= n). { rewrite kept_unweighted in Hk. destruct n; [cbn in Hk; congruence|lia]. }
    destruct (@C97_predict _ _ mk sp e g pick m (pX v) d0 n nf b (fun _ => 0%R) Hc He Hp Hm Hn1 (HM m eq_refl) Eg x)
      as (j & nd & A1 & _ & _ & A2 & _ & _ & A3 & _).
    exists j. split; [auto|]. cbv zeta. rewrite kept_unweighted. fold u. rewrite <- Hv. auto. }
  destruct mln as [m|]; destruct cn.
  - eapply G'; [| |reflexivity|exact Eb]; [constructor; constructor|reflexivity].
  - eapply G'; [| |reflexivity|exact Eb]; [constructor; constructor|reflexivity].
  - eapply G'; [| |reflexivity|exact Eb]; [apply co_preg1|reflexivity].
  - eapply G; [| |reflexivity|exact Eb]; [constructor; constructor|reflexivity].
  - eapply G; [| |reflexivity|exact Eb]; [constructor; constructor|reflexivity].
  - eapply G; [| |reflexivity|exact Eb]; [apply co_preg1|reflexivity].
Qed.

(* ------------------------------------------------------------------------------------------------ *)
(** ** C100: the predicted treatment is the best of the leaf *)

(** weight of row i as the builder sees it, and the total effect of a list of rows under one treatment *)
Definition weight_of (mln : option nat) (w : option (nat -> R)) (i : nat) : R :=
  match mln, w with None, Some f => f i | _, _ => 1%R end.
Definition total (mln : option nat) (w : option (nat -> R)) (ce : nat -> nat -> R) (s : list nat) (k : nat) : R :=
  Rsum (map (fun i => (weight_of mln w i * ce i k)%R) s).
(** the training rows that count: those without weight zero *)
Definition counted (mln : option nat) (w : option (nat -> R)) (n : nat) : list nat :=
  filter (fun i => if Req_EM_T (weight_of mln w i) 0 then false else true) (seq 0 n).

Lemma counted_kept mln w out ce n : kept_samples (seen_data mln (pt_data out ce w)) n = counted mln w n.
Proof.
  unfold kept_samples, counted. apply filter_ext_in. intros i _. unfold weight_of. destruct mln, w; cbn [seen_data without_weights pt_data d_w]; auto;
    destruct (Req_EM_T 1 0); auto; lra.
Qed.
Lemma weight_wt mln w out ce i : wt (seen_data mln (pt_data out ce w)) i = weight_of mln w i.
Proof. unfold wt, weight_of. destruct mln, w; reflexivity. Qed.
Lemma total_wy mln w out ce s k : k < out -> wy_sum (seen_data mln (pt_data out ce w)) s k = total mln w ce s k.
Proof.
  intros Hk. unfold wy_sum, total. f_equal. apply map_ext. intros i. rewrite weight_wt. f_equal.
  rewrite <- (@pt_y out ce w i k Hk). unfold y_at. destruct mln; reflexivity.
Qed.

(** For every row of the query, predict_ind names a treatment whose total (weighted) effect on the training rows of the
    same leaf is the largest; the first one if there are several. *)
Theorem C100_best_treatment prev e g pick mln df cov src out ce n_ce w nf p q :
  sane e -> takes_largest pick -> 1 <= g_min_samples_leaf g -> (forall m, mln = Some m -> 1 <= m) ->
  fit prev PolicyReg e g pick mln df cov src out ce n_ce w nf = Ok p ->
  (forall i, i < length (pt_v p) -> (0 <= weight_of mln w i)%R) -> counted mln w (length (pt_v p)) <> [] -> 2 <= out ->
  exists l, predict_ind cols f32 PolicyReg p q = Ok l /\ length l = length (pt_features cols f32 p q) /\
  forall i k, nth_error l i = Some k -> k < out /\
    exists x j, nth_error (pt_features cols f32 p q) i = Some x /\ tree_apply (b_nodes (pt_tree p)) x = Ok j /\
    let s := samples_at (b_nodes (pt_tree p)) (pX (pt_v p)) j (counted mln w (length (pt_v p))) in
    s <> [] /\
    (forall k', k' < out -> (total mln w ce s k' <= total mln w ce s k)%R) /\
    (forall k', k' < k -> (total mln w ce s k' < total mln w ce s k)%R).
Proof.
  intros He Hp Hm HM E Hw Hk Ho. set (n := length (pt_v p)) in *.
  pose proof (@fit_tree prev PolicyReg e g pick mln df cov src out ce n_ce w nf p He Hp Hm HM E) as F. cbv zeta in F. fold n in F.
  rewrite counted_kept in F. destruct (F Hk) as (_ & Eo & T). clear F. set (d := seen_data mln (pt_data out ce w)) in *.
  set (b := pt_tree p) in *. set (rows := pt_features cols f32 p q).
  destruct (@tree_predicts_ok b rows) as (vs & Ev & Lv & Hv).
  { intros x. destruct (T x) as (j & _ & A & _). eauto. }
  unfold predict_ind, pt_prepare. fold rows. fold b. rewrite Ev. cbn [bind]. rewrite Eo.
  destruct (Nat.eqb_spec out 1); [lia|]. cbn [bind argmax1].
  destruct (existsb _ _) eqn:Ex.
  { exfalso. apply existsb_exists in Ex. destruct Ex as (r & Hr & Er). apply in_map_iff in Hr. destruct Hr as (v & <- & _).
    destruct out as [|o]; [lia|]. discriminate. }
  eexists. split; [reflexivity|]. rewrite !map_length. split; [auto|]. intros i k Hi.
  rewrite map_map in Hi. rewrite nth_error_map in Hi. destruct (nth_error vs i) as [v|] eqn:Ei; [|discriminate]. cbn in Hi. injection Hi as <-.
  destruct (Hv i v Ei) as (x & Hx & Px). destruct (T x) as (j & Aj & Bj & Cj).
  rewrite Px in Bj. injection Bj as ->.
  set (s := samples_at (b_nodes b) (pX (pt_v p)) j (counted mln w n)) in *.
  assert (Lm : length (map (wmean d s) (seq 0 out)) = out) by now rewrite map_length, seq_length.
  assert (Nm : forall k, k < out -> nth k (map (wmean d s) (seq 0 out)) 0%R = wmean d s k).
  { intros k Hk'. rewrite nth_indep with (d' := wmean d s 0) by lia. rewrite map_nth. now rewrite seq_nth. }
  destruct (@argmax_spec (map (wmean d s) (seq 0 out))) as (M1 & M2 & M3); [destruct out; [lia|discriminate]|].
  rewrite Lm in *. set (m := argmax (map (wmean d s) (seq 0 out))) in *. split; [auto|].
  exists x, j. split; [auto|]. split; [auto|]. cbv zeta. split; [auto|].
  assert (Ws : (0 < w_sum d s)%R).
  { apply w_sum_pos; auto. intros i' Hi'. unfold s, samples_at in Hi'. apply filter_In in Hi'. destruct Hi' as [Hi' _].
    unfold counted in Hi'. apply filter_In in Hi'. destruct Hi' as [H1 H2]. apply in_seq in H1. unfold d. rewrite weight_wt.
    specialize (Hw i' ltac:(lia)). destruct (Req_EM_T _ _); [discriminate|]. lra. }
  assert (Wm : forall k, k < out -> wmean d s k = (total mln w ce s k / w_sum d s)%R).
  { intros k Hk'. unfold wmean. unfold d at 1. now rewrite total_wy. }
  split.
  - intros k' Hk'. specialize (M2 k' Hk'). rewrite !Nm, !Wm in M2 by lia.
    apply Rmult_le_reg_r with (/ w_sum d s)%R; [now apply Rinv_0_lt_compat|exact M2].
  - intros k' Hk'. specialize (M3 k' Hk'). rewrite !Nm, !Wm in M3 by lia.
    apply Rmult_lt_reg_r with (/ w_sum d s)%R; [now apply Rinv_0_lt_compat|exact M3].
Qed.

(** The documented criterion S = sum_i g_ik y_ik: on the training rows, the predicted policy has at least the total effect
    of every policy that depends on the leaf only; in particular of giving everybody the same treatment. *)
Theorem C100_policy_value prev e g pick mln df cov src out ce n_ce w nf p :
  sane e -> takes_largest pick -> 1 <= g_min_samples_leaf g -> (forall m, mln = Some m -> 1 <= m) ->
  fit prev PolicyReg e g pick mln df cov src out ce n_ce w nf = Ok p ->
  (forall i, i < length (pt_v p) -> (0 <= weight_of mln w i)%R) -> counted mln w (length (pt_v p)) <> [] -> 2 <= out ->
  exists l, predict_ind cols f32 PolicyReg p None = Ok l /\ length l = length (pt_v p) /\
  forall pi : nat -> nat, (forall j, pi j < out) ->
    let leaf i := match tree_apply (b_nodes (pt_tree p)) (pX (pt_v p) i) with Ok j => j | Err _ => 0 end in
    (Rsum (map (fun i => weight_of mln w i * ce i (pi (leaf i))) (counted mln w (length (pt_v p)))) <=
     Rsum (map (fun i => weight_of mln w i * ce i (nth i l 0%nat)) (counted mln w (length (pt_v p)))))%R.
Proof.
  intros He Hp Hm HM E Hw Hk Ho.
  destruct (@C100_best_treatment prev e g pick mln df cov src out ce n_ce w nf p None He Hp Hm HM E Hw Hk Ho) as (l & El & Ll & Hl).
  exists l. split; [auto|]. assert (Lf : length (pt_features cols f32 p None) = length (pt_v p)) by (unfold pt_features; now rewrite map_length).
  split; [congruence|]. intros pi Hpi leaf. set (n := length (pt_v p)) in *. set (s := counted mln w n) in *.
  assert (Fx : forall i x, nth_error (pt_features cols f32 p None) i = Some x -> x = pX (pt_v p) i).
  { intros i x Hx. unfold pt_features in Hx. rewrite nth_error_map in Hx. destruct (nth_error (pt_v p) i) as [r|] eqn:Er; [|discriminate].
    cbn in Hx. injection Hx as <-. unfold pt_X. now rewrite (nth_error_nth _ _ (fun _ => 0%R) Er). }
  assert (Is : forall i, In i s -> i < n) by (intros i Hi; apply filter_In in Hi; destruct Hi as [Hi _]; apply in_seq in Hi; lia).
  assert (Li : forall i, i < n -> exists k, nth_error l i = Some k /\ nth i l 0 = k /\ k < out /\
            let sj := samples_at (b_nodes (pt_tree p)) (pX (pt_v p)) (leaf i) s in
            (forall k', k' < out -> (total mln w ce sj k' <= total mln w ce sj k)%R) /\
            (forall k', k' < k -> (total mln w ce sj k' < total mln w ce sj k)%R) /\
            tree_apply (b_nodes (pt_tree p)) (pX (pt_v p) i) = Ok (leaf i)).
  { intros i Hi. destruct (nth_error l i) as [k|] eqn:Ek; [|apply nth_error_None in Ek; lia].
    destruct (Hl i k Ek) as (A1 & x & j & A2 & A3 & _ & A4 & A5). apply Fx in A2. subst x.
    assert (leaf i = j) as Lj by (unfold leaf; now rewrite A3).
    exists k. split; [auto|]. split; [now apply nth_error_nth|]. split; [auto|]. cbv zeta. rewrite Lj. auto. }
  apply (@sum_by_group leaf). intros j.
  assert (Fj : filter (fun i => leaf i =? j) s = samples_at (b_nodes (pt_tree p)) (pX (pt_v p)) j s).
  { unfold samples_at. apply filter_ext_in. intros i Hi. destruct (Li i (Is i Hi)) as (k & _ & _ & _ & _ & _ & A). now rewrite A. }
  set (sj := filter (fun i => leaf i =? j) s) in *.
  assert (Ij : forall i, In i sj -> In i s /\ leaf i = j) by (intros i Hi; apply filter_In in Hi; destruct Hi as [A B]; apply Nat.eqb_eq in B; auto).
  destruct sj as [|i0 s'] eqn:Es0; [cbn; lra|]. rewrite <- Es0 in *.
  destruct (Ij i0) as [I0 J0]; [rewrite Es0; now left|].
  destruct (Li i0 (Is i0 I0)) as (k0 & _ & _ & K0 & A & B & _). rewrite J0 in A, B. rewrite <- Fj in A, B.
  assert (Eq : map (fun i => (weight_of mln w i * ce i (nth i l 0%nat))%R) sj = map (fun i => (weight_of mln w i * ce i k0)%R) sj).
  { apply map_ext_in. intros i Hi. destruct (Ij i Hi) as [I1 J1]. destruct (Li i (Is i I1)) as (k & _ & -> & K & A' & B' & _).
    rewrite J1 in A', B'. rewrite <- Fj in A', B'. do 2 f_equal.
    destruct (Nat.lt_trichotomy k k0) as [Q|[Q|Q]]; [|auto|].
    - specialize (B k Q). specialize (A' k0 K0). lra.
    - specialize (B' k0 Q). specialize (A k K). lra. }
  assert (Eq' : map (fun i => (weight_of mln w i * ce i (pi (leaf i)))%R) sj = map (fun i => (weight_of mln w i * ce i (pi j))%R) sj).
  { apply map_ext_in. intros i Hi. destruct (Ij i Hi) as [I1 J1]. now rewrite J1. }
  rewrite Eq, Eq'. apply (A (pi j) (Hpi j)).
Qed.

(* ------------------------------------------------------------------------------------------------ *)
(** ** C101: predict_opt_effect *)

(** predict_opt_effect returns, for every row, the mean effects of all the treatments in the leaf, not the value of the
    best one... *)
Theorem C101_opt_effect_refuted prev e g pick mln df cov src out ce n_ce w nf p q :
  sane e -> takes_largest pick -> 1 <= g_min_samples_leaf g -> (forall m, mln = Some m -> 1 <= m) ->
  fit prev PolicyReg e g pick mln df cov src out ce n_ce w nf = Ok p ->
  counted mln w (length (pt_v p)) <> [] -> 2 <= out ->
  exists rows, predict_opt_effect cols f32 PolicyReg p q = Ok (Mat rows) /\ length rows = length (pt_features cols f32 p q) /\
   forall r, In r rows -> length r = out.
Proof.
  intros He Hp Hm HM E Hk Ho. set (n := length (pt_v p)) in *.
  pose proof (@fit_tree prev PolicyReg e g pick mln df cov src out ce n_ce w nf p He Hp Hm HM E) as F. cbv zeta in F. fold n in F.
  rewrite counted_kept in F. destruct (F Hk) as (_ & Eo & T). clear F.
  destruct (@tree_predicts_ok (pt_tree p) (pt_features cols f32 p q)) as (vs & Ev & Lv & Hv).
  { intros x. destruct (T x) as (j & _ & A & _). eauto. }
  unfold predict_opt_effect, pt_prepare. rewrite Ev. cbn [bind]. rewrite Eo. destruct (Nat.eqb_spec out 1); [lia|].
  eexists. split; [reflexivity|]. rewrite map_length. split; [auto|].
  intros r Hr. apply in_map_iff in Hr. destruct Hr as (v & <- & _). now rewrite map_length, seq_length.
Qed.

(** ... its entry at the index given by predict_ind is the largest of the row, and is the weighted mean effect of that
    treatment on the training rows of the leaf. *)
Theorem C101_opt_effect_partial prev e g pick mln df cov src out ce n_ce w nf p q :
  sane e -> takes_largest pick -> 1 <= g_min_samples_leaf g -> (forall m, mln = Some m -> 1 <= m) ->
  fit prev PolicyReg e g pick mln df cov src out ce n_ce w nf = Ok p ->
  counted mln w (length (pt_v p)) <> [] -> 2 <= out ->
  exists rows l, predict_opt_effect cols f32 PolicyReg p q = Ok (Mat rows) /\ predict_ind cols f32 PolicyReg p q = Ok l /\
   forall i r k, nth_error rows i = Some r -> nth_error l i = Some k ->
      (forall k', k' < out -> (nth k' r 0 <= nth k r 0)%R) /\
     exists x j, nth_error (pt_features cols f32 p q) i = Some x /\ tree_apply (b_nodes (pt_tree p)) x = Ok j /\
     let s := samples_at (b_nodes (pt_tree p)) (pX (pt_v p)) j (counted mln w (length (pt_v p))) in
      nth k r 0%R = (total mln w ce s k / Rsum (map (weight_of mln w) s))%R.
Proof.
  intros He Hp Hm HM E Hk Ho. set (n := length (pt_v p)) in *.
  pose proof (@fit_tree prev PolicyReg e g pick mln df cov src out ce n_ce w nf p He Hp Hm HM E) as F. cbv zeta in F. fold n in F.
  rewrite counted_kept in F. destruct (F Hk) as (_ & Eo & T). clear F. set (d := seen_data mln (pt_data out ce w)) in *.
  destruct (@tree_predicts_ok (pt_tree p) (pt_features cols f32 p q)) as (vs & Ev & Lv & Hv).
  { intros x. destruct (T x) as (j & _ & A & _). eauto. }
  unfold predict_opt_effect, predict_ind, pt_prepare. rewrite Ev. cbn [bind]. rewrite Eo. destruct (Nat.eqb_spec out 1); [lia|]. cbn [bind argmax1].
  destruct (existsb _ _) eqn:Ex.
  { exfalso. apply existsb_exists in Ex. destruct Ex as (r & Hr & Er). apply in_map_iff in Hr. destruct Hr as (v & <- & _).
    destruct out as [|o]; [lia|]. discriminate. }
  eexists _, _. split; [reflexivity|]. split; [reflexivity|]. intros i r k Hr Hl.
  rewrite nth_error_map in Hl. rewrite Hr in Hl. cbn in Hl. injection Hl as <-.
  rewrite nth_error_map in Hr. destruct (nth_error vs i) as [v|] eqn:Ei; [|discriminate]. cbn in Hr. injection Hr as <-.
  destruct (Hv i v Ei) as (x & Hx & Px). destruct (T x) as (j & Aj & Bj & Cj). rewrite Px in Bj. injection Bj as ->.
  set (s := samples_at (b_nodes (pt_tree p)) (pX (pt_v p)) j (counted mln w n)) in *.
  assert (Lm : length (map (wmean d s) (seq 0 out)) = out) by now rewrite map_length, seq_length.
  destruct (@argmax_spec (map (wmean d s) (seq 0 out))) as (M1 & M2 & M3); [destruct out; [lia|discriminate]|]. rewrite Lm in *.
  split; [auto|]. exists x, j. split; [auto|]. split; [auto|]. cbv zeta. fold s.
  rewrite nth_indep with (d' := wmean d s 0) by lia. rewrite map_nth, seq_nth by auto. cbn [plus]. unfold wmean.
  unfold d at 1. rewrite total_wy by auto. f_equal. f_equal. unfold w_sum. f_equal. apply map_ext. intros i'. apply weight_wt.
Qed.

(* ------------------------------------------------------------------------------------------------ *)
(** ** C102: which fitted policy trees can predict *)

Lemma prepare_ok prev cn e g pick mln df cov src out ce n_ce w nf p q :
  sane e -> takes_largest pick -> 1 <= g_min_samples_leaf g -> (forall m, mln = Some m -> 1 <= m) ->
  fit prev cn e g pick mln df cov src out ce n_ce w nf = Ok p -> counted mln w (length (pt_v p)) <> [] ->
  exists vs, tree_predicts (pt_tree p) (pt_features cols f32 p q) = Ok vs /\ pt_out p = out.
Proof.
  intros He Hp Hm HM E Hk.
  pose proof (@fit_tree prev cn e g pick mln df cov src out ce n_ce w nf p He Hp Hm HM E) as F. cbv zeta in F.
  rewrite counted_kept in F. destruct (F Hk) as (_ & Eo & T).
  destruct (@tree_predicts_ok (pt_tree p) (pt_features cols f32 p q)) as (vs & Ev & _); [|eauto].
  intros x. destruct (T x) as (j & _ & A & _). eauto.
Qed.

(** Effects of a single treatment: fit succeeds, predict_ind always raises. *)
Theorem C102_single_treatment_refuted prev cn e g pick mln df cov src ce n_ce w nf p q :
  sane e -> takes_largest pick -> 1 <= g_min_samples_leaf g -> (forall m, mln = Some m -> 1 <= m) ->
  fit prev cn e g pick mln df cov src 1 ce n_ce w nf = Ok p -> counted mln w (length (pt_v p)) <> [] ->
  predict_ind cols f32 cn p q = Err ValueError.
Proof.
  intros He Hp Hm HM E Hk. destruct (@prepare_ok prev cn e g pick mln df cov src 1 ce n_ce w nf p q He Hp Hm HM E Hk) as (vs & Ev & Eo).
  unfold predict_ind, pt_prepare. rewrite Ev. cbn [bind]. rewrite Eo. destruct cn; reflexivity.
Qed.

(** The criteria policy_test and policy_test1 are accepted by fit, and then neither prediction works. *)
Theorem C102_criterion_refuted prev cn e g pick mln df cov src out ce n_ce w nf p q :
  sane e -> takes_largest pick -> 1 <= g_min_samples_leaf g -> (forall m, mln = Some m -> 1 <= m) ->
  fit prev cn e g pick mln df cov src out ce n_ce w nf = Ok p -> counted mln w (length (pt_v p)) <> [] ->
  cn <> PolicyReg -> predict_ind cols f32 cn p q = Err ValueError /\ predict_opt_effect cols f32 cn p q = Err ValueError.
Proof.
  intros He Hp Hm HM E Hk Hc. destruct (@prepare_ok prev cn e g pick mln df cov src out ce n_ce w nf p q He Hp Hm HM E Hk) as (vs & Ev & Eo).
  unfold predict_ind, predict_opt_effect, pt_prepare. rewrite Ev. cbn [bind]. destruct cn; [congruence|split; reflexivity|split; reflexivity].
Qed.

(** fit succeeds whenever the lengths agree, some row counts and min_samples_leaf, max_leaf_nodes are positive. *)
Theorem C102_fit_succeeds prev cn e g pick mln df cov src out ce n_ce w nf :
  sane e -> takes_largest pick -> 1 <= g_min_samples_leaf g -> (forall m, mln = Some m -> 1 <= m) ->
  let n := length (snd (fst (pt_covariates cols prev df cov src))) in
  counted mln w n <> [] ->
  match fit prev cn e g pick mln df cov src out ce n_ce w nf with
  | Ok p => n_ce = n /\ pt_out p = out /\ length (pt_v p) = n
  | Err x => n_ce <> n /\ x = ValueError
  end.
Proof.
  intros He Hp Hm HM n Hk. unfold pt_fit. destruct (pt_covariates cols prev df cov src) as [[c v] t]. cbn [fst snd] in n.
  fold n. destruct (Nat.eqb_spec n_ce n) as [En|En]; cbn [negb]; [|auto].
  rewrite <- (@counted_kept mln w out ce n) in Hk. set (d0 := pt_data out ce w) in *.
  assert (G : exists b, pt_build cn e g pick mln (pX v) d0 n nf = Ok b).
  { unfold pt_build. destruct mln as [m|]; cbn [seen_data] in Hk.
    - assert (Hn1 : 1 <= n) by (rewrite kept_unweighted in Hk; destruct n; [cbn in Hk; congruence|lia]). specialize (HM m eq_refl).
      destruct cn.
      + destruct (@C97_max_leaf_nodes _ _ preg_crit _ e g pick m (pX v) d0 n nf (co_ranking (rk_preg _ _)) He Hp Hm Hn1 HM) as (b & E & _). eauto.
      + destruct (@C97_max_leaf_nodes _ _ mse_crit _ e g pick m (pX v) d0 n nf (co_ranking (rk_mse _ _)) He Hp Hm Hn1 HM) as (b & E & _). eauto.
      + destruct (@C97_max_leaf_nodes _ _ preg1_crit _ e g pick m (pX v) d0 n nf (co_preg1 _ _) He Hp Hm Hn1 HM) as (b & E & _). eauto.
    - destruct cn.
      + destruct (@C91_builds _ _ (preg_crit d0) _ e g (pX v) d0 n nf (co_ranking (rk_preg _ _)) He Hm Hk) as (b & E & _). eauto.
      + destruct (@C91_builds _ _ (mse_crit d0) _ e g (pX v) d0 n nf (co_ranking (rk_mse _ _)) He Hm Hk) as (b & E & _). eauto.
      + destruct (@C91_builds _ _ (preg1_crit d0) _ e g (pX v) d0 n nf (co_preg1 _ _) He Hm Hk) as (b & E & _). eauto. }
  destruct G as (b & ->). cbn [bind pt_out pt_v]. auto.
Qed.

(* ------------------------------------------------------------------------------------------------ *)
(** ** C103: predicting on the training data *)

(** no stale transformer: a fit with an estimator model's transformer, or no such fit before *)
Definition fresh (prev : option (policy Names)) (src : source Names) : Prop :=
  match src with
  | FromModel _ (Some _) => True
  | _ => match prev with None => True | Some p => pt_trans p = None end
  end.

Theorem C103_training_data_partial prev cn cn' e g pick mln df cov src out ce n_ce w nf p :
  fit prev cn e g pick mln df cov src out ce n_ce w nf = Ok p -> fresh prev src ->
  predict_ind cols f32 cn' p (Some df) = predict_ind cols f32 cn' p None /\
  predict_opt_effect cols f32 cn' p (Some df) = predict_opt_effect cols f32 cn' p None.
Proof.
  intros E Hf.
  assert (F : pt_features cols f32 p (Some df) = pt_features cols f32 p None).
  { unfold pt_fit in E. destruct (pt_covariates cols prev df cov src) as [[c v] t] eqn:Ec.
    destruct (negb _); [discriminate|]. destruct (pt_build _ _ _ _ _ _ _ _ _); [|discriminate]. cbn [bind] in E. injection E as <-.
    unfold pt_features. cbn [pt_trans pt_cov pt_v]. unfold pt_covariates in Ec.
    destruct src as [|c' [t'|]]; injection Ec as <- <- <-; cbn [fresh] in Hf.
    - destruct prev as [p|]; [rewrite Hf|]; reflexivity.
    - reflexivity.
    - destruct prev as [p|]; [rewrite Hf|]; reflexivity. }
  unfold predict_ind, predict_opt_effect, pt_prepare. rewrite F. auto.
Qed.

(** After a fit with an estimator model that has a transformer, a fit on given effects trains on the raw covariates but
    predicts, on the same data frame, from transformed ones. *)
Theorem C103_stale_refuted prev cn e g pick mln df cov out ce n_ce w nf p t :
  fit (Some prev) cn e g pick mln df cov Given out ce n_ce w nf = Ok p -> pt_trans prev = Some t ->
  pt_v p = cols df cov /\
  pt_features cols f32 p None = map (fun r f => f32 (r f)) (cols df cov) /\
  pt_features cols f32 p (Some df) = map (fun r f => f32 (t r f)) (cols df cov).
Proof.
  intros E Ht. unfold pt_fit in E. cbn [pt_covariates] in E. rewrite Ht in E.
  destruct (negb _); [discriminate|]. destruct (pt_build _ _ _ _ _ _ _ _ _); [|discriminate]. cbn [bind] in E. injection E as <-.
  unfold pt_features. cbn [pt_v pt_trans pt_cov]. rewrite map_map. auto.
Qed.
End Props.
Print Assumptions C100_best_treatment.
Print Assumptions C100_policy_value.
Print Assumptions C101_opt_effect_refuted.
Print Assumptions C101_opt_effect_partial.
Print Assumptions C102_single_treatment_refuted.
Print Assumptions C102_criterion_refuted.
Print Assumptions C102_fit_succeeds.
Print Assumptions C103_training_data_partial.
Print Assumptions C103_stale_refuted.

(** Four units, two treatments, one covariate: every kind of fit succeeds, so the theorems above are about something. *)
Definition frame4 (_ : unit) (_ : unit) : list (nat -> R) := map (fun i (_ : nat) => INR i) [0; 1; 2; 3].
Definition ce4 (i k : nat) : R := if Nat.eqb (i / 2) k then 1%R else 0%R.
Example C100_example cn mln w : (forall m, mln = Some m -> 1 <= m) -> (forall i, (0 < weight_of mln w i)%R) ->
  exists p, pt_fit frame4 (fun x => x) None cn env0 pol_g first_largest mln tt tt Given 2 ce4 4 w 1 = Ok p /\
    length (pt_v p) = 4 /\ counted mln w 4 <> [] /\ @fresh unit None Given.
Proof.
  intros HM Hw.
  assert (Hk : counted mln w 4 <> []).
  { unfold counted. cbn [seq filter]. destruct (Req_EM_T (weight_of mln w 0) 0) as [Q|]; [specialize (Hw 0); lra|discriminate]. }
  pose proof (@C102_fit_succeeds unit unit frame4 (fun x => x) None cn env0 pol_g first_largest mln tt tt Given 2 ce4 4 w 1
                C96_sane C98_takes_largest) as T. cbv zeta in T. specialize (T ltac:(cbn; lia) HM Hk).
  destruct (pt_fit _ _ _ _ _ _ _ _ _ _ _ _ _ _ _) as [p|x].
  - exists p. destruct T as (_ & _ & L). cbn in L. cbn [fresh]. auto.
  - exfalso. destruct T as (T & _). now apply T.
Qed.
