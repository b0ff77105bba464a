(** KFold splits the rows: every row is in exactly one test fold and in no training set of that fold; what a cross
    fitting loop stores for a row comes from the fold that tests it. *)
From Coq Require Import ZArith Reals.
From Verif Require Import Base ApiModel EstUtilsModel MetaModel MetaProofs CrossFitModel.
Local Notation length := List.length.
Local Notation concat := List.concat.

Lemma count_lt m : forall k s, list_sum (map (fun i => if i <? m then 1 else 0) (seq s k)) = Nat.min (m - s) k.
Proof.
  induction k as [|k IH]; intros s; [cbn; lia|].
  change (seq s (Datatypes.S k)) with (s :: seq (Datatypes.S s) k). cbn [map list_sum fold_right].
  specialize (IH (Datatypes.S s)). unfold list_sum in IH. rewrite IH.
  destruct (Nat.ltb_spec s m); lia.
Qed.
Lemma list_sum_plus {A} (f g : A -> nat) l : list_sum (map (fun i => f i + g i) l) = list_sum (map f l) + list_sum (map g l).
Proof. induction l as [|a l IH]; cbn in *; [auto|]. unfold list_sum in *. rewrite IH. lia. Qed.

Lemma fold_sizes_sum n k : 0 < k -> list_sum (fold_sizes n k) = n.
Proof.
  intros Hk. unfold fold_sizes. rewrite list_sum_plus.
  pose proof (count_lt (n mod k) k 0) as E. rewrite E. pose proof (Nat.mod_upper_bound n k ltac:(lia)) as B.
  rewrite Nat.sub_0_r, Nat.min_l by lia.
  assert (C : forall l : list nat, list_sum (map (fun _ => n / k) l) = length l * (n / k)).
  { induction l as [|a l IH]; cbn in *; [auto|]. unfold list_sum in *. rewrite IH. lia. }
  rewrite C, seq_length. pose proof (Nat.div_mod n k ltac:(lia)). lia.
Qed.

Lemma fold_bounds_in start sizes b : In b (fold_bounds start sizes) -> start <= fst b <= snd b /\ snd b <= start + list_sum sizes.
Proof.
  revert start. induction sizes as [|s r IH]; intros start H; cbn [fold_bounds] in H; [easy|].
  change (list_sum (s :: r)) with (s + list_sum r).
  destruct H as [<-|H]; [cbn; lia|]. apply IH in H. lia.
Qed.
Lemma fold_bounds_concat sizes : forall start,
  concat (map (fun b => seq (fst b) (snd b - fst b)) (fold_bounds start sizes)) = seq start (list_sum sizes).
Proof.
  induction sizes as [|s r IH]; intros start; cbn [fold_bounds map concat fst snd]; [reflexivity|].
  rewrite IH. change (list_sum (s :: r)) with (s + list_sum r). rewrite seq_app. f_equal. f_equal. lia.
Qed.

(** the test folds are the rows, each once *)
Lemma kfold_cover n k folds : kfold n k = Ok folds -> concat (map snd folds) = seq 0 n.
Proof.
  unfold kfold. destruct ((k <? 2) || (n <? k)) eqn:E; [easy|]. intros [= <-].
  apply orb_false_iff in E as [E1 E2]. apply Nat.ltb_ge in E1, E2.
  rewrite map_map. cbn [snd]. rewrite fold_bounds_concat, fold_sizes_sum by lia. reflexivity.
Qed.
(** the training rows of a fold are the rows it does not test, in order *)
Lemma kfold_train n k folds f : kfold n k = Ok folds -> In f folds ->
  fst f = filter (fun r => negb (mem r (snd f))) (seq 0 n).
Proof.
  unfold kfold. destruct ((k <? 2) || (n <? k)) eqn:E; [easy|]. intros [= <-] H.
  apply orb_false_iff in E as [E1 E2]. apply Nat.ltb_ge in E1, E2.
  apply in_map_iff in H as (b & <- & Hb). cbn [fst snd].
  apply fold_bounds_in in Hb as [Hb1 Hb2]. rewrite fold_sizes_sum in Hb2 by lia.
  destruct b as [lo hi]. cbn [fst snd] in *.
  replace (seq 0 n) with (seq 0 lo ++ seq lo (hi - lo) ++ seq hi (n - hi)).
  2:{ replace hi with (lo + (hi - lo)) at 2 by lia. rewrite <- seq_app. replace lo with (0 + lo) at 2 by lia. rewrite <- seq_app. f_equal. lia. }
  rewrite !filter_app.
  assert (K : forall s m, (forall r, s <= r < s + m -> ~ (lo <= r < hi)) ->
     filter (fun r => negb (mem r (seq lo (hi - lo)))) (seq s m) = seq s m).
  { intros s m. revert s. induction m as [|m IH]; intros s Hd; cbn [seq filter]; auto.
    destruct (mem s (seq lo (hi - lo))) eqn:Em.
    - apply mem_In, in_seq in Em. exfalso. apply (Hd s); lia.
    - cbn [negb]. f_equal. apply IH. intros r Hr. apply Hd. lia. }
  assert (D : filter (fun r => negb (mem r (seq lo (hi - lo)))) (seq lo (hi - lo)) = []).
  { assert (G : forall l, incl l (seq lo (hi - lo)) -> filter (fun r => negb (mem r (seq lo (hi - lo)))) l = []).
    { induction l as [|r l IH]; intros Hi; auto. cbn [filter].
      rewrite (proj2 (mem_In r (seq lo (hi - lo)))) by (apply Hi; now left). cbn. apply IH. intros u Hu. apply Hi. now right. }
    apply G. intros u; auto. }
  rewrite D, !K by (intros; lia). reflexivity.
Qed.

Lemma index_of_lt {A} {EA : EqDec A} (x : A) l p : index_of x l = Some p -> nth_error l p = Some x.
Proof. apply index_of_Some. Qed.

(** what a loop over folds stores *)
Lemma cross_loop {A} (step : list nat * list nat -> res (nat -> A)) folds : forall out r,
  fold_left (fun acc f => do o <- acc; do v <- step f; Ok (put_rows o (snd f) v)) folds (Ok out) = Ok r ->
  NoDup (concat (map snd folds)) ->
  exists vs, Forall2 (fun f v => step f = Ok v) folds vs /\
    (forall k f v p i, nth_error folds k = Some f -> nth_error vs k = Some v -> nth_error (snd f) p = Some i -> r i = v p) /\
    (forall i, ~ In i (concat (map snd folds)) -> r i = out i).
Proof.
  assert (E : forall folds er r, fold_left (fun acc f => do o <- acc; do v <- step f; Ok (put_rows o (snd f) v)) folds (Err er) <> Ok r).
  { induction folds0 as [|f l IH]; cbn; [easy|]. exact IH. }
  induction folds as [|f folds IH]; intros out r H ND; cbn [fold_left] in H.
  - injection H as <-. exists []. split; [constructor|]. split; auto. intros [|k]; easy.
  - cbn [bind] in H. destruct (step f) as [v|er] eqn:Ev; cbn [bind] in H; [|exfalso; exact (E _ _ _ H)].
    cbn [map concat] in ND.
    assert (ND2 : NoDup (concat (map snd folds))).
    { clear - ND. revert ND. induction (snd f) as [|a l IH]; cbn; auto. intros H. inversion H; auto. }
    assert (Dj : forall i, In i (snd f) -> ~ In i (concat (map snd folds))).
    { clear - ND. intros i Hi Hj. revert ND Hi. induction (snd f) as [|a l IH]; cbn; [easy|]. intros H Hi. inversion H; subst.
      destruct Hi as [->|Hi]; [|auto]. apply H2. apply in_or_app. now right. }
    assert (ND1 : NoDup (snd f)).
    { clear - ND. revert ND. induction (snd f) as [|a l IH]; cbn; constructor; inversion ND; subst; auto.
      intros Hi. apply H1. apply in_or_app. now left. }
    destruct (IH _ _ H ND2) as (vs & F & G1 & G2). exists (v :: vs). split; [constructor; auto|]. split.
    + intros [|k] f0 v0 p i Hf Hv Hp; cbn in Hf, Hv.
      * injection Hf as <-. injection Hv as <-. rewrite G2 by (apply Dj; exact (nth_error_In _ _ Hp)).
        unfold put_rows. rewrite (index_of_nth i (snd f) p ND1 Hp). reflexivity.
      * eapply G1; eauto.
    + intros i Hi. cbn [map concat] in Hi. rewrite G2 by (intros Hj; apply Hi; apply in_or_app; now right).
      unfold put_rows. destruct (index_of i (snd f)) as [p|] eqn:Ei; auto.
      exfalso. apply Hi. apply in_or_app. left. exact (nth_error_In _ _ (index_of_lt _ _ _ Ei)).
Qed.

(** cross fitting: for every row there are a fold and a position *)
Lemma kfold_row n k folds r : kfold n k = Ok folds -> r < n ->
  exists q f p, nth_error folds q = Some f /\ nth_error (snd f) p = Some r /\ In f folds /\
    ~ In r (fst f) /\ (forall i, In i (fst f) -> i < n) /\ NoDup (fst f).
Proof.
  intros H Hr. pose proof (kfold_cover _ _ _ H) as C.
  assert (Hin : In r (concat (map snd folds))) by (rewrite C; apply in_seq; lia).
  apply in_concat in Hin as (l & Hl & Hrl). apply in_map_iff in Hl as (f & <- & Hf).
  destruct (In_nth_error _ _ Hf) as (q & Hq). destruct (In_nth_error _ _ Hrl) as (p & Hp).
  exists q, f, p. split; auto. split; auto. split; auto.
  rewrite (kfold_train _ _ _ _ H Hf). split; [|split].
  - intros Hi. apply filter_In in Hi as [_ Hi]. rewrite (proj2 (mem_In r (snd f)) Hrl) in Hi. easy.
  - intros i Hi. apply filter_In in Hi as [Hi _]. apply in_seq in Hi. lia.
  - apply NoDup_filter, seq_NoDup.
Qed.

Lemma take_rows_length {A} (d : A) ids l : length (take_rows d ids l) = length ids.
Proof. apply map_length. Qed.
Lemma take_rows_nth {A} (d : A) ids l p i : nth_error ids p = Some i -> nth p (take_rows d ids l) d = nth i l d.
Proof.
  intros H. unfold take_rows. rewrite (nth_indep _ d (nth 0 l d)).
  - rewrite (map_nth (fun i => nth i l d)). f_equal. now apply nth_error_nth.
  - rewrite map_length. apply nth_error_Some. congruence.
Qed.
