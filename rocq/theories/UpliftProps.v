(** Properties C52-C55, C74 and C75: uplift curves and scores (ylearn/uplift/_metric.py). *)
From Coq Require Import Lra Lia Sorted.
From Verif Require Import UpliftModel.
Open Scope R_scope.
Open Scope list_scope.
Set Implicit Arguments.

(** ** Specification *)
Definition sum_over {A} (f : A -> R) (l : list A) : R := fold_right Rplus 0 (map f l).
Definition mean_over {A} (f : A -> R) (l : list A) : R := sum_over f l / INR (List.length l).
Definition at_least (s v : R) : bool := if Rle_dec s v then true else false.
(** the rows with a score of at least s *)
Definition above {V} (s : R) (rows : list (row V)) : list (row V) := filter (fun r => at_least s (score r)) rows.
Definition descending {V} (l : list (row V)) : Prop := StronglySorted (fun a b => score b <= score a) l.
Definition sorts {V} (sort : list (row V) -> list (row V)) : Prop := forall l, Permutation (sort l) l /\ descending (sort l).

(** ** Sums *)
Lemma sum_over_perm {A} (f : A -> R) l m : Permutation l m -> sum_over f l = sum_over f m.
Proof. unfold sum_over. induction 1; cbn; lra. Qed.
Lemma sum_over_app {A} (f : A -> R) l m : sum_over f (l ++ m) = sum_over f l + sum_over f m.
Proof. unfold sum_over. induction l as [|a l IH]; cbn; lra. Qed.
Lemma sum_over_ext {A} (f g : A -> R) l : (forall a, In a l -> f a = g a) -> sum_over f l = sum_over g l.
Proof. intros H. unfold sum_over. f_equal. now apply map_ext_in. Qed.
Lemma sum_filter {A} (f : A -> R) (p : A -> bool) l : sum_over (fun a => f a * ind (p a)) l = sum_over f (filter p l).
Proof. unfold sum_over. induction l as [|a l IH]; cbn; auto. destruct (p a); cbn; rewrite IH; lra. Qed.
Lemma count_filter {A} (p : A -> bool) l : sum_over (fun a => ind (p a)) l = INR (List.length (filter p l)).
Proof.
  unfold sum_over. induction l as [|a l IH]; cbn [map fold_right filter]; auto. rewrite IH. destruct (p a); cbn [ind List.length]; [rewrite S_INR|]; lra.
Qed.

(** ** Cumulated columns *)
Lemma cumsum_length l : forall a, List.length (cumsum a l) = List.length l.
Proof. induction l as [|v l IH]; intros; cbn; auto. Qed.
Lemma cumsum_at {A} (f : A -> R) (l : list A) : forall a k, (k < List.length l)%nat -> nth_error (cumsum a (map f l)) k = Some (a + sum_over f (firstn (S k) l)).
Proof.
  induction l as [|b l IH]; intros a k Hk; cbn [List.length] in Hk; [lia|]. destruct k as [|k].
  - cbn. unfold sum_over. cbn. f_equal. lra.
  - cbn [map cumsum nth_error]. rewrite IH by lia. f_equal. unfold sum_over. cbn [firstn map fold_right]. lra.
Qed.
Lemma map2_length {A B C} (f : A -> B -> C) l : forall m, List.length (map2 f l m) = Nat.min (List.length l) (List.length m).
Proof. induction l as [|a l IH]; intros [|b m]; cbn; auto. Qed.
Lemma map2_at {A B C} (f : A -> B -> C) l : forall m k a b, nth_error l k = Some a -> nth_error m k = Some b -> nth_error (map2 f l m) k = Some (f a b).
Proof. induction l as [|a0 l IH]; intros [|b0 m] [|k] a b; cbn; try discriminate; [congruence|apply IH]. Qed.
Lemma seq_at n : forall s k, (k < n)%nat -> nth_error (seq s n) k = Some (s + k)%nat.
Proof. induction n as [|n IH]; intros s [|k] H; cbn; try lia; [f_equal; lia|]. rewrite IH by lia. f_equal. lia. Qed.

Section Columns.
  Context {V : Type} {EV : EqDec V}.
  Variables treat control : V.
  Notation row := (row V).
  Notation T := (filter (is_treat treat)).
  Notation C := (filter (is_control control)).
  Notation count := (fun l : list row => INR (List.length l)).
  Lemma index_at (rows : list row) k : (k < List.length rows)%nat -> nth_error (index rows) k = Some (INR (S k)).
  Proof. intros H. unfold index. erewrite map_nth_error; [reflexivity|]. now rewrite seq_at by auto. Qed.
  Lemma x_tr_at (rows : list row) k : (k < List.length rows)%nat -> nth_error (x_tr treat rows) k = Some (count (T (firstn (S k) rows))).
  Proof. intros H. unfold x_tr. rewrite cumsum_at by auto. now rewrite count_filter, Rplus_0_l. Qed.
  Lemma x_ct_at (rows : list row) k : (k < List.length rows)%nat -> nth_error (x_ct treat rows) k = Some (INR (S k) - count (T (firstn (S k) rows))).
  Proof. intros H. unfold x_ct. apply map2_at; [now apply index_at|now apply x_tr_at]. Qed.
  Lemma y_tr_at (rows : list row) k : (k < List.length rows)%nat -> nth_error (y_tr treat rows) k = Some (sum_over (@y V) (T (firstn (S k) rows))).
  Proof. intros H. unfold y_tr. rewrite cumsum_at by auto. now rewrite (sum_filter (@y V)), Rplus_0_l. Qed.
  Lemma y_ct_at (rows : list row) k : (k < List.length rows)%nat -> nth_error (y_ct control rows) k = Some (sum_over (@y V) (C (firstn (S k) rows))).
  Proof. intros H. unfold y_ct. rewrite cumsum_at by auto. now rewrite (sum_filter (@y V)), Rplus_0_l. Qed.

  (** treatments take only the two values and these differ *)
  Definition two_valued (rows : list row) : Prop := treat <> control /\ Forall (fun r => x r = treat \/ x r = control) rows.
  Lemma split_count (p : list row) : two_valued p -> INR (List.length p) - count (T p) = count (C p).
  Proof.
    intros [N H]. induction H as [|r p Hr H IH]; [cbn; lra|]. cbn [filter]. unfold is_treat at 1, is_control at 1.
    destruct Hr as [->| ->].
    - rewrite eqb_refl. rewrite (proj2 (eqb_neq _ _) N). cbn [List.length]. rewrite !S_INR. lra.
    - rewrite eqb_refl. rewrite (proj2 (eqb_neq _ _)) by congruence. cbn [List.length]. rewrite !S_INR. lra.
  Qed.
  Lemma two_valued_firstn k (rows : list row) : two_valued rows -> two_valued (firstn k rows).
  Proof. intros [N H]. split; auto. rewrite Forall_forall in *. intros r Hr. apply H. rewrite <- (firstn_skipn k rows). apply in_app_iff. auto. Qed.

  Lemma x_ct_count (rows : list row) k : two_valued rows -> (k < List.length rows)%nat -> nth_error (x_ct treat rows) k = Some (count (C (firstn (S k) rows))).
  Proof.
    intros TV H. rewrite x_ct_at by auto. rewrite <- split_count by now apply two_valued_firstn. do 2 f_equal. rewrite firstn_length. f_equal. lia.
  Qed.
  (** the value of a curve for a group of rows; None = undefined *)
  Definition value (k : kind) (p : list row) : val :=
    let n := INR (List.length p) in
    match k with
    | LiftTreatment => if Nat.eqb (List.length (T p)) 0 || Nat.eqb (List.length (C p)) 0 then None
                       else Some (mean_over (@y V) (T p) - mean_over (@y V) (C p))
    | GainTreatment => if Nat.eqb (List.length (T p)) 0 || Nat.eqb (List.length (C p)) 0 then None
                       else Some ((mean_over (@y V) (T p) - mean_over (@y V) (C p)) * n)
    | QiniTreatment => if Nat.eqb (List.length (C p)) 0 then None
                       else Some (sum_over (@y V) (T p) - sum_over (@y V) (C p) * INR (List.length (T p)) / INR (List.length (C p)))
    | LiftEffect => Some (mean_over (@tau V) p)
    | GainEffect => Some (sum_over (@tau V) p)
    | QiniEffect => Some (mean_over (@tau V) p * INR (List.length (T p)))
    end.
  Lemma vdiv_count a (n : nat) : vdiv a (INR n) = if Nat.eqb n 0 then None else Some (a / INR n).
  Proof. unfold vdiv. destruct (Req_EM_T (INR n) 0) as [E|E]; destruct (Nat.eqb_spec n 0) as [->|N]; auto; [elim (not_0_INR n N E)|now elim E]. Qed.
  Hypothesis Htc : treat <> control.
  Lemma two_groups_spec (rows : list row) : two_groups treat control rows = true -> two_valued rows /\ T rows <> [] /\ C rows <> [].
  Proof.
    unfold two_groups. rewrite !andb_true_iff, !existsb_exists. intros [[H (a & Ha & Ta)] (b & Hb & Cb)]. repeat split; auto.
    - apply Forall_forall. intros r Hr. rewrite forallb_forall in H. specialize (H r Hr). unfold is_treat, is_control in H. rewrite orb_true_iff, !eqb_eq in H. exact H.
    - intros E. assert (X : In a (T rows)) by now apply filter_In. rewrite E in X. destruct X.
    - intros E. assert (X : In b (C rows)) by now apply filter_In. rewrite E in X. destruct X.
  Qed.
  Lemma column_at (k : kind) (rows : list row) c : cumulate_column treat control k rows = Ok c ->
    List.length c = List.length rows /\ forall i, (i < List.length rows)%nat -> nth_error c i = Some (value k (firstn (S i) rows)).
  Proof.
    intros H.
    assert (Li : List.length (index rows) = List.length rows) by (unfold index; now rewrite map_length, seq_length).
    assert (Lt : List.length (x_tr treat rows) = List.length rows) by (unfold x_tr; now rewrite cumsum_length, map_length).
    assert (Lc : List.length (x_ct treat rows) = List.length rows) by (unfold x_ct; rewrite map2_length, Li, Lt; apply Nat.min_id).
    assert (Lyt : List.length (y_tr treat rows) = List.length rows) by (unfold y_tr; now rewrite cumsum_length, map_length).
    assert (Lyc : List.length (y_ct control rows) = List.length rows) by (unfold y_ct; now rewrite cumsum_length, map_length).
    assert (Lta : List.length (cumsum 0 (map (@tau V) rows)) = List.length rows) by now rewrite cumsum_length, map_length.
    assert (Hn : forall i, (i < List.length rows)%nat -> List.length (firstn (S i) rows) = S i) by (intros; rewrite firstn_length; lia).
    assert (LL : two_valued rows -> List.length (lift_treatment treat control rows) = List.length rows /\
              forall i, (i < List.length rows)%nat -> nth_error (lift_treatment treat control rows) i = Some (value LiftTreatment (firstn (S i) rows))).
    { intros TV. split; [unfold lift_treatment; rewrite !map2_length, Lyt, Lt, Lyc, Lc; lia|]. intros i Hi.
      unfold lift_treatment. erewrite map2_at; [|eapply map2_at; [now apply y_tr_at|now apply x_tr_at]|eapply map2_at; [now apply y_ct_at|now apply x_ct_count]].
      rewrite !vdiv_count. unfold value.
      destruct (_ =? 0)%nat; [reflexivity|]. destruct (_ =? 0)%nat; reflexivity. }
    assert (LE : List.length (lift_effect rows) = List.length rows /\
              forall i, (i < List.length rows)%nat -> nth_error (lift_effect rows) i = Some (value LiftEffect (firstn (S i) rows))).
    { split; [unfold lift_effect; rewrite !map2_length, Lta, Li; lia|]. intros i Hi.
      unfold lift_effect. erewrite map2_at; [|now apply cumsum_at|now apply index_at]. rewrite vdiv_count, Rplus_0_l. unfold value, mean_over.
      now rewrite (Hn i Hi). }
    assert (LG : forall l k, (List.length l = List.length rows /\ forall i, (i < List.length rows)%nat -> nth_error l i = Some (value k (firstn (S i) rows))) ->
              List.length (gain_of l rows) = List.length rows /\ forall i, (i < List.length rows)%nat -> nth_error (gain_of l rows) i = Some (vmul (value k (firstn (S i) rows)) (INR (S i)))).
    { intros l k' [L1 L2]. split; [unfold gain_of; rewrite map2_length, L1, Li; lia|]. intros i Hi. unfold gain_of. apply map2_at; [now apply L2|now apply index_at]. }
    destruct k; cbn [cumulate_column] in H; try (destruct (two_groups treat control rows) eqn:TG; [|discriminate]; apply two_groups_spec in TG as [TV _]); injection H as <-.
    - exact (LL TV).
    - destruct (LG _ _ (LL TV)) as [L1 L2]. split; auto. intros i Hi. rewrite L2 by auto. f_equal. unfold value. rewrite (Hn i Hi). destruct (_ || _); reflexivity.
    - split; [unfold qini_treatment; rewrite !map2_length, map_length, Lyt, Lt, Lyc, Lc; lia|]. intros i Hi. unfold qini_treatment.
      erewrite map2_at; [|now apply map_nth_error, y_tr_at|eapply map2_at; [eapply map2_at; [now apply y_ct_at|now apply x_tr_at]|now apply x_ct_count]].
      rewrite vdiv_count. unfold value. destruct (_ =? 0)%nat; reflexivity.
    - exact LE.
    - destruct (LG _ _ LE) as [L1 L2]. split; auto. intros i Hi. rewrite L2 by auto. f_equal. unfold value, vmul, mean_over. rewrite (Hn i Hi). f_equal. field. apply not_0_INR. lia.
    - destruct LE as [L1 L2]. split; [unfold qini_effect; rewrite map2_length, L1, Lt; lia|]. intros i Hi. unfold qini_effect.
      erewrite map2_at; [|now apply L2|now apply x_tr_at]. reflexivity.
  Qed.
End Columns.

(** ** Interpolation *)
Lemma interp_length l : forall p, List.length (interp p l) = List.length l.
Proof. induction l as [|[v|] l IH]; intros p; cbn; auto. destruct p as [[i a]|]; cbn; auto. Qed.
Lemma interp_number l : forall p k v, nth_error l k = Some (Some v) -> nth_error (interp p l) k = Some (Some v).
Proof.
  induction l as [|[w|] l IH]; intros p [|k] v H; cbn in *; try discriminate; auto.
  destruct p as [[i a]|]; cbn; now apply IH.
Qed.
Lemma interp_total l : forall i a, Forall (fun v : val => v <> None) (interp (Some (i, a)) l).
Proof.
  induction l as [|[w|] l IH]; intros i a; cbn; constructor; auto; try discriminate. destruct (next_valid l) as [[d b]|]; discriminate.
Qed.
Lemma next_valid_gap m b r : next_valid (repeat None m ++ Some b :: r) = Some (S m, b).
Proof. induction m as [|m IH]; cbn; auto. now rewrite IH. Qed.
Lemma interp_gap b r a : forall m i k, (k < m)%nat ->
  nth_error (interp (Some (i, a)) (repeat None m ++ Some b :: r)) k = Some (Some (a + (b - a) * (INR (i + k) / INR (i + m)))).
Proof.
  induction m as [|m IH]; intros i k Hk; [lia|]. cbn [repeat app interp]. rewrite next_valid_gap. destruct k as [|k].
  - cbn [nth_error]. now rewrite Nat.add_0_r.
  - cbn [nth_error]. rewrite IH by lia. now replace (S i + k)%nat with (i + S k)%nat by lia; replace (S i + m)%nat with (i + S m)%nat by lia.
Qed.

(** ** The top of the ranking *)
Lemma above_firstn {V} s (l : list (row V)) : descending l -> above s l = firstn (List.length (above s l)) l.
Proof.
  induction 1 as [|r l H IH Hr]; auto. unfold above. cbn [filter]. destruct (at_least s (score r)) eqn:E.
  - cbn [List.length firstn]. f_equal. exact IH.
  - assert (X : filter (fun r => at_least s (score r)) l = []); [|now rewrite X].
    assert (X : forall q, In q l -> at_least s (score q) = false); [|clear - X; induction l as [|q l IH]; cbn; auto; rewrite X by (now left); apply IH; intros; apply X; now right].
    intros q Hq. rewrite Forall_forall in Hr. specialize (Hr q Hq). unfold at_least in *. destruct (Rle_dec s (score r)); [discriminate|].
    destruct (Rle_dec s (score q)); auto. lra.
Qed.
Lemma filter_perm {A} (p : A -> bool) l m : Permutation l m -> Permutation (filter p l) (filter p m).
Proof.
  induction 1; cbn; auto; [destruct (p x); auto|destruct (p x), (p y); auto; apply perm_swap|eapply perm_trans; eauto].
Qed.
Lemma above_perm {V} s (l m : list (row V)) : Permutation l m -> Permutation (above s l) (above s m).
Proof. apply filter_perm. Qed.
Lemma value_perm {V} {EV : EqDec V} treat control k (l m : list (row V)) : Permutation l m -> value treat control k l = value treat control k m.
Proof.
  intros P. pose proof (filter_perm (is_treat treat) P) as PT. pose proof (filter_perm (is_control control) P) as PC.
  unfold value, mean_over.
  rewrite (Permutation_length P), (Permutation_length PT), (Permutation_length PC), (sum_over_perm (@y V) PT), (sum_over_perm (@y V) PC), (sum_over_perm (@tau V) P).
  reflexivity.
Qed.

Lemma argmax_spec l : forall best i j v, argmax best i l = Some (j, v) ->
  (best = Some (j, v) \/ exists k, j = (i + k)%nat /\ nth_error l k = Some (Some v)) /\
  (forall j' b, best = Some (j', b) -> b <= v) /\ forall k w, nth_error l k = Some (Some w) -> w <= v.
Proof.
  induction l as [|[a|] l IH]; intros best i j v H; cbn [argmax] in H.
  - subst best. repeat split; auto; [intros j' b [= _ ->]; lra|intros [|k] w; discriminate].
  - apply IH in H as (H1 & H2 & H3). repeat split.
    + destruct H1 as [H1|(k & -> & Hk)]; [|right; exists (S k); split; [lia|exact Hk]].
      destruct best as [[j' b]|]; [destruct (Rlt_dec b a)|].
      * injection H1 as <- <-. right. exists 0%nat. split; [lia|reflexivity].
      * auto.
      * injection H1 as <- <-. right. exists 0%nat. split; [lia|reflexivity].
    + intros j' b ->. destruct (Rlt_dec b a); [pose proof (H2 i a eq_refl); lra|now apply (H2 j')].
    + intros [|k] w Hw; cbn in Hw; [|now apply (H3 k)]. injection Hw as <-. destruct best as [[j' b]|]; [destruct (Rlt_dec b a)|].
      * exact (H2 _ _ eq_refl).
      * pose proof (H2 j' b eq_refl). lra.
      * exact (H2 _ _ eq_refl).
  - apply IH in H as (H1 & H2 & H3). repeat split; auto.
    + destruct H1 as [H1|(k & -> & Hk)]; auto. right. exists (S k). split; [lia|exact Hk].
    + intros [|k] w Hw; [discriminate|now apply (H3 k)].
Qed.
Lemma argmax_some l : forall best i k v, (best <> None \/ nth_error l k = Some (Some v)) -> exists p, argmax best i l = Some p.
Proof.
  induction l as [|[a|] l IH]; intros best i k v H; cbn [argmax].
  - destruct H as [H|H]; [destruct best; [eauto|congruence]|destruct k; discriminate].
  - apply (IH _ _ k v). left. destruct best as [[j b]|]; [destruct (Rlt_dec b a)|]; discriminate.
  - destruct H as [H|H]; [apply (IH _ _ k v); auto|]. destruct k as [|k]; [discriminate|]. apply (IH _ _ k v). auto.
Qed.

Section Curves.
  Context {V : Type} {EV : EqDec V}.
  Variables treat control : V.
  Hypothesis Htc : treat <> control.
  Variable sort : list (row V) -> list (row V).
  Hypothesis Hsort : sorts sort.
  Notation cumulate := (cumulate treat control sort).
  Notation value := (value treat control).
  Notation treated := (filter (is_treat treat)).
  Notation untreated := (filter (is_control control)).

  (** the parts of a successful call *)
  Lemma cumulate_parts k rows c top : cumulate k rows = Ok (c, top) -> exists raw i v r,
    cumulate_column treat control k (sort rows) = Ok raw /\ argmax None 0 raw = Some (i, v) /\ nth_error (sort rows) i = Some r /\
    c = interp None (Some 0 :: raw) /\ top = score r.
  Proof.
    unfold UpliftModel.cumulate. destruct (cumulate_column _ _ _ _) as [raw|] eqn:E; cbn [bind]; [|discriminate].
    destruct (argmax None 0 raw) as [[i v]|] eqn:A; [|discriminate]. destruct (nth_error (sort rows) i) as [r|] eqn:N; [|discriminate].
    intros [= <- <-]. exists raw, i, v, r. auto.
  Qed.
  Lemma sort_length rows : List.length (sort rows) = List.length rows.
  Proof. apply Permutation_length, Hsort. Qed.
  Lemma curve_length k rows c top : cumulate k rows = Ok (c, top) -> List.length c = S (List.length rows).
  Proof.
    intros H. apply cumulate_parts in H as (raw & i & v & r & E & _ & _ & -> & _). rewrite interp_length. cbn [List.length].
    destruct (column_at Htc _ _ E) as [-> _]. now rewrite sort_length.
  Qed.
  Lemma curve_prefix k rows c top i v : cumulate k rows = Ok (c, top) -> (i < List.length rows)%nat ->
    value k (firstn (S i) (sort rows)) = Some v -> nth_error c (S i) = Some (Some v).
  Proof.
    intros H Hi Hv. apply cumulate_parts in H as (raw & j & w & r & E & _ & _ & -> & _).
    destruct (column_at Htc _ _ E) as [_ Hat]. cbn [interp nth_error]. apply interp_number. rewrite Hat by now rewrite sort_length. now rewrite Hv.
  Qed.
  (** the curve starts at 0 *)
  Theorem C52_start k rows c top : cumulate k rows = Ok (c, top) -> nth_error c 0 = Some (Some 0).
  Proof. intros H. apply cumulate_parts in H as (raw & j & w & r & _ & _ & _ & -> & _). reflexivity. Qed.
  (** for every cut-off s: the point of the curve at the number of rows above s is the value of these rows *)
  Lemma curve_cut k rows c top s v : cumulate k rows = Ok (c, top) -> above s rows <> [] -> value k (above s rows) = Some v ->
    nth_error c (List.length (above s rows)) = Some (Some v).
  Proof.
    intros H Hn Hv. destruct (Hsort rows) as [P D]. pose proof (above_perm s P) as PA. pose proof (above_firstn s D) as F.
    rewrite (Permutation_length PA) in F.
    destruct (List.length (above s rows)) as [|n] eqn:L; [destruct (above s rows); [congruence|discriminate]|].
    eapply curve_prefix; [exact H| |].
    - assert (List.length (above s rows) <= List.length rows)%nat by apply filter_length_le. lia.
    - rewrite <- F, (value_perm treat control k PA). exact Hv.
  Qed.
  (** ** C52 *)
  Theorem C52_lift rows c top s : cumulate LiftEffect rows = Ok (c, top) -> above s rows <> [] ->
    nth_error c (List.length (above s rows)) = Some (Some (mean_over (@tau V) (above s rows))).
  Proof. intros H Hn. now apply (@curve_cut _ _ _ _ s _ H). Qed.
  Theorem C52_gain rows c top s : cumulate GainEffect rows = Ok (c, top) ->
    nth_error c (List.length (above s rows)) = Some (Some (sum_over (@tau V) (above s rows))).
  Proof.
    intros H. destruct (above s rows) as [|r l] eqn:E; [apply (@C52_start _ _ _ _ H)|]. rewrite <- E. apply (@curve_cut _ _ _ _ s _ H); [rewrite E; discriminate|reflexivity].
  Qed.
  (** the same at every position of the ranking, ties included *)
  Theorem C52_gain_rank rows c top n : cumulate GainEffect rows = Ok (c, top) -> (n <= List.length rows)%nat ->
    nth_error c n = Some (Some (sum_over (@tau V) (firstn n (sort rows)))).
  Proof. intros H Hn. destruct n as [|n]; [apply (@C52_start _ _ _ _ H)|]. eapply curve_prefix; [exact H|lia|reflexivity]. Qed.
  (** ** C75: the end of the curve is the value of all rows, whatever the scores *)
  Theorem C75_end k rows c top v : cumulate k rows = Ok (c, top) -> value k rows = Some v -> last_cell c = Some v.
  Proof.
    intros H Hv. pose proof (@curve_length _ _ _ _ H) as L. destruct rows as [|r0 rows].
    - exfalso. apply cumulate_parts in H as (raw & i & w & r & _ & _ & N & _). pose proof (sort_length []) as L0. cbn in L0.
      destruct (sort []); [|discriminate]. destruct i; discriminate.
    - destruct (Hsort (r0 :: rows)) as [P _].
      assert (X : nth_error c (List.length (r0 :: rows)) = Some (Some v)).
      { cbn [List.length] in *. eapply curve_prefix; [exact H|cbn; lia|].
        rewrite firstn_all2 by (rewrite sort_length; cbn; lia). now rewrite (value_perm treat control k P). }
      unfold last_cell. rewrite <- (@nth_error_nth _ c (List.length (r0 :: rows)) _ None X).
      clear - L. revert L. generalize (List.length (r0 :: rows)). intros n L. revert n L.
      induction c as [|a c IH]; intros n L; [discriminate|]. destruct c as [|b c]; cbn [List.length] in L.
      + replace n with 0%nat by lia. reflexivity.
      + destruct n as [|n]; [lia|]. cbn [List.last nth]. apply IH. cbn [List.length]. lia.
  Qed.
  Lemma value_all k rows raw : cumulate_column treat control k (sort rows) = Ok raw -> exists v, value k rows = Some v.
  Proof.
    intros H. destruct (Hsort rows) as [P _]. rewrite <- (value_perm treat control k P).
    assert (G : two_groups treat control (sort rows) = true -> (List.length (treated (sort rows)) =? 0)%nat = false /\ (List.length (untreated (sort rows)) =? 0)%nat = false).
    { intros TG. apply (two_groups_spec Htc) in TG as (_ & A & B). split; apply Nat.eqb_neq; intros E; apply length_zero_iff_nil in E; auto. }
    destruct k; cbn [cumulate_column] in H; try (destruct (two_groups treat control (sort rows)) eqn:TG; [|discriminate]; destruct (G eq_refl) as [E1 E2]);
      cbn [UpliftProps.value]; rewrite ?E1, ?E2; cbn [orb]; eexists; reflexivity.
  Qed.
  Corollary C75_same_end k rows col1 col2 c1 t1 c2 t2 : List.length col1 = List.length rows -> List.length col2 = List.length rows ->
    cumulate k (rescored rows col1) = Ok (c1, t1) -> cumulate k (rescored rows col2) = Ok (c2, t2) ->
    last_cell c1 = last_cell c2 /\ last_cell c1 <> None.
  Proof.
    intros L1 L2 H1 H2.
    assert (VE : value k (rescored rows col1) = value k (rescored rows col2)).
    { assert (X : forall col, List.length col = List.length rows -> exists f, rescored rows col = map2 (fun r s => Row s (x r) (y r) (tau r)) rows col /\ f = 0) by (intros; eexists; split; reflexivity).
      clear X H1 H2. unfold UpliftProps.value, mean_over.
      assert (F : forall (p : row V -> bool), (forall r s s', p (Row s (x r) (y r) (tau r)) = p (Row s' (x r) (y r) (tau r))) ->
                List.length (filter p (rescored rows col1)) = List.length (filter p (rescored rows col2)) /\
                sum_over (@y V) (filter p (rescored rows col1)) = sum_over (@y V) (filter p (rescored rows col2))).
      { intros p Hp. revert col1 col2 L1 L2. unfold rescored, sum_over. induction rows as [|r rows' IH]; intros [|a col1] [|b col2] L1 L2; try discriminate; auto.
        cbn [map2 filter]. rewrite (Hp r a b). cbn in L1, L2. destruct (IH col1 col2) as [I1 I2]; [lia|lia|].
        destruct (p _); cbn [map fold_right List.length]; [rewrite I1, I2; auto|auto]. }
      assert (FT : List.length (rescored rows col1) = List.length (rescored rows col2) /\ sum_over (@tau V) (rescored rows col1) = sum_over (@tau V) (rescored rows col2)).
      { clear F. revert col1 col2 L1 L2. unfold rescored, sum_over. induction rows as [|r rows' IH]; intros [|a col1] [|b col2] L1 L2; try discriminate; auto.
        cbn in L1, L2. destruct (IH col1 col2) as [I1 I2]; [lia|lia|]. cbn [map2 map fold_right List.length]. rewrite I1, I2. auto. }
      destruct FT as [F1 F2]. destruct (F (is_treat treat)) as [T1 T2]; [reflexivity|]. destruct (F (is_control control)) as [U1 U2]; [reflexivity|].
      rewrite F1, F2, T1, T2, U1, U2. reflexivity. }
    destruct (cumulate_parts _ _ H1) as (raw & _ & _ & _ & E & _). destruct (value_all _ _ E) as [v Hv].
    rewrite (@C75_end _ _ _ _ _ H1 Hv). rewrite (@C75_end _ _ _ _ v H2) by congruence. split; [auto|discriminate].
  Qed.
  (** ** C53 *)
  Theorem C53_lift rows c top s : cumulate LiftTreatment rows = Ok (c, top) -> treated (above s rows) <> [] -> untreated (above s rows) <> [] ->
    nth_error c (List.length (above s rows)) = Some (Some (mean_over (@y V) (treated (above s rows)) - mean_over (@y V) (untreated (above s rows)))).
  Proof.
    intros H HT HC. apply (@curve_cut _ _ _ _ s _ H); [intros E; rewrite E in HT; now apply HT|]. cbn [UpliftProps.value].
    destruct (treated (above s rows)); [congruence|]. destruct (untreated (above s rows)); [congruence|]. reflexivity.
  Qed.
  Theorem C53_gain rows c top s : cumulate GainTreatment rows = Ok (c, top) -> treated (above s rows) <> [] -> untreated (above s rows) <> [] ->
    nth_error c (List.length (above s rows)) =
    Some (Some ((mean_over (@y V) (treated (above s rows)) - mean_over (@y V) (untreated (above s rows))) * INR (List.length (above s rows)))).
  Proof.
    intros H HT HC. apply (@curve_cut _ _ _ _ s _ H); [intros E; rewrite E in HT; now apply HT|]. cbn [UpliftProps.value].
    destruct (treated (above s rows)); [congruence|]. destruct (untreated (above s rows)); [congruence|]. reflexivity.
  Qed.
  Theorem C53_qini rows c top s : cumulate QiniTreatment rows = Ok (c, top) -> untreated (above s rows) <> [] ->
    nth_error c (List.length (above s rows)) =
    Some (Some (sum_over (@y V) (treated (above s rows)) -
                sum_over (@y V) (untreated (above s rows)) * INR (List.length (treated (above s rows))) / INR (List.length (untreated (above s rows))))).
  Proof.
    intros H HC. apply (@curve_cut _ _ _ _ s _ H); [intros E; rewrite E in HC; now apply HC|]. cbn [UpliftProps.value].
    destruct (untreated (above s rows)); [congruence|]. reflexivity.
  Qed.
  Theorem C53_qini_effect rows c top s : cumulate QiniEffect rows = Ok (c, top) -> above s rows <> [] ->
    nth_error c (List.length (above s rows)) = Some (Some (mean_over (@tau V) (above s rows) * INR (List.length (treated (above s rows))))).
  Proof. intros H HC. now apply (@curve_cut _ _ _ _ s _ H). Qed.
  (** where a group is missing (only at the beginning of the ranking) the curve is the straight line from 0 *)
  Theorem C53_line k rows c top m b j : cumulate k rows = Ok (c, top) -> (m < List.length rows)%nat ->
    (forall i, (1 <= i <= m)%nat -> value k (firstn i (sort rows)) = None) -> value k (firstn (S m) (sort rows)) = Some b -> (j <= S m)%nat ->
    nth_error c j = Some (Some (b * (INR j / INR (S m)))).
  Proof.
    intros H Hm HN Hb Hj. destruct (Nat.eq_dec j (S m)) as [->|N].
    { rewrite (@curve_prefix _ _ _ _ _ _ H Hm Hb). do 2 f_equal. field. apply not_0_INR. lia. }
    destruct j as [|j]; [rewrite (@C52_start _ _ _ _ H); do 2 f_equal; cbn [INR]; unfold Rdiv; ring|].
    apply cumulate_parts in H as (raw & i & v & r & E & _ & _ & -> & _). destruct (column_at Htc _ _ E) as [L Hat]. rewrite sort_length in *.
    assert (R : exists rest, raw = repeat None m ++ Some b :: rest).
    { exists (skipn (S m) raw). assert (A : raw = firstn m raw ++ Some b :: skipn (S m) raw).
      { rewrite <- (firstn_skipn m raw) at 1. f_equal. pose proof (Hat m Hm) as X. rewrite Hb in X. clear - X. revert m X. induction raw as [|a raw IH]; intros [|m] X; cbn in *; try discriminate; [now injection X as ->|now apply IH]. }
      rewrite A at 1. f_equal.
      assert (B : forall i, (i < m)%nat -> nth_error raw i = Some None) by (intros q Hq; rewrite Hat by lia; f_equal; apply HN; lia).
      clear - B. revert raw B. induction m as [|m IH]; intros raw B; auto. destruct raw as [|a raw]; [specialize (B 0%nat ltac:(lia)); discriminate|].
      cbn [firstn repeat]. f_equal; [specialize (B 0%nat ltac:(lia)); now injection B as ->|]. apply IH. intros q Hq. apply (B (S q)). lia. }
    destruct R as [rest ->]. cbn [interp nth_error]. rewrite interp_gap by lia. do 2 f_equal. replace (1 + j)%nat with (S j) by lia. replace (1 + m)%nat with (S m) by lia. ring.
  Qed.
  Theorem C53_no_nan k rows c top : cumulate k rows = Ok (c, top) -> Forall (fun v : val => v <> None) c.
  Proof. intros H. apply cumulate_parts in H as (raw & i & v & r & _ & _ & _ & -> & _). cbn [interp]. constructor; [discriminate|apply interp_total]. Qed.
  Theorem C53_succeeds k rows : (k = LiftEffect \/ k = GainEffect) /\ rows <> [] \/ two_groups treat control rows = true ->
    exists c top, cumulate k rows = Ok (c, top).
  Proof.
    intros H. destruct (Hsort rows) as [P _].
    assert (E : exists raw, cumulate_column treat control k (sort rows) = Ok raw).
    { destruct H as [[[->| ->] _]|H]; cbn [cumulate_column]; eauto.
      assert (G : two_groups treat control (sort rows) = true).
      { unfold two_groups in *. rewrite !andb_true_iff in *. destruct H as [[A B] C]. repeat split.
        - rewrite forallb_forall in *. intros r Hr. apply A. eapply Permutation_in; eauto.
        - rewrite existsb_exists in *. destruct B as (r & Hr & B). exists r. split; auto. apply (Permutation_in _ (Permutation_sym P) Hr).
        - rewrite existsb_exists in *. destruct C as (r & Hr & C). exists r. split; auto. apply (Permutation_in _ (Permutation_sym P) Hr). }
      destruct k; cbn [cumulate_column]; rewrite ?G; eauto. }
    destruct E as [raw E]. destruct (column_at Htc _ _ E) as [L Hat]. destruct (value_all _ _ E) as [v Hv].
    assert (N : rows <> []).
    { destruct H as [[_ H]|H]; auto. intros ->. discriminate. }
    destruct (List.length rows) as [|n] eqn:Ln; [destruct rows; [congruence|discriminate]|]. rewrite sort_length, Ln in *.
    specialize (Hat n (Nat.lt_succ_diag_r n)). rewrite firstn_all2 in Hat by (rewrite sort_length, Ln; lia).
    rewrite (value_perm treat control k P), Hv in Hat.
    destruct (@argmax_some raw None 0%nat n v) as [[i w] Ha]; [auto|].
    unfold UpliftModel.cumulate. rewrite E. cbn [bind]. rewrite Ha.
    apply argmax_spec in Ha as ([Ha|(q & Hq & Ha)] & _); [discriminate|]. cbn in Hq. subst q.
    destruct (nth_error (sort rows) i) as [r|] eqn:Er; eauto. exfalso. apply nth_error_None in Er. rewrite sort_length, Ln in Er.
    assert (i < List.length raw)%nat by (apply nth_error_Some; congruence). lia.
  Qed.
  (** ** C76: the top point is the best cut-off *)
  Theorem C76_top_point k rows c top : cumulate k rows = Ok (c, top) -> NoDup (map (@score V) rows) ->
    In top (map (@score V) rows) /\
    exists best, value k (above top rows) = Some best /\ forall s v, above s rows <> [] -> value k (above s rows) = Some v -> v <= best.
  Proof.
    intros H ND. destruct (Hsort rows) as [P D].
    apply cumulate_parts in H as (raw & i & v & r & E & A & N & _ & ->). destruct (column_at Htc _ _ E) as [L Hat].
    apply argmax_spec in A as ([A|(q & Hq & A)] & _ & Hmax); [discriminate|]. cbn in Hq. subst q. split.
    { apply in_map. apply (Permutation_in _ P). now apply nth_error_In in N. }
    assert (Hi : (i < List.length (sort rows))%nat) by (apply nth_error_Some; congruence).
    assert (NDs : NoDup (map (@score V) (sort rows))) by (apply (Permutation_NoDup (Permutation_map _ (Permutation_sym P)) ND)).
    assert (AF : above (score r) (sort rows) = firstn (S i) (sort rows)).
    { clear - D N NDs. revert i N. induction D as [|a l D IH Ha]; intros i N; [destruct i; discriminate|]. cbn [map] in NDs. inversion NDs as [|? ? Hna ND']; subst.
      unfold above in *. cbn [filter]. destruct i as [|i]; cbn [nth_error] in N.
      - injection N as ->. cbn [firstn]. unfold at_least at 1. destruct (Rle_dec (score r) (score r)); [|lra]. f_equal.
        assert (X : forall q, In q l -> at_least (score r) (score q) = false).
        { intros q Hq. rewrite Forall_forall in Ha. specialize (Ha q Hq). unfold at_least. destruct (Rle_dec (score r) (score q)); auto.
          elim Hna. apply in_map_iff. exists q. split; auto. lra. }
        clear - X. induction l as [|q l IH]; cbn; auto. rewrite X by now left. apply IH. intros; apply X; now right.
      - rewrite Forall_forall in Ha. pose proof (Ha r (nth_error_In _ _ N)). unfold at_least at 1. destruct (Rle_dec (score r) (score a)); [|lra].
        change (firstn (S (S i)) (a :: l)) with (a :: firstn (S i) l). f_equal. now apply IH. }
    rewrite Hat in A by auto. injection A as A. exists v. split.
    - rewrite <- (value_perm treat control k (above_perm (score r) P)), AF. exact A.
    - intros s w Hn Hw. pose proof (above_firstn s D) as F. rewrite <- (value_perm treat control k (above_perm s P)) in Hw.
      destruct (List.length (above s (sort rows))) as [|n] eqn:Ln.
      { apply length_zero_iff_nil in Ln. elim Hn. apply Permutation_nil. rewrite <- Ln. apply above_perm. auto. }
      assert (List.length (above s (sort rows)) <= List.length (sort rows))%nat by apply filter_length_le.
      apply (Hmax n). rewrite Hat by lia. rewrite <- F. now rewrite Hw.
  Qed.
End Curves.

(** ** C54 *)
Section Rescale.
  Context {V : Type} {EV : EqDec V}.
  Variables treat control : V.
  Variable f : R -> R.
  Hypothesis Hf : forall a b, a < b -> f a < f b.
  Definition rescale (r : row V) : row V := Row (f (score r)) (x r) (y r) (tau r).
  Definition distinct_scores (rows : list (row V)) : Prop := NoDup (map (@score V) rows).

  Lemma sorted_unique (l : list (row V)) : forall m, descending l -> descending m -> Permutation l m -> distinct_scores l -> l = m.
  Proof.
    induction l as [|a l IH]; intros m Dl Dm P ND; [apply Permutation_nil in P; now subst|].
    destruct m as [|b m]; [apply Permutation_sym, Permutation_nil in P; discriminate|].
    inversion Dl as [|? ? Dl' Ha]; subst. inversion Dm as [|? ? Dm' Hb]; subst. unfold distinct_scores in ND. cbn [map] in ND. inversion ND as [|? ? Hn ND']; subst.
    assert (E : a = b).
    { assert (B : In b (a :: l)) by (apply (Permutation_in _ (Permutation_sym P)); now left). destruct B as [B|B]; auto.
      assert (A : In a (b :: m)) by (apply (Permutation_in _ P); now left). destruct A as [A|A]; auto.
      rewrite Forall_forall in Ha, Hb. pose proof (Ha b B). pose proof (Hb a A). elim Hn. apply in_map_iff. exists b. split; auto. lra. }
    subst b. f_equal. apply IH; auto. now apply Permutation_cons_inv in P.
  Qed.
  Lemma column_rescale k l : cumulate_column treat control k (map rescale l) = cumulate_column treat control k l.
  Proof.
    assert (I : index (map rescale l) = index l) by (unfold index; now rewrite map_length).
    assert (X : x_tr treat (map rescale l) = x_tr treat l) by (unfold x_tr; now rewrite map_map).
    assert (YT : y_tr treat (map rescale l) = y_tr treat l) by (unfold y_tr; now rewrite map_map).
    assert (YC : y_ct control (map rescale l) = y_ct control l) by (unfold y_ct; now rewrite map_map).
    assert (XC : x_ct treat (map rescale l) = x_ct treat l) by (unfold x_ct; now rewrite I, X).
    assert (TA : map (@tau V) (map rescale l) = map (@tau V) l) by now rewrite map_map.
    assert (TG : two_groups treat control (map rescale l) = two_groups treat control l).
    { unfold two_groups. clear. f_equal; [f_equal|]; induction l as [|r l IH]; cbn; auto; now rewrite IH. }
    destruct k; cbn [cumulate_column]; unfold gain_of, lift_treatment, qini_treatment, qini_effect, lift_effect; rewrite ?TG, ?YT, ?YC, ?XC, ?X, ?TA, ?I; reflexivity.
  Qed.
  (** The curve is unchanged, the top point moves with the scores, also when the two calls sort differently. *)
  Theorem C54_curves sort sort' k rows : sorts sort -> sorts sort' -> distinct_scores rows ->
    cumulate treat control sort' k (map rescale rows) =
    match cumulate treat control sort k rows with Ok (c, top) => Ok (c, f top) | Err e => Err e end.
  Proof.
    intros Hs Hs' ND. destruct (Hs rows) as [P D]. destruct (Hs' (map rescale rows)) as [P' D'].
    assert (E : sort' (map rescale rows) = map rescale (sort rows)).
    { symmetry. apply sorted_unique; auto.
      - unfold descending in *. clear - D Hf. induction D as [|a l D IH Ha]; cbn; constructor; auto. rewrite Forall_forall in *. intros b Hb.
        apply in_map_iff in Hb as (q & <- & Hq). specialize (Ha q Hq). cbn. destruct Ha as [Ha|Ha]; [apply Hf in Ha; lra|rewrite Ha; lra].
      - rewrite P'. now apply Permutation_map.
      - unfold distinct_scores in *. rewrite map_map. cbn [score rescale].
        assert (N : NoDup (map (@score V) (sort rows))) by (apply (Permutation_NoDup (Permutation_map _ (Permutation_sym P)) ND)).
        rewrite <- (map_map (@score V) f). apply FinFun.Injective_map_NoDup; auto.
        intros a b Hab. destruct (Rtotal_order a b) as [L|[L|L]]; auto; apply Hf in L; lra. }
    unfold cumulate. rewrite E, column_rescale. destruct (cumulate_column _ _ _ _) as [c|e]; cbn [bind]; auto.
    destruct (argmax None 0 c) as [[i v]|]; auto. rewrite nth_error_map. destruct (nth_error (sort rows) i); reflexivity.
  Qed.
  Lemma curve_rescale sort k b rows : sorts sort -> distinct_scores rows ->
    get_curve treat control sort k b (map rescale rows) =
    match get_curve treat control sort k b rows with Ok (c, top) => Ok (c, f top) | Err e => Err e end.
  Proof.
    intros Hs ND. unfold get_curve. rewrite (@C54_curves sort sort k rows Hs Hs ND).
    destruct (cumulate _ _ _ _ rows) as [[c t]|]; reflexivity.
  Qed.
  Theorem C54_auuc sort effect b rows : sorts sort -> distinct_scores rows ->
    auuc_score treat control sort effect b (map rescale rows) = auuc_score treat control sort effect b rows.
  Proof.
    intros Hs ND. unfold auuc_score. rewrite curve_rescale by auto. destruct (get_curve _ _ _ _ _ _) as [[c t]|]; reflexivity.
  Qed.
  Lemma rescored_rescale rows c : rescored (map rescale rows) c = rescored rows c.
  Proof. unfold rescored. revert c. induction rows as [|r rows IH]; intros [|s c]; cbn; auto. f_equal. apply IH. Qed.
  Theorem C54_qini sort effect b rows rnd : sorts sort -> distinct_scores rows ->
    qini_score treat control sort effect b (map rescale rows) rnd = qini_score treat control sort effect b rows rnd.
  Proof.
    intros Hs ND. unfold qini_score. rewrite curve_rescale by auto.
    assert (E : forall k, get_random_curve treat control sort k b (map rescale rows) rnd = get_random_curve treat control sort k b rows rnd).
    { intros k. unfold get_random_curve, random_curve. rewrite map_length. do 2 f_equal.
      induction rnd as [|c r IH]; auto. cbn [curves]. rewrite rescored_rescale, IH. reflexivity. }
    rewrite E. destruct (get_curve _ _ _ _ _ _) as [[c t]|]; reflexivity.
  Qed.
End Rescale.

(** ** C55 *)
Lemma last_map {A B} (f : A -> B) l d d' : l <> [] -> List.last (map f l) d = f (List.last l d').
Proof. induction l as [|a [|b l] IH]; intros H; auto; [congruence|]. cbn [map] in *. cbn [List.last] in *. apply IH. discriminate. Qed.
Theorem C55_ends (c : list val) b : last_cell c = Some b -> b <> 0 ->
  last_cell (normalized c) = Some 1 /\ 0 < b \/ last_cell (normalized c) = Some (-1) /\ b < 0.
Proof.
  intros H Hb.
  assert (N : c <> []) by (intros ->; discriminate).
  assert (X : last_cell (normalized c) = vdiv b (Rabs b)).
  { unfold normalized. rewrite H. unfold last_cell at 1. rewrite (last_map _ _ None N).
    change (match last_cell c with Some a => vdiv a (Rabs b) | None => None end = vdiv b (Rabs b)). now rewrite H. }
  rewrite X. unfold vdiv. destruct (Req_EM_T (Rabs b) 0) as [E|E]; [elim Hb; destruct (Rabs_no_R0 b Hb E)|].
  unfold Rabs in *. destruct (Rcase_abs b); [right|left]; split; try lra; f_equal; field; lra.
Qed.
Section C55.
  Context {V : Type} {EV : EqDec V}.
  Variables treat control : V.
  Hypothesis Htc : treat <> control.
  Variable sort : list (row V) -> list (row V).
  Hypothesis Hsort : sorts sort.
  Lemma all_numbers (c : list val) : Forall (fun v : val => v <> None) c -> exists vs : list R, c = map Some vs.
  Proof.
    induction 1 as [|v c Hv H [vs ->]]; [now exists []|]. destruct v as [a|]; [|congruence]. now exists (a :: vs).
  Qed.
  Lemma vsum_map (vs : list R) : vsum (map Some vs) = sum_over (fun v => v) vs.
  Proof. unfold vsum, sum_over. induction vs as [|v vs IH]; cbn; auto. now rewrite IH. Qed.
  (** auuc is the mean of the n + 1 values of the (normalised) gain curve *)
  Theorem C55_auuc (effect : bool) rows c top : cumulate treat control sort (if effect then GainEffect else GainTreatment) rows = Ok (c, top) ->
    exists vs, c = map Some vs /\ List.length vs = S (List.length rows) /\
      auuc_score treat control sort effect false rows = Ok (Some (mean_over (fun v => v) vs)) /\
      (forall b, last_cell c = Some b -> b <> 0 -> auuc_score treat control sort effect true rows = Ok (Some (mean_over (fun v => v / Rabs b) vs))).
  Proof.
    intros H. destruct (all_numbers (@C53_no_nan _ _ _ _ _ _ _ _ _ H)) as [vs E]. pose proof (curve_length Htc Hsort _ _ H) as L. exists vs.
    assert (Lv : List.length vs = S (List.length rows)) by (rewrite <- L, E; now rewrite map_length). split; auto. split; auto.
    assert (A : forall ws, List.length ws = S (List.length rows) -> auuc_of (map Some ws) = Some (mean_over (fun v => v) ws)).
    { intros ws Lw. unfold auuc_of, vdiv, mean_over. rewrite vsum_map, map_length. destruct (Req_EM_T (INR (List.length ws)) 0) as [Z|]; auto.
      exfalso. apply (not_0_INR (List.length ws)); auto. lia. }
    unfold auuc_score, get_curve. rewrite H. cbn [bind fst snd]. split.
    - rewrite E. now rewrite A.
    - intros b Hb Nb. do 2 f_equal.
      assert (X : normalized c = map Some (map (fun v => v / Rabs b) vs)).
      { unfold normalized. rewrite Hb, E, !map_map. apply map_ext. intros a. unfold vdiv. destruct (Req_EM_T (Rabs b) 0) as [Z|]; auto. elim (Rabs_no_R0 b Nb Z). }
      rewrite X, A by now rewrite map_length. unfold mean_over. rewrite map_length. do 2 f_equal. unfold sum_over. now rewrite map_map.
  Qed.
End C55.

(** ** C74: ranking by the true effect is optimal *)
Lemma best_prefix (l : list R) : StronglySorted (fun a b => b <= a) l -> forall m rest, Permutation (m ++ rest) l ->
  sum_over (fun v => v) m <= sum_over (fun v => v) (firstn (List.length m) l).
Proof.
  induction 1 as [|a l D IH Ha]; intros m rest P.
  - apply Permutation_sym, Permutation_nil in P. destruct m; [cbn; lra|discriminate].
  - destruct m as [|b m]; [cbn; lra|]. assert (Hin : In a ((b :: m) ++ rest)) by (apply (Permutation_in _ (Permutation_sym P)); now left).
    cbn [List.length firstn]. rewrite in_app_iff in Hin. destruct Hin as [Hin|Hin].
    + apply in_split in Hin as (m1 & m2 & E). rewrite E in *.
      assert (P' : Permutation ((m1 ++ m2) ++ rest) l).
      { apply (Permutation_cons_inv (a := a)). rewrite <- P. rewrite <- !app_assoc. cbn [app]. apply Permutation_middle. }
      specialize (IH _ _ P'). assert (L : List.length m = List.length (m1 ++ m2)).
      { apply (f_equal (@List.length R)) in E. rewrite app_length in *. cbn [List.length] in E. lia. }
      rewrite L. rewrite (sum_over_perm (fun v => v) (Permutation_sym (Permutation_middle m1 m2 a))). unfold sum_over in *. cbn [map fold_right]. lra.
    + apply in_split in Hin as (r1 & r2 & ->).
      assert (P' : Permutation (m ++ (b :: r1 ++ r2)) l).
      { apply (Permutation_cons_inv (a := a)). rewrite <- P. rewrite <- Permutation_middle. cbn [app]. rewrite perm_swap. apply perm_skip.
        rewrite !app_assoc. apply Permutation_middle. }
      specialize (IH _ _ P'). assert (Hb : b <= a).
      { assert (X : In b (a :: l)) by (apply (Permutation_in _ P); now left). destruct X as [->|X]; [lra|]. rewrite Forall_forall in Ha. auto. }
      unfold sum_over in *. cbn [map fold_right]. lra.
Qed.
Section C74.
  Context {V : Type} {EV : EqDec V}.
  Variables treat control : V.
  Hypothesis Htc : treat <> control.
  Variable sort : list (row V) -> list (row V).
  Hypothesis Hsort : sorts sort.
  Notation cum := (cumulate treat control sort GainEffect).
  Lemma tau_rescored rows col : List.length col = List.length rows -> map (@tau V) (rescored rows col) = map (@tau V) rows.
  Proof. unfold rescored. revert col. induction rows as [|r rows IH]; intros [|s col] L; cbn in *; try discriminate; auto. f_equal. apply IH. lia. Qed.
  (** [best]: the scores rank like the true effect (for example they are the true effect) *)
  Theorem C74_gain rows best col cb tb c t n : List.length best = List.length rows -> List.length col = List.length rows ->
    (forall r r', In r (rescored rows best) -> In r' (rescored rows best) -> score r <= score r' -> tau r <= tau r') ->
    cum (rescored rows best) = Ok (cb, tb) -> cum (rescored rows col) = Ok (c, t) ->
    (n <= List.length rows)%nat -> exists v w, nth_error c n = Some (Some v) /\ nth_error cb n = Some (Some w) /\ v <= w.
  Proof.
    intros Lb Lc Hb Hcb Hc Hn.
    assert (L1 : List.length (rescored rows best) = List.length rows) by (unfold rescored; rewrite map2_length; lia).
    assert (L2 : List.length (rescored rows col) = List.length rows) by (unfold rescored; rewrite map2_length; lia).
    rewrite (@C52_gain_rank _ _ _ _ Htc _ Hsort _ _ _ n Hc) by lia. rewrite (@C52_gain_rank _ _ _ _ Htc _ Hsort _ _ _ n Hcb) by lia.
    do 2 eexists. split; [reflexivity|]. split; [reflexivity|].
    destruct (Hsort (rescored rows best)) as [P D]. destruct (Hsort (rescored rows col)) as [P' _].
    set (l := map (@tau V) (sort (rescored rows best))). set (m := map (@tau V) (sort (rescored rows col))).
    assert (E1 : sum_over (@tau V) (firstn n (sort (rescored rows col))) = sum_over (fun v => v) (firstn n m)) by (unfold sum_over, m; now rewrite map_id, firstn_map).
    assert (E2 : sum_over (@tau V) (firstn n (sort (rescored rows best))) = sum_over (fun v => v) (firstn n l)) by (unfold sum_over, l; now rewrite map_id, firstn_map).
    rewrite E1, E2.
    assert (Ln : List.length (firstn n m) = n).
    { rewrite firstn_length. unfold m. rewrite map_length, (Permutation_length P'), L2. lia. }
    rewrite <- Ln at 2. apply (@best_prefix l) with (rest := skipn n m).
    - unfold l. assert (Hin : forall r, In r (sort (rescored rows best)) -> In r (rescored rows best)) by (intros r; apply (Permutation_in _ P)).
      clear - D Hb Hin. induction D as [|a q D IH Ha]; cbn; constructor; [apply IH; intros; apply Hin; now right|].
      rewrite Forall_forall in *. intros v Hv. apply in_map_iff in Hv as (r & <- & Hr). apply Hb; [apply Hin; now right|apply Hin; now left|now apply Ha].
    - rewrite firstn_skipn. unfold m, l. rewrite (Permutation_map _ P'), (Permutation_map _ P). rewrite !tau_rescored by auto. auto.
  Qed.
  Lemma sum_le (f : R -> R) (c d : list R) : (forall a b, a <= b -> f a <= f b) -> List.length c = List.length d ->
    (forall n, (n < List.length c)%nat -> exists v w, nth_error c n = Some v /\ nth_error d n = Some w /\ v <= w) -> sum_over f c <= sum_over f d.
  Proof.
    intros Hf. revert d. induction c as [|a c IH]; intros [|b d] L H; try discriminate; [lra|]. unfold sum_over in *. cbn [map fold_right].
    destruct (H 0%nat ltac:(cbn; lia)) as (v & w & [= ->] & [= ->] & Hvw). apply Hf in Hvw.
    assert (fold_right Rplus 0 (map f c) <= fold_right Rplus 0 (map f d)); [|lra]. apply IH; [cbn in L; lia|].
    intros n Hn. apply (H (S n)). cbn. lia.
  Qed.
  Theorem C74_auuc rows best col a b a' b' : rows <> [] -> List.length best = List.length rows -> List.length col = List.length rows ->
    (forall r r', In r (rescored rows best) -> In r' (rescored rows best) -> score r <= score r' -> tau r <= tau r') ->
    auuc_score treat control sort true false (rescored rows col) = Ok (Some a) -> auuc_score treat control sort true false (rescored rows best) = Ok (Some b) ->
    a <= b /\
    (auuc_score treat control sort true true (rescored rows col) = Ok (Some a') -> auuc_score treat control sort true true (rescored rows best) = Ok (Some b') ->
     sum_over (@tau V) rows <> 0 -> a' <= b').
  Proof.
    intros Hne Lb Lc Hb Ha Hbb.
    assert (L1 : List.length (rescored rows best) = List.length rows) by (unfold rescored; rewrite map2_length; lia).
    assert (L2 : List.length (rescored rows col) = List.length rows) by (unfold rescored; rewrite map2_length; lia).
    assert (G : forall q, List.length q = List.length rows -> exists c t, cum (rescored rows q) = Ok (c, t)).
    { intros q Lq. apply (@C53_succeeds _ _ _ _ Htc _ Hsort). left. split; auto. intros E. apply (f_equal (@List.length _)) in E. unfold rescored in E. rewrite map2_length, Lq, Nat.min_id in E. apply length_zero_iff_nil in E. congruence. }
    destruct (G col Lc) as (c & t & Hc). destruct (G best Lb) as (cb & tb & Hcb).
    destruct (@C55_auuc _ _ _ _ Htc _ Hsort true _ _ _ Hc) as (vs & Ec & Lv & A1 & A2). destruct (@C55_auuc _ _ _ _ Htc _ Hsort true _ _ _ Hcb) as (ws & Eb & Lw & B1 & B2).
    rewrite L2 in Lv. rewrite L1 in Lw.
    assert (S : forall f, (forall a b, a <= b -> f a <= f b) -> mean_over f vs <= mean_over f ws).
    { intros f Hf. unfold mean_over. rewrite Lv, Lw. apply Rmult_le_compat_r.
      - left. apply Rinv_0_lt_compat, lt_0_INR. lia.
      - apply sum_le; auto; [congruence|]. intros n Hn. destruct (@C74_gain rows best col cb tb c t n) as (v & w & Hv & Hw & Hvw); auto; [lia|].
        exists v, w. rewrite Ec in Hv. rewrite Eb in Hw. rewrite nth_error_map in Hv, Hw.
        destruct (nth_error vs n); [|discriminate]. destruct (nth_error ws n); [|discriminate]. injection Hv as ->. injection Hw as ->. auto. }
    split.
    - rewrite A1 in Ha. rewrite B1 in Hbb. injection Ha as <-. injection Hbb as <-. now apply S.
    - intros Ha' Hb' Hs.
      assert (E : forall q cq tq, List.length q = List.length rows -> cum (rescored rows q) = Ok (cq, tq) -> last_cell cq = Some (sum_over (@tau V) rows)).
      { intros q cq tq Lq Hq. apply (@C75_end _ _ _ _ Htc _ Hsort _ _ _ _ _ Hq). cbn [value]. f_equal. unfold sum_over. now rewrite tau_rescored. }
      rewrite (A2 _ (E _ _ _ Lc Hc) Hs) in Ha'. rewrite (B2 _ (E _ _ _ Lb Hcb) Hs) in Hb'. injection Ha' as <-. injection Hb' as <-.
      apply S. intros u w Huw. apply Rmult_le_compat_r; auto. left. apply Rinv_0_lt_compat. now apply Rabs_pos_lt.
  Qed.
End C74.

(** ** C75: the RANDOM column ends where every other column ends *)
Section C75.
  Context {V : Type} {EV : EqDec V}.
  Variables treat control : V.
  Hypothesis Htc : treat <> control.
  Variable sort : list (row V) -> list (row V).
  Hypothesis Hsort : sorts sort.
  Lemma vmean_same (l : list val) b : l <> [] -> Forall (fun v => v = Some b) l -> vmean l = Some b.
  Proof.
    intros N H. unfold vmean.
    assert (E : filter (fun v : val => match v with Some _ => true | None => false end) l = l /\ vsum l = b * INR (List.length l)).
    { clear N. induction H as [|v l -> H [I1 I2]]; [cbn; split; [auto|ring]|]. cbn [filter vsum fold_right List.length]. fold (vsum l). rewrite I1, I2, S_INR. split; [auto|ring]. }
    destruct E as [-> ->]. unfold vdiv. destruct (Req_EM_T (INR (List.length l)) 0) as [E|E].
    - exfalso. apply (not_0_INR (List.length l)); auto. destruct l; [congruence|discriminate].
    - f_equal. field. auto.
  Qed.
  Theorem C75_random k rows rnd col c top q : rnd <> [] -> Forall (fun r => List.length r = List.length rows) rnd -> List.length col = List.length rows ->
    cumulate treat control sort k (rescored rows col) = Ok (c, top) -> random_curve treat control sort k rows rnd = Ok q -> last_cell q = last_cell c.
  Proof.
    intros Nr Lr Lc Hc Hq. unfold random_curve in Hq.
    destruct (curves treat control sort k rows rnd) as [cs|] eqn:G; cbn [bind] in Hq; [|discriminate].
    assert (Hq' : q = map (fun i => vmean (map (fun c => nth i c None) cs)) (seq 0 (S (List.length rows)))) by congruence. subst q. clear Hq.
    assert (Hcs : cs <> [] /\ Forall (fun d => List.length d = S (List.length rows) /\ last_cell d = last_cell c) cs).
    { assert (X : forall l ds, Forall (fun r => List.length r = List.length rows) l -> curves treat control sort k rows l = Ok ds -> (l <> [] -> ds <> []) /\ Forall (fun d => List.length d = S (List.length rows) /\ last_cell d = last_cell c) ds).
      { induction l as [|r l IH]; intros ds HL Hd; cbn [curves] in Hd; [injection Hd as <-; split; [congruence|constructor]|].
        inversion HL; subst. destruct (cumulate treat control sort k (rescored rows r)) as [[d t]|] eqn:E; cbn [bind] in Hd; [|discriminate].
        destruct (curves _ _ _ _ _ l) as [ds'|] eqn:E'; cbn [bind] in Hd; [|discriminate].
        injection Hd as <-. split; [intros _; discriminate|]. constructor; [|now apply IH].
        cbn [fst]. split.
        - rewrite (@curve_length _ _ _ _ Htc _ Hsort _ _ _ _ E). unfold rescored. rewrite map2_length. f_equal. lia.
        - destruct (@C75_same_end _ _ _ _ Htc _ Hsort k rows r col d t c top) as [X _]; auto. }
      destruct (X rnd cs Lr G). auto. }
    destruct Hcs as [Nc Hcs].
    destruct (@C75_same_end _ _ _ _ Htc _ Hsort k rows col col c top c top) as [_ HN]; auto. destruct (last_cell c) as [b|] eqn:Eb; [|congruence].
    unfold last_cell at 1. rewrite (last_map _ _ 0%nat) by discriminate.
    assert (Ls : forall n s, List.last (seq s (S n)) 0%nat = (s + n)%nat).
    { induction n as [|n IH]; intros s; [cbn; lia|]. change (seq s (S (S n))) with (s :: seq (S s) (S n)). rewrite <- Nat.add_succ_comm, <- IH. reflexivity. }
    rewrite Ls. apply vmean_same.
    - destruct cs; [congruence|discriminate].
    - rewrite Forall_forall in *. intros v Hv. apply in_map_iff in Hv as (d & <- & Hd). destruct (Hcs d Hd) as [Ld Ed]. rewrite <- Ed. unfold last_cell.
      clear - Ld. revert Ld. generalize (List.length rows). cbn [Nat.add]. induction d as [|a d IH]; intros n L; [discriminate|]. destruct d as [|b d]; cbn [List.length] in L.
      + now replace n with 0%nat by lia.
      + destruct n as [|n]; [lia|]. cbn [List.last nth]. apply IH. cbn [List.length]. lia.
  Qed.
End C75.

(** ** A concrete case: three rows, the middle score on a control row *)
#[local] Instance EqDec_b : EqDec bool := {| eqb := Bool.eqb; eqb_eq := Bool.eqb_true_iff |}.
Definition sample : list (row bool) := [Row 1 true 5 2; Row 3 true 4 (-1); Row 2 false 1 7].
Definition sample_sorted : list (row bool) := [Row 3 true 4 (-1); Row 2 false 1 7; Row 1 true 5 2].
Lemma sample_descending : Permutation sample_sorted sample /\ descending sample_sorted /\ NoDup (map (@score bool) sample) /\ two_groups true false sample = true.
Proof.
  repeat split.
  - unfold sample_sorted, sample. apply Permutation_sym. apply (perm_trans (l' := [Row 3 true 4 (-1); Row 1 true 5 2; Row 2 false 1 7])); [apply perm_swap|apply perm_skip, perm_swap].
  - repeat constructor; cbn; lra.
  - cbn. repeat constructor; cbn; intuition lra.
Qed.
(** a sorting function exists: insertion *)
Fixpoint insert {V} (r : row V) (l : list (row V)) : list (row V) :=
  match l with [] => [r] | q :: t => if Rle_dec (score q) (score r) then r :: q :: t else q :: insert r t end.
Lemma sorts_exists {V} : exists sort, @sorts V sort.
Proof.
  exists (fold_right insert []). intros l. 
  assert (PI : forall r (m : list (row V)), Permutation (insert r m) (r :: m)).
  { intros r m. induction m as [|q m IH]; cbn; auto. destruct (Rle_dec (score q) (score r)); auto. rewrite IH. apply perm_swap. }
  assert (DI : forall r (m : list (row V)), descending m -> descending (insert r m)).
  { intros r m D. induction D as [|q m D IH Hq]; cbn; [repeat constructor|]. destruct (Rle_dec (score q) (score r)) as [L|L].
    - constructor; [now constructor|]. constructor; auto. rewrite Forall_forall in *. intros p Hp. specialize (Hq p Hp). lra.
    - constructor; auto. rewrite Forall_forall in *. intros p Hp. apply (Permutation_in _ (PI r m)) in Hp. destruct Hp as [<-|Hp]; [lra|auto]. }
  induction l as [|r l [IP ID]]; cbn [fold_right]; [split; constructor|]. split; [rewrite PI; now apply perm_skip|now apply DI].
Qed.
Example C52_example : exists sort, sorts sort /\ exists c top, cumulate true false sort GainEffect sample = Ok (c, top) /\
  nth_error c 1 = Some (Some (-1)) /\ nth_error c 2 = Some (Some 6) /\ last_cell c = Some 8.
Proof.
  destruct (@sorts_exists bool) as [sort Hs]. exists sort. split; auto.
  assert (Htc : true <> false) by discriminate.
  destruct (@C53_succeeds _ _ true false Htc sort Hs GainEffect sample) as (c & top & H); [left; split; [auto|discriminate]|]. exists c, top. split; auto.
  assert (E : sort sample = sample_sorted).
  { destruct sample_descending as (P & D & ND & _). destruct (Hs sample) as [P' D']. apply sorted_unique; auto; [now rewrite P'|].
    unfold distinct_scores. apply (Permutation_NoDup (Permutation_map _ (Permutation_sym P')) ND). }
  split; [|split].
  - rewrite (@C52_gain_rank _ _ true false Htc sort Hs sample c top 1) by (auto; cbn; lia). rewrite E. cbn. do 2 f_equal. unfold sum_over. cbn. lra.
  - rewrite (@C52_gain_rank _ _ true false Htc sort Hs sample c top 2) by (auto; cbn; lia). rewrite E. cbn. do 2 f_equal. unfold sum_over. cbn. lra.
  - apply (@C75_end _ _ true false Htc sort Hs GainEffect sample c top); auto. cbn. f_equal. unfold sum_over. cbn. lra.
Qed.
Example C53_example : exists sort, sorts sort /\ exists c top, cumulate true false sort LiftTreatment sample = Ok (c, top) /\
  nth_error c 1 = Some (Some (3 / 2)) /\ nth_error c 2 = Some (Some 3) /\ last_cell c = Some (7 / 2).
Proof.
  destruct (@sorts_exists bool) as [sort Hs]. exists sort. split; auto.
  assert (Htc : true <> false) by discriminate.
  destruct (@C53_succeeds _ _ true false Htc sort Hs LiftTreatment sample) as (c & top & H); [right; reflexivity|]. exists c, top. split; auto.
  assert (E : sort sample = sample_sorted).
  { destruct sample_descending as (P & D & ND & _). destruct (Hs sample) as [P' D']. apply sorted_unique; auto; [now rewrite P'|].
    unfold distinct_scores. apply (Permutation_NoDup (Permutation_map _ (Permutation_sym P')) ND). }
  assert (L : forall j, (j <= 2)%nat -> nth_error c j = Some (Some (3 * (INR j / INR 2)))).
  { intros j Hj. apply (@C53_line _ _ true false Htc sort Hs LiftTreatment sample c top 1 3 j); [exact H|cbn; lia| | |exact Hj].
    - intros i Hi. replace i with 1%nat by lia. rewrite E. reflexivity.
    - rewrite E. cbn. f_equal. unfold mean_over, sum_over. cbn. lra. }
  split; [|split].
  - rewrite (L 1%nat) by lia. do 2 f_equal. cbn. lra.
  - rewrite (L 2%nat) by lia. do 2 f_equal. cbn. lra.
  - apply (@C75_end _ _ true false Htc sort Hs LiftTreatment sample c top); auto. cbn. f_equal. unfold mean_over, sum_over. cbn. lra.
Qed.
Print Assumptions C52_gain.
Print Assumptions C53_line.
Print Assumptions C54_qini.
Print Assumptions C55_auuc.
Print Assumptions C74_auuc.
Print Assumptions C75_random.
Print Assumptions C76_top_point.
