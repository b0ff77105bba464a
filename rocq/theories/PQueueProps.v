(** C59, C60: the weighted priority queue and the streaming weighted median. *)
From Coq Require Import Reals Lra Sorting.Sorted ZArith.
From Verif Require Import Base PQueueModel.
Set Implicit Arguments.
Local Notation length := List.length.
Open Scope R_scope.

(* ------------------------------------------------------------------------------------------------ *)
(** ** Specification *)

(** sorted by increasing data *)
Definition sorted (l : list record) : Prop := StronglySorted (fun a b => fst a <= fst b) l.

(** the queue as a multiset: what each operation must do to the contents [M] and return *)
Inductive ms_step : list record -> pq_op -> list record -> pq_out -> Prop :=
  | ms_push M M' r : Permutation M' (r :: M) -> ms_step M (PPush r) M' (ORet 0)
  | ms_pop M M' r : Permutation M (r :: M') -> (forall x, In x M -> fst r <= fst x) ->
      ms_step M PPop M' (OPop (Some r))
  | ms_pop_empty : ms_step [] PPop [] (OPop None)
  | ms_remove M M' r : Permutation M (r :: M') -> ms_step M (PRemove r) M' (ORet 0)
  | ms_remove_absent M r : ~ In r M -> ms_step M (PRemove r) M (ORet (-1))
  | ms_reset M : ms_step M PReset [] (ORet 0).

Inductive ms_run : list record -> list pq_op -> list record -> list pq_out -> Prop :=
  | ms_nil M : ms_run M [] M []
  | ms_cons M o M' out ops M'' outs :
      ms_step M o M' out -> ms_run M' ops M'' outs -> ms_run M (o :: ops) M'' (out :: outs).

(* ------------------------------------------------------------------------------------------------ *)
(** ** The queue *)

Lemma upd_app l x r i v : i = length l -> upd (l ++ x :: r) i v = l ++ v :: r.
Proof. intros ->. induction l as [|y l IH]; cbn; auto. now rewrite IH. Qed.

Lemma nth_app_len l (x : record) r i : i = length l -> nth i (l ++ x :: r) rec0 = x.
Proof. intros ->. induction l as [|y l IH]; cbn; auto. Qed.

Lemma bubble_spec l : forall x r, exists l1 l2,
  l = l1 ++ l2 /\ bubble (length l) (l ++ x :: r) = l1 ++ x :: l2 ++ r /\
  Forall (fun y => fst x < fst y) l2 /\
  (l1 = [] \/ exists l' y, l1 = l' ++ [y] /\ fst y <= fst x).
Proof.
  induction l as [|y l IH] using rev_ind; intros x r.
  - exists [], []. cbn. auto.
  - rewrite app_length. cbn [length]. replace (length l + 1)%nat with (S (length l)) by lia.
    cbn [bubble].
    rewrite (@nth_app_len (l ++ [y]) x r (S (length l))) by (rewrite app_length; cbn; lia).
    replace (nth (length l) ((l ++ [y]) ++ x :: r) rec0) with y
      by (rewrite <- app_assoc; cbn; symmetry; now apply nth_app_len).
    destruct (Rlt_dec (fst x) (fst y)) as [Hlt|Hge].
    + rewrite (@upd_app (l ++ [y]) x r (S (length l)) y) by (rewrite app_length; cbn; lia).
      rewrite <- app_assoc. cbn [app]. rewrite (@upd_app l y (y :: r) (length l) x) by auto.
      destruct (IH x (y :: r)) as (l1 & l2 & E & B & F & L).
      exists l1, (l2 ++ [y]). repeat split.
      * rewrite E, app_assoc. reflexivity.
      * rewrite B, <- app_assoc. reflexivity.
      * apply Forall_app; auto.
      * exact L.
    + exists (l ++ [y]), []. rewrite app_nil_r. repeat split; auto.
      right. exists l, y. split; auto. lra.
Qed.

Lemma sorted_app l1 l2 : sorted (l1 ++ l2) <->
  sorted l1 /\ sorted l2 /\ (forall x y, In x l1 -> In y l2 -> fst x <= fst y).
Proof.
  unfold sorted. induction l1 as [|a l1 IH]; cbn.
  - split; [intros H; repeat split; auto; [constructor|easy]|tauto].
  - split.
    + intros H. inversion H as [|? ? Hs HF]; subst. apply IH in Hs as (H1 & H2 & H3).
      rewrite Forall_forall in HF. repeat split; auto.
      * constructor; auto. apply Forall_forall. intros z Hz. apply HF, in_or_app. auto.
      * intros x y [<-|Hx] Hy; auto. apply HF, in_or_app. auto.
    + intros (H1 & H2 & H3). inversion H1 as [|? ? Hs HF]; subst. constructor.
      * apply IH. repeat split; auto.
      * apply Forall_forall. intros z Hz. apply in_app_or in Hz as [Hz|Hz]; auto.
        rewrite Forall_forall in HF. auto.
Qed.

(** what push does to a sorted array: the record is inserted after all records that are not larger *)
Lemma push_split l x : sorted l -> exists l1 l2,
  l = l1 ++ l2 /\ bubble (length l) (l ++ [x]) = l1 ++ x :: l2 /\
  (forall y, In y l1 -> fst y <= fst x) /\ (forall y, In y l2 -> fst x < fst y).
Proof.
  intros Hs. destruct (bubble_spec l x []) as (l1 & l2 & E & B & F & L).
  exists l1, l2. rewrite app_nil_r in B. rewrite Forall_forall in F. repeat split; auto.
  intros y Hy. destruct L as [->|(l' & z & -> & Hz)]; [easy|].
  apply in_app_or in Hy as [Hy|[<-|[]]]; auto.
  rewrite E in Hs. apply sorted_app in Hs as (Hs & _). apply sorted_app in Hs as (_ & _ & H).
  specialize (H y z Hy (or_introl eq_refl)). lra.
Qed.

Lemma shift_loop b : forall a x,
  fold_left (fun l i => upd l i (nth (S i) l rec0)) (seq (length a) (length b)) (a ++ x :: b)
  = a ++ b ++ [last (x :: b) rec0].
Proof.
  induction b as [|y b IH]; intros a x; [reflexivity|].
  cbn [length seq fold_left].
  replace (nth (S (length a)) (a ++ x :: y :: b) rec0) with y.
  2:{ change (a ++ x :: y :: b) with (a ++ [x] ++ (y :: b)). rewrite app_assoc. symmetry.
      apply nth_app_len. rewrite app_length. cbn; lia. }
  rewrite upd_app by auto.
  replace (a ++ y :: y :: b) with ((a ++ [y]) ++ y :: b) by (rewrite <- app_assoc; reflexivity).
  replace (S (length a)) with (length (a ++ [y])) by (rewrite app_length; cbn; lia).
  rewrite IH. rewrite <- app_assoc. reflexivity.
Qed.

Lemma shift_out_spec a x b : shift_out (length a) (a ++ x :: b) = a ++ b.
Proof.
  unfold shift_out. rewrite app_length. cbn [length].
  replace (length a + S (length b) - 1 - length a)%nat with (length b) by lia.
  rewrite shift_loop, app_assoc.
  replace (length a + S (length b) - 1)%nat with (length (a ++ b)) by (rewrite app_length; lia).
  rewrite firstn_app, Nat.sub_diag, firstn_all. cbn. apply app_nil_r.
Qed.

Lemma rec_eq_spec a b : rec_eq a b = true <-> a = b.
Proof.
  unfold rec_eq. destruct a as [u v], b as [u' v']; cbn.
  destruct (Req_EM_T u u'); [|split; [easy|congruence]].
  destruct (Req_EM_T v v'); split; congruence.
Qed.

Lemma find_idx_spec r l :
  match find_idx r l with
  | Some i => exists a b, l = a ++ r :: b /\ length a = i /\ ~ In r a
  | None => ~ In r l
  end.
Proof.
  induction l as [|x l IH]; cbn; [easy|].
  destruct (rec_eq x r) eqn:E.
  - apply rec_eq_spec in E. subst. exists [], l. repeat split; auto.
  - assert (x <> r) by (intros ->; rewrite (proj2 (rec_eq_spec r r) eq_refl) in E; discriminate).
    destruct (find_idx r l); cbn.
    + destruct IH as (a & b & -> & <- & Hn). exists (x :: a), b. repeat split; auto.
      intros [?|?]; auto.
    + intros [?|?]; auto.
Qed.

(** capacity covers the live records and is positive *)
Definition cap_ok (q : pq) : Prop := (1 <= capacity q)%nat /\ (length (arr q) <= capacity q)%nat.

Lemma pq_push_ok q r : cap_ok q -> sorted (arr q) ->
  exists q' l1 l2, pq_push q r = Ok q' /\ arr q = l1 ++ l2 /\ arr q' = l1 ++ r :: l2 /\
    (forall y, In y l1 -> fst y <= fst r) /\ (forall y, In y l2 -> fst r < fst y) /\
    cap_ok q' /\ sorted (arr q').
Proof.
  intros [Hc1 Hc2] Hs. unfold pq_push.
  destruct (push_split r Hs) as (l1 & l2 & E & B & H1 & H2). rewrite B.
  set (cap := if (capacity q <=? length (arr q))%nat then _ else _).
  assert (Hcap : (length (arr q) < cap)%nat).
  { unfold cap. destruct (Nat.leb_spec (capacity q) (length (arr q))); lia. }
  replace (length (arr q) <? cap)%nat with true by (symmetry; now apply Nat.ltb_lt).
  eexists _, l1, l2. split; [reflexivity|]. cbn [arr capacity].
  split; [auto|]. split; [auto|]. split; [auto|]. split; [auto|]. split.
  - split; cbn; [lia|]. rewrite E in Hcap. rewrite app_length in *. cbn. lia.
  - rewrite E in Hs. apply sorted_app in Hs as (S1 & S2 & S3). apply sorted_app. repeat split; auto.
    + constructor; auto. apply Forall_forall. intros y Hy. apply H2 in Hy. lra.
    + intros x y Hx [<-|Hy]; auto.
Qed.

Lemma sorted_del a x b : sorted (a ++ x :: b) -> sorted (a ++ b).
Proof.
  intros H. apply sorted_app in H as (H1 & H2 & H3). inversion H2; subst. apply sorted_app.
  repeat split; auto. intros u v Hu Hv. apply H3; cbn; auto.
Qed.

Lemma cap_del q a x b : cap_ok q -> arr q = a ++ x :: b -> cap_ok (mkPq (capacity q) (a ++ b)).
Proof. intros [H1 H2] E. rewrite E in H2. split; cbn; auto. rewrite app_length in *. cbn in H2. lia. Qed.

Lemma pq_step_ok q o : cap_ok q -> sorted (arr q) ->
  exists q' out, pq_step q o = Ok (q', out) /\ cap_ok q' /\ sorted (arr q') /\ ms_step (arr q) o (arr q') out.
Proof.
  intros Hc Hs. destruct o as [r| |r|]; cbn [pq_step].
  - destruct (pq_push_ok r Hc Hs) as (q' & l1 & l2 & -> & E & E' & H1 & H2 & Hc' & Hs').
    cbn [bind]. eexists _, _. split; [reflexivity|]. repeat split; auto; try apply Hc'.
    constructor. rewrite E, E'. apply Permutation_sym, Permutation_middle.
  - unfold pq_pop. destruct (arr q) as [|r b] eqn:E.
    + eexists _, _. split; [reflexivity|]. rewrite E. repeat split; auto; try apply Hc. constructor.
    + eexists _, _. split; [reflexivity|]. pose proof (shift_out_spec [] r b) as Sh. cbn [length app] in Sh. cbn [arr].
      rewrite Sh. inversion Hs; subst.
      split; [exact (@cap_del q [] r b Hc E)|]. split; auto. constructor; [apply Permutation_refl|].
      intros x [<-|Hx]; [lra|]. rewrite Forall_forall in H2. auto.
  - unfold pq_remove. pose proof (find_idx_spec r (arr q)) as F.
    destruct (find_idx r (arr q)) as [i|].
    + destruct F as (a & b & E & <- & Hn). rewrite E, shift_out_spec.
      destruct (a ++ r :: b) eqn:E0; [destruct a; discriminate|]. rewrite <- E0 in *.
      eexists _, _. split; [reflexivity|]. cbn [arr].
      split; [exact (@cap_del q a r b Hc E)|]. rewrite E in Hs. split; [exact (sorted_del a r b Hs)|].
      constructor. apply Permutation_sym, Permutation_middle.
    + destruct (arr q) eqn:E; (eexists _, _; split; [reflexivity|]); rewrite E;
        (split; [auto|]); (split; [auto|]); now constructor.
  - eexists _, _. split; [reflexivity|]. cbn. destruct Hc as [H1 H2].
    split; [split; cbn; lia|]. split; [constructor|constructor].
Qed.

(** C59: for every positive initial capacity and every history of push, pop, remove and reset, the queue never
    writes outside its array, every return value and popped record is the one the multiset of the current
    records prescribes (pop returns a minimum, remove returns -1 exactly when the record is absent), the
    contents are that multiset, and they are sorted. *)
Theorem C59_pqueue_history cap ops :
  (1 <= cap)%nat ->
  exists q outs, pq_run (pq_new cap) ops = Ok (q, outs) /\
    ms_run [] ops (arr q) outs /\ sorted (arr q) /\ (length (arr q) <= capacity q)%nat.
Proof.
  intros Hcap.
  assert (G : forall ops q, cap_ok q -> sorted (arr q) ->
    exists q' outs, pq_run q ops = Ok (q', outs) /\ ms_run (arr q) ops (arr q') outs /\
      sorted (arr q') /\ cap_ok q').
  { clear. induction ops as [|o ops IH]; intros q Hc Hs; cbn [pq_run].
    - exists q, []. repeat split; auto; try apply Hc. constructor.
    - destruct (pq_step_ok o Hc Hs) as (q1 & out & -> & Hc1 & Hs1 & M1). cbn [bind fst snd].
      destruct (IH q1 Hc1 Hs1) as (q2 & outs & -> & M2 & Hs2 & Hc2). cbn [bind fst snd].
      exists q2, (out :: outs). repeat split; auto; try apply Hc2. econstructor; eauto. }
  destruct (G ops (pq_new cap)) as (q & outs & E & M & Hs & Hc).
  - split; cbn; lia.
  - constructor.
  - exists q, outs. repeat split; auto. apply Hc.
Qed.

(** peek agrees with the next pop and changes nothing *)
Theorem C59_peek_is_pop q : pq_peek q = snd (pq_pop q).
Proof. unfold pq_peek, pq_pop. now destruct (arr q). Qed.

(** a queue created with capacity 0 writes out of bounds on the first push (0 * 2 = 0) *)
Theorem C59_capacity_zero_refuted r : pq_run (pq_new 0) [PPush r] = Err IndexError.
Proof. reflexivity. Qed.

(** among equal values the queue is first-in first-out: the pushed record goes after the records with the same
    data *)
Theorem C59_stable_insert q r : cap_ok q -> sorted (arr q) ->
  exists q' l1 l2, pq_push q r = Ok q' /\ arr q = l1 ++ l2 /\ arr q' = l1 ++ r :: l2 /\
    (forall y, In y l1 -> fst y <= fst r) /\ (forall y, In y l2 -> fst r < fst y).
Proof.
  intros Hc Hs. destruct (pq_push_ok r Hc Hs) as (q' & l1 & l2 & H1 & H2 & H3 & H4 & H5 & _).
  exists q', l1, l2. repeat (split; auto).
Qed.

Example C59_case : exists q, pq_run (pq_new 1) [PPush (2, 5); PPush (1, 7); PPop] =
  Ok (q, [ORet 0; ORet 0; OPop (Some (1, 7))]) /\ arr q = [(2, 5)].
Proof.
  eexists. cbn. destruct (Rlt_dec 1 2); [|lra]. cbn. split; reflexivity.
Qed.

(* ------------------------------------------------------------------------------------------------ *)
(** ** C60: specification of the weighted median *)

Fixpoint sumw (l : list record) : R := match l with [] => 0 | r :: t => snd r + sumw t end.

(** total weight of the records with data < x, resp. <= x *)
Definition mass_lt (x : R) (l : list record) : R := sumw (filter (fun r => if Rlt_dec (fst r) x then true else false) l).
Definition mass_le (x : R) (l : list record) : R := sumw (filter (fun r => if Rle_dec (fst r) x then true else false) l).

(** the weighted median: the mean of the lower median (the value a with mass(< a) < W/2 <= mass(<= a)) and the
    upper median (the value b with mass(< b) <= W/2 < mass(<= b)); they coincide unless a prefix weighs
    exactly W/2. *)
Definition is_weighted_median (l : list record) (m : R) : Prop :=
  exists a b, In a (map fst l) /\ In b (map fst l) /\
    mass_lt a l < sumw l / 2 <= mass_le a l /\
    mass_lt b l <= sumw l / 2 < mass_le b l /\
    m = (a + b) / 2.

Definition pos (l : list record) : Prop := Forall (fun r => 0 < snd r) l.

Lemma sumw_app a b : sumw (a ++ b) = sumw a + sumw b.
Proof. induction a as [|x a IH]; cbn; [lra|]. rewrite IH. lra. Qed.
Lemma sumw_perm a b : Permutation a b -> sumw a = sumw b.
Proof. induction 1; cbn; lra. Qed.
Lemma sumw_nonneg l : pos l -> 0 <= sumw l.
Proof. induction 1; cbn; lra. Qed.
Lemma sumw_pos l : pos l -> l <> [] -> 0 < sumw l.
Proof. intros H N. destruct H; [easy|]. apply sumw_nonneg in H0. cbn. lra. Qed.
Lemma pos_app a b : pos (a ++ b) <-> pos a /\ pos b.
Proof. apply Forall_app. Qed.

Lemma filter_perm {A} (f : A -> bool) l m : Permutation l m -> Permutation (filter f l) (filter f m).
Proof.
  induction 1; cbn; auto.
  - destruct (f x); auto.
  - destruct (f x), (f y); auto. constructor.
  - eapply Permutation_trans; eauto.
Qed.

(** the weighted median is a property of the multiset *)
Lemma is_weighted_median_perm l l' m : Permutation l l' -> is_weighted_median l m -> is_weighted_median l' m.
Proof.
  intros P (a & b & Ha & Hb & H1 & H2 & E). exists a, b.
  assert (Pm : Permutation (map fst l) (map fst l')) by now apply Permutation_map.
  rewrite <- (sumw_perm P). unfold mass_lt, mass_le in *.
  rewrite <- (sumw_perm (filter_perm (fun r => if Rlt_dec (fst r) a then true else false) P)).
  rewrite <- (sumw_perm (filter_perm (fun r => if Rle_dec (fst r) a then true else false) P)).
  rewrite <- (sumw_perm (filter_perm (fun r => if Rlt_dec (fst r) b then true else false) P)).
  rewrite <- (sumw_perm (filter_perm (fun r => if Rle_dec (fst r) b then true else false) P)).
  repeat (split; auto); try (exact (Permutation_in _ Pm Ha)); try (exact (Permutation_in _ Pm Hb)); tauto.
Qed.

(** at most one weighted median *)
Lemma mass_le_lt l a b : pos l -> a < b -> mass_le a l <= mass_lt b l.
Proof.
  intros P Hab. unfold mass_le, mass_lt. induction P as [|r l Hr P IH]; cbn; [lra|].
  destruct (Rle_dec (fst r) a), (Rlt_dec (fst r) b); cbn; lra.
Qed.
Theorem weighted_median_unique l m m' :
  pos l -> is_weighted_median l m -> is_weighted_median l m' -> m = m'.
Proof.
  intros P (a & b & _ & _ & H1 & H2 & ->) (a' & b' & _ & _ & H1' & H2' & ->).
  assert (a = a').
  { destruct (Rtotal_order a a') as [H|[H|H]]; auto; exfalso; pose proof (mass_le_lt P H); lra. }
  assert (b = b').
  { destruct (Rtotal_order b b') as [H'|[H'|H']]; auto; exfalso; pose proof (mass_le_lt P H'); lra. }
  subst. reflexivity.
Qed.

(* ------------------------------------------------------------------------------------------------ *)
(** ** The invariant of the calculator *)

(** [k] is the least length of a prefix with at least half of the weight *)
Definition kmin (l : list record) (k : nat) : Prop :=
  exists a x b, l = a ++ x :: b /\ k = S (length a) /\
    sumw a < sumw l / 2 <= sumw a + snd x.

Definition mc_inv (m : mc) : Prop :=
  let l := arr (smp m) in
  cap_ok (smp m) /\ sorted l /\ pos l /\ total m = sumw l /\
  (l = [] -> kk m = 0%nat /\ sum0k m = 0) /\
  (l <> [] -> kmin l (kk m) /\ sum0k m = sumw (firstn (kk m) l)).

Lemma firstn_S_len (a : list record) x b : firstn (S (length a)) (a ++ x :: b) = a ++ [x].
Proof.
  change (a ++ x :: b) with (a ++ [x] ++ b). rewrite app_assoc.
  replace (S (length a)) with (length (a ++ [x])) by (rewrite app_length; cbn; lia).
  rewrite firstn_app, Nat.sub_diag, firstn_all. cbn. now rewrite app_nil_r.
Qed.

Lemma filter_all {A} (f : A -> bool) l : (forall x, In x l -> f x = true) -> filter f l = l.
Proof. induction l as [|x l IH]; cbn; intros H; auto. rewrite H by auto. f_equal. apply IH; auto. Qed.
Lemma filter_none {A} (f : A -> bool) l : (forall x, In x l -> f x = false) -> filter f l = [].
Proof. induction l as [|x l IH]; cbn; intros H; auto. rewrite H by auto. apply IH; auto. Qed.

(** in a sorted list the records below the value at a position are all to the left, and those left of it
    are at most its value *)
Lemma mass_lt_prefix a x b : sorted (a ++ x :: b) -> pos (a ++ x :: b) -> mass_lt (fst x) (a ++ x :: b) <= sumw a.
Proof.
  intros Hs Hp. apply sorted_app in Hs as (_ & Hs & _). unfold mass_lt. rewrite filter_app, sumw_app.
  rewrite (filter_none _ (x :: b)).
  - cbn. apply pos_app in Hp as [Hp _]. clear - Hp.
    induction Hp as [|r l Hr P IH]; cbn; [lra|].
    destruct (Rlt_dec _ _); cbn; lra.
  - inversion Hs as [|? ? _ HF]; subst. rewrite Forall_forall in HF.
    intros y [<-|Hy]; (destruct (Rlt_dec _ _); [|auto]); [exfalso; lra|]. specialize (HF y Hy). cbn in HF. exfalso; lra.
Qed.
Lemma mass_le_prefix a x b : sorted (a ++ x :: b) -> pos (a ++ x :: b) -> sumw a + snd x <= mass_le (fst x) (a ++ x :: b).
Proof.
  intros Hs Hp. apply sorted_app in Hs as (_ & _ & Hs). unfold mass_le. rewrite filter_app, sumw_app.
  rewrite (filter_all _ a).
  - cbn [filter]. destruct (Rle_dec (fst x) (fst x)); [|lra]. cbn [sumw].
    apply pos_app in Hp as [_ Hp]. inversion Hp as [|? ? _ Hb]; subst.
    match goal with |- context [_ + (_ + ?t)] => assert (0 <= t); [|lra] end.
    apply sumw_nonneg. apply Forall_forall. intros y Hy. apply filter_In in Hy as [Hy _].
    unfold pos in Hb. rewrite Forall_forall in Hb. auto.
  - intros y Hy. destruct (Rle_dec _ _) as [|N]; auto. exfalso. apply N. apply Hs; cbn; auto.
Qed.

(** C60, get_median: under the invariant the reported value is the weighted median *)
Lemma median_correct m : mc_inv m -> arr (smp m) <> [] ->
  exists v, get_median m = Ok v /\ is_weighted_median (arr (smp m)) v.
Proof.
  intros (Hc & Hs & Hp & Ht & _ & Hk) Hne. destruct (Hk Hne) as [(a & x & b & E & Ek & Hlow) Esum].
  unfold get_median, at_pred, at_idx. rewrite Ek in *. rewrite Ht.
  assert (Es : sum0k m = sumw a + snd x).
  { rewrite Esum, E, firstn_S_len, sumw_app. cbn. lra. }
  assert (Nx : nth_error (arr (smp m)) (length a) = Some x).
  { rewrite E, nth_error_app2, Nat.sub_diag by lia. reflexivity. }
  assert (Hmid : forall c y d, arr (smp m) = c ++ y :: d -> In (fst y) (map fst (arr (smp m)))).
  { intros c y d ->. apply in_map, in_or_app. right. now left. }
  assert (La : mass_lt (fst x) (arr (smp m)) <= sumw a).
  { rewrite E. apply mass_lt_prefix; rewrite <- E; auto. }
  assert (Lb : sumw a + snd x <= mass_le (fst x) (arr (smp m))).
  { rewrite E. apply mass_le_prefix; rewrite <- E; auto. }
  destruct (Req_EM_T (sum0k m) (sumw (arr (smp m)) / 2)) as [Q|Q].
  - (* exact half: there is a next record *)
    assert (Pl := sumw_pos Hp Hne).
    assert (Eb : sumw (arr (smp m)) = sumw a + snd x + sumw b).
    { rewrite E at 1. rewrite sumw_app. cbn. lra. }
    destruct b as [|y d].
    { exfalso. cbn in Eb. lra. }
    assert (E2 : arr (smp m) = (a ++ [x]) ++ y :: d) by (rewrite E, <- app_assoc; reflexivity).
    assert (Ny : nth_error (arr (smp m)) (S (length a)) = Some y).
    { rewrite E2, nth_error_app2 by (rewrite app_length; cbn; lia). rewrite app_length. cbn [length].
      replace (S (length a) - (length a + 1))%nat with 0%nat by lia. reflexivity. }
    rewrite Ny, Nx. cbn [bind]. eexists. split; [reflexivity|].
    exists (fst x), (fst y). split; [eapply Hmid; eauto|]. split; [eapply Hmid; exact E2|].
    assert (Sx : sumw (a ++ [x]) = sumw a + snd x) by (rewrite sumw_app; cbn; lra).
    assert (Ly : mass_lt (fst y) (arr (smp m)) <= sumw (a ++ [x])).
    { rewrite E2. apply mass_lt_prefix; rewrite <- E2; auto. }
    assert (Ly' : sumw (a ++ [x]) + snd y <= mass_le (fst y) (arr (smp m))).
    { rewrite E2. apply mass_le_prefix; rewrite <- E2; auto. }
    assert (0 < snd y).
    { rewrite E2 in Hp. apply pos_app in Hp as [_ Hp]. inversion Hp; subst; auto. }
    repeat split; try lra.
  - destruct (Rgt_dec (sum0k m) (sumw (arr (smp m)) / 2)) as [G|G]; [|exfalso; lra].
    rewrite Nx. cbn [bind]. eexists. split; [reflexivity|].
    exists (fst x), (fst x). split; [eapply Hmid; eauto|]. split; [eapply Hmid; eauto|].
    repeat split; lra.
Qed.

(** the loops *)
Lemma prefix_split (l : list record) k : (S k <= length l)%nat ->
  exists a x b, l = a ++ x :: b /\ length a = k.
Proof.
  intros H. exists (firstn k l). destruct (nth_error l k) as [x|] eqn:E.
  - exists x, (skipn (S k) l). apply nth_error_split in E as (a & b & -> & Ha).
    rewrite <- Ha. rewrite firstn_app, Nat.sub_diag, firstn_all. cbn [firstn]. rewrite app_nil_r.
    split; auto. f_equal. change (x :: b) with ([x] ++ b). rewrite app_assoc.
    replace (S (length a)) with (length (a ++ [x])) by (rewrite app_length; cbn; lia).
    rewrite skipn_app, Nat.sub_diag, skipn_all. reflexivity.
  - apply nth_error_None in E. lia.
Qed.

Lemma nth_error_mid (a : list record) x b : nth_error (a ++ x :: b) (length a) = Some x.
Proof. rewrite nth_error_app2, Nat.sub_diag by lia. reflexivity. Qed.

Lemma dec_loop_ok q : pos (arr q) -> forall k, (1 <= k <= length (arr q))%nat ->
  sumw (arr q) / 2 <= sumw (firstn k (arr q)) ->
  exists k', dec_loop q (sumw (arr q)) k (sumw (firstn k (arr q))) = Ok (k', sumw (firstn k' (arr q))) /\
    kmin (arr q) k'.
Proof.
  intros Hp. set (l := arr q) in *. induction k as [|k IH]; intros Hk Hge; [lia|].
  cbn [dec_loop].
  destruct (@prefix_split l k) as (a & x & b & E & Ha); [lia|].
  assert (F1 : firstn (S k) l = a ++ [x]) by (rewrite E, <- Ha; apply firstn_S_len).
  assert (F0 : firstn k l = a).
  { rewrite E, <- Ha. rewrite firstn_app, Nat.sub_diag, firstn_all. cbn. apply app_nil_r. }
  destruct (Nat.eqb_spec k 0) as [->|Nk].
  - exists 1%nat. split; auto. exists a, x, b. rewrite Ha. repeat split; auto.
    + destruct a; [|cbn in Ha; lia]. cbn.
      assert (0 < sumw l); [|lra]. apply sumw_pos; auto. rewrite E. now destruct b.
    + rewrite F1, sumw_app in Hge. cbn in Hge. lra.
  - unfold at_idx. fold l. replace (nth_error l k) with (Some x).
    2:{ rewrite E, <- Ha. symmetry. apply nth_error_mid. }
    cbn [bind]. rewrite F1 in *. rewrite sumw_app in *. cbn [sumw] in *.
    destruct (Rge_dec (sumw a + (snd x + 0) - snd x) (sumw l / 2)) as [G|G].
    + replace (sumw a + (snd x + 0) - snd x) with (sumw (firstn k l)) by (rewrite F0; lra).
      apply IH; [lia|]. rewrite F0. lra.
    + exists (S k). rewrite F1, sumw_app. cbn [sumw]. split; auto.
      exists a, x, b. rewrite Ha. repeat split; auto; lra.
Qed.

Lemma inc_loop_ok q : pos (arr q) -> arr q <> [] -> forall fuel k,
  (k <= length (arr q))%nat -> (length (arr q) - k <= fuel)%nat ->
  (k = 0%nat \/ sumw (firstn (k - 1) (arr q)) < sumw (arr q) / 2) ->
  exists k', inc_loop fuel q (sumw (arr q)) k (sumw (firstn k (arr q))) = Ok (k', sumw (firstn k' (arr q))) /\
    kmin (arr q) k'.
Proof.
  intros Hp Hne. set (l := arr q) in *. assert (Pl := sumw_pos Hp Hne).
  assert (Stop : forall k, (k <= length l)%nat -> (k = 0%nat \/ sumw (firstn (k - 1) l) < sumw l / 2) ->
            sumw l / 2 <= sumw (firstn k l) -> kmin l k).
  { intros k Hk Hl Hge. destruct k as [|k]; [cbn in Hge; lra|].
    destruct Hl as [?|Hl]; [lia|]. cbn [Nat.sub] in Hl. rewrite Nat.sub_0_r in Hl.
    destruct (@prefix_split l k) as (a & x & b & E & Ha); [lia|].
    assert (F1 : firstn (S k) l = a ++ [x]) by (rewrite E, <- Ha; apply firstn_S_len).
    assert (F0 : firstn k l = a).
    { rewrite E, <- Ha. rewrite firstn_app, Nat.sub_diag, firstn_all. cbn. apply app_nil_r. }
    rewrite F0 in Hl. rewrite F1, sumw_app in Hge. cbn in Hge.
    exists a, x, b. rewrite Ha. repeat split; auto; lra. }
  induction fuel as [|fuel IH]; intros k Hk Hf Hl.
  - cbn. exists k. split; auto. apply Stop; auto. rewrite firstn_all2 by lia. lra.
  - cbn [inc_loop]. fold l. destruct (Nat.ltb_spec k (length l)) as [Hlt|Hge].
    + destruct (Rlt_dec (sumw (firstn k l)) (sumw l / 2)) as [L|L].
      * destruct (@prefix_split l k) as (a & x & b & E & Ha); [lia|].
        assert (F1 : firstn (S k) l = a ++ [x]) by (rewrite E, <- Ha; apply firstn_S_len).
        assert (F0 : firstn k l = a).
        { rewrite E, <- Ha. rewrite firstn_app, Nat.sub_diag, firstn_all. cbn. apply app_nil_r. }
        unfold at_idx. fold l. replace (nth_error l k) with (Some x).
        2:{ rewrite E, <- Ha. symmetry. apply nth_error_mid. }
        cbn [bind].
        replace (sumw (firstn k l) + snd x) with (sumw (firstn (S k) l))
          by (rewrite F1, F0, sumw_app; cbn; lra).
        apply IH; [lia|lia|]. right. cbn [Nat.sub]. now rewrite Nat.sub_0_r.
      * exists k. split; auto. apply Stop; auto. lra.
    + exists k. split; auto. apply Stop; auto. rewrite firstn_all2 by lia. lra.
Qed.

(** where the reported median lies *)
Lemma median_pos m : mc_inv m -> arr (smp m) <> [] ->
  exists v a x b, get_median m = Ok v /\ arr (smp m) = a ++ x :: b /\ kk m = S (length a) /\
    sumw a < sumw (arr (smp m)) / 2 <= sumw a + snd x /\ sum0k m = sumw a + snd x /\
    fst x <= v /\ (forall y, In y b -> v <= fst y) /\ (fst x < v -> sumw a + snd x = sumw (arr (smp m)) / 2).
Proof.
  intros (Hc & Hs & Hp & Ht & _ & Hk) Hne. destruct (Hk Hne) as [(a & x & b & E & Ek & Hlow) Esum].
  assert (Es : sum0k m = sumw a + snd x).
  { rewrite Esum, Ek, E, firstn_S_len, sumw_app. cbn. lra. }
  assert (Hxb : forall y, In y b -> fst x <= fst y).
  { rewrite E in Hs. apply sorted_app in Hs as (_ & Hs & _). inversion Hs as [|? ? _ HF]; subst.
    now rewrite Forall_forall in HF. }
  assert (Hbs : sorted b).
  { rewrite E in Hs. apply sorted_app in Hs as (_ & Hs & _). now inversion Hs. }
  unfold get_median, at_pred, at_idx. rewrite Ek, Ht.
  assert (Nx : nth_error (arr (smp m)) (length a) = Some x) by (rewrite E; apply nth_error_mid).
  rewrite Nx. cbn [bind].
  destruct (Req_EM_T (sum0k m) (sumw (arr (smp m)) / 2)) as [Q|Q].
  - destruct b as [|y d].
    { exfalso. assert (Pl := sumw_pos Hp Hne). rewrite E, sumw_app in Q, Pl. cbn in Q, Pl. lra. }
    replace (nth_error (arr (smp m)) (S (length a))) with (Some y).
    2:{ rewrite E. change (a ++ x :: y :: d) with (a ++ [x] ++ (y :: d)). rewrite app_assoc.
        replace (S (length a)) with (length (a ++ [x])) by (rewrite app_length; cbn; lia).
        symmetry. apply nth_error_mid. }
    cbn [bind]. exists ((fst y + fst x) / 2), a, x, (y :: d).
    assert (fst x <= fst y) by (apply Hxb; now left).
    repeat (split; auto); try lra.
    intros z [<-|Hz]; [lra|]. inversion Hbs as [|? ? _ HF]; subst.
    rewrite Forall_forall in HF. specialize (HF z Hz). cbn in HF. lra.
  - destruct (Rgt_dec (sum0k m) (sumw (arr (smp m)) / 2)) as [G|G]; [|exfalso; lra].
    exists (fst x), a, x, b. repeat (split; auto); try lra.
Qed.

Lemma firstn_ins (l1 l2 : list record) r k : (length l1 <= k)%nat ->
  sumw (firstn (S k) (l1 ++ r :: l2)) = sumw (firstn k (l1 ++ l2)) + snd r.
Proof.
  intros H. rewrite !firstn_app. replace (S k - length l1)%nat with (S (k - length l1)) by lia.
  rewrite (firstn_all2 l1 (n := S k)) by lia. rewrite (firstn_all2 l1 (n := k)) by lia.
  cbn [firstn]. rewrite !sumw_app. cbn [sumw]. lra.
Qed.
Lemma firstn_same (l1 l2 l3 : list record) k : (k <= length l1)%nat ->
  firstn k (l1 ++ l2) = firstn k (l1 ++ l3).
Proof. intros H. rewrite !firstn_app. replace (k - length l1)%nat with 0%nat by lia. reflexivity. Qed.

Lemma split_compare (l1 l2 a b : list record) :
  l1 ++ l2 = a ++ b ->
  ((length l1 <= length a)%nat /\ exists c, a = l1 ++ c /\ l2 = c ++ b) \/
  ((length a < length l1)%nat /\ exists c, l1 = a ++ c /\ b = c ++ l2 /\ c <> []).
Proof.
  revert a; induction l1 as [|x l1 IH]; intros a E; cbn in *.
  - left. split; [lia|]. exists a. auto.
  - destruct a as [|y a]; cbn in *.
    + right. split; [lia|]. exists (x :: l1). repeat split; auto. easy.
    + injection E as <- E. destruct (IH a E) as [[H (c & -> & ->)]|[H (c & -> & -> & N)]].
      * left. split; [lia|]. exists c. auto.
      * right. split; [lia|]. exists c. auto.
Qed.

Lemma mc_push_ok m r : mc_inv m -> 0 < snd r ->
  exists m', mc_push m r = Ok m' /\ mc_inv m' /\ Permutation (arr (smp m')) (r :: arr (smp m)).
Proof.
  intros I Hr. assert (I' := I). destruct I' as (Hc & Hs & Hp & Ht & H0 & Hk).
  destruct (pq_push_ok r Hc Hs) as (q & l1 & l2 & Eq & E & E' & H1 & H2 & Hc' & Hs').
  assert (Pq : Permutation (arr q) (r :: arr (smp m))).
  { rewrite E, E'. apply Permutation_sym, Permutation_middle. }
  assert (Pp : pos (arr q)).
  { unfold pos. rewrite E'. rewrite E in Hp. apply pos_app in Hp as [P1 P2]. apply Forall_app. split; auto. }
  assert (Sq : sumw (arr q) = sumw (arr (smp m)) + snd r) by (rewrite (sumw_perm Pq); cbn; lra).
  assert (Lq : length (arr q) = S (length (arr (smp m)))) by (rewrite (Permutation_length Pq); reflexivity).
  assert (Nq : arr q <> []) by (destruct (arr q); [cbn in Lq; lia|easy]).
  unfold mc_push, orig_median. destruct (arr (smp m)) as [|z t] eqn:El.
  - cbn [length Nat.eqb bind]. rewrite Eq. cbn [bind]. unfold post_push. rewrite Lq. cbn [length Nat.eqb].
    eexists. split; [reflexivity|]. cbn [smp]. split; auto.
    destruct l1; [|discriminate]. destruct l2; [|discriminate]. cbn in E'.
    unfold mc_inv. cbn [smp total kk sum0k]. rewrite E' in *. repeat (split; auto); try easy.
    + cbn. lra.
    + exists [], r, []. cbn. repeat split; auto; lra.
    + cbn. lra.
  - rewrite <- El in *. assert (Hne : arr (smp m) <> []) by (rewrite El; easy).
    replace (length (arr (smp m)) =? 0)%nat with false by (rewrite El; reflexivity).
    destruct (median_pos I Hne) as (v & a & x & b & -> & Eab & Ek & Hlow & Es & Hxv & Hvb & Htie).
    cbn [bind]. rewrite Eq. cbn [bind]. unfold post_push.
    replace (length (arr q) =? 1)%nat with false.
    2:{ symmetry. apply Nat.eqb_neq. rewrite Lq, El. cbn. lia. }
    rewrite Ht, <- Sq.
    assert (Fk : firstn (kk m) (arr (smp m)) = a ++ [x]) by (rewrite Ek, Eab; apply firstn_S_len).
    destruct (Rlt_dec (fst r) v) as [Hlt|Hge].
    + assert (Hlen : (length l1 <= kk m)%nat).
      { assert (E2 : l1 ++ l2 = (a ++ [x]) ++ b) by (rewrite <- E, Eab, <- app_assoc; reflexivity).
        destruct (split_compare _ _ _ _ E2) as [[H _]|[_ (c & Ec & Eb & Nc)]].
        - rewrite app_length in H. cbn in H. rewrite Ek. lia.
        - exfalso. destruct c as [|y c]; [easy|].
          assert (fst y <= fst r) by (apply H1; rewrite Ec; apply in_or_app; right; now left).
          assert (v <= fst y) by (apply Hvb; rewrite Eb; now left). lra. }
      assert (Fs : sumw (firstn (S (kk m)) (arr q)) = sum0k m + snd r).
      { rewrite E', firstn_ins by auto. rewrite <- E, Fk, sumw_app, Es. cbn. lra. }
      rewrite <- Fs.
      destruct (@dec_loop_ok q Pp (S (kk m))) as (k' & -> & Hk').
      { rewrite Lq. rewrite Eab, app_length, Ek. cbn. lia. }
      { rewrite Fs, Sq, Es. lra. }
      cbn [bind fst snd]. eexists. split; [reflexivity|]. split; [|auto].
      unfold mc_inv. cbn [smp total kk sum0k]. repeat (split; auto); try easy.
    + assert (Hlen : (kk m <= length l1)%nat).
      { assert (E2 : l1 ++ l2 = (a ++ [x]) ++ b) by (rewrite <- E, Eab, <- app_assoc; reflexivity).
        destruct (split_compare _ _ _ _ E2) as [[H (c & Ea & El2)]|[H _]].
        - rewrite app_length in H. cbn in H.
          destruct (Nat.eq_dec (length l1) (S (length a))) as [Q|Q]; [rewrite Ek; lia|]. exfalso.
          assert (Lc : (1 <= length c)%nat).
          { assert (T := f_equal (@List.length _) Ea). rewrite !app_length in T. cbn in T. lia. }
          assert (Hx : In x l2).
          { destruct c as [|y c] using rev_ind; [cbn in Lc; lia|]. rewrite app_assoc in Ea.
            apply app_inj_tail in Ea as [_ <-]. rewrite El2. apply in_or_app. left. apply in_or_app. right. now left. }
          apply H2 in Hx. lra.
        - rewrite app_length in H. cbn in H. lia. }
      assert (Fs : firstn (kk m) (arr q) = firstn (kk m) (arr (smp m))).
      { rewrite E, E'. now apply firstn_same. }
      assert (Fs' : firstn (kk m - 1) (arr q) = a).
      { rewrite E'. rewrite (@firstn_same l1 (r :: l2) l2) by lia. rewrite <- E, Eab, Ek.
        replace (S (length a) - 1)%nat with (length a) by lia.
        rewrite firstn_app, Nat.sub_diag, firstn_all. cbn. apply app_nil_r. }
      replace (sum0k m) with (sumw (firstn (kk m) (arr q))).
      2:{ rewrite Fs, Fk, sumw_app, Es. cbn. lra. }
      destruct (@inc_loop_ok q Pp Nq (length (arr q)) (kk m)) as (k' & -> & Hk').
      { rewrite Lq, Eab, app_length, Ek. cbn. lia. }
      { lia. }
      { right. rewrite Fs', Sq. lra. }
      cbn [bind fst snd]. eexists. split; [reflexivity|]. split; [|auto].
      unfold mc_inv. cbn [smp total kk sum0k]. repeat (split; auto); try easy.
Qed.

Definition equal_weights (l : list record) : Prop := exists w, Forall (fun r => snd r = w) l.

Lemma sumw_equal w l : Forall (fun r => snd r = w) l -> sumw l = INR (length l) * w.
Proof.
  induction 1 as [|r l Hr F IH]; [cbn; lra|]. cbn [sumw length]. rewrite S_INR, IH. cbn in Hr. rewrite Hr. lra.
Qed.

Lemma firstn_del (a0 b0 : list record) r k : (length a0 <= k)%nat ->
  sumw (firstn k (a0 ++ b0)) = sumw (firstn (S k) (a0 ++ r :: b0)) - snd r.
Proof. intros H. rewrite (@firstn_ins a0 b0 r k H). lra. Qed.

Lemma sumw_firstn_mono l i j : pos l -> (i <= j)%nat -> sumw (firstn i l) <= sumw (firstn j l).
Proof.
  intros P. revert i j. induction P as [|r l Hr P IH]; intros [|i] [|j] H; cbn; try lra; try lia.
  - assert (0 <= sumw (firstn j l)); [|lra]. specialize (IH 0%nat j ltac:(lia)). cbn in IH. exact IH.
  - specialize (IH i j ltac:(lia)). lra.
Qed.

(** the update after the record at position [length a0] was removed *)
Lemma post_remove_ok m a0 r b0 v q :
  mc_inv m -> arr (smp m) = a0 ++ r :: b0 -> arr q = a0 ++ b0 -> cap_ok q ->
  get_median m = Ok v ->
  (fst r < v \/ (kk m <= length a0)%nat \/ equal_weights (arr (smp m))) ->
  exists m', post_remove m q r v = Ok m' /\ mc_inv m' /\ smp m' = q.
Proof.
  intros I E Eq Hc' Hmed Hcond. assert (I' := I). destruct I' as (Hc & Hs & Hp & Ht & H0 & Hk).
  assert (Hne : arr (smp m) <> []) by (rewrite E; now destruct a0).
  assert (Hsq : sorted (arr q)) by (rewrite Eq; rewrite E in Hs; exact (sorted_del a0 r b0 Hs)).
  assert (Pq : pos (arr q)).
  { rewrite Eq. rewrite E in Hp. apply pos_app in Hp as [P1 P2]. inversion P2; subst. apply pos_app; auto. }
  assert (Sq : sumw (arr q) = sumw (arr (smp m)) - snd r).
  { rewrite E, Eq, !sumw_app. cbn. lra. }
  assert (Hr : 0 < snd r).
  { rewrite E in Hp. apply pos_app in Hp as [P1 P2]. now inversion P2. }
  unfold post_remove. rewrite Ht, <- Sq.
  destruct (arr q) as [|z t] eqn:Eqq.
  { cbn. eexists. split; [reflexivity|]. split; auto.
    unfold mc_inv. cbn [smp total kk sum0k]. rewrite Eqq. repeat (split; auto); try easy; try (now destruct Hc'). }
  rewrite <- Eqq in *. assert (Nq : arr q <> []) by (rewrite Eqq; easy).
  replace (length (arr q) =? 0)%nat with false by (rewrite Eqq; reflexivity).
  destruct (Nat.eqb_spec (length (arr q)) 1) as [L1|L1].
  { eexists. split; [reflexivity|]. split; auto.
    assert (Hs1 := sumw_pos Pq Nq).
    unfold mc_inv. cbn [smp total kk sum0k].
    rewrite Eqq in L1. destruct t; [|cbn in L1; lia].
    repeat (split; auto); try (now destruct Hc').
    - exists [], z, []. rewrite Eqq in *. cbn in *. repeat split; auto; lra.
    - rewrite Eqq. cbn. lra. }
  assert (L2 : (2 <= length (arr q))%nat) by (rewrite Eqq in *; cbn in *; lia).
  destruct (median_pos I Hne) as (v' & a & x & b & Hmed' & Eab & Ek & Hlow & Es & Hxv & Hvb & Htie).
  assert (v' = v) by congruence. subst v'.
  assert (Fa : firstn (length a) (arr (smp m)) = a).
  { rewrite Eab, firstn_app, Nat.sub_diag, firstn_all. cbn. apply app_nil_r. }
  assert (Fk : firstn (S (length a)) (arr (smp m)) = a ++ [x]) by (rewrite Eab; apply firstn_S_len).
  assert (LL : length (arr (smp m)) = S (length (arr q))).
  { rewrite E, Eq, !app_length. cbn. lia. }
  assert (Lk : (S (length a) <= length (arr (smp m)))%nat).
  { rewrite Eab, app_length. cbn. lia. }
  destruct (Rlt_dec (fst r) v) as [Hlt|Hge].
  - assert (Hi : (length a0 <= length a)%nat).
    { assert (E2 : a0 ++ r :: b0 = (a ++ [x]) ++ b) by (rewrite <- E, Eab, <- app_assoc; reflexivity).
      destruct (Nat.le_gt_cases (length a0) (length a)) as [?|Hgt]; auto. exfalso.
      assert (E3 : a0 ++ (r :: b0) = (a ++ [x]) ++ b) by exact E2.
      destruct (split_compare _ _ _ _ E3) as [[H (c & Ea & El)]|[H (c & Ea & Eb & Nc)]].
      - rewrite app_length in H. cbn in H.
        assert (T := f_equal (@List.length _) Ea). rewrite !app_length in T. cbn in T.
        destruct c; [|cbn in T; lia]. cbn in El. subst b. specialize (Hvb r (or_introl eq_refl)). lra.
      - assert (Hv := Hvb r). rewrite Eb in Hv. specialize (Hv ltac:(apply in_or_app; right; now left)). lra. }
    rewrite Ek.
    assert (Fs : sumw (firstn (length a) (arr q)) = sum0k m - snd r).
    { rewrite Eq, (@firstn_del a0 b0 r (length a) Hi), <- E, Fk, sumw_app, Es. cbn. lra. }
    rewrite <- Fs.
    destruct (@inc_loop_ok q Pq Nq (length (arr q)) (length a)) as (k' & -> & Hk').
    { lia. } { lia. }
    { destruct (length a) as [|n] eqn:La; [now left|]. right. rewrite Sq.
      cbn [Nat.sub]. rewrite Nat.sub_0_r.
      destruct (Nat.le_gt_cases (length a0) n) as [Hin|Hin].
      - rewrite Eq, (@firstn_del a0 b0 r n Hin), <- E, Fa. lra.
      - (* the removed record is x itself, so the median was a mean *)
        assert (Ex : a = a0 /\ x = r).
        { assert (E2 : a ++ [x] ++ b = a0 ++ [r] ++ b0) by (cbn [app]; rewrite <- Eab; exact E).
          assert (La0 : length a = length a0) by lia.
          clear - E2 La0. revert a0 E2 La0. induction a as [|y a IH]; intros [|y0 a0] E2 L; cbn in *; try lia.
          - split; auto. congruence.
          - injection E2 as -> E2. destruct (IH a0 E2) as [-> ->]; [lia|]. auto. }
        destruct Ex as [-> ->]. specialize (Htie Hlt).
        rewrite Eq. rewrite firstn_app. replace (n - length a0)%nat with 0%nat by lia. cbn [firstn].
        rewrite app_nil_r.
        assert (sumw (firstn n a0) <= sumw a0); [|lra].
        rewrite <- (firstn_all a0) at 2. apply sumw_firstn_mono; [|lia].
        rewrite E in Hp. now apply pos_app in Hp as [? _]. }
    cbn [bind fst snd]. eexists. split; [reflexivity|]. split; [|auto].
    unfold mc_inv. cbn [smp total kk sum0k]. repeat (split; auto); try easy; try (now destruct Hc').
  - assert (Main : (S (length a) <= length (arr q))%nat /\ sumw (firstn (S (length a)) (arr q)) = sum0k m).
    { destruct Hcond as [?|[Hi|[w Hw]]]; [lra| |].
      - rewrite Ek in Hi. split; [rewrite Eq, app_length; lia|].
        rewrite Eq, (@firstn_same a0 b0 (r :: b0)) by auto. rewrite <- E, Fk, sumw_app, Es. cbn. lra.
      - assert (Hwq : Forall (fun r => snd r = w) (arr q)).
        { rewrite Eq. rewrite E in Hw. apply Forall_app in Hw as [W1 W2]. inversion W2; subst. apply Forall_app; auto. }
        assert (Hwa : Forall (fun r => snd r = w) a).
        { rewrite Eab in Hw. now apply Forall_app in Hw as [W1 W2]. }
        assert (Hwx : snd x = w).
        { rewrite Eab in Hw. apply Forall_app in Hw as [W1 W2]. now inversion W2. }
        assert (Hrw : snd r = w).
        { rewrite E in Hw. apply Forall_app in Hw as [W1 W2]. now inversion W2. }
        assert (Hkn : (S (length a) <= length (arr q))%nat).
        { destruct (Nat.le_gt_cases (S (length a)) (length (arr q))) as [?|Hgt]; auto. exfalso.
          assert (Ea : length a = length (arr q)) by lia.
          destruct Hlow as [Hlow _]. rewrite (sumw_equal Hwa), (sumw_equal Hw), LL, Ea, S_INR in Hlow.
          assert (2 <= INR (length (arr q))).
          { change 2 with (INR 2). now apply le_INR. }
          rewrite Hrw in Hr. nra. }
        split; auto. rewrite Es.
        assert (Hf : Forall (fun r => snd r = w) (firstn (S (length a)) (arr q))).
        { apply Forall_forall. intros y Hy. rewrite Forall_forall in Hwq. apply Hwq.
          rewrite <- (firstn_skipn (S (length a)) (arr q)). apply in_or_app; auto. }
        rewrite (sumw_equal Hf), firstn_length, Nat.min_l by auto. rewrite (sumw_equal Hwa), Hwx, S_INR. lra. }
    destruct Main as [Mk Ms]. rewrite Ek, <- Ms.
    destruct (@dec_loop_ok q Pq (S (length a))) as (k' & -> & Hk').
    { lia. } { rewrite Ms, Sq, Es. lra. }
    cbn [bind fst snd]. eexists. split; [reflexivity|]. split; [|auto].
    unfold mc_inv. cbn [smp total kk sum0k]. repeat (split; auto); try easy; try (now destruct Hc').
Qed.

(* ------------------------------------------------------------------------------------------------ *)
(** ** C60: histories *)

(** which operations keep the calculator right in contents [M]: pushes with positive weight; removals of a
    present record (pop: of a minimum) whose value is not exactly the current median, or any removal of a
    present record when all current records have the same weight *)
Definition allowed (M : list record) (o : pq_op) : Prop :=
  match o with
  | PPush r => 0 < snd r
  | PPop => equal_weights M \/
            forall r, In r M -> (forall x, In x M -> fst r <= fst x) -> ~ is_weighted_median M (fst r)
  | PRemove r => In r M /\ (equal_weights M \/ ~ is_weighted_median M (fst r))
  | PReset => True
  end.

Fixpoint allowed_history (M : list record) (ops : list pq_op) : Prop :=
  match ops with
  | [] => True
  | o :: rest => allowed M o /\ forall M' out, ms_step M o M' out -> allowed_history M' rest
  end.

Lemma allowed_position m r a0 b0 v :
  mc_inv m -> arr (smp m) = a0 ++ r :: b0 -> get_median m = Ok v ->
  (equal_weights (arr (smp m)) \/ ~ is_weighted_median (arr (smp m)) (fst r)) ->
  fst r < v \/ (kk m <= length a0)%nat \/ equal_weights (arr (smp m)).
Proof.
  intros I E Hv [H|H]; [now right; right|].
  assert (Hne : arr (smp m) <> []) by (rewrite E; now destruct a0).
  destruct (median_correct I Hne) as (v0 & Hv0 & Hm). assert (v0 = v) by congruence. subst v0.
  destruct (Rtotal_order (fst r) v) as [L|[Q|G]]; [now left| |].
  - exfalso. apply H. now rewrite Q.
  - right. left. destruct (median_pos I Hne) as (v' & a & x & b & Hv' & Eab & Ek & _ & _ & Hxv & _ & _).
    assert (v' = v) by congruence. subst v'.
    destruct (Nat.le_gt_cases (kk m) (length a0)) as [?|Hlt]; auto. exfalso.
    destruct I as (_ & Hs & _).
    assert (Hr : In r (a ++ [x])).
    { assert (E2 : a0 ++ r :: b0 = (a ++ [x]) ++ b) by (rewrite <- E, Eab, <- app_assoc; reflexivity).
      destruct (split_compare _ _ _ _ E2) as [[_ (c & Ea & El)]|[H' _]].
      - destruct c as [|y c].
        + assert (T := f_equal (@List.length _) Ea). rewrite app_nil_r, app_length in T. cbn in T. lia.
        + injection El as <- _. rewrite Ea. apply in_or_app. right. now left.
      - rewrite app_length in H'. cbn in H'. lia. }
    assert (fst r <= fst x); [|lra].
    apply in_app_or in Hr as [Hr|[<-|[]]]; [|lra].
    rewrite Eab in Hs. apply sorted_app in Hs as (_ & _ & Hs). apply Hs; auto. now left.
Qed.

Lemma mc_step_ok m o : mc_inv m -> allowed (arr (smp m)) o ->
  exists m' out, mc_step m o = Ok m' /\ mc_inv m' /\ ms_step (arr (smp m)) o (arr (smp m')) out.
Proof.
  intros I Ha. assert (I' := I). destruct I' as (Hc & Hs & Hp & Ht & H0 & Hk).
  destruct o as [r| |r|]; cbn [mc_step allowed] in *.
  - destruct (@mc_push_ok m r I Ha) as (m' & -> & I' & P). exists m', (ORet 0). split; [reflexivity|]. split; [exact I'|].
    now constructor.
  - unfold mc_pop, orig_median, pq_pop. destruct (arr (smp m)) as [|r b] eqn:E.
    + cbn. exists m, (OPop None). rewrite E. split; [reflexivity|]. split; [exact I|]. constructor.
    + rewrite <- E in *. assert (Hne : arr (smp m) <> []) by (rewrite E; easy).
      replace (length (arr (smp m)) =? 0)%nat with false by (rewrite E; reflexivity).
      destruct (median_correct I Hne) as (v & Hv & _). rewrite Hv. cbn [bind].
      assert (Hmin : forall x, In x (arr (smp m)) -> fst r <= fst x).
      { intros x Hx. rewrite E in Hx. destruct Hx as [<-|Hx]; [lra|].
        rewrite E in Hs. inversion Hs as [|? ? _ HF]; subst. rewrite Forall_forall in HF. now apply HF. }
      assert (E1 : arr (smp m) = [] ++ r :: b) by exact E.
      assert (Sh : shift_out 0 (arr (smp m)) = b) by (rewrite E1; exact (shift_out_spec [] r b)).
      rewrite Sh.
      destruct (@post_remove_ok m [] r b v (mkPq (capacity (smp m)) b) I E1 eq_refl) as (m' & -> & I' & Eq).
      { exact (@cap_del (smp m) [] r b Hc E1). }
      { exact Hv. }
      { apply (@allowed_position m r [] b v I E1 Hv). destruct Ha as [Ha|Ha]; [now left|right].
        apply Ha; auto. rewrite E. now left. }
      cbn [bind fst snd]. exists m', (OPop (Some r)). split; [reflexivity|]. split; auto.
      rewrite Eq. cbn [arr]. constructor; auto. rewrite E. apply Permutation_refl.
  - destruct Ha as [Hin Ha].
    unfold mc_remove, orig_median, pq_remove. destruct (arr (smp m)) as [|z t] eqn:E; [easy|].
    rewrite <- E in *. assert (Hne : arr (smp m) <> []) by (rewrite E; easy).
    replace (length (arr (smp m)) =? 0)%nat with false by (rewrite E; reflexivity).
    destruct (median_correct I Hne) as (v & Hv & _). rewrite Hv. cbn [bind].
    pose proof (find_idx_spec r (arr (smp m))) as F. destruct (find_idx r (arr (smp m))) as [i|]; [|easy].
    destruct F as (a0 & b0 & E1 & <- & _).
    assert (Sh : shift_out (length a0) (arr (smp m)) = a0 ++ b0) by (rewrite E1; apply shift_out_spec).
    rewrite Sh.
    destruct (@post_remove_ok m a0 r b0 v (mkPq (capacity (smp m)) (a0 ++ b0)) I E1 eq_refl) as (m' & -> & I' & Eq).
    { exact (@cap_del (smp m) a0 r b0 Hc E1). }
    { exact Hv. }
    { exact (@allowed_position m r a0 b0 v I E1 Hv Ha). }
    cbn [bind fst snd]. exists m', (ORet 0). split; [reflexivity|]. split; auto.
    rewrite Eq. cbn [arr]. constructor. rewrite E1. apply Permutation_sym, Permutation_middle.
  - exists (mc_reset m), (ORet 0). split; [reflexivity|]. split; [|constructor].
    destruct Hc as [Hc1 Hc2]. unfold mc_inv, mc_reset, pq_reset, cap_ok. cbn.
    repeat (split; auto); try easy; try constructor; try lia.
Qed.

Lemma mc_new_inv cap : (1 <= cap)%nat -> mc_inv (mc_new cap).
Proof.
  intros H. unfold mc_inv, mc_new, pq_new, cap_ok. cbn.
  repeat (split; auto); try easy; try constructor; try lia.
Qed.

(** C60, partial: for every history in which no record is removed whose value is exactly the current median
    (unless all current records have the same weight), get_median is the weighted median of the current
    records. *)
Theorem C60_median_history_partial cap ops :
  (1 <= cap)%nat -> allowed_history [] ops ->
  exists m outs, mc_run (mc_new cap) ops = Ok m /\ ms_run [] ops (arr (smp m)) outs /\
    (arr (smp m) <> [] ->
     exists v, get_median m = Ok v /\ is_weighted_median (arr (smp m)) v).
Proof.
  intros Hcap.
  assert (G : forall ops m, mc_inv m -> allowed_history (arr (smp m)) ops ->
    exists m' outs, mc_run m ops = Ok m' /\ ms_run (arr (smp m)) ops (arr (smp m')) outs /\ mc_inv m').
  { clear. induction ops as [|o ops IH]; intros m I Ha; cbn [mc_run].
    - exists m, []. split; [reflexivity|]. split; [constructor|exact I].
    - destruct Ha as [Ha Hr]. destruct (@mc_step_ok m o I Ha) as (m1 & out & -> & I1 & M1). cbn [bind].
      destruct (IH m1 I1 (Hr _ _ M1)) as (m2 & outs & -> & M2 & I2).
      exists m2, (out :: outs). split; [reflexivity|]. split; auto. econstructor; eauto. }
  intros Ha. destruct (G ops (mc_new cap) (mc_new_inv Hcap) Ha) as (m & outs & E & M & I).
  exists m, outs. split; auto. split; auto. intros Hne. now apply median_correct.
Qed.

(** pushes only *)
Theorem C60_push_only cap rs :
  (1 <= cap)%nat -> Forall (fun r => 0 < snd r) rs ->
  exists m, mc_run (mc_new cap) (map PPush rs) = Ok m /\ Permutation (arr (smp m)) rs /\
    (rs <> [] -> exists v, get_median m = Ok v /\ is_weighted_median rs v).
Proof.
  intros Hcap HF.
  destruct (@C60_median_history_partial cap (map PPush rs) Hcap) as (m & outs & E & M & V).
  { revert HF. generalize (@nil record). induction rs as [|r rs IH]; intros M HF; cbn; auto.
    inversion HF; subst. split; auto. }
  assert (P : forall M rs M' outs, ms_run M (map PPush rs) M' outs -> Permutation M' (rev rs ++ M)).
  { clear. intros M rs. revert M. induction rs as [|r rs IH]; intros M M' outs H; cbn in H; inversion H; subst.
    - cbn. auto.
    - match goal with H : ms_step _ _ _ _ |- _ => inversion H; subst end.
      match goal with H : ms_run _ _ _ _ |- _ => apply IH in H as P end. cbn [rev].
      rewrite <- app_assoc. eapply Permutation_trans; [exact P|]. apply Permutation_app_head. auto. }
  apply P in M. rewrite app_nil_r in M.
  assert (Pm : Permutation (arr (smp m)) rs) by (eapply Permutation_trans; [exact M|apply Permutation_sym, Permutation_rev]).
  exists m. split; auto. split; auto. intros Hne.
  destruct V as (v & Ev & Hv).
  { intros N. rewrite N in Pm. apply Permutation_nil in Pm. congruence. }
  exists v. split; auto. eapply is_weighted_median_perm; eauto.
Qed.

(** unweighted use: all pushes carry the same positive weight, removals are of present records *)
Fixpoint present_removals (M : list record) (ops : list pq_op) : Prop :=
  match ops with
  | [] => True
  | o :: rest => (match o with PRemove r => In r M | _ => True end) /\
                 forall M' out, ms_step M o M' out -> present_removals M' rest
  end.

Theorem C60_equal_weights cap w ops :
  (1 <= cap)%nat -> 0 < w -> Forall (fun o => match o with PPush r => snd r = w | _ => True end) ops ->
  present_removals [] ops ->
  exists m outs, mc_run (mc_new cap) ops = Ok m /\ ms_run [] ops (arr (smp m)) outs /\
    (arr (smp m) <> [] ->
     exists v, get_median m = Ok v /\ is_weighted_median (arr (smp m)) v).
Proof.
  intros Hcap Hw HF HP. apply C60_median_history_partial; auto.
  assert (G : forall M, Forall (fun r => snd r = w) M -> present_removals M ops -> allowed_history M ops).
  { clear HP. induction HF as [|o ops Ho HF IH]; intros M HM HP; cbn in *; auto.
    destruct HP as [HP1 HP2]. split.
    - destruct o as [r| |r|]; cbn; auto.
      + lra.
      + left. now exists w.
      + split; auto. left. now exists w.
    - intros M' out HS. apply IH; [|eapply HP2; eauto].
      inversion HS; subst; auto.
      + eapply Permutation_Forall; [apply Permutation_sym; eauto|]. now constructor.
      + match goal with P : Permutation M (_ :: _) |- _ => apply (Permutation_Forall P) in HM; now inversion HM end.
      + match goal with P : Permutation M (_ :: _) |- _ => apply (Permutation_Forall P) in HM; now inversion HM end. }
  apply G; auto.
Qed.

Ltac rdec := repeat (cbn; try (unfold rec_eq; cbn); match goal with
  | |- context [Rlt_dec ?a ?b] => destruct (Rlt_dec a b); try (exfalso; lra)
  | |- context [Rge_dec ?a ?b] => destruct (Rge_dec a b); try (exfalso; lra)
  | |- context [Rgt_dec ?a ?b] => destruct (Rgt_dec a b); try (exfalso; lra)
  | |- context [Req_EM_T ?a ?b] => destruct (Req_EM_T a b); try (exfalso; lra)
  | |- context [Rle_dec ?a ?b] => destruct (Rle_dec a b); try (exfalso; lra)
  end); cbn.

(** C60 fails in general: removing the median record when weights differ leaves the bookkeeping of the prefix
    weight stale.  After pushing (1,1), (2,5), (3,1) and removing (2,5) the records are (1,1), (3,1), whose
    weighted median is 2, but get_median returns 1. *)
Theorem C60_remove_median_refuted :
  exists m, mc_run (mc_new 3) [PPush (1, 1); PPush (2, 5); PPush (3, 1); PRemove (2, 5)] = Ok m /\
    arr (smp m) = [(1, 1); (3, 1)] /\ get_median m = Ok 1 /\
    is_weighted_median [(1, 1); (3, 1)] 2 /\ ~ is_weighted_median [(1, 1); (3, 1)] 1.
Proof.
  assert (W : is_weighted_median [(1, 1); (3, 1)] 2).
  { exists 1, 3. unfold mass_lt, mass_le. rdec.
    repeat split; auto; lra. }
  eexists. split; [|split; [|split; [|split]]].
  - unfold mc_run, mc_step, mc_push, mc_remove, orig_median, get_median, pq_push, post_push, post_remove, pq_remove, rec_eq, shift_out.
    rdec. reflexivity.
  - reflexivity.
  - unfold get_median. rdec. reflexivity.
  - exact W.
  - intros H. assert (2 = 1); [|lra]. eapply weighted_median_unique; eauto.
    repeat constructor; cbn; lra.
Qed.

(** ... and so does popping a minimum that is the median: (1,10), (2,1), (3,1), pop *)
Theorem C60_pop_median_refuted :
  exists m, mc_run (mc_new 3) [PPush (1, 10); PPush (2, 1); PPush (3, 1); PPop] = Ok m /\
    arr (smp m) = [(2, 1); (3, 1)] /\ get_median m = Ok 2 /\
    is_weighted_median [(2, 1); (3, 1)] (5 / 2) /\ ~ is_weighted_median [(2, 1); (3, 1)] 2.
Proof.
  assert (W : is_weighted_median [(2, 1); (3, 1)] (5 / 2)).
  { exists 2, 3. unfold mass_lt, mass_le. rdec. repeat split; auto; lra. }
  eexists. split; [|split; [|split; [|split]]].
  - unfold mc_run, mc_step, mc_push, mc_pop, orig_median, get_median, pq_push, pq_pop, post_push, post_remove, shift_out.
    rdec. reflexivity.
  - reflexivity.
  - unfold get_median. rdec. reflexivity.
  - exact W.
  - intros H. assert (5 / 2 = 2); [|lra]. eapply weighted_median_unique; eauto.
    repeat constructor; cbn; lra.
Qed.

(** removing an absent record reports -1 but still changes the bookkeeping: with (1,1), (2,1), (3,1) the median
    is 2; after the failed removal of (5,3) get_median returns 1 although the records are the same *)
Theorem C60_remove_absent_refuted :
  exists m0 m, mc_run (mc_new 3) [PPush (1, 1); PPush (2, 1); PPush (3, 1)] = Ok m0 /\
    mc_remove m0 (5, 3) = Ok (m, (-1)%Z) /\ arr (smp m) = arr (smp m0) /\
    get_median m0 = Ok 2 /\ get_median m = Ok 1.
Proof.
  eexists. eexists. split; [|split; [|split; [|split]]].
  - unfold mc_run, mc_step, mc_push, orig_median, get_median, pq_push, post_push. rdec. reflexivity.
  - unfold mc_remove, orig_median, get_median, post_remove, pq_remove, rec_eq. rdec. reflexivity.
  - reflexivity.
  - unfold get_median. rdec. reflexivity.
  - unfold get_median. rdec. reflexivity.
Qed.

(** a history meeting the hypotheses of the partial theorem, with a removal *)
Example C60_case : allowed_history [] [PPush (1, 1); PPush (2, 5); PPush (3, 1); PRemove (3, 1)].
Proof.
  cbn. split; [lra|]. intros M1 o1 S1. split; [lra|]. intros M2 o2 S2. split; [lra|]. intros M3 o3 S3.
  assert (P : Permutation M3 [(3, 1); (2, 5); (1, 1)]).
  { inversion S1; subst. inversion S2; subst. inversion S3; subst.
    eapply Permutation_trans; [eassumption|]. constructor. eapply Permutation_trans; [eassumption|].
    constructor. assumption. }
  split; [|auto]. split.
  - apply (Permutation_in _ (Permutation_sym P)). now left.
  - right. intros H. apply (is_weighted_median_perm P) in H.
    assert (is_weighted_median [(3, 1); (2, 5); (1, 1)] 2).
    { exists 2, 2. unfold mass_lt, mass_le. rdec. repeat split; auto; lra. }
    assert (3 = 2); [|lra]. eapply weighted_median_unique; eauto. repeat constructor; cbn; lra.
Qed.

Print Assumptions C59_pqueue_history.
Print Assumptions C60_median_history_partial.
Print Assumptions C60_equal_weights.
Print Assumptions C60_remove_median_refuted.
