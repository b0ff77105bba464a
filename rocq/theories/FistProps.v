(** Theorems about FeatureImportancesSelectionTransformer (C216), general_estimator (C217), DefaultIdentifier (C218). *)
From Coq Require Import String QArith Qround Qminmax Permutation Sorted Lqa.
From Verif Require Import Base EstUtilsModel MetaModel MetaProofs UtilsModel UtilsProps MapModel MapProps TransModel.
Set Implicit Arguments.
Local Notation length := List.length.
Local Open Scope string_scope.
Local Open Scope list_scope.
Local Open Scope nat_scope.

(** *** C216: which features are selected *)
Notation imp l i := (nth i l 0%Q).
(** what numpy promises about argsort *)
Definition argsort_ok (argsort : list Q -> list nat) : Prop := forall l, Permutation (argsort l) (seq 0 (length l)) /\
  forall i j, i < j -> j < length l -> (imp l (nth i (argsort l) 0%nat) <= imp l (nth j (argsort l) 0%nat))%Q.

Lemma inc_id n (f : nat -> nat) : (forall i, i < n -> f i < n) -> (forall i j, i < j -> j < n -> f i < f j) -> forall i, i < n -> f i = i.
Proof.
  intros B M i Hi. assert (G1 : forall i, i < n -> i <= f i). { induction i0 as [|k IH]; intros H; [lia|]. specialize (IH ltac:(lia)). specialize (M k (S k) ltac:(lia) H). lia. }
  assert (G2 : forall d i, i + d < n -> f i + d <= f (i + d)). { induction d as [|d IH]; intros j H; [rewrite !Nat.add_0_r; lia|]. specialize (IH j ltac:(lia)). specialize (M (j + d) (j + S d) ltac:(lia) H). lia. }
  specialize (G1 i Hi). specialize (G2 (n - 1 - i) i ltac:(lia)). specialize (B (i + (n - 1 - i)) ltac:(lia)). lia.
Qed.
Lemma nth_map_inj (l : list nat) i : i < length l -> imp (map (fun i => inject_Z (Z.of_nat i)) l) i = inject_Z (Z.of_nat (nth i l 0)).
Proof. revert i. induction l as [|a l IH]; intros [|i] H; cbn in *; try lia; auto. apply IH. lia. Qed.

Lemma filter_map_len {A B} (f : B -> bool) (g : A -> B) l : length (filter f (map g l)) = length (filter (fun x => f (g x)) l).
Proof. induction l as [|a l IH]; [reflexivity|]. cbn [map filter]. destruct (f (g a)); cbn [length]; now rewrite IH. Qed.
Lemma filter_nth_len {A} (f : A -> bool) (d : A) l : length (filter (fun i => f (nth i l d)) (seq 0 (length l))) = length (filter f l).
Proof.
  induction l as [|a l IH]; [reflexivity|]. change (seq 0 (length (a :: l))) with (0 :: seq 1 (length l)). rewrite <- seq_shift. cbn [filter]. change (nth 0 (a :: l) d) with a.
  pose proof (filter_map_len (fun i => f (nth i (a :: l) d)) S (seq 0 (length l))) as E. assert (E2 : length (filter (fun i => f (nth i (a :: l) d)) (map S (seq 0 (length l)))) = length (filter f l)) by (rewrite E; exact IH). clear E. rename E2 into E. destruct (f a); cbn [length]; now rewrite E.
Qed.
Lemma nth_skipn {A} (d : A) a b l : nth a (skipn b l) d = nth (b + a) l d.
Proof. revert l. induction b as [|b IH]; intros l; [reflexivity|]. destruct l as [|x l]; [destruct a; reflexivity|]. apply IH. Qed.
Section Sel.
Variable argsort : list Q -> list nat.
Hypothesis AS : argsort_ok argsort.
Definition ranks (l : list Q) : list nat := argsort (map (fun i => inject_Z (Z.of_nat i)) (argsort l)).
Lemma argsort_len l : length (argsort l) = length l.
Proof. destruct (AS l) as [P _]. apply Permutation_length in P. now rewrite seq_length in P. Qed.
Lemma argsort_lt l i : i < length l -> nth i (argsort l) 0%nat < length l.
Proof. intros H. destruct (AS l) as [P _]. assert (I : In (nth i (argsort l) 0) (argsort l)) by (apply nth_In; now rewrite argsort_len). apply (Permutation_in _ P) in I. apply in_seq in I. lia. Qed.
Lemma argsort_nodup l : NoDup (argsort l).
Proof. destruct (AS l) as [P _]. apply Permutation_sym in P. eapply Permutation_NoDup; [exact P|apply seq_NoDup]. Qed.
Lemma ranks_len l : length (ranks l) = length l.
Proof. unfold ranks. now rewrite argsort_len, map_length, argsort_len. Qed.
Lemma ranks_inverse l i : i < length l -> nth (nth i (ranks l) 0) (argsort l) 0 = i.
Proof.
  set (P := argsort l). set (R := ranks l). assert (LP : length P = length l) by apply argsort_len. assert (LR : length R = length l) by apply ranks_len.
  set (l2 := map (fun i => inject_Z (Z.of_nat i)) P). assert (L2 : length l2 = length l) by (unfold l2; now rewrite map_length).
  assert (RB : forall k, k < length l -> nth k R 0 < length l). { intros k Hk. unfold R, ranks. fold P l2. rewrite <- L2. apply argsort_lt. now rewrite L2. }
  intros Hi. apply (@inc_id (length l) (fun i => nth (nth i R 0) P 0)); auto.
  - intros k Hk. apply argsort_lt. auto.
  - intros a b Hab Hb. destruct (AS l2) as [_ M]. specialize (M a b Hab). rewrite L2 in M. specialize (M Hb). change (argsort l2) with R in M. unfold l2 in M. rewrite !nth_map_inj in M by (rewrite LP; apply RB; lia). rewrite <- Zle_Qle in M.
    assert (NE : nth (nth a R 0) P 0 <> nth (nth b R 0) P 0); [|lia]. intros E. assert (E2 : nth a R 0 = nth b R 0). { eapply (proj1 (NoDup_nth P 0)); [apply argsort_nodup|rewrite LP; apply RB; lia|rewrite LP; apply RB; lia|exact E]. }
    assert (a = b); [|lia]. eapply (proj1 (NoDup_nth R 0)); [apply argsort_nodup|lia|lia|exact E2].
Qed.
Lemma ranks_order l i j : i < length l -> j < length l -> nth i (ranks l) 0 < nth j (ranks l) 0 -> (imp l i <= imp l j)%Q.
Proof.
  intros Hi Hj H. destruct (AS l) as [_ M]. assert (RB : nth j (ranks l) 0 < length l). { set (l2 := map (fun i => inject_Z (Z.of_nat i)) (argsort l)). assert (L2 : length l2 = length l) by (unfold l2; now rewrite map_length, argsort_len). unfold ranks. fold l2. rewrite <- L2. apply argsort_lt. now rewrite L2. }
  specialize (M _ _ H RB). now rewrite !ranks_inverse in M.
Qed.
Lemma count_ranks l (f : nat -> bool) : length (filter (fun i => f (nth i (ranks l) 0)) (seq 0 (length l))) = length (filter f (seq 0 (length l))).
Proof.
  assert (E : forall L : list nat, length (filter (fun i => f (nth i L 0)) (seq 0 (length L))) = length (filter f L)) by (intros L; apply filter_nth_len).
  rewrite <- (ranks_len l). rewrite E. rewrite ranks_len. assert (P : Permutation (ranks l) (seq 0 (length l))). { destruct (AS (map (fun i => inject_Z (Z.of_nat i)) (argsort l))) as [P _]. rewrite map_length, argsort_len in P. exact P. }
  clear E. induction P as [|x a b P IH|x y a|a b c P1 IH1 P2 IH2]; cbn [filter]; auto; [destruct (f x); cbn [length]; now rewrite ?IH|destruct (f x), (f y); reflexivity|congruence].
Qed.
Lemma count_ge n z : length (filter (fun i => (z <=? Z.of_nat i)%Z) (seq 0 n)) = Z.to_nat (Z.of_nat n - Z.max 0 z).
Proof.
  induction n as [|n IH]; [cbn; lia|]. rewrite seq_S, filter_app, app_length, IH. cbn [filter plus]. destruct (z <=? Z.of_nat n)%Z eqn:E; cbn [length]; [apply Z.leb_le in E|apply Z.leb_gt in E]; lia.
Qed.

(** how many features a number asks for: a float strictly between 0 and 1 is a share of them, rounded up *)
Definition amount (nu : number) (n : nat) : Z :=
  if n_float nu && (qltb 0 (n_val nu) && qltb (n_val nu) 1) then Qceiling (inject_Z (Z.of_nat n) * n_val nu) else Qfloor (n_val nu).
Definition clip (n : nat) (z : Z) : nat := Z.to_nat (Z.min (Z.of_nat n) (Z.max 0 z)).
Lemma indexed_sorted l f : StronglySorted lt (indexed l f).
Proof.
  unfold indexed. generalize 0. induction (length l) as [|n IH]; intros k; [constructor|]. cbn [seq filter]. destruct (f k); [|apply IH]. constructor; [apply IH|]. apply Forall_forall. intros x H. apply filter_In in H. destruct H as [H _]. apply in_seq in H. lia.
Qed.
Lemma Qfloor_ge z q : (z <= Qfloor q)%Z <-> (inject_Z z <= q)%Q.
Proof.
  split; [intros H; eapply Qle_trans; [|apply Qfloor_le]; now rewrite <- Zle_Qle|]. intros H. apply Qfloor_resp_le in H. now rewrite Qfloor_Z in H.
Qed.

Theorem C216_number (p : sel_params) (imps : list Q) nu sel : sp_strategy p = Some SNumber \/ (sp_strategy p = None /\ sp_threshold p = None) -> sp_number p = Some nu -> select argsort imps p = Ok sel ->
  StronglySorted lt sel /\ (forall i, In i sel -> i < length imps) /\ length sel = clip (length imps) (amount nu (length imps)) /\
  forall i j, In i sel -> j < length imps -> ~ In j sel -> (imp imps j <= imp imps i)%Q.
Proof.
  intros HS HN H. unfold select in H. destruct (length imps =? 0) eqn:L0; [discriminate|]. assert (D : detect p = Ok (SNumber, match sp_threshold p with Some t => t | None => (1 # 10)%Q end, match sp_quantile p with Some q => q | None => (2 # 10)%Q end, nu)).
  { unfold detect. rewrite HN. destruct HS as [->|[-> ->]]; reflexivity. }
  rewrite D in H. cbn [bind] in H. injection H as <-. set (nv := if n_float nu && _ then _ else _). fold (ranks imps). set (n := length imps).
  assert (FL : Qfloor nv = amount nu n) by (unfold nv, amount; destruct (n_float nu && _); [apply Qfloor_Z|reflexivity]).
  assert (KE : forall k, Qle_bool (inject_Z (Z.of_nat n) - nv) (inject_Z (Z.of_nat k)) = ((Z.of_nat n - amount nu n) <=? Z.of_nat k)%Z).
  { intros k. apply eq_true_iff_eq. rewrite Qle_bool_iff, Z.leb_le, <- FL. transitivity (Z.of_nat n - Z.of_nat k <= Qfloor nv)%Z; [|lia]. rewrite Qfloor_ge. unfold Z.sub. rewrite inject_Z_plus, inject_Z_opp. split; lra. }
  assert (EX : indexed imps (fun i => Qle_bool (inject_Z (Z.of_nat n) - nv) (inject_Z (Z.of_nat (nth i (ranks imps) 0%nat)))) = indexed imps (fun i => ((Z.of_nat n - amount nu n) <=? Z.of_nat (nth i (ranks imps) 0%nat))%Z)).
  { unfold indexed. apply filter_ext. intros i. apply KE. }
  rewrite EX. split; [apply indexed_sorted|]. split; [intros i H; unfold indexed in H; apply filter_In in H; destruct H as [H _]; apply in_seq in H; lia|]. split.
  - unfold indexed. rewrite (count_ranks imps (fun k => ((Z.of_nat n - amount nu n) <=? Z.of_nat k)%Z)). rewrite count_ge. unfold clip. fold n. lia.
  - intros i j Hi Hj Nj. unfold indexed in *. apply filter_In in Hi. destruct Hi as [Hi Ri]. apply in_seq in Hi. apply Z.leb_le in Ri. destruct (Z.leb_spec (Z.of_nat n - amount nu n) (Z.of_nat (nth j (ranks imps) 0%nat))) as [K|K].
    + exfalso. apply Nj. apply filter_In. split; [apply in_seq; lia|now apply Z.leb_le].
    + apply ranks_order; lia.
Qed.
Theorem C216_threshold (p : sel_params) (imps : list Q) sel : sp_strategy p = Some SThreshold \/ (sp_strategy p = None /\ (sp_threshold p <> None \/ (sp_number p = None /\ sp_quantile p = None))) -> select argsort imps p = Ok sel ->
  StronglySorted lt sel /\ forall i, In i sel <-> i < length imps /\ (match sp_threshold p with Some t => t | None => 1 # 10 end <= imp imps i)%Q.
Proof.
  intros HS H. unfold select in H. destruct (length imps =? 0); [discriminate|]. assert (D : exists a b, detect p = Ok (SThreshold, match sp_threshold p with Some t => t | None => (1 # 10)%Q end, a, b)).
  { unfold detect. destruct HS as [->|[-> [K|[K1 K2]]]]; [do 2 eexists; reflexivity| |]; [destruct (sp_threshold p); [do 2 eexists; reflexivity|contradiction]|rewrite K1, K2; destruct (sp_threshold p); do 2 eexists; reflexivity]. }
  destruct D as (a & b & D). rewrite D in H. cbn [bind] in H. injection H as <-. split; [apply indexed_sorted|]. intros i. unfold indexed. rewrite filter_In, in_seq, Qle_bool_iff. intuition lia.
Qed.

(** quantile *)
Lemma insertQ_perm a l : Permutation (insertQ a l) (a :: l).
Proof. induction l as [|b l IH]; cbn; [auto|]. destruct (Qle_bool a b); [auto|]. rewrite IH. apply perm_swap. Qed.
Lemma sortQ_perm l : Permutation (sortQ l) l.
Proof. induction l as [|a l IH]; cbn; [auto|]. rewrite insertQ_perm. now rewrite IH. Qed.
Lemma insertQ_sorted a l : StronglySorted Qle l -> StronglySorted Qle (insertQ a l).
Proof.
  induction l as [|b l IH]; intros H; cbn; [repeat constructor|]. inversion H; subst. destruct (Qle_bool a b) eqn:E.
  - apply Qle_bool_iff in E. constructor; [auto|]. constructor; [auto|]. eapply Forall_impl; [|exact H3]. intros c Hc. eapply Qle_trans; eauto.
  - assert (Lba : (b <= a)%Q). { apply Qlt_le_weak, Qnot_le_lt. intros K. apply Qle_bool_iff in K. congruence. }
    constructor; [auto|]. eapply Permutation_Forall; [apply Permutation_sym, insertQ_perm|]. constructor; auto.
Qed.
Lemma sortQ_sorted l : StronglySorted Qle (sortQ l).
Proof. induction l as [|a l IH]; cbn; [constructor|]. now apply insertQ_sorted. Qed.
Lemma sorted_nth l i j d d' : StronglySorted Qle l -> i <= j -> j < length l -> (nth i l d <= nth j l d')%Q.
Proof.
  intros S. revert i j. induction S as [|a l S IH F]; intros i j H L; [cbn in L; lia|]. destruct j as [|j]; [destruct i; [cbn; apply Qle_refl|lia]|]. cbn [length] in L. destruct i as [|i]; cbn [nth]; [|apply IH; lia].
  rewrite Forall_forall in F. apply F. apply nth_In. lia.
Qed.
Lemma count_suffix (s : list Q) k v : k <= length s -> (forall j, k <= j -> j < length s -> (v <= imp s j)%Q) -> length s - k <= length (filter (Qle_bool v) s).
Proof.
  intros Hk H. rewrite <- (firstn_skipn k s) at 2. rewrite filter_app, app_length. assert (E : filter (Qle_bool v) (skipn k s) = skipn k s).
  { assert (FI : forall m : list Q, (forall x, In x m -> Qle_bool v x = true) -> filter (Qle_bool v) m = m). { clear. induction m as [|x m IH]; intros K; [reflexivity|]. cbn [filter]. rewrite (K x) by now left. rewrite IH by (intros; apply K; now right). reflexivity. }
    apply FI. intros x Hx. apply (In_nth _ _ 0%Q) in Hx. destruct Hx as (i & Li & <-). rewrite skipn_length in Li. apply Qle_bool_iff. rewrite nth_skipn. apply H; lia. }
  rewrite E, skipn_length. lia.
Qed.
Lemma quantile_bound l q : l <> [] -> (0 < q)%Q -> (q < 1)%Q -> length l <= length (filter (Qle_bool (quantile l q)) l) + Z.to_nat (Qceiling (inject_Z (Z.of_nat (length l) - 1) * q)) /\ (Z.to_nat (Qceiling (inject_Z (Z.of_nat (length l) - 1) * q)) <= length l - 1).
Proof.
  intros NE Q0 Q1. set (n := length l). assert (Ln : 1 <= n) by (unfold n; destruct l; [contradiction|cbn; lia]). set (m := inject_Z (Z.of_nat n - 1)). set (h := (m * q)%Q).
  assert (M0 : (0 <= m)%Q) by (unfold m; change 0%Q with (inject_Z 0); rewrite <- Zle_Qle; lia). assert (H0 : (0 <= h)%Q) by (unfold h; apply Qmult_le_0_compat; lra). assert (H1 : (h <= m)%Q) by (unfold h; nra).
  assert (F0 : (0 <= Qfloor h)%Z) by (apply Qfloor_ge; exact H0). assert (F1 : (Qfloor h <= Z.of_nat n - 1)%Z) by (apply Qfloor_resp_le in H1; unfold m in H1; now rewrite Qfloor_Z in H1).
  assert (C1 : (Qceiling h <= Z.of_nat n - 1)%Z) by (apply Qceiling_resp_le in H1; unfold m in H1; now rewrite Qceiling_Z in H1). assert (FC : (Qfloor h <= Qceiling h)%Z) by (rewrite Zle_Qle; apply Qle_floor_ceiling).
  set (s := sortQ l). assert (Ls : length s = n) by (apply Permutation_length, sortQ_perm). pose proof (sortQ_sorted l) as SS. fold s in SS. set (c := Z.to_nat (Qceiling h)). split; [|unfold c; lia].
  assert (CF : length (filter (Qle_bool (quantile l q)) l) = length (filter (Qle_bool (quantile l q)) s)).
  { assert (P : Permutation s l) by apply sortQ_perm. clearbody s. clear -P. generalize (quantile l q). intros v. induction P as [|x a b P IH|x y a|a b d P1 IH1 P2 IH2]; cbn [filter]; auto; [destruct (Qle_bool v x); cbn [length]; now rewrite ?IH|destruct (Qle_bool v x), (Qle_bool v y); reflexivity|congruence]. }
  rewrite CF. assert (G : length s - c <= length (filter (Qle_bool (quantile l q)) s)); [|lia]. apply count_suffix; [unfold c; lia|]. intros j Hj Lj. unfold quantile. fold n m h s. set (i := Z.to_nat (Qfloor h)). set (a := imp s i). set (b := nth (S i) s a). set (f := (h - inject_Z (Qfloor h))%Q).
  assert (f0 : (0 <= f)%Q) by (unfold f; pose proof (Qfloor_le h); lra). assert (f1 : (f < 1)%Q) by (unfold f; pose proof (Qlt_floor h) as K; rewrite inject_Z_plus in K; change (inject_Z 1) with 1%Q in K; lra).
  assert (Aj : (a <= imp s j)%Q) by (apply sorted_nth; auto; unfold i, c in *; lia). destruct (Qlt_le_dec 0 f) as [Fp|Fz].
  - assert (Lc : i < c). { unfold i, c. assert (Qfloor h < Qceiling h)%Z; [|lia]. rewrite Zlt_Qlt. pose proof (Qle_ceiling h). unfold f in Fp. lra. }
    assert (Bj : (b <= imp s j)%Q) by (unfold b; apply sorted_nth; auto; lia). assert (AB : (a <= b)%Q) by (unfold a, b; apply sorted_nth; auto; lia). nra.
  - assert (E : (f == 0)%Q) by lra. rewrite E. lra.
Qed.
Lemma indexed_count l g : length (indexed l (fun i => g (imp l i))) = length (filter g l).
Proof.
  apply filter_nth_len.
Qed.
Theorem C216_quantile (p : sel_params) (imps : list Q) sel : sp_strategy p = Some SQuantile \/ (sp_strategy p = None /\ sp_threshold p = None /\ sp_number p = None /\ sp_quantile p <> None) -> select argsort imps p = Ok sel ->
  let q := match sp_quantile p with Some q => q | None => (2 # 10)%Q end in
  (0 < q)%Q /\ (q < 1)%Q /\ StronglySorted lt sel /\ sel <> [] /\ (forall i, In i sel <-> i < length imps /\ (quantile imps q <= imp imps i)%Q) /\
  length imps <= length sel + Z.to_nat (Qceiling (inject_Z (Z.of_nat (length imps) - 1) * q)) /\ forall i j, In i sel -> j < length imps -> ~ In j sel -> (imp imps j < imp imps i)%Q.
Proof.
  intros HS H q. unfold select in H. destruct (length imps =? 0) eqn:L0; [discriminate|]. apply Nat.eqb_neq in L0. assert (D : exists a b, detect p = if qltb 0 q && qltb q 1 then Ok (SQuantile, a, q, b) else Err AssertionError).
  { unfold detect, q. destruct HS as [->|(-> & -> & -> & K)]; [do 2 eexists; reflexivity|]. destruct (sp_quantile p); [|contradiction]. do 2 eexists; reflexivity. }
  destruct D as (a & b & D). rewrite D in H. destruct (qltb 0 q) eqn:Q0; [|discriminate]. destruct (qltb q 1) eqn:Q1; [|discriminate]. cbn [andb bind] in H. injection H as <-.
  assert (QL : forall x y, qltb x y = true -> (x < y)%Q). { intros x y K. unfold qltb in K. apply negb_true_iff in K. apply Qnot_le_lt. intros Z. apply Qle_bool_iff in Z. congruence. }
  apply QL in Q0. apply QL in Q1. split; [auto|]. split; [auto|]. split; [apply indexed_sorted|]. assert (NE : imps <> []) by (intros ->; auto). destruct (quantile_bound NE Q0 Q1) as [B1 B2]. assert (CT := indexed_count imps (Qle_bool (quantile imps q))). cbn beta in CT.
  assert (SP : forall i, In i (indexed imps (fun i => Qle_bool (quantile imps q) (imp imps i))) <-> i < length imps /\ (quantile imps q <= imp imps i)%Q) by (intros i; unfold indexed; rewrite filter_In, in_seq, Qle_bool_iff; intuition lia).
  split; [|split; [exact SP|split; [rewrite CT; exact B1|]]].
  - intros E. rewrite E in CT. cbn in CT. lia.
  - intros i j Hi Hj Nj. apply SP in Hi. assert (K : ~ (quantile imps q <= imp imps j)%Q) by (intros K; apply Nj, SP; auto). apply Qnot_le_lt in K. lra.
Qed.
(** every case in which select fails *)
Theorem C216_select_total (p : sel_params) (imps : list Q) : imps <> [] -> sp_strategy p <> Some SOther -> (forall q, sp_quantile p = Some q -> (0 < q)%Q /\ (q < 1)%Q) -> exists sel, select argsort imps p = Ok sel.
Proof.
  intros NE NO HQ. unfold select. destruct (length imps =? 0) eqn:L; [apply Nat.eqb_eq in L; destruct imps; [contradiction|discriminate]|].
  assert (QQ : let qu := match sp_quantile p with Some q => q | None => (2 # 10)%Q end in qltb 0 qu && qltb qu 1 = true).
  { cbn zeta. destruct (sp_quantile p) as [q|]; [|reflexivity]. destruct (HQ q eq_refl) as [A B]. unfold qltb. apply andb_true_iff. split; apply negb_true_iff, not_true_is_false; rewrite Qle_bool_iff; lra. }
  assert (D : exists st th qu nu, detect p = Ok (st, th, qu, nu) /\ st <> SOther).
  { unfold detect. cbn zeta in QQ. destruct (sp_strategy p) as [[]|]; try contradiction; try (do 4 eexists; split; [reflexivity|discriminate]); try (rewrite QQ; do 4 eexists; split; [reflexivity|discriminate]).
    destruct (sp_threshold p); [do 4 eexists; split; [reflexivity|discriminate]|]. destruct (sp_number p); [do 4 eexists; split; [reflexivity|discriminate]|]. destruct (sp_quantile p); [rewrite QQ|]; (do 4 eexists; split; [reflexivity|discriminate]). }
  destruct D as (st & th & qu & nu & -> & N). cbn [bind]. destruct st; [eauto..|contradiction].
Qed.

(** *** C216: names and importances *)
Variable md5 : string -> string.
Variable numstr : nat -> string.
Notation prep := (prep_columns md5 numstr).
Notation fit := (fist_fit argsort md5 numstr).
(** the columns of the preprocessed frame: categorical, bool, number *)
Definition by_kind (X : list (string * ckind)) : list string := map fst (filter (fun c => is_cat (snd c)) X) ++ map fst (filter (fun c => is_bool (snd c)) X) ++ map fst (filter (fun c => is_num (snd c)) X).
(** names of at most 64 characters, no number column without a value *)
Definition plain (X : list (string * ckind)) : Prop := forall c k, In (c, k) X -> String.length c <= 64 /\ k <> KNumNan.
Lemma names_plain cs : cs <> [] -> (forall c, In c cs -> String.length c <= 64) -> @get_names unit (fun _ => [fun _ => None]) md5 numstr cs (Some tt) (length cs) None = cs.
Proof.
  intros NE H. assert (K : length cs <> 0) by (destruct cs; [contradiction|discriminate]). destruct (@C213_names unit (fun _ => [fun _ => None]) md5 numstr cs (Some tt) (length cs) None K) as (_ & N1 & _ & _ & N2).
  destruct cs as [|c [|c2 cs]]; [contradiction| |].
  - apply (N1 eq_refl eq_refl c eq_refl). apply H. now left.
  - apply (N2 ltac:(cbn; lia) tt (fun _ => None)); auto.
Qed.
Lemma prep_plain X : plain X -> by_kind X <> [] -> prep X = Ok (by_kind X).
Proof.
  intros PL NE. unfold prep_columns. fold (by_kind X). assert (E : filter (fun c : string * ckind => is_num (snd c) && has_value (snd c)) X = filter (fun c => is_num (snd c)) X).
  { clear NE. induction X as [|[c k] X IH]; [reflexivity|]. cbn [filter snd]. rewrite IH by (intros c' k' H; apply PL; now right). destruct (PL c k (or_introl eq_refl)) as [_ N]. destruct k; try reflexivity. contradiction. }
  rewrite E. assert (SUB : forall f, forall c, In c (map fst (filter (fun c : string * ckind => f (snd c)) X)) -> String.length c <= 64).
  { intros f c H. apply in_map_iff in H. destruct H as ([c' k] & <- & H). apply filter_In in H. destruct H as [H _]. now apply (PL c' k). }
  assert (NM : forall f, (match map fst (filter (fun c : string * ckind => f (snd c)) X) with [] => [] | _ => @get_names unit (fun _ => [fun _ => None]) md5 numstr (map fst (filter (fun c => f (snd c)) X)) (Some tt) (length (map fst (filter (fun c => f (snd c)) X))) None end) = map fst (filter (fun c => f (snd c)) X)).
  { intros f. specialize (SUB f). destruct (map fst (filter (fun c => f (snd c)) X)) as [|c cs]; [reflexivity|]. apply names_plain; [discriminate|exact SUB]. }
  rewrite !NM. rewrite Nat.eqb_refl. unfold by_kind in *. destruct (_ ++ _ ++ _); [contradiction|reflexivity].
Qed.
Lemma by_kind_in X c : In c (by_kind X) <-> exists k, In (c, k) X /\ k <> KElse.
Proof.
  unfold by_kind. rewrite !in_app_iff, !in_map_iff. setoid_rewrite filter_In. split.
  - intros [([c' k] & <- & H & E)|[([c' k] & <- & H & E)|([c' k] & <- & H & E)]]; exists k; (split; [auto|]); intros ->; discriminate.
  - intros (k & H & N). destruct k; [left|right; left|right; right|right; right|contradiction]; (eexists; split; [|split; [exact H|]]; reflexivity).
Qed.
Lemma index_of_none c l : ~ In c l -> index_of c l = None.
Proof. induction l as [|a l IH]; cbn; [auto|]. intros H. destruct (String.eqb c a) eqn:E; [apply String.eqb_eq in E; subst; exfalso; auto|]. now rewrite IH by auto. Qed.
Lemma index_of_nth c l i : NoDup l -> nth_error l i = Some c -> index_of c l = Some i.
Proof.
  revert i. induction l as [|a l IH]; intros [|i] ND H; cbn in *; try discriminate; [injection H as ->; now rewrite String.eqb_refl|]. inversion ND; subst. destruct (String.eqb c a) eqn:E; [apply String.eqb_eq in E; subst; exfalso; apply H2; eapply nth_error_In; eauto|]. now rewrite (IH i).
Qed.
(** fit on plain columns: selected_features_ are columns of the cleaned frame, in the order of [by_kind] (so transform finds them); with a column left out, or none
    left out and the order unchanged, feature_importances_ belongs to feature_names_in_: the score of the column, 0 for a column left out *)
Theorem C216_fit_partial (p : sel_params) (columns_in : list string) (cleaned : list (string * ckind)) (score : list string -> list Q) selected imps :
  plain cleaned -> NoDup (map fst cleaned) -> (forall l, length (score l) = length l) -> incl (map fst cleaned) columns_in -> by_kind cleaned <> [] -> fit p columns_in cleaned score = Ok (selected, imps) ->
  (exists sel, select argsort (score (by_kind cleaned)) p = Ok sel /\ Forall2 (fun i c => nth_error (by_kind cleaned) i = Some c) sel selected) /\
  incl selected (map fst cleaned) /\ (forall X, incl selected (map fst X) -> exists X', fist_transform selected X = Ok X' /\ map fst X' = selected) /\
  length imps = length columns_in /\
  (length (by_kind cleaned) <> length columns_in \/ by_kind cleaned = columns_in -> NoDup columns_in -> forall i c, nth_error columns_in i = Some c ->
     (forall j, nth_error (by_kind cleaned) j = Some c -> imp imps i = imp (score (by_kind cleaned)) j) /\ (~ In c (by_kind cleaned) -> imp imps i = 0%Q)).
Proof.
  intros PL ND SC INC NE H. unfold fist_fit in H. rewrite (prep_plain PL NE) in H. cbn [bind] in H. destruct (select argsort (score (by_kind cleaned)) p) as [sel|] eqn:S; [|discriminate]. cbn [bind] in H. destruct (mapX _ sel) as [sl|] eqn:M in H; [|discriminate]. cbn [bind] in H. injection H as <- <-.
  assert (F : Forall2 (fun i c => nth_error (by_kind cleaned) i = Some c) sel sl). { apply mapX_inv in M. clear -M. induction M as [|i c l l' E M IH]; constructor; auto. destruct (nth_error (by_kind cleaned) i); [now injection E as ->|discriminate]. }
  split; [eauto|]. split; [|split; [|split]].
  - intros c Hc. clear -F Hc. induction F as [|i c' l l' E F IH]; [contradiction|]. destruct Hc as [->|Hc]; [|auto]. apply nth_error_In in E. apply by_kind_in in E. destruct E as (k & E & _). apply in_map_iff. exists (c, k). auto.
  - intros X I. clear -I. unfold fist_transform. induction sl as [|c sl IH]; [now exists []|]. destruct IH as (X' & E1 & E2); [intros x Hx; apply I; now right|]. cbn [mapX]. destruct (find (fun x => String.eqb c (fst x)) X) as [x|] eqn:G.
    + apply find_some in G. destruct G as [G1 G2]. apply String.eqb_eq in G2. rewrite E1. cbn [bind]. exists (x :: X'). split; [auto|]. cbn. now rewrite E2, G2.
    + exfalso. assert (Hc : In c (map fst X)) by (apply I; now left). apply in_map_iff in Hc. destruct Hc as (x & <- & Hx). pose proof (find_none _ _ G x Hx) as Z. cbn in Z. now rewrite String.eqb_refl in Z.
  - destruct (length (by_kind cleaned) =? length columns_in) eqn:L; [apply Nat.eqb_eq in L; now rewrite SC|now rewrite map_length].
  - assert (NDk : NoDup (by_kind cleaned)).
    { unfold by_kind. clear -ND.
      assert (D : forall f, NoDup (map fst (filter (fun c : string * ckind => f (snd c)) cleaned))). { intros f. induction cleaned as [|[c k] X IH]; [constructor|]. cbn in ND. inversion ND; subst. cbn [filter snd]. destruct (f k); [|auto]. cbn. constructor; [|auto]. intros K. apply H1. apply in_map_iff in K. destruct K as (x & E & K). apply filter_In in K. apply in_map_iff. exists x. tauto. }
      assert (U : forall c k k', In (c, k) cleaned -> In (c, k') cleaned -> k = k'). { intros c k k' A B. clear D. induction cleaned as [|[c0 k0] X IH]; [contradiction|]. cbn in ND. inversion ND; subst. destruct A as [A|A], B as [B|B]; [congruence| | |auto]; exfalso; apply H1; apply in_map_iff; [injection A as <- <-; exists (c0, k')|injection B as <- <-; exists (c0, k)]; auto. }
      assert (J : forall l m : list string, NoDup l -> NoDup m -> (forall c, In c l -> ~ In c m) -> NoDup (l ++ m)). { clear. induction l as [|a l IH]; intros m Hl Hm H; [auto|]. cbn. inversion Hl; subst. constructor; [rewrite in_app_iff; intros [K|K]; [auto|]; apply (H a); [now left|auto]|apply IH; auto; intros c K; apply H; now right]. }
      assert (X : forall f g c, (forall k, f k = true -> g k = true -> False) -> In c (map fst (filter (fun c : string * ckind => f (snd c)) cleaned)) -> ~ In c (map fst (filter (fun c : string * ckind => g (snd c)) cleaned))).
      { intros f g c FG A B. apply in_map_iff in A. destruct A as ([c1 k1] & E1 & A). apply in_map_iff in B. destruct B as ([c2 k2] & E2 & B). cbn in E1, E2. subst. apply filter_In in A. apply filter_In in B. destruct A as [A1 A2], B as [B1 B2]. cbn in A2, B2. rewrite (U _ _ _ A1 B1) in A2. eauto. }
      apply J; [auto|apply J; auto|].
      - intros c. apply (X is_bool is_num c). intros []; discriminate.
      - intros c A B. apply in_app_or in B. destruct B as [B|B]; [apply (X is_cat is_bool c) in B|apply (X is_cat is_num c) in B]; auto; intros []; discriminate. }
    intros HC NDC i c Hi. destruct (length (by_kind cleaned) =? length columns_in) eqn:L.
    + apply Nat.eqb_eq in L. destruct HC as [HC|HC]; [contradiction|]. rewrite HC in *. split; [intros j Hj; f_equal; eapply NoDup_nth_error; eauto; [apply nth_error_Some; congruence|congruence]|]. intros K. exfalso. apply K. eapply nth_error_In; eauto.
    + assert (E : imp (map (fun c => match index_of c (by_kind cleaned) with Some i => imp (score (by_kind cleaned)) i | None => 0%Q end) columns_in) i = match index_of c (by_kind cleaned) with Some i => imp (score (by_kind cleaned)) i | None => 0%Q end).
      { clear -Hi. revert columns_in Hi. induction i as [|i IH]; intros [|a l] Hi; cbn in *; try discriminate; [now injection Hi as ->|]. now apply IH. }
      rewrite E. split; [intros j Hj; now rewrite (index_of_nth j NDk Hj)|]. intros K. now rewrite index_of_none.
Qed.

(** *** C218: the treatments DefaultIdentifier finds do not depend on the importances: it takes the columns in the order categorical, bool, number *)
Theorem C218_identify_treatment_partial (discrete : string -> bool) (X : list (string * ckind)) (score : list string -> list Q) dt limit excludes : plain X -> (forall l, length (score l) = length l) ->
  let ranked := by_kind (filter (fun c => negb (mem (fst c) excludes)) X) in ranked <> [] ->
  identify_treatment argsort md5 numstr discrete X score dt limit excludes = match dt with None => align_task_to_first discrete ranked limit | Some d => Ok (select_by_task discrete ranked limit d) end.
Proof.
  intros PL SC ranked NE. unfold identify_treatment. set (X' := filter (fun c => negb (mem (fst c) excludes)) X) in *. assert (PL' : plain X') by (intros c k H; apply filter_In in H; apply PL; tauto).
  unfold fist_fit. rewrite (prep_plain PL' NE). fold ranked. cbn [bind]. set (p := mkSP (Some SNumber) None None (Some (mkN false (inject_Z (Z.of_nat (length X')))))).
  assert (NS : score ranked <> []) by (intros E; specialize (SC ranked); rewrite E in SC; destruct ranked; [contradiction|discriminate]).
  destruct (@C216_select_total p (score ranked) NS) as (sel & S); [discriminate|discriminate|]. rewrite S. cbn [bind]. destruct (@C216_number p (score ranked) _ sel (or_introl eq_refl) eq_refl S) as (ST & B & L & _). rewrite SC in *.
  assert (LE : length ranked <= length X').
  { unfold ranked, by_kind. rewrite !app_length, !map_length. clear. induction X' as [|[c []] X' IH]; cbn [filter snd is_cat is_bool is_num length]; lia. }
  assert (ES : sel = seq 0 (length ranked)).
  { assert (Lf : length sel = length ranked). { rewrite L. unfold amount, clip. cbn [n_float n_val andb]. rewrite Qfloor_Z. lia. }
    clear -ST B Lf. assert (G : forall l k, StronglySorted lt l -> (forall i, In i l -> k <= i < k + length l) -> l = seq k (length l)).
    { induction l as [|a l IH]; intros k SS H; [reflexivity|]. inversion SS; subst. cbn [length seq]. assert (a = k).
      { destruct (H a (or_introl eq_refl)) as [A _]. destruct (Nat.eq_dec a k) as [E|E]; [auto|]. exfalso. assert (N : incl l (seq (S a) (k + length l - a))). { intros x Hx. apply in_seq. rewrite Forall_forall in H3. specialize (H3 x Hx). destruct (H x (or_intror Hx)) as [_ K]. cbn in K. lia. }
        assert (NDl : NoDup l). { clear -H2. induction H2 as [|b l SS IH F]; constructor; auto. intros K. rewrite Forall_forall in F. specialize (F b K). lia. }
        apply (NoDup_incl_length NDl) in N. rewrite seq_length in N. destruct (H a (or_introl eq_refl)) as [_ K]. cbn in K. lia. }
      subst. f_equal. apply IH; auto. intros i Hi. rewrite Forall_forall in H3. specialize (H3 i Hi). destruct (H i (or_intror Hi)) as [_ K]. cbn in K. lia. }
    rewrite <- Lf. apply G; auto. intros i Hi. specialize (B i Hi). lia. }
  subst sel. assert (M : mapX (fun i => match nth_error ranked i with Some c => Ok c | None => Err IndexError end) (seq 0 (length ranked)) = Ok ranked).
  { clear. assert (G : forall l pre : list string, mapX (fun i => match nth_error (pre ++ l) i with Some c => Ok c | None => Err IndexError end) (seq (length pre) (length l)) = Ok l).
    { induction l as [|a l IH]; intros pre; [reflexivity|]. cbn [length seq mapX]. rewrite nth_error_app2 by lia. rewrite Nat.sub_diag. cbn [nth_error bind]. specialize (IH (pre ++ [a])). rewrite <- app_assoc, app_length in IH. cbn [app length] in IH. rewrite Nat.add_comm in IH. cbn [plus] in IH. rewrite IH. reflexivity. }
    exact (G ranked []). }
  rewrite M. cbn [bind]. reflexivity.
Qed.
End Sel.
