(** Theorems about DataCleaner: C206 - C210. *)
From Coq Require Import ZArith QArith Qcanon String Sorting.Sorted.
From Verif Require Import Base EstUtilsModel MetaModel MetaProofs CleanModel CleanSpec CleanProofs.
Set Implicit Arguments.
Local Notation length := List.length.
Local Open Scope nat_scope.

(** *** values *)
Lemma same_key a b : same_value a b <-> key a = key b.
Proof.
  unfold same_value, key. split.
  - intros [->|H]; [reflexivity|]. destruct a, b; try contradiction; now subst.
  - intros H. destruct a, b; try discriminate; auto; try (injection H as H); subst; auto.
    destruct b, b0; auto; discriminate.
Qed.
Lemma cell_eqb_eq a b : cell_eqb a b = true <-> a = b.
Proof.
  assert (QB : forall x y, Qc_eq_bool x y = true <-> x = y) by (intros x y; unfold Qc_eq_bool; destruct (Qc_eq_dec x y); split; intros; auto; try discriminate; contradiction).
  destruct a, b; cbn; split; intros H; try discriminate; auto.
  - apply Bool.eqb_prop in H. now subst. - injection H as ->. apply Bool.eqb_reflx.
  - apply QB in H. now subst. - injection H as ->. now apply QB.
  - apply String.eqb_eq in H. now subst. - injection H as ->. apply String.eqb_refl.
  - apply Bool.eqb_prop in H. now subst. - injection H as ->. apply Bool.eqb_reflx.
Qed.
Lemma keys_eqb_eq a b : keys_eqb a b = true <-> Forall2 same_value a b.
Proof.
  revert b. induction a as [|x a IH]; intros [|y b]; cbn; split; intros H; try discriminate; auto; try (now inversion H).
  - apply andb_prop in H. destruct H as [H1 H2]. constructor; [apply same_key; now apply cell_eqb_eq|now apply IH].
  - inversion H; subst. apply andb_true_intro. split; [apply cell_eqb_eq; now apply same_key|now apply IH].
Qed.

Lemma count_spec l seen : exists reps, length reps = count_new seen l /\ NoDup (map key reps) /\ (forall r, In r reps -> In r l) /\
  (forall k, In k (map key reps) <-> In k (map key l) /\ ~ In k seen).
Proof.
  revert seen. induction l as [|c l IH]; intros seen; cbn [count_new].
  - exists []. repeat split; try constructor; try contradiction. intros [H _]. exact H.
  - destruct (existsb (cell_eqb (key c)) seen) eqn:E.
    + destruct (IH seen) as (reps & L & ND & I & K). exists reps. split; [auto|]. split; [auto|]. split; [intros; right; auto|]. intros k. rewrite K. cbn [map In].
      apply existsb_exists in E. destruct E as (x & Hx & Ex). apply cell_eqb_eq in Ex. subst x. split; [tauto|]. intros [[<-|H] N]; [contradiction|auto].
    + destruct (IH (key c :: seen)) as (reps & L & ND & I & K). exists (c :: reps). cbn [length map]. split; [congruence|]. split.
      * constructor; [|auto]. rewrite K. intros [_ N]. apply N. now left.
      * split; [intros r [<-|H]; [now left|right; auto]|]. intros k. cbn [In]. rewrite K. cbn [In].
        assert (NS : ~ In (key c) seen). { intros H. assert (existsb (cell_eqb (key c)) seen = true); [|congruence]. apply existsb_exists. exists (key c). split; [auto|now apply cell_eqb_eq]. }
        split; [intros [<-|[H N]]; [auto|tauto]|]. intros [[H|H] N]; [auto|]. destruct (cell_eqb (key c) k) eqn:EK; [apply cell_eqb_eq in EK; auto|]. right. split; [auto|]. intros [H'|H']; [|contradiction].
        subst k. assert (cell_eqb (key c) (key c) = true) by now apply cell_eqb_eq. congruence.
Qed.

(** the number of different values is well defined and is what nunique counts *)
Definition keyed (l : list cell) (n : nat) : Prop := exists ks, length ks = n /\ NoDup ks /\ forall k, In k ks <-> exists v, In v l /\ v <> CNaN /\ key v = k.
Lemma keyed_fun l n m : keyed l n -> keyed l m -> n = m.
Proof.
  intros (k1 & L1 & N1 & H1) (k2 & L2 & N2 & H2). subst. apply Permutation_length. apply NoDup_Permutation; auto. intros k. now rewrite H1, H2.
Qed.
Lemma key_nan v : key v = CNaN <-> v = CNaN.
Proof. destruct v; cbn; split; intros H; auto; discriminate. Qed.
Lemma ndistinct_keyed l n : ndistinct l n <-> keyed l n.
Proof.
  split.
  - intros (reps & L & D & A & B). exists (map key reps). split; [now rewrite map_length|]. split.
    + apply (NoDup_nth (map key reps) (key CNaN)). intros i j Hi Hj E. rewrite map_length in Hi, Hj. rewrite !map_nth in E.
      destruct (Nat.lt_trichotomy i j) as [G|[G|G]]; [|auto|]; exfalso.
      * apply (D i j); [lia|now apply same_key]. * apply (D j i); [lia|now apply same_key].
    + intros k. rewrite in_map_iff. split.
      * intros (r & <- & Hr). destruct (B r Hr) as (NR & v & Hv & S). exists v. apply same_key in S. split; [auto|]. split; [|auto]. intros ->. change (CNaN = key r) in S. symmetry in S. rewrite key_nan in S. exact (NR S).
      * intros (v & Hv & NV & <-). destruct (A v Hv NV) as (r & Hr & S). exists r. split; [|auto]. symmetry. now apply same_key.
  - intros (ks & L & ND & K). 
    assert (X : forall ks, (forall k, In k ks -> exists v, In v l /\ v <> CNaN /\ key v = k) -> exists reps, map key reps = ks /\ forall r, In r reps -> In r l /\ r <> CNaN).
    { clear. induction ks as [|k ks IH]; intros H; [exists []; split; [reflexivity|contradiction]|]. destruct (IH ltac:(intros; apply H; now right)) as (reps & E & R). destruct (H k (or_introl eq_refl)) as (v & Hv & NV & <-).
      exists (v :: reps). cbn. rewrite E. split; [auto|]. intros r [<-|Hr]; auto. }
    destruct (X ks ltac:(intros k Hk; now apply K)) as (reps & E & R). exists reps. split; [rewrite <- L, <- E; now rewrite map_length|]. split; [|split].
    + intros i j Hij S. apply same_key in S. rewrite <- E in ND. rewrite <- E, map_length in L. rewrite (NoDup_nth (map key reps) (key CNaN)) in ND. specialize (ND i j). rewrite map_length, !map_nth in ND. assert (i = j); [|lia]. apply ND; auto; lia.
    + intros v Hv NV. assert (I : In (key v) ks) by (apply K; eauto). rewrite <- E in I. apply in_map_iff in I. destruct I as (r & Er & Hr). exists r. split; [auto|]. apply same_key. auto.
    + intros r Hr. destruct (R r Hr) as [A B]. split; [auto|]. exists r. split; [auto|]. now left.
Qed.
Lemma nunique_keyed c : keyed (k_cells c) (nunique c).
Proof.
  unfold nunique. destruct (count_spec (filter (fun v => negb (is_nan v)) (k_cells c)) []) as (reps & L & ND & I & K). exists (map key reps). split; [now rewrite map_length|]. split; [auto|].
  intros k. rewrite K, in_map_iff. split.
  - intros [(v & <- & Hv) _]. apply filter_In in Hv. destruct Hv as [Hv N]. exists v. split; [auto|]. split; [intros ->; discriminate|auto].
  - intros (v & Hv & NV & <-). split; [|auto]. exists v. split; [auto|]. apply filter_In. split; [auto|]. destruct v; auto; contradiction.
Qed.
Lemma nunique_spec c n : ndistinct (k_cells c) n <-> nunique c = n.
Proof. rewrite ndistinct_keyed. split; [intros H; eapply keyed_fun; [apply nunique_keyed|auto]|intros <-; apply nunique_keyed]. Qed.

Lemma reserved_iff p n : reserved p n = true <-> is_reserved p n.
Proof. unfold reserved, is_reserved. destruct (c_reserve p) as [l|]; [rewrite inb_In; split; [eauto|intros (l' & [= <-] & H); auto]|split; [discriminate|intros (l & ? & _); discriminate]]. Qed.

(** *** duplicates *)
Lemma dup_names_spec cs seen b c a : cs = b ++ c :: a -> NoDup (map k_name cs) ->
  (In (k_name c) (dup_names seen cs) <-> exists d, In d (seen ++ b) /\ Forall2 same_value (k_cells d) (k_cells c)).
Proof.
  revert seen b. induction cs as [|x cs IH]; intros seen b E ND; [destruct b; discriminate|]. cbn [dup_names]. rewrite in_app_iff. inversion ND as [|? ? NI ND']; subst.
  assert (SUB : forall cs seen n, In n (dup_names seen cs) -> In n (map k_name cs)).
  { clear. induction cs as [|x cs IH]; intros seen n; cbn; [auto|]. rewrite in_app_iff. intros [H|H]; [destruct (existsb _ seen); [destruct H as [<-|[]]; now left|contradiction]|right; eauto]. }
  destruct b as [|x' b].
  - cbn in E. injection E as -> ->. rewrite app_nil_r. split.
    + intros [H|H]; [|apply SUB in H; contradiction]. destruct (existsb (fun d => keys_eqb (k_cells d) (k_cells c)) seen) eqn:X; [|contradiction]. apply existsb_exists in X. destruct X as (d & Hd & Ed). exists d. split; [auto|now apply keys_eqb_eq].
    + intros (d & Hd & S). left. assert (X : existsb (fun d => keys_eqb (k_cells d) (k_cells c)) seen = true) by (apply existsb_exists; exists d; split; [auto|now apply keys_eqb_eq]). rewrite X. now left.
  - cbn in E. injection E as -> ->. rewrite (IH (seen ++ [x']) b eq_refl ND'). rewrite <- app_assoc. cbn [app]. split; [|tauto].
    intros [H|H]; [|auto]. exfalso. destruct (existsb _ seen); [|contradiction]. destruct H as [H|[]]. apply NI. rewrite H, map_app. apply in_or_app. right. now left.
Qed.

Lemma filter_names (g : column -> bool) cs : NoDup (map k_name cs) -> NoDup (map k_name (filter g cs)).
Proof.
  induction cs as [|c cs IH]; cbn; [auto|]. intros ND. inversion ND as [|? ? NI ND']; subst. destruct (g c); cbn; [|auto]. constructor; [|auto].
  intros H. apply NI. apply in_map_iff in H. destruct H as (d & E & H). apply filter_In in H. rewrite <- E. apply in_map. tauto.
Qed.
Lemma filter_filter {A} (f g : A -> bool) l : filter f (filter g l) = filter (fun x => g x && f x) l.
Proof. induction l as [|x l IH]; cbn; [auto|]. destruct (g x); cbn; rewrite IH; reflexivity. Qed.
Lemma without_names l f : NoDup (names f) -> NoDup (names (without l f)).
Proof. apply filter_names. Qed.
Lemma without_In l f c : In c (f_cols (without l f)) <-> In c (f_cols f) /\ ~ In (k_name c) l.
Proof. unfold without. cbn. rewrite filter_In, negb_true_iff, inb_not. tauto. Qed.

(** *** the rows *)
Lemma pick_map {A B} (h : A -> B) keep l : pick keep (map h l) = map h (pick keep l).
Proof. unfold pick. revert l. induction keep as [|b keep IH]; intros [|x l]; cbn; auto. destruct b; cbn; now rewrite IH. Qed.
Lemma list_nths {A} (l : list A) d : l = map (fun i => nth i l d) (seq 0 (length l)).
Proof. induction l as [|x l IH]; [reflexivity|]. cbn [length seq map nth]. f_equal. rewrite <- seq_shift, map_map. exact IH. Qed.
Lemma pick_nths {A} keep (l : list A) d n : length l = n -> pick keep l = map (fun i => nth i l d) (pick keep (seq 0 n)).
Proof. intros <-. rewrite (list_nths l d) at 1. now rewrite pick_map. Qed.
Lemma pick_seq (g : nat -> bool) k n : pick (map g (seq k n)) (seq k n) = filter g (seq k n).
Proof. unfold pick. revert k. induction n as [|n IH]; intros k; cbn; [auto|]. destruct (g k); cbn; now rewrite IH. Qed.
Lemma count_filter (g : nat -> bool) l : length (filter (fun b => b) (map g l)) = length (filter g l).
Proof. induction l as [|x l IH]; cbn; [auto|]. destruct (g x); cbn; now rewrite IH. Qed.
Lemma filter_seq_sorted (g : nat -> bool) n : forall i j, i < j < length (filter g (seq 0 n)) -> nth i (filter g (seq 0 n)) 0 < nth j (filter g (seq 0 n)) 0.
Proof.
  assert (S : forall k n, StronglySorted lt (filter g (seq k n)) /\ Forall (fun x => k <= x) (filter g (seq k n))).
  { clear. intros k n. revert k. induction n as [|n IH]; intros k; cbn; [split; constructor|]. destruct (IH (S k)) as [A B]. destruct (g k).
    - split; [constructor; [auto|]|constructor; [lia|]]; eapply Forall_impl; [|exact B| |exact B]; cbn; intros; lia.
    - split; [auto|]. eapply Forall_impl; [|exact B]. cbn. intros; lia. }
  destruct (S 0 n) as [A _]. revert A. generalize (filter g (seq 0 n)) as l. induction 1 as [|x l A IH F]; intros i j [H1 H2]; [cbn in H2; lia|].
  destruct j; [lia|]. destruct i; cbn [nth]; [rewrite Forall_forall in F; apply F, nth_In; cbn in H2; lia|]. apply IH. cbn in H2. lia.
Qed.

Lemma nanned_char p v : nanned p v = match c_nan_chars p with None => v | Some cs => nan_char cs v end.
Proof.
  unfold nanned, nan_char. destruct (c_nan_chars p) as [cs|]; [|destruct v; reflexivity]. destruct v; auto. destruct (in_dec string_dec s cs) as [H|H].
  - apply inb_In in H. now rewrite H. - apply inb_not in H. now rewrite H.
Qed.

Lemma prep_spec p x y : good_input x y -> exists idx, labelled p (f_rows x) y idx /\
  prep p x y = Ok (mkF (length idx) (map (at_rows p idx) (f_cols x)), label_at p idx y).
Proof.
  intros ([ND WL] & _ & NY & HY). set (nn := fun f => match c_nan_chars p with None => f | Some cs => map_cols (on_cells (nan_char cs)) f end).
  assert (NN : forall f, nn f = map_cols (on_cells (nanned p)) f).
  { intros f. unfold nn. destruct (c_nan_chars p) eqn:E.
    - unfold map_cols, on_cells. f_equal. apply map_ext. intros c. f_equal. apply map_ext. intros v. rewrite nanned_char, E. reflexivity.
    - destruct f as [r cs]. unfold map_cols, on_cells. cbn. f_equal. rewrite <- (map_id cs) at 1. apply map_ext. intros [n t v]. cbn. f_equal. rewrite <- (map_id v) at 1. apply map_ext. intros w. now rewrite nanned_char, E. }
  assert (ATALL : forall cs, Forall (fun c => length (k_cells c) = f_rows x) cs -> map (on_cells (nanned p)) cs = map (at_rows p (seq 0 (f_rows x))) cs).
  { clear. intros cs H. apply map_ext_in. intros c Hc. rewrite Forall_forall in H. unfold on_cells, at_rows. f_equal. rewrite (list_nths (k_cells c) CNaN) at 1. rewrite map_map, (H c Hc). reflexivity. }
  destruct y as [[d v]|].
  - specialize (HY d v eq_refl).
    set (keep := fun i => negb (c_label_nan p) || negb (is_nan (nanned p (nth i v CNaN)))).
    exists (filter keep (seq 0 (f_rows x))). split.
    + split; [apply filter_seq_sorted|]. intros i. rewrite filter_In, in_seq. unfold keep. split.
      * intros [H K]. split; [lia|]. intros LN d' v' [= <- <-] E. rewrite LN, E in K. discriminate.
      * intros [H K]. split; [lia|]. destruct (c_label_nan p); [|reflexivity]. cbn. destruct (nanned p (nth i v CNaN)) eqn:E; auto. exfalso. apply (K eq_refl d v eq_refl). auto.
    + unfold prep. rewrite HY, Nat.eqb_refl. cbn [negb bind]. fold (nn (put_col (mkCol y_name d v) x)). rewrite NN.
      assert (PC : put_col (mkCol y_name d v) x = mkF (f_rows x) (f_cols x ++ [mkCol y_name d v])).
      { unfold put_col. cbn [k_name]. assert (E : inb y_name (names x) = false) by now apply inb_not. now rewrite E. }
      rewrite PC. unfold map_cols. cbn [f_rows f_cols]. rewrite map_app. cbn [map].
      set (yc := on_cells (nanned p) (mkCol y_name d v)). set (cs := map (on_cells (nanned p)) (f_cols x)).
      assert (FY : forall r cs' y', (forall c, In c cs' -> k_name c <> y_name) -> k_name y' = y_name -> find_col y_name (mkF r (cs' ++ [y'])) = Some y' /\ without [y_name] (mkF r (cs' ++ [y'])) = mkF r cs').
      { clear. intros r cs' y' H E. unfold find_col, without. cbn [f_cols f_rows]. split.
        - induction cs' as [|c cs' IH]; cbn [app find]; [rewrite E, String.eqb_refl; reflexivity|]. destruct (String.eqb_spec y_name (k_name c)) as [X|X]; [exfalso; apply (H c); [now left|auto]|]. apply IH. intros; apply H; now right.
        - f_equal. induction cs' as [|c cs' IH]; cbn [app filter]; [unfold inb; cbn [existsb]; rewrite E, String.eqb_refl; reflexivity|].
          assert (X : inb (k_name c) [y_name] = false) by (apply inb_not; intros [X|[]]; apply (H c); [now left|auto]). rewrite X. cbn [negb]. f_equal. apply IH. intros; apply H; now right. }
      assert (NC : forall c, In c cs -> k_name c <> y_name).
      { intros c Hc E. unfold cs in Hc. apply in_map_iff in Hc. destruct Hc as (c0 & <- & Hc). apply NY. rewrite <- E. apply (in_map k_name) in Hc. exact Hc. }
      destruct (FY (f_rows x) cs yc NC eq_refl) as [F1 F2].
      destruct (c_label_nan p) eqn:LN.
      * unfold dropna. rewrite F1. cbn [f_cols].
        assert (KE : map (fun w => negb (is_nan w)) (k_cells yc) = map keep (seq 0 (f_rows x))).
        { unfold yc, on_cells. cbn [k_cells]. rewrite map_map. rewrite (list_nths v CNaN) at 1. rewrite map_map, HY. apply map_ext. intros i. unfold keep. reflexivity. }
        rewrite KE. rewrite map_app. cbn [map].
        assert (PK : forall c, In c (f_cols x ++ [mkCol y_name d v]) -> pick (map keep (seq 0 (f_rows x))) (k_cells (on_cells (nanned p) c)) = map (fun i => nanned p (nth i (k_cells c) CNaN)) (filter keep (seq 0 (f_rows x)))).
        { intros c Hc. unfold on_cells. cbn [k_cells]. rewrite pick_map. assert (LC : length (k_cells c) = f_rows x).
          { apply in_app_iff in Hc. destruct Hc as [Hc|[<-|[]]]; [rewrite Forall_forall in WL; now apply WL|exact HY]. }
          rewrite (@pick_nths _ _ (k_cells c) CNaN (f_rows x) LC), pick_seq, map_map. reflexivity. }
        destruct (FY (length (filter (fun b => b) (map keep (seq 0 (f_rows x))))) (map (fun c => mkCol (k_name c) (k_type c) (pick (map keep (seq 0 (f_rows x))) (k_cells c))) cs)
           (mkCol (k_name yc) (k_type yc) (pick (map keep (seq 0 (f_rows x))) (k_cells yc)))) as [G1 G2].
        { intros c Hc. apply in_map_iff in Hc. destruct Hc as (c0 & <- & Hc). cbn. auto. }
        { reflexivity. }
        rewrite G1, G2. cbn [option_map k_type k_cells]. do 2 f_equal.
        -- rewrite count_filter. f_equal. unfold cs. rewrite map_map. apply map_ext_in. intros c Hc. unfold at_rows. cbn [on_cells k_name k_type]. f_equal. apply PK. apply in_or_app. now left.
        -- unfold label_at. cbn [option_map fst snd]. do 2 f_equal. unfold yc. apply (PK (mkCol y_name d v)). apply in_or_app. right. now left.
      * assert (KA : filter keep (seq 0 (f_rows x)) = seq 0 (f_rows x)).
        { unfold keep. cbn [negb orb]. clear. generalize (seq 0 (f_rows x)). induction l; cbn; [auto|]. now rewrite IHl. }
        rewrite KA, F1, F2. cbn [option_map]. rewrite seq_length. do 2 f_equal.
        -- f_equal. unfold cs. now apply ATALL.
        -- unfold label_at, yc. cbn. do 2 f_equal. rewrite (list_nths v CNaN) at 1. rewrite map_map, HY. reflexivity.
  - exists (seq 0 (f_rows x)). split.
    + split.
      * intros i j H. rewrite seq_length in H. rewrite !seq_nth by lia. lia.
      * intros i. rewrite in_seq. split; [intros H; split; [lia|intros _ d v E; discriminate]|intros [H _]; lia].
    + unfold prep. cbn [bind]. fold (nn x). rewrite NN. cbn [label_at option_map]. do 2 f_equal. rewrite seq_length. unfold map_cols. f_equal. now apply ATALL.
Qed.

(** *** the lists of dropped columns *)
Lemma without_without a b f : without a (without b f) = without (b ++ a) f.
Proof.
  unfold without. cbn [f_rows f_cols]. f_equal. rewrite filter_filter. apply filter_ext. intros c. unfold inb. rewrite existsb_app, negb_orb. reflexivity.
Qed.
Definition lem (on : bool) (o : option (list string)) (found : list string) : list string := if on then match o with Some l => l | None => found end else [].
Definition ids (p : cparams) (s : cst) (f : frame) : res (list string) := if c_id p then match s_id s with Some l => Ok l | None => id_cols p f end else Ok [].
Definition upd (on : bool) (o : option (list string)) (l : list string) : option (list string) := if on then Some l else o.
Definition L1 (s : cst) : list string := match s_drop s with Some l => l | None => [] end.
Definition L2 (p : cparams) (s : cst) (f0 : frame) : list string := lem (c_dup p) (s_dup s) (dup_cols p (without (L1 s) f0)).
Definition F2 p s f0 := without (L2 p s f0) (without (L1 s) f0).
Definition L4 p s f0 l3 := lem (c_const p) (s_const s) (const_cols p (without l3 (F2 p s f0))).
Definition F4 p s f0 l3 := without (L4 p s f0 l3) (without l3 (F2 p s f0)).
Definition S4 p s f0 l3 := mkCS (s_drop s) (s_meta s) (s_cols s) (upd (c_const p) (s_const s) (L4 p s f0 l3)) (upd (c_id p) (s_id s) l3) (upd (c_dup p) (s_dup s) (L2 p s f0)).

Section P.
Variable parse : string -> option cell.
Variable parse_int : string -> option Z.
Variable show : cell -> string.
Notation pclean := (pclean parse parse_int show).
Notation finish := (finish parse parse_int show).
Notation fit_col := (fit_col parse parse_int show).
Notation tr_col := (tr_col parse parse_int show).
Notation fit_transform := (fit_transform parse parse_int show).
Notation transform := (transform parse parse_int show).

Lemma pclean_ok p meta x y s f0 y0 l3 : prep p x y = Ok (f0, y0) -> ids p s (F2 p s f0) = Ok l3 ->
  pclean p meta x y s = (S4 p s f0 l3, do g <- finish p meta (F4 p s f0 l3); Ok (g, y0)).
Proof.
  intros HP HI. unfold CleanProofs.pclean. rewrite HP. unfold mbind at 1, mlift at 1. unfold mbind at 1, mget at 1.
  assert (D : dropped_first s f0 = without (L1 s) f0) by (unfold dropped_first, L1; destruct (s_drop s); [auto|now rewrite without_nil]). rewrite D.
  assert (A2 : pstep (c_dup p) s_dup put_dup (fun f => Ok (dup_cols p f)) (without (L1 s) f0) s =
    (mkCS (s_drop s) (s_meta s) (s_cols s) (s_const s) (s_id s) (upd (c_dup p) (s_dup s) (L2 p s f0)), Ok (F2 p s f0))).
  { unfold pstep, F2, L2, lem, upd. destruct s as [a b c d e g]. cbn [s_dup s_drop s_meta s_cols s_const s_id]. destruct (c_dup p); [destruct g; reflexivity|now rewrite without_nil]. }
  unfold mbind at 1. rewrite A2.
  assert (A3 : forall dup, pstep (c_id p) s_id put_id (id_cols p) (F2 p s f0) (mkCS (s_drop s) (s_meta s) (s_cols s) (s_const s) (s_id s) dup) =
    (mkCS (s_drop s) (s_meta s) (s_cols s) (s_const s) (upd (c_id p) (s_id s) l3) dup, Ok (without l3 (F2 p s f0)))).
  { intros dup. unfold pstep, upd. unfold ids in HI. cbn [s_id]. destruct (c_id p); [|injection HI as <-; now rewrite without_nil]. destruct (s_id s); [injection HI as <-; reflexivity|rewrite HI; reflexivity]. }
  unfold mbind at 1. rewrite A3.
  assert (A4 : forall dup id, pstep (c_const p) s_const put_const (fun f => Ok (const_cols p f)) (without l3 (F2 p s f0)) (mkCS (s_drop s) (s_meta s) (s_cols s) (s_const s) id dup) =
    (mkCS (s_drop s) (s_meta s) (s_cols s) (upd (c_const p) (s_const s) (L4 p s f0 l3)) id dup, Ok (F4 p s f0 l3))).
  { intros dup id. unfold pstep, F4, L4, lem, upd. cbn [s_const]. destruct (c_const p); [destruct (s_const s); reflexivity|now rewrite without_nil]. }
  unfold mbind at 1. rewrite A4. unfold mbind, mlift, mret, S4. destruct (finish p meta (F4 p s f0 l3)); reflexivity.
Qed.
Lemma pclean_err p meta x y s f0 y0 e : prep p x y = Ok (f0, y0) -> ids p s (F2 p s f0) = Err e ->
  exists s', pclean p meta x y s = (s', Err e) /\ s_meta s' = s_meta s /\ s_cols s' = s_cols s /\ s_drop s' = s_drop s.
Proof.
  intros HP HI. unfold CleanProofs.pclean. rewrite HP. unfold mbind at 1, mlift at 1. unfold mbind at 1, mget at 1.
  assert (D : dropped_first s f0 = without (L1 s) f0) by (unfold dropped_first, L1; destruct (s_drop s); [auto|now rewrite without_nil]). rewrite D.
  assert (A2 : pstep (c_dup p) s_dup put_dup (fun f => Ok (dup_cols p f)) (without (L1 s) f0) s =
    (mkCS (s_drop s) (s_meta s) (s_cols s) (s_const s) (s_id s) (upd (c_dup p) (s_dup s) (L2 p s f0)), Ok (F2 p s f0))).
  { unfold pstep, F2, L2, lem, upd. destruct s as [a b c d e' g]. cbn [s_dup s_drop s_meta s_cols s_const s_id]. destruct (c_dup p); [destruct g; reflexivity|now rewrite without_nil]. }
  unfold mbind at 1. rewrite A2.
  assert (A3 : forall dup, pstep (c_id p) s_id put_id (id_cols p) (F2 p s f0) (mkCS (s_drop s) (s_meta s) (s_cols s) (s_const s) (s_id s) dup) =
    (mkCS (s_drop s) (s_meta s) (s_cols s) (s_const s) (s_id s) dup, Err e)).
  { intros dup. unfold pstep. unfold ids in HI. cbn [s_id]. destruct (c_id p); [|discriminate]. destruct (s_id s); [discriminate|rewrite HI; reflexivity]. }
  unfold mbind at 1. rewrite A3. eauto.
Qed.

Lemma pclean_bad p meta x y s e : prep p x y = Err e -> pclean p meta x y s = (s, Err e).
Proof. intros HP. unfold CleanProofs.pclean. rewrite HP. reflexivity. Qed.

(** fit_transform and transform through pclean *)
Lemma fit_run p copy x y s : match fit_transform p copy x y s, pclean p None x y s with
  | (s1, Ok (g, y1, _)), (s2, Ok (g', y2)) => s1 = mkCS (s_drop s2) (Some (meta_of g')) (Some (names g')) (s_const s2) (s_id s2) (s_dup s2) /\ g = g' /\ y1 = y2
  | (s1, Err e), (s2, Err e') => s1 = s2 /\ e = e'
  | _, _ => False
  end.
Proof.
  unfold CleanModel.fit_transform. unfold mbind at 1. pose proof (@clean_pure parse parse_int show p None (given copy x) y s) as H. cbn [given w_cur] in H. rewrite <- H.
  destruct (clean_data parse parse_int show p None (given copy x) y s) as [s1 [[w y1]|e]]; cbn; auto.
Qed.
Lemma tr_run p copy x y s : match transform p copy x y s, pclean p (s_meta s) x y s with
  | (s1, Ok (g, y1, _)), (s2, Ok (g', y2)) => s1 = s2 /\ y1 = y2 /\ exists ns, s_cols s2 = Some ns /\ select ns g' = Ok g
  | (s1, Err e), (s2, Ok (g', y2)) => s1 = s2 /\ e = KeyError /\ (s_cols s2 = None \/ exists ns, s_cols s2 = Some ns /\ exists n, In n ns /\ ~ In n (names g'))
  | (s1, Err e), (s2, Err e') => s1 = s2 /\ e = e'
  | _, _ => False
  end.
Proof.
  unfold CleanModel.transform. unfold mbind at 1, mget at 1. unfold mbind at 1. pose proof (@clean_pure parse parse_int show p (s_meta s) (given copy x) y s) as H. cbn [given w_cur] in H. rewrite <- H.
  destruct (clean_data parse parse_int show p (s_meta s) (given copy x) y s) as [s1 [[w y1]|e]]; [|cbn; auto]. cbn [forget]. unfold mbind at 1, mget at 1. unfold mbind at 1, mlift at 1.
  destruct (s_cols s1) as [ns|]; [|auto]. unfold mbind, mlift, mret. destruct (select ns (w_cur w)) as [g|e] eqn:E; [split; [auto|]; split; [auto|]; eauto|].
  split; [auto|]. assert (X : e = KeyError /\ exists n, In n ns /\ ~ In n (names (w_cur w))); [|split; [tauto|right; exists ns; split; [auto|tauto]]].
  unfold select in E. clear -E. induction ns as [|n ns IH]; [discriminate|]. cbn [mapX] in E. destruct (find_col n (w_cur w)) eqn:F; cbn [bind] in E.
  - destruct (mapX (fun n => match find_col n (w_cur w) with Some c => Ok c | None => Err KeyError end) ns) eqn:G; cbn [bind] in E; [discriminate|]. destruct (IH E) as (A & m & B & C). split; [auto|]. exists m. split; [now right|auto].
  - injection E as <-. split; [auto|]. exists n. split; [now left|]. intros H. apply find_col_some in H. destruct H as [c H]. congruence.
Qed.

Lemma dup_cols_spec p f b c a : f_cols f = b ++ c :: a -> NoDup (names f) ->
  (In (k_name c) (dup_cols p f) <-> ~ is_reserved p (k_name c) /\ exists d, In d b /\ Forall2 same_value (k_cells d) (k_cells c)).
Proof.
  intros E ND. unfold dup_cols. rewrite filter_In, (@dup_names_spec (f_cols f) [] b c a E ND), negb_true_iff. cbn [app]. rewrite <- reserved_iff. destruct (reserved p (k_name c)); intuition congruence.
Qed.
Lemma const_cols_spec p f c : In c (f_cols f) -> NoDup (names f) ->
  (In (k_name c) (const_cols p f) <-> ~ is_reserved p (k_name c) /\ (ndistinct (k_cells c) 0 \/ ndistinct (k_cells c) 1)).
Proof.
  intros HC ND. unfold const_cols. rewrite in_map_iff, !nunique_spec, <- reserved_iff. split.
  - intros (d & E & H). apply filter_In in H. destruct H as [H T]. assert (d = c) by (eapply uniq; eauto). subst d. apply andb_prop in T. destruct T as [T R]. apply Nat.leb_le in T. apply negb_true_iff in R. split; [congruence|lia].
  - intros [R T]. exists c. split; [auto|]. apply filter_In. split; [auto|]. apply andb_true_intro. split; [apply Nat.leb_le; lia|]. destruct (reserved p (k_name c)); [contradiction|auto].
Qed.
Lemma id_cols_spec p f c l : id_cols p f = Ok l -> In c (f_cols f) -> NoDup (names f) ->
  (In (k_name c) l <-> ~ is_reserved p (k_name c) /\ k_type c <> DFloat /\ exists n, ndistinct (k_cells c) n /\ 99 * f_rows f < 100 * n).
Proof.
  intros HI HC ND.
  set (cs := filter (fun c => existsb (dtype_eqb (k_type c)) [DObj; DCat; DBool; DInt]) (f_cols f)).
  assert (CS : forall d, In d cs <-> In d (f_cols f) /\ k_type d <> DFloat).
  { intros d. unfold cs. rewrite filter_In. destruct (k_type d); cbn; intuition congruence. }
  assert (HL : l = map k_name (filter (fun c => (99 * f_rows f <? 100 * nunique c) && negb (reserved p (k_name c))) cs)).
  { unfold id_cols in HI. fold cs in HI. destruct cs; [injection HI as <-; reflexivity|]. destruct (f_rows f =? 0); [discriminate|]. injection HI as <-. reflexivity. }
  rewrite HL, in_map_iff, <- reserved_iff. split.
  - intros (d & E & H). apply filter_In in H. destruct H as [H T]. apply CS in H. destruct H as [H NF]. assert (d = c) by (eapply uniq; eauto). subst d. apply andb_prop in T. destruct T as [T R]. apply Nat.ltb_lt in T. apply negb_true_iff in R.
    split; [congruence|]. split; [auto|]. exists (nunique c). split; [now apply nunique_spec|auto].
  - intros (R & T & n & N & G). apply nunique_spec in N. subst n. exists c. split; [auto|]. apply filter_In. split; [apply CS; auto|]. apply andb_true_intro. split; [now apply Nat.ltb_lt|]. destruct (reserved p (k_name c)); [contradiction|auto].
Qed.
Lemma id_cols_err p f e : id_cols p f = Err e -> e = ZeroDivisionError /\ f_rows f = 0 /\ exists c, In c (f_cols f) /\ k_type c <> DFloat.
Proof.
  unfold id_cols. set (cs := filter _ _). assert (CS : forall d, In d cs -> In d (f_cols f) /\ k_type d <> DFloat).
  { intros d. unfold cs. rewrite filter_In. destruct (k_type d); cbn; intuition congruence. }
  destruct cs as [|c r]; [discriminate|]. destruct (f_rows f =? 0) eqn:E; [|discriminate]. intros [= <-]. apply Nat.eqb_eq in E. split; [auto|]. split; [auto|]. exists c. apply CS. now left.
Qed.

Lemma without_split l f b c a : f_cols f = b ++ c :: a -> ~ In (k_name c) l ->
  f_cols (without l f) = filter (fun c => negb (inb (k_name c) l)) b ++ c :: filter (fun c => negb (inb (k_name c) l)) a.
Proof. intros E N. unfold without. cbn [f_cols]. rewrite E, filter_app. cbn [filter]. apply inb_not in N. rewrite N. reflexivity. Qed.

Lemma lists_spec p drop f0 l3 b c a : NoDup (names f0) -> ids p (cl_new drop) (F2 p (cl_new drop) f0) = Ok l3 -> f_cols f0 = b ++ c :: a ->
  (In (k_name c) (L1 (cl_new drop) ++ L2 p (cl_new drop) f0 ++ l3 ++ L4 p (cl_new drop) f0 l3) <-> drops p drop b (f_rows f0) c).
Proof.
  intros ND HI E. set (s := cl_new drop) in *. rewrite !in_app_iff. unfold drops. fold (is_reserved p (k_name c)).
  assert (D1 : In (k_name c) (L1 s) <-> exists l, drop = Some l /\ In (k_name c) l) by (unfold L1, s; cbn; destruct drop as [l|]; [split; [eauto|intros (? & [= <-] & ?); auto]|split; [contradiction|intros (? & ? & _); discriminate]]).
  rewrite <- D1. destruct (in_dec string_dec (k_name c) (L1 s)) as [I1|N1]; [tauto|].
  pose proof (@without_split (L1 s) f0 b c a E N1) as E1. set (f1 := without (L1 s) f0) in *. assert (ND1 : NoDup (names f1)) by now apply without_names.
  assert (C1 : In c (f_cols f1)) by (rewrite E1; apply in_or_app; right; now left).
  assert (D2 : In (k_name c) (L2 p s f0) <-> ~ is_reserved p (k_name c) /\ c_dup p = true /\ exists d, In d b /\ (forall l, drop = Some l -> ~ In (k_name d) l) /\ Forall2 same_value (k_cells d) (k_cells c)).
  { unfold L2, lem. fold f1. change (s_dup s) with (@None (list string)). cbv iota. destruct (c_dup p); [|split; [contradiction|intros (_ & ? & _); discriminate]]. rewrite (@dup_cols_spec p f1 _ c _ E1 ND1). split; intros H.
    - destruct H as (R & d & Hd & S). apply filter_In in Hd. destruct Hd as [Hd X]. apply negb_true_iff, inb_not in X. split; [auto|]. split; [auto|]. exists d. split; [auto|]. split; [|auto]. intros l ->. exact X.
    - destruct H as (R & _ & d & Hd & X & S). split; [auto|]. exists d. split; [|auto]. apply filter_In. split; [auto|]. apply negb_true_iff, inb_not. unfold L1, s. cbn. destruct drop as [l|]; [auto|]. auto. }
  destruct (in_dec string_dec (k_name c) (L2 p s f0)) as [I2|N2].
  { split; [|tauto]. intros _. right. apply D2 in I2. destruct I2 as (R & O & H). split; [auto|]. left. split; auto. }
  assert (C2 : In c (f_cols (F2 p s f0))) by (unfold F2; apply without_In; auto). assert (ND2 : NoDup (names (F2 p s f0))) by (unfold F2; now apply without_names).
  assert (D3 : In (k_name c) l3 <-> ~ is_reserved p (k_name c) /\ c_id p = true /\ k_type c <> DFloat /\ exists n, ndistinct (k_cells c) n /\ 99 * f_rows f0 < 100 * n).
  { unfold ids in HI. destruct (c_id p); [|injection HI as <-; split; [contradiction|intros (_ & ? & _); discriminate]]. change (s_id s) with (@None (list string)) in HI. cbv iota in HI.
    rewrite (@id_cols_spec p _ c l3 HI C2 ND2). change (f_rows (F2 p s f0)) with (f_rows f0). tauto. }
  destruct (in_dec string_dec (k_name c) l3) as [I3|N3].
  { split; [|tauto]. intros _. right. apply D3 in I3. tauto. }
  assert (C3 : In c (f_cols (without l3 (F2 p s f0)))) by (apply without_In; auto). assert (ND3 : NoDup (names (without l3 (F2 p s f0)))) by now apply without_names.
  assert (D4 : In (k_name c) (L4 p s f0 l3) <-> ~ is_reserved p (k_name c) /\ c_const p = true /\ (ndistinct (k_cells c) 0 \/ ndistinct (k_cells c) 1)).
  { unfold L4, lem. change (s_const s) with (@None (list string)). cbv iota. destruct (c_const p); [|split; [contradiction|intros (_ & ? & _); discriminate]]. rewrite (@const_cols_spec p _ c C3 ND3). tauto. }
  rewrite D4. tauto.
Qed.

Lemma F4_all p s f0 l3 : F4 p s f0 l3 = without (L1 s ++ L2 p s f0 ++ l3 ++ L4 p s f0 l3) f0.
Proof. unfold F4, F2. rewrite !without_without. reflexivity. Qed.
Lemma at_names p idx cs : map k_name (map (at_rows p idx) cs) = map k_name cs.
Proof. rewrite map_map. apply map_ext. reflexivity. Qed.

(** everything about a fit_transform, from any state *)
Lemma fit_inv p copy x y s s' g y' cl : good_input x y -> fit_transform p copy x y s = (s', Ok (g, y', cl)) -> exists idx l3,
  let f0 := mkF (length idx) (map (at_rows p idx) (f_cols x)) in
  labelled p (f_rows x) y idx /\ prep p x y = Ok (f0, y') /\ y' = label_at p idx y /\ NoDup (names f0) /\ ids p s (F2 p s f0) = Ok l3 /\
  g = map_cols (fit_col p) (F4 p s f0 l3) /\
  s' = mkCS (s_drop s) (Some (meta_of g)) (Some (names g)) (upd (c_const p) (s_const s) (L4 p s f0 l3)) (upd (c_id p) (s_id s) l3) (upd (c_dup p) (s_dup s) (L2 p s f0)).
Proof.
  intros GI HF. destruct (prep_spec p GI) as (idx & LB & HP). exists idx. set (f0 := mkF (length idx) (map (at_rows p idx) (f_cols x))) in *.
  assert (ND : NoDup (names f0)) by (unfold names, f0; cbn [f_cols]; rewrite at_names; apply GI).
  pose proof (fit_run p copy x y s) as FR. rewrite HF in FR. destruct (ids p s (F2 p s f0)) as [l3|e] eqn:HI.
  - exists l3. rewrite (@pclean_ok p None x y s f0 _ l3 HP HI) in FR. rewrite finish_fit in FR; [|unfold F4, F2; repeat apply without_names; auto]. cbn [bind] in FR. destruct FR as (-> & -> & ->). cbn zeta. auto 10.
  - destruct (@pclean_err p None x y s f0 _ e HP HI) as (s2 & E & _). rewrite E in FR. contradiction.
Qed.

(** C206 *)
Theorem clean_first_fit_columns p copy drop x y : good_input x y ->
  exists idx, labelled p (f_rows x) y idx /\
  match snd (fit_transform p copy x y (cl_new drop)) with
  | Ok (g, y', _) => y' = label_at p idx y /\ f_rows g = length idx /\ exists kept : column -> bool,
      map k_name (f_cols g) = map k_name (filter kept (f_cols x)) /\
      forall b c a, f_cols x = b ++ c :: a -> (kept c = false <-> drops p drop (map (at_rows p idx) b) (length idx) (at_rows p idx c))
  | Err e => e = ZeroDivisionError /\ c_id p = true /\ idx = [] /\ exists c, In c (f_cols x) /\ k_type c <> DFloat
  end.
Proof.
  intros GI. destruct (prep_spec p GI) as (idx & LB & HP). exists idx. split; [auto|]. set (f0 := mkF (length idx) (map (at_rows p idx) (f_cols x))) in *.
  assert (ND : NoDup (names f0)) by (unfold names, f0; cbn [f_cols]; rewrite at_names; apply GI). set (s := cl_new drop).
  pose proof (fit_run p copy x y s) as FR. destruct (ids p s (F2 p s f0)) as [l3|e] eqn:HI.
  - rewrite (@pclean_ok p None x y s f0 _ l3 HP HI) in FR. rewrite finish_fit in FR; [|unfold F4, F2; repeat apply without_names; auto]. cbn [bind] in FR.
    destruct (fit_transform p copy x y s) as [s1 [[[g y1] cl]|e]]; [|contradiction]. destruct FR as (_ & -> & ->). cbn [snd]. split; [auto|]. split; [reflexivity|].
    set (all := L1 s ++ L2 p s f0 ++ l3 ++ L4 p s f0 l3). exists (fun c => negb (inb (k_name c) all)). split.
    + change (map k_name (f_cols (map_cols (fit_col p) (F4 p s f0 l3)))) with (names (map_cols (fit_col p) (F4 p s f0 l3))). rewrite names_map by (intros; apply fit_col_name). rewrite F4_all. fold all. clearbody all. unfold names, without, f0. cbn [f_cols]. clear.
      induction (f_cols x) as [|c cs IH]; cbn; [auto|]. destruct (inb (k_name c) all); cbn; [auto|]. now rewrite IH.
    + intros b c a E. rewrite negb_false_iff, inb_In. change (k_name c) with (k_name (at_rows p idx c)).
      apply (@lists_spec p drop f0 l3 (map (at_rows p idx) b) (at_rows p idx c) (map (at_rows p idx) a) ND HI). unfold f0. cbn [f_cols]. rewrite E, map_app. reflexivity.
  - destruct (@pclean_err p None x y s f0 _ e HP HI) as (s2 & E & _). rewrite E in FR. destruct (fit_transform p copy x y s) as [s1 [[[g y1] cl]|e']]; [contradiction|]. destruct FR as [_ ->]. cbn [snd].
    unfold ids in HI. destruct (c_id p); [|discriminate]. change (s_id s) with (@None (list string)) in HI. cbv iota in HI. apply id_cols_err in HI. destruct HI as (-> & R & c & Hc & T). split; [auto|]. split; [auto|]. split; [now destruct idx|].
    unfold F2 in Hc. apply without_In in Hc. destruct Hc as [Hc _]. apply without_In in Hc. destruct Hc as [Hc _]. unfold f0 in Hc. cbn [f_cols] in Hc. apply in_map_iff in Hc. destruct Hc as (c0 & <- & Hc). exists c0. auto.
Qed.

(** C207 *)
Lemma mapX_F2 {A B} (g : A -> res B) l v : mapX g l = Ok v <-> Forall2 (fun a b => g a = Ok b) l v.
Proof.
  revert v. induction l as [|a l IH]; intros v; cbn [mapX]; split; intros H.
  - injection H as <-. constructor.
  - inversion H; subst; reflexivity.
  - destruct (g a) as [b|] eqn:E; [|discriminate]. cbn [bind] in H. destruct (mapX g l) eqn:M; [|discriminate]. injection H as <-. constructor; [auto|now apply IH].
  - inversion H as [|? b ? v' E H']; subst. rewrite E. cbn [bind]. apply IH in H'. rewrite H'. reflexivity.
Qed.
Lemma mapX_fail {A B} (g : A -> res B) l a e : In a l -> g a = Err e -> exists e', mapX g l = Err e'.
Proof.
  induction l as [|b l IH]; [contradiction|]. cbn [mapX]. intros [->|H] E; [rewrite E; cbn; eauto|]. destruct (g b); cbn [bind]; [|eauto]. destruct (IH H E) as [e' ->]. cbn. eauto.
Qed.
Lemma inf_cells p c : (k_type c = DInt -> forall v, In v (k_cells c) -> exists q, v = CNum q) -> inf_col p c = mkCol (k_name c) (k_type c) (map (infd p) (k_cells c)).
Proof.
  intros H. destruct c as [n t l]. unfold inf_col, infd, on_cells. cbn [k_name k_type k_cells] in *. destruct (c_inf p) as [v|].
  - destruct (dtype_eqb t DInt) eqn:E.
    + apply dtype_eqb_eq in E. f_equal. rewrite <- (map_id l) at 1. apply map_ext_in. intros w Hw. destruct (H E w Hw) as [q ->]. reflexivity.
    + reflexivity.
  - f_equal. rewrite <- (map_id l) at 1. apply map_ext. auto.
Qed.
Lemma fit_col_out p c : (forall s, show (CStr s) = s) -> (k_type c = DInt -> forall v, In v (k_cells c) -> exists q, v = CNum q) -> col_out parse show p c (fit_col p c).
Proof.
  intros SS HI. split; [apply fit_col_name|].
  assert (NR : forall n, ~ is_reserved p n -> reserved p n = false) by (intros n H; rewrite <- reserved_iff in H; destruct (reserved p n); [contradiction|auto]).
  assert (IV : k_type c = DInt -> map (infd p) (k_cells c) = k_cells c).
  { intros T. rewrite <- (map_id (k_cells c)) at 2. apply map_ext_in. intros v Hv. destruct (HI T v Hv) as [q ->]. unfold infd. destruct (c_inf p); reflexivity. }
  split; [|split].
  - intros H. destruct (reserved p (k_name c)) eqn:R.
    + rewrite fit_res by auto. rewrite inf_cells by auto. auto.
    + unfold CleanProofs.fit_col. rewrite inf_cells by auto. cbn [k_type k_name]. rewrite R. cbn [negb]. rewrite <- reserved_iff in H.
      destruct H as [H|H]; [congruence|]. unfold obj_step, int_step.
      destruct H as [T|[T|[T|[T N]]]]; rewrite T; cbn [dtype_eqb]; rewrite ?andb_false_r; cbn [andb k_type k_name k_cells dtype_eqb]; try (destruct (c_int p); cbn [k_type k_name k_cells dtype_eqb andb]; auto; fail). rewrite N. cbn. auto.
  - intros R T. apply NR in R. unfold CleanProofs.fit_col. rewrite inf_cells by auto. cbn [k_type k_name]. rewrite R, T. cbn [dtype_eqb negb]. rewrite andb_false_r. cbn [andb]. unfold int_step. cbn [k_type k_name dtype_eqb]. rewrite R. cbn [negb andb].
    rewrite IV by auto. split; intros ->.
    + unfold try_type, astype. cbn [k_cells k_name]. assert (M : mapX (to_float parse) (k_cells c) = Ok (k_cells c)).
      { apply mapX_F2. clear -HI T. specialize (HI T). induction (k_cells c) as [|v l IH]; constructor; [destruct (HI v (or_introl eq_refl)) as [q ->]; reflexivity|]. apply IH. intros; apply HI; now right. }
      rewrite M. cbn. auto.
    + unfold obj_step, as_str. cbn [k_type k_name k_cells dtype_eqb]. rewrite R. cbn [negb andb k_type k_cells]. rewrite map_map. split; [auto|]. apply map_ext. intros v. now rewrite SS.
  - intros R T. apply NR in R. unfold CleanProofs.fit_col. rewrite inf_cells by auto. cbn [k_type k_name]. rewrite R, T. cbn [dtype_eqb negb]. rewrite !andb_true_r. split.
    + intros CC fv F. rewrite CC. unfold try_type, astype. cbn [k_cells k_name]. apply mapX_F2 in F. rewrite F. cbn [bind]. unfold int_step. cbn [k_type k_name dtype_eqb]. cbn [andb]. destruct (c_int p); cbn; auto.
    + intros H. assert (X : (if c_correct p then try_type parse parse_int DFloat (mkCol (k_name c) DObj (map (infd p) (k_cells c))) else mkCol (k_name c) DObj (map (infd p) (k_cells c))) = mkCol (k_name c) DObj (map (infd p) (k_cells c))).
      { destruct H as [->|(s & Hs & E)]; [reflexivity|]. destruct (c_correct p); [|reflexivity]. unfold try_type, astype. cbn [k_cells]. destruct (@mapX_fail _ _ (to_float parse) (map (infd p) (k_cells c)) (CStr s) ValueError) as [e' ->].
        - apply in_map_iff. exists (CStr s). split; [unfold infd; destruct (c_inf p); reflexivity|auto].
        - cbn. now rewrite E.
        - reflexivity. }
      rewrite X. unfold int_step. cbn [k_type k_name dtype_eqb andb]. replace (match c_int p with Some _ => _ | None => _ end) with (mkCol (k_name c) DObj (map (infd p) (k_cells c))) by (destruct (c_int p); reflexivity).
      unfold obj_step, as_str. cbn [k_type k_name k_cells dtype_eqb]. rewrite R. cbn. rewrite map_map. auto.
Qed.
End P.
