(** Theorems about SafeOrdinalEncoder (C215), FeatureImportancesSelectionTransformer (C216), general_estimator (C217), DefaultIdentifier (C218). *)
From Coq Require Import String QArith Qround Permutation Sorted.
From Verif Require Import Base EstUtilsModel MetaModel MetaProofs UtilsModel UtilsProps MapModel MapProps TransModel.
Set Implicit Arguments.
Local Notation length := List.length.
Local Open Scope string_scope.
Local Open Scope list_scope.
Local Open Scope nat_scope.

(** *** C215 *)
Section Enc.
Variable V : Type.
Variable eqV : V -> V -> bool.
Hypothesis eqV_ok : forall a b, eqV a b = true <-> a = b.

Lemma dict_get_ok cats i x k : dict_get eqV cats i x = Some k -> i <= k /\ nth_error cats (k - i) = Some x.
Proof.
  revert i. induction cats as [|c r IH]; intros i; cbn [dict_get]; [discriminate|]. destruct (dict_get eqV r (S i) x) as [k'|] eqn:E.
  - intros H. injection H as ->. destruct (IH _ E) as [L N]. split; [lia|]. replace (k - i) with (S (k - S i)) by lia. exact N.
  - destruct (eqV x c) eqn:Q; [|discriminate]. intros H. injection H as ->. apply eqV_ok in Q. subst. rewrite Nat.sub_diag. auto.
Qed.
Lemma dict_get_none cats i x : dict_get eqV cats i x = None <-> ~ In x cats.
Proof.
  revert i. induction cats as [|c r IH]; intros i; cbn [dict_get]; [cbn; tauto|]. specialize (IH (S i)). destruct (dict_get eqV r (S i) x) as [k'|].
  - split; [discriminate|]. intros H. exfalso. assert (A : Some k' = None) by (apply IH; intros K; apply H; now right). discriminate.
  - assert (N : ~ In x r) by (apply IH; auto). destruct (eqV x c) eqn:Q; [apply eqV_ok in Q|].
    + split; [discriminate|]. intros H. exfalso. apply H. now left.
    + split; [|auto]. intros _ [->|K]; [|auto]. assert (eqV x x = true) by now apply eqV_ok. congruence.
Qed.
Lemma encode_seen cats x k : NoDup cats -> nth_error cats k = Some x -> encode eqV cats x = k.
Proof.
  intros ND H. unfold encode. destruct (dict_get eqV cats 0 x) as [k'|] eqn:E.
  - apply dict_get_ok in E. destruct E as [_ E]. rewrite Nat.sub_0_r in E. eapply NoDup_nth_error; eauto; [apply nth_error_Some; congruence|congruence].
  - apply dict_get_none in E. exfalso. apply E. eapply nth_error_In; eauto.
Qed.
Lemma encode_unseen cats x : ~ In x cats -> encode eqV cats x = length cats.
Proof. intros H. unfold encode. now rewrite (proj2 (dict_get_none cats 0 x) H). Qed.

Lemma mapX_combine {A B} (f : nat * A -> res B) (l : list A) n r : mapX f (combine (seq n (length l)) l) = Ok r -> Forall2 (fun ia b => f ia = Ok b) (combine (seq n (length l)) l) r.
Proof. apply mapX_inv. Qed.

(** the code of a value: its place in the categories of the column in that position, or their number if it is not among them *)
Definition code_of (cats : list V) (x : V) (n : num) : Prop := exists k, (n = NInt (Z.of_nat k) \/ n = NFloat (inject_Z (Z.of_nat k))) /\ (nth_error cats k = Some x \/ (~ In x cats /\ k = length cats)).

(** by position *)
Lemma by_position_ok {A B C} (f : A -> list B -> res (list C)) cats (X : list (string * list B)) r : by_position f cats X = Ok r ->
  length r = length X /\ forall i n col, nth_error X i = Some (n, col) -> exists cs col', nth_error cats i = Some cs /\ f cs col = Ok col' /\ nth_error r i = Some (n, col').
Proof.
  unfold by_position. assert (G : forall k (X : list (string * list B)) r, mapX (fun ic => match nth_error cats (fst ic) with None => Err IndexError | Some cs => do r <- f cs (snd (snd ic)); Ok (fst (snd ic), r) end) (combine (seq k (length X)) X) = Ok r ->
    length r = length X /\ forall i n col, nth_error X i = Some (n, col) -> exists cs col', nth_error cats (k + i) = Some cs /\ f cs col = Ok col' /\ nth_error r i = Some (n, col')).
  { intros k X0. revert k. induction X0 as [|[n0 c0] X0 IH]; intros k r0 H; cbn [length seq combine mapX] in H.
    - injection H as <-. split; [auto|]. intros [|i] n col E; discriminate.
    - cbn [fst snd] in H. destruct (nth_error cats k) as [cs|] eqn:E; [|discriminate]. destruct (f cs c0) as [c'|] eqn:F; [|discriminate]. cbn [bind] in H.
      destruct (mapX _ _) as [r1|] eqn:M in H; [|discriminate]. cbn [bind] in H. injection H as <-. apply IH in M. destruct M as [L N]. split; [cbn; now rewrite L|].
      intros [|i] n col Hi; cbn [nth_error] in *; [injection Hi as -> ->; exists cs, c'; rewrite Nat.add_0_r; auto|]. destruct (N i n col Hi) as (cs' & col' & A1 & A2 & A3). exists cs', col'. rewrite <- plus_n_Sm. auto. }
  intros H. apply G in H. exact H.
Qed.
Lemma by_position_total {A B C} (f : A -> list B -> res (list C)) cats (X : list (string * list B)) : length X <= length cats ->
  (forall cs n col, In cs cats -> In (n, col) X -> exists c', f cs col = Ok c') -> exists r, by_position f cats X = Ok r.
Proof.
  unfold by_position. intros L H. assert (G : forall k (Y : list (string * list B)), k + length Y <= length cats -> incl Y X -> exists r, mapX (fun ic => match nth_error cats (fst ic) with None => Err IndexError | Some cs => do r <- f cs (snd (snd ic)); Ok (fst (snd ic), r) end) (combine (seq k (length Y)) Y) = Ok r).
  { intros k Y. revert k. induction Y as [|[n0 c0] Y IH]; intros k Lk I; [now exists []|]. cbn [length seq combine mapX fst snd]. cbn in Lk.
    destruct (nth_error cats k) as [cs|] eqn:E; [|apply nth_error_None in E; lia]. destruct (H cs n0 c0) as (c' & F); [eapply nth_error_In; eauto|apply I; now left|]. rewrite F. cbn [bind].
    destruct (IH (S k)) as (r & R); [lia|intros y Hy; apply I; now right|]. rewrite R. cbn [bind]. eauto. }
  apply G; [lia|apply incl_refl].
Qed.

(** transform codes every cell, column by column in the positions of the fitted ones; it works if there are rows and not more columns than were fitted *)
Theorem C215_codes (df fl : bool) (cats : list (list V)) (X : list (string * list V)) : Forall (@NoDup V) cats ->
  (forall r, enc_transform eqV df fl cats X = Ok r -> length r = length X /\ forall i n col, nth_error X i = Some (n, col) -> exists cs col', nth_error cats i = Some cs /\ nth_error r i = Some (n, col') /\ Forall2 (code_of cs) col col') /\
  (length X <= length cats -> (forall n col, In (n, col) X -> col <> []) -> (df = false -> X <> []) -> exists r, enc_transform eqV df fl cats X = Ok r).
Proof.
  intros ND. split.
  - intros r H. unfold enc_transform in H. destruct (by_position _ cats X) as [r0|] eqn:B; [|discriminate]. cbn [bind] in H. assert (E : r = r0) by (unfold assemble in H; destruct r0; [destruct df; [now injection H as <-|discriminate]|now injection H as <-]).
    subst r0. apply by_position_ok in B. destruct B as [L N]. split; [auto|]. intros i n col Hi. destruct (N i n col Hi) as (cs & col' & A1 & A2 & A3). exists cs, col'. split; [auto|]. split; [auto|].
    assert (NDc : NoDup cs) by (rewrite Forall_forall in ND; apply ND; eapply nth_error_In; eauto).
    assert (M : mapX (fun x => Ok (to_dtype fl (encode eqV cs x))) col = Ok col') by (unfold vectorize in A2; destruct col; [discriminate|exact A2]).
    apply mapX_inv in M. clear -M NDc eqV_ok. induction M as [|x y l l' E M IH]; constructor; auto. injection E as <-. exists (encode eqV cs x). split; [destruct fl; auto|].
    unfold encode. destruct (dict_get eqV cs 0 x) as [k|] eqn:D; [left; apply dict_get_ok in D; rewrite Nat.sub_0_r in D; tauto|right; apply dict_get_none in D; auto].
  - intros L HN HX. unfold enc_transform. destruct (@by_position_total _ _ _ (fun cs col => vectorize false (fun x => Ok (to_dtype fl (encode eqV cs x))) col) cats X L) as (r & R).
    { intros cs n col _ Hi. specialize (HN n col Hi). destruct col as [|x col]; [contradiction|]. unfold vectorize. assert (G : forall l : list V, exists c', mapX (fun x => Ok (to_dtype fl (encode eqV cs x))) l = Ok c') by (induction l as [|a l (c' & IH)]; [now exists []|cbn [mapX bind]; rewrite IH; cbn [bind]; eauto]). apply G. }
    rewrite R. cbn [bind]. unfold assemble. destruct r as [|a r]; [|eauto]. destruct df; [eauto|]. exfalso. apply by_position_ok in R. destruct R as [R _]. apply HX; auto. destruct X; [auto|discriminate].
Qed.
(** codes of seen values tell the values apart, and apart from unseen ones *)
Theorem C215_codes_distinguish (cats : list V) x y n : NoDup cats -> code_of cats x n -> code_of cats y n -> In x cats -> x = y.
Proof.
  intros ND (k & E & H) (k' & E' & H') I. assert (K : k = k').
  { destruct E as [->| ->], E' as [E'|E']; try discriminate E'; injection E' as E'; [now apply Nat2Z.inj in E'|apply (f_equal (fun z : Z => z)) in E'; lia]. }
  subst k'. destruct H as [H|[N _]]; [|contradiction]. destruct H' as [H'|[_ ->]]; [congruence|]. assert (length cats < length cats) by (apply nth_error_Some; congruence). lia.
Qed.
(** an empty frame is refused *)
Theorem C215_no_rows_refused df fl cats n X : enc_transform eqV df fl cats ((n, []) :: X) = Err ValueError \/ enc_transform eqV df fl cats ((n, []) :: X) = Err IndexError.
Proof. unfold enc_transform, by_position. cbn [length seq combine mapX fst snd]. destruct (nth_error cats 0); cbn [vectorize bind]; auto. Qed.

(** with an integer dtype inverse_transform gives back the seen values and the default in place of the others *)
Theorem C215_roundtrip_partial df (cats : list (V * list V)) X r : Forall (fun c => NoDup (snd c)) cats -> enc_transform eqV df false (map snd cats) X = Ok r ->
  exists X', enc_inverse df cats r = Ok X' /\ length X' = length X /\ forall i n col, nth_error X i = Some (n, col) -> exists dv cs, nth_error cats i = Some (dv, cs) /\
    exists col', nth_error X' i = Some (n, col') /\ Forall2 (fun x x' => (In x cs -> x' = x) /\ (~ In x cs -> x' = dv)) col col'.
Proof.
  intros ND H. assert (ND' : Forall (@NoDup V) (map snd cats)) by (apply Forall_map; exact ND). unfold enc_transform in H. destruct (by_position _ (map snd cats) X) as [r0|] eqn:B; [|discriminate]. cbn [bind] in H.
  assert (E : r = r0 /\ (df = false -> r <> [])) by (unfold assemble in H; destruct r0; [destruct df; [injection H as <-; split; [auto|discriminate]|discriminate]|injection H as <-; split; [auto|discriminate]]). destruct E as [<- NE].
  apply by_position_ok in B. destruct B as [L N].
  assert (DC : forall (dv : V) cs x, NoDup cs -> exists x', decode dv cs (to_dtype false (encode eqV cs x)) = Ok x' /\ (In x cs -> x' = x) /\ (~ In x cs -> x' = dv)).
  { intros dv cs x NDc. unfold to_dtype, decode. destruct (dict_get eqV cs 0 x) as [k|] eqn:D.
    - assert (Ek : encode eqV cs x = k) by (unfold encode; now rewrite D). rewrite Ek. apply dict_get_ok in D. destruct D as [_ D]. rewrite Nat.sub_0_r in D. assert (Lk : k < length cs) by (apply nth_error_Some; congruence).
      replace (0 <=? Z.of_nat k)%Z with true by (symmetry; apply Z.leb_le; lia). replace (Z.of_nat k <? Z.of_nat (length cs))%Z with true by (symmetry; apply Z.ltb_lt; lia). cbn [andb]. rewrite Nat2Z.id, D. exists x. split; [auto|]. split; [auto|]. intros K. exfalso. apply K. eapply nth_error_In; eauto.
    - apply dict_get_none in D. rewrite encode_unseen by auto. replace (Z.of_nat (length cs) <? Z.of_nat (length cs))%Z with false by (symmetry; apply Z.ltb_ge; lia). rewrite andb_false_r. exists dv. split; [auto|]. split; [tauto|auto]. }
  assert (COL : forall i n col, nth_error X i = Some (n, col) -> exists dv cs, nth_error cats i = Some (dv, cs) /\ exists cd, nth_error r i = Some (n, cd) /\ exists col', vectorize true (decode dv cs) cd = Ok col' /\ Forall2 (fun x x' => (In x cs -> x' = x) /\ (~ In x cs -> x' = dv)) col col').
  { intros i n col Hi. destruct (N i n col Hi) as (cs & cd & A1 & A2 & A3). rewrite nth_error_map in A1. destruct (nth_error cats i) as [[dv cs']|] eqn:Ei; [|discriminate]. cbn in A1. injection A1 as ->. exists dv, cs. split; [auto|]. exists cd. split; [auto|].
    assert (NDc : NoDup cs) by (rewrite Forall_forall in ND; apply (ND (dv, cs)); eapply nth_error_In; eauto). assert (M : mapX (fun x => Ok (to_dtype false (encode eqV cs x))) col = Ok cd) by (unfold vectorize in A2; destruct col; [discriminate|exact A2]).
    assert (G : exists col', mapX (decode dv cs) cd = Ok col' /\ Forall2 (fun x x' => (In x cs -> x' = x) /\ (~ In x cs -> x' = dv)) col col').
    { apply mapX_inv in M. clear -M DC NDc. induction M as [|x y l l' E M IH]; [exists []; split; [auto|constructor]|]. assert (E' : y = to_dtype false (encode eqV cs x)) by congruence. subst y. destruct IH as (c' & I1 & I2). destruct (DC dv cs x NDc) as (x' & D1 & D2). cbn [mapX]. rewrite D1. cbn [bind]. rewrite I1. cbn [bind]. exists (x' :: c'). split; [auto|constructor; auto]. }
    destruct G as (col' & G1 & G2). exists col'. split; [|auto]. unfold vectorize. destruct cd; [cbn in G1; exact G1|exact G1]. }
  assert (TOT : exists X', by_position (fun cs col => vectorize true (decode (fst cs) (snd cs)) col) cats r = Ok X').
  { unfold by_position. assert (G : forall k (Y : list (string * list num)), (forall i n cd, nth_error Y i = Some (n, cd) -> exists dv cs col', nth_error cats (k + i) = Some (dv, cs) /\ vectorize true (decode dv cs) cd = Ok col') ->
      exists X', mapX (fun ic => match nth_error cats (fst ic) with None => Err IndexError | Some cs => do r <- vectorize true (decode (fst cs) (snd cs)) (snd (snd ic)); Ok (fst (snd ic), r) end) (combine (seq k (length Y)) Y) = Ok X').
    { intros k Y. revert k. induction Y as [|[n c] Y IH]; intros k HY; [now exists []|]. cbn [length seq combine mapX fst snd]. destruct (HY 0 n c eq_refl) as (dv & cs & col' & A1 & A2). rewrite Nat.add_0_r in A1. rewrite A1. cbn [fst snd]. rewrite A2. cbn [bind].
      destruct (IH (S k)) as (X' & EX); [intros i n' cd Hi; destruct (HY (S i) n' cd Hi) as (dv' & cs' & c' & B1 & B2); rewrite <- plus_n_Sm in B1; exists dv', cs', c'; auto|]. rewrite EX. cbn [bind]. eauto. }
    apply G. intros i n cd Hi. assert (Li : i < length X) by (rewrite <- L; apply nth_error_Some; congruence). destruct (nth_error X i) as [[n' col]|] eqn:EX; [|apply nth_error_None in EX; lia]. destruct (COL i n' col EX) as (dv & cs & C1 & cd' & C2 & col' & C3 & _). rewrite Hi in C2. injection C2 as -> ->. exists dv, cs, col'. auto. }
  destruct TOT as (X' & TX). exists X'. pose proof (by_position_ok _ _ _ TX) as [L' N']. split.
  - unfold enc_inverse. rewrite TX. cbn [bind]. unfold assemble. destruct X' as [|a X']; [|auto]. destruct df; [auto|]. exfalso. apply NE; auto. destruct r; [auto|discriminate].
  - split; [congruence|]. intros i n col Hi. destruct (COL i n col Hi) as (dv & cs & C1 & cd & C2 & col' & C3 & C4). exists dv, cs. split; [auto|]. exists col'. split; [|auto]. destruct (N' i n cd C2) as (c2 & col2 & D1 & D2 & D3). rewrite C1 in D1. injection D1 as <-. cbn [fst snd] in D2. congruence.
Qed.
(** with the default float dtype inverse_transform fails on the result of transform as soon as one value was seen *)
Theorem C215_float_roundtrip_refuted df (cats : list (V * list V)) X r i n col x dv cs : Forall (fun c => NoDup (snd c)) cats -> enc_transform eqV df true (map snd cats) X = Ok r ->
  nth_error X i = Some (n, col) -> In x col -> nth_error cats i = Some (dv, cs) -> In x cs -> exists e, enc_inverse df cats r = Err e.
Proof.
  intros ND H Hi Hx Hc Hs. assert (ND' : Forall (@NoDup V) (map snd cats)) by (apply Forall_map; exact ND). destruct (proj1 (C215_codes df true X ND') r H) as [L N]. destruct (N i n col Hi) as (cs' & cd & A1 & A2 & A3).
  rewrite nth_error_map, Hc in A1. cbn in A1. injection A1 as <-. destruct (enc_inverse df cats r) as [X'|e] eqn:E; [|eauto]. exfalso. unfold enc_inverse in E. destruct (by_position _ cats r) as [X0|] eqn:B; [|discriminate]. apply by_position_ok in B. destruct B as [_ B].
  destruct (B i n cd A2) as (c2 & col2 & B1 & B2 & _). rewrite Hc in B1. injection B1 as <-. cbn [fst snd] in B2. assert (M : mapX (decode dv cs) cd = Ok col2) by (unfold vectorize in B2; destruct cd; exact B2). apply mapX_inv in M.
  assert (FL : forall y, In y cd -> exists k, y = NFloat (inject_Z (Z.of_nat k)) ).
  { unfold enc_transform in H. destruct (by_position _ (map snd cats) X) as [r0|] eqn:B0; [|discriminate]. cbn [bind] in H. assert (Er : r = r0) by (unfold assemble in H; destruct r0; [destruct df; [now injection H as <-|discriminate]|now injection H as <-]). subst r0. apply by_position_ok in B0. destruct B0 as [_ B0].
    destruct (B0 i n col Hi) as (c3 & cd3 & _ & D2 & D3). rewrite A2 in D3. injection D3 as <-. assert (M3 : mapX (fun x => Ok (to_dtype true (encode eqV c3 x))) col = Ok cd) by (unfold vectorize in D2; destruct col; [discriminate|exact D2]). apply mapX_inv in M3. clear -M3. intros y Hy. induction M3 as [|a b l l' Eab M3 IH]; [contradiction|]. destruct Hy as [->|Hy]; [|auto]. injection Eab as <-. eexists. reflexivity. }
  clear -A3 M FL Hx Hs. revert col2 M. induction A3 as [|a b l l' (k & Ek & Hk) A3 IH]; intros col2 M; [contradiction|]. inversion M; subst. destruct Hx as [->|Hx]; [|eapply IH; eauto; intros z Hz; apply FL; now right].
  destruct (FL b (or_introl eq_refl)) as (k2 & ->). destruct Ek as [Ek|Ek]; [discriminate|]. injection Ek as Ek. destruct Hk as [Hk|[Hk _]]; [|contradiction]. assert (Lk : k < length cs) by (apply nth_error_Some; congruence).
  cbn [decode] in H1. assert (Ek2 : k2 = k) by lia. subst k2. replace (Qle_bool 0 (inject_Z (Z.of_nat k))) with true in H1 by (symmetry; apply Qle_bool_iff; change 0%Q with (inject_Z 0); rewrite <- Zle_Qle; lia).
  replace (Qle_bool (inject_Z (Z.of_nat (length cs))) (inject_Z (Z.of_nat k))) with false in H1; [cbn in H1; discriminate|]. symmetry. apply not_true_is_false. rewrite Qle_bool_iff, <- Zle_Qle. lia.
Qed.
End Enc.
(** the columns are taken by position: the same column of a frame with its columns in another order gets other codes *)
Theorem C215_reordered_frame_refuted : exists (cats : list (list nat)) X X' r r', Permutation X X' /\ enc_transform Nat.eqb true false cats X = Ok r /\ enc_transform Nat.eqb true false cats X' = Ok r' /\
  exists n, find (fun c => String.eqb n (fst c)) r <> find (fun c => String.eqb n (fst c)) r'.
Proof. exists [[1; 2]; [5; 6]], [("a", [2]); ("b", [6])], [("b", [6]); ("a", [2])]. do 2 eexists. split; [apply perm_swap|]. split; [vm_compute; reflexivity|]. split; [vm_compute; reflexivity|]. exists "a". vm_compute. discriminate. Qed.
Example enc_ex : enc_transform Nat.eqb true true [[3; 7]; [1]] [("a", [7; 4; 3]); ("b", [1; 2; 1])] = Ok [("a", [NFloat 1; NFloat 2; NFloat 0]); ("b", [NFloat 0; NFloat 1; NFloat 0])].
Proof. vm_compute. reflexivity. Qed.
Example enc_ex2 : exists r, enc_transform Nat.eqb true false [[3; 7]; [1]] [("a", [7; 4; 3]); ("b", [1; 2; 1])] = Ok r /\ enc_inverse true [(0, [3; 7]); (9, [1])] r = Ok [("a", [7; 0; 3]); ("b", [1; 9; 1])].
Proof. eexists. split; vm_compute; reflexivity. Qed.
Print Assumptions C215_codes.
Print Assumptions C215_codes_distinguish.
Print Assumptions C215_no_rows_refused.
Print Assumptions C215_roundtrip_partial.
Print Assumptions C215_float_roundtrip_refuted.
Print Assumptions C215_reordered_frame_refuted.
