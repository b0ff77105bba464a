(** Lemmas on the encoders of MetaModel: what a fitted encoder returns for rows of known groups. *)
From Coq Require Import ZArith Reals Sorting.Sorted OrdersEx.
From Verif Require Import Base ApiModel EstUtilsModel EstUtilsProps MetaModel MetaSpec.
Set Implicit Arguments.
Local Notation length := List.length.
Local Notation concat := List.concat.

(* ------------------------------------------------------------------------------------------------ *)
(** ** The order of labels *)

Lemma compare_same x : forall y, String.compare x y = String_as_OT.compare x y.
Proof. reflexivity. Qed.
Lemma str_lt x y : (match String.compare x y with Lt => true | _ => false end) = true <-> String_as_OT.lt x y.
Proof.
  rewrite compare_same. unfold String_as_OT.lt. destruct (String_as_OT.compare x y); split; congruence.
Qed.

Lemma llt_irrefl a : ~ llt a a.
Proof.
  destruct a as [z|s]; unfold llt; cbn.
  - rewrite Z.ltb_irrefl. easy.
  - rewrite str_lt. apply (StrictOrder_Irreflexive (R := String_as_OT.lt)).
Qed.
Lemma llt_trans a b c : llt a b -> llt b c -> llt a c.
Proof.
  destruct a as [x|x], b as [y|y], c as [z|z]; unfold llt; cbn; try easy.
  - rewrite !Z.ltb_lt. lia.
  - rewrite !str_lt. apply (StrictOrder_Transitive (R := String_as_OT.lt)).
Qed.
Lemma llt_total a b : label_ltb a b = false -> label_eqb a b = false -> llt b a.
Proof.
  destruct a as [x|x], b as [y|y]; unfold llt; cbn; try easy.
  - rewrite Z.ltb_ge, Z.eqb_neq, Z.ltb_lt. lia.
  - intros H1 H2. rewrite str_lt. destruct (String_as_OT.compare_spec x y) as [E|E|E]; auto.
    + change (x = y) in E. rewrite E, String.eqb_refl in H2. easy.
    + apply str_lt in E. congruence.
Qed.

Lemma linsert_In x y l : In y (linsert x l) <-> y = x \/ In y l.
Proof.
  induction l as [|z r IH]; cbn; [intuition|].
  destruct (label_ltb x z); cbn; [intuition|].
  destruct (label_eqb x z) eqn:E; cbn.
  - apply label_eqb_eq in E. subst. intuition congruence.
  - rewrite IH. intuition.
Qed.
Lemma linsert_sorted x l : StronglySorted llt l -> StronglySorted llt (linsert x l).
Proof.
  induction 1 as [|z r HS IH HF]; cbn; [repeat constructor|].
  destruct (label_ltb x z) eqn:E1.
  - constructor; [now constructor|]. constructor; auto.
    eapply Forall_impl; [|exact HF]. intros a Ha. exact (@llt_trans x z a E1 Ha).
  - destruct (label_eqb x z) eqn:E2; [now constructor|].
    constructor; auto. apply Forall_forall. intros y Hy. apply linsert_In in Hy as [->|Hy].
    + now apply llt_total.
    + rewrite Forall_forall in HF. auto.
Qed.
Lemma ssort_NoDup l : StronglySorted llt l -> NoDup l.
Proof.
  induction 1 as [|a l HS IH HF]; constructor; auto.
  intros H. rewrite Forall_forall in HF. exact (@llt_irrefl a (HF a H)).
Qed.

Lemma unique_labels_spec col cats :
  unique_labels col = Ok cats -> StronglySorted llt cats /\ (forall a, In a cats <-> In a col).
Proof.
  unfold unique_labels. destruct (_ || _); [|easy]. intros [= <-]. split.
  - induction col as [|a col IH]; cbn; [constructor|]. now apply linsert_sorted.
  - intros a. induction col as [|b col IH]; cbn; [easy|]. rewrite linsert_In, IH. intuition.
Qed.

(* ------------------------------------------------------------------------------------------------ *)
(** ** Lists *)

Lemma index_of_Some {A} {EA : EqDec A} (x : A) l i :
  index_of x l = Some i -> nth_error l i = Some x.
Proof.
  revert i. induction l as [|y r IH]; intros i; cbn; [easy|].
  destruct (eqb x y) eqn:E.
  - intros [= <-]. apply eqb_eq in E. now subst.
  - destruct (index_of x r) as [j|] eqn:E'; [|easy]. intros [= <-]. cbn. now apply IH.
Qed.
Lemma index_of_None {A} {EA : EqDec A} (x : A) l : index_of x l = None <-> ~ In x l.
Proof.
  induction l as [|y r IH]; cbn; [easy|].
  destruct (eqb x y) eqn:E.
  - apply eqb_eq in E. subst. split; [easy|]. intros H. exfalso. auto.
  - destruct (index_of x r) as [j|] eqn:E'; cbn.
    + split; [easy|]. intros H. exfalso. apply H. right. apply index_of_Some in E'.
      exact (nth_error_In _ _ E').
    + split; [|easy]. intros _ [->|H].
      * assert (eqb x x = true) by now apply eqb_eq. congruence.
      * now apply IH.
Qed.
Lemma index_of_In {A} {EA : EqDec A} (x : A) l : In x l -> exists i, index_of x l = Some i.
Proof.
  intros H. destruct (index_of x l) as [i|] eqn:E; eauto.
  apply (proj1 (index_of_None x l)) in E. easy.
Qed.
Lemma index_of_nth {A} {EA : EqDec A} (x : A) l i :
  NoDup l -> nth_error l i = Some x -> index_of x l = Some i.
Proof.
  intros ND H. destruct (index_of_In x l (nth_error_In _ _ H)) as (j & E). rewrite E. f_equal.
  apply index_of_Some in E. eapply NoDup_nth_error; eauto; [|congruence].
  apply nth_error_Some. congruence.
Qed.

Arguments index_of_nth {A EA} x l i _ _.

(** the indicator vector of a group among the groups *)
Definition ind {A} {EA : EqDec A} (keys : list A) (r : A) : list Z :=
  map (fun c => if eqb r c then 1%Z else 0%Z) keys.

Lemma ind_pos {A} {EA : EqDec A} (keys : list A) r q :
  NoDup keys -> nth_error keys q = Some r ->
  map (fun k => if k =? q then 1%Z else 0%Z) (seq 0 (length keys)) = ind keys r.
Proof.
  intros ND H. unfold ind.
  assert (G : forall s l, NoDup l -> forall q, (q < s \/ nth_error l (q - s) = Some r) -> (q < s -> ~ In r l) ->
     map (fun k => if k =? q then 1%Z else 0%Z) (seq s (length l)) = map (fun c => if eqb r c then 1%Z else 0%Z) l).
  { clear. intros s l ND. revert s. induction ND as [|c l Hc ND IH]; intros s q Hq Hn; cbn; auto.
    destruct (Nat.eqb_spec s q) as [->|Hne].
    - destruct Hq as [Hq|Hq]; [lia|]. rewrite Nat.sub_diag in Hq. cbn in Hq. injection Hq as ->.
      rewrite (proj2 (eqb_eq r r) eq_refl). f_equal. apply IH; [left; lia|]. auto.
    - assert (Hrc : eqb r c = false).
      { destruct (eqb r c) eqn:E; auto. apply eqb_eq in E. subst c. exfalso.
        destruct (Nat.lt_ge_cases q s) as [L|L]; [apply (Hn L); now left|].
        destruct Hq as [Hq|Hq]; [lia|]. replace (q - s) with (S (q - S s)) in Hq by lia.
        cbn in Hq. apply nth_error_In in Hq. easy. }
      rewrite Hrc. f_equal. apply IH.
      + destruct Hq as [Hq|Hq]; [left; lia|].
        destruct (Nat.lt_ge_cases q s) as [L|L]; [left; lia|right].
        replace (q - s) with (S (q - S s)) in Hq by lia. exact Hq.
      + intros L. destruct (Nat.lt_ge_cases q s) as [L'|L']; [|lia].
        intros I. apply (Hn L'). now right. }
  apply G; auto; [right; now rewrite Nat.sub_0_r|lia].
Qed.

Lemma mapX_inv {X Y} (f : X -> res Y) l ys : mapX f l = Ok ys -> Forall2 (fun x y => f x = Ok y) l ys.
Proof.
  revert ys. induction l as [|x l IH]; cbn; intros ys.
  - intros [= <-]. constructor.
  - destruct (f x) as [y|] eqn:E; [|easy]. cbn. destruct (mapX f l) as [zs|] eqn:E'; [|easy].
    cbn. intros [= <-]. constructor; auto.
Qed.

Lemma width_all {A} d (x : list (list A)) : x <> [] -> Forall (fun r => length r = d) x -> width x = d.
Proof. destruct x as [|r x]; [easy|]. intros _ H. now inversion H. Qed.
Lemma check_X_ok {A} d (x : list (list A)) :
  x <> [] -> d <> 0 -> Forall (fun r => length r = d) x -> check_X d x = Ok tt.
Proof.
  intros Hx Hd HF. unfold check_X. rewrite (width_all Hx HF).
  destruct x; [easy|]. destruct (Nat.eqb_spec d 0); [easy|]. cbn. now rewrite Nat.eqb_refl.
Qed.
Lemma check_X_inv {A} d (x : list (list A)) : check_X d x = Ok tt -> x <> [] /\ d <> 0 /\ width x = d.
Proof.
  unfold check_X. destruct x as [|r x]; [easy|]. cbn.
  destruct (Nat.eqb_spec d 0); [easy|]. cbn. destruct (Nat.eqb_spec (length r) d); [|easy].
  intros _. repeat split; easy.
Qed.

Lemma enc_value_ok cats a i : index_of a cats = Some i -> enc_value cats a = Ok i.
Proof. intros H. unfold enc_value. now rewrite H. Qed.

(* ------------------------------------------------------------------------------------------------ *)
(** ** A fitted pair of encoders *)

(** _comp_transformer when no encoder is made *)
Definition comp_ready (x : list (list label)) : M encs (list (list Z)) :=
  mdo x1 <- (if 1 <? width x then combine_labels x else mret x); apply_oh x1.

Lemma mbind_ok {St A B} (m : M St A) (f : A -> M St B) s s' a : m s = (s', Ok a) -> mbind m f s = f a s'.
Proof. unfold mbind. now intros ->. Qed.
Lemma mbind_err {St A B} (m : M St A) (f : A -> M St B) s s' e : m s = (s', Err e) -> mbind m f s = (s', Err e).
Proof. unfold mbind. now intros ->. Qed.
Lemma mbind_inv {St A B} (m : M St A) (f : A -> M St B) s s2 b :
  mbind m f s = (s2, Ok b) -> exists s1 a, m s = (s1, Ok a) /\ f a s1 = (s2, Ok b).
Proof. unfold mbind. destruct (m s) as [s1 [a|]]; [eauto|easy]. Qed.

Lemma combine_labels_pure x e : exists r, combine_labels x e = (e, r).
Proof.
  unfold combine_labels, mbind, mget, attr, fitted, mlift.
  destruct (e_ord e) as [[cats|]|]; try (eexists; reflexivity).
  destruct (ord_transform cats x) as [rows|]; try (eexists; reflexivity).
  destruct rows; [eexists; reflexivity|]. destruct (e_dict e); eexists; reflexivity.
Qed.
Lemma apply_oh_pure x e : exists r, apply_oh x e = (e, r).
Proof.
  unfold apply_oh, mbind, mget, attr, fitted, mlift.
  destruct (e_oh e) as [[cats|]|]; eexists; reflexivity.
Qed.
Lemma comp_ready_pure x e : exists r, comp_ready x e = (e, r).
Proof.
  unfold comp_ready. destruct (1 <? width x).
  - destruct (combine_labels_pure x e) as [[x1|er] E].
    + rewrite (mbind_ok _ _ _ E). apply apply_oh_pure.
    + rewrite (mbind_err _ _ _ E). eauto.
  - unfold mbind, mret. apply apply_oh_pure.
Qed.

Lemma sl_comp_ready x cats e : sl_comp true x cats e = comp_ready x e.
Proof.
  unfold sl_comp, comp_ready. cbn [negb]. destruct (1 <? width x); [|reflexivity].
  destruct (combine_labels_pure x e) as [[x1|er] E].
  - rewrite (mbind_ok _ _ _ E). unfold mbind, mret. rewrite E. reflexivity.
  - rewrite (mbind_err _ _ _ E). unfold mbind, mret. rewrite E. reflexivity.
Qed.
Lemma tl_comp_ready x cats e :
  (1 < width x -> e_ord e <> None) -> e_oh e <> None -> tl_comp x cats e = comp_ready x e.
Proof.
  intros Ho Hh. unfold tl_comp, comp_ready. destruct (1 <? width x) eqn:W.
  - apply Nat.ltb_lt in W. specialize (Ho W).
    destruct (combine_labels_pure x e) as [[x1|er] E]; unfold mbind, mret, mget;
      (destruct (e_ord e); [|easy]); rewrite E; [|reflexivity].
    destruct (e_oh e); [|easy]. reflexivity.
  - unfold mbind, mret, mget. destruct (e_oh e); [|easy]. reflexivity.
Qed.

(** the label of a position in every column *)
Definition decode (cats : list (list label)) (idx : list nat) : list label :=
  map (fun p => nth (snd p) (fst p) (LInt 0)) (combine cats idx).

Definition LN (i : nat) : label := LInt (Z.of_nat i).
Lemma LN_inj i j : LN i = LN j -> i = j.
Proof. unfold LN. intros [= H]. lia. Qed.

(** [Enc e d keys]: the encoders [e] are fitted for [d] treatment columns, and the groups in the order of the
    one-hot columns are [keys] *)
Inductive Enc (e : encs) : nat -> list (list label) -> Prop :=
  | Enc1 cats : e_oh e = Some (Some [cats]) -> NoDup cats -> Enc e 1 (map (fun c => [c]) cats)
  | EncN cats labels ohc :
      2 <= length cats -> Forall (@NoDup label) cats ->
      e_ord e = Some (Some cats) -> cartesian 0 (map (fun c => seq 0 (length c)) cats) = Ok labels ->
      e_dict e = Some labels -> e_oh e = Some (Some [map LN ohc]) ->
      NoDup ohc -> Forall (fun p => p < length labels) ohc ->
      Enc e (length cats) (map (fun p => decode cats (nth p labels [])) ohc).

Lemma labels_spec cats labels :
  cats <> [] -> cartesian 0 (map (fun c => seq 0 (length c)) cats) = Ok labels ->
  NoDup labels /\ (forall idx, In idx labels <-> Forall2 (fun i (c : list label) => i < length c) idx cats).
Proof.
  intros Hne E.
  assert (Hne' : map (fun c : list label => seq 0 (length c)) cats <> []) by (now destruct cats).
  destruct (@C64_cartesian_each_once nat 0 _ _ Hne' E) as [H1 H2].
  split.
  - apply H2. apply Forall_forall. intros l Hl. apply in_map_iff in Hl as (c & <- & _). apply seq_NoDup.
  - intros idx. rewrite H1. clear. revert idx. induction cats as [|c cats IH]; intros idx; cbn.
    + split; intros H; inversion H; constructor.
    + split; intros H; inversion H as [|i x r t Hi Ht]; subst; constructor; try (now apply IH);
        apply in_seq || (apply in_seq in Hi); lia.
Qed.

(** decoding is inverse to encoding *)
Lemma decode_spec cats idx r :
  Forall (@NoDup label) cats -> Forall2 (fun i (c : list label) => i < length c) idx cats ->
  (decode cats idx = r <-> mapX (fun p => enc_value (fst p) (snd p)) (combine cats r) = Ok idx /\ length r = length cats).
Proof.
  intros ND H. revert r. induction H as [|i c idx cats Hi H IH]; intros r; cbn [combine].
  - unfold decode. cbn. destruct r; cbn; split; intuition (try easy; try lia).
  - inversion ND as [|? ? NDc NDr]; subst. specialize (IH NDr).
    destruct r as [|a r].
    + unfold decode. cbn. split; intuition (try easy; try lia).
    + unfold decode in *. cbn [combine map fst snd mapX length].
      split.
      * intros [= Ea Er]. apply IH in Er as [Er El]. split; [|lia].
        rewrite (enc_value_ok c a (i := i)).
        2:{ apply index_of_nth; auto. rewrite <- Ea. now apply nth_error_nth'. }
        cbn. rewrite Er. reflexivity.
      * intros [E El]. unfold enc_value in E at 1.
        destruct (index_of a c) as [i'|] eqn:Ei; [|easy]. cbn in E.
        destruct (mapX _ (combine cats r)) as [idx'|] eqn:Em; [|easy]. cbn in E. injection E as -> ->.
        f_equal.
        -- apply index_of_Some in Ei. now apply nth_error_nth.
        -- apply IH. split; auto; lia.
Qed.

Lemma decode_inj cats idx1 idx2 :
  Forall (@NoDup label) cats -> Forall2 (fun i (c : list label) => i < length c) idx1 cats ->
  Forall2 (fun i (c : list label) => i < length c) idx2 cats ->
  decode cats idx1 = decode cats idx2 -> idx1 = idx2.
Proof.
  intros ND H1 H2 E. apply (proj1 (decode_spec _ ND H1)) in E as [E1 _].
  pose proof (proj1 (decode_spec _ ND H2) eq_refl) as [E2 _]. congruence.
Qed.

Lemma nth_labels cats labels p :
  cats <> [] -> cartesian 0 (map (fun c => seq 0 (length c)) cats) = Ok labels -> p < length labels ->
  Forall2 (fun i (c : list label) => i < length c) (nth p labels []) cats.
Proof.
  intros Hne E Hp. destruct (labels_spec Hne E) as [_ H]. apply H. now apply nth_In.
Qed.

Lemma Enc_keys e d keys : Enc e d keys -> NoDup keys /\ Forall (fun r => length r = d) keys /\ d <> 0.
Proof.
  intros H. destruct H as [cats Ho ND | cats labels ohc Hd NDc Ho Hc Hdct Hoh ND HF].
  - split; [|split].
    + apply FinFun.Injective_map_NoDup; auto. intros u v E. congruence.
    + apply Forall_forall. intros r Hr. apply in_map_iff in Hr as (c & <- & _). reflexivity.
    + lia.
  - assert (Hne : cats <> []) by (intros ->; cbn in Hd; lia).
    destruct (labels_spec Hne Hc) as [NDl Hl].
    split; [|split; [|lia]].
    + assert (G : forall l, NoDup l -> Forall (fun p => p < length labels) l ->
                   NoDup (map (fun p => decode cats (nth p labels [])) l)).
      { induction 1 as [|p l Hp NDp IH]; intros HFl; cbn; [constructor|]. inversion HFl; subst.
        constructor; auto. intros Hin. apply in_map_iff in Hin as (p' & E & Hp').
        apply Hp. rewrite Forall_forall in H2.
        apply decode_inj in E; auto.
        2,3: apply nth_labels; auto.
        assert (p' = p) as <-; auto.
        eapply (proj1 (NoDup_nth labels [])); eauto. }
      apply G; auto.
    + apply Forall_forall. intros r Hr. apply in_map_iff in Hr as (p & <- & Hp).
      rewrite Forall_forall in HF. specialize (HF p Hp).
      pose proof (nth_labels Hne Hc HF) as HL.
      now apply (proj1 (decode_spec _ NDc HL)) in HL as [_ ->] || (apply (proj1 (decode_spec (decode cats (nth p labels [])) NDc HL)); reflexivity).
Qed.

(** the indicator of the position among n *)
Definition pos_vec (n q : nat) : list Z := map (fun k => if k =? q then 1%Z else 0%Z) (seq 0 n).

Lemma oh_transform_1 cats x f :
  x <> [] -> (forall r, In r x -> exists a, r = [a] /\ index_of a cats = Some (f r)) ->
  oh_transform [cats] x = Ok (map (fun r => pos_vec (length cats) (f r)) x).
Proof.
  intros Hx H. unfold oh_transform. cbn [length].
  rewrite (@check_X_ok _ 1 x); auto.
  2:{ apply Forall_forall. intros r Hr. destruct (H r Hr) as (a & -> & _). reflexivity. }
  cbn [bind]. apply mapX_ok. intros r Hr. destruct (H r Hr) as (a & E & Ha). rewrite E in *.
  cbn [combine mapX fst snd]. rewrite (enc_value_ok _ _ Ha). cbn. now rewrite app_nil_r.
Qed.

Lemma enc_row_lt cats r idx :
  length r = length cats ->
  mapX (fun p => enc_value (fst p) (snd p)) (combine cats r) = Ok idx ->
  Forall2 (fun i (c : list label) => i < length c) idx cats.
Proof.
  revert r idx. induction cats as [|c cats IH]; intros [|a r] idx Hl; cbn in Hl; try lia.
  - cbn. intros [= <-]. constructor.
  - cbn [combine mapX fst snd]. unfold enc_value at 1.
    destruct (index_of a c) as [i|] eqn:E; [|easy]. cbn [bind].
    destruct (mapX _ (combine cats r)) as [idx'|] eqn:E'; [|easy]. cbn [bind]. intros [= <-].
    constructor; [|apply (IH r); auto; lia].
    apply index_of_Some in E. apply nth_error_Some. congruence.
Qed.

Lemma nth_error_map' {A B} (f : A -> B) l i y :
  nth_error (map f l) i = Some y -> exists x, nth_error l i = Some x /\ f x = y.
Proof. rewrite nth_error_map. destruct (nth_error l i) as [x|]; [|easy]. cbn. intros [= <-]. eauto. Qed.

(** a fitted encoder returns the indicator of the group of every row *)
Lemma comp_ready_ok e d keys x :
  Enc e d keys -> x <> [] -> Forall (fun r => In r keys) x ->
  comp_ready x e = (e, Ok (map (ind keys) x)).
Proof.
  intros HE Hx HF. pose proof (Enc_keys HE) as (NDk & HLk & Hd).
  assert (HL : Forall (fun r => length r = d) x).
  { eapply Forall_impl; [|exact HF]. intros r Hr. rewrite Forall_forall in HLk. auto. }
  unfold comp_ready. rewrite (width_all Hx HL). rewrite Forall_forall in HF.
  destruct HE as [cats Ho ND | cats labels ohc Hd2 NDc Ho Hc Hdct Hoh ND HFo].
  - cbn [Nat.ltb Nat.leb]. unfold mbind, mret, apply_oh, mget, attr, fitted, mlift, mbind. rewrite Ho.
    f_equal.
    set (keys := map (fun c => [c]) cats) in *.
    rewrite (@oh_transform_1 cats x (fun r => match index_of r keys with Some q => q | None => 0 end)); auto.
    + f_equal. apply map_ext_in. intros r Hr. destruct (index_of_In r keys (HF r Hr)) as (q & Eq). rewrite Eq.
      unfold pos_vec. replace (length cats) with (length keys) by (unfold keys; apply map_length).
      apply ind_pos; auto. now apply index_of_Some.
    + intros r Hr. destruct (index_of_In r keys (HF r Hr)) as (q & Eq). rewrite Eq.
      apply index_of_Some in Eq. unfold keys in Eq. apply nth_error_map' in Eq as (a & Ea & <-).
      exists a. split; auto. apply index_of_nth; auto.
  - assert (L : (1 <? length cats) = true) by (apply Nat.ltb_lt; lia). rewrite L.
    assert (Hne : cats <> []) by (intros ->; cbn in Hd2; lia).
    destruct (labels_spec Hne Hc) as [NDl Hlab].
    set (keys := map (fun p => decode cats (nth p labels [])) ohc) in *.
    (* the position in labels of every row *)
    set (pos := fun r => match index_of r keys with Some q => nth q ohc 0 | None => 0 end).
    assert (Hpos : forall r, In r x -> exists q, nth_error keys q = Some r /\ nth_error ohc q = Some (pos r) /\
                     decode cats (nth (pos r) labels []) = r /\ pos r < length labels).
    { intros r Hr. destruct (index_of_In r keys (HF r Hr)) as (q & Eq). exists q. unfold pos. rewrite Eq.
      apply index_of_Some in Eq. split; auto. unfold keys in Eq. apply nth_error_map' in Eq as (p & Ep & E).
      rewrite (nth_error_nth _ _ 0 Ep). repeat split; auto.
      rewrite Forall_forall in HFo. apply HFo. exact (nth_error_In _ _ Ep). }
    assert (E1 : combine_labels x e = (e, Ok (map (fun r => [LN (pos r)]) x))).
    { unfold combine_labels, mbind, mget, attr, fitted, mlift. rewrite Ho.
      assert (Et : ord_transform cats x = Ok (map (fun r => nth (pos r) labels []) x)).
      { unfold ord_transform. rewrite (@check_X_ok _ (length cats) x); auto. cbn [bind].
        apply mapX_ok. intros r Hr. destruct (Hpos r Hr) as (q & _ & _ & Ed & Hp).
        apply (proj1 (@decode_spec _ _ r NDc (nth_labels Hne Hc Hp))). exact Ed. }
      rewrite Et, Hdct.
      replace (match map (fun r => nth (pos r) labels []) x with [] => Ok [] | _ :: _ => Ok labels end) with (Ok labels)
        by (now destruct x).
      f_equal. 
      assert (G : forall y, (forall r, In r y -> In r x) ->
        mapX (fun r0 : list nat => match index_of r0 labels with Some i => Ok [LInt (Z.of_nat i)] | None => Err KeyError end)
             (map (fun r => nth (pos r) labels []) y) = Ok (map (fun r => [LN (pos r)]) y)).
      { induction y as [|r y IH]; intros Hy; cbn [map mapX]; auto.
        destruct (Hpos r) as (q & _ & _ & _ & Hp); [apply Hy; now left|].
        rewrite (index_of_nth (nth (pos r) labels []) _ (pos r) NDl) by (now apply nth_error_nth').
        cbn [bind]. rewrite IH; [reflexivity|]. intros r' Hr'. apply Hy. now right. }
      apply G. auto. }
    rewrite (mbind_ok _ _ _ E1). unfold apply_oh, mbind, mget, attr, fitted, mlift. rewrite Hoh. f_equal.
    assert (Hco : length (map LN ohc) = length keys) by (unfold keys; now rewrite !map_length).
    set (keyq := fun r => match index_of r keys with Some q => q | None => 0 end).
    transitivity (@Ok (list (list Z)) (map (fun r => pos_vec (length keys) (keyq r)) x)).
    + assert (G : oh_transform [map LN ohc] (map (fun r => [LN (pos r)]) x) =
                  Ok (map (fun r1 => pos_vec (length (map LN ohc))
                          (match index_of (hd (LInt 0) r1) (map LN ohc) with Some q => q | None => 0 end))
                          (map (fun r => [LN (pos r)]) x))).
      { apply oh_transform_1; [now destruct x|]. intros r1 Hr1. apply in_map_iff in Hr1 as (r & <- & Hr).
        exists (LN (pos r)). split; auto. cbn [hd]. destruct (Hpos r Hr) as (q & _ & Hq & _).
        assert (Hin : In (LN (pos r)) (map LN ohc)) by (apply in_map; exact (nth_error_In _ _ Hq)).
        destruct (index_of_In _ _ Hin) as (q' & Eq'). now rewrite Eq'. }
      rewrite G, map_map, Hco. f_equal. apply map_ext_in. intros r Hr. cbn [hd].
      destruct (Hpos r Hr) as (q & Hk & Hq & _). f_equal. unfold keyq.
      rewrite (index_of_nth r _ (q) NDk Hk).
      rewrite (index_of_nth (LN (pos r)) _ (q)); auto.
      * apply FinFun.Injective_map_NoDup; auto. intros u v. apply LN_inj.
      * rewrite nth_error_map, Hq. reflexivity.
    + f_equal. apply map_ext_in. intros r Hr. destruct (Hpos r Hr) as (q & Hk & _). unfold keyq.
      rewrite (index_of_nth r _ (q) NDk Hk). unfold pos_vec. now apply ind_pos.
Qed.

(** ... and raises ValueError for a row of no group *)
Lemma comp_ready_unknown e d keys r :
  Enc e d keys -> length r = d -> ~ In r keys -> comp_ready [r] e = (e, Err ValueError).
Proof.
  intros HE Hl Hn. unfold comp_ready. cbn [width]. rewrite Hl.
  destruct HE as [cats Ho ND | cats labels ohc Hd2 NDc Ho Hc Hdct Hoh ND HFo].
  - cbn [Nat.ltb Nat.leb]. unfold mbind, mret, apply_oh, mget, attr, fitted, mlift, mbind. rewrite Ho.
    f_equal. destruct r as [|a [|]]; cbn in Hl; try lia.
    unfold oh_transform. cbn. unfold enc_value. destruct (index_of a cats) as [i|] eqn:E; [|reflexivity].
    exfalso. apply Hn. apply in_map_iff. exists a. split; auto. apply index_of_Some in E.
    exact (nth_error_In _ _ E).
  - assert (L : (1 <? length cats) = true) by (apply Nat.ltb_lt; lia). rewrite L.
    assert (Hne : cats <> []) by (intros ->; cbn in Hd2; lia).
    destruct (labels_spec Hne Hc) as [NDl Hlab].
    assert (Hck : check_X (length cats) [r] = Ok tt).
    { apply check_X_ok; [easy|lia|]. repeat constructor. exact Hl. }
    destruct (mapX (fun p => enc_value (fst p) (snd p)) (combine cats r)) as [idx|er] eqn:Em.
    + pose proof (@enc_row_lt _ _ _ Hl Em) as Hlt.
      assert (Hdec : decode cats idx = r) by (apply (decode_spec r NDc Hlt); auto).
      destruct (index_of_In idx labels (proj2 (Hlab idx) Hlt)) as (p & Ep).
      assert (E1 : combine_labels [r] e = (e, Ok [[LN p]])).
      { unfold combine_labels, mbind, mget, attr, fitted, mlift. rewrite Ho.
        unfold ord_transform. rewrite Hck. cbn [bind mapX]. rewrite Em. cbn [bind]. rewrite Hdct. cbn [mapX].
        rewrite Ep. reflexivity. }
      rewrite (mbind_ok _ _ _ E1). unfold apply_oh, mbind, mget, attr, fitted, mlift. rewrite Hoh. f_equal.
      unfold oh_transform. cbn. unfold enc_value.
      destruct (index_of (LN p) (map LN ohc)) as [q|] eqn:Eq; [|reflexivity].
      exfalso. apply Hn. apply index_of_Some in Eq. apply nth_error_map' in Eq as (p' & Ep' & E).
      apply LN_inj in E. subst p'. apply in_map_iff. exists p. split; [|exact (nth_error_In _ _ Ep')].
      apply index_of_Some in Ep. rewrite (nth_error_nth _ _ [] Ep). exact Hdec.
    + assert (er = ValueError) as ->.
      { revert Em. generalize (combine cats r). intros l. induction l as [|p l IH]; cbn; [easy|].
        unfold enc_value at 1. destruct (index_of _ _); cbn; [|congruence].
        destruct (mapX _ l); cbn; [easy|]. intros [= <-]. now apply IH. }
      apply mbind_err.
      unfold combine_labels, mbind, mget, attr, fitted, mlift. rewrite Ho.
      unfold ord_transform. rewrite Hck. cbn [bind mapX]. rewrite Em. reflexivity.
Qed.

(** the code of a one-hot row *)
Lemma dot_ind {A} {EA : EqDec A} (keys : list A) r q :
  NoDup keys -> nth_error keys q = Some r -> dot_arange 0 (ind keys r) = Z.of_nat q.
Proof.
  intros ND H. rewrite <- (@ind_pos _ _ keys r q ND H). apply dot_onehot.
  assert (q < length keys) by (apply nth_error_Some; congruence). lia.
Qed.

(* ------------------------------------------------------------------------------------------------ *)
(** ** Making the encoders *)

Lemma F2_length {A B} (P : A -> B -> Prop) l m : Forall2 P l m -> length l = length m.
Proof. induction 1; cbn; auto. Qed.
Lemma Forall2_nth {A B} (P : A -> B -> Prop) l m da db :
  Forall2 P l m -> forall i, i < length l -> P (nth i l da) (nth i m db).
Proof.
  induction 1 as [|x y l m H HF IH]; cbn; intros i Hi; [lia|]. destruct i; auto. apply IH. lia.
Qed.

Lemma enc_fit_spec categories x cats d :
  Forall (fun r => length r = d) x -> enc_fit categories x = Ok cats ->
  x <> [] /\ d <> 0 /\ length cats = d /\
  (forall r, In r x -> Forall2 (fun a c => In a c) r cats) /\
  (categories = None -> Forall (StronglySorted llt) cats /\
     forall j, j < d -> forall a, In a (nth j cats []) <-> exists r, In r x /\ nth j r (LInt 0) = a) /\
  (forall cs, categories = Some cs -> cats = cs).
Proof.
  intros HL H. unfold enc_fit in H.
  destruct (check_X (width x) x) as [[]|] eqn:EC; [|easy]. cbn [bind] in H.
  apply check_X_inv in EC as (Hx & Hd & _). rewrite (width_all Hx HL) in *.
  assert (Hcol : forall j a, In a (column j x) <-> exists r, In r x /\ nth j r (LInt 0) = a).
  { intros j a. unfold column. rewrite in_map_iff. firstorder. }
  assert (Hrow : forall cs : list (list label), length cs = d ->
            (forall j, j < d -> forall a, In a (column j x) -> In a (nth j cs [])) ->
            forall r, In r x -> Forall2 (fun a c => In a c) r cs).
  { intros cs Hc Hin r Hr. rewrite Forall_forall in HL. specialize (HL r Hr).
    assert (G : forall k r' cs', length r' = length cs' ->
      (forall j, j < length cs' -> In (nth j r' (LInt 0)) (nth j cs' [])) -> k = length cs' ->
      Forall2 (fun a c => In a c) r' cs').
    { clear. intros k r'. revert k. induction r' as [|a r' IH]; intros k [|c cs'] Hl Hj _; cbn in Hl; try lia; constructor.
      - apply (Hj 0). cbn. lia.
      - apply (IH (length cs')); auto. intros j Hjl. apply (Hj (S j)). cbn. lia. }
    apply (G d); auto; [congruence|]. intros j Hj. apply Hin; [lia|]. apply Hcol. exists r. auto. }
  destruct categories as [cs|].
  - destruct (Nat.eqb_spec (length cs) d) as [El|]; [|easy]. cbn [negb] in H.
    apply mapX_inv in H. pose proof (F2_length H) as Hlen. rewrite seq_length in Hlen.
    assert (Hn : forall j, j < d -> nth j cats [] = nth j cs [] /\ forallb (fun a => mem a (nth j cs [])) (column j x) = true).
    { intros j Hj. pose proof (Forall2_nth 0 [] H) as Hj'. rewrite seq_length in Hj'. specialize (Hj' j Hj).
      rewrite seq_nth in Hj' by auto. cbn [Nat.add] in Hj'.
      destruct (_ && _); [easy|]. destruct (forallb _ (column j x)) eqn:Ef; [|easy]. injection Hj' as Hj'. auto. }
    assert (cats = cs) as ->.
    { apply nth_ext with (d := []) (d' := []); [lia|]. intros j Hj. apply Hn. lia. }
    repeat split; auto; try easy.
    + apply Hrow; auto. intros j Hj a Ha. destruct (Hn j Hj) as [_ Hf]. rewrite forallb_forall in Hf.
      now apply mem_In, Hf.
    + congruence.
  - apply mapX_inv in H. pose proof (F2_length H) as Hlen. rewrite seq_length in Hlen.
    assert (Hn : forall j, j < d -> StronglySorted llt (nth j cats []) /\ forall a, In a (nth j cats []) <-> In a (column j x)).
    { intros j Hj. pose proof (Forall2_nth 0 [] H) as Hj'. rewrite seq_length in Hj'. specialize (Hj' j Hj).
      rewrite seq_nth in Hj' by auto. now apply unique_labels_spec in Hj'. }
    repeat split; auto; try easy.
    + apply Hrow; auto. intros j Hj a Ha. now apply Hn.
    + apply Forall_forall. intros c Hc. apply (In_nth _ _ []) in Hc as (j & Hj & <-). apply Hn. lia.
    + intros Ha. apply Hcol. now apply Hn.
    + intros Ha. apply Hn; auto. now apply Hcol.
Qed.

Lemma combine_labels_dep x e e' :
  e_ord e = e_ord e' -> e_dict e = e_dict e' -> snd (combine_labels x e) = snd (combine_labels x e').
Proof.
  intros H1 H2. unfold combine_labels, mbind, mget, attr, fitted, mlift. rewrite H1, H2.
  destruct (e_ord e') as [[cats|]|]; try reflexivity.
  destruct (ord_transform cats x) as [rows|]; try reflexivity.
  destruct rows; [reflexivity|]. destruct (e_dict e'); reflexivity.
Qed.

Lemma combine_spec cats labels e x x1 e' :
  2 <= length cats -> Forall (@NoDup label) cats ->
  e_ord e = Some (Some cats) -> cartesian 0 (map (fun c => seq 0 (length c)) cats) = Ok labels ->
  e_dict e = Some labels -> x <> [] -> Forall (fun r => length r = length cats) x ->
  combine_labels x e = (e', Ok x1) ->
  e' = e /\
  Forall2 (fun r r1 => exists p, r1 = [LN p] /\ p < length labels /\ decode cats (nth p labels []) = r) x x1.
Proof.
  intros Hd2 NDc Ho Hc Hdct Hx HL H. split.
  { destruct (combine_labels_pure x e) as [r E]. congruence. }
  assert (Hne : cats <> []) by (intros ->; cbn in Hd2; lia).
  unfold combine_labels, mbind, mget, attr, fitted, mlift in H. rewrite Ho, Hdct in H.
  destruct (ord_transform cats x) as [rows|] eqn:E; [|easy].
  unfold ord_transform in E. destruct (check_X (length cats) x) as [[]|]; [|easy]. cbn [bind] in E.
  apply mapX_inv in E.
  replace (match rows with [] => Ok [] | _ :: _ => Ok labels end) with (Ok labels) in H
    by (destruct rows; auto; inversion E; subst; easy).
  injection H as _ H. apply mapX_inv in H.
  clear Hx. revert x1 H. induction E as [|r idx x rows Hr E IH]; intros x1 H; inversion H; subst; constructor.
  - inversion HL; subst. pose proof (@enc_row_lt _ _ _ H3 Hr) as Hlt.
    destruct (index_of idx labels) as [p|] eqn:Ep; [|easy]. injection H2 as <-.
    exists p. split; [reflexivity|]. apply index_of_Some in Ep. split.
    + apply nth_error_Some. congruence.
    + rewrite (nth_error_nth _ _ [] Ep). apply (@decode_spec _ _ r NDc Hlt). auto.
  - inversion HL; subst. now apply IH.
Qed.

(** result of creating and fitting the ordinal encoder *)
Lemma make_ord_inv categories x e e1 c :
  make_ord categories x e = (e1, Ok c) ->
  exists cats labels, enc_fit categories x = Ok cats /\
    cartesian 0 (map (fun c => seq 0 (length c)) cats) = Ok labels /\
    e1 = mkEncs (Some (Some cats)) (Some labels) (e_oh e) /\ c = [map LN (seq 0 (length labels))].
Proof.
  unfold make_ord, mbind, mset, mlift, mret. intros H.
  destruct (enc_fit categories x) as [cats|] eqn:E1; [|easy].
  destruct (cartesian 0 _) as [labels|] eqn:E2; [|easy].
  injection H as <- <-. exists cats, labels. auto.
Qed.
Lemma make_oh_inv categories x e e1 :
  make_oh categories x e = (e1, Ok tt) ->
  exists cats, enc_fit categories x = Ok cats /\ e1 = mkEncs (e_ord e) (e_dict e) (Some (Some cats)).
Proof.
  unfold make_oh, mbind, mset, mlift. intros H.
  destruct (enc_fit categories x) as [cats|] eqn:E1; [|easy]. injection H as <-. eauto.
Qed.

Lemma combine_In {A B} (P : A -> B -> Prop) l m x : Forall2 P l m -> In x l -> exists y, In y m /\ P x y.
Proof. induction 1 as [|a b l m H HF IH]; cbn; [easy|]. intros [->|Hx]; [eauto|]. destruct (IH Hx) as (y & ? & ?); eauto. Qed.
Lemma combine_In_r {A B} (P : A -> B -> Prop) l m y : Forall2 P l m -> In y m -> exists x, In x l /\ P x y.
Proof. induction 1 as [|a b l m H HF IH]; cbn; [easy|]. intros [->|Hx]; [eauto|]. destruct (IH Hx) as (z & ? & ?); eauto. Qed.

Lemma F2_In_length {A} (r : list A) cs : Forall2 (fun a c => In a c) r cs -> length r = length cs.
Proof. apply F2_length. Qed.

(** the groups of an ordinal encoder *)
Lemma keys_all cats labels :
  cats <> [] -> Forall (@NoDup label) cats ->
  cartesian 0 (map (fun c => seq 0 (length c)) cats) = Ok labels ->
  forall r, In r (map (fun p => decode cats (nth p labels [])) (seq 0 (length labels))) <->
            Forall2 (fun a c => In a c) r cats.
Proof.
  intros Hne ND Hc r. destruct (labels_spec Hne Hc) as [NDl Hl]. rewrite in_map_iff. split.
  - intros (p & <- & Hp). apply in_seq in Hp.
    assert (Hlt := nth_labels Hne Hc (p := p) ltac:(lia)). revert Hlt. generalize (nth p labels []). clear.
    intros idx H. induction H as [|i c idx cats Hi H IH]; unfold decode; cbn; constructor; auto.
    cbn. now apply nth_In.
  - intros H.
    assert (G : exists idx, Forall2 (fun i (c : list label) => i < length c) idx cats /\ decode cats idx = r).
    { clear - H. induction H as [|a c r cats Ha H IH].
      - exists []. split; constructor.
      - destruct IH as (idx & H1 & H2). apply (In_nth _ _ (LInt 0)) in Ha as (i & Hi & Ei).
        exists (i :: idx). split; [constructor; auto|]. unfold decode in *. cbn. rewrite H2. now rewrite Ei. }
    destruct G as (idx & H1 & H2). apply Hl in H1.
    apply (In_nth _ _ []) in H1 as (p & Hp & Ep). exists p. split; [now rewrite Ep|]. apply in_seq. lia.
Qed.

(** the first fit of an SLearner: the groups are all tuples of categories *)
Lemma sl_comp_fresh x categories e e1 x' d :
  Forall (fun r => length r = d) x -> (forall cs, categories = Some cs -> Forall (@NoDup label) cs) ->
  sl_comp false x categories e = (e1, Ok x') ->
  exists keys cats,
    enc_fit categories x = Ok cats /\ Enc e1 d keys /\ x' = map (ind keys) x /\
    (forall r, In r keys <-> Forall2 (fun a c => In a c) r cats) /\
    (d = 1 -> keys = map (fun c => [c]) (nth 0 cats [])) /\
    (d <> 1 -> Enc e1 1 (map (fun i => [LN i]) (seq 0 (length keys)))).
Proof.
  intros HL HND H. unfold sl_comp in H. cbn [negb] in H.
  destruct (1 <? width x) eqn:W.
  - apply Nat.ltb_lt in W.
    assert (Hx : x <> []) by (intros ->; cbn in W; lia).
    assert (Hd : d = width x) by (symmetry; now apply width_all).
    apply mbind_inv in H as (e3 & [x1 cats1] & H1 & H).
    apply mbind_inv in H1 as (e2 & co & H1 & H2).
    apply mbind_inv in H1 as (e2' & c & H1 & H1'). unfold mret in H1'. injection H1' as -> <-.
    apply mbind_inv in H2 as (e3' & x1' & H2 & H2'). unfold mret in H2'. injection H2' as -> -> <-.
    apply mbind_inv in H as (e4 & [] & H3 & H4).
    apply make_ord_inv in H1 as (cats & labels & Ef & Ec & -> & ->).
    destruct (@enc_fit_spec _ _ _ _ HL Ef) as (_ & Hd0 & Hlen & Hin & Hnone & Hsome).
    assert (NDc : Forall (@NoDup label) cats).
    { destruct categories as [cs|].
      - rewrite (Hsome cs eq_refl). now apply HND.
      - eapply Forall_impl; [|exact (proj1 (Hnone eq_refl))]. intros l. apply ssort_NoDup. }
    assert (Hlen' : length cats = d) by auto.
    assert (HL' : Forall (fun r => length r = length cats) x) by (now rewrite Hlen').
    assert (H22 : 2 <= length cats) by lia.
    destruct (@combine_spec cats labels (mkEncs (Some (Some cats)) (Some labels) (e_oh e)) x x1 _ H22 NDc eq_refl Ec eq_refl Hx HL' H2) as [-> HF].
    apply make_oh_inv in H3 as (ohc & Eo & ->). cbn [e_ord e_dict] in *.
    assert (HL1 : Forall (fun r => length r = 1) x1).
    { apply Forall_forall. intros r1 Hr1. destruct (@combine_In_r _ _ _ _ _ r1 HF Hr1) as (r & _ & p & -> & _). reflexivity. }
    destruct (@enc_fit_spec _ _ _ _ HL1 Eo) as (_ & _ & _ & _ & _ & Hs). rewrite (Hs _ eq_refl) in *. clear Hs.
    set (keys := map (fun p => decode cats (nth p labels [])) (seq 0 (length labels))).
    set (e1' := mkEncs (Some (Some cats)) (Some labels) (Some (Some [map LN (seq 0 (length labels))]))) in *.
    assert (e1 = e1').
    { destruct (apply_oh_pure x1 e1') as [r Er]. congruence. }
    subst e1.
    assert (HE : Enc e1' d keys).
    { rewrite <- Hlen. unfold keys. apply EncN; auto; try lia; [apply seq_NoDup|].
      apply Forall_forall. intros p Hp. apply in_seq in Hp. lia. }
    assert (Hne : cats <> []) by (intros ->; cbn in Hlen; lia).
    exists keys, cats. repeat split; auto.
    + assert (Ecr : comp_ready x e1' = (e1', Ok x')).
      { unfold comp_ready. rewrite (proj2 (Nat.ltb_lt 1 (width x)) W).
        assert (E1 : combine_labels x e1' = (e1', Ok x1)).
        { destruct (combine_labels_pure x e1') as [r Er]. rewrite Er. f_equal.
          pose proof (@combine_labels_dep x e1' (mkEncs (Some (Some cats)) (Some labels) (e_oh e)) eq_refl eq_refl) as D.
          rewrite Er, H2 in D. exact D. }
        rewrite (mbind_ok _ _ _ E1). exact H4. }
      rewrite (comp_ready_ok HE Hx) in Ecr.
      * congruence.
      * apply Forall_forall. intros r Hr. unfold keys. apply keys_all; auto.
    + intros Hr. apply (keys_all Hne NDc Ec). exact Hr.
    + intros Hr. apply (keys_all Hne NDc Ec). exact Hr.
    + lia.
    + intros _. unfold keys. rewrite map_length, seq_length, <- (map_map LN (fun c => [c])). apply Enc1; [reflexivity|].
      apply FinFun.Injective_map_NoDup; [|apply seq_NoDup]. intros u v. apply LN_inj.
  - apply Nat.ltb_ge in W.
    apply mbind_inv in H as (e3 & [x1 cats1] & H1 & H). unfold mret in H1. injection H1 as <- <- <-.
    apply mbind_inv in H as (e4 & [] & H3 & H4).
    apply make_oh_inv in H3 as (cats & Ef & ->).
    destruct (@enc_fit_spec _ _ _ _ HL Ef) as (Hx & Hd0 & Hlen & Hin & Hnone & Hsome).
    rewrite (width_all Hx HL) in W. assert (Hd1 : d = 1) by lia. rewrite Hd1 in *. clear Hd1.
    destruct cats as [|c [|]]; cbn in Hlen; try lia.
    assert (NDc : NoDup c).
    { destruct categories as [cs|].
      - specialize (HND cs eq_refl). rewrite <- (Hsome cs eq_refl) in HND. now inversion HND.
      - destruct (Hnone eq_refl) as [Hss _]. inversion Hss; subst. now apply ssort_NoDup. }
    set (e1' := mkEncs (e_ord e) (e_dict e) (Some (Some [c]))) in *.
    assert (e1 = e1').
    { destruct (apply_oh_pure x e1') as [r Er]. congruence. }
    subst e1.
    assert (HE : Enc e1' 1 (map (fun a => [a]) c)) by (now apply Enc1).
    assert (Hk : forall r, In r (map (fun a : label => [a]) c) <-> Forall2 (fun a c => In a c) r [c]).
    { intros r. rewrite in_map_iff. split.
      - intros (a & <- & Ha). repeat constructor. exact Ha.
      - intros Hr. inversion Hr as [|a ? r' ? Ha Hr']; subst. inversion Hr'; subst. eauto. }
    exists (map (fun a => [a]) c), [c]. split; auto. split; auto. split; [|split; [|split; [auto|lia]]].
    + assert (Ecr : comp_ready x e1' = (e1', Ok x')).
      { unfold comp_ready. rewrite (width_all Hx HL). exact H4. }
      rewrite (comp_ready_ok HE Hx) in Ecr; [congruence|].
      apply Forall_forall. intros r Hr. apply Hk. auto.
    + exact Hk.
Qed.

(** the first fit of a TLearner or XLearner: the groups are those present in the data *)
Lemma tl_comp_fresh x categories e e1 x' d :
  e_ord e = None -> e_oh e = None ->
  Forall (fun r => length r = d) x -> (forall cs, categories = Some cs -> Forall (@NoDup label) cs) ->
  tl_comp x categories e = (e1, Ok x') ->
  exists keys, Enc e1 d keys /\ x' = map (ind keys) x /\ (forall r, In r keys <-> In r x) /\
    (d = 1 -> exists cats, keys = map (fun c => [c]) cats /\ StronglySorted llt cats).
Proof.
  intros He1 He2 HL HND H. unfold tl_comp in H.
  destruct (1 <? width x) eqn:W.
  - apply Nat.ltb_lt in W.
    assert (Hx : x <> []) by (intros ->; cbn in W; lia).
    assert (Hd : d = width x) by (symmetry; now apply width_all).
    apply mbind_inv in H as (e3 & x1 & H1 & H).
    apply mbind_inv in H1 as (e0 & e0' & H0 & H1). unfold mget in H0. injection H0 as <- <-.
    rewrite He1 in H1. apply mbind_inv in H1 as (e2 & [] & H1 & H2).
    apply mbind_inv in H1 as (e2' & c & H1 & H1'). unfold mret in H1'. injection H1' as ->.
    apply mbind_inv in H as (e4 & e4' & H3 & H4). unfold mget in H3. injection H3 as -> <-.
    apply make_ord_inv in H1 as (cats & labels & Ef & Ec & -> & ->).
    destruct (@enc_fit_spec _ _ _ _ HL Ef) as (_ & Hd0 & Hlen & Hin & Hnone & Hsome).
    assert (NDc : Forall (@NoDup label) cats).
    { destruct categories as [cs|].
      - rewrite (Hsome cs eq_refl). now apply HND.
      - eapply Forall_impl; [|exact (proj1 (Hnone eq_refl))]. intros l. apply ssort_NoDup. }
    assert (HL' : Forall (fun r => length r = length cats) x) by (now rewrite Hlen).
    assert (H22 : 2 <= length cats) by lia.
    destruct (@combine_spec cats labels (mkEncs (Some (Some cats)) (Some labels) (e_oh e)) x x1 _ H22 NDc eq_refl Ec eq_refl Hx HL' H2) as [-> HF].
    cbn [e_oh] in H4. rewrite He2 in H4.
    apply mbind_inv in H4 as (e5 & [] & H3 & H4).
    apply make_oh_inv in H3 as (ohl & Eo & ->). cbn [e_ord e_dict] in *.
    assert (HL1 : Forall (fun r => length r = 1) x1).
    { apply Forall_forall. intros r1 Hr1. destruct (@combine_In_r _ _ _ _ _ r1 HF Hr1) as (r & _ & p & -> & _). reflexivity. }
    destruct (@enc_fit_spec _ _ _ _ HL1 Eo) as (Hx1 & _ & Hlo & _ & Hs & _).
    destruct (Hs eq_refl) as [HS HI]. clear Hs. destruct ohl as [|ohl [|]]; cbn in Hlo; try lia.
    inversion HS as [|? ? HS1 _]; subst. specialize (HI 0 ltac:(lia)). cbn in HI.
    (* the one-hot categories are positions of labels *)
    set (ohc := map (fun a => match a with LInt z => Z.to_nat z | _ => 0 end) ohl).
    assert (Hform : forall a, In a ohl -> exists p, a = LN p /\ p < length labels).
    { intros a Ha. apply HI in Ha as (r1 & Hr1 & <-).
      destruct (@combine_In_r _ _ _ _ _ r1 HF Hr1) as (r & _ & p & -> & Hp & _). exists p. auto. }
    assert (Eohl : ohl = map LN ohc).
    { unfold ohc. rewrite map_map. rewrite <- (map_id ohl) at 1. apply map_ext_in. intros a Ha.
      destruct (Hform a Ha) as (p & -> & _). unfold LN. now rewrite Nat2Z.id. }
    assert (NDo : NoDup ohc).
    { apply ssort_NoDup in HS1. rewrite Eohl in HS1. now apply NoDup_map_inv in HS1. }
    assert (HFo : Forall (fun p => p < length labels) ohc).
    { apply Forall_forall. intros p Hp. destruct (Hform (LN p)) as (p' & E & Hp').
      - rewrite Eohl. now apply in_map.
      - apply LN_inj in E. rewrite E. exact Hp'. }
    clearbody ohc. subst ohl.
    set (keys := map (fun p => decode cats (nth p labels [])) ohc).
    set (e1' := mkEncs (Some (Some cats)) (Some labels) (Some (Some [map LN ohc]))) in *.
    assert (e1 = e1').
    { destruct (apply_oh_pure x1 e1') as [r Er]. congruence. }
    subst e1.
    assert (HE : Enc e1' (length cats) keys) by (unfold keys; apply EncN; auto).
    assert (Hk : forall r, In r keys <-> In r x).
    { intros r. unfold keys. rewrite in_map_iff. split.
      - intros (p & <- & Hp).
        assert (Hi : In (LN p) (map LN ohc)) by (now apply in_map). apply HI in Hi as (r1 & Hr1 & E).
        destruct (@combine_In_r _ _ _ _ _ r1 HF Hr1) as (r & Hr & p' & -> & _ & Ed). cbn in E. apply LN_inj in E. now subst.
      - intros Hr. destruct (@combine_In _ _ _ _ _ r HF Hr) as (r1 & Hr1 & p & -> & Hp & Ed).
        exists p. split; auto. assert (Hi : In (LN p) (map LN ohc)) by (apply HI; exists [LN p]; auto).
        apply in_map_iff in Hi as (p' & E & Hp'). apply LN_inj in E. now subst. }
    exists keys. rewrite <- Hlen. repeat split; try apply Hk; auto; [|lia].
    assert (Ecr : comp_ready x e1' = (e1', Ok x')).
    { unfold comp_ready. rewrite (proj2 (Nat.ltb_lt 1 (width x)) W).
      assert (E1 : combine_labels x e1' = (e1', Ok x1)).
      { destruct (combine_labels_pure x e1') as [r Er]. rewrite Er. f_equal.
        pose proof (@combine_labels_dep x e1' (mkEncs (Some (Some cats)) (Some labels) (e_oh e)) eq_refl eq_refl) as D.
        rewrite Er, H2 in D. exact D. }
      rewrite (mbind_ok _ _ _ E1). exact H4. }
    rewrite (comp_ready_ok HE Hx) in Ecr; [congruence|].
    apply Forall_forall. intros r Hr. now apply Hk.
  - apply Nat.ltb_ge in W.
    apply mbind_inv in H as (e3 & x1 & H1 & H). unfold mret in H1. injection H1 as <- <-.
    apply mbind_inv in H as (e4 & e4' & H3 & H4). unfold mget in H3. injection H3 as <- <-.
    rewrite He2 in H4. apply mbind_inv in H4 as (e4 & [] & H3 & H4).
    apply make_oh_inv in H3 as (cats & Ef & ->).
    destruct (@enc_fit_spec _ _ _ _ HL Ef) as (Hx & Hd0 & Hlen & Hin & Hnone & Hsome).
    rewrite (width_all Hx HL) in W. assert (Hd1 : d = 1) by lia. rewrite Hd1 in *. clear Hd1.
    destruct (Hnone eq_refl) as [HS HI].
    destruct cats as [|c [|]]; cbn in Hlen; try lia.
    inversion HS as [|? ? HS1 _]; subst. specialize (HI 0 ltac:(lia)). cbn in HI.
    set (e1' := mkEncs (e_ord e) (e_dict e) (Some (Some [c]))) in *.
    assert (e1 = e1').
    { destruct (apply_oh_pure x e1') as [r Er]. congruence. }
    subst e1.
    assert (HE : Enc e1' 1 (map (fun a => [a]) c)) by (apply Enc1; auto; now apply ssort_NoDup).
    assert (Hk : forall r, In r (map (fun a : label => [a]) c) <-> In r x).
    { rewrite Forall_forall in HL. intros r. rewrite in_map_iff. split.
      - intros (a & <- & Ha). apply HI in Ha as (r & Hr & <-). pose proof (HL r Hr).
        destruct r as [|a [|]]; cbn in *; try lia. exact Hr.
      - intros Hr. pose proof (HL r Hr). destruct r as [|a [|]]; cbn in *; try lia.
        exists a. split; auto. apply HI. exists [a]. auto. }
    exists (map (fun a => [a]) c). split; auto. split; [|split; [exact Hk|eauto]].
    assert (Ecr : comp_ready x e1' = (e1', Ok x')).
    { unfold comp_ready. rewrite (width_all Hx HL). exact H4. }
    rewrite (comp_ready_ok HE Hx) in Ecr; [congruence|].
    apply Forall_forall. intros r Hr. now apply Hk.
Qed.

(* ------------------------------------------------------------------------------------------------ *)
(** ** get_tr_ctrl *)

Lemma mapX_err {X Y} (f : X -> res Y) er l :
  (forall x e, In x l -> f x = Err e -> e = er) -> (exists x e, In x l /\ f x = Err e) -> mapX f l = Err er.
Proof.
  induction l as [|x l IH]; intros H (z & e & Hz & E); [easy|]. cbn.
  destruct (f x) as [y|e'] eqn:E'; cbn.
  - destruct Hz as [->|Hz]; [congruence|].
    rewrite IH; [reflexivity| |eauto]. intros u e0 Hu. apply H. now right.
  - f_equal. apply (H x e'); [now left|auto].
Qed.

Lemma enc_row_err cats r e : mapX (fun p => enc_value (fst p) (snd p)) (combine cats r) = Err e -> e = ValueError.
Proof.
  generalize (combine cats r). intros l. induction l as [|p l IH]; cbn; [easy|].
  unfold enc_value at 1. destruct (index_of _ _); cbn; [|congruence].
  destruct (mapX _ l); cbn; [easy|]. intros [= <-]. now apply IH.
Qed.

Lemma oh_transform_unknown cats x :
  Forall (fun r => length r = 1) x -> (exists a, In [a] x /\ ~ In a cats) -> oh_transform [cats] x = Err ValueError.
Proof.
  intros HL (a & Ha & Hn). unfold oh_transform.
  assert (Hck : check_X (length [cats]) x = Ok tt) by (apply check_X_ok; [intros ->; easy|easy|auto]).
  rewrite Hck. cbn [bind]. apply mapX_err.
  - intros r e Hr. rewrite Forall_forall in HL. specialize (HL r Hr). destruct r as [|b [|]]; cbn in HL; try lia.
    cbn. unfold enc_value. destruct (index_of b cats); cbn; congruence.
  - exists [a], ValueError. split; auto. cbn. unfold enc_value.
    apply (proj2 (@index_of_None label _ a cats)) in Hn. now rewrite Hn.
Qed.

(** ... and raises ValueError when some row belongs to no group *)
Lemma comp_ready_unknown_any e d keys x r :
  Enc e d keys -> Forall (fun r => length r = d) x -> In r x -> ~ In r keys -> comp_ready x e = (e, Err ValueError).
Proof.
  intros HE HL Hr Hn. assert (Hx : x <> []) by (intros ->; easy).
  unfold comp_ready. rewrite (width_all Hx HL).
  destruct HE as [cats Ho ND | cats labels ohc Hd2 NDc Ho Hc Hdct Hoh ND HFo].
  - cbn [Nat.ltb Nat.leb]. unfold mbind, mret, apply_oh, mget, attr, fitted, mlift, mbind. rewrite Ho.
    f_equal. apply oh_transform_unknown; auto.
    rewrite Forall_forall in HL. specialize (HL r Hr). destruct r as [|a [|]]; cbn in HL; try lia.
    exists a. split; auto. intros Ha. apply Hn. apply in_map_iff. eauto.
  - assert (L : (1 <? length cats) = true) by (apply Nat.ltb_lt; lia). rewrite L.
    assert (Hne : cats <> []) by (intros ->; cbn in Hd2; lia).
    destruct (labels_spec Hne Hc) as [NDl Hlab].
    assert (Hck : check_X (length cats) x = Ok tt) by (apply check_X_ok; auto; lia).
    destruct (ord_transform cats x) as [rows|er] eqn:Et.
    + assert (F2 : Forall2 (fun r idx => mapX (fun p => enc_value (fst p) (snd p)) (combine cats r) = Ok idx) x rows).
      { unfold ord_transform in Et. rewrite Hck in Et. cbn [bind] in Et. now apply mapX_inv in Et. }
      assert (Hrows : forall idx, In idx rows -> exists p, index_of idx labels = Some p).
      { intros idx Hi. destruct (@combine_In_r _ _ _ _ _ _ F2 Hi) as (r' & Hr' & Em). apply index_of_In. apply Hlab.
        apply (@enc_row_lt cats r' idx); auto. rewrite Forall_forall in HL. auto. }
      set (g := fun idx => match index_of idx labels with Some i => [LN i] | None => [] end).
      assert (E1 : combine_labels x e = (e, Ok (map g rows))).
      { unfold combine_labels, mbind, mget, attr, fitted, mlift. rewrite Ho, Et, Hdct.
        replace (match rows with [] => Ok [] | _ :: _ => Ok labels end) with (Ok labels).
        2:{ destruct rows; auto. inversion F2; subst. easy. }
        f_equal. apply mapX_ok. intros idx Hi. destruct (Hrows idx Hi) as (p & Ep). unfold g. rewrite Ep. reflexivity. }
      rewrite (mbind_ok _ _ _ E1). unfold apply_oh, mbind, mget, attr, fitted, mlift. rewrite Hoh. f_equal.
      apply oh_transform_unknown.
      * apply Forall_forall. intros r1 H1. apply in_map_iff in H1 as (idx & <- & Hi). unfold g.
        destruct (Hrows idx Hi) as (p & Ep). now rewrite Ep.
      * destruct (@combine_In _ _ _ _ _ _ F2 Hr) as (idx & Hi & Em). destruct (Hrows idx Hi) as (p & Ep).
        exists (LN p). split.
        -- apply in_map_iff. exists idx. unfold g. now rewrite Ep.
        -- intros Hin. apply in_map_iff in Hin as (p' & E & Hp'). apply LN_inj in E. subst p'.
           apply Hn. apply in_map_iff. exists p. split; auto.
           apply index_of_Some in Ep. rewrite (nth_error_nth _ _ [] Ep).
           rewrite Forall_forall in HL. apply decode_spec; auto.
           apply (@enc_row_lt cats r idx); auto.
    + assert (er = ValueError) as ->.
      { unfold ord_transform in Et. rewrite Hck in Et. cbn [bind] in Et.
        revert Et. clear. induction x as [|r x IH]; cbn; [easy|].
        destruct (mapX _ (combine cats r)) eqn:E; cbn.
        - destruct (mapX _ x); cbn; [easy|]. intros [= <-]. auto.
        - intros [= <-]. exact (@enc_row_err _ _ _ E). }
      apply mbind_err. unfold combine_labels, mbind, mget, attr, fitted, mlift. rewrite Ho, Et. reflexivity.
Qed.

Lemma np_scalars_same l : forallb is_str l = true \/ existsb is_str l = false -> np_scalars l = l.
Proof.
  intros [H|H]; unfold np_scalars; [|now rewrite H].
  destruct (existsb is_str l); auto. rewrite <- (map_id l) at 2. apply map_ext_in. intros a Ha.
  rewrite forallb_forall in H. specialize (H a Ha). destruct a; easy.
Qed.

Lemma get_tr_ctrl_ok e d keys (treat : bool) trans t r q :
  Enc e d keys -> (forall x, x <> [] -> trans x e = comp_ready x e) ->
  asks d keys (if treat then 1 else 0) t r -> nth_error keys q = Some r ->
  get_tr_ctrl t trans treat e = (e, Ok (Z.of_nat q)).
Proof.
  intros HE HT HA Hq. destruct (Enc_keys HE) as (ND & _ & _).
  assert (G : forall r', r' = r -> (mdo oh <- trans [r']; mlift (match convert4onehot [concat oh] with i :: _ => Ok i | [] => Err IndexError end)) e
              = (e, Ok (Z.of_nat q))).
  { intros r' ->. assert (E : trans [r] e = (e, Ok (map (ind keys) [r]))).
    { rewrite HT by easy. apply (comp_ready_ok HE); [easy|]. repeat constructor. exact (nth_error_In _ _ Hq). }
    rewrite (mbind_ok _ _ _ E). unfold mlift. cbn [map concat convert4onehot]. rewrite app_nil_r.
    now rewrite (@dot_ind _ _ keys r q ND Hq). }
  destruct HA as [r Hr|a Hd|l Hl|l]; unfold get_tr_ctrl.
  - unfold mret. f_equal. f_equal. assert (q = if treat then 1 else 0) as ->.
    { pose proof (index_of_nth r keys _ ND Hr). pose proof (index_of_nth r keys _ ND Hq). congruence. }
    now destruct treat.
  - apply G. cbn. unfold np_scalars. cbn. now destruct (is_str a) eqn:E; destruct a.
  - apply G. now apply np_scalars_same.
  - now apply G.
Qed.

Lemma get_tr_ctrl_unknown e d keys (treat : bool) trans t r :
  Enc e d keys -> (forall x, x <> [] -> trans x e = comp_ready x e) ->
  asks d keys (if treat then 1 else 0) t r -> length r = d -> ~ In r keys -> t <> TNone ->
  get_tr_ctrl t trans treat e = (e, Err ValueError).
Proof.
  intros HE HT HA Hl Hn Ht.
  assert (G : forall r', r' = r -> (mdo oh <- trans [r']; mlift (match convert4onehot [concat oh] with i :: _ => Ok i | [] => Err IndexError end)) e
              = (e, Err ValueError)).
  { intros r' ->. apply mbind_err. rewrite HT by easy. now apply (@comp_ready_unknown e d keys r HE). }
  destruct HA as [r Hr|a Hd|l Hl'|l]; unfold get_tr_ctrl.
  - easy.
  - apply G. cbn. unfold np_scalars. cbn. now destruct (is_str a) eqn:E; destruct a.
  - apply G. now apply np_scalars_same.
  - now apply G.
Qed.

Lemma get_tr_ctrl_pure e t trans (treat : bool) :
  (forall x, exists r, trans x e = (e, r)) -> exists r, get_tr_ctrl t trans treat e = (e, r).
Proof.
  intros H. destruct t; unfold get_tr_ctrl, mret, mlift; eauto;
    match goal with |- context [trans ?x] => destruct (H x) as [[v|er] E] end;
    rewrite ?(mbind_ok _ _ _ E), ?(mbind_err _ _ _ E); unfold mlift; eauto.
Qed.
