(** C254, C255: properties of IdentifierWithDiscovery (ylearn/api/_identifier.py). *)
From Coq Require Import ZArith String List Bool Lia Permutation Sorted.
From Verif Require Import Base UtilsModel UtilsProps DiscoveryModel ApiModel ApiProps IdentTreatModel.
Unset Implicit Arguments.
Local Notation length := List.length.
Local Open Scope list_scope.
Local Open Scope nat_scope.

(** ** Specification *)
(** the weight of x on outcome in the causal matrix is known and is w *)
Definition weight {A} (c : causation A) (outcome x : A) (w : Z) : Prop :=
  exists i j, nth_error (labels c) i = Some x /\ nth_error (labels c) j = Some outcome /\ entry c i j = Some w.
(** x may be a treatment: a cause of the outcome, not excluded *)
Definition eligible {A} (c : causation A) (outcome : A) (excludes : list A) (x : A) : Prop :=
  x <> outcome /\ ~ In x excludes /\ exists w, weight c outcome x w /\ w <> 0%Z.
(** x has at least the influence of y *)
Definition stronger {A} (c : causation A) (outcome x y : A) : Prop :=
  forall wx wy, weight c outcome x wx -> weight c outcome y wy -> (Z.abs wy <= Z.abs wx)%Z.
(** descending, NaN last *)
Definition at_least (a b : option Z) : Prop := match a, b with Some x, Some y => (y <= x)%Z | Some _, None => True | None, Some _ => False | None, None => True end.
Definition sorts {A} (srt : list (A * option Z) -> list (A * option Z)) : Prop :=
  forall l, Permutation (srt l) l /\ StronglySorted (fun p q => at_least (snd p) (snd q)) (srt l).
(** the treatments to be found among L with a limit k: the first k of the right kind *)
Definition best {A} (c : causation A) (outcome : A) (ok : A -> Prop) (k : nat) (l : list A) : Prop :=
  NoDup l /\ (forall x, In x l -> ok x) /\ length l <= k /\
  (forall y, ok y -> ~ In y l -> length l = k /\ forall x, In x l -> stronger c outcome x y) /\
  StronglySorted (stronger c outcome) l.

(** ** Lists *)
Lemma SS_filter : forall {A} (R : A -> A -> Prop) f l, StronglySorted R l -> StronglySorted R (filter f l).
Proof.
  intros A R f l. induction 1 as [|a l H IH F]; cbn; [constructor|]. destruct (f a); [|exact IH]. constructor; [exact IH|].
  rewrite Forall_forall in *. intros x Hx. apply filter_In in Hx. apply F, Hx.
Qed.
Lemma SS_app : forall {A} (R : A -> A -> Prop) l1 l2, StronglySorted R (l1 ++ l2) -> StronglySorted R l1 /\ forall x y, In x l1 -> In y l2 -> R x y.
Proof.
  intros A R. induction l1 as [|a l1 IH]; intros l2 H; [split; [constructor|intros x y []]|]. cbn in H. inversion H as [|? ? H1 H2]; subst.
  destruct (IH l2 H1) as [S1 S2]. rewrite Forall_forall in H2. split.
  - constructor; [exact S1|]. rewrite Forall_forall. intros x Hx. apply H2, in_or_app. now left.
  - intros x y [<-|Hx] Hy; [apply H2, in_or_app; now right|apply S2; assumption].
Qed.
Lemma SS_map : forall {A B} (R : A -> A -> Prop) (Q : B -> B -> Prop) (f : A -> B) l, (forall x y, In x l -> In y l -> R x y -> Q (f x) (f y)) -> StronglySorted R l -> StronglySorted Q (map f l).
Proof.
  intros A B R Q f l H S. induction S as [|a l S IH F]; cbn; [constructor|]. constructor; [apply IH; intros; apply H; try right; assumption|].
  rewrite Forall_forall in *. intros y Hy. apply in_map_iff in Hy as (x & <- & Hx). apply H; [now left|now right|apply F, Hx].
Qed.
Lemma SS_impl : forall {A} (R Q : A -> A -> Prop) l, (forall x y, R x y -> Q x y) -> StronglySorted R l -> StronglySorted Q l.
Proof. intros A R Q l H S. rewrite <- (map_id l). apply (SS_map R Q (fun x => x)); auto. Qed.
Lemma NoDup_firstn : forall {A} k (l : list A), NoDup l -> NoDup (firstn k l).
Proof.
  intros A. induction k as [|k IH]; intros [|a l] H; cbn; try constructor; inversion H; subst; [|now apply IH]. intros C. apply H2.
  rewrite <- (firstn_skipn k l). apply in_or_app. now left.
Qed.
Lemma NoDup_filter' : forall {A} (f : A -> bool) (l : list A), NoDup l -> NoDup (filter f l).
Proof. intros. now apply NoDup_filter. Qed.
Lemma pick_any : forall {A} (discrete : A -> bool) d limit cols sel,
  pick discrete d limit sel cols = sel ++ firstn (Nat.max 1 (limit - length sel)) (filter (fun x => Bool.eqb (discrete x) d) cols).
Proof.
  intros A discrete d limit. induction cols as [|x cols IH]; intros sel; cbn [pick filter]; [rewrite firstn_nil, app_nil_r; reflexivity|].
  destruct (Bool.eqb (discrete x) d); [|apply IH]. destruct (Nat.leb_spec limit (length (sel ++ [x]))) as [L|L].
  - rewrite app_length in L. cbn [length] in L. replace (Nat.max 1 (limit - length sel)) with 1 by lia. reflexivity.
  - rewrite IH. rewrite app_length in *. cbn [length] in *. rewrite <- app_assoc. f_equal. cbn [app].
    replace (Nat.max 1 (limit - length sel)) with (S (Nat.max 1 (limit - (length sel + 1)))) by lia. reflexivity.
Qed.

Section C254.
  Context {A : Type} {EA : EqDec A}.
  Variables (srt : list (A * option Z) -> list (A * option Z)) (c : causation A) (outcome : A) (excludes : list A).
  Hypothesis Hsrt : sorts srt.
  Hypothesis ND : NoDup (labels c).
  Lemma weight_fun : forall x a b, weight c outcome x a -> weight c outcome x b -> a = b.
  Proof.
    intros x a b (i & j & H1 & H2 & H3) (i' & j' & H1' & H2' & H3').
    assert (i = i') by (apply (proj1 (NoDup_nth_error (labels c)) ND); [apply nth_error_Some; congruence|congruence]).
    assert (j = j') by (apply (proj1 (NoDup_nth_error (labels c)) ND); [apply nth_error_Some; congruence|congruence]). congruence.
  Qed.
  Lemma weights_in : forall j x o, nth_error (labels c) j = Some outcome ->
    (In (x, o) (outcome_weights c j) <-> exists i, nth_error (labels c) i = Some x /\ o = option_map Z.abs (entry c i j)).
  Proof.
    intros j x o Hj. unfold outcome_weights. rewrite in_map_iff. split.
    - intros ((i & y) & E & H). cbn in E. injection E as -> <-. exists i. split; [|reflexivity].
      apply combine_seq_In in H as [_ H]. exact H.
    - intros (i & Hi & ->). exists (i, x). split; [reflexivity|].
      assert (G : forall (l : list A) k i, nth_error l i = Some x -> In (k + i, x) (combine (seq k (length l)) l)).
      { clear. induction l as [|a l IH]; intros k [|i] H; cbn in *; try discriminate.
        - injection H as ->. left. now rewrite Nat.add_0_r.
        - right. replace (k + S i) with (S k + i) by lia. now apply IH. }
      apply (G (labels c) 0 i Hi).
  Qed.
  Lemma weights_fst : forall j, map fst (outcome_weights c j) = labels c.
  Proof.
    intros j. unfold outcome_weights. rewrite map_map. cbn.
    assert (G : forall (l : list A) k, map (fun p : nat * A => snd p) (combine (seq k (length l)) l) = l) by (induction l as [|a l IH]; intros k; cbn; [reflexivity|now rewrite IH]).
    apply G.
  Qed.
  (** the eligible columns by descending influence *)
  Lemma causes_spec : In outcome (labels c) -> exists L, causes srt c outcome excludes = Ok L /\ NoDup L /\
    (forall x, In x L <-> eligible c outcome excludes x) /\ StronglySorted (stronger c outcome) L.
  Proof.
    intros Ho. unfold causes. destruct (index_of outcome (labels c)) as [j|] eqn:Ej; [|now apply index_of_None in Ej].
    apply index_of_Some in Ej as [Ej _]. eexists. split; [reflexivity|]. destruct (Hsrt (outcome_weights c j)) as [HP HS].
    set (f := fun p : A * option Z => match snd p with Some w => Z.ltb 0 w | None => false end && negb (eqb (fst p) outcome)).
    assert (In1 : forall x o, In (x, o) (filter f (srt (outcome_weights c j))) <-> x <> outcome /\ exists w, o = Some (Z.abs w) /\ weight c outcome x w /\ w <> 0%Z).
    { intros x o. rewrite filter_In. unfold f. cbn [fst snd]. split.
      - intros [H H']. apply andb_true_iff in H' as [H1 H2]. apply (Permutation_in _ HP) in H. apply (weights_in j x o Ej) in H as (i & Hi & ->).
        split; [intros ->; rewrite (proj2 (eqb_eq outcome outcome) eq_refl) in H2; discriminate|].
        destruct (entry c i j) as [w|] eqn:Ew; [|discriminate]. cbn in H1. apply Z.ltb_lt in H1. exists w. split; [reflexivity|]. split; [exists i, j; auto|lia].
      - intros (Hx & w & -> & (i & j' & Hi & Hj' & Hw) & Hw0).
        assert (j' = j) by (apply (proj1 (NoDup_nth_error (labels c)) ND); [apply nth_error_Some; congruence|congruence]). subst j'. split.
        + apply (Permutation_in _ (Permutation_sym HP)). apply (weights_in j x _ Ej). exists i. rewrite Hw. auto.
        + apply andb_true_iff. split; [apply Z.ltb_lt; lia|]. destruct (eqb x outcome) eqn:E; [apply eqb_eq in E; contradiction|reflexivity]. }
    fold f. split; [|split].
    - apply NoDup_filter. assert (N : NoDup (map fst (srt (outcome_weights c j)))).
      { apply (Permutation_NoDup (l := labels c)); [|exact ND]. rewrite <- (weights_fst j). symmetry. now apply Permutation_map. }
      clear - N. induction (srt (outcome_weights c j)) as [|p l IH]; cbn in *; [constructor|]. inversion N as [|? ? N1 N2]; subst. destruct (f p); [|now apply IH].
      cbn. constructor; [|now apply IH]. intros C. apply N1. apply in_map_iff in C as (q & E & Hq). apply filter_In in Hq. apply in_map_iff. exists q. tauto.
    - intros x. rewrite filter_In, in_map_iff. split.
      + intros [((y & o) & E & H) Hm]. cbn in E. subst y. apply In1 in H as (H1 & w & _ & H2). split; [exact H1|]. split; [|now exists w].
        intros C. apply mem_In in C. now rewrite C in Hm.
      + intros (H1 & H2 & w & H3). split; [exists (x, Some (Z.abs w)); split; [reflexivity|apply In1; split; [exact H1|now exists w]]|].
        destruct (mem_spec x excludes); [contradiction|reflexivity].
    - apply SS_filter. eapply SS_map; [|apply SS_filter, HS]. intros [x ox] [y oy] Hx Hy R wx wy Wx Wy. cbn in *.
      apply In1 in Hx as (_ & a & -> & Wa & _). apply In1 in Hy as (_ & b & -> & Wb & _). cbn in R.
      rewrite (weight_fun _ _ _ Wx Wa), (weight_fun _ _ _ Wy Wb). exact R.
  Qed.
  (** a prefix of the columns that pass a test *)
  Lemma prefix_best : forall L (ok : A -> Prop) f k, NoDup L -> StronglySorted (stronger c outcome) L -> (forall x, ok x <-> In x L /\ f x = true) ->
    best c outcome ok k (firstn k (filter f L)).
  Proof.
    intros L ok f k N S H. set (M := filter f L). assert (HM : forall x, In x M <-> ok x) by (intros x; unfold M; rewrite filter_In, H; reflexivity).
    assert (SM : StronglySorted (stronger c outcome) M) by (apply SS_filter; exact S). assert (NM : NoDup M) by (apply NoDup_filter; exact N).
    assert (E := firstn_skipn k M). assert (SM' := SM). rewrite <- E in SM'. apply SS_app in SM' as [S1 S2].
    split; [now apply NoDup_firstn|]. split; [intros x Hx; apply HM; rewrite <- E; apply in_or_app; now left|]. split; [apply firstn_le_length|].
    split; [|exact S1]. intros y Hy Ny. apply HM in Hy. rewrite <- E in Hy. apply in_app_or in Hy as [Hy|Hy]; [contradiction|]. split.
    - rewrite firstn_length. enough (k < length M) by lia. apply Nat.nle_gt. intros C. rewrite skipn_all2 in Hy by exact C. destruct Hy.
    - intros x Hx. apply S2; assumption.
  Qed.
  Variables (discrete : A -> bool) (limit : nat) (fallback : res (list A)).
  (** with discrete_treatment given: the strongest causes of that kind, at most count_limit *)
  Theorem C254_select : forall d, In outcome (labels c) -> 1 <= limit -> (exists x, eligible c outcome excludes x) ->
    exists l, discovery_treatment srt c discrete outcome (Some d) limit excludes fallback = Ok l /\
      best c outcome (fun x => eligible c outcome excludes x /\ discrete x = d) limit l.
  Proof.
    intros d Ho Hl (x & Hx). destruct (causes_spec Ho) as (L & E & N & HL & S). unfold discovery_treatment. rewrite E. cbn [bind].
    destruct L as [|a L]; [apply HL in Hx; destruct Hx|]. eexists. split; [reflexivity|]. unfold select_by_task. rewrite pick_any. cbn [app].
    replace (Nat.max 1 (limit - length (@nil A))) with limit by (change (length (@nil A)) with 0; lia). apply prefix_best; [exact N|exact S|]. intros y. rewrite HL, eqb_true_iff. reflexivity.
  Qed.
  (** without: the strongest cause first, then the strongest of its kind *)
  Theorem C254_align : In outcome (labels c) -> (exists x, eligible c outcome excludes x) ->
    exists x l, discovery_treatment srt c discrete outcome None limit excludes fallback = Ok (x :: l) /\ eligible c outcome excludes x /\
      (forall y, eligible c outcome excludes y -> stronger c outcome x y) /\
      best c outcome (fun y => eligible c outcome excludes y /\ discrete y = discrete x /\ y <> x) (Nat.max 1 (limit - 1)) l.
  Proof.
    intros Ho (z & Hz). destruct (causes_spec Ho) as (L & E & N & HL & S). unfold discovery_treatment. rewrite E. cbn [bind].
    destruct L as [|x L]; [apply HL in Hz; destruct Hz|]. unfold align_task_to_first. rewrite pick_any. cbn [app length].
    eexists _, _. split; [reflexivity|]. inversion N as [|? ? N1 N2]; subst. inversion S as [|? ? S1 S2]; subst. rewrite Forall_forall in S2.
    split; [apply HL; now left|]. split.
    - intros y Hy. apply HL in Hy as [<-|Hy]; [|now apply S2]. intros a b Wa Wb. rewrite (weight_fun _ _ _ Wa Wb). lia.
    - apply prefix_best; [exact N2|exact S1|]. intros y. rewrite <- HL, eqb_true_iff. cbn [In]. split.
      + intros ([->|H1] & H2 & H3); [contradiction|auto].
      + intros [H1 H2]. split; [now right|]. split; [exact H2|]. intros ->. contradiction.
  Qed.
  (** no eligible column: the default *)
  Theorem C254_fallback : forall dt, In outcome (labels c) -> (forall x, ~ eligible c outcome excludes x) ->
    discovery_treatment srt c discrete outcome dt limit excludes fallback = fallback.
  Proof.
    intros dt Ho Hx. destruct (causes_spec Ho) as (L & E & _ & HL & _). unfold discovery_treatment. rewrite E. cbn [bind].
    destruct L as [|x L]; [reflexivity|]. elim (Hx x). apply HL. now left.
  Qed.
  (** but if there are causes and none of the requested kind, there is no treatment and no default either *)
  Theorem C254_empty_refuted : forall d, In outcome (labels c) -> (exists x, eligible c outcome excludes x) -> (forall x, eligible c outcome excludes x -> discrete x <> d) ->
    discovery_treatment srt c discrete outcome (Some d) limit excludes fallback = Ok [].
  Proof.
    intros d Ho (x & Hx) Hd. destruct (causes_spec Ho) as (L & E & _ & HL & _). unfold discovery_treatment. rewrite E. cbn [bind].
    destruct L as [|a L]; [apply HL in Hx; destruct Hx|]. f_equal. unfold select_by_task. rewrite pick_any. cbn [app].
    destruct (filter _ (a :: L)) as [|y r] eqn:F; [apply firstn_nil|]. assert (Hy : In y (filter (fun x => Bool.eqb (discrete x) d) (a :: L))) by (rewrite F; now left).
    apply filter_In in Hy as [H1 H2]. apply eqb_prop in H2. elim (Hd y); [now apply HL|exact H2].
  Qed.
End C254.

(** ** C255: the matrix kept *)
Section C255.
  Context {A : Type} {EA : EqDec A}.
  Variables (srt : list (A * option Z) -> list (A * option Z)) (how : ci_method) (ord : list A -> list A).
  Variable get_iv : causation A -> A -> A -> res (option (list A)).
  Variable backdoor : causation A -> list A -> A -> res (list A).
  (** the matrix of a successful identify_treatment, of an identify_aci whose discovery succeeds *)
  Definition from_treatment (o : op A) : option (causation A) :=
    match o with
    | Treatment (Ok c) discrete outcome dt limit excludes fallback =>
        match discovery_treatment srt c discrete outcome dt limit excludes fallback with Ok _ => Some c | Err _ => None end
    | _ => None
    end.
  Definition from_aci (o : op A) : option (causation A) := match o with Aci (Ok c) _ _ _ => Some c | _ => None end.
  Fixpoint first_some {X Y} (f : X -> option Y) (l : list X) : option Y := match l with [] => None | x :: l => match f x with Some y => Some y | None => first_some f l end end.
  Notation call := (call srt how ord get_iv backdoor).
  Notation run := (run srt how ord get_iv backdoor).
  Lemma call_state : forall st o, fst (call st o) = match from_treatment o with Some c => Some c | None => match st with Some c => Some c | None => from_aci o end end.
  Proof.
    intros st [f d y dt k e fb|f cols y t]; cbn.
    - destruct f as [c|x]; cbn; [|now destruct st]. destruct (discovery_treatment srt c d y dt k e fb); cbn; [reflexivity|now destruct st].
    - destruct st as [c|]; cbn; [reflexivity|]. destruct f; reflexivity.
  Qed.
  (** after any history: the matrix of the last successful identify_treatment, otherwise that of the first identify_aci *)
  Theorem C255_matrix : forall h, run h = match first_some from_treatment (rev h) with Some c => Some c | None => first_some from_aci h end.
  Proof.
    intros h. induction h as [|o h IH] using rev_ind; [reflexivity|]. unfold IdentTreatModel.run in *. rewrite fold_left_app. cbn [fold_left]. rewrite call_state.
    rewrite rev_app_distr. cbn [rev app first_some]. destruct (from_treatment o) as [c|]; [reflexivity|]. rewrite IH.
    destruct (first_some from_treatment (rev h)) as [c|]; [reflexivity|]. clear IH. induction h as [|p h IH]; cbn; [now destruct (from_aci o)|].
    destruct (from_aci p); [reflexivity|exact IH].
  Qed.
  (** identify_aci answers from that matrix: neither a new discovery nor the data have a say *)
  Theorem C255_aci : forall h c found cols outcome treatment, run h = Some c ->
    call (run h) (Aci found cols outcome treatment) = (Some c, match aci_of how ord get_iv backdoor c cols outcome treatment with Ok r => Ok (Roles r) | Err e => Err e end).
  Proof. intros h c found cols outcome treatment ->. reflexivity. Qed.
  (** a call that fails in the discovery or in the choice of treatments changes nothing *)
  Theorem C255_failure : forall st found discrete outcome dt limit excludes fallback e,
    snd (call st (Treatment found discrete outcome dt limit excludes fallback)) = Err e ->
    fst (call st (Treatment found discrete outcome dt limit excludes fallback)) = st.
  Proof.
    intros st [c|x] discrete outcome dt limit excludes fallback e H; cbn in *; [|reflexivity].
    destruct (discovery_treatment srt c discrete outcome dt limit excludes fallback); [discriminate|reflexivity].
  Qed.
  (** identify_aci for the treatments just identified does not fail (default method; the default's treatments are columns of the matrix) *)
  Theorem C255_consistent : forall h c discrete outcome dt limit excludes fallback l found cols, how = Dfs -> sorts srt -> NoDup (labels c) ->
    In outcome (labels c) -> (forall f, fallback = Ok f -> incl f (labels c)) ->
    snd (call (run h) (Treatment (Ok c) discrete outcome dt limit excludes fallback)) = Ok (Treatments l) ->
    incl l (labels c) /\ exists r, call (run (h ++ [Treatment (Ok c) discrete outcome dt limit excludes fallback])) (Aci found cols outcome l) = (Some c, Ok (Roles r)).
  Proof.
    intros h c discrete outcome dt limit excludes fallback l found cols Hh Hs ND Ho Hf H. cbn in H.
    destruct (discovery_treatment srt c discrete outcome dt limit excludes fallback) as [t|] eqn:E; [|discriminate]. cbn in H. injection H as ->.
    assert (I : incl l (labels c)).
    { destruct (causes_spec srt c outcome excludes Hs ND Ho) as (L & EL & _ & HL & _).
      assert (IL : incl L (labels c)) by (intros x Hx; apply HL in Hx as (_ & _ & w & (i & j & Hi & _) & _); eapply nth_error_In; exact Hi).
      unfold discovery_treatment in E. rewrite EL in E. cbn [bind] in E. destruct L as [|x L]; [now apply Hf|].
      assert (FI : forall k (M : list A), incl (firstn k M) M) by (intros k M y Hy; rewrite <- (firstn_skipn k M); apply in_or_app; now left).
      destruct dt as [d|].
      - injection E as <-. unfold select_by_task. rewrite pick_any. cbn [app]. intros y Hy. apply FI in Hy. apply filter_In in Hy. apply IL. tauto.
      - unfold align_task_to_first in E. injection E as <-. rewrite pick_any. cbn [app]. intros y [<-|Hy]; [apply IL; now left|].
        apply FI in Hy. apply filter_In in Hy. apply IL. right. tauto. }
    split; [exact I|]. assert (R : run (h ++ [Treatment (Ok c) discrete outcome dt limit excludes fallback]) = Some c).
    { unfold IdentTreatModel.run. rewrite fold_left_app. cbn [fold_left]. rewrite call_state. cbn. rewrite E. reflexivity. }
    rewrite R. cbn [IdentTreatModel.call]. unfold aci_of, discovery_aci. destruct (has_nan c); [eexists; reflexivity|]. rewrite Hh.
    unfold identify_ci_dfs, index at 1. destruct (index_of outcome (labels c)) as [yi|] eqn:Ey; [|now apply index_of_None in Ey]. cbn [bind].
    assert (M : exists tis, mapR (index (labels c)) l = Ok tis).
    { clear - I. induction l as [|t ts IH]; [now exists []|]. cbn [mapR]. unfold index at 1. destruct (index_of t (labels c)) as [i|] eqn:Ei.
      - cbn [bind]. destruct IH as (tis & ->); [intros x Hx; apply I; now right|]. cbn. now eexists.
      - apply index_of_None in Ei. elim Ei. apply I. now left. }
    destruct M as (tis & ->). cbn [bind fst snd]. eexists. reflexivity.
  Qed.
  Lemma has_nan_spec : forall c : causation A, has_nan c = true <-> exists i j, i < length (labels c) /\ j < length (labels c) /\ entry c i j = None.
  Proof.
    intros c. unfold has_nan. rewrite existsb_exists. split.
    - intros (i & Hi & H). apply existsb_exists in H as (j & Hj & H). apply in_seq in Hi. apply in_seq in Hj. exists i, j.
      split; [lia|]. split; [lia|]. destruct (entry c i j); [discriminate|reflexivity].
    - intros (i & j & Hi & Hj & H). exists i. split; [apply in_seq; lia|]. apply existsb_exists. exists j. split; [apply in_seq; lia|]. now rewrite H.
  Qed.
  (** a matrix with a NaN entry gives no roles: every other column is a covariate *)
  Theorem C255_nan : forall c cols outcome treatment i j, i < length (labels c) -> j < length (labels c) -> entry c i j = None ->
    exists cov, aci_of how ord get_iv backdoor c cols outcome treatment = Ok (None, Some cov, None) /\ forall x, In x cov <-> In x cols /\ x <> outcome /\ ~ In x treatment.
  Proof.
    intros c cols outcome treatment i j Hi Hj H. unfold aci_of, discovery_aci. rewrite (proj2 (has_nan_spec c)) by (exists i, j; auto).
    eexists. split; [reflexivity|]. intros x. rewrite filter_In. rewrite andb_true_iff, !negb_true_iff. destruct (mem_spec x treatment) as [M|M].
    - split; [intros (_ & _ & C); discriminate|tauto].
    - split.
      + intros (H1 & H2 & _). split; [exact H1|]. split; [|exact M]. intros ->. rewrite (proj2 (eqb_eq outcome outcome) eq_refl) in H2. discriminate.
      + intros (H1 & H2 & _). split; [exact H1|]. split; [|reflexivity]. destruct (eqb x outcome) eqn:E; [apply eqb_eq in E; contradiction|reflexivity].
  Qed.
  (** but for another outcome or other data the old matrix is used: unknown names are an error although the discovery on these data would succeed *)
  Theorem C255_stale_refuted : forall h c found cols outcome treatment, how = Dfs -> run h = Some c -> (forall i j, i < length (labels c) -> j < length (labels c) -> entry c i j <> None) ->
    ~ In outcome (labels c) \/ ~ incl treatment (labels c) ->
    call (run h) (Aci found cols outcome treatment) = (Some c, Err ValueError).
  Proof.
    intros h c found cols outcome treatment Hh R Hn' H.
    assert (Hn : has_nan c = false) by (destruct (has_nan c) eqn:E; [apply has_nan_spec in E as (i & j & Hi & Hj & E); elim (Hn' i j Hi Hj E)|reflexivity]). rewrite R. cbn [IdentTreatModel.call]. unfold aci_of, discovery_aci. rewrite Hn, Hh.
    rewrite C39_unknown by exact H. reflexivity.
  Qed.
End C255.

(** ** Concrete cases *)
Local Open Scope string_scope.
Definition cz : causation string := mkC ["a"; "b"; "c"; "y"] (fun i j => if Nat.eqb j 3 then nth i [Some 2%Z; Some (-5)%Z; None; Some 0%Z] None else Some 0%Z).
Fixpoint ins (p : string * option Z) (l : list (string * option Z)) := match l with
  | [] => [p] | q :: r => if match snd p, snd q with Some a, Some b => Z.leb b a | Some _, None => true | None, Some _ => false | None, None => true end then p :: l else q :: ins p r end.
Definition isort (l : list (string * option Z)) := fold_right ins [] l.
Lemma ins_perm : forall p l, Permutation (ins p l) (p :: l).
Proof. intros p. induction l as [|q l IH]; cbn; [reflexivity|]. destruct (match snd p with Some _ => _ | None => _ end); [reflexivity|]. rewrite IH. apply perm_swap. Qed.
Lemma at_least_trans : forall a b c, at_least a b -> at_least b c -> at_least a c.
Proof. intros [a|] [b|] [c|]; cbn; auto; try tauto. lia. Qed.
Lemma ins_sorted : forall p l, StronglySorted (fun p q => at_least (snd p) (snd q)) l -> StronglySorted (fun p q => at_least (snd p) (snd q)) (ins p l).
Proof.
  intros p l. induction 1 as [|q l S IH F]; cbn; [repeat constructor|].
  destruct (match snd p with Some _ => _ | None => _ end) eqn:E.
  - assert (G : at_least (snd p) (snd q)) by (destruct (snd p), (snd q); cbn; try discriminate; auto; now apply Z.leb_le).
    constructor; [constructor; assumption|]. constructor; [exact G|]. rewrite Forall_forall in *. intros r Hr. eapply at_least_trans; [exact G|now apply F].
  - assert (G : at_least (snd q) (snd p)) by (destruct (snd p), (snd q); cbn; try discriminate; auto; apply Z.leb_gt in E; lia).
    constructor; [exact IH|]. rewrite Forall_forall in *. intros r Hr. apply (Permutation_in _ (ins_perm p l)) in Hr as [<-|Hr]; auto.
Qed.
(** hypotheses of C254: a sorting exists *)
Example isort_sorts : sorts isort.
Proof.
  intros l. induction l as [|p l [IH1 IH2]]; [split; [reflexivity|constructor]|]. cbn. split; [rewrite ins_perm; now constructor|apply ins_sorted, IH2].
Qed.
(** the negative weight is the strongest, NaN and the outcome are left out *)
Example C254_case : discovery_treatment isort cz (fun _ => true) "y" (Some true) 2 [] (Err IndexError) = Ok ["b"; "a"] /\
  discovery_treatment isort cz (fun _ => true) "y" None 1 ["b"] (Err IndexError) = Ok ["a"] /\
  discovery_treatment isort cz (fun _ => true) "y" (Some false) 2 [] (Ok ["c"]) = Ok [] /\
  discovery_treatment isort cz (fun _ => true) "y" (Some false) 2 ["a"; "b"] (Ok ["c"]) = Ok ["c"].
Proof. repeat split. Qed.
Definition c2 : causation string := mkC ["u"; "v"] (fun _ _ => Some 1%Z).
Example C255_case : let h := [Aci (Ok c2) ["u"; "v"] "v" ["u"]; Treatment (Ok cz) (fun _ => true) "y" None 1 [] (Err IndexError); Treatment (Err KeyError) (fun _ => true) "y" None 1 [] (Err IndexError)] in
  run isort Dfs (fun l => l) (fun _ _ _ => Ok None) (fun _ _ _ => Ok []) h = Some cz.
Proof. reflexivity. Qed.
Print Assumptions C254_select.
Print Assumptions C254_align.
Print Assumptions C255_matrix.
Print Assumptions C255_consistent.
