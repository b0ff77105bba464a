(** Properties C38, C39, C43-C47 and C68-C72: the all-in-one API (ylearn/api). *)
From Coq Require Import Lia ZArith Sorted.
From Verif Require CausalModel.
From Verif Require Import NxModel ApiModel UtilsProps NxSpec ReachProofs DiscoveryProofs DiscoveryProps GraphSpec GraphProofs.
Open Scope nat_scope.
Open Scope list_scope.
Set Implicit Arguments.

Lemma some_inj {T} (a b : T) : Some a = Some b -> a = b.
Proof. congruence. Qed.
(** ** C38 *)
(** [c] is listed in a role *)
Definition listed {A} (r : option (list A)) (c : A) : Prop := exists l, r = Some l /\ In c l.
Definition roles_ok {A} (cols : list A) (outcome : A) (treatment : list A) (r : roles A) : Prop :=
  let '(adj, cov, ins) := r in
  (forall c, listed adj c \/ listed cov c \/ listed ins c -> c <> outcome /\ ~ In c treatment /\ In c cols) /\
  (forall c, listed cov c -> ~ listed ins c).

Section C38.
  Context {A : Type} {EA : EqDec A}.
  Variables (cols : list A) (outcome : A) (treatment : list A).

  Lemma not_target_iff c : negb (eqb c outcome) && negb (mem c treatment) = true <-> c <> outcome /\ ~ In c treatment.
  Proof. rewrite andb_true_iff, !negb_true_iff, eqb_neq, mem_nIn. tauto. Qed.
  Lemma targets_iff c : mem c (treatment ++ [outcome]) = false <-> c <> outcome /\ ~ In c treatment.
  Proof. rewrite mem_nIn, in_app_iff. cbn [In]. intuition. Qed.

  Theorem C38_default : roles_ok cols outcome treatment (default_aci cols outcome treatment).
  Proof.
    unfold roles_ok, default_aci. split.
    - intros c [(l & E & _)|[(l & E & H)|(l & E & _)]]; try discriminate. injection E as <-.
      apply filter_In in H as [H1 H2]. apply not_target_iff in H2. tauto.
    - intros c _ (l & E & _). discriminate.
  Qed.

  Variables (n : nat) (m : matrix) (names : list A) (ord : list A -> list A).
  Variables (get_iv : A -> res (option (list A))) (backdoor : res (list A)).
  Hypothesis Hord : forall l, Permutation (ord l) l.
  Hypothesis Hnames : incl names cols.
  Hypothesis ND : NoDup names.
  Hypothesis Hiv : forall t l, get_iv t = Ok (Some l) -> incl l cols.
  Hypothesis Hbd : forall l, backdoor = Ok l -> incl l cols.
  Lemma ord_iff l x : In x (ord l) <-> In x l.
  Proof. split; apply Permutation_in; [apply Hord|symmetry; apply Hord]. Qed.

  (** what each method has to deliver *)
  Definition ci_ok (ci : option (list A) * option (list A)) : Prop :=
    (forall c, listed (fst ci) c \/ listed (snd ci) c -> c <> outcome /\ ~ In c treatment /\ In c cols) /\
    (forall c, listed (fst ci) c -> ~ listed (snd ci) c).

  Lemma named_In idx targets c : In c (named n names idx targets) <->
    exists i, In (i, c) (combine (seq 0 n) names) /\ In i idx /\ ~ In c targets.
  Proof.
    unfold named. rewrite in_map_iff. split.
    - intros ([i c'] & <- & H). apply filter_In in H as [H1 H2]. cbn [fst snd] in *. rewrite andb_true_iff, negb_true_iff, mem_In, mem_nIn in H2. eauto 6.
    - intros (i & H1 & H2 & H3). exists (i, c). split; auto. apply filter_In. split; auto. cbn [fst snd].
      rewrite andb_true_iff, negb_true_iff, mem_In, mem_nIn. auto.
  Qed.
  Lemma combine_seq_In i c : In (i, c) (combine (seq 0 n) names) -> i < n /\ nth_error names i = Some c.
  Proof.
    assert (G : forall (l : list A) k len, In (i, c) (combine (seq k len) l) -> k <= i /\ i < k + len /\ nth_error l (i - k) = Some c).
    { induction l as [|a l IH]; intros k [|len] H; cbn [seq combine] in H; try now destruct H.
      destruct H as [[= <- <-]|H]; [rewrite Nat.sub_diag; repeat split; auto; lia|].
      destruct (IH _ _ H) as (H1 & H2 & H3). replace (i - k) with (S (i - S k)) by lia. repeat split; auto; lia. }
    intros H. apply G in H. rewrite Nat.sub_0_r in H. split; [lia|tauto].
  Qed.
  Lemma named_ok idx c : In c (named n names idx (treatment ++ [outcome])) -> c <> outcome /\ ~ In c treatment /\ In c cols.
  Proof.
    intros H. apply named_In in H as (i & H1 & _ & H3). rewrite in_app_iff in H3. cbn [In] in H3.
    apply combine_seq_In in H1 as [_ H1]. apply nth_error_In in H1. intuition.
  Qed.
  Lemma dfs_ci_ok r : identify_ci_dfs outcome treatment n m names = Ok r -> ci_ok (Some (fst r), Some (snd r)).
  Proof.
    unfold identify_ci_dfs, index. destruct (index_of outcome names) as [yi|]; cbn [bind]; [|discriminate].
    destruct (mapR _ treatment) as [tis|]; cbn [bind]; [|discriminate]. intros [= <-]. cbn [fst snd]. split.
    - intros c [(l & [= <-] & H)|(l & [= <-] & H)]; eapply named_ok; eauto.
    - intros c (l & [= <-] & H) (l' & [= <-] & H'). cbn [fst snd] in *. apply named_In in H as (i & H1 & H2 & _).
      apply named_In in H' as (j & H1' & H2' & _). apply combine_seq_In in H1 as [_ H1]. apply combine_seq_In in H1' as [_ H1'].
      assert (i = j) as -> by (eapply NoDup_nth_error; eauto; [apply nth_error_Some; congruence|congruence]).
      apply in_flat_map in H2' as (t & _ & Ht). apply diff_In in Ht. tauto.
  Qed.

  Lemma dict_set_keys {B} (d : list (A * B)) k v : In k (map fst d) -> map fst (dict_set d k v) = map fst d.
  Proof.
    intros H. unfold dict_set. rewrite (proj2 (mem_In k _) H). rewrite map_map. apply map_ext. intros [a b]. cbn [fst].
    destruct (eqb_spec a k) as [->|]; reflexivity.
  Qed.
  Lemma expand1_keys m0 k ki : In k (map fst m0) -> map fst (expand1 ord m0 k ki) = map fst m0.
  Proof. intros H. unfold expand1. destruct (diff _ _); auto. now apply dict_set_keys. Qed.
  Lemma expand_pass_keys causal m0 : incl (map fst causal) (map fst m0) -> map fst (expand_pass ord causal m0) = map fst m0.
  Proof.
    unfold expand_pass. revert m0. induction causal as [|[k v] causal IH]; intros m0 H; cbn [fold_left]; auto.
    assert (X : map fst (fold_left (fun m0 ki => expand1 ord m0 (fst (k, v)) ki) (snd (k, v)) m0) = map fst m0).
    { cbn [fst snd]. assert (Hk : In k (map fst m0)) by (apply H; now left). clear H IH. revert m0 Hk.
      induction v as [|ki v IHv]; intros m0 Hk; cbn [fold_left]; auto.
      rewrite IHv; [now apply expand1_keys|]. rewrite expand1_keys; auto. }
    rewrite IH; auto. rewrite X. intros x Hx. apply H. now right.
  Qed.
  Lemma expand_keys k causal : forall m0, incl (map fst causal) (map fst m0) -> map fst (expand ord k causal m0) = map fst m0.
  Proof.
    induction k as [|k IH]; intros m0 H; cbn [expand]; auto. rewrite IH; rewrite expand_pass_keys; auto.
  Qed.
  Lemma straight_ci_ok r : identify_ci_straight cols outcome treatment n m names ord = Ok r -> ci_ok (Some (fst r), Some (snd r)).
  Proof.
    unfold identify_ci_straight. destruct (matrix2dict n m names None) as [causal|] eqn:E; cbn [bind]; [|discriminate].
    set (m0 := expand ord (List.length cols + 1) causal causal).
    assert (K : incl (map fst m0) cols).
    { unfold m0. rewrite expand_keys by apply incl_refl. unfold matrix2dict in E.
      destruct (Nat.eqb_spec (List.length names) n) as [Hl|]; cbn [negb] in E; [|discriminate].
      destruct (@C36_all_causes A EA n m names Hl ND) as (d & E2 & F & _). unfold matrix2dict in E2.
      rewrite Hl, Nat.eqb_refl in E2. cbn [negb] in E2. rewrite E in E2. injection E2 as <-. rewrite F. exact Hnames. }
    intros [= <-]. cbn [fst snd].
    set (var_x := map fst (filter _ m0)). set (var_y := map fst (filter _ m0)).
    assert (Kx : incl var_x cols).
    { intros c Hc. apply in_map_iff in Hc as (e & <- & He). apply filter_In in He as [He _]. apply K, in_map, He. }
    assert (Ky : incl var_y cols).
    { intros c Hc. apply in_map_iff in Hc as (e & <- & He). apply filter_In in He as [He _]. apply K, in_map, He. }
    split.
    - intros c [(l & [= <-] & H)|(l & [= <-] & H)]; cbn [fst snd] in *; apply filter_In in H as [H1 H2]; rewrite andb_true_iff in H2; destruct H2 as [_ H2];
        rewrite negb_true_iff, targets_iff in H2; intuition.
    - intros c (l & [= <-] & H) (l' & [= <-] & H'). cbn [fst snd] in *. apply filter_In in H as [_ H].
      rewrite andb_true_iff, negb_true_iff, mem_nIn in H. destruct H as [H _]. now apply H.
  Qed.
  Lemma not_xy_In c l : In c (not_xy outcome treatment l) <-> In c l /\ c <> outcome /\ ~ In c treatment.
  Proof. unfold not_xy. now rewrite filter_In, not_target_iff. Qed.
  Lemma iv_loop_ok ts : forall ins r, (forall c, listed ins c -> c <> outcome /\ ~ In c treatment /\ In c cols) ->
    iv_loop outcome treatment ord get_iv ins ts = Ok r -> forall c, listed r c -> c <> outcome /\ ~ In c treatment /\ In c cols.
  Proof.
    induction ts as [|x ts IH]; intros ins r H E c Hc; cbn [iv_loop] in E; [injection E as <-; auto|].
    destruct ins as [[|i il]|]; try (injection E as <-; auto).
    destruct (get_iv x) as [[[|v vl]|]|] eqn:G; cbn [bind] in E; try discriminate; try (injection E as <-; destruct Hc as (l & X & _); discriminate).
    eapply IH; [|exact E|exact Hc]. intros d (l & El & Hd). apply some_inj in El. subst l. rewrite ord_iff, inter_In, not_xy_In in Hd.
    destruct Hd as (_ & Hv & H1 & H2). split; auto. split; auto. eapply Hiv; eauto.
  Qed.
  Lemma model_ci_ok ci : identify_ci_model outcome treatment ord get_iv backdoor = Ok ci -> ci_ok ci.
  Proof.
    unfold identify_ci_model. set (ins := match treatment with [] => _ | _ :: _ => _ end).
    assert (HI : forall c, listed ins c -> c <> outcome /\ ~ In c treatment /\ In c cols).
    { unfold ins. destruct treatment as [|t ts] eqn:Et; [intros c (l & [= <-] & [])|]. rewrite <- Et.
      destruct (get_iv t) as [iv|] eqn:G; cbn [bind]; [|intros c (l & [= <-] & [])].
      destruct (iv_loop _ _ _ _ _ _) as [r|] eqn:L; [|intros c (l & [= <-] & [])].
      refine (@iv_loop_ok ts _ r _ L). intros c (l & E & Hc). destruct iv as [[|v vl]|]; try discriminate.
      - injection E as <-. destruct Hc.
      - apply some_inj in E. subst l. rewrite not_xy_In in Hc. destruct Hc as (Hc & H1 & H2). split; auto. split; auto. eapply Hiv; eauto. }
    clearbody ins. destruct backdoor as [b|] eqn:Eb; cbn [bind]; [|discriminate]. intros [= <-].
    assert (HB : forall c, In c (not_xy outcome treatment (ord (dedup b))) -> c <> outcome /\ ~ In c treatment /\ In c cols).
    { intros c Hc. rewrite not_xy_In, ord_iff, dedup_In in Hc. destruct Hc as (Hc & H1 & H2). split; auto. split; auto. eapply Hbd; eauto. }
    split; cbn [fst snd].
    - intros c [(l & [= <-] & H)|H]; auto. destruct ins as [[|i il]|]; auto. apply filter_In in H as [H _]. auto.
    - intros c (l & [= <-] & H) (l' & -> & H'). destruct l' as [|i il]; [destruct H'|]. apply filter_In in H as [_ H].
      rewrite negb_true_iff, mem_nIn in H. now apply H.
  Qed.
  Theorem C38_discovery (nan : bool) (how : ci_method) r :
    discovery_aci cols outcome treatment n m names ord get_iv backdoor nan how = Ok r -> roles_ok cols outcome treatment r.
  Proof.
    unfold discovery_aci. destruct nan; [intros [= <-]; apply C38_default|].
    set (cir := match how with Dfs => _ | Straight => _ | WithModel => _ end).
    assert (G : forall ci, cir = Ok ci -> ci_ok ci).
    { intros ci E. unfold cir in E. destruct how.
      - destruct (identify_ci_dfs _ _ _ _ _) as [x|] eqn:X; cbn [bind] in E; [|discriminate]. injection E as <-. now apply dfs_ci_ok.
      - destruct (identify_ci_straight _ _ _ _ _ _ _) as [x|] eqn:X; cbn [bind] in E; [|discriminate]. injection E as <-. now apply straight_ci_ok.
      - now apply model_ci_ok. }
    destruct cir as [[cov ins]|]; cbn [bind]; [|discriminate]. destruct (G _ eq_refl) as [G1 G2]. cbn [fst snd] in *. clear G.
    intros [= <-]. set (ins' := if is_empty ins then None else ins).
    assert (I : forall c, listed ins' c -> listed ins c).
    { unfold ins'. destruct ins as [[|i il]|]; cbn; intros c (l & E & H); try discriminate. exists l. auto. }
    unfold roles_ok. destruct (is_empty cov) eqn:Ec.
    - split.
      + intros c [(l & E & _)|[(l & [= <-] & H)|H]]; [discriminate| |apply G1; auto].
        apply filter_In in H as [H1 H2]. rewrite andb_true_iff in H2. destruct H2 as [H2 _]. apply not_target_iff in H2. tauto.
      + intros c (l & [= <-] & H) H'. apply filter_In in H as [_ H]. rewrite andb_true_iff in H. destruct H as [_ H].
        destruct (I _ H') as (l' & -> & Hl). destruct l' as [|i il]; [destruct Hl|]. rewrite negb_true_iff, mem_nIn in H. now apply H.
    - split.
      + intros c [(l & E & _)|[H|H]]; [discriminate|apply G1; auto|apply G1; auto].
      + intros c H H'. apply (G2 c); auto.
  Qed.
End C38.

(** The methods that go through a causal model, with the real get_iv and get_backdoor_set: 'simple' *)
Section C38m.
  Variables (ord : list node -> list node) (ordp : list pyname -> list pyname).
  Hypothesis Hord : forall l, Permutation (ord l) l.
  Hypothesis Hordp : forall l, Permutation (ordp l) l.
  Lemma matrix2dict_values n m (names : list node) d k v : NoDup names -> matrix2dict n m names None = Ok d ->
    In v (lookup d k) -> In v names.
  Proof.
    intros ND E Hv. pose proof E as E'. unfold matrix2dict in E'.
    destruct (Nat.eqb_spec (List.length names) n) as [Hl|]; cbn [negb] in E'; [|discriminate]. clear E'.
    destruct (@C36_all_causes node _ n m names Hl ND) as (d' & E2 & _ & F). rewrite E in E2. injection E2 as <-.
    assert (G : exists j name l, nth_error d j = Some (name, l) /\ In v l).
    { clear - Hv. induction d as [|[a l] d IH]; cbn in Hv; [destruct Hv|]. destruct (String.eqb k a) eqn:Eq.
      - exists 0, a, l. auto.
      - destruct IH as (j & nm & l' & H1 & H2); auto. exists (S j), nm, l'. auto. }
    destruct G as (j & nm & l & H1 & H2). destruct (F ""%string j nm l H1) as (idx & _ & HI & ->).
    apply in_map_iff in H2 as (i & <- & Hi). apply HI in Hi as [Hi _]. apply nth_In. lia.
  Qed.
  Theorem C38_model_simple n m names cols outcome treatment r : NoDup names -> incl names cols ->
    model_aci ord ordp n m names cols outcome treatment "simple" = Ok r ->
    roles_ok (map Name cols) (Name outcome) (map Name treatment) r.
  Proof.
    intros ND Hn H. unfold model_aci in H. destruct (matrix2dict n m names None) as [d|] eqn:E; cbn [bind] in H; [|discriminate].
    cbv zeta in H. eapply C38_discovery; [exact Hordp| | | | |exact H].
    - intros p Hp. apply in_map_iff in Hp as (s & <- & Hs). apply in_map, Hn, Hs.
    - apply FinFun.Injective_map_NoDup; auto. intros a b [=]. auto.
    - intros t l El p Hp. unfold iv_names in El. destruct (CausalModel.get_iv _ _ _) as [iv|] eqn:G; cbn [bind] in El; [|discriminate].
      injection El as <-. apply in_map_iff in Hp as (s & <- & Hs). apply in_map, Hn. unfold CausalModel.get_iv in G.
      destruct (CausalModel.check_all _ _); cbn [bind] in G; [|discriminate]. destruct (CausalModel.remove_ingo_edges _ _); cbn [bind] in G; [|discriminate].
      destruct (NxModel.nx_ancestors _ _); cbn [bind] in G; [|discriminate]. injection G as <-. rewrite !diff_In, dedup_In in Hs.
      destruct Hs as [[Hs _] _]. eapply matrix2dict_values; eauto.
    - intros l El p Hp. unfold ids_backdoor in El. destruct (CausalModel.get_backdoor_set _ _ _ _ _) as [b|] eqn:G; cbn [bind] in El; [|discriminate].
      unfold CausalModel.get_backdoor_set in G. destruct (GraphModel.check_nodes _ _); cbn [bind] in G; [|discriminate].
      destruct (CausalModel.modified_dag _ _); cbn [bind] in G; [|discriminate]. destruct (CausalModel.determine _ _ _ _) as [[|]|]; cbn [bind negb] in G; try discriminate.
      + rewrite eqb_refl in G. injection G as <-. injection El as <-. apply in_map_iff in Hp as (s & <- & Hs). apply in_map, Hn.
        apply in_flat_map in Hs as (t & _ & Hs). eapply matrix2dict_values; eauto.
      + injection G as <-. discriminate.
  Qed.
  (** With the other styles a tuple, not a column name, is always among the covariates. *)
  Theorem C38_refuted_minimal n m names cols outcome treatment style adj cov ins :
    model_aci ord ordp n m names cols outcome treatment style = Ok (adj, cov, ins) -> style <> "simple"%string ->
    exists z, listed cov (Tup z) /\ ~ In (Tup z) (map Name cols).
  Proof.
    unfold model_aci. destruct (matrix2dict n m names None) as [d|]; cbn [bind]; [|discriminate]. cbv zeta.
    set (g := init d None []). intros H Hs.
    unfold discovery_aci, identify_ci_model in H.
    set (I := match map Name treatment with [] => _ | _ :: _ => _ end) in H.
    assert (HI : forall z, ~ listed I (Tup z)).
    { assert (L : forall ts ins r, (forall z, ~ listed ins (Tup z)) -> iv_loop (Name outcome) (map Name treatment) ordp (iv_names g (Name outcome)) ins ts = Ok r -> forall z, ~ listed r (Tup z)).
      { induction ts as [|x ts IH]; intros i0 r0 H0 E; cbn [iv_loop] in E; [injection E as <-; auto|].
        destruct i0 as [[|i il]|]; try (injection E as <-; auto).
        destruct (iv_names g (Name outcome) x) as [[[|v vl]|]|]; cbn [bind] in E; try discriminate; try (injection E as <-; intros z (l & X & _); discriminate).
        eapply IH; [|exact E]. intros z (l & El & Hz). apply some_inj in El. subst l.
        apply (H0 z). exists (i :: il). split; auto. apply (Permutation_in _ (Hordp _)) in Hz. rewrite inter_In, dedup_In in Hz. tauto. }
      unfold I. destruct (map Name treatment) as [|t ts] eqn:Et; [intros z (l & [= <-] & [])|]. rewrite <- Et in *.
      destruct (iv_names g (Name outcome) t) as [iv|] eqn:G; cbn [bind]; [|intros z (l & [= <-] & [])].
      destruct (iv_loop _ _ _ _ _ _) as [r|] eqn:Lr; [|intros z (l & [= <-] & [])].
      refine (L ts _ r _ Lr). intros z (l & E & Hc). unfold iv_names in G. destruct (CausalModel.get_iv _ _ _) as [gl|]; cbn [bind] in G; [|discriminate].
      injection G as <-. destruct gl as [|v vl]; [cbn in E; injection E as <-; destruct Hc|]. cbn [map] in E. apply some_inj in E. subst l. rewrite not_xy_In in Hc.
      destruct Hc as [Hc _]. apply (in_map_iff Name (v :: vl)) in Hc as (s & X & _). discriminate. }
    clearbody I.
    assert (B : forall b, ids_backdoor ord g (map Name treatment) (Name outcome) style = Ok b -> exists z, In (Tup z) b).
    { intros b E. unfold ids_backdoor, CausalModel.get_backdoor_set in E. destruct (GraphModel.check_nodes _ _); cbn [bind] in E; [|discriminate].
      destruct (CausalModel.modified_dag _ _); cbn [bind] in E; [|discriminate]. destruct (CausalModel.determine _ _ _ _) as [[|]|]; cbn [bind negb] in E; try discriminate.
      rewrite (proj2 (eqb_neq style "simple"%string) Hs) in E.
      destruct (CausalModel.mapM _ _); cbn [bind] in E; [|discriminate].
      destruct (if eqb style "minimal"%string then _ else _) as [sets|]; cbn [bind] in E; [|discriminate].
      destruct (if CausalModel.is_nil sets then _ else _) as [[|]|]; cbn [bind] in E; try discriminate.
      destruct (eqb style "all"%string || eqb style "minimal"%string)%bool; cbn [bind] in E; [|discriminate]. injection E as <-.
      destruct sets as [|s sets]; [exists []; now left|exists s; now left]. }
    destruct (ids_backdoor _ _ _ _ _) as [b|]; cbn [bind] in H; [|discriminate]. destruct (B b eq_refl) as (z & Hz). clear B.
    assert (NN : forall l : list node, ~ In (Tup z) (map Name l)) by (intros l Hl; apply in_map_iff in Hl as (s & X & _); discriminate).
    exists z. split; [|apply NN].
    set (cv := match I with Some (_ :: _ as l) => _ | _ => _ end) in H.
    assert (Hc : In (Tup z) cv).
    { assert (H0 : In (Tup z) (not_xy (Name outcome) (map Name treatment) (ordp (dedup b)))).
      { rewrite not_xy_In. split; [apply (Permutation_in _ (Permutation_sym (Hordp _))), dedup_In, Hz|]. split; [discriminate|apply NN]. }
      unfold cv. destruct I as [[|i il]|]; auto. apply filter_In. split; auto. rewrite negb_true_iff, mem_nIn. intros X. apply (HI z). exists (i :: il). auto. }
    clearbody cv. destruct cv as [|c cl]; [destruct Hc|]. cbn [is_empty] in H. injection H as _ <- _. exists (c :: cl). auto.
  Qed.
End C38m.

(** ** C39 *)
(** a positive entry (i, j) is an edge from variable i to variable j; [ancestor x y]: a chain of them from x to y *)
Definition positive_edge {A} (m : matrix) (names : list A) (a b : A) : Prop :=
  exists i j, nth_error names i = Some a /\ nth_error names j = Some b /\ (0 < m i j)%Z.
Definition nonzero_edge {A} (m : matrix) (names : list A) (a b : A) : Prop :=
  exists i j, nth_error names i = Some a /\ nth_error names j = Some b /\ m i j <> 0%Z.

Lemma dfs_targets_spec n m i j : j < n -> (In i (dfs_targets n m None j) <-> reach (arrow n m) i j).
Proof.
  intros Hj. unfold dfs_targets. rewrite (@dfs_all (causes n m) (seq 0 n) (seq_NoDup n 0)).
  - split; intros H.
    + assert (G : forall a b, reach (fun a b => In b (causes n m a)) a b -> a < n -> reach (arrow n m) b a).
      { induction 1 as [|a b c Hab _ IH]; intros Ha; [constructor|]. apply (proj1 (@causes_arrow n m b a Ha)) in Hab.
        apply reach_trans with b; [apply IH; apply Hab|]. apply reach_step with a; auto. constructor. }
      now apply G.
    + induction H as [|a b c Hab Hbc IH]; [constructor|].
      apply reach_trans with b; [apply IH; auto|]. apply reach_step with a; [|constructor]. apply causes_arrow; auto. apply Hab.
  - intros v x Hx. now apply filter_In in Hx as [Hx _].
  - apply in_seq. lia.
  - rewrite seq_length. lia.
Qed.
(** chains of indices are chains of names *)
Lemma reach_names {A} (names : list A) (R : nat -> nat -> Prop) (E : A -> A -> Prop) : NoDup names ->
  (forall i j, R i j -> i < List.length names /\ j < List.length names) ->
  (forall a b, E a b <-> exists i j, nth_error names i = Some a /\ nth_error names j = Some b /\ R i j) ->
  forall i j a b, nth_error names i = Some a -> nth_error names j = Some b -> (reach R i j <-> reach E a b).
Proof.
  intros ND HR HE i j a b Hi Hj. split.
  - intros H. revert a Hi. induction H as [|i k j Hik Hkj IH]; intros a Hi.
    + assert (a = b) as -> by congruence. constructor.
    + destruct (HR i k Hik) as [_ Hk]. destruct (nth_error names k) as [c|] eqn:Ek; [|apply nth_error_None in Ek; lia].
      apply reach_step with c; [|now apply IH]. apply HE. eauto.
  - intros H. revert i Hi. induction H as [|a c b Hac Hcb IH]; intros i Hi.
    + assert (i = j) as ->; [|constructor]. eapply NoDup_nth_error; eauto; [apply nth_error_Some; congruence|congruence].
    + apply HE in Hac as (i' & k & H1 & H2 & H3).
      assert (i' = i) as -> by (eapply NoDup_nth_error; eauto; [apply nth_error_Some; congruence|congruence]).
      apply reach_step with k; auto.
Qed.
Lemma positive_arrow n m i j : arrow n (positive m) i j <-> i < n /\ j < n /\ (0 < m i j)%Z.
Proof. unfold arrow, positive. destruct (Z.ltb_spec 0 (m i j)); intuition lia. Qed.
Lemma mapR_index {A} {EA : EqDec A} (names : list A) ts : incl ts names ->
  exists tis, mapR (index names) ts = Ok tis /\ Forall2 (fun t i => nth_error names i = Some t) ts tis.
Proof.
  induction ts as [|t ts IH]; intros H; [exists []; split; [auto|constructor]|].
  destruct IH as (tis & E & F); [intros x Hx; apply H; now right|]. cbn [mapR]. unfold index at 1.
  destruct (index_of t names) as [i|] eqn:Ei.
  - cbn [bind]. rewrite E. exists (i :: tis). split; auto. constructor; auto. now apply index_of_Some in Ei.
  - apply index_of_None in Ei. elim Ei. apply H. now left.
Qed.

Section C39.
  Context {A : Type} {EA : EqDec A}.
  Variables (m : matrix) (names treatment : list A) (outcome : A).
  Hypothesis ND : NoDup names.
  Notation n := (List.length names).
  Notation anc := (reach (positive_edge m names)).

  Lemma anc_index i j a b : nth_error names i = Some a -> nth_error names j = Some b ->
    (In i (dfs_targets n (positive m) None j) <-> anc a b).
  Proof.
    intros Hi Hj. rewrite dfs_targets_spec by (apply nth_error_Some; congruence).
    apply (@reach_names A names); auto.
    - intros x y Hxy. apply positive_arrow in Hxy. tauto.
    - intros x y. unfold positive_edge. split; intros (i' & j' & H1 & H2 & H3); exists i', j'; (split; [auto|]; split; [auto|]).
      + apply positive_arrow. repeat split; auto; apply nth_error_Some; congruence.
      + now apply positive_arrow in H3.
  Qed.
  Lemma combine_nth i c : nth_error names i = Some c -> In (i, c) (combine (seq 0 n) names).
  Proof.
    assert (G : forall (l : list A) k i, nth_error l i = Some c -> In (k + i, c) (combine (seq k (List.length l)) l)).
    { induction l as [|a l IH]; intros k [|j] H; cbn in *; try discriminate.
      - injection H as ->. left. now rewrite Nat.add_0_r.
      - right. replace (k + S j) with (S k + j) by lia. now apply IH. }
    intros H. now apply (G names 0 i).
  Qed.
  Lemma named_iff idx targets (P : A -> Prop) : (forall i c, nth_error names i = Some c -> (In i idx <-> P c)) ->
    forall c, In c (named n names idx targets) <-> In c names /\ P c /\ ~ In c targets.
  Proof.
    intros HP c. rewrite named_In. split.
    - intros (i & H1 & H2 & H3). apply combine_seq_In in H1 as [_ H1]. split; [eapply nth_error_In; eauto|]. split; auto. eapply HP; eauto.
    - intros (H1 & H2 & H3). apply In_nth_error in H1 as (i & Hi). exists i. split; [now apply combine_nth|]. split; auto. eapply HP; eauto.
  Qed.
  (** covariates: the causes of the outcome; instruments: the causes of a treatment that are not causes of the
      outcome; treatments and outcome excluded from both; in column order *)
  Theorem C39_dfs : In outcome names -> incl treatment names ->
    exists cov ins, identify_ci_dfs outcome treatment n m names = Ok (cov, ins) /\
      (forall c, In c cov <-> In c names /\ anc c outcome /\ c <> outcome /\ ~ In c treatment) /\
      (forall c, In c ins <-> In c names /\ (exists t, In t treatment /\ anc c t) /\ ~ anc c outcome /\ c <> outcome /\ ~ In c treatment).
  Proof.
    intros Ho Ht. unfold identify_ci_dfs. unfold index at 1. destruct (index_of outcome names) as [yi|] eqn:Ey; [|now apply index_of_None in Ey].
    apply index_of_Some in Ey as [Ey _]. cbn [bind]. destruct (mapR_index Ht) as (tis & -> & F). cbn [bind].
    assert (D : forall i j a b, nth_error names i = Some a -> nth_error names j = Some b ->
                 (In i (dfs_edge_targets n m j) <-> anc a b /\ a <> b)).
    { intros i j a b Hi Hj. unfold dfs_edge_targets. rewrite diff_In, (anc_index _ _ Hi Hj). cbn [In]. split; intros [H1 H2]; split; auto.
      - intros ->. apply H2. left. eapply NoDup_nth_error; eauto; [apply nth_error_Some; congruence|congruence].
      - intros [->|[]]. congruence. }
    eexists _, _. split; [reflexivity|]. split; intros c.
    - rewrite (@named_iff _ _ (fun c => anc c outcome /\ c <> outcome)) by (intros i d Hi; eapply D; eauto).
      rewrite in_app_iff. cbn [In]. intuition.
    - rewrite (@named_iff _ _ (fun c => exists t, In t treatment /\ (anc c t /\ c <> t) /\ ~ (anc c outcome /\ c <> outcome))).
      + rewrite in_app_iff. cbn [In]. split.
        * intros (H1 & (t & H2 & (H3 & _) & H4) & H5). assert (c <> outcome) by (intros ->; tauto). repeat split; eauto.
        * intros (H1 & (t & H2 & H3) & H4 & H5 & H6). split; auto. split; [|intuition]. exists t. repeat split; auto; [intros ->; auto|tauto].
      + intros i d Hi. rewrite in_flat_map. split.
        * intros (ti & Hti & Hd). rewrite diff_In in Hd. destruct Hd as [H1 H2].
          assert (Ht' : exists t, In t treatment /\ nth_error names ti = Some t).
          { clear - F Hti. induction F as [|t i ts is H F IH]; [destruct Hti|]. destruct Hti as [<-|Hti]; [exists t; split; [now left|auto]|].
            destruct (IH Hti) as (t' & H1 & H2). exists t'. split; [now right|auto]. }
          destruct Ht' as (t & H3 & H4). exists t. split; auto. rewrite (D _ _ _ _ Hi H4) in H1. rewrite (D _ _ _ _ Hi Ey) in H2. auto.
        * intros (t & H1 & H2 & H3).
          assert (Ht' : exists ti, In ti tis /\ nth_error names ti = Some t).
          { clear - F H1. induction F as [|t' i ts is H F IH]; [destruct H1|]. destruct H1 as [->|H1]; [exists i; split; [now left|auto]|].
            destruct (IH H1) as (ti & X & Y). exists ti. split; [now right|auto]. }
          destruct Ht' as (ti & H4 & H5). exists ti. split; auto. rewrite diff_In, (D _ _ _ _ Hi H5), (D _ _ _ _ Hi Ey). auto.
  Qed.
  Theorem C39_unknown : ~ In outcome names \/ ~ incl treatment names ->
    identify_ci_dfs outcome treatment n m names = Err ValueError.
  Proof.
    intros H. unfold identify_ci_dfs. unfold index at 1. destruct (index_of outcome names) as [yi|] eqn:Ey; [|auto].
    cbn [bind]. destruct H as [H|H]; [apply index_of_None in H; congruence|].
    assert (X : mapR (index names) treatment = Err ValueError); [|now rewrite X].
    clear - H. induction treatment as [|t ts IH]; [elim H; intros x []|]. cbn [mapR]. unfold index at 1.
    destruct (index_of t names) as [i|] eqn:Ei; cbn [bind]; auto. rewrite IH; auto. intros X. apply H. intros x [<-|Hx]; [|auto].
    apply index_of_Some in Ei as [Ei _]. eapply nth_error_In; eauto.
  Qed.
End C39.
(** A negative weight is no edge here, although identify_treatment (which uses absolute values) counts it. *)
Definition m39 : matrix := fun i j => match i, j with 0, 2 => (-3)%Z | 1, 2 => 2%Z | _, _ => 0%Z end.
Theorem C39_refuted_negative :
  nonzero_edge m39 ["w"; "x"; "y"]%string "w"%string "y"%string /\
  identify_ci_dfs "y"%string ["x"%string] 3 m39 ["w"; "x"; "y"]%string = Ok ([], []).
Proof. split; [exists 0, 2; repeat split; discriminate|reflexivity]. Qed.
Definition m39b : matrix := fun i j => match i, j with 0, 1 => 1%Z | 1, 3 => 1%Z | 2, 3 => 2%Z | 2, 1 => 1%Z | 4, 0 => 5%Z | _, _ => 0%Z end.
Example C39_example : identify_ci_dfs "y"%string ["x"%string] 5 m39b ["z"; "x"; "w"; "y"; "q"]%string = Ok (["z"; "w"; "q"]%string, []).
Proof. reflexivity. Qed.
(** Since a cause of a treatment that causes the outcome is itself a cause of the outcome, no instrument is ever
    found when the treatments cause the outcome. *)
Theorem C73_refuted_no_instruments {A} {EA : EqDec A} (m : matrix) (names treatment : list A) (outcome : A) cov ins :
  NoDup names -> In outcome names -> incl treatment names ->
  (forall t, In t treatment -> reach (positive_edge m names) t outcome) ->
  identify_ci_dfs outcome treatment (List.length names) m names = Ok (cov, ins) -> ins = [].
Proof.
  intros ND Ho Ht H E. destruct (@C39_dfs A EA m names treatment outcome ND Ho Ht) as (cov' & ins' & E' & _ & HI).
  rewrite E in E'. injection E' as <- <-. destruct ins as [|c ins]; auto. exfalso.
  destruct (proj1 (HI c) (or_introl eq_refl)) as (_ & (t & H1 & H2) & H3 & _). apply H3. apply reach_trans with t; auto.
Qed.

(** ** C68: method='straight' *)
Section C68.
  Context {A : Type} {EA : EqDec A}.
  Variables (cols : list A) (m : matrix) (names treatment : list A) (outcome : A) (ord : list A -> list A).
  Hypothesis ND : NoDup names.
  Hypothesis Hord : forall l, Permutation (ord l) l.
  Notation n := (List.length names).
  Notation anc := (reach (nonzero_edge m names)).

  Lemma get_dict_set (d : list (A * list A)) k v k' : In k (map fst d) ->
    get (dict_set d k v) k' = if eqb k' k then v else get d k'.
  Proof.
    intros H. unfold dict_set. rewrite (proj2 (mem_In k _) H). unfold get.
    destruct (eqb_spec k' k) as [->|N].
    - induction d as [|[a l] d IH]; [destruct H|]. cbn [map find fst]. destruct (eqb_spec a k) as [->|N]; cbn [fst].
      + now rewrite eqb_refl.
      + rewrite (proj2 (eqb_neq a k) N). apply IH. destruct H as [H|H]; [cbn in H; congruence|auto].
    - clear H. induction d as [|[a l] d IH]; auto. cbn [map find fst]. destruct (eqb_spec a k) as [->|Na]; cbn [fst].
      + rewrite (proj2 (eqb_neq k k')) by congruence. exact IH.
      + destruct (eqb a k'); auto.
  Qed.
  Definition inv (d : list (A * list A)) : Prop :=
    map fst d = names /\ forall k t, In k names -> t <> k -> (In t (get d k) <-> In t names /\ anc t k).
  Lemma anc_names t k : anc t k -> In k names -> In t names.
  Proof. intros H. induction H as [|a b c (i & j & Hi & _) _ _]; auto. intros _. eapply nth_error_In; eauto. Qed.
  Lemma inv_expand1 d k ki : inv d -> In k names -> In ki names -> anc ki k -> inv (expand1 ord d k ki).
  Proof.
    intros [I1 I2] Hk Hki Hr. unfold expand1. destruct (diff (dedup (get d ki)) (get d k)) as [|x xs] eqn:E; [split; auto|]. rewrite <- E.
    assert (HK : In k (map fst d)) by now rewrite I1.
    split; [rewrite dict_set_keys; auto|]. intros k' t Hk' N. rewrite get_dict_set by auto.
    destruct (eqb_spec k' k) as [->|Nk]; [|auto]. rewrite in_app_iff, I2 by auto. split; [|tauto]. intros [H|H]; auto.
    apply (Permutation_in _ (Hord _)) in H. rewrite diff_In, dedup_In in H. destruct H as [H _].
    destruct (eq_dec t ki) as [->|Nt]; [auto|]. apply I2 in H; auto. split; [tauto|]. apply reach_trans with ki; tauto.
  Qed.
  Lemma inv_expand causal : (forall e, In e causal -> In (fst e) names /\ forall v, In v (snd e) -> In v names /\ anc v (fst e)) ->
    forall j d, inv d -> inv (expand ord j causal d).
  Proof.
    intros Hc. induction j as [|j IH]; intros d Hd; cbn [expand]; auto. apply IH. clear IH. unfold expand_pass.
    revert d Hd Hc. induction causal as [|[k v] causal IH]; intros d Hd Hc; cbn [fold_left]; auto. apply IH; [|intros e He; apply Hc; now right].
    cbn [fst snd]. destruct (Hc (k, v) (or_introl eq_refl)) as [Hk Hv]. cbn [fst snd] in *. clear IH Hc. revert d Hd.
    induction v as [|x v IHv]; intros d Hd; cbn [fold_left]; auto. apply IHv; [intros y Hy; apply Hv; now right|].
    destruct (Hv x (or_introl eq_refl)). now apply inv_expand1.
  Qed.
  Lemma causal_inv causal : matrix2dict n m names None = Ok causal -> inv causal /\
    (forall e, In e causal -> In (fst e) names /\ forall v, In v (snd e) -> In v names /\ anc v (fst e)).
  Proof.
    intros E. destruct (@C36_all_causes A EA n m names eq_refl ND) as (d & E2 & F & G). rewrite E in E2. injection E2 as <-.
    assert (R : forall i j a b, nth_error names i = Some a -> nth_error names j = Some b -> (reach (arrow n m) i j <-> anc a b)).
    { apply (@reach_names A names); auto.
      - intros i j H. unfold arrow in H. tauto.
      - intros a b. unfold nonzero_edge, arrow. split; intros (i & j & H1 & H2 & H3); exists i, j; (split; [auto|]; split; [auto|]); [|tauto].
        repeat split; auto; apply nth_error_Some; congruence. }
    assert (X : forall j k l, nth_error causal j = Some (k, l) -> nth_error names j = Some k /\ forall t, In t l <-> In t names /\ t <> k /\ anc t k).
    { intros j k l H. assert (Hk : nth_error names j = Some k) by (rewrite <- F, nth_error_map, H; auto). split; auto.
      intros t. destruct (G k j k l H) as (idx & _ & HI & ->). rewrite in_map_iff. split.
      - intros (i & <- & Hi). apply HI in Hi as (H1 & H2 & H3).
        assert (Ht : nth_error names i = Some (nth i names k)) by (apply nth_error_nth'; auto).
        split; [apply nth_In; auto|]. split; [|eapply R; eauto]. intros Eq. apply H2. rewrite Eq in Ht.
        eapply NoDup_nth_error; eauto; congruence.
      - intros (H1 & H2 & H3). apply In_nth_error in H1 as (i & Hi). exists i. split; [now apply nth_error_nth|]. apply HI.
        split; [apply nth_error_Some; congruence|]. split; [intros ->; congruence|]. eapply R; eauto. }
    split.
    - split; auto. intros k t Hk N. unfold get. destruct (find (fun e => eqb (fst e) k) causal) as [[k' l]|] eqn:Ef.
      + cbn [snd]. apply find_some in Ef as [H1 H2]. cbn [fst] in H2. apply eqb_eq in H2 as ->. apply In_nth_error in H1 as (j & Hj).
        apply X in Hj as [_ Hj]. rewrite Hj. tauto.
      + rewrite <- F in Hk. apply in_map_iff in Hk as ([k' l] & Ek & Hk). cbn [fst] in Ek. subst k'. apply (find_none _ _ Ef) in Hk. cbn [fst] in Hk. rewrite eqb_refl in Hk. discriminate.
    - intros [k l] He. cbn [fst snd]. apply In_nth_error in He as (j & Hj). apply X in Hj as [H1 H2]. split; [eapply nth_error_In; eauto|].
      intros v Hv. apply H2 in Hv. tauto.
  Qed.
  (** What 'straight' really returns: the covariates are the effects of the outcome, the instruments the effects of a
      treatment that are not effects of the outcome. *)
  Theorem C68_straight_exact : exists cov ins,
    identify_ci_straight cols outcome treatment n m names ord = Ok (cov, ins) /\
    (forall c, In c cov <-> In c names /\ c <> outcome /\ ~ In c treatment /\ In outcome names /\ anc outcome c) /\
    (forall c, In c ins <-> In c names /\ c <> outcome /\ ~ In c treatment /\
       (exists t, In t treatment /\ In t names /\ anc t c) /\ ~ (In outcome names /\ anc outcome c)).
  Proof.
    unfold identify_ci_straight. destruct (@C36_all_causes A EA n m names eq_refl ND) as (causal & E & _). rewrite E. cbn [bind].
    destruct (causal_inv E) as [I1 I2]. pose proof (inv_expand _ I2 (List.length cols + 1) I1) as [J1 J2].
    set (m0 := expand ord (List.length cols + 1) causal causal) in *.
    assert (KV : forall k v, In (k, v) m0 -> In k names /\ v = get m0 k).
    { intros k v H. split; [rewrite <- J1; apply in_map_iff; exists (k, v); auto|]. unfold get.
      assert (NDm : NoDup (map fst m0)) by now rewrite J1. clear - H NDm. induction m0 as [|[a l] d IH]; [destruct H|]. cbn [find fst].
      cbn [map fst] in NDm. inversion NDm; subst. destruct H as [H|H].
      - injection H as -> ->. now rewrite eqb_refl.
      - destruct (eqb_spec a k) as [->|]; [elim H2; apply in_map_iff; exists (k, v); auto|auto]. }
    assert (VK : forall k, In k names -> In (k, get m0 k) m0).
    { intros k Hk. rewrite <- J1 in Hk. apply in_map_iff in Hk as ([k' v] & Ek & Hk). cbn in Ek. subst k'. destruct (KV _ _ Hk) as [_ <-]. auto. }
    set (var_x := map fst (filter _ m0)). set (var_y := map fst (filter _ m0)).
    assert (HX : forall c, In c var_x <-> In c names /\ c <> outcome /\ ~ In c treatment /\ exists t, In t treatment /\ In t names /\ anc t c).
    { intros c. unfold var_x. rewrite in_map_iff. split.
      - intros ([k v] & Ek & Hk). cbn [fst] in Ek. subst k. apply filter_In in Hk as [H1 H2]. cbn [fst snd] in H2. destruct (KV _ _ H1) as [Hc ->].
        apply existsb_exists in H2 as (t & Ht & H2). rewrite andb_true_iff, negb_true_iff, targets_iff, mem_In in H2. destruct H2 as (H2 & H3 & H4).
        split; auto. split; auto. split; auto. exists t. split; auto. apply J2; auto. congruence.
      - intros (H1 & H2 & H3 & t & H4 & H5). exists (c, get m0 c). split; auto. apply filter_In. split; [auto|]. cbn [fst snd].
        apply existsb_exists. exists t. split; auto. rewrite andb_true_iff, negb_true_iff, targets_iff, mem_In. split; auto. apply J2; auto. congruence. }
    assert (HY : forall c, In c var_y <-> In c names /\ c <> outcome /\ ~ In c treatment /\ In outcome names /\ anc outcome c).
    { intros c. unfold var_y. rewrite in_map_iff. split.
      - intros ([k v] & Ek & Hk). cbn [fst] in Ek. subst k. apply filter_In in Hk as [H1 H2]. cbn [fst snd] in H2. destruct (KV _ _ H1) as [Hc ->].
        rewrite andb_true_iff, negb_true_iff, targets_iff, mem_In in H2. destruct H2 as (H2 & H3 & H4). apply J2 in H2; auto.
      - intros (H1 & H2 & H3 & H5). exists (c, get m0 c). split; auto. apply filter_In. split; [auto|]. cbn [fst snd].
        rewrite andb_true_iff, negb_true_iff, targets_iff, mem_In. split; auto. apply J2; auto. }
    clearbody var_x var_y.
    assert (HI : forall c, In c (filter (fun c => mem c (diff var_x var_y) && negb (mem c (treatment ++ [outcome]))) var_x) <-> In c var_x /\ ~ In c var_y).
    { intros c. rewrite filter_In, andb_true_iff, negb_true_iff, targets_iff, mem_In, diff_In, HX. tauto. }
    eexists _, _. split; [reflexivity|]. split; intros c.
    - rewrite filter_In, andb_true_iff, !negb_true_iff, targets_iff, mem_nIn, HI, HY. tauto.
    - rewrite HI, HX, HY. tauto.
  Qed.
End C68.
(** The claim (same answer as 'dfs': causes of the outcome, causes of a treatment) fails already for a confounder. *)
Definition m68 : matrix := fun i j => match i, j with 0, 1 => 1%Z | 0, 2 => 1%Z | 1, 2 => 1%Z | 2, 3 => 1%Z | _, _ => 0%Z end.
Theorem C68_refuted :
  identify_ci_straight ["w"; "x"; "y"; "z"]%string "y"%string ["x"%string] 4 m68 ["w"; "x"; "y"; "z"]%string (fun l => l) = Ok (["z"%string], []) /\
  identify_ci_dfs "y"%string ["x"%string] 4 m68 ["w"; "x"; "y"; "z"]%string = Ok (["w"%string], []).
Proof. split; reflexivity. Qed.

(** ** C69: Why.identify and the caller's lists *)
Lemma remove_all_In {A} {EA : EqDec A} (l vs : list A) : NoDup l -> forall x, In x (remove_all l vs) <-> In x l /\ ~ In x vs.
Proof.
  unfold remove_all. revert l. induction vs as [|v vs IH]; intros l ND x; cbn [fold_left In]; [tauto|].
  rewrite IH by now apply remove1_NoDup. rewrite remove1_NoDup_In by auto. intuition.
Qed.
(** the names given as a role *)
Definition given (a : names_arg) : list str := match a with NList l => l | NStr s => split_names s | _ => [] end.
Lemma strip_role_returns v t c r : strip_role v t = Ok (c, r) -> NoDup (given v) -> forall x, listed r x <-> In x (given v) /\ ~ In x t.
Proof.
  intros E ND x. destruct v as [|l|l|s|]; cbn in E; try discriminate; injection E as <- <-; cbn [given] in *.
  - split; [intros (l & X & _); discriminate|intros [[] _]].
  - rewrite <- (remove_all_In t ND). split; [intros (l' & [= <-] & H); auto|intros H; eexists; eauto].
  - rewrite <- (remove_all_In t ND). split; [intros (l' & [= <-] & H); auto|intros H; eexists; eauto].
Qed.
(** A treatment is never returned in another role, and a given role keeps its other names (no name repeated in a role). *)
Theorem C69_identify_roles aci treatment a v z callers ts adj cov ins :
  why_identify aci treatment a v z = Ok (callers, (ts, (adj, cov, ins))) ->
  NoDup (given a) -> NoDup (given v) -> NoDup (given z) ->
  (exists x, (In x (given a) \/ In x (given v) \/ In x (given z)) /\ ~ In x treatment) ->
  ts = treatment /\
  (forall x, listed adj x <-> In x (given a) /\ ~ In x treatment) /\
  (forall x, listed cov x <-> In x (given v) /\ ~ In x treatment) /\
  (forall x, listed ins x <-> In x (given z) /\ ~ In x treatment).
Proof.
  intros E Na Nv Nz (x & Hx & Hn). unfold why_identify in E.
  destruct (strip_role a treatment) as [[ca ra]|] eqn:Ea; cbn [bind] in E; [|discriminate].
  destruct (strip_role v treatment) as [[cv rv]|] eqn:Ev; cbn [bind] in E; [|discriminate].
  destruct (strip_role z treatment) as [[cz rz]|] eqn:Ez; cbn [bind] in E; [|discriminate]. cbn [fst snd] in E.
  pose proof (strip_role_returns _ _ Ea Na) as Ha. pose proof (strip_role_returns _ _ Ev Nv) as Hv. pose proof (strip_role_returns _ _ Ez Nz) as Hz.
  assert (X : is_empty ra && is_empty rv && is_empty rz = false).
  { assert (Y : forall r : option (list str), listed r x -> is_empty r = false) by (intros r (l & -> & Hl); destruct l; [destruct Hl|auto]).
    rewrite !andb_false_iff. destruct Hx as [Hx|[Hx|Hx]]; [left; left|left; right|right]; apply Y; [apply Ha|apply Hv|apply Hz]; auto. }
  rewrite X in E. cbn [bind] in E. injection E as _ <- <- <- <-. auto.
Qed.
(** A list argument that names a treatment has lost it after the call. *)
Theorem C69_refuted_mutation aci treatment l r callers :
  (exists x, In x l /\ In x treatment) ->
  why_identify aci treatment NNone (NList l) NNone = Ok (callers, r) -> callers <> (NNone, NList l, NNone).
Proof.
  intros (x & Hl & Ht) E. unfold why_identify in E. cbn [strip_role safe_remove bind fst snd] in E.
  destruct (if is_empty None && _ && _ then _ else _) as [r'|]; cbn [bind] in E; [|discriminate]. injection E as <- _. intros [= X].
  destruct (@C41_safe_remove str _ l treatment false) as (caller & q & E2 & _ & C & _ & _ & _). unfold safe_remove in E2. injection E2 as <- <-.
  specialize (C x). rewrite X in C. 
  assert (P : forall (y : str) k, In y k -> 1 <= count y k).
  { clear. intros y k. induction k as [|a k IH]; intros []; cbn [count]; [subst; rewrite eqb_refl; lia|]. specialize (IH H). lia. }
  pose proof (P _ _ Hl). pose proof (P _ _ Ht). lia.
Qed.
(** The outcome is accepted as a covariate, and one variable in two roles. *)
Theorem C69_refuted_outcome aci (outcome x t : str) : t <> outcome -> t <> x ->
  exists callers, why_identify aci [t] (NList [x]) (NList [outcome; x]) NNone = Ok (callers, ([t], (Some [x], Some [outcome; x], None))).
Proof.
  intros H1 H2. unfold why_identify. cbn [strip_role safe_remove]. unfold remove_all. cbn [fold_left remove1].
  rewrite (proj2 (eqb_neq t x) H2), (proj2 (eqb_neq t outcome) H1). cbn [bind fst snd is_empty andb]. eexists. reflexivity.
Qed.
Theorem C69_refuted_tuple aci treatment l a z : strip_role a treatment <> Err ValueError -> why_identify aci treatment a (NTuple l) z = Err AssertionError.
Proof.
  intros Ha. unfold why_identify. destruct a as [|la|la|s|]; cbn [strip_role bind fst snd safe_remove] in *; auto. now elim Ha.
Qed.
Example C69_example : why_identify (fun _ => Err ValueError) [["t"]]%char (NStr ["a"; ","; "t"]%char) NNone NNone =
  Ok ((NStr ["a"; ","; "t"]%char, NNone, NNone), ([["t"]]%char, (Some [["a"]]%char, None, None))).
Proof. reflexivity. Qed.

(** ** C72: which estimators exist after fit *)
Section C72.
  Context {A : Type} {EA : EqDec A}.
  Variable treatment : list A. (* fitted *)
  Lemma ekey_eqb_eq (a b : ekey A) : ekey_eqb a b = true <-> a = b.
  Proof.
    destruct a, b; cbn; try rewrite andb_true_iff; rewrite ?eqb_eq; split; try discriminate; try intros [-> ->]; try intros ->; auto; intros [=]; auto.
  Qed.
  Lemma existsb_ekey k l : existsb (ekey_eqb k) l = true <-> In k l.
  Proof. rewrite existsb_exists. split; [intros (x & H & E); apply ekey_eqb_eq in E; now subst|intros H; exists k; split; auto; now apply ekey_eqb_eq]. Qed.
  Theorem C72_get_estimator (discrete : bool) (ts : list A) :
    match get_estimator (estimator_keys discrete treatment) ts with
    | Ok k => (exists x, ts = [x] /\ k = One x /\ In x treatment) \/
              (exists x y, ts = [x; y] /\ k = Two x y /\ discrete = true /\ x <> y /\ In x treatment /\ In y treatment)
    | Err e => e = KeyError /\
        ~ (exists x, ts = [x] /\ In x treatment) /\
        ~ (exists x y, ts = [x; y] /\ discrete = true /\ x <> y /\ In x treatment /\ In y treatment)
    end.
  Proof.
    assert (K1 : forall x, In (One x) (estimator_keys discrete treatment) <-> In x treatment).
    { intros x. unfold estimator_keys. rewrite in_app_iff, in_map_iff. split.
      - intros [(y & [= ->] & H)|H]; auto. destruct (discrete && _); [|destruct H]. apply in_map_iff in H as (p & E & _). discriminate.
      - intros H. left. eauto. }
    assert (K2 : forall x y, In (Two x y) (estimator_keys discrete treatment) <-> discrete = true /\ x <> y /\ In x treatment /\ In y treatment).
    { intros x y. unfold estimator_keys. rewrite in_app_iff, in_map_iff. split.
      - intros [(z & E & _)|H]; [discriminate|]. destruct discrete; cbn [andb] in H; [|destruct H]. destruct (Nat.ltb 1 _); [|destruct H].
        apply in_map_iff in H as ([a b] & [= <- <-] & H). apply filter_In in H as [H1 H2]. apply in_prod_iff in H1. cbn [fst snd] in *.
        rewrite negb_true_iff, eqb_neq in H2. tauto.
      - intros (-> & N & Hx & Hy). right. cbn [andb]. destruct (Nat.ltb_spec 1 (List.length treatment)) as [L|L].
        + apply in_map_iff. exists (x, y). split; auto. apply filter_In. split; [now apply in_prod|]. cbn [fst snd]. now rewrite negb_true_iff, eqb_neq.
        + exfalso. destruct treatment as [|a [|b l]]; cbn in *; [tauto| |lia]. destruct Hx as [->|[]], Hy as [->|[]]. auto. }
    destruct ts as [|x [|y [|z ts]]]; cbn [get_estimator].
    - split; auto. split; [intros (x & X & _); discriminate|intros (x & y & X & _); discriminate].
    - destruct (existsb _ _) eqn:E.
      + apply existsb_ekey, K1 in E. left. eauto.
      + split; auto. split; [|intros (a & b & X & _); discriminate]. intros (a & [= ->] & H). apply K1, existsb_ekey in H. congruence.
    - destruct (existsb _ _) eqn:E.
      + apply existsb_ekey, K2 in E. right. exists x, y. tauto.
      + split; auto. split; [intros (a & X & _); discriminate|]. intros (a & b & [= -> ->] & H). apply K2, existsb_ekey in H. congruence.
    - split; auto. split; [intros (a & X & _); discriminate|intros (a & b & X & _); discriminate].
  Qed.
  (** uplift_model() without a treatment uses all fitted ones, not the first: with three or more it fails. *)
  Theorem C72_refuted_default (discrete : bool) : 3 <= List.length treatment ->
    get_estimator (estimator_keys discrete treatment) treatment = Err KeyError.
  Proof. intros H. destruct treatment as [|a [|b [|c l]]]; cbn in H; try lia. reflexivity. Qed.
End C72.
Example C72_example : get_estimator (estimator_keys true ["a"; "b"; "c"]%string) ["c"; "a"]%string = Ok (Two "c" "a")%string.
Proof. reflexivity. Qed.

(** ** C40 again: the default count limit of Why is 1 for up to ten columns, the limit for which
    align_task_to_first takes two treatments. *)
Theorem C40_default_limit (ncols : nat) : 1 <= ncols <= 10 -> default_count_limit ncols = 1.
Proof.
  intros H. unfold default_count_limit. replace ((ncols + 9) / 10) with 1; [reflexivity|].
  apply Nat.div_unique with (ncols + 9 - 10); lia.
Qed.

(** ** C43 *)
Lemma Forall2_length {S T} (R : S -> T -> Prop) l m : Forall2 R l m -> List.length l = List.length m.
Proof. induction 1; cbn; congruence. Qed.
Lemma NoDup_map_inj_in {S T} (f : S -> T) l : NoDup l -> (forall a b, In a l -> In b l -> f a = f b -> a = b) -> NoDup (map f l).
Proof.
  induction 1 as [|x l Hx ND IH]; intros H; cbn [map]; constructor.
  - intros Hi. apply in_map_iff in Hi as (y & E & Hy). apply Hx. rewrite <- (H y x); auto; [now right|now left].
  - apply IH. intros a b Ha Hb. apply H; now right.
Qed.
Lemma NoDup_app_intro_gen {T} (l m : list T) : NoDup l -> NoDup m -> (forall x, In x l -> ~ In x m) -> NoDup (l ++ m).
Proof.
  induction 1 as [|x l Hx ND IH]; intros Hm H; cbn [app]; auto. constructor.
  - rewrite in_app_iff. intros [X|X]; [auto|apply (H x); [now left|auto]].
  - apply IH; auto. intros y Hy. apply H. now right.
Qed.
Section C43.
  Context {X V : Type} {EX : EqDec X} {EV : EqDec V}.
  Variable classes : X -> list V.

  Lemma index_of_nth (l : list V) v i : NoDup l -> (index_of v l = Some i <-> nth_error l i = Some v).
  Proof.
    intros ND. split; intros H; [now apply index_of_Some in H|]. destruct (index_of v l) as [j|] eqn:E.
    - apply index_of_Some in E as [E _]. f_equal. eapply NoDup_nth_error; eauto; [apply nth_error_Some; congruence|congruence].
    - apply index_of_None in E. elim E. eapply nth_error_In; eauto.
  Qed.
  Lemma mapR_ok {S T} (f : S -> res T) (g : S -> T) l : (forall x, In x l -> f x = Ok (g x)) -> mapR f l = Ok (map g l).
  Proof.
    induction l as [|x l IH]; intros H; cbn [mapR map]; auto. rewrite (H x) by now left. cbn [bind]. rewrite IH by (intros; apply H; now right). reflexivity.
  Qed.
  (** position of a class *)
  Definition pos (x : X) (v : V) : nat := match index_of v (classes x) with Some i => i | None => 0 end.
  Lemma pos_spec x v : NoDup (classes x) -> In v (classes x) -> encode classes x v = Ok (pos x v) /\ nth_error (classes x) (pos x v) = Some v.
  Proof.
    intros ND H. unfold encode, pos. destruct (index_of v (classes x)) as [i|] eqn:E; [|now apply index_of_None in E].
    split; auto. now apply index_of_Some in E.
  Qed.
  Lemma pos_inj x v w : NoDup (classes x) -> In v (classes x) -> In w (classes x) -> pos x v = pos x w -> v = w.
  Proof. intros ND Hv Hw E. destruct (@pos_spec _ _ ND Hv) as [_ A]. destruct (@pos_spec _ _ ND Hw) as [_ B]. rewrite E in A. congruence. Qed.

  Lemma sequential_one_spec x c : NoDup (classes x) -> In c (classes x) ->
    exists l, sequential_one classes x c None = Ok l /\ NoDup l /\
      forall x' t k, In (x', t, k) l <-> x' = x /\ nth_error (classes x) k = Some c /\ t < List.length (classes x) /\ t <> k.
  Proof.
    intros ND Hc. unfold sequential_one. rewrite (proj2 (mem_In c _) Hc). cbn [negb].
    rewrite (@mapR_ok _ _ _ (fun t => (x, pos x t, pos x c))).
    2: { intros t Ht. apply filter_In in Ht as [Ht _]. rewrite (proj1 (@pos_spec _ _ ND Ht)), (proj1 (@pos_spec _ _ ND Hc)). reflexivity. }
    eexists. split; [reflexivity|]. split.
    - apply NoDup_map_inj_in; [apply NoDup_filter; auto|].
      intros a b Ha Hb E. apply filter_In in Ha as [Ha _]. apply filter_In in Hb as [Hb _]. injection E as E. eapply pos_inj; eauto.
    - intros x' t k. rewrite in_map_iff. split.
      + intros (v & [= <- <- <-] & Hv). apply filter_In in Hv as [Hv N]. rewrite negb_true_iff, eqb_neq in N.
        destruct (@pos_spec _ _ ND Hv) as [_ Pv]. destruct (@pos_spec _ _ ND Hc) as [_ Pc]. split; auto. split; auto.
        split; [apply nth_error_Some; congruence|]. intros E. apply N. eapply pos_inj; eauto.
      + intros (-> & Hk & Ht & N). destruct (nth_error (classes x) t) as [v|] eqn:Ev; [|apply nth_error_None in Ev; lia].
        pose proof (nth_error_In _ _ Ev) as Hv. exists v. split.
        * unfold pos. rewrite (proj2 (index_of_nth v t ND) Ev), (proj2 (index_of_nth c k ND) Hk). reflexivity.
        * apply filter_In. split; auto. rewrite negb_true_iff, eqb_neq. intros ->. apply N. eapply NoDup_nth_error; eauto; congruence.
  Qed.
  (** control classes given by the user, one per treatment *)
  Definition valid_control (treatment : list X) (cs : list V) : Prop := Forall2 (fun x c => In c (classes x)) treatment cs.
  Definition encoders_ok (treatment : list X) : Prop := forall x, In x treatment -> NoDup (classes x).

  Lemma sequential_loop_spec treatment cs : NoDup treatment -> encoders_ok treatment -> valid_control treatment cs ->
    exists l, sequential_loop classes treatment cs None = Ok l /\ NoDup l /\
      forall x t k, In (x, t, k) l <-> exists i c, nth_error treatment i = Some x /\ nth_error cs i = Some c /\
        nth_error (classes x) k = Some c /\ t < List.length (classes x) /\ t <> k.
  Proof.
    intros ND He H. induction H as [|x c xs cs Hc H IH].
    - exists []. split; [reflexivity|]. split; [constructor|]. intros x t k. split; [intros []|intros (i & c & Hi & _); destruct i; discriminate].
    - inversion ND as [|? ? Hx ND']; subst. destruct IH as (l & E & N & SP); [auto|intros y Hy; apply He; now right|].
      destruct (@sequential_one_spec x c) as (l1 & E1 & N1 & S1); [apply He; now left|auto|].
      cbn [sequential_loop bind option_map]. rewrite E1. cbn [bind]. rewrite E. cbn [bind]. exists (l1 ++ l). split; auto. split.
      + apply NoDup_app_intro; auto. intros [[a t] k] H1 H2. apply S1 in H1 as [-> _]. apply SP in H2 as (i & c' & Hi & _). apply Hx. eapply nth_error_In; eauto.
      + intros a t k. rewrite in_app_iff, S1, SP. split.
        * intros [(-> & H1)|(i & c' & H1)]; [exists 0, c; cbn; tauto|exists (S i), c'; exact H1].
        * intros ([|i] & c' & H1 & H2 & H3).
          -- cbn in H1, H2. injection H1 as ->. injection H2 as ->. left. tauto.
          -- right. exists i, c'. auto.
  Qed.
  Theorem C43_sequential (treatment : list X) (cs : list V) : treatment <> [] -> NoDup treatment -> encoders_ok treatment ->
    valid_control treatment cs ->
    exists l, permute_sequential classes treatment None (Some cs) = Ok l /\ NoDup l /\
      forall x t k, In (x, t, k) l <-> exists i c, nth_error treatment i = Some x /\ nth_error cs i = Some c /\
        nth_error (classes x) k = Some c /\ t < List.length (classes x) /\ t <> k.
  Proof.
    intros Hn ND He Hc. unfold permute_sequential. destruct treatment as [|x xs] eqn:Et; [easy|]. rewrite <- Et in *.
    replace (Nat.eqb (List.length treatment) 0) with false by (rewrite Et; reflexivity).
    rewrite <- (Forall2_length Hc), Nat.eqb_refl. cbn [bind]. now apply sequential_loop_spec.
  Qed.
  (** the default control: the first class of every treatment *)
  Lemma default_control treatment : (forall x, In x treatment -> classes x <> []) ->
    exists cs, mapR (first_class classes) treatment = Ok cs /\ valid_control treatment cs /\
      forall i x, nth_error treatment i = Some x -> exists c, nth_error cs i = Some c /\ nth_error (classes x) 0 = Some c.
  Proof.
    induction treatment as [|x xs IH]; intros H; [exists []; split; [auto|split; [constructor|intros [|i] x; discriminate]]|].
    destruct IH as (cs & E & F & G); [intros; apply H; now right|]. cbn [mapR]. unfold first_class at 1.
    destruct (classes x) as [|c r] eqn:Ex; [elim (H x (or_introl eq_refl)); auto|]. cbn [bind]. rewrite E. cbn [bind].
    exists (c :: cs). split; auto. split; [constructor; auto; rewrite Ex; now left|]. intros [|i] y Hy; [|now apply G].
    cbn in Hy. injection Hy as <-. exists c. now rewrite Ex.
  Qed.
  Theorem C43_sequential_default (treatment : list X) : treatment <> [] -> NoDup treatment -> encoders_ok treatment ->
    (forall x, In x treatment -> classes x <> []) ->
    exists l, permute_sequential classes treatment None None = Ok l /\ NoDup l /\
      forall x t k, In (x, t, k) l <-> In x treatment /\ k = 0 /\ t < List.length (classes x) /\ t <> 0.
  Proof.
    intros Hn ND He Hc. destruct (default_control _ Hc) as (cs & E & F & G).
    destruct (@sequential_loop_spec treatment cs ND He F) as (l & E1 & N1 & S1).
    exists l. unfold permute_sequential. destruct treatment as [|x xs] eqn:Et; [easy|]. rewrite <- Et in *.
    replace (Nat.eqb (List.length treatment) 0) with false by (rewrite Et; reflexivity). rewrite E. cbn [bind]. split; auto. split; auto.
    intros y t k. rewrite S1. split.
    - intros (i & c & H1 & H2 & H3 & H4 & H5). pose proof (nth_error_In _ _ H1) as Hy. split; auto.
      destruct (G i y H1) as (c' & G1 & G2). assert (c' = c) as -> by congruence.
      assert (k = 0) as -> by (eapply NoDup_nth_error; [apply He, Hy|apply nth_error_Some; congruence|congruence]). auto.
    - intros (H1 & -> & H2 & H3). apply In_nth_error in H1 as (i & Hi). destruct (G i y Hi) as (c & G1 & G2). exists i, c. auto.
  Qed.

  (** combined *)
  Lemma cart_In {T} (ls : list (list T)) t : In t (cart ls) <-> Forall2 (fun l x => In x l) ls t.
  Proof.
    revert t. induction ls as [|l ls IH]; intros t; cbn [cart].
    - split; [intros [<-|[]]; constructor|intros H; inversion H; now left].
    - rewrite in_flat_map. split.
      + intros (x & Hx & H). apply in_map_iff in H as (r & <- & Hr). constructor; auto. now apply IH.
      + intros H. inversion H as [|? x ? r Hx Hr]; subst. exists x. split; auto. apply in_map. now apply IH.
  Qed.
  Lemma cart_NoDup {T} (ls : list (list T)) : (forall l, In l ls -> NoDup l) -> NoDup (cart ls).
  Proof.
    induction ls as [|l ls IH]; intros H; cbn [cart]; [repeat constructor; simpl; tauto|].
    assert (N : NoDup l) by (apply H; now left). assert (M : NoDup (cart ls)) by (apply IH; intros; apply H; now right). clear IH H.
    induction N as [|x l Hx N IHl]; cbn [flat_map]; [constructor|]. apply NoDup_app_intro_gen; auto.
    - apply FinFun.Injective_map_NoDup; auto. intros a b [=]. auto.
    - intros t H1 H2. apply in_map_iff in H1 as (r & <- & _). apply in_flat_map in H2 as (y & Hy & H2).
      apply in_map_iff in H2 as (r' & E & _). injection E as -> ->. auto.
  Qed.
  (** positions of a tuple of classes *)
  Definition positions (xs : list X) (vs : list V) (ps : list nat) : Prop :=
    Forall2 (fun xv p => nth_error (classes (fst xv)) p = Some (snd xv)) (combine xs vs) ps.
  Lemma encode_all_spec xs vs : (forall x, In x xs -> NoDup (classes x)) -> Forall2 (fun x v => In v (classes x)) xs vs ->
    exists ps, encode_all classes xs vs = Ok ps /\ positions xs vs ps /\ List.length ps = List.length xs.
  Proof.
    intros He H. induction H as [|x v xs vs Hv H IH]; [exists []; split; [auto|split; [constructor|auto]]|].
    destruct IH as (ps & E & P & L); [intros; apply He; now right|]. cbn [encode_all].
    destruct (@pos_spec x v) as [E1 P1]; [apply He; now left|auto|]. rewrite E1. cbn [bind]. rewrite E. cbn [bind].
    exists (pos x v :: ps). split; auto. split; [constructor; auto|cbn; lia].
  Qed.
  Lemma positions_inj xs vs ws ps : List.length vs = List.length xs -> List.length ws = List.length xs ->
    positions xs vs ps -> positions xs ws ps -> vs = ws.
  Proof.
    revert vs ws ps. induction xs as [|x xs IH]; intros [|v vs] [|w ws] ps L1 L2 H1 H2; cbn in *; try discriminate; auto.
    unfold positions in *. cbn [combine] in *. inversion H1; subst. inversion H2; subst. cbn [fst snd] in *. f_equal; [congruence|]. eapply IH; eauto.
  Qed.
  Lemma positions_fun xs vs ps qs : (forall x, In x xs -> NoDup (classes x)) -> List.length vs = List.length xs ->
    positions xs vs ps -> positions xs vs qs -> ps = qs.
  Proof.
    revert vs ps qs. induction xs as [|x xs IH]; intros [|v vs] ps qs He L H1 H2; cbn in L; try discriminate; unfold positions in *; cbn [combine] in *.
    - inversion H1; inversion H2; auto.
    - inversion H1 as [|? p ? ps' Hp Hps]; subst. inversion H2 as [|? q ? qs' Hq Hqs]; subst. cbn [fst snd] in *. f_equal.
      + eapply NoDup_nth_error; [apply He; now left|apply nth_error_Some; congruence|congruence].
      + eapply (IH vs); eauto. intros; apply He; now right.
  Qed.
  Theorem C43_combined (treatment : list X) (cs : list V) : treatment <> [] -> encoders_ok treatment -> valid_control treatment cs ->
    exists l k, permute_combined classes treatment None (Some cs) = Ok l /\ NoDup l /\ positions treatment cs k /\
      forall xs t c, In (xs, t, c) l <-> xs = treatment /\ c = k /\ t <> k /\
        Forall2 (fun x p => p < List.length (classes x)) treatment t.
  Proof.
    intros Hn He Hc. unfold permute_combined. destruct treatment as [|x0 xs0] eqn:Et; [easy|]. rewrite <- Et in *.
    replace (Nat.eqb (List.length treatment) 0) with false by (rewrite Et; reflexivity). clear Hn Et x0 xs0.
    rewrite <- (Forall2_length Hc), Nat.eqb_refl. cbn [bind]. destruct (@encode_all_spec treatment cs He Hc) as (k & Ek & Pk & Lk). rewrite Ek. cbn [bind].
    set (enc := fun t => match encode_all classes treatment t with Ok p => p | Err _ => [] end).
    assert (IN : forall t, In t (cart (map classes treatment)) <-> Forall2 (fun x v => In v (classes x)) treatment t).
    { intros t. rewrite cart_In. clear. revert t. induction treatment as [|x xs IH]; intros t; cbn [map].
      - split; intros H; inversion H; constructor.
      - split; intros H; inversion H; subst; constructor; auto; now apply IH. }
    assert (EN : forall t, In t (cart (map classes treatment)) -> encode_all classes treatment t = Ok (enc t) /\ positions treatment t (enc t) /\
                  List.length t = List.length treatment).
    { intros t Ht. apply IN in Ht. destruct (@encode_all_spec treatment t He Ht) as (p & E & P & _). unfold enc. rewrite E. split; auto. split; auto.
      symmetry. eapply Forall2_length; eauto. }
    rewrite (@mapR_ok _ _ _ enc).
    2: { intros t Ht. destruct (EN t Ht) as (E & _ & L). now rewrite L, Nat.eqb_refl. }
    cbn [bind]. eexists _, k. split; [reflexivity|]. split; [|split; [exact Pk|]].
    - apply FinFun.Injective_map_NoDup; [intros a b [=]; auto|]. apply NoDup_filter. apply NoDup_map_inj_in.
      + apply cart_NoDup. intros l Hl. apply in_map_iff in Hl as (x & <- & Hx). now apply He.
      + intros a b Ha Hb E. destruct (EN a Ha) as (_ & Pa & La). destruct (EN b Hb) as (_ & Pb & Lb). rewrite E in Pa. eapply positions_inj; eauto.
    - intros xs t c. rewrite in_map_iff. split.
      + intros (t' & [= <- <- <-] & Ht). apply filter_In in Ht as [Ht N]. rewrite negb_true_iff, eqb_neq in N. split; auto. split; auto. split; auto.
        apply in_map_iff in Ht as (v & <- & Hv). destruct (EN v Hv) as (_ & P & L). revert L P. generalize (enc v) as p. clear. intros p. revert v p.
        induction treatment as [|x xs IH]; intros [|a v] p L P; cbn in L; try discriminate; unfold positions in P; cbn [combine] in P; inversion P; subst; constructor.
        * apply nth_error_Some. cbn [fst snd] in *. congruence.
        * eapply IH; eauto.
      + intros (-> & -> & N & F). exists t. split; auto. apply filter_In. split; [|now rewrite negb_true_iff, eqb_neq].
        assert (G : exists v, Forall2 (fun x v => In v (classes x)) treatment v /\ positions treatment v t).
        { clear - F. induction F as [|x p xs t Hp F (v & H1 & H2)]; [exists []; split; constructor|].
          destruct (nth_error (classes x) p) as [a|] eqn:E; [|apply nth_error_None in E; lia].
          exists (a :: v). split; [constructor; auto; eapply nth_error_In; eauto|]. constructor; auto. }
        destruct G as (v & G1 & G2). apply in_map_iff. exists v. split; [|now apply IN].
        destruct (EN v (proj2 (IN v) G1)) as (_ & P & L). eapply positions_fun; eauto.
  Qed.
End C43.
Definition c43_classes (x : string) : list nat := if String.eqb x "a" then [10; 20; 30] else [1; 2].
Example C43_example :
  permute_sequential c43_classes ["a"; "b"]%string None (Some [20; 1]) = Ok [("a", 0, 1); ("a", 2, 1); ("b", 1, 0)]%string /\
  option_map (@List.length _) (match permute_combined c43_classes ["a"; "b"]%string None (Some [20; 1]) with Ok l => Some l | _ => None end) = Some 5.
Proof. split; reflexivity. Qed.

(** ** C44 *)
Section C44.
  Context {Row F V : Type} {EV : EqDec V}.
  Variable cell : Row -> F -> V.
  (** the row's treatment values *)
  Definition values (treatment : list F) (r : Row) : list V := map (cell r) treatment.
  Lemma matches_spec r : forall fs vs, List.length vs = List.length fs -> matches cell r fs vs = eqb (values fs r) vs.
  Proof.
    unfold matches, values. induction fs as [|f fs IH]; intros [|v vs] H; cbn in H; try discriminate; auto.
    cbn [combine forallb map fst snd]. rewrite IH by auto. reflexivity.
  Qed.
  Lemma combine_map_map (f g : Row -> bool) df :
    map (fun p : bool * bool => fst p && snd p) (combine (map f df) (map g df)) = map (fun r => f r && g r) df.
  Proof. induction df as [|r df IH]; cbn; auto. now rewrite IH. Qed.
  Lemma mask_acc df : forall fs vs f, mask cell df fs vs (Some (map f df)) = Some (map (fun r => f r && matches cell r fs vs) df).
  Proof.
    unfold matches. induction fs as [|x fs IH]; intros [|v vs] f; cbn [mask combine forallb]; try (f_equal; apply map_ext; intros; now rewrite andb_true_r).
    rewrite combine_map_map, IH. f_equal. apply map_ext. intros r. cbn [fst snd]. now rewrite andb_assoc.
  Qed.
  Lemma mask_spec df fs vs : fs <> [] -> List.length vs = List.length fs -> mask cell df fs vs None = Some (map (fun r => matches cell r fs vs) df).
  Proof.
    intros Hn L. destruct fs as [|f fs], vs as [|v vs]; cbn in L; try discriminate; [easy|]. cbn [mask]. rewrite mask_acc. reflexivity.
  Qed.
  Theorem C44_uplift_rows (df : list Row) (treatment : list F) (treat control : list V) :
    treatment <> [] -> List.length treat = List.length treatment -> List.length control = List.length treatment ->
    let sel := filter (fun r => eqb (values treatment r) treat || eqb (values treatment r) control) df in
    select_by_treat_control cell df treatment treat control = Ok sel /\
    encode_treat_control cell sel treatment treat control = map (fun r => Some (if eqb (values treatment r) treat then 1 else 0)) sel.
  Proof.
    intros Hn Lt Lc sel. unfold select_by_treat_control. rewrite !mask_spec by auto. split.
    - f_equal. unfold sel. clear sel. induction df as [|r df IH]; auto. cbn [map combine filter fst snd].
      rewrite !matches_spec by auto. destruct (eqb (values treatment r) treat || eqb (values treatment r) control); cbn [map fst]; now rewrite IH.
    - unfold encode_treat_control. apply map_ext_in. intros r Hr. apply filter_In in Hr as [_ Hr]. rewrite !matches_spec by auto.
      destruct (eqb (values treatment r) treat); auto. cbn [orb] in Hr. now rewrite Hr.
  Qed.
  Theorem C44_no_treatment (df : list Row) (treat control : list V) : select_by_treat_control cell df [] treat control = Err TypeError.
  Proof. reflexivity. Qed.
End C44.
Example C44_example : select_by_treat_control (fun r (f : nat) => nth f r 0) [[1; 0]; [0; 0]; [1; 1]; [0; 1]] [0; 1] [1; 1] [0; 0] = Ok [[0; 0]; [1; 1]] /\
  encode_treat_control (fun r (f : nat) => nth f r 0) [[0; 0]; [1; 1]] [0; 1] [1; 1] [0; 0] = [Some 0; Some 1].
Proof. split; reflexivity. Qed.

(** ** C45 *)
Section C45.
  Variables (Frame Name : Type).
  (** On a new object the guard lets every call through and the data come back unprocessed. *)
  Theorem C45_refuted (d : option bool) (data : option Frame) (eo et : bool) :
    preprocess (new_why Frame Name d) data eo et = Ok data.
  Proof. unfold preprocess, new_why. cbn. destruct data; cbn; auto. destruct eo, et; reflexivity. Qed.
  (** causal_effect on a new object still fails, with a TypeError from the missing treatments. *)
  Theorem C45_causal_effect_partial (d : option bool) (data : option Frame) :
    causal_effect_start (new_why Frame Name d) data = Err TypeError.
  Proof. unfold causal_effect_start. rewrite C45_refuted. reflexivity. Qed.
End C45.

(** ** C46 *)
Section C46.
  Context {I V D : Type} {EI : EqDec I} {EV : EqDec V}.
  Notation row := (@row I V D).
  Variable classes : list V.
  Variable eff : row -> nat -> nat -> Q. (* the estimator's effect of one row *)
  Definition by_row (rows : list row) (t c : nat) : list Q := map (fun r => eff r t c) rows.
  Notation idxs := (map (@idx I V D)).

  Lemma mapR_total {S T} (f : S -> res T) l ys : mapR f l = Ok ys -> Forall2 (fun x y => f x = Ok y) l ys.
  Proof.
    revert ys. induction l as [|x l IH]; intros ys H; cbn [mapR] in H; [injection H as <-; constructor|].
    destruct (f x) as [y|] eqn:E; cbn [bind] in H; [|discriminate]. destruct (mapR f l) as [r|]; cbn [bind] in H; [|discriminate]. injection H as <-. constructor; auto.
  Qed.
  Definition vpos (v : V) : nat := match index_of v classes with Some i => i | None => 0 end.
  (** the answer for one row: unchanged when the treatment does not change *)
  Definition answer (r : row) (t : V) : Q := if eqb t (old r) then y r else (y r + eff r (vpos t) (vpos (old r)))%Q.
  Definition delta (r : row) (t : V) : Q := if eqb t (old r) then 0%Q else eff r (vpos t) (vpos (old r)).
  Definition known (df : list (row * V)) : Prop := forall r t, In (r, t) df -> t <> old r -> In t classes /\ In (old r) classes.
  Definition group (df : list (row * V)) (tc : V * V) : list (row * V) := filter (fun e => eqb (snd e) (fst tc) && eqb (old (fst e)) (snd tc)) df.

  Lemma transform_known v : In v classes -> transform classes v = Ok (vpos v).
  Proof. intros H. unfold transform, vpos. destruct (index_of v classes) eqn:E; auto. now apply index_of_None in E. Qed.
  Lemma group_effect_spec data (df : list (row * V)) tc : known df -> In tc (map (fun e => (snd e, old (fst e))) df) ->
    group_effect classes by_row None data (map (fun e => (fst e, Some (snd e))) df) tc =
    Ok (map (fun e => (idx (fst e), delta (fst e) (snd e))) (group df tc)).
  Proof.
    intros HK Htc. unfold group_effect.
    assert (R : map fst (filter (fun e : row * option V => match snd e with Some t => eqb t (fst tc) && eqb (old (fst e)) (snd tc) | None => false end)
              (map (fun e : row * V => (fst e, Some (snd e))) df)) = map fst (group df tc)).
    { unfold group. clear. induction df as [|[r t] df IH]; auto. cbn [map filter fst snd]. destruct (eqb t (fst tc) && eqb (old r) (snd tc)); cbn [map fst]; congruence. }
    rewrite R. clear R.
    assert (G : forall e, In e (group df tc) -> snd e = fst tc /\ old (fst e) = snd tc).
    { intros e He. apply filter_In in He as [_ He]. rewrite andb_true_iff, !eqb_eq in He. exact He. }
    assert (C : forall (f : row -> Q), (forall e, In e (group df tc) -> f (fst e) = delta (fst e) (snd e)) ->
              combine (idxs (map fst (group df tc))) (map f (map fst (group df tc))) = map (fun e => (idx (fst e), delta (fst e) (snd e))) (group df tc)).
    { intros f Hf. clear - Hf. induction (group df tc) as [|e l IH]; cbn [map combine]; auto. rewrite Hf by now left. f_equal. apply IH. intros; apply Hf; now right. }
    apply in_map_iff in Htc as ([r t] & <- & Hrt). cbn [fst snd] in *.
    destruct (eqb_spec t (old r)) as [E|N]; cbn [bind].
    - cbn [cost_effect bind]. f_equal. apply (C (fun _ => 0%Q)). intros e He. destruct (G e He) as [E1 E2]. unfold delta. rewrite E1, E2, E. now rewrite eqb_refl.
    - destruct (HK r t Hrt N) as [K1 K2]. rewrite !transform_known by auto. cbn [bind cost_effect]. f_equal. unfold by_row. apply (C (fun r0 => eff r0 (vpos t) (vpos (old r)))).
      intros e He. destruct (G e He) as [E1 E2]. unfold delta. rewrite E1, E2. now rewrite (proj2 (eqb_neq _ _) N).
  Qed.
  Lemma pairs_map (df : list (row * V)) : pairs (map (fun e => (fst e, Some (snd e))) df) = dedup (map (fun e => (snd e, old (fst e))) df).
  Proof. unfold pairs. f_equal. induction df as [|[r t] df IH]; auto. cbn [map flat_map fst snd app]. now f_equal. Qed.
  (** the groups partition the rows *)
  Lemma groups_perm (df : list (row * V)) : forall ps, NoDup ps -> 
    Permutation (flat_map (group df) ps) (filter (fun e => mem (snd e, old (fst e)) ps) df).
  Proof.
    induction ps as [|p ps IH]; intros ND; cbn [flat_map].
    - rewrite (@filter_none _ (fun _ => _)); auto.
    - inversion ND as [|? ? Hp ND']; subst. rewrite (IH ND'). clear IH ND. unfold group. induction df as [|e df IHd]; cbn [filter]; auto.
      cbn [mem]. destruct p as [t c]. cbn [fst snd] in *.
      change (eqb (snd e, old (fst e)) (t, c)) with (eqb (snd e) t && eqb (old (fst e)) c).
      destruct (eqb (snd e) t && eqb (old (fst e)) c) eqn:E; cbn [orb app].
      + assert (X : mem (snd e, old (fst e)) ps = false).
        { apply andb_true_iff in E as [E1 E2]. apply eqb_eq in E1, E2. rewrite E1, E2. now apply mem_nIn. }
        rewrite X. now apply perm_skip.
      + destruct (mem (snd e, old (fst e)) ps); [|exact IHd]. rewrite <- Permutation_middle. now apply perm_skip.
  Qed.
  Lemma find_idx (l : list (I * Q)) i q : NoDup (map fst l) -> In (i, q) l -> find (fun e => eqb (fst e) i) l = Some (i, q).
  Proof.
    induction l as [|[j p] l IH]; intros ND H; [destruct H|]. cbn [find fst map] in *. inversion ND; subst. destruct H as [[= -> ->]|H]; [now rewrite eqb_refl|].
    destruct (eqb_spec j i) as [->|]; auto. elim H2. apply in_map_iff. exists (i, q). auto.
  Qed.
  Theorem C46_whatif (data : list row) (new : list V) : NoDup (idxs data) -> List.length new = List.length data ->
    known (combine data new) ->
    whatif_discrete classes by_row None data (@Arr I V new) = 
      Ok (map (fun e => (idx (fst e), if eqb (snd e) (old (fst e)) then (y (fst e) + 0)%Q else (y (fst e) + eff (fst e) (vpos (snd e)) (vpos (old (fst e))))%Q)) (combine data new)).
  Proof.
    intros ND L HK. unfold whatif_discrete. cbn [new_column]. rewrite L, Nat.eqb_refl. cbn [bind].
    set (df := combine data new) in *.
    assert (E1 : combine data (map Some new) = map (fun e => (fst e, Some (snd e))) df).
    { unfold df. clear - L. revert new L. induction data as [|r data IH]; intros [|t new] L; cbn in *; try discriminate; auto. rewrite IH; auto. }
    rewrite E1.
    replace (existsb _ _) with false by (clear; induction df as [|[r t] df IH]; cbn; auto).
    rewrite pairs_map.
    rewrite (@mapR_ok _ _ _ (fun tc => map (fun e => (idx (fst e), delta (fst e) (snd e))) (group df tc))).
    2: { intros tc Htc. apply (proj1 (dedup_In _ _)) in Htc. now apply group_effect_spec. }
    cbn [bind]. set (ps := dedup _).
    set (effect := List.concat _).
    assert (P : Permutation effect (map (fun e => (idx (fst e), delta (fst e) (snd e))) df)).
    { unfold effect. rewrite <- flat_map_concat_map.
      assert (X : flat_map (fun tc => map (fun e => (idx (fst e), delta (fst e) (snd e))) (group df tc)) ps = map (fun e => (idx (fst e), delta (fst e) (snd e))) (flat_map (group df) ps)).
      { clear. induction ps as [|p ps IH]; cbn; auto. now rewrite map_app, IH. }
      rewrite X. apply Permutation_map. rewrite groups_perm by apply dedup_NoDup. rewrite filter_all_true; auto.
      intros e He. apply mem_In. unfold ps. apply dedup_In, in_map_iff. eauto. }
    assert (Len : List.length effect = List.length (map (fun e : row * V => (fst e, Some (snd e))) df)) by (rewrite (Permutation_length P), !map_length; auto).
    rewrite Len, Nat.eqb_refl. cbn [negb]. f_equal.
    assert (FD : idxs data = map (fun e => idx (fst e)) df).
    { unfold df. clear - L. revert new L. induction data as [|r data IH]; intros [|t new] L; cbn in *; try discriminate; auto. f_equal. auto. }
    assert (NDe : NoDup (map fst effect)).
    { apply (Permutation_NoDup (l := idxs data)); auto. rewrite FD. apply Permutation_sym. rewrite (Permutation_map fst P), map_map. auto. }
    assert (Fd : data = map fst df).
    { unfold df. clear - L. revert new L. induction data as [|r data IH]; intros [|t new] L; cbn in *; try discriminate; auto. f_equal. auto. }
    rewrite Fd at 1. rewrite map_map. apply map_ext_in. intros [r t] Hrt. cbn [fst snd]. f_equal.
    rewrite (@find_idx effect (idx r) (delta r t) NDe).
    - cbn [snd]. unfold delta. destruct (eqb t (old r)); reflexivity.
    - apply (Permutation_in _ (Permutation_sym P)). apply in_map_iff. exists (r, t). auto.
  Qed.
  (** A Series is matched to the rows by its index, whatever its order. *)
  Theorem C46_series (fn_cost : option (row -> Q -> Q)) (data : list row) (new : list V) (s : list (I * V)) :
    NoDup (map fst s) -> List.length new = List.length data ->
    (forall r t, In (r, t) (combine data new) -> In (idx r, t) s) ->
    whatif_discrete classes by_row fn_cost data (Ser s) = whatif_discrete classes by_row fn_cost data (@Arr I V new).
  Proof.
    intros ND L HS. unfold whatif_discrete. cbn [new_column]. rewrite L, Nat.eqb_refl.
    assert (E : map (fun r => option_map snd (find (fun e : I * V => eqb (fst e) (idx r)) s)) data = map Some new); [|now rewrite E].
    revert new L HS. induction data as [|r d IH]; intros [|t new] L HS; cbn in L; try discriminate; auto. cbn [map]. f_equal.
    - assert (H : In (idx r, t) s) by (apply HS; now left). clear - H ND. induction s as [|[i v] s IH]; [destruct H|]. cbn [find fst map] in *.
      inversion ND; subst. destruct H as [[= -> ->]|H]; [now rewrite eqb_refl|]. destruct (eqb_spec i (idx r)) as [->|]; auto.
      elim H2. apply in_map_iff. exists (idx r, t). auto.
    - apply IH; [auto|]. intros; apply HS; now right.
  Qed.
  (** With a cost function and more than one contrast in the data the call always fails: the cost is computed on the
      whole of test_data for the effects of one group. *)
  Theorem C46_refuted_cost (f : row -> Q -> Q) (data : list row) (new : list V) (r1 r2 : row) (t1 t2 : V) :
    List.length new = List.length data -> known (combine data new) ->
    In (r1, t1) (combine data new) -> In (r2, t2) (combine data new) -> (t1, old r1) <> (t2, old r2) ->
    whatif_discrete classes by_row (Some f) data (@Arr I V new) = Err AssertionError.
  Proof.
    intros L HK H1 H2 HN. unfold whatif_discrete. cbn [new_column]. rewrite L, Nat.eqb_refl. cbn [bind].
    set (df := combine data new) in *.
    assert (E1 : combine data (map Some new) = map (fun e => (fst e, Some (snd e))) df).
    { unfold df. clear - L. revert new L. induction data as [|r data IH]; intros [|t new] L; cbn in *; try discriminate; auto. rewrite IH; auto. }
    rewrite E1.
    replace (existsb _ _) with false by (clear; induction df as [|[r t] df IH]; cbn; auto).
    rewrite pairs_map.
    destruct (dedup (map (fun e : row * V => (snd e, old (fst e))) df)) as [|tc ps] eqn:ED.
    { exfalso. assert (X : In (t1, old r1) (dedup (map (fun e : row * V => (snd e, old (fst e))) df))) by (apply (proj2 (dedup_In _ _)); apply in_map_iff; exists (r1, t1); auto).
      rewrite ED in X. destruct X. }
    assert (Htc : In tc (map (fun e : row * V => (snd e, old (fst e))) df)) by (apply (proj1 (dedup_In _ _)); rewrite ED; now left).
    cbn [mapR].
    assert (G : group_effect classes by_row (Some f) data (map (fun e : row * V => (fst e, Some (snd e))) df) tc = Err AssertionError); [|now rewrite G].
    unfold group_effect.
    assert (R : map fst (filter (fun e : row * option V => match snd e with Some t => eqb t (fst tc) && eqb (old (fst e)) (snd tc) | None => false end)
              (map (fun e : row * V => (fst e, Some (snd e))) df)) = map fst (group df tc)).
    { unfold group. clear. induction df as [|[r t] df IH]; auto. cbn [map filter fst snd]. destruct (eqb t (fst tc) && eqb (old r) (snd tc)); cbn [map fst]; congruence. }
    rewrite R. clear R.
    assert (Lg : List.length (group df tc) < List.length data).
    { replace (List.length data) with (List.length df) by (unfold df; rewrite combine_length, L; apply Nat.min_id).
      assert (X : exists e, In e df /\ (eqb (snd e) (fst tc) && eqb (old (fst e)) (snd tc)) = false).
      { destruct (eqb_spec (t1, old r1) tc) as [E|N].
        - exists (r2, t2). split; auto. apply not_true_is_false. rewrite andb_true_iff, !eqb_eq. cbn [fst snd]. intros [A B]. apply HN. rewrite E, A, B. now destruct tc.
        - exists (r1, t1). split; auto. apply not_true_is_false. rewrite andb_true_iff, !eqb_eq. cbn [fst snd]. intros [A B]. apply N. rewrite A, B. now destruct tc. }
      destruct X as (e & He & Hf). unfold group. exact (filter_length_lt (fun e : row * V => eqb (snd e) (fst tc) && eqb (old (fst e)) (snd tc)) df e He Hf). }
    assert (C : forall l, List.length l = List.length (group df tc) -> cost_effect (Some f) data l = Err AssertionError).
    { intros l Hl. unfold cost_effect. replace (List.length data =? List.length l) with false; auto. symmetry. apply Nat.eqb_neq. lia. }
    apply in_map_iff in Htc as ([r t] & <- & Hrt). cbn [fst snd] in *.
    destruct (eqb_spec t (old r)) as [E|N]; cbn [bind].
    - rewrite C; auto. now rewrite !map_length.
    - destruct (HK r t Hrt N) as [K1 K2]. rewrite !transform_known by auto. cbn [bind]. rewrite C; auto. unfold by_row. now rewrite !map_length.
  Qed.
  (** With a cost function and no change at all, the answer is not y but y plus the cost of a zero effect. *)
  Theorem C46_refuted_cost_factual (f : row -> Q -> Q) (r : row) :
    whatif_discrete classes by_row (Some f) [r] (@Arr I V [old r]) = Ok [(idx r, (y r + f r 0)%Q)].
  Proof.
    unfold whatif_discrete, new_column, pairs, group_effect. cbn [List.length Nat.eqb map combine existsb snd fst orb bind flat_map app].
    cbn [dedup mapR filter]. cbn [map filter snd fst]. rewrite !eqb_refl. cbn [andb map fst bind cost_effect List.length Nat.eqb combine snd mapR List.concat app negb find].
    now rewrite eqb_refl.
  Qed.
End C46.
(** Three rows, indices 7, 3, 5: the second keeps its treatment. *)
Example C46_example :
  let data := [Row 7 "a"%string 1%Q tt; Row 3 "b"%string 2%Q tt; Row 5 "a"%string 3%Q tt] in
  NoDup (map (@idx nat string unit) data) /\
  known ["a"; "b"]%string (combine data ["b"; "b"; "b"]%string) /\
  whatif_discrete ["a"; "b"]%string (by_row (fun r t c => inject_Z (Z.of_nat (idx r) * (Z.of_nat t - Z.of_nat c)))) None data (@Arr nat string ["b"; "b"; "b"]%string)
  = Ok [(7, 8%Q); (3, 2%Q); (5, 8%Q)].
Proof.
  cbn zeta. repeat split.
  - repeat constructor; cbn; intuition discriminate.
  - cbn in H. destruct H as [[= <- <-]|[[= <- <-]|[[= <- <-]|[]]]]; cbn; auto.
  - cbn in H. destruct H as [[= <- <-]|[[= <- <-]|[[= <- <-]|[]]]]; cbn; auto.
Qed.

(** ** C47 *)
(** What the caller wants: the edges from causes to effects. *)
Definition wanted_edges (x yo : string) (w v z : option string) : list (node * node) :=
  let from kind r cs := match r with Some f => map (fun c => (label kind f, c)) cs | None => [] end in
  from "Adjustments"%string w [label "Treatments" x; label "Outcome" yo] ++
  from "Covariates"%string v [label "Treatments" x; label "Outcome" yo] ++
  from "Instruments"%string z [label "Treatments" x].
(** The edges of the returned graph are exactly the wanted ones turned around, for every assignment of roles. *)
Theorem C47_refuted (x yo : string) (w v z : option string) (a b : node) :
  has_edge (dag (causal_graph x yo w v z)) a b = true <-> In (b, a) (wanted_edges x yo w v z).
Proof.
  unfold causal_graph, init. cbn [dag fold_left]. unfold observed_dag_of, has_edge.
  rewrite existsb_exists.
  assert (X : forall e, In e (edges (add_edges_key empty_mdg (obs_edges (role_entry "Adjustments" w [label_x x; label_y yo] ++
          role_entry "Covariates" v [label_x x; label_y yo] ++
          role_entry "Instruments" z [label_x x])))) <-> exists p, In p (wanted_edges x yo w v z) /\ e = (snd p, fst p, K 0)).
  { intros e. rewrite add_edges_key_edges. cbn [edges empty_mdg In]. unfold obs_edges, wanted_edges.
    assert (E : forall k r cs, flat_map (fun e : node * list node => map (fun p => (p, fst e, K 0)) (snd e)) (role_entry k r cs) =
            map (fun p => (snd p, fst p, K 0)) (match r with Some f => map (fun c => (label k f, c)) cs | None => [] end)).
    { intros k [f|] cs; cbn [role_entry flat_map]; auto. rewrite app_nil_r, map_map. reflexivity. }
    rewrite !flat_map_app, !E, <- !map_app, in_map_iff. unfold label_x, label_y. split.
    - intros [(p & <- & Hp)|[]]. eauto.
    - intros (p & Hp & ->). left. eauto. }
  split.
  - intros (e & He & Hab). apply X in He as (p & Hp & ->). cbn [fst] in Hab. apply eqb_eq in Hab. injection Hab as <- <-. now destruct p.
  - intros H. exists (a, b, K 0). split; [|apply eqb_refl]. apply X. exists (b, a). auto.
Qed.
(** In particular no role points to the treatments: the wanted orientation fails whenever there is any role. *)
Corollary C47_refuted_covariates (x yo v : string) (w z : option string) :
  has_edge (dag (causal_graph x yo w (Some v) z)) (label "Covariates" v) (label "Treatments" x) = false /\
  has_edge (dag (causal_graph x yo w (Some v) z)) (label "Treatments" x) (label "Covariates" v) = true.
Proof.
  split.
  - apply not_true_is_false. rewrite C47_refuted. unfold wanted_edges. rewrite !in_app_iff. intros [H|[H|H]].
    + destruct w; [|destruct H]. apply in_map_iff in H as (c & H & _). discriminate.
    + apply in_map_iff in H as (c & H & _). discriminate.
    + destruct z; [|destruct H]. apply in_map_iff in H as (c & H & _). discriminate.
  - apply C47_refuted. unfold wanted_edges. rewrite !in_app_iff. right. left. now left.
Qed.
(** What does hold: two roles are adjacent exactly when they should be. *)
Theorem C47_adjacent_partial (x yo : string) (w v z : option string) (a b : node) :
  (has_edge (dag (causal_graph x yo w v z)) a b = true \/ has_edge (dag (causal_graph x yo w v z)) b a = true) <->
  (In (a, b) (wanted_edges x yo w v z) \/ In (b, a) (wanted_edges x yo w v z)).
Proof. rewrite !C47_refuted. tauto. Qed.

(** ** C70: the outcome value handed to the estimators *)
Lemma index_of_at {A} {EA : EqDec A} (l : list A) i x : NoDup l -> nth_error l i = Some x -> index_of x l = Some i.
Proof.
  intros ND H. destruct (index_of x l) as [j|] eqn:E.
  - apply index_of_Some in E as [E1 E2]. f_equal. apply (proj1 (NoDup_nth_error l) ND); congruence.
  - apply index_of_None in E. elim E. now apply nth_error_In in H.
Qed.
(** causal_effect: the position of the requested value among the classes, by default the last class *)
Theorem C70_causal_effect (cls : list pyv) (v : pyv) : NoDup cls -> In v cls ->
  exists i, nth_error cls i = Some v /\ target_causal_effect cls (Some v) = Ok (Some (VInt (Z.of_nat i))).
Proof.
  intros ND H. apply In_nth_error in H as (i & Hi). exists i. split; auto.
  unfold target_causal_effect, y_transform.
  rewrite (@index_of_at _ _ cls i v ND Hi). reflexivity.
Qed.
Theorem C70_causal_effect_default (cls : list pyv) (c : pyv) : NoDup (cls ++ [c]) ->
  target_causal_effect (cls ++ [c]) None = Ok (Some (VInt (Z.of_nat (List.length cls)))).
Proof.
  intros ND. unfold target_causal_effect, y_transform.
  assert (H : index_of c (cls ++ [c]) = Some (List.length cls)).
  { apply index_of_at; auto. rewrite nth_error_app2, Nat.sub_diag by lia. reflexivity. }
  destruct cls as [|d cls]; cbn [app] in *; [cbn [List.last]; now rewrite H|]. rewrite last_last, H. reflexivity.
Qed.
Theorem C70_causal_effect_unknown (cls : list pyv) (v : pyv) : ~ In v cls -> target_causal_effect cls (Some v) = Err ValueError.
Proof. intros H. unfold target_causal_effect, y_transform. now rewrite (proj2 (index_of_None v cls) H). Qed.
(** uplift_model, individual_causal_effect and the effect arrays decode the requested value instead of encoding it:
    a string outcome is always rejected ... *)
Theorem C70_refuted_string (cls : list pyv) (s : str) : target_uplift cls (Some (VStr s)) = Err ValueError.
Proof. reflexivity. Qed.
(** ... and an integer one is taken as a position. *)
Theorem C70_refuted_int (cls : list pyv) (i : nat) (c : pyv) : nth_error cls i = Some c ->
  target_uplift cls (Some (VInt (Z.of_nat i))) = Ok (Some c).
Proof.
  intros H. unfold target_uplift, y_inverse. replace (Z.leb 0 (Z.of_nat i)) with true by (symmetry; apply Z.leb_le; lia).
  rewrite Nat2Z.id, H. reflexivity.
Qed.
(** They agree exactly when the classes are their own positions at that value. *)
Theorem C70_agree_partial (cls : list pyv) (v : pyv) : NoDup cls -> In v cls ->
  (target_uplift cls (Some v) = target_causal_effect cls (Some v) <-> exists i, v = VInt (Z.of_nat i) /\ 
     exists j, nth_error cls j = Some v /\ nth_error cls i = Some (VInt (Z.of_nat j))).
Proof.
  intros ND H. destruct (@C70_causal_effect cls v ND H) as (j & Hj & ->). split.
  - intros E. destruct v as [z|s]; [|discriminate E]. unfold target_uplift, y_inverse in E.
    destruct (Z.leb_spec 0 z) as [Hz|Hz]; [|discriminate E]. destruct (nth_error cls (Z.to_nat z)) as [c|] eqn:Ec; [|discriminate E].
    cbn [bind] in E. exists (Z.to_nat z). split; [f_equal; lia|]. exists j. split; auto. congruence.
  - intros (i & -> & j' & Hj' & Hi). rewrite (C70_refuted_int _ _ Hi). do 3 f_equal.
    f_equal. assert (j' = j); [|now subst]. apply (proj1 (NoDup_nth_error cls) ND); [apply nth_error_Some; congruence|congruence].
Qed.
Example C70_example :
  target_causal_effect [VInt 1; VInt 2] (Some (VInt 1)) = Ok (Some (VInt 0)) /\
  target_uplift [VInt 1; VInt 2] (Some (VInt 1)) = Ok (Some (VInt 2)) /\
  target_uplift [VInt 1; VInt 2] (Some (VInt 2)) = Err ValueError /\
  target_uplift [VInt 0; VInt 1] (Some (VInt 1)) = target_causal_effect [VInt 0; VInt 1] (Some (VInt 1)).
Proof. repeat split; reflexivity. Qed.

Print Assumptions C38_default.
Print Assumptions C38_discovery.
Print Assumptions C38_model_simple.
Print Assumptions C38_refuted_minimal.
Print Assumptions C39_dfs.
Print Assumptions C39_refuted_negative.
Print Assumptions C73_refuted_no_instruments.
Print Assumptions C68_straight_exact.
Print Assumptions C68_refuted.
Print Assumptions C69_identify_roles.
Print Assumptions C69_refuted_mutation.
Print Assumptions C69_refuted_outcome.
Print Assumptions C72_get_estimator.
Print Assumptions C72_refuted_default.
Print Assumptions C43_sequential.
Print Assumptions C43_combined.
Print Assumptions C44_uplift_rows.
Print Assumptions C45_refuted.
Print Assumptions C46_whatif.
Print Assumptions C46_series.
Print Assumptions C46_refuted_cost.
Print Assumptions C47_refuted.
Print Assumptions C70_causal_effect.
Print Assumptions C70_refuted_string.
Print Assumptions C70_agree_partial.
