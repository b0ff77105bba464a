(** What follows from the shape of a built tree ([subtree]): lemmas for TreeProps.v. *)
From Coq Require Import ZArith Reals Lra FunctionalExtensionality.
From Verif Require Import Base TreeCritModel TreeCritProps SplitterModel SplitterSpec TreeSpec CritOk SplitterProofs BuilderProofs.
Set Implicit Arguments.
Local Notation length := List.length.
Open Scope nat_scope.

(* ------------------------------------------------------------------------------------------------ *)
(** ** What follows from the shape of a tree *)

Section Shape.
Context {V : Type}.
Variable sp : cspec V.
Variable X : nat -> nat -> R.
Variables (nf max_features msl : nat) (mwl : R) (mss max_depth : nat) (mid : R) (best : Prop).
Notation ST := (subtree sp X nf max_features msl mwl mss max_depth mid best).

Lemma st_lt nodes values id d imp s stop dp : ST nodes values id d imp s stop dp ->
  id < stop <= length nodes /\ d <= dp <= max_depth.
Proof.
  induction 1 as [id d imp s nd H1 H2 H3 H4 H5 H6 H7 H8|id d imp s nd m stop dl dr H1 H2 H3 H4 H5 H6 H7 H8 H9 H10 H11 H12 H13 l r HL IHL HR IHR].
  - assert (id < length nodes) by (apply nth_error_Some; congruence). lia.
  - lia.
Qed.

Lemma nth_error_node nodes id nd : nth_error nodes id = Some nd -> nth id nodes node0 = nd.
Proof. intros H. now apply nth_error_nth. Qed.

(** the path of any row ends in a leaf of the subtree; enough fuel is the number of its nodes, or its height *)
Lemma path_ok nodes values id d imp s stop dp : ST nodes values id d imp s stop dp ->
  forall x, exists p j, (forall fuel, length p <= fuel -> path_row fuel nodes x id = Ok (p ++ [j]) \/ length p = fuel) /\
    (forall fuel, length p < fuel -> path_row fuel nodes x id = Ok (p ++ [j]) /\ apply_row fuel nodes x id = Ok j) /\
    id <= j < stop /\ length p < stop - id /\ d + length p <= dp.
Proof.
  induction 1 as [id d imp s nd H1 H2 H3 H4 H5 H6 H7 H8|id d imp s nd m stop dl dr H1 H2 H3 H4 H5 H6 H7 H8 H9 H10 H11 H12 H13 l r HL IHL HR IHR]; intros x.
  - exists [], id. assert (E : forall fuel, 0 < fuel -> path_row fuel nodes x id = Ok [id] /\ apply_row fuel nodes x id = Ok id).
    { intros [|k] Hk; [lia|]. cbn [path_row apply_row]. rewrite (nth_error_node _ _ H1), H2. auto. }
    cbn [length app]. split; [|split; [exact E|lia]]. intros [|k] Hk; [now right|left; apply E; lia].
  - pose proof (st_lt HL) as B1. pose proof (st_lt HR) as B2.
    destruct (Rle_dec (x (nd_feature nd)) (nd_thr nd)) as [C|C].
    + destruct (IHL x) as (p & j & A1 & A2 & A3 & A4 & A5). exists (id :: p), j.
      assert (E : forall fuel, length (id :: p) < fuel -> path_row fuel nodes x id = Ok ((id :: p) ++ [j]) /\ apply_row fuel nodes x id = Ok j).
      { intros [|k] Hk; cbn [length] in Hk; [lia|]. cbn [path_row apply_row]. rewrite (nth_error_node _ _ H1), H2.
        destruct (Rle_dec _ _); [|contradiction]. destruct (A2 k) as [E1 E2]; [lia|]. rewrite E1, E2. auto. }
      split; [|split; [exact E|cbn [length]; lia]]. intros fuel Hf. destruct (Nat.eq_dec (length (id :: p)) fuel); [now right|left; apply E; lia].
    + destruct (IHR x) as (p & j & A1 & A2 & A3 & A4 & A5). exists (id :: p), j.
      assert (E : forall fuel, length (id :: p) < fuel -> path_row fuel nodes x id = Ok ((id :: p) ++ [j]) /\ apply_row fuel nodes x id = Ok j).
      { intros [|k] Hk; cbn [length] in Hk; [lia|]. cbn [path_row apply_row]. rewrite (nth_error_node _ _ H1), H2.
        destruct (Rle_dec _ _); [contradiction|]. rewrite H3. destruct (A2 k) as [E1 E2]; [lia|]. rewrite E1, E2. auto. }
      split; [|split; [exact E|cbn [length]; lia]]. intros fuel Hf. destruct (Nat.eq_dec (length (id :: p)) fuel); [now right|left; apply E; lia].
Qed.

(** every row ends in a leaf, and the leaf holds exactly the training samples that end there *)
Lemma leaf_ok nodes values id d imp s stop dp : ST nodes values id d imp s stop dp ->
  forall x, exists j nd, (forall fuel, stop - id <= fuel -> apply_row fuel nodes x id = Ok j) /\ id <= j < stop /\
    nth_error nodes j = Some nd /\ nd_left nd = Leaf /\
    let sj := filter (fun i => match apply_row (length nodes) nodes (X i) id with Ok k => k =? j | Err _ => false end) s in
    nth_error values j = Some (cs_value sp sj) /\ nd_n nd = length sj /\ nd_w nd = cs_wn sp sj /\
    (s <> [] -> sj <> []) /\ (j = id /\ stop = S id /\ sj = s \/ id < j /\ msl <= length sj).
Proof.
  induction 1 as [id d imp s nd H1 H2 H3 H4 H5 H6 H7 H8|id d imp s nd m stop dl dr H1 H2 H3 H4 H5 H6 H7 H8 H9 H10 H11 H12 H13 l r HL IHL HR IHR]; intros x.
  - exists id, nd. assert (Hid : id < length nodes) by (apply nth_error_Some; congruence).
    assert (E : forall y fuel, 0 < fuel -> apply_row fuel nodes y id = Ok id).
    { intros y [|k] Hk; [lia|]. cbn [apply_row]. now rewrite (nth_error_node _ _ H1), H2. }
    split; [intros; apply E; lia|]. split; [lia|]. split; [auto|]. split; [auto|]. cbv zeta.
    assert (F : filter (fun i => match apply_row (length nodes) nodes (X i) id with Ok k => k =? id | Err _ => false end) s = s).
    { apply filter_all. intros i _. rewrite E by lia. apply Nat.eqb_refl. }
    rewrite F. split; [auto|]. split; [auto|]. split; [auto|]. split; [auto|]. left. auto.
  - pose proof (st_lt HL) as B1. pose proof (st_lt HR) as B2.
    assert (APL : forall y k, (y (nd_feature nd) <= nd_thr nd)%R -> apply_row (S k) nodes y id = apply_row k nodes y (S id)).
    { intros y k Hy. cbn [apply_row]. rewrite (nth_error_node _ _ H1), H2. destruct (Rle_dec _ _); [reflexivity|contradiction]. }
    assert (APR : forall y k, ~ (y (nd_feature nd) <= nd_thr nd)%R -> apply_row (S k) nodes y id = apply_row k nodes y m).
    { intros y k Hy. cbn [apply_row]. rewrite (nth_error_node _ _ H1), H2, H3. destruct (Rle_dec _ _); [contradiction|reflexivity]. }
    destruct (length nodes) as [|ln] eqn:Eln; [lia|].
    (* where the samples of the two sides end *)
    assert (ENDL : forall i, exists j, S id <= j < m /\ (forall fuel, m - S id <= fuel -> apply_row fuel nodes (X i) (S id) = Ok j)).
    { intros i. destruct (IHL (X i)) as (j & _ & A & B & _). eauto. }
    assert (ENDR : forall i, exists j, m <= j < stop /\ (forall fuel, stop - m <= fuel -> apply_row fuel nodes (X i) m = Ok j)).
    { intros i. destruct (IHR (X i)) as (j & _ & A & B & _). eauto. }
    assert (FL : forall j, S id <= j < m ->
      filter (fun i => match apply_row (S ln) nodes (X i) id with Ok k => k =? j | Err _ => false end) s =
      filter (fun i => match apply_row (S ln) nodes (X i) (S id) with Ok k => k =? j | Err _ => false end) l).
    { intros j Hj. subst l. unfold left_of. clear - APL APR ENDL ENDR Hj B1 B2 Eln. induction s as [|i s IHs]; [reflexivity|].
      cbn [filter]. destruct (Rle_dec (X i (nd_feature nd)) (nd_thr nd)) as [C|C].
      - rewrite (APL (X i) ln C). cbn [filter]. destruct (ENDL i) as (q & Hq & Eq). rewrite !Eq by lia.
        destruct (q =? j); now rewrite IHs.
      - rewrite (APR (X i) ln C). destruct (ENDR i) as (q & Hq & Eq). rewrite Eq by lia.
        destruct (Nat.eqb_spec q j); [lia|]. auto. }
    assert (FR : forall j, m <= j < stop ->
      filter (fun i => match apply_row (S ln) nodes (X i) id with Ok k => k =? j | Err _ => false end) s =
      filter (fun i => match apply_row (S ln) nodes (X i) m with Ok k => k =? j | Err _ => false end) r).
    { intros j Hj. subst r. unfold right_of. clear - APL APR ENDL ENDR Hj B1 B2 Eln. induction s as [|i s IHs]; [reflexivity|].
      cbn [filter]. destruct (Rle_dec (X i (nd_feature nd)) (nd_thr nd)) as [C|C].
      - rewrite (APL (X i) ln C). destruct (ENDL i) as (q & Hq & Eq). rewrite Eq by lia.
        destruct (Nat.eqb_spec q j); [lia|]. auto.
      - rewrite (APR (X i) ln C). cbn [filter]. destruct (ENDR i) as (q & Hq & Eq). rewrite !Eq by lia.
        destruct (q =? j); now rewrite IHs. }
    destruct H11 as (A1 & A2 & A3 & A4 & _). fold l in A1, A3. fold r in A2, A4.
    destruct (Rle_dec (x (nd_feature nd)) (nd_thr nd)) as [C|C].
    + destruct (IHL x) as (j & ndj & P1 & P2 & P3 & P4 & P5). cbv zeta in P5. rewrite <- FL in P5 by lia.
      exists j, ndj. split. { intros [|k] Hk; [lia|]. rewrite APL by auto. apply P1. lia. }
      split; [lia|]. split; [auto|]. split; [auto|]. cbv zeta.
      destruct P5 as (Q1 & Q2 & Q3 & Q4 & Q5). split; [auto|]. split; [auto|]. split; [auto|]. split; [auto|].
      right. split; [lia|]. destruct Q5 as [(_ & _ & Q5)|(_ & Q5)]; [rewrite Q5; auto|auto].
    + destruct (IHR x) as (j & ndj & P1 & P2 & P3 & P4 & P5). cbv zeta in P5. rewrite <- FR in P5 by lia.
      exists j, ndj. split. { intros [|k] Hk; [lia|]. rewrite APR by auto. apply P1. lia. }
      split; [lia|]. split; [auto|]. split; [auto|]. cbv zeta.
      destruct P5 as (Q1 & Q2 & Q3 & Q4 & Q5). split; [auto|]. split; [auto|]. split; [auto|]. split; [auto|].
      right. split; [lia|]. destruct Q5 as [(_ & _ & Q5)|(_ & Q5)]; [rewrite Q5; auto|auto].
Qed.

(** some training sample reaches the deepest leaf *)
Lemma deepest_ok nodes values id d imp s stop dp : ST nodes values id d imp s stop dp -> s <> [] ->
  exists i p j, In i s /\ d + length p = dp /\
    (forall fuel, length p < fuel -> path_row fuel nodes (X i) id = Ok (p ++ [j])).
Proof.
  induction 1 as [id d imp s nd H1 H2 H3 H4 H5 H6 H7 H8|id d imp s nd m stop dl dr H1 H2 H3 H4 H5 H6 H7 H8 H9 H10 H11 H12 H13 l r HL IHL HR IHR]; intros Hs.
  - destruct s as [|i s]; [congruence|]. exists i, [], id. split; [now left|]. split; [cbn; lia|].
    intros [|k] Hk; [lia|]. cbn [path_row]. now rewrite (nth_error_node _ _ H1), H2.
  - destruct H11 as (A1 & A2 & _).
    destruct (Nat.max_spec dl dr) as [[M E]|[M E]]; rewrite E.
    + destruct (IHR A2) as (i & p & j & Hi & Hd & Hp). apply in_right in Hi. exists i, (id :: p), j.
      split; [tauto|]. split; [cbn; lia|]. intros [|k] Hk; cbn [length] in Hk; [lia|].
      cbn [path_row]. rewrite (nth_error_node _ _ H1), H2, H3. destruct (Rle_dec _ _); [tauto|]. rewrite Hp by lia. reflexivity.
    + destruct (IHL A1) as (i & p & j & Hi & Hd & Hp). apply in_left in Hi. exists i, (id :: p), j.
      split; [tauto|]. split; [cbn; lia|]. intros [|k] Hk; cbn [length] in Hk; [lia|].
      cbn [path_row]. rewrite (nth_error_node _ _ H1), H2. destruct (Rle_dec _ _); [|tauto]. rewrite Hp by lia. reflexivity.
Qed.

(** the path of any row from a node stays inside its subtree *)
Lemma path_in nodes values id d imp s stop dp : ST nodes values id d imp s stop dp ->
  forall x, exists p, (forall fuel, stop - id <= fuel -> path_row fuel nodes x id = Ok (id :: p)) /\
    (forall k, In k p -> id < k < stop).
Proof.
  induction 1 as [id d imp s nd H1 H2 H3 H4 H5 H6 H7 H8|id d imp s nd m stop dl dr H1 H2 H3 H4 H5 H6 H7 H8 H9 H10 H11 H12 H13 l r HL IHL HR IHR]; intros x.
  - exists []. split; [|easy]. intros [|k] Hk; [lia|]. cbn [path_row]. now rewrite (nth_error_node _ _ H1), H2.
  - pose proof (st_lt HL) as B1. pose proof (st_lt HR) as B2.
    destruct (Rle_dec (x (nd_feature nd)) (nd_thr nd)) as [C|C].
    + destruct (IHL x) as (p & A1 & A2). exists (S id :: p). split.
      * intros [|k] Hk; [lia|]. cbn [path_row]. rewrite (nth_error_node _ _ H1), H2. destruct (Rle_dec _ _); [|contradiction].
        now rewrite A1 by lia.
      * intros k [<-|Hk]; [lia|]. apply A2 in Hk. lia.
    + destruct (IHR x) as (p & A1 & A2). exists (m :: p). split.
      * intros [|k] Hk; [lia|]. cbn [path_row]. rewrite (nth_error_node _ _ H1), H2, H3. destruct (Rle_dec _ _); [contradiction|].
        now rewrite A1 by lia.
      * intros k [<-|Hk]; [lia|]. apply A2 in Hk. lia.
Qed.

(** what holds of node [j] at depth [depth] that received the samples [s] *)
Definition node_facts (nodes : list node) (values : list V) (j depth : nat) (s : list nat) : Prop :=
  exists nd, nth_error nodes j = Some nd /\
    nd_n nd = length s /\ nd_w nd = cs_wn sp s /\ nth_error values j = Some (cs_value sp s) /\
    depth <= max_depth /\
    match nd_left nd with
    | Leaf => best -> leaf_reason sp X nf max_features msl mwl mss max_depth mid depth (nd_imp nd) s
    | _ => depth < max_depth /\ mss <= length s /\ nd_feature nd < nf /\
           allowed sp X msl mwl (nd_feature nd) (nd_thr nd) s /\
           (mid <= gain sp X (nd_imp nd) (nd_feature nd) (nd_thr nd) s + EPSILON)%R /\
           (exists ex, searched X nf max_features s ex /\ In (nd_feature nd) ex /\
              (best -> separated X (nd_feature nd) (nd_thr nd) s /\
                       optimal sp X msl mwl ex (nd_feature nd) (nd_thr nd) s))
    end.

Definition through (fuel : nat) (nodes : list node) (id j : nat) (x : nat -> R) : bool :=
  match path_row fuel nodes x id with Ok p => existsb (Nat.eqb j) p | Err _ => false end.

Lemma existsb_nat j p : existsb (Nat.eqb j) p = true <-> In j p.
Proof.
  rewrite existsb_exists. split; [intros (x & Hx & E); apply Nat.eqb_eq in E; now subst|]. intros H. exists j. split; [auto|apply Nat.eqb_refl].
Qed.

Lemma node_ok nodes values id d imp s stop dp : ST nodes values id d imp s stop dp -> s <> [] ->
  forall j, id <= j < stop ->
  exists depth, let sj := filter (fun i => through (length nodes) nodes id j (X i)) s in
    sj <> [] /\ node_facts nodes values j depth sj /\
    (forall x p, path_row (length nodes) nodes x id = Ok p -> In j p -> exists p1 p2, p = p1 ++ j :: p2 /\ d + length p1 = depth) /\
    ((forall l r, cs_children sp l r = (cs_node sp l, cs_node sp r)) -> imp = cs_node sp s ->
     nd_imp (nth j nodes node0) = cs_node sp sj).
Proof.
  intros H. pose proof (path_in H) as PI. revert PI.
  induction H as [id d imp s nd H1 H2 H3 H4 H5 H6 H7 H8|id d imp s nd m stop dl dr H1 H2 H3 H4 H5 H6 H7 H8 H9 H10 H11 H12 H13 l r HL IHL HR IHR]; intros PI Hs j Hj.
  - assert (j = id) as -> by lia.
    assert (Hid : id < length nodes) by (apply nth_error_Some; congruence).
    exists d. cbv zeta. rewrite filter_all.
    2:{ intros i _. unfold through. destruct (PI (X i)) as (p & A & _). rewrite A by lia. cbn [existsb]. now rewrite Nat.eqb_refl. }
    split; [auto|]. split.
    + exists nd. split; [auto|]. split; [auto|]. split; [auto|]. split; [auto|]. split; [auto|]. rewrite H2, H3. auto.
    + split.
      * intros x p Hp Hin. destruct (PI x) as (p' & A & B). rewrite A in Hp by lia. injection Hp as <-.
        exists [], p'. split; [reflexivity|cbn; lia].
      * intros _ ->. now rewrite (nth_error_node _ _ H1).
  - pose proof (st_lt HL) as B1. pose proof (st_lt HR) as B2.
    pose proof H11 as (A1 & A2 & _). fold l in A1. fold r in A2.
    destruct (length nodes) as [|ln] eqn:Eln; [lia|].
    pose proof (path_in HL) as PL. pose proof (path_in HR) as PR.
    assert (SL : forall y, (y (nd_feature nd) <= nd_thr nd)%R -> path_row (S ln) nodes y id = do p <- path_row ln nodes y (S id) ; Ok (id :: p)).
    { intros y Hy. cbn [path_row]. rewrite (nth_error_node _ _ H1), H2. destruct (Rle_dec _ _); [reflexivity|contradiction]. }
    assert (SR : forall y, ~ (y (nd_feature nd) <= nd_thr nd)%R -> path_row (S ln) nodes y id = do p <- path_row ln nodes y m ; Ok (id :: p)).
    { intros y Hy. cbn [path_row]. rewrite (nth_error_node _ _ H1), H2, H3. destruct (Rle_dec _ _); [contradiction|reflexivity]. }
    destruct (Nat.eq_dec j id) as [->|Nj]; [|destruct (Nat.lt_ge_cases j m) as [Lm|Gm]].
    + exists d. cbv zeta. rewrite filter_all.
      2:{ intros i _. unfold through. destruct (PI (X i)) as (p & A & _). rewrite A by lia. cbn [existsb]. now rewrite Nat.eqb_refl. }
      split; [auto|]. split.
      * exists nd. split; [auto|]. split; [auto|]. split; [auto|]. split; [auto|]. split; [lia|]. rewrite H2, H4. auto 10.
      * split.
        { intros x p Hp Hin. destruct (PI x) as (p' & A & B). rewrite A in Hp by lia. injection Hp as <-.
          exists [], p'. split; [reflexivity|cbn; lia]. }
        intros _ ->. now rewrite (nth_error_node _ _ H1).
    + destruct (IHL PL A1 j) as (dj & Q); [lia|]. exists dj. cbv zeta in *.
      assert (F : filter (fun i => through (S ln) nodes id j (X i)) s = filter (fun i => through (S ln) nodes (S id) j (X i)) l).
      { subst l. unfold left_of. clear - SL SR PL PR Nj Lm B1 B2 Eln. induction s as [|i s IHs]; [reflexivity|].
        cbn [filter]. destruct (Rle_dec (X i (nd_feature nd)) (nd_thr nd)) as [C|C].
        - assert (T : through (S ln) nodes id j (X i) = through (S ln) nodes (S id) j (X i)).
          { unfold through. rewrite (SL (X i) C). destruct (PL (X i)) as (p & E & _). rewrite !E by lia. cbn [bind existsb].
            destruct (Nat.eqb_spec j id); [contradiction|]. reflexivity. }
          cbn [filter]. rewrite T. destruct (through _ _ _ _ _); now rewrite IHs.
        - assert (T : through (S ln) nodes id j (X i) = false).
          { unfold through. rewrite (SR (X i) C). destruct (PR (X i)) as (p & E & R). rewrite !E by lia. cbn [bind].
            destruct (existsb (Nat.eqb j) (id :: m :: p)) eqn:Ee; [|auto]. exfalso. apply existsb_nat in Ee.
            destruct Ee as [Ee|[Ee|Ee]]; [lia|lia|]. apply R in Ee. lia. }
          rewrite T. exact IHs. }
      rewrite F. destruct Q as (Q1 & Q2 & Q3 & Q4). split; [auto|]. split; [auto|]. split.
      * intros x p Hp Hin. destruct (Rle_dec (x (nd_feature nd)) (nd_thr nd)) as [C|C].
        { rewrite (SL x C) in Hp. destruct (PL x) as (p' & A & B). rewrite A in Hp by lia. cbn [bind] in Hp. injection Hp as <-.
          destruct Hin as [Hin|Hin]; [congruence|].
          destruct (Q3 x _ (A (S ln) ltac:(lia)) Hin) as (p1 & p2 & E1 & E2). exists (id :: p1), p2. rewrite E1. split; [reflexivity|cbn [length]; lia]. }
        { exfalso. rewrite (SR x C) in Hp. destruct (PR x) as (p' & A & B). rewrite A in Hp by lia. cbn [bind] in Hp. injection Hp as <-.
          destruct Hin as [Hin|[Hin|Hin]]; [lia|lia|]. apply B in Hin. lia. }
      * intros Hc Hi. apply Q4; auto. rewrite Hc. reflexivity.
    + destruct (IHR PR A2 j) as (dj & Q); [lia|]. exists dj. cbv zeta in *.
      assert (F : filter (fun i => through (S ln) nodes id j (X i)) s = filter (fun i => through (S ln) nodes m j (X i)) r).
      { subst r. unfold right_of. clear - SL SR PL PR Nj Gm B1 B2 Eln. induction s as [|i s IHs]; [reflexivity|].
        cbn [filter]. destruct (Rle_dec (X i (nd_feature nd)) (nd_thr nd)) as [C|C].
        - assert (T : through (S ln) nodes id j (X i) = false).
          { unfold through. rewrite (SL (X i) C). destruct (PL (X i)) as (p & E & R). rewrite !E by lia. cbn [bind].
            destruct (existsb (Nat.eqb j) (id :: S id :: p)) eqn:Ee; [|auto]. exfalso. apply existsb_nat in Ee.
            destruct Ee as [Ee|[Ee|Ee]]; [lia|lia|]. apply R in Ee. lia. }
          rewrite T. exact IHs.
        - assert (T : through (S ln) nodes id j (X i) = through (S ln) nodes m j (X i)).
          { unfold through. rewrite (SR (X i) C). destruct (PR (X i)) as (p & E & _). rewrite !E by lia. cbn [bind existsb].
            destruct (Nat.eqb_spec j id); [contradiction|]. reflexivity. }
          cbn [filter]. rewrite T. destruct (through _ _ _ _ _); now rewrite IHs. }
      rewrite F. destruct Q as (Q1 & Q2 & Q3 & Q4). split; [auto|]. split; [auto|]. split.
      * intros x p Hp Hin. destruct (Rle_dec (x (nd_feature nd)) (nd_thr nd)) as [C|C].
        { exfalso. rewrite (SL x C) in Hp. destruct (PL x) as (p' & A & B). rewrite A in Hp by lia. cbn [bind] in Hp. injection Hp as <-.
          destruct Hin as [Hin|[Hin|Hin]]; [lia|lia|]. apply B in Hin. lia. }
        { rewrite (SR x C) in Hp. destruct (PR x) as (p' & A & B). rewrite A in Hp by lia. cbn [bind] in Hp. injection Hp as <-.
          destruct Hin as [Hin|Hin]; [congruence|].
          destruct (Q3 x _ (A (S ln) ltac:(lia)) Hin) as (p1 & p2 & E1 & E2). exists (id :: p1), p2. rewrite E1. split; [reflexivity|cbn [length]; lia]. }
      * intros Hc Hi. apply Q4; auto. rewrite Hc. reflexivity.
Qed.

(** leaves and internal nodes *)
Lemma slice_one {A} (l : list A) i x : nth_error l i = Some x -> slice l i (S i) = [x].
Proof.
  unfold slice. replace (S i - i) with 1 by lia. revert i. induction l as [|y l IH]; intros [|i] H; cbn in H; try discriminate.
  - injection H as <-. reflexivity.
  - cbn [skipn]. auto.
Qed.
Lemma leaves_ok nodes values id d imp s stop dp : ST nodes values id d imp s stop dp ->
  2 * n_leaves (slice nodes id stop) = length (slice nodes id stop) + 1.
Proof.
  induction 1 as [id d imp s nd H1 H2 H3 H4 H5 H6 H7 H8 H9|id d imp s nd m stop dl dr H1 H2 H3 H4 H5 H6 H7 H8 H9 H10 H11 H12 H13 l r HL IHL HR IHR].
  - rewrite (slice_one _ _ H1). unfold n_leaves. cbn [filter]. rewrite H2, H9. reflexivity.
  - pose proof (st_lt HL) as B1. pose proof (st_lt HR) as B2.
    rewrite (@slice_app _ nodes id (S id) stop) by lia. rewrite (@slice_app _ nodes (S id) m stop) by lia.
    rewrite (slice_one _ _ H1). unfold n_leaves in *. rewrite !filter_app, !app_length. cbn [filter]. rewrite H2.
    cbn [length]. lia.
Qed.

(** telescoping: the weighted impurity decreases of a subtree add up to its root minus its leaves *)
Definition wimp (n : node) : R := (nd_w n * nd_imp n)%R.
Lemma telescope nodes values id d imp s stop dp : ST nodes values id d imp s stop dp ->
  (Rsum (map (decrease nodes) (filter (fun n => negb (is_leafb n)) (slice nodes id stop))) =
   wimp (nth id nodes node0) - Rsum (map wimp (filter is_leafb (slice nodes id stop))))%R.
Proof.
  induction 1 as [id d imp s nd H1 H2 H3 H4 H5 H6 H7 H8|id d imp s nd m stop dl dr H1 H2 H3 H4 H5 H6 H7 H8 H9 H10 H11 H12 H13 l r HL IHL HR IHR].
  - assert (Hid : id < length nodes) by (apply nth_error_Some; congruence).
    assert (E : slice nodes id (S id) = [nd]).
    { unfold slice. replace (S id - id) with 1 by lia. rewrite <- (nth_error_node _ _ H1).
      clear - Hid. revert id Hid. induction nodes as [|n nodes IH]; intros id Hid; cbn in Hid; [lia|].
      destruct id as [|id]; [now destruct nodes|]. cbn [skipn nth]. apply IH. lia. }
    rewrite E. rewrite (nth_error_node _ _ H1). cbn [filter]. unfold is_leafb. rewrite H2. cbn [negb map]. rewrite Rsum_cons, !Rsum_nil. lra.
  - pose proof (st_lt HL) as B1. pose proof (st_lt HR) as B2.
    assert (Hid : id < length nodes) by lia.
    assert (E : slice nodes id (S id) = [nd]).
    { unfold slice. replace (S id - id) with 1 by lia. rewrite <- (nth_error_node _ _ H1).
      clear - Hid. revert id Hid. induction nodes as [|n nodes IH]; intros id Hid; cbn in Hid; [lia|].
      destruct id as [|id]; [now destruct nodes|]. cbn [skipn nth]. apply IH. lia. }
    rewrite (@slice_app _ nodes id (S id) stop) by lia. rewrite (@slice_app _ nodes (S id) m stop) by lia.
    rewrite E, !filter_app, !map_app, !Rsum_app. rewrite IHL, IHR. rewrite (nth_error_node _ _ H1). cbn [filter]. unfold is_leafb at 1 4. rewrite H2. cbn [negb map].
    rewrite Rsum_cons, !Rsum_nil. unfold decrease. rewrite H2, H3. cbn [link_id]. unfold wimp. lra.
Qed.

Lemma root_node nodes values id d imp s stop dp : ST nodes values id d imp s stop dp ->
  nd_imp (nth id nodes node0) = imp /\ nd_w (nth id nodes node0) = cs_wn sp s.
Proof. destruct 1; now rewrite (nth_error_node _ _ H). Qed.

(** no internal node has a negative weighted decrease, if no split does *)
Lemma decrease_ok (Q : nat -> Prop) nodes values id d imp s stop dp : ST nodes values id d imp s stop dp ->
  (forall l r, cs_children sp l r = (cs_node sp l, cs_node sp r)) ->
  (forall u f t, (forall i, In i u -> Q i) -> left_of X f t u <> [] -> right_of X f t u <> [] ->
     (cs_wn sp (left_of X f t u) * cs_node sp (left_of X f t u) + cs_wn sp (right_of X f t u) * cs_node sp (right_of X f t u)
      <= cs_wn sp u * cs_node sp u)%R) ->
  imp = cs_node sp s -> (forall i, In i s -> Q i) ->
  forall n, In n (slice nodes id stop) -> is_leafb n = false -> (0 <= decrease nodes n)%R /\ nd_feature n < nf.
Proof.
  intros H Hch Hd. induction H as [id d imp s nd H1 H2 H3 H4 H5 H6 H7 H8 H9|id d imp s nd m stop dl dr H1 H2 H3 H4 H5 H6 H7 H8 H9 H10 H11 H12 H13 l r HL IHL HR IHR]; intros Hi Hq n Hn Hl.
  - rewrite (slice_one _ _ H1) in Hn. destruct Hn as [<-|[]]. unfold is_leafb in Hl. rewrite H2 in Hl. discriminate.
  - pose proof (st_lt HL) as B1. pose proof (st_lt HR) as B2.
    rewrite (@slice_app _ nodes id (S id) stop) in Hn by lia. rewrite (@slice_app _ nodes (S id) m stop) in Hn by lia.
    rewrite (slice_one _ _ H1) in Hn. rewrite !in_app_iff in Hn. destruct Hn as [[<-|[]]|[Hn|Hn]].
    + split; [|auto]. unfold decrease. rewrite H2, H3. cbn [link_id].
      destruct (root_node HL) as [E1 E2]. destruct (root_node HR) as [E3 E4]. rewrite E1, E2, E3, E4, H4, H6, Hi, Hch. cbn [fst snd].
      destruct H11 as (A1 & A2 & _). specialize (Hd s (nd_feature nd) (nd_thr nd) Hq A1 A2). fold l r in Hd. lra.
    + apply IHL; auto. { now rewrite Hch. } intros i Hi'. apply in_left in Hi'. now apply Hq.
    + apply IHR; auto. { now rewrite Hch. } intros i Hi'. apply in_right in Hi'. now apply Hq.
Qed.
Lemma features_ok nodes values id d imp s stop dp : ST nodes values id d imp s stop dp ->
  forall n, In n (slice nodes id stop) -> is_leafb n = false -> nd_feature n < nf.
Proof.
  induction 1 as [id d imp s nd H1 H2 H3 H4 H5 H6 H7 H8 H9|id d imp s nd m stop dl dr H1 H2 H3 H4 H5 H6 H7 H8 H9 H10 H11 H12 H13 l r HL IHL HR IHR]; intros n Hn Hl.
  - rewrite (slice_one _ _ H1) in Hn. destruct Hn as [<-|[]]. unfold is_leafb in Hl. rewrite H2 in Hl. discriminate.
  - pose proof (st_lt HL) as B1. pose proof (st_lt HR) as B2.
    rewrite (@slice_app _ nodes id (S id) stop) in Hn by lia. rewrite (@slice_app _ nodes (S id) m stop) in Hn by lia.
    rewrite (slice_one _ _ H1) in Hn. rewrite !in_app_iff in Hn. destruct Hn as [[<-|[]]|[Hn|Hn]]; auto.
Qed.

(** an internal node and its two children *)
Lemma children_ok nodes values id d imp s stop dp : ST nodes values id d imp s stop dp ->
  forall n, In n (slice nodes id stop) -> is_leafb n = false ->
  exists u a c, let L := left_of X (nd_feature n) (nd_thr n) u in let R0 := right_of X (nd_feature n) (nd_thr n) u in
    nd_left n = To a /\ nd_right n = To c /\ incl u s /\ allowed sp X msl mwl (nd_feature n) (nd_thr n) u /\
    nd_w n = cs_wn sp u /\
    nd_w (nth a nodes node0) = cs_wn sp L /\ nd_w (nth c nodes node0) = cs_wn sp R0 /\
    nd_imp (nth a nodes node0) = fst (cs_children sp L R0) /\ nd_imp (nth c nodes node0) = snd (cs_children sp L R0) /\
    (mid <= gain sp X (nd_imp n) (nd_feature n) (nd_thr n) u + EPSILON)%R.
Proof.
  induction 1 as [id d imp s nd H1 H2 H3 H4 H5 H6 H7 H8 H9|id d imp s nd m stop dl dr H1 H2 H3 H4 H5 H6 H7 H8 H9 H10 H11 H12 H13 l r HL IHL HR IHR]; intros n Hn Hl.
  - rewrite (slice_one _ _ H1) in Hn. destruct Hn as [<-|[]]. unfold is_leafb in Hl. rewrite H2 in Hl. discriminate.
  - pose proof (st_lt HL) as B1. pose proof (st_lt HR) as B2.
    rewrite (@slice_app _ nodes id (S id) stop) in Hn by lia. rewrite (@slice_app _ nodes (S id) m stop) in Hn by lia.
    rewrite (slice_one _ _ H1) in Hn. rewrite !in_app_iff in Hn. destruct Hn as [[<-|[]]|[Hn|Hn]].
    + exists s, (S id), m. cbv zeta. destruct (root_node HL) as [E1 E2]. destruct (root_node HR) as [E3 E4].
      split; [auto|]. split; [auto|]. split; [apply incl_refl|]. split; [auto|]. split; [auto|]. split; [auto|]. split; [auto|].
      split; [auto|]. split; [auto|]. rewrite H4. auto.
    + destruct (IHL n Hn Hl) as (u & a & c & D1 & D2 & D3 & D4). exists u, a, c. cbv zeta in *. split; [auto|]. split; [auto|]. split; [|auto].
      intros i Hi. apply D3 in Hi. apply in_left in Hi. tauto.
    + destruct (IHR n Hn Hl) as (u & a & c & D1 & D2 & D3 & D4). exists u, a, c. cbv zeta in *. split; [auto|]. split; [auto|]. split; [|auto].
      intros i Hi. apply D3 in Hi. apply in_right in Hi. tauto.
Qed.

End Shape.
