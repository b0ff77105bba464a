From Verif Require Import Base NxModel NxSpec ReachProofs NxProofs DiscoveryModel.
Set Implicit Arguments.

(** ** Sorting *)
Section Sort.
  Context {A : Type} (le : A -> A -> bool).
  Lemma insert_by_perm x l : Permutation (x :: l) (insert_by le x l).
  Proof.
    induction l as [|y l IH]; cbn [insert_by]; auto. destruct (le x y); auto.
    rewrite perm_swap. now constructor.
  Qed.
  Lemma sort_by_perm l : Permutation l (sort_by le l).
  Proof.
    induction l as [|x l IH]; cbn [sort_by fold_right]; auto. rewrite <- insert_by_perm. now constructor.
  Qed.
  Hypothesis total : forall a b, le a b = true \/ le b a = true.
  Hypothesis trans : forall a b c, le a b = true -> le b c = true -> le a c = true.
  Fixpoint sorted (l : list A) : Prop :=
    match l with [] => True | x :: r => (forall y, In y r -> le x y = true) /\ sorted r end.
  Lemma insert_by_sorted x l : sorted l -> sorted (insert_by le x l).
  Proof.
    induction l as [|y l IH]; cbn [insert_by sorted]; intros H; [split; auto; intros y []|].
    destruct H as [H1 H2]. destruct (le x y) eqn:E; cbn [sorted].
    - split; [|split; auto]. intros z [<-|Hz]; auto. eapply trans; eauto.
    - split; [|auto]. intros z Hz. apply (Permutation_in _ (Permutation_sym (insert_by_perm x l))) in Hz.
      destruct Hz as [<-|Hz]; auto. destruct (total x y); congruence.
  Qed.
  Lemma sort_by_sorted l : sorted (sort_by le l).
  Proof. induction l as [|x l IH]; cbn [sort_by fold_right]; [exact I|]. now apply insert_by_sorted. Qed.
End Sort.

Lemma find_first {A} (le : A -> A -> bool) f l x : sorted le l -> find f l = Some x ->
  In x l /\ f x = true /\ forall y, In y l -> f y = true -> y = x \/ le x y = true.
Proof.
  induction l as [|z l IH]; cbn [find sorted]; [discriminate|]. intros [H1 H2]. destruct (f z) eqn:E.
  - intros [= ->]. split; [now left|]. split; auto. intros y [->|Hy]; auto.
  - intros Hf. destruct (IH H2 Hf) as (X1 & X2 & X3). split; [now right|]. split; auto.
    intros y [->|Hy] Hfy; [congruence|]. auto.
Qed.

(** a walk contains a simple path *)
Lemma reach_simple {A} {EA : EqDec A} (E : A -> A -> Prop) x y : reach E x y -> x <> y ->
  exists q, NoDup (x :: q ++ [y]) /\ dwalk E (x :: q ++ [y]).
Proof.
  assert (G : forall x y, reach E x y -> exists l, NoDup (x :: l) /\ dwalk E (x :: l) /\ last (x :: l) x = y).
  { clear x y. intros x y H. induction H as [x|x y z Hxy _ (l & ND & Hd & Hl)].
    - exists []. split; [repeat constructor; simpl; tauto|]. split; simpl; auto.
    - destruct (In_dec x (y :: l)) as [Hi|Hn].
      + apply in_split in Hi as (l1 & l2 & Heq). rewrite Heq in ND, Hd. exists l2. split; [|split].
        * apply NoDup_app_inv in ND. tauto.
        * apply dwalk_app_inv in Hd. tauto.
        * rewrite <- Hl, Heq. rewrite (@last_app _ l1 (x :: l2)) by discriminate. apply last_default. discriminate.
      + exists (y :: l). split; [now constructor|]. split; [split; auto|].
        rewrite last_cons_nonempty by discriminate. rewrite <- Hl. apply last_default. discriminate. }
  intros H N. destruct (G x y H) as (l & ND & Hd & Hl). destruct (@exists_last _ l) as (q & z & ->).
  { intros ->. simpl in Hl. congruence. }
  rewrite last_cons_nonempty, last_snoc in Hl by (destruct q; discriminate). subst z. eauto.
Qed.

Section Trim.
  Variable n : nat.
  Variable m : matrix.
  Variable ord : list (list nat) -> list (list nat).
  Hypothesis Hord : forall l, Permutation (ord l) l.

  Notation W := (weight m).
  Definition rel (es : list edge) (i j : nat) : Prop := In (i, j) es.
  Definition okes (es : list edge) : Prop := forall e, In e es -> fst e < n /\ snd e < n.
  Notation dg := (digraph n).

  Lemma dg_ed es i j : ed (dg es) i j <-> In (i, j) es.
  Proof.
    unfold ed, digraph. cbn [edges]. split.
    - intros (k & H). apply in_map_iff in H as (e & He & Hi). injection He as -> _. exact Hi.
    - intros H. exists (K 0). apply in_map_iff. exists (i, j). auto.
  Qed.
  Lemma dg_wf es : okes es -> wf (dg es).
  Proof.
    intros H. split; [apply seq_NoDup|]. intros u v Huv. apply dg_ed in Huv. apply H in Huv. cbn [fst snd] in Huv.
    cbn [digraph nodes]. rewrite !in_seq. lia.
  Qed.
  Lemma has_path_spec es s t : okes es -> s < n -> (has_path n es s t = true <-> reach (rel es) s t).
  Proof.
    intros H Hs. unfold has_path. rewrite mem_In, (closure_succ (dg_wf H)).
    - assert (X : forall u v, reach (ed (dg es)) u v <-> reach (rel es) u v) by (intros; apply reach_ext; intros; apply dg_ed).
      split.
      + intros (u & [<-|[]] & Hu). now apply X.
      + intros Hr. exists s. split; [now left|now apply X].
    - intros v [<-|[]]. cbn [digraph nodes]. apply in_seq. lia.
  Qed.
  (** the edges of the walk x :: q *)
  Lemma path_edges_In E x q e : dwalk E (x :: q) -> NoDup (x :: q) -> In e (path_edges (x :: q)) ->
    E (fst e) (snd e) /\ reach E x (fst e) /\ reach E (snd e) (last (x :: q) x) /\ snd e <> x.
  Proof.
    revert x. induction q as [|y q IH]; intros x Hd ND Hi; [destruct Hi|].
    destruct Hd as [Hxy Hd]. inversion ND as [|? ? Hn ND']; subst.
    assert (HL : last (x :: y :: q) x = last (y :: q) y) by (rewrite last_cons_nonempty by discriminate; apply last_default; discriminate).
    rewrite HL. destruct Hi as [<-|Hi].
    - cbn [fst snd]. split; auto. split; [constructor|]. split; [now apply dwalk_reach|]. intros ->. apply Hn. now left.
    - destruct (IH y Hd ND' Hi) as (H1 & H2 & H3 & H4). split; auto. split; [econstructor; eauto|]. split; auto.
      intros Heq. apply Hn. rewrite <- Heq. unfold path_edges in Hi. cbn [tl] in Hi. destruct e as [a b].
      apply in_combine_r in Hi. cbn [snd]. cbn [snd] in Heq. auto with datatypes.
  Qed.
  Lemma shortest_In es y x : okes es -> y < n -> x < n -> y <> x -> forall p, In p (shortest_paths n m es y x) ->
    exists q, p = y :: q ++ [x] /\ NoDup p /\ dwalk (rel es) p.
  Proof.
    intros Ho Hy Hx N p. unfold shortest_paths. destruct (Nat.eqb_spec y x) as [|_]; [congruence|].
    intros Hp. apply filter_In in Hp as [Hp _].
    apply simple_paths_spec in Hp; [|now left|auto|intros [->|[]]; congruence].
    destruct Hp as (q & -> & Hd & ND & Hq & _). exists q. split; auto. split.
    - constructor; auto. rewrite in_app_iff. intros [H|[->|[]]]; [|congruence]. apply (Hq y H). now left.
    - revert Hd. clear. generalize (q ++ [x]). intros l. revert y. induction l as [|z l IH]; intros y; [easy|].
      intros [H Hd]. split; [|auto]. apply successors_spec in H. now apply dg_ed.
  Qed.
  Lemma min_exists {A} (w : A -> Z) (l : list A) : l <> [] -> exists p, In p l /\ forallb (fun q => Z.leb (w p) (w q)) l = true.
  Proof.
    induction l as [|a l IH]; [easy|]. intros _. destruct l as [|b l].
    - exists a. split; [now left|]. cbn. now rewrite Z.leb_refl.
    - destruct IH as (p & Hp & Hm); [discriminate|]. rewrite forallb_forall in Hm.
      destruct (Z.leb (w a) (w p)) eqn:E.
      + exists a. split; [now left|]. apply forallb_forall. intros q [<-|Hq]; [apply Z.leb_refl|].
        apply Z.leb_le. apply Z.leb_le in E. specialize (Hm q Hq). apply Z.leb_le in Hm. lia.
      + exists p. split; [now right|]. apply forallb_forall. intros q [<-|Hq]; [|auto]. apply Z.leb_gt in E. apply Z.leb_le. lia.
  Qed.
  Lemma shortest_nonempty es y x : okes es -> y < n -> x < n -> y <> x -> reach (rel es) y x -> shortest_paths n m es y x <> [].
  Proof.
    intros Ho Hy Hx N Hr. unfold shortest_paths. destruct (Nat.eqb_spec y x) as [|_]; [congruence|].
    set (ps := simple_paths _ _ _ _ _).
    assert (Hne : exists p, In p ps).
    { destruct (reach_simple Hr N) as (q & ND & Hd).
      destruct (@all_simple_paths_spec _ _ (dg es) (successors (dg es)) y x) as (ps' & Hps & HS); auto.
      - cbn; apply in_seq; lia.
      - cbn; apply in_seq; lia.
      - intros a b _ Hb. apply successors_spec in Hb. now apply (wf_ends (dg_wf Ho)) in Hb.
      - unfold all_simple_paths in Hps. destruct (mem y _ && mem x _); [|discriminate]. destruct (eqb_spec y x) as [|_]; [congruence|].
        injection Hps as <-. exists (y :: q ++ [x]). cbn [digraph nodes] in HS. rewrite seq_length in HS. apply HS.
        split; auto. split; [|eauto]. revert Hd. clear. generalize (q ++ [x]). intros l. revert y.
        induction l as [|z l IH]; intros y; [easy|]. intros [H Hd]. split; [|auto]. apply successors_spec. now apply dg_ed. }
    destruct (@min_exists _ (path_weight m) ps) as (p & Hp & Hm); [destruct Hne as (p & Hp); intros Heq; rewrite Heq in Hp; destruct Hp|].
    intros Heq. assert (Hc : In p (filter (fun p => forallb (fun q => Z.leb (path_weight m p) (path_weight m q)) ps) ps)) by now apply filter_In.
    rewrite Heq in Hc. destruct Hc.
  Qed.

  Definition removed (es es' : list edge) (e : edge) : Prop := In e es /\ ~ In e es'.
  Definition lightest (e : edge) (l : list edge) : Prop := In e l /\ forall e', In e' l -> (W e <= W e')%Z.
  (** why an edge was dropped: it is a lightest edge of a cycle, and a different, at least as heavy edge lies on a common cycle *)
  Definition excused (es : list edge) (e : edge) : Prop :=
    exists x y, In (x, y) es /\ (x, y) <> e /\ (W e <= W (x, y))%Z /\ reach (rel es) y (fst e) /\ reach (rel es) (snd e) x /\
      exists q, NoDup (y :: q ++ [x]) /\ dwalk (rel es) (y :: q ++ [x]) /\ lightest e (path_edges (y :: q ++ [x])).

  Lemma trim_path_spec es p : path_edges p <> [] ->
    exists es' e, trim_path m es p = Ok es' /\ lightest e (path_edges p) /\ (forall x, In x es' <-> In x es /\ x <> e) /\
      (NoDup es -> NoDup es').
  Proof.
    intros H0. unfold trim_path. pose proof (sort_by_perm (fun a b => Z.leb (W a) (W b)) (path_edges p)) as HP.
    assert (HS : sorted (fun a b => Z.leb (W a) (W b)) (sort_by (fun a b => Z.leb (W a) (W b)) (path_edges p))).
    { apply sort_by_sorted; intros; rewrite ?Z.leb_le in *; lia. }
    destruct (sort_by _ (path_edges p)) as [|e l].
    - apply Permutation_sym, Permutation_nil in HP. congruence.
    - exists (if mem e es then filter (fun x => negb (eqb x e)) es else es), e. split; auto. split.
      + split; [apply (Permutation_in _ (Permutation_sym HP)); now left|]. intros e' He'. apply (Permutation_in _ HP) in He'.
        destruct He' as [<-|He']; [lia|]. apply Z.leb_le. now apply HS.
      + destruct (mem_spec e es) as [Hm|Hm]; (split; [|auto using NoDup_filter]); intros x.
        * rewrite filter_In, negb_true_iff, eqb_neq. tauto.
        * split; [|tauto]. intros Hx. split; auto. congruence.
  Qed.
  Lemma foldM_trim ps : forall es, NoDup es -> (forall p, In p ps -> path_edges p <> []) ->
    exists es', foldM (trim_path m) ps es = Ok es' /\ NoDup es' /\ incl es' es /\
      (forall e, removed es es' e -> exists p, In p ps /\ lightest e (path_edges p)) /\
      (forall p, hd_error ps = Some p -> exists e, lightest e (path_edges p) /\ ~ In e es').
  Proof.
    induction ps as [|p ps IH]; intros es ND Hp; cbn [foldM].
    - exists es. split; auto. split; auto. split; [apply incl_refl|]. split; [intros e [H1 H2]; tauto|]. intros p; discriminate.
    - destruct (@trim_path_spec es p) as (es1 & e & H1 & H2 & H3 & H4); [apply Hp; now left|]. rewrite H1. cbn [bind].
      destruct (IH es1) as (es' & F1 & F2 & F3 & F4 & _); [auto|intros q Hq; apply Hp; now right|].
      exists es'. split; auto. split; auto. assert (I1 : incl es1 es) by (intros x Hx; apply H3 in Hx; tauto).
      split; [intros x Hx; apply I1, F3, Hx|]. split.
      + intros x [X1 X2]. destruct (In_dec x es1) as [Hi|Hn].
        * destruct (F4 x) as (q & Hq & He); [split; auto|]. exists q. split; auto. now right.
        * exists p. split; [now left|]. assert (x = e); [|congruence]. destruct (eq_dec x e); auto. elim Hn. apply H3. auto.
      + intros q [= <-]. exists e. split; auto. intros Hc. apply F3, H3 in Hc. tauto.
  Qed.

  Lemma desc_total (a b : edge) : Z.leb (W b) (W a) = true \/ Z.leb (W a) (W b) = true.
  Proof. rewrite !Z.leb_le. lia. Qed.
  Lemma desc_trans (a b c : edge) : Z.leb (W b) (W a) = true -> Z.leb (W c) (W b) = true -> Z.leb (W c) (W a) = true.
  Proof. rewrite !Z.leb_le. lia. Qed.

  (** One round. *)
  Lemma trim_step es : okes es -> NoDup es ->
    (trim_with_weight n m ord es = Ok None /\ acyclic (rel es)) \/
    (trim_with_weight n m ord es = Err IndexError /\ exists i, In (i, i) es) \/
    exists es', trim_with_weight n m ord es = Ok (Some es') /\ NoDup es' /\ incl es' es /\
      List.length es' < List.length es /\ forall e, removed es es' e -> excused es e /\ fst e <> snd e.
  Proof.
    intros Ho ND. unfold trim_with_weight. set (le := fun a b : edge => Z.leb (W b) (W a)).
    pose proof (sort_by_perm le es) as HP. pose proof (sort_by_sorted le desc_total desc_trans es) as HS.
    change (fun a b => Z.leb (W b) (W a)) with le.
    set (fnd := find (fun e => has_path n es (snd e) (fst e)) (sort_by le es)) in *. destruct fnd as [[x y]|] eqn:Hf; unfold fnd in Hf.
    - right. destruct (Nat.eq_dec y x) as [->|Nxy].
      { left. destruct (find_first le _ _ HS Hf) as (Hi & _). apply (Permutation_in _ (Permutation_sym HP)) in Hi. split; [|eauto].
        unfold shortest_paths. rewrite Nat.eqb_refl. pose proof (Hord [[x]]) as HQ. apply Permutation_sym, Permutation_length_1_inv in HQ.
        rewrite HQ. reflexivity. }
      right. destruct (find_first le _ _ HS Hf) as (Hi & Hpath & Hmax).
      apply (Permutation_in _ (Permutation_sym HP)) in Hi. destruct (Ho _ Hi) as [Hx Hy]. cbn [fst snd] in *.
      apply has_path_spec in Hpath; auto. set (ps := shortest_paths n m es y x).
      assert (Hps : forall p, In p (ord ps) -> exists q, p = y :: q ++ [x] /\ NoDup p /\ dwalk (rel es) p).
      { intros p Hp. apply (Permutation_in _ (Hord ps)) in Hp. eapply shortest_In; eauto. }
      assert (Hne : ps <> []) by now apply shortest_nonempty.
      destruct (@foldM_trim (ord ps) es ND) as (es' & F1 & F2 & F3 & F4 & F5).
      { intros p Hp. destruct (Hps p Hp) as (q & -> & _). unfold path_edges. destruct q; discriminate. }
      rewrite F1. cbn [bind]. exists es'. split; auto. split; auto. split; auto.
      assert (HE : forall p e, In p (ord ps) -> lightest e (path_edges p) -> In e es /\ excused es e /\ fst e <> snd e).
      { intros p e Hp HL. pose proof (proj1 HL) as He. destruct (Hps p Hp) as (q & -> & NDp & Hd).
        destruct (@path_edges_In (rel es) y (q ++ [x]) e Hd NDp He) as (E1 & E2 & E3 & E4).
        rewrite last_cons_nonempty, last_snoc in E3 by (destruct q; discriminate).
        destruct e as [u v]. cbn [fst snd] in *. split; auto. split.
        2: { intros ->. clear - He NDp. revert He NDp. unfold path_edges. generalize (y :: q ++ [x]). intros l.
             induction l as [|a [|b l] IH]; [intros []|intros []|]. intros [[= -> ->]|H] ND; inversion ND; subst; [now apply H1; left|auto]. }
        exists x, y. split; auto. split; [congruence|]. split; [|split; [auto|split; [auto|exists q; auto]]].
        destruct (Hmax (u, v)) as [Heq|Hle].
        - apply (Permutation_in _ HP). exact E1.
        - cbn [fst snd]. apply has_path_spec; auto; [now apply (Ho (u, v) E1)|].
          eapply reach_trans; [exact E3|]. econstructor; [exact Hi|exact E2].
        - congruence.
        - now apply Z.leb_le. }
      split; [|intros e He; destruct (F4 e He) as (p & Hp & Hep); now apply (HE p e)].
      destruct (ord ps) as [|p l] eqn:Eo.
      { pose proof (Hord ps) as Hq. rewrite Eo in Hq. apply Permutation_nil in Hq. congruence. }
      destruct (F5 p eq_refl) as (e & He1 & He2). destruct (HE p e (or_introl eq_refl) He1) as [He3 _].
      assert (Hl : List.length (e :: es') <= List.length es); [|cbn in Hl; lia].
      apply NoDup_incl_length; [now constructor|]. intros z [<-|Hz]; auto.
    - left. split; auto. intros i (j & Hij & Hr).
      assert (Hi : In (i, j) (sort_by le es)) by (apply (Permutation_in _ HP); exact Hij).
      apply (find_none _ _ Hf) in Hi. cbn [fst snd] in Hi. destruct (Ho _ Hij) as [_ Hj]. cbn [snd] in Hj.
      assert (has_path n es j i = true) by now apply has_path_spec. congruence.
  Qed.
  Lemma excused_mono es es0 e : incl es es0 -> excused es e -> excused es0 e.
  Proof.
    intros Hi (x & y & H1 & H2 & H3 & H4 & H5 & q & H6 & H7 & H8). exists x, y. split; auto. split; auto. split; auto.
    split; [revert H4|split; [revert H5|]]; try (apply reach_mono; intros a b Hab; now apply Hi).
    exists q. split; auto. split; auto. revert H7. generalize (y :: q ++ [x]). intros l. clear - Hi.
    induction l as [|a [|b l] IH]; auto. intros [Hab Hd]. split; [now apply Hi|auto].
  Qed.
  Lemma trim_loop_spec fuel : forall es, okes es -> NoDup es -> (forall i, ~ In (i, i) es) -> List.length es < fuel ->
    exists es', trim_loop n m ord fuel es = Ok es' /\ incl es' es /\ acyclic (rel es') /\
      (acyclic (rel es) -> es' = es) /\ forall e, removed es es' e -> excused es e.
  Proof.
    induction fuel as [|f IH]; intros es Ho ND NL Hf; [lia|]. cbn [trim_loop].
    destruct (trim_step Ho ND) as [[-> AC]|[[_ (i & Hi)]|(es1 & -> & N1 & I1 & L1 & R1)]]; cbn [bind]; [|elim (NL i Hi)|].
    - exists es. split; auto. split; [apply incl_refl|]. split; auto. split; auto. intros e [H1 H2]. tauto.
    - destruct (IH es1) as (es' & E1 & E2 & E3 & E4 & E5); auto.
      + intros e He. apply Ho, I1, He.
      + intros i Hi. apply (NL i), I1, Hi.
      + lia.
      + exists es'. split; auto. split; [intros x Hx; apply I1, E2, Hx|]. split; auto. split.
        * intros AC. exfalso. assert (HR : exists e, removed es es1 e).
          { destruct (subset es es1) eqn:Hs.
            - apply subset_spec in Hs. apply NoDup_incl_length in Hs; auto. lia.
            - unfold subset in Hs. clear - Hs. induction es as [|e es IHe]; [discriminate|]. cbn [forallb] in Hs.
              destruct (mem_spec e es1) as [Hm|Hm].
              + destruct (IHe Hs) as (e' & H1 & H2). exists e'. split; auto. now right.
              + exists e. split; auto. now left. }
          destruct HR as (e & He). pose proof (proj1 He) as H0. apply R1 in He as ((x & y & H1 & _ & _ & H4 & H5 & _) & _).
          destruct e as [u v]. cbn [fst snd] in *.
          apply (AC x). exists y. split; auto. eapply reach_trans; [exact H4|]. econstructor; [exact H0|exact H5].
        * intros e [H1 H2]. destruct (In_dec e es1) as [Hi|Hn].
          -- apply (excused_mono I1). apply E5. split; auto.
          -- apply R1. split; auto.
  Qed.

  Lemma trim_loop_self fuel : forall es, okes es -> NoDup es -> (exists i, In (i, i) es) -> List.length es < fuel ->
    trim_loop n m ord fuel es = Err IndexError.
  Proof.
    induction fuel as [|f IH]; intros es Ho ND (i & Hi) Hf; [lia|]. cbn [trim_loop].
    destruct (trim_step Ho ND) as [[_ AC]|[[-> _]|(es1 & -> & N1 & I1 & L1 & R1)]]; cbn [bind]; auto.
    - exfalso. apply (AC i). exists i. split; [exact Hi|constructor].
    - apply IH; auto; [intros e He; apply Ho, I1, He| |lia]. exists i.
      destruct (In_dec (i, i) es1) as [|Hn]; auto. destruct (R1 (i, i)) as [_ HR]; [split; auto|]. cbn in HR. congruence.
  Qed.
End Trim.

(** ** The depth-limited search *)
Section Dfs.
  Variable next : nat -> list nat.
  Variable N : list nat.
  Hypothesis NDN : NoDup N.
  Hypothesis Hnext : forall v, incl (next v) N.
  Notation E := (fun a b => In b (next a)).

  (** [vis'] extends [vis] by nodes reachable from [v]; children of [v] and of new nodes are in [vis'] *)
  Definition grown (v : nat) (vis vis' : list nat) : Prop :=
    incl vis vis' /\ NoDup vis' /\ forall w, In w vis' -> In w vis \/ (reach1 E v w /\ In w N).
  Definition new_closed (vis vis' : list nat) : Prop :=
    forall w c, In w vis' -> ~ In w vis -> In c (next w) -> In c vis'.

  Lemma dfs_grown d : forall v vis, NoDup vis -> grown v vis (dfs next d v vis).
  Proof.
    induction d as [|d IH]; intros v vis ND; cbn [dfs].
    - assert (G : forall l vis0, incl l (next v) -> NoDup vis0 ->
        grown v vis0 (fold_left (fun vis c => if mem c vis then vis else vis ++ [c]) l vis0)).
      { induction l as [|c l IHl]; intros vis0 Hl N0; cbn [fold_left]; [split; [apply incl_refl|split; auto]|].
        assert (Hl' : incl l (next v)) by (intros x Hx; apply Hl; now right).
        destruct (mem_spec c vis0) as [Hm|Hm]; [auto|].
        destruct (IHl (vis0 ++ [c])) as (G1 & G2 & G3); auto.
        { apply NoDup_app_intro; auto; [repeat constructor; simpl; tauto|]. intros x Hx [<-|[]]. auto. }
        split; [intros x Hx; apply G1, in_app_iff; auto|]. split; auto. intros w Hw. destruct (G3 w Hw) as [H|H]; auto.
        apply in_app_iff in H as [H|[<-|[]]]; auto. right. assert (Hc : In c (next v)) by (apply Hl; now left).
        split; [exists c; split; [auto|constructor]|]. now apply (Hnext v). }
      apply G; auto. apply incl_refl.
    - assert (G : forall l vis0, incl l (next v) -> NoDup vis0 ->
        grown v vis0 (fold_left (fun vis c => if mem c vis then vis else dfs next d c (vis ++ [c])) l vis0)).
      { induction l as [|c l IHl]; intros vis0 Hl N0; cbn [fold_left]; [split; [apply incl_refl|split; auto]|].
        assert (Hl' : incl l (next v)) by (intros x Hx; apply Hl; now right).
        destruct (mem_spec c vis0) as [Hm|Hm]; [auto|].
        assert (N1 : NoDup (vis0 ++ [c])).
        { apply NoDup_app_intro; auto; [repeat constructor; simpl; tauto|]. intros x Hx [<-|[]]. auto. }
        destruct (IH c (vis0 ++ [c]) N1) as (D1 & D2 & D3).
        destruct (IHl (dfs next d c (vis0 ++ [c]))) as (G1 & G2 & G3); auto.
        assert (Hc : In c (next v)) by (apply Hl; now left).
        split; [intros x Hx; apply G1, D1, in_app_iff; auto|]. split; auto. intros w Hw. destruct (G3 w Hw) as [H|H]; auto.
        destruct (D3 w H) as [H'|[H' HN]].
        - apply in_app_iff in H' as [H'|[<-|[]]]; auto. right. split; [exists c; split; [auto|constructor]|]. now apply (Hnext v).
        - right. split; auto. destruct H' as (z & Hz & Hr). exists c. split; auto. econstructor; eauto. }
      apply G; auto. apply incl_refl.
  Qed.
  Definition free (vis : list nat) : nat := List.length (diff N vis).
  Lemma free_mono vis vis' : incl vis vis' -> free vis' <= free vis.
  Proof.
    intros H. unfold free. apply NoDup_incl_length; [now apply diff_NoDup|]. intros x Hx. apply diff_In in Hx as [H1 H2].
    apply diff_In. split; auto.
  Qed.
  Lemma free_add vis c : In c N -> ~ In c vis -> free (vis ++ [c]) < free vis.
  Proof.
    intros Hc Hn. unfold free. assert (L : List.length (c :: diff N (vis ++ [c])) <= List.length (diff N vis)); [|cbn in L; lia].
    apply NoDup_incl_length.
    - constructor; [|now apply diff_NoDup]. rewrite diff_In, in_app_iff. intros [_ H]. apply H. right. now left.
    - intros x [<-|Hx]; [now apply diff_In|]. apply diff_In in Hx as [H1 H2]. apply diff_In. split; auto. intros H. apply H2, in_app_iff. auto.
  Qed.
  (** deep enough: nothing is missed *)
  Lemma dfs_closed d : forall v vis, NoDup vis -> free vis <= S d ->
    incl (next v) (dfs next d v vis) /\ new_closed vis (dfs next d v vis).
  Proof.
    induction d as [|d IH]; intros v vis ND Hf; cbn [dfs].
    - (* at most one node is left *)
      set (step := fun vis c => if mem c vis then vis else vis ++ [c]).
      assert (G : forall l vis0, incl vis0 (fold_left step l vis0) /\ incl l (fold_left step l vis0)).
      { induction l as [|c l IHl]; intros vis0; cbn [fold_left]; [split; [apply incl_refl|intros x []]|].
        destruct (IHl (step vis0 c)) as [G1 G2].
        assert (H0 : incl vis0 (step vis0 c) /\ In c (step vis0 c)).
        { unfold step. destruct (mem_spec c vis0); split; auto using incl_refl; [apply incl_appl, incl_refl|apply in_app_iff; right; now left]. }
        split; [intros x Hx; apply G1, H0, Hx|]. intros x [<-|Hx]; [apply G1, H0|auto]. }
      destruct (G (next v) vis) as [G1 G2]. split; auto. intros w c Hw Hn Hc.
      pose proof (@dfs_grown 0 v vis ND) as (_ & _ & D3). cbn [dfs] in D3. fold step in D3.
      destruct (D3 w Hw) as [|[_ HwN]]; [tauto|].
      destruct (In_dec c (fold_left step (next v) vis)) as [|Hc']; auto. exfalso.
      assert (HcN : In c N) by now apply (Hnext w).
      assert (Hcv : ~ In c vis) by (intros H; apply Hc', G1, H).
      assert (L : List.length [w; c] <= List.length (diff N vis)).
      { apply NoDup_incl_length.
        - constructor; [intros [->|[]]; auto|]. repeat constructor; simpl; tauto.
        - intros x [<-|[<-|[]]]; now apply diff_In. }
      unfold free in Hf. cbn in L. lia.
    - set (step := fun vis c => if mem c vis then vis else dfs next d c (vis ++ [c])).
      assert (G : forall l vis0, incl l (next v) -> NoDup vis0 -> free vis0 <= S (S d) ->
        incl vis0 (fold_left step l vis0) /\ incl l (fold_left step l vis0) /\ new_closed vis0 (fold_left step l vis0)).
      { induction l as [|c l IHl]; intros vis0 Hl N0 F0; cbn [fold_left].
        - split; [apply incl_refl|]. split; [intros x []|]. intros w c H1 H2. tauto.
        - assert (Hl' : incl l (next v)) by (intros x Hx; apply Hl; now right).
          assert (H0 : incl vis0 (step vis0 c) /\ In c (step vis0 c) /\ NoDup (step vis0 c) /\ new_closed vis0 (step vis0 c)).
          { unfold step. destruct (mem_spec c vis0) as [Hm|Hm].
            - split; [apply incl_refl|]. split; auto. split; auto. intros w c' H1 H2. tauto.
            - assert (N1 : NoDup (vis0 ++ [c])).
              { apply NoDup_app_intro; auto; [repeat constructor; simpl; tauto|]. intros x Hx [<-|[]]. auto. }
              assert (HcN : In c N) by (apply (Hnext v), Hl; now left).
              pose proof (@free_add vis0 c HcN Hm) as HF.
              destruct (@dfs_grown d c (vis0 ++ [c]) N1) as (D1 & D2 & _).
              destruct (IH c (vis0 ++ [c]) N1) as [C1 C2]; [lia|].
              split; [intros x Hx; apply D1, in_app_iff; auto|]. split; [apply D1, in_app_iff; right; now left|]. split; auto.
              intros w c' H1 H2 H3. destruct (Nat.eq_dec w c) as [->|Nw]; [now apply C1|].
              apply (C2 w c'); auto. rewrite in_app_iff. intros [H|[H|[]]]; [auto|congruence]. }
          destruct H0 as (S1 & S2 & S3 & S4).
          destruct (IHl (step vis0 c) Hl' S3) as (G1 & G2 & G3); [pose proof (free_mono S1); lia|].
          split; [intros x Hx; apply G1, S1, Hx|]. split; [intros x [<-|Hx]; [apply G1, S2|auto]|].
          intros w c' H1 H2 H3. destruct (In_dec w (step vis0 c)) as [Hi|Hn]; [|eauto]. apply G1. apply (S4 w); auto. }
      destruct (G (next v) vis) as (G1 & G2 & G3); auto using incl_refl.
  Qed.
  (** all reachable nodes *)
  Lemma dfs_all d i : In i N -> List.length N <= S d -> forall w, In w (dfs next d i [i]) <-> reach E i w.
  Proof.
    intros Hi Hd. assert (N1 : NoDup [i]) by (repeat constructor; simpl; tauto).
    destruct (@dfs_grown d i [i] N1) as (D1 & D2 & D3).
    destruct (@dfs_closed d i [i] N1) as [C1 C2].
    { unfold free. assert (List.length (diff N [i]) <= List.length N) by apply filter_length_le. lia. }
    intros w. split.
    - intros Hw. destruct (D3 w Hw) as [[<-|[]]|[(z & Hz & Hr) _]]; [constructor|econstructor; eauto].
    - assert (G : forall u, reach E u w -> In u (dfs next d i [i]) -> In w (dfs next d i [i])).
      { induction 1 as [|u z w Huz _ IHr]; auto. intros Hu. apply IHr. destruct (Nat.eq_dec u i) as [->|Nu]; [now apply C1|].
        apply (C2 u z); auto. intros [->|[]]. auto. }
      intros Hr. apply (G i Hr). apply D1. now left.
  Qed.
  Lemma dfs_one i w : In w (dfs next 0 i [i]) <-> w = i \/ In w (next i).
  Proof.
    cbn [dfs]. set (step := fun vis c => if mem c vis then vis else vis ++ [c]).
    assert (G : forall l vis0 x, In x (fold_left step l vis0) <-> In x vis0 \/ In x l).
    { induction l as [|c l IHl]; intros vis0 x; cbn [fold_left]; [simpl; tauto|]. rewrite IHl. unfold step.
      destruct (mem_spec c vis0) as [Hm|Hm]; [|rewrite in_app_iff]; simpl; intuition (subst; auto). }
    rewrite G. simpl. intuition.
  Qed.
End Dfs.

Lemma dict_set_new {A B} {EA : EqDec A} (d : list (A * B)) k v : ~ In k (map fst d) -> dict_set d k v = d ++ [(k, v)].
Proof. intros H. unfold dict_set. destruct (mem_spec k (map fst d)); [tauto|auto]. Qed.
Lemma fold_dict_set {A B C} {EA : EqDec A} (f : C -> A) (g : C -> B) l : forall d, NoDup (map fst d ++ map f l) ->
  fold_left (fun d e => dict_set d (f e) (g e)) l d = d ++ map (fun e => (f e, g e)) l.
Proof.
  induction l as [|e l IH]; intros d ND; cbn [fold_left map]; [now rewrite app_nil_r|].
  rewrite dict_set_new.
  - rewrite IH; [now rewrite <- app_assoc|]. rewrite map_app. cbn [map fst]. rewrite <- app_assoc. exact ND.
  - apply NoDup_remove_2 in ND. rewrite in_app_iff in ND. tauto.
Qed.
