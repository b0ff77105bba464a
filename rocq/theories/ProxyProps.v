(** C256, C257: properties of the pgmpy and gCastle proxies (ylearn/causal_discovery/_proxy_pgm.py, _proxy_gcastle.py). *)
From Coq Require Import ZArith String List Bool Lia Permutation Sorted.
From Verif Require Import Base NxModel NxSpec ReachProofs DiscoveryModel DiscoveryProofs DiscoveryProps ApiModel ApiProps ProxyModel.
Unset Implicit Arguments.
Local Notation length := List.length.
Local Open Scope list_scope.
Local Open Scope nat_scope.

(** ** C256: the matrix *)
(** the arrows of the learned graph *)
Definition learned_edge {A} (g : graph A) (a b : A) : Prop := In a (gnodes g) /\ In b (gnodes g) /\ gedge g a b = true.
Section C256.
  Context {A : Type} {EA : EqDec A}.
  Variable join : list A -> list A -> list A.
  Hypothesis Hjoin : forall l m, NoDup l -> incl m l -> Permutation (join l m) l.
  Variables (columns : list A) (g : graph A).
  Hypothesis ND : NoDup columns.
  Hypothesis Hn : incl (gnodes g) columns.
  Lemma aligned_perm : Permutation (aligned join columns (gnodes g)) columns.
  Proof. unfold aligned. destruct (list_eqb columns (gnodes g)); [reflexivity|]. apply Hjoin; assumption. Qed.
  Lemma pgm_ok : exists f, pgm_matrix join columns g = Ok f /\ labels f = aligned join columns (gnodes g) /\
    forall a b, (at_label f a b = 1%Z /\ learned_edge g a b) \/ (at_label f a b = 0%Z /\ ~ learned_edge g a b).
  Proof.
    unfold pgm_matrix. replace (forallb (fun x => mem x columns) (gnodes g)) with true.
    2: { symmetry. apply forallb_forall. intros x Hx. apply mem_In, Hn, Hx. }
    eexists. split; [reflexivity|]. split; [reflexivity|]. intros a b. cbn. unfold learned_edge.
    destruct (mem_spec a (gnodes g)) as [Ha|Ha]; [|right; split; [reflexivity|tauto]]. destruct (mem_spec b (gnodes g)) as [Hb|Hb]; [|right; split; [reflexivity|tauto]].
    rewrite (proj2 (mem_In a columns) (Hn _ Ha)), (proj2 (mem_In b columns) (Hn _ Hb)). cbn. destruct (gedge g a b); [left|right]; split; auto; intros (_ & _ & C); discriminate.
  Qed.
  (** every column of the data is a label once; the entry of a pair of labels is 1 for an arrow and 0 otherwise, also for columns that are no nodes *)
  Theorem C256_matrix : exists f, pgm_matrix join columns g = Ok f /\ Permutation (labels f) columns /\
    forall a b, (at_label f a b = 1%Z /\ learned_edge g a b) \/ (at_label f a b = 0%Z /\ ~ learned_edge g a b).
  Proof. destruct pgm_ok as (f & E & L & H). exists f. split; [exact E|]. split; [rewrite L; apply aligned_perm|exact H]. Qed.
  Lemma values_arrow : forall f, pgm_matrix join columns g = Ok f -> forall a b,
    learned_edge g a b <-> exists i j, nth_error (labels f) i = Some a /\ nth_error (labels f) j = Some b /\ arrow (length (labels f)) (values f) i j.
  Proof.
    intros f E a b. destruct C256_matrix as (f' & E' & P & H). rewrite E in E'. injection E' as <-. unfold arrow, values. split.
    - intros L. assert (Ia : In a (labels f)) by (apply (Permutation_in _ (Permutation_sym P)), Hn, L).
      assert (Ib : In b (labels f)) by (apply (Permutation_in _ (Permutation_sym P)), Hn, L).
      apply In_nth_error in Ia as (i & Hi). apply In_nth_error in Ib as (j & Hj). exists i, j. split; [exact Hi|]. split; [exact Hj|].
      rewrite Hi, Hj. split; [apply nth_error_Some; congruence|]. split; [apply nth_error_Some; congruence|]. destruct (H a b) as [[-> _]|[_ C]]; [discriminate|contradiction].
    - intros (i & j & Hi & Hj & _ & _ & V). rewrite Hi, Hj in V. destruct (H a b) as [[_ L]|[C _]]; [exact L|contradiction].
  Qed.
  Lemma labels_nodup : forall f, pgm_matrix join columns g = Ok f -> NoDup (labels f).
  Proof. intros f E. destruct C256_matrix as (f' & E' & P & _). rewrite E in E'. injection E' as <-. apply (Permutation_NoDup (Permutation_sym P) ND). Qed.
  Lemma values_reach : forall f, pgm_matrix join columns g = Ok f -> forall i j a b, nth_error (labels f) i = Some a -> nth_error (labels f) j = Some b ->
    (reach (arrow (length (labels f)) (values f)) i j <-> reach (learned_edge g) a b).
  Proof.
    intros f E. apply (@reach_names A (labels f)); [now apply labels_nodup| |now apply values_arrow]. intros i j H. unfold arrow in H. tauto.
  Qed.
  (** an acyclic graph gives an acyclic matrix *)
  Theorem C256_dag : acyclic (learned_edge g) -> exists f, pgm_matrix join columns g = Ok f /\ acyclic (arrow (length (labels f)) (values f)).
  Proof.
    intros AC. destruct C256_matrix as (f & E & P & H). exists f. split; [exact E|]. intros i (j & Hij & Hji).
    assert (Hi : i < length (labels f)) by apply Hij. assert (Hj : j < length (labels f)) by apply Hij.
    destruct (nth_error (labels f) i) as [a|] eqn:Ei; [|apply nth_error_None in Ei; lia]. destruct (nth_error (labels f) j) as [b|] eqn:Ej; [|apply nth_error_None in Ej; lia].
    apply (AC a). exists b. split; [apply (values_arrow f E); exists i, j; auto|]. apply (values_reach f E j i b a); assumption.
  Qed.
  (** return_dict: for every column the columns with a directed path to it *)
  Theorem C256_dict : exists d, pgm_dict join columns g = Ok d /\ Permutation (map fst d) columns /\
    forall b l, In (b, l) d -> forall a, In a l <-> a <> b /\ reach (learned_edge g) a b.
  Proof.
    destruct C256_matrix as (f & E & P & H). assert (NL := labels_nodup f E). unfold pgm_dict. rewrite E. cbn [bind].
    destruct (@C36_all_causes A EA (length (labels f)) (values f) (labels f) eq_refl NL) as (d & Ed & F & G). exists d. split; [exact Ed|]. split; [rewrite F; exact P|].
    intros b l Hd a. apply In_nth_error in Hd as (j & Hj). assert (Nj : nth_error (labels f) j = Some b) by (rewrite <- F, nth_error_map, Hj; reflexivity).
    destruct (G b j b l Hj) as (idx & _ & HI & ->). rewrite in_map_iff. split.
    - intros (i & <- & Hi). apply HI in Hi as (H1 & H2 & H3). assert (Ni : nth_error (labels f) i = Some (nth i (labels f) b)) by (apply nth_error_nth'; exact H1).
      split; [|apply (values_reach f E i j); assumption]. intros C. apply H2. apply (proj1 (NoDup_nth_error (labels f)) NL); [exact H1|]. rewrite Ni, C, Nj. reflexivity.
    - intros [H1 H2]. assert (Ia : In a (labels f)).
      { inversion H2; subst; [contradiction|]. apply (Permutation_in _ (Permutation_sym P)), Hn. match goal with X : learned_edge g a _ |- _ => apply X end. }
      apply In_nth_error in Ia as (i & Hi). exists i. split; [apply nth_error_nth; exact Hi|]. apply HI. split; [apply nth_error_Some; congruence|].
      split; [intros ->; congruence|]. apply (values_reach f E i j a b Hi Nj). exact H2.
  Qed.
End C256.
(** a node that is no column is an error *)
Theorem C256_foreign : forall {A} {EA : EqDec A} join (columns : list A) g, ~ incl (gnodes g) columns -> pgm_matrix join columns g = Err AssertionError.
Proof.
  intros A EA join columns g H. unfold pgm_matrix. destruct (forallb (fun x => mem x columns) (gnodes g)) eqn:E; [|reflexivity]. elim H.
  intros x Hx. rewrite forallb_forall in E. apply mem_In, E, Hx.
Qed.
(** an array: pandas joins integer labels in ascending order, so the rows and columns are those of the data *)
Lemma sorted_perm_seq : forall n l, StronglySorted lt l -> Permutation l (seq 0 n) -> l = seq 0 n.
Proof.
  intros n l S P. assert (G : forall (l m : list nat), StronglySorted lt l -> StronglySorted lt m -> Permutation l m -> l = m).
  { clear. induction l as [|a l IH]; intros [|b m] S1 S2 P; [reflexivity|apply Permutation_nil in P; discriminate|symmetry in P; apply Permutation_nil in P; discriminate|].
    inversion S1 as [|? ? A1 A2]; subst. inversion S2 as [|? ? B1 B2]; subst. rewrite Forall_forall in A2, B2.
    assert (a = b).
    { assert (Ha : In a (b :: m)) by (apply (Permutation_in _ P); now left). assert (Hb : In b (a :: l)) by (apply (Permutation_in _ (Permutation_sym P)); now left).
      destruct Ha as [->|Ha]; [reflexivity|]. destruct Hb as [->|Hb]; [reflexivity|]. specialize (A2 _ Hb). specialize (B2 _ Ha). lia. }
    subst b. f_equal. apply IH; auto. eapply Permutation_cons_inv; exact P. }
  apply G; [exact S| |exact P]. generalize 0. clear. induction n as [|n IH]; intros k; cbn; constructor; [apply IH|].
  rewrite Forall_forall. intros x Hx. apply in_seq in Hx. lia.
Qed.
Theorem C256_array : forall join n g, (forall l m, NoDup l -> incl m l -> Permutation (join l m) l /\ StronglySorted lt (join l m)) -> incl (gnodes g) (seq 0 n) ->
  exists m, pgm_array join n g = Ok m /\ forall i j, (m i j = 1%Z /\ learned_edge g i j) \/ (m i j = 0%Z /\ ~ learned_edge g i j).
Proof.
  intros join n g Hj Hn. destruct (pgm_ok join (seq 0 n) g Hn) as (f & E & L & H). unfold pgm_array. rewrite E. cbn [bind]. exists (values f). split; [reflexivity|].
  assert (EL : labels f = seq 0 n).
  { rewrite L. unfold aligned. destruct (list_eqb (seq 0 n) (gnodes g)); [reflexivity|]. destruct (Hj (seq 0 n) (gnodes g) (seq_NoDup n 0) Hn) as [P S]. now apply sorted_perm_seq. }
  assert (In1 : forall i, In i (gnodes g) -> nth_error (labels f) i = Some i).
  { intros i Hi. apply Hn, in_seq in Hi. rewrite EL. rewrite (nth_error_nth' _ 0) by (rewrite seq_length; lia). now rewrite seq_nth by lia. }
  assert (In2 : forall i k, nth_error (labels f) i = Some k -> k = i).
  { intros i k Hk. rewrite EL in Hk. assert (i < n) by (rewrite <- (seq_length n 0); apply nth_error_Some; congruence).
    rewrite (nth_error_nth' _ 0) in Hk by (rewrite seq_length; lia). rewrite seq_nth in Hk by lia. injection Hk as <-. reflexivity. }
  intros i j. unfold values. destruct (nth_error (labels f) i) as [a|] eqn:Ei.
  - destruct (nth_error (labels f) j) as [b|] eqn:Ej.
    + rewrite (In2 _ _ Ei), (In2 _ _ Ej). apply H.
    + right. split; [reflexivity|]. intros (_ & Hb & _). apply In1 in Hb. congruence.
  - right. split; [reflexivity|]. intros (Ha & _). apply In1 in Ha. congruence.
Qed.
(** gCastle: a threshold together with return_dict is an error, for every matrix *)
Theorem C256_castle_refuted : forall {A} {EA : EqDec A} n m (names : list A) t, castle_dict n m names (Some t) = Err TypeError.
Proof. reflexivity. Qed.
Theorem C256_castle : forall {A} {EA : EqDec A} n m (names : list A), length names = n -> NoDup names ->
  exists d, castle_dict n m names None = Ok d /\ lists_causes n names (reach (arrow n m)) d.
Proof. intros A EA n m names H N. exact (@C36_all_causes A EA n m names H N). Qed.

(** ** C257: the options *)
Section C257.
  Context {V : Type}.
  Variables (stable pearsonr false_ dag : V).
  Notation opts := (@opts V).
  Lemma lookup_set : forall (d : opts) k v k', lookup (dict_set d k v) k' = if eqb k k' then Some v else lookup d k'.
  Proof.
    intros d k v k'. unfold dict_set. destruct (mem_spec k (map fst d)) as [H|H].
    - induction d as [|[a w] d IH]; [destruct H|]. unfold lookup in *. cbn [map find fst]. destruct (eqb a k) eqn:E; cbn [fst].
      + apply eqb_eq in E. subst a. destruct (eqb k k') eqn:E'; [reflexivity|]. destruct (mem_spec k (map fst d)) as [H'|H']; [now apply IH|].
        clear IH H. assert (G : map (fun e : string * V => if eqb (fst e) k then (k, v) else e) d = d); [|now rewrite G].
        induction d as [|[b x] d IH]; [reflexivity|]. cbn [map fst]. destruct (eqb b k) eqn:Eb.
        * apply eqb_eq in Eb. subst b. elim H'. now left.
        * f_equal. apply IH. intros C. apply H'. now right.
      + destruct (eqb a k') eqn:E'.
        * apply eqb_eq in E'. subst a. destruct (eqb k k') eqn:E2; [|reflexivity]. apply eqb_eq in E2. subst k'. rewrite (proj2 (eqb_eq k k) eq_refl) in E. discriminate.
        * apply IH. destruct H as [H|H]; [|exact H]. cbn in H. subst a. rewrite (proj2 (eqb_eq k k) eq_refl) in E. discriminate.
    - induction d as [|[a w] d IH]; unfold lookup in *; cbn [app find fst snd]; [destruct (eqb k k'); reflexivity|].
      destruct (eqb a k') eqn:E.
      + apply eqb_eq in E. subst a. destruct (eqb k k') eqn:E2; [|reflexivity]. apply eqb_eq in E2. subst k'. elim H. now left.
      + apply IH. intros C. apply H. now right.
  Qed.
  Lemma lookup_remove : forall (d : opts) k k', lookup (remove d k) k' = if eqb k k' then None else lookup d k'.
  Proof.
    intros d k k'. unfold lookup, remove. induction d as [|[a w] d IH]; cbn [filter find fst]; [destruct (eqb k k'); reflexivity|].
    destruct (eqb a k) eqn:E; cbn [negb].
    - rewrite IH. apply eqb_eq in E. subst a. destruct (eqb k k'); reflexivity.
    - cbn [find fst]. destruct (eqb a k') eqn:E'; [|exact IH]. apply eqb_eq in E'. subst a. destruct (eqb k k') eqn:E2; [|reflexivity].
      apply eqb_eq in E2. subst k'. rewrite (proj2 (eqb_eq k k) eq_refl) in E. discriminate.
  Qed.
  Lemma split_spec : forall params (o kw : opts) k,
    lookup (fst (split_options params o kw)) k = (if mem k params then match lookup o k with Some v => Some v | None => lookup kw k end else lookup kw k) /\
    lookup (snd (split_options params o kw)) k = if mem k params then None else lookup o k.
  Proof.
    induction params as [|p params IH]; intros o kw k; [split; reflexivity|]. cbn [split_options mem existsb]. change (existsb (eqb k) params) with (mem k params).
    destruct (lookup o p) as [v|] eqn:Ep.
    - destruct (IH (remove o p) (dict_set kw p v) k) as [-> ->]. rewrite !lookup_remove, !lookup_set. destruct (eqb k p) eqn:E.
      + apply eqb_eq in E. subst p. rewrite (proj2 (eqb_eq k k) eq_refl), Ep. cbn [orb]. destruct (mem k params); auto.
      + assert (E' : eqb p k = false) by (destruct (eqb p k) eqn:E2; [apply eqb_eq in E2; subst p; rewrite (proj2 (eqb_eq k k) eq_refl) in E; discriminate|reflexivity]).
        rewrite E'. cbn [orb]. auto.
    - destruct (IH o kw k) as [-> ->]. destruct (eqb k p) eqn:E; [|auto]. apply eqb_eq in E. subst p. rewrite Ep. cbn [orb]. destruct (mem k params); auto.
  Qed.
  (** the value of an option: the user's, otherwise the proxy's own default for the learner PC *)
  Definition chosen (learner : string) (user : opts) (k : string) : option V :=
    match lookup user k with
    | Some v => Some v
    | None => if eqb learner "PC"%string then
                if eqb k "variant"%string then Some stable else if eqb k "ci_test"%string then Some pearsonr else if eqb k "show_progress"%string then Some false_ else None
              else None
    end.
  Lemma merged : forall learner (user : opts) k, NoDup (map fst user) ->
    lookup (fold_left (fun d e => dict_set d (fst e) (snd e)) user (defaults stable pearsonr false_ learner)) k = chosen learner user k.
  Proof.
    intros learner user k N. unfold chosen.
    assert (D : (if eqb learner "PC"%string then if eqb k "variant"%string then Some stable else if eqb k "ci_test"%string then Some pearsonr else if eqb k "show_progress"%string then Some false_ else None else None)
                = lookup (defaults stable pearsonr false_ learner) k).
    { unfold defaults, lookup. destruct (eqb learner "PC"%string); [|reflexivity]. cbn [find fst snd].
      assert (Y : forall a b : string, eqb a b = eqb b a) by (intros a b; apply String.eqb_sym). rewrite (Y "variant"%string k), (Y "ci_test"%string k), (Y "show_progress"%string k).
      destruct (eqb k "variant"%string); [reflexivity|]. destruct (eqb k "ci_test"%string); [reflexivity|]. destruct (eqb k "show_progress"%string); reflexivity. }
    rewrite D. clear D. revert N. generalize (defaults stable pearsonr false_ learner). induction user as [|[a w] user IH]; intros d N; [reflexivity|].
    cbn [map fst] in N. inversion N as [|? ? N1 N2]; subst. cbn [fold_left fst snd]. rewrite IH by exact N2. rewrite lookup_set.
    assert (LC : lookup ((a, w) :: user) k = if eqb a k then Some w else lookup user k) by (unfold lookup; cbn [find fst snd]; destruct (eqb a k); reflexivity). rewrite LC.
    destruct (eqb a k) eqn:E; [|reflexivity]. apply eqb_eq in E. subst a.
    unfold lookup. destruct (find (fun e => eqb (fst e) k) user) as [[b x]|] eqn:F; [|reflexivity]. apply find_some in F as [F1 F2]. apply eqb_eq in F2. cbn in F2. subst b.
    elim N1. apply in_map_iff. now exists (k, x).
  Qed.
  (** every option reaches the constructor if it is one of its parameters and estimate otherwise, with the user's value before the default;
      a PC learner always returns a DAG *)
  Theorem C257_options : forall learner pc params (user : opts) kwargs rest, NoDup (map fst user) ->
    pgm_options stable pearsonr false_ dag learner pc params user = Ok (kwargs, rest) ->
    (forall k, In k params -> lookup kwargs k = chosen learner user k /\ (pc = false \/ k <> "return_type"%string -> lookup rest k = None)) /\
    (forall k, ~ In k params -> lookup kwargs k = None /\ (pc = false \/ k <> "return_type"%string -> lookup rest k = chosen learner user k)) /\
    (pc = true -> lookup rest "return_type"%string = Some dag).
  Proof.
    intros learner pc params user kwargs rest N H. unfold pgm_options in H.
    set (o := fold_left (fun d e => dict_set d (fst e) (snd e)) user (defaults stable pearsonr false_ learner)) in *.
    assert (M : forall k, lookup o k = chosen learner user k) by (intros k; apply merged; exact N).
    destruct (split_options params o []) as [kw r] eqn:E. destruct (existsb _ (firstn 2 params)); [discriminate|]. injection H as <- <-.
    assert (S : forall k, lookup kw k = (if mem k params then lookup o k else None) /\ lookup r k = if mem k params then None else lookup o k).
    { intros k. destruct (split_spec params o [] k) as [S1 S2]. rewrite E in S1, S2. cbn [fst snd] in S1, S2. rewrite S1, S2.
      split; [|reflexivity]. destruct (mem k params); [|reflexivity]. destruct (lookup o k); reflexivity. }
    assert (R : forall k, pc = false \/ k <> "return_type"%string -> lookup (if pc then dict_set r "return_type"%string dag else r) k = lookup r k).
    { intros k Hk. destruct pc; [|reflexivity]. rewrite lookup_set. destruct (eqb "return_type"%string k) eqn:Ek; [|reflexivity]. apply eqb_eq in Ek. destruct Hk; [discriminate|congruence]. }
    split; [|split].
    - intros k Hk. destruct (S k) as [-> S2]. rewrite (proj2 (mem_In k params) Hk) in *. split; [apply M|]. intros Hr. rewrite R by exact Hr. exact S2.
    - intros k Hk. destruct (S k) as [-> S2]. destruct (mem_spec k params) as [C|_]; [contradiction|]. split; [reflexivity|]. intros Hr. rewrite R by exact Hr. rewrite S2. apply M.
    - intros ->. rewrite lookup_set. reflexivity.
  Qed.
  (** the call is an error exactly if an option has the name of one of the first two parameters, self and data *)
  Theorem C257_reserved : forall learner pc params (user : opts), NoDup (map fst user) ->
    ((exists k v, In k (firstn 2 params) /\ chosen learner user k = Some v) <-> pgm_options stable pearsonr false_ dag learner pc params user = Err TypeError) /\
    ((forall k, In k (firstn 2 params) -> chosen learner user k = None) <-> exists r, pgm_options stable pearsonr false_ dag learner pc params user = Ok r).
  Proof.
    intros learner pc params user N. unfold pgm_options. set (o := fold_left (fun d e => dict_set d (fst e) (snd e)) user (defaults stable pearsonr false_ learner)) in *.
    assert (M : forall k, lookup o k = chosen learner user k) by (intros k; apply merged; exact N).
    destruct (split_options params o []) as [kw r] eqn:E.
    assert (S : forall k, In k (firstn 2 params) -> lookup kw k = chosen learner user k).
    { intros k Hk. destruct (split_spec params o [] k) as [S1 _]. rewrite E in S1. cbn [fst] in S1. rewrite S1.
      rewrite (proj2 (mem_In k params)) by (rewrite <- (firstn_skipn 2 params); apply in_or_app; now left). rewrite M. destruct (chosen learner user k); reflexivity. }
    match goal with |- context [existsb ?f (firstn 2 params)] => destruct (existsb f (firstn 2 params)) eqn:X end.
    - apply existsb_exists in X as (k & Hk & Hv). rewrite (S k Hk) in Hv. destruct (chosen learner user k) as [v|] eqn:Ev; [|discriminate]. split; split.
      + reflexivity.
      + intros _. exists k, v. auto.
      + intros H. rewrite (H k Hk) in Ev. discriminate.
      + intros (x & C). discriminate.
    - assert (F : forall k, In k (firstn 2 params) -> chosen learner user k = None).
      { intros k Hk. destruct (chosen learner user k) as [v|] eqn:Ev; [|reflexivity]. rewrite <- (S k Hk) in Ev. exfalso.
        assert (T : existsb (fun k => match lookup kw k with Some _ => true | None => false end) (firstn 2 params) = true) by (apply existsb_exists; exists k; rewrite Ev; auto).
        congruence. }
      split; split.
      + intros (k & v & Hk & Ev). rewrite (F k Hk) in Ev. discriminate.
      + discriminate.
      + intros _. eexists. reflexivity.
      + intros _. exact F.
  Qed.
End C257.

(** ** Concrete cases *)
Local Open Scope string_scope.
(** columns b, a, c; nodes c, a with c -> a *)
Definition g0 : graph string := mkG ["c"; "a"] (fun a b => String.eqb a "c" && String.eqb b "a").
Definition sort3 (l m : list string) : list string := ["a"; "b"; "c"].
(** pandas sorts the labels, so the columns of the result are in another order than those of the data *)
Theorem C256_order_refuted : exists f, pgm_matrix sort3 ["b"; "a"; "c"] g0 = Ok f /\ labels f = ["a"; "b"; "c"] /\ at_label f "c" "a" = 1%Z /\
  pgm_dict sort3 ["b"; "a"; "c"] g0 = Ok [("a", ["c"]); ("b", []); ("c", [])].
Proof. eexists. split; [reflexivity|]. repeat split; reflexivity. Qed.
Example C256_case : exists f, pgm_matrix (fun l _ => rev l) ["b"; "a"; "c"] g0 = Ok f /\ Permutation (labels f) ["b"; "a"; "c"].
Proof.
  destruct (@C256_matrix string EqDec_string (fun l _ => rev l) ) with (columns := ["b"; "a"; "c"]) (g := g0) as (f & E & P & _); [intros; symmetry; apply Permutation_rev| | |exists f; auto].
  - repeat constructor; cbn; intuition discriminate.
  - intros x [<-|[<-|[]]]; cbn; auto.
Qed.
Example C257_case : pgm_options "stable" "pearsonr" "False" "dag" "PC" true ["self"; "data"; "independencies"] [("variant", "orig"); ("independencies", "i"); ("return_type", "pdag")] =
  Ok ([("independencies", "i")], [("variant", "orig"); ("ci_test", "pearsonr"); ("show_progress", "False"); ("return_type", "dag")]).
Proof. reflexivity. Qed.
Print Assumptions C256_matrix.
Print Assumptions C256_dict.
Print Assumptions C256_array.
Print Assumptions C257_options.
Print Assumptions C257_reserved.
