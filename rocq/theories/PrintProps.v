(** Properties C32, C33: name checks and the printed form of probability expressions. *)
From Coq Require Import Ascii.
From Verif Require Import Base NxModel GraphModel GraphProofs CausalModel.
Set Implicit Arguments.
Local Open Scope string_scope.
Local Open Scope list_scope.

(* ------------------------------------------------------------------ C32 *)
(** the names denoted by an argument: a non-empty string is one name, a collection holds names *)
Inductive denotes : names -> node -> Prop :=
| den_str s : s <> "" -> denotes (Str s) s
| den_set l v : In v l -> denotes (SetOf l) v
| den_list l v : In v l -> denotes (ListOf l) v.
Lemma denotes_items a v : In v (check_items a) <-> denotes a v.
Proof.
  split.
  - destruct a as [s|l|l]; [|constructor; auto|constructor; auto]. destruct s as [|c s]; [intros []|].
    intros [<-|[]]. constructor. discriminate.
  - intros H. inversion H; subst; auto. destruct v as [|c s]; [congruence|now left].
Qed.
(** check_nodes (and check_cols, which is the same loop over data.columns) *)
Theorem C32_check_nodes avail args :
  (check_all avail args = Err AssertionError <-> exists a v, In a args /\ denotes a v /\ ~ In v avail) /\
  (check_all avail args = Ok tt <-> forall a v, In a args -> denotes a v -> In v avail).
Proof.
  unfold check_all. destruct (check_nodes_case avail (flat_map check_items args)) as [[Hi Hc]|[Hi Hc]]; rewrite Hc.
  - assert (A : forall a v, In a args -> denotes a v -> In v avail).
    { intros a v Ha Hv. apply Hi, in_flat_map. exists a. split; auto. now apply denotes_items. }
    split; split; try discriminate; auto. intros (a & v & H1 & H2 & H3). exfalso. eauto.
  - assert (E : exists a v, In a args /\ denotes a v /\ ~ In v avail).
    { unfold incl in Hi. assert (Hs : subset (flat_map check_items args) avail = false).
      { destruct (subset _ _) eqn:Hs; auto. apply subset_spec in Hs. contradiction. }
      clear - Hs. induction args as [|a args IH]; [discriminate|]. cbn [flat_map] in Hs.
      unfold subset in *. rewrite forallb_app in Hs. apply andb_false_iff in Hs as [Hs|Hs].
      - assert (X : exists v, In v (check_items a) /\ mem v avail = false).
        { clear - Hs. induction (check_items a) as [|v l IHl]; [discriminate|]. cbn [forallb] in Hs.
          apply andb_false_iff in Hs as [Hs|Hs]; [exists v; split; [now left|auto]|].
          destruct (IHl Hs) as (w & H1 & H2). exists w. split; [now right|auto]. }
        destruct X as (v & H1 & H2). exists a, v. split; [now left|]. split; [now apply denotes_items|now apply mem_nIn].
      - destruct (IH Hs) as (b & v & H1 & H2). exists b, v. split; [now right|auto]. }
    split; split; auto; try discriminate. intros H. exfalso. destruct E as (a & v & H1 & H2 & H3). eauto.
Qed.
Example C32_example :
  check_all ["a"; "b"] [Str "a"; SetOf ["b"; "a"]; Str ""] = Ok tt /\ check_all ["a"; "b"] [Str "ab"] = Err AssertionError.
Proof. split; reflexivity. Qed.

(* ------------------------------------------------------------------ C33 *)
(** Names without the punctuation used in the printed form. *)
Definition plain (c : ascii) : bool :=
  negb (Ascii.eqb c "," || Ascii.eqb c "|" || Ascii.eqb c ")" || Ascii.eqb c "}" || Ascii.eqb c "\")%char.
Fixpoint clean (s : string) : bool :=
  match s with EmptyString => true | String c r => plain c && clean r end.
(** An expression whose names are clean and that has no condition without a variable. *)
Fixpoint printable (p : prob) : Prop :=
  match p with
  | Pr vs cs ms ps =>
    Forall (fun n => clean n = true) (vs ++ cs ++ ms) /\ (vs = [] -> cs = []) /\ fold_right (fun q P => printable q /\ P) True ps
  end.

Lemma sapp_assoc (a b c : string) : ((a ++ b) ++ c = a ++ (b ++ c))%string.
Proof. induction a; simpl; congruence. Qed.
Lemma sapp_nil (a : string) : (a ++ "" = a)%string.
Proof. induction a; simpl; congruence. Qed.
Definition stop (s : string) : Prop := match s with EmptyString => True | String c _ => plain c = false end.
Definition hard (s : string) : Prop :=
  match s with String c _ => plain c = false /\ c <> ","%char | EmptyString => False end.
Lemma hard_stop s : hard s -> stop s.
Proof. destruct s; simpl; tauto. Qed.
Lemma name_inj n : forall n' s s', clean n = true -> clean n' = true -> stop s -> stop s' ->
  (n ++ s = n' ++ s')%string -> n = n' /\ s = s'.
Proof.
  induction n as [|c n IH]; intros [|c' n'] s s' C C' S S' H; cbn in *.
  - auto.
  - exfalso. subst s. cbn in S. apply andb_true_iff in C' as [C' _]. congruence.
  - exfalso. subst s'. cbn in S'. apply andb_true_iff in C as [C _]. congruence.
  - injection H as -> H. apply andb_true_iff in C as [_ C], C' as [_ C']. destruct (IH n' s s' C C' S S' H) as [-> ->]. auto.
Qed.
Lemma cons_inj c a b : String c a = String c b -> a = b.
Proof. congruence. Qed.
Definition cleans (l : list string) : Prop := Forall (fun n => clean n = true) l.
Lemma join_cons sep x l : join sep (x :: l) = match l with [] => x | _ => (x ++ sep ++ join sep l)%string end.
Proof. reflexivity. Qed.
Lemma join_inj l : forall l' s s', cleans l -> cleans l' -> l <> [] -> l' <> [] -> hard s -> hard s' ->
  (join ", " l ++ s = join ", " l' ++ s')%string -> l = l' /\ s = s'.
Proof.
  induction l as [|x l IH]; intros [|x' l'] s s' C C' N N' S S' H; try congruence.
  inversion C; inversion C'; subst. rewrite !join_cons in H.
  destruct l as [|y l], l' as [|y' l'].
  - destruct (@name_inj x x' s s') as [-> ->]; auto using hard_stop.
  - exfalso. rewrite !sapp_assoc in H. destruct (@name_inj x x' s (", " ++ (join ", " (y' :: l') ++ s'))) as [_ ->]; auto using hard_stop.
    + reflexivity. + cbn in S. destruct S as [_ S]. congruence.
  - exfalso. rewrite !sapp_assoc in H. destruct (@name_inj x x' (", " ++ (join ", " (y :: l) ++ s)) s') as [_ <-]; auto using hard_stop.
    + reflexivity. + cbn in S'. destruct S' as [_ S']. congruence.
  - rewrite !sapp_assoc in H.
    destruct (@name_inj x x' (", " ++ (join ", " (y :: l) ++ s)) (", " ++ (join ", " (y' :: l') ++ s'))) as [-> Hr]; auto; try reflexivity.
    cbn in Hr. injection Hr as Hr. destruct (IH (y' :: l') s s') as [Hl ->]; auto; try discriminate. now rewrite Hl.
Qed.
(** what may follow an expression *)
Definition ends (s : string) : Prop := s = "" \/ exists r, s = String "\" (String "r" r).
Definition pvars (vs cs : list string) : string :=
  (if is_nil vs then "" else if is_nil cs then "P(" ++ join ", " vs ++ ")" else "P(" ++ join ", " vs ++ "|" ++ join ", " cs ++ ")")%string.
Definition psum (ms : list string) : string := (if is_nil ms then "" else "\sum_{" ++ join ", " ms ++ "}")%string.
Definition pprod (ps : list prob) : string := fold_right (fun q s => ("\left[" ++ parse q ++ "\right]" ++ s)%string) "" ps.
Lemma parse_eq vs cs ms ps : parse (Pr vs cs ms ps) = (psum ms ++ pvars vs cs ++ pprod ps)%string.
Proof. reflexivity. Qed.
(** first characters *)
Definition tail_form (s : string) : Prop :=
  s = "" \/ (exists r, s = String "\" (String "r" r)) \/ (exists r, s = String "\" (String "l" r)).
Lemma pprod_form ps s : ends s -> tail_form (pprod ps ++ s).
Proof.
  intros [->|(r & ->)]; destruct ps as [|q ps]; cbn; unfold tail_form; eauto.
Qed.
Lemma pvars_inj vs cs vs' cs' s s' : cleans vs -> cleans cs -> cleans vs' -> cleans cs' ->
  (vs = [] -> cs = []) -> (vs' = [] -> cs' = []) -> tail_form s -> tail_form s' ->
  (pvars vs cs ++ s = pvars vs' cs' ++ s')%string -> vs = vs' /\ cs = cs' /\ s = s'.
Proof.
  intros C1 C2 C1' C2' W W' T T' H. unfold pvars in H.
  assert (NP : forall x r, tail_form x -> x = String "P" r -> False).
  { intros x r [->|[(q & ->)|(q & ->)]] Hx; discriminate. }
  destruct vs as [|v vs], vs' as [|v' vs']; cbn [is_nil] in H.
  - rewrite W, W' by auto. auto.
  - exfalso. destruct cs'; cbn [is_nil] in H; eapply NP; [exact T|cbn in H; exact H|exact T|cbn in H; exact H].
  - exfalso. destruct cs; cbn [is_nil] in H; eapply NP; [exact T'|cbn in H; symmetry; exact H|exact T'|cbn in H; symmetry; exact H].
  - destruct cs as [|c cs], cs' as [|c' cs']; cbn [is_nil] in H; rewrite !sapp_assoc in H;
      cbn [String.append] in H; repeat apply cons_inj in H.
    + apply join_inj in H as [-> H]; auto; try discriminate; try (cbn; split; [reflexivity|discriminate]).
      cbn [String.append] in H. repeat apply cons_inj in H. auto.
    + exfalso. apply join_inj in H as [_ H]; auto; try discriminate; try (cbn; split; [reflexivity|discriminate]).
    + exfalso. apply join_inj in H as [_ H]; auto; try discriminate; try (cbn; split; [reflexivity|discriminate]).
    + apply join_inj in H as [-> H]; auto; try discriminate; try (cbn; split; [reflexivity|discriminate]).
      cbn [String.append] in H. repeat apply cons_inj in H. apply join_inj in H as [-> H]; auto; try discriminate; try (cbn; split; [reflexivity|discriminate]).
      cbn [String.append] in H. repeat apply cons_inj in H. auto.
Qed.
Lemma psum_inj ms ms' vs cs vs' cs' s s' : cleans ms -> cleans ms' -> tail_form s -> tail_form s' ->
  (psum ms ++ pvars vs cs ++ s = psum ms' ++ pvars vs' cs' ++ s')%string ->
  ms = ms' /\ (pvars vs cs ++ s = pvars vs' cs' ++ s')%string.
Proof.
  intros C C' T T' H. unfold psum in H.
  assert (NP : forall vs cs x r, tail_form x -> (pvars vs cs ++ x)%string = String "\" (String "s" r) -> False).
  { intros v c x r Tx Hx. unfold pvars in Hx. destruct v; cbn [is_nil] in Hx.
    - cbn in Hx. destruct Tx as [->|[(q & ->)|(q & ->)]]; discriminate.
    - destruct c; cbn [is_nil] in Hx; discriminate. }
  destruct ms as [|m ms], ms' as [|m' ms']; cbn [is_nil] in H.
  - auto.
  - exfalso. eapply (NP vs cs); [exact T|exact H].
  - exfalso. eapply (NP vs' cs'); [exact T'|symmetry; exact H].
  - rewrite !sapp_assoc in H. cbn [String.append] in H. repeat apply cons_inj in H.
    apply join_inj in H as [-> H]; auto; try discriminate; try (cbn; split; [reflexivity|discriminate]).
    cbn [String.append] in H. repeat apply cons_inj in H. auto.
Qed.
Lemma prob_ind' (P : prob -> Prop) :
  (forall vs cs ms ps, Forall P ps -> P (Pr vs cs ms ps)) -> forall p, P p.
Proof.
  intros H. fix F 1. intros [vs cs ms ps]. apply H. induction ps as [|q ps IH]; constructor; [apply F|exact IH].
Qed.
Lemma parse_inj p : forall q s s', printable p -> printable q -> ends s -> ends s' ->
  (parse p ++ s = parse q ++ s')%string -> p = q /\ s = s'.
Proof.
  induction p as [vs cs ms ps IH] using prob_ind'. intros [vs' cs' ms' ps'] s s' Wp Wq S S' H.
  destruct Wp as (C & W & WP), Wq as (C' & W' & WP').
  apply Forall_app in C as [C1 C2], C' as [C1' C2']. apply Forall_app in C2 as [C2 C3], C2' as [C2' C3'].
  rewrite !parse_eq, !sapp_assoc in H.
  apply psum_inj in H as [-> H]; auto using pprod_form.
  apply pvars_inj in H as (-> & -> & H); auto using pprod_form.
  cut (ps = ps' /\ s = s'); [intros [-> ->]; auto|].
  clear C1 C2 C3 C1' C2' C3' W W'. revert ps' s s' WP' S S' H. induction ps as [|p ps IHps]; intros ps' s s' WP' S S' H.
  - destruct ps' as [|q ps']; [auto|]. exfalso. cbn in H. destruct S as [->|(r & ->)]; discriminate.
  - destruct ps' as [|q ps'].
    + exfalso. cbn in H. destruct S' as [->|(r & ->)]; discriminate.
    + inversion IH as [|? ? IHp IHr]; subst. destruct WP as [WP1 WP2], WP' as [WP1' WP2'].
      cbn [pprod fold_right] in H. rewrite !sapp_assoc in H. cbn [String.append] in H. repeat apply cons_inj in H.
      apply IHp in H as [-> H]; auto; try (right; eexists; reflexivity).
      cbn [String.append] in H. repeat apply cons_inj in H. apply (IHps IHr WP2 ps' s s') in H as [-> ->]; auto.
Qed.
(** Distinct expressions are printed differently: nothing is left out. *)
Theorem C33_parse_injective p q : printable p -> printable q -> parse p = parse q -> p = q.
Proof.
  intros Hp Hq H. apply (@parse_inj p q "" ""); auto; [left; auto|left; auto|]. now rewrite !sapp_nil.
Qed.
(** The sum sign is printed first, exactly for a non-empty set of summed variables. *)
Theorem C33_sum_sign vs cs ms ps : printable (Pr vs cs ms ps) ->
  (String.prefix "\sum_{" (parse (Pr vs cs ms ps)) = true <-> ms <> []).
Proof.
  intros _. rewrite parse_eq. unfold psum. destruct ms as [|m ms]; cbn [is_nil].
  - split; [|congruence]. intros H. exfalso. unfold pvars in H. destruct vs; cbn [is_nil] in H.
    + destruct ps; cbn in H; discriminate.
    + destruct cs; cbn in H; discriminate.
  - split; [discriminate|]. intros _. rewrite !sapp_assoc. match goal with |- String.prefix _ (_ ++ ?x) = _ => generalize x end.
    intros x. vm_compute. destruct x; reflexivity.
Qed.
Example C33_example :
  let p := Pr [] [] ["z"] [Pr ["y"] ["x"; "z"] [] []; Pr ["z"] [] [] []] in
  printable p /\ parse p = "\sum_{z}\left[P(y|x, z)\right]\left[P(z)\right]".
Proof. split; [cbn; repeat (constructor || (split; [|]) || discriminate || auto)|reflexivity]. Qed.
(** A condition without a variable is not printed; the identification methods never build one. *)
Theorem C33_refuted_unconditional : parse (Pr [] ["x"] [] []) = parse (Pr [] [] [] []).
Proof. reflexivity. Qed.

Lemma printable_ps ps : Forall printable ps -> fold_right (fun q P => printable q /\ P) True ps.
Proof. induction 1; cbn; auto. Qed.

Print Assumptions C32_check_nodes.
Print Assumptions C33_parse_injective.
