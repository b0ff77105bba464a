(** Properties C40-C42, C48-C51: helper functions of the API. *)
From Coq Require Import Lia Sorted.
From Verif Require Import UtilsModel.
Set Implicit Arguments.

(** ** C40 *)
Section C40.
  Context {A : Type}.
  Variable discrete : A -> bool.
  Lemma pick_spec d limit : forall cols sel, List.length sel < limit ->
    pick discrete d limit sel cols = firstn limit (sel ++ filter (fun x => Bool.eqb (discrete x) d) cols).
  Proof.
    induction cols as [|x r IH]; intros sel H; cbn [pick filter].
    - rewrite app_nil_r, firstn_all2 by lia. reflexivity.
    - destruct (Bool.eqb (discrete x) d).
      + destruct (Nat.leb_spec limit (List.length (sel ++ [x]))) as [L|L]; rewrite app_length in L; cbn in L.
        * replace (sel ++ x :: filter (fun x => Bool.eqb (discrete x) d) r) with ((sel ++ [x]) ++ filter (fun x => Bool.eqb (discrete x) d) r) by (rewrite <- app_assoc; reflexivity).
          rewrite firstn_app. replace (limit - List.length (sel ++ [x])) with 0 by (rewrite app_length; cbn; lia).
          rewrite firstn_O, app_nil_r, firstn_all2; auto. rewrite app_length. cbn. lia.
        * rewrite IH by (rewrite app_length; cbn; lia). rewrite <- app_assoc. reflexivity.
      + apply IH; auto.
  Qed.
  (** The first [limit] columns of the required type, in the given order. *)
  Theorem C40_select_by_task (cols : list A) (limit : nat) (d : bool) : 1 <= limit ->
    select_by_task discrete cols limit d = firstn limit (filter (fun x => Bool.eqb (discrete x) d) cols).
  Proof. intros H. unfold select_by_task. now rewrite pick_spec by (cbn; lia). Qed.
  (** Partial: limits of at least 2. *)
  Theorem C40_align_task_to_first_partial (x : A) (cols : list A) (limit : nat) : 2 <= limit ->
    align_task_to_first discrete (x :: cols) limit =
      Ok (firstn limit (filter (fun c => Bool.eqb (discrete c) (discrete x)) (x :: cols))).
  Proof.
    intros H. unfold align_task_to_first. rewrite pick_spec by (cbn; lia). cbn [filter app]. now rewrite Bool.eqb_reflx.
  Qed.
  (** With limit 1 a second column of the same type is taken whenever there is one. *)
  Theorem C40_refuted_limit_one (x y : A) (cols : list A) : In y cols -> discrete y = discrete x ->
    exists z, align_task_to_first discrete (x :: cols) 1 = Ok [x; z] /\ In z cols /\ discrete z = discrete x.
  Proof.
    unfold align_task_to_first. induction cols as [|c r IH]; intros Hy E; [destruct Hy|]. cbn [pick].
    destruct (Bool.eqb_spec (discrete c) (discrete x)) as [Hc|Hc].
    - exists c. cbn. auto.
    - destruct Hy as [->|Hy]; [congruence|]. destruct (IH Hy E) as (z & H1 & H2 & H3). exists z. cbn. auto.
  Qed.
End C40.

(** ** C41 *)
Section C41.
  Context {A : Type} {EA : EqDec A}.
  (** Removing one value drops its first occurrence. *)
  Lemma remove1_first v p q : ~ In v p -> remove1 v (p ++ v :: q) = p ++ q.
  Proof.
    induction p as [|a p IH]; intros H; cbn [app remove1]; [now rewrite eqb_refl|].
    destruct (eqb_spec v a) as [->|N]; [elim H; now left|]. f_equal. apply IH. intros X. apply H. now right.
  Qed.
  (** how often a value occurs *)
  Fixpoint count (v : A) (l : list A) : nat := match l with [] => 0 | x :: r => (if eqb v x then 1 else 0) + count v r end.
  (** order-preserving sub-list *)
  Inductive subseq : list A -> list A -> Prop :=
  | sub_nil : subseq [] []
  | sub_skip x l l' : subseq l l' -> subseq l (x :: l')
  | sub_take x l l' : subseq l l' -> subseq (x :: l) (x :: l').
  Lemma subseq_refl l : subseq l l.
  Proof. induction l; [constructor|now apply sub_take]. Qed.
  Lemma subseq_trans l m : subseq l m -> forall k, subseq m k -> subseq l k.
  Proof.
    intros H k K. revert l H. induction K as [|x l' k K IH|x l' k K IH]; intros l H; auto.
    - apply sub_skip; auto.
    - inversion H; subst; [apply sub_skip|apply sub_take]; auto.
  Qed.
  Lemma remove1_sub v l : subseq (remove1 v l) l.
  Proof.
    induction l as [|a l IH]; cbn [remove1]; [constructor|]. destruct (eqb v a); [apply sub_skip, subseq_refl|now apply sub_take].
  Qed.
  Lemma remove1_count v w l : count w (remove1 v l) = count w l - (if eqb w v then 1 else 0).
  Proof.
    induction l as [|a l IH]; cbn [remove1 count]; [destruct (eqb w v); reflexivity|].
    destruct (eqb_spec v a) as [->|N].
    - destruct (eqb w a); lia.
    - cbn [count]. rewrite IH. destruct (eqb_spec w a) as [->|M]; [|lia]. destruct (eqb_spec a v); [congruence|lia].
  Qed.
  Theorem C41_safe_remove (l vs : list A) (copy : bool) :
    exists caller r, safe_remove (Some l) vs copy = (Some caller, Some r) /\
      subseq r l /\ (forall v, count v r = count v l - count v vs) /\
      (NoDup l -> r = filter (fun x => negb (mem x vs)) l) /\
      (copy = true -> caller = l) /\ (copy = false -> caller = r).
  Proof.
    exists (if copy then l else remove_all l vs), (remove_all l vs). split; [reflexivity|].
    assert (G : forall l, subseq (remove_all l vs) l /\ (forall v, count v (remove_all l vs) = count v l - count v vs)).
    { clear. induction vs as [|v vs IH]; intros l; cbn [remove_all fold_left count].
      - split; [apply subseq_refl|intros; lia].
      - destruct (IH (remove1 v l)) as [I1 I2]. split.
        + eapply subseq_trans; [exact I1|apply remove1_sub].
        + intros w. unfold remove_all in I2. rewrite I2, remove1_count. lia. }
    destruct (G l) as [G1 G2]. split; auto. split; auto. split; [|destruct copy; split; congruence].
    clear. revert l. induction vs as [|v vs IH]; intros l ND; cbn [remove_all fold_left].
    - symmetry. apply filter_all_true. reflexivity.
    - unfold remove_all in IH. rewrite IH by now apply remove1_NoDup. clear IH. induction ND as [|a l Ha ND IHl]; cbn [remove1 filter]; auto.
      destruct (eqb_spec v a) as [->|N].
      + cbn [mem]. rewrite eqb_refl. cbn [orb negb]. apply filter_ext_in. intros x Hx. cbn [mem].
        destruct (eqb_spec x a); [congruence|reflexivity].
      + cbn [filter mem]. rewrite IHl. rewrite (eqb_sym a v). destruct (eqb_spec v a); [congruence|]. reflexivity.
  Qed.
  Theorem C41_first_occurrence (p q : list A) (v : A) (copy : bool) : ~ In v p ->
    snd (safe_remove (Some (p ++ v :: q)) [v] copy) = Some (p ++ q).
  Proof. intros H. cbn. unfold remove_all. cbn. now rewrite remove1_first. Qed.
  Theorem C41_none (vs : list A) (copy : bool) : safe_remove None vs copy = (None, None).
  Proof. reflexivity. Qed.
End C41.

(** ** C42 *)
(** the scalars of a value, in order *)
Fixpoint leaves {V} (v : pyval V) : list V :=
  match v with Scal x => [x] | PSeq l => flat_map leaves l end.
Definition seq_of {V} (k : nat) (v : pyval V) : Prop := match v with PSeq l => List.length l = k | Scal _ => False end.
(** [t] as given and the normalised result [r] *)
Theorem C42_safe_treat_control {V} (k : nat) (t : option (pyval V)) : 1 <= k ->
  match safe_treat_control k t with
  | Ok None => t = None
  | Ok (Some r) => List.length r = k /\ exists v, t = Some v /\ flat_map leaves r = leaves v
  | Err e => e = AssertionError /\ exists v, t = Some v /\ ~ seq_of k v /\ (k = 1 -> exists l, v = PSeq l)
  end.
Proof.
  intros Hk. destruct t as [[v|l]|]; cbn; auto.
  - destruct (Nat.eqb_spec k 1) as [->|N]; cbn; [eauto|]. split; auto. exists (Scal v). split; auto. split; auto; lia.
  - destruct (Nat.eqb_spec (List.length l) k) as [E|E]; [split; auto; eauto|]. split; auto. exists (PSeq l). split; auto. split; auto. eauto.
Qed.
Theorem C42_safe_treat_control_list {V} (k : nat) (t : option (pyval V)) : 1 <= k ->
  match safe_treat_control_list k t with
  | Ok None => t = None
  | Ok (Some r) => Forall (seq_of k) r /\ exists v, t = Some v /\ flat_map leaves r = leaves v
  | Err e => t <> None
  end.
Proof.
  intros Hk. destruct t as [[v|[|[v|e] l]]|]; cbn [safe_treat_control_list all_len]; try discriminate; auto.
  - destruct (Nat.eqb_spec k 1) as [->|]; [|discriminate]. split; eauto. repeat constructor.
  - destruct (Nat.ltb_spec 1 k) as [L|L].
    + destruct (Nat.eqb_spec (List.length (Scal v :: l)) k) as [E|E]; [|discriminate]. split; [repeat constructor; exact E|]. exists (PSeq (Scal v :: l)). split; auto. cbn. now rewrite app_nil_r.
    + assert (k = 1) as -> by lia. split.
      * constructor; [reflexivity|]. apply Forall_map, Forall_forall. reflexivity.
      * exists (PSeq (Scal v :: l)). split; auto. cbn. f_equal. induction l as [|a l IH]; cbn; auto. now rewrite app_nil_r, IH.
  - destruct (Nat.eqb_spec (List.length e) k) as [E|E]; cbn [bind]; [|discriminate].
    destruct (all_len k l) as [[|]|] eqn:Hl; cbn [bind]; try discriminate. split; [|eauto]. constructor; [exact E|].
    clear - Hl. induction l as [|[v|x] l IH]; cbn in Hl; try constructor; try discriminate; destruct (Nat.eqb_spec (List.length x) k); try discriminate; cbn; auto.
Qed.
(** The accepted shapes: a scalar for one treatment, a flat sequence, a nested sequence. *)
Theorem C42_accepted {V} (k : nat) (l : list V) (ll : list (list V)) (v : V) :
  safe_treat_control_list 1 (Some (Scal v)) = Ok (Some [PSeq [Scal v]]) /\
  (2 <= k -> List.length l = k -> safe_treat_control_list k (Some (PSeq (map Scal l))) = Ok (Some [PSeq (map Scal l)])) /\
  (l <> [] -> safe_treat_control_list 1 (Some (PSeq (map Scal l))) = Ok (Some (map (fun x => PSeq [Scal x]) l))) /\
  (ll <> [] -> (forall e, In e ll -> List.length e = k) ->
    safe_treat_control_list k (Some (PSeq (map (fun e => PSeq (map Scal e)) ll))) = Ok (Some (map (fun e => PSeq (map Scal e)) ll))).
Proof.
  repeat split.
  - intros H E. destruct l as [|a l]; [cbn in E; lia|]. cbn [map safe_treat_control_list].
    destruct (Nat.ltb_spec 1 k); [|lia]. cbn [List.length] in *. rewrite map_length, E, Nat.eqb_refl. reflexivity.
  - intros H. destruct l as [|a l]; [easy|]. cbn. now rewrite map_map.
  - intros H E. destruct ll as [|a ll]; [easy|]. cbn [map safe_treat_control_list].
    assert (X : all_len k (PSeq (map Scal a) :: map (fun e => PSeq (map Scal e)) ll) = Ok true).
    { change (PSeq (map Scal a) :: map (fun e => PSeq (map Scal e)) ll) with (map (fun e => PSeq (map Scal e)) (a :: ll)).
      clear H. induction (a :: ll) as [|b r IH]; auto. cbn [map all_len]. rewrite map_length, (E b) by now left. rewrite Nat.eqb_refl. apply IH. intros; apply E; now right. }
    rewrite X. reflexivity.
Qed.

(** ** C48 *)
Definition blank (s : str) : Prop := Forall (fun c => is_space c = true) s.
Definition no_comma (s : str) : Prop := ~ In ","%char s.
(** no white space at either end *)
Definition trimmed (s : str) : Prop :=
  (forall c r, s = c :: r -> is_space c = false) /\ (forall c r, s = r ++ [c] -> is_space c = false).
(** pieces joined by commas *)
Fixpoint join (sep : str) (ps : list str) : str :=
  match ps with [] => [] | [p] => p | p :: r => p ++ sep ++ join sep r end.

Lemma lstrip_blank f a s : Forall (fun c => f c = true) a -> (forall c r, s = c :: r -> f c = false) -> lstrip f (a ++ s) = s.
Proof.
  induction 1 as [|c a Hc _ IH]; intros H; cbn [app lstrip].
  - destruct s as [|c s]; auto. cbn. now rewrite (H c s).
  - rewrite Hc. auto.
Qed.
Lemma strip_spec a s b : blank a -> blank b -> trimmed s -> strip (a ++ s ++ b) = s.
Proof.
  intros Ha Hb [H1 H2]. unfold strip.
  assert (B : blank (rev b)) by (apply Forall_rev; exact Hb).
  destruct s as [|c s].
  - cbn [app]. assert (X : lstrip is_space (a ++ b) = []).
    { rewrite <- (app_nil_r (a ++ b)). apply lstrip_blank; [apply Forall_app; auto|discriminate]. }
    now rewrite X.
  - rewrite (@lstrip_blank is_space a ((c :: s) ++ b) Ha).
    + rewrite rev_app_distr, (@lstrip_blank is_space (rev b) (rev (c :: s)) B).
      * apply rev_involutive.
      * intros d r E. apply (H2 d (rev r)). rewrite <- (rev_involutive (c :: s)), E. reflexivity.
    + intros d r E. injection E as <- _. now apply (H1 c s).
Qed.
Lemma split_on_app p r : no_comma p -> split_on "," (p ++ ","%char :: r) = p :: split_on "," r.
Proof.
  induction p as [|c p IH]; intros H; cbn [app split_on].
  - rewrite eqb_refl. reflexivity.
  - destruct (eqb_spec c ","%char) as [->|N]; [elim H; now left|]. rewrite IH; auto. intros X. apply H. now right.
Qed.
Lemma split_on_last p : no_comma p -> split_on "," p = [p].
Proof.
  induction p as [|c p IH]; intros H; cbn [split_on]; auto.
  destruct (eqb_spec c ","%char) as [->|N]; [elim H; now left|]. rewrite IH; auto. intros X. apply H. now right.
Qed.
Lemma split_join ps : ps <> [] -> Forall no_comma ps -> split_on "," (join [","%char] ps) = ps.
Proof.
  intros Hne H. induction H as [|p ps Hp H IH]; [easy|]. destruct ps as [|q ps]; cbn [join].
  - now apply split_on_last.
  - cbn [app]. rewrite split_on_app by auto. f_equal. apply IH. discriminate.
Qed.
(** A string is any list of pieces  blank name blank  joined by commas; the result is the list of the non-empty names. *)
Theorem C48_to_list_string (ps : list (str * str * str)) : ps <> [] ->
  Forall (fun e => let '(a, s, b) := e in blank a /\ blank b /\ trimmed s /\ no_comma s) ps ->
  to_list (NStr (join [","%char] (map (fun e => let '(a, s, b) := e in a ++ s ++ b) ps))) =
    Ok (Some (filter (fun s => match s with [] => false | _ => true end) (map (fun e => snd (fst e)) ps))).
Proof.
  intros Hne H. cbn [to_list]. unfold split_names. rewrite split_join.
  - f_equal. f_equal. rewrite map_map.
    transitivity (filter (fun p : str => negb (Nat.eqb (List.length p) 0)) (map (fun e : str * str * str => snd (fst e)) ps)).
    + f_equal. apply map_ext_in. intros [[a s] b] Hi. rewrite Forall_forall in H. destruct (H _ Hi) as (H1 & H2 & H3 & _).
      cbn [fst snd]. now apply strip_spec.
    + apply filter_ext. intros [|]; reflexivity.
  - destruct ps; [easy|discriminate].
  - apply Forall_map. eapply Forall_impl; [|exact H]. intros [[a s] b] (H1 & H2 & _ & H4) Hc.
    assert (C : is_space ","%char = false) by reflexivity. unfold blank in *. rewrite Forall_forall in H1, H2.
    apply in_app_iff in Hc as [Hc|Hc]; [apply H1 in Hc; congruence|]. apply in_app_iff in Hc as [Hc|Hc]; [now apply H4|apply H2 in Hc; congruence].
Qed.
(** Every string has that form, so the theorem covers all of them. *)
Theorem C48_every_string (s : str) : exists ps, ps <> [] /\
  Forall (fun e => let '(a, s, b) := e in blank a /\ blank b /\ trimmed s /\ no_comma s) ps /\
  s = join [","%char] (map (fun e => let '(a, s, b) := e in a ++ s ++ b) ps).
Proof.
  assert (T : forall p, no_comma p -> exists a t b, p = a ++ t ++ b /\ blank a /\ blank b /\ trimmed t /\ no_comma t).
  { intros p Hp. assert (L : forall q, exists a t, q = a ++ t /\ blank a /\ (forall c r, t = c :: r -> is_space c = false)).
    { induction q as [|c q (a & t & -> & Ha & Ht)]; [exists [], []; repeat split; [constructor|discriminate]|].
      destruct (is_space c) eqn:E; [exists (c :: a), t; repeat split; auto; constructor; auto|].
      exists [], (c :: a ++ t). repeat split; [constructor|]. intros d r [= <- _]. auto. }
    destruct (L p) as (a & t & -> & Ha & Ht). destruct (L (rev t)) as (b & u & E & Hb & Hu).
    exists a, (rev u), (rev b). assert (Et : t = rev u ++ rev b) by (rewrite <- (rev_involutive t), E; apply rev_app_distr).
    split; [now rewrite <- Et|]. split; auto. split; [now apply Forall_rev|]. split; [split|].
    - intros c r Ec. apply (Ht c (r ++ rev b)). rewrite Et, Ec. reflexivity.
    - intros c r Ec. apply (Hu c (rev r)). rewrite <- (rev_involutive u), Ec, rev_app_distr. reflexivity.
    - intros Hc. apply Hp. rewrite Et. apply in_app_iff. right. apply in_app_iff. now left. }
  assert (G : exists ps, ps <> [] /\ Forall no_comma ps /\ s = join [","%char] ps).
  { induction s as [|c s (ps & H1 & H2 & ->)]; [exists [[]]; repeat split; [discriminate|constructor; [intros []|constructor]]|].
    destruct ps as [|p ps]; [easy|]. inversion H2 as [|? ? Hp H2']; subst. destruct (eqb_spec c ","%char) as [->|N].
    - exists ([] :: p :: ps). repeat split; [discriminate|constructor; [intros []|auto]].
    - exists ((c :: p) :: ps). repeat split; [discriminate|constructor; auto; intros [X|X]; [congruence|now apply Hp]|]. now destruct ps. }
  destruct G as (ps & H1 & H2 & ->).
  assert (K : exists es, Forall (fun e => let '(a, s, b) := e in blank a /\ blank b /\ trimmed s /\ no_comma s) es /\ map (fun e => let '(a, s, b) := e in a ++ s ++ b) es = ps).
  { clear H1. induction H2 as [|p ps Hp _ (es & E1 & <-)]; [exists []; split; constructor|].
    destruct (T p Hp) as (a & t & b & -> & Ha & Hb & Ht & Hc). exists ((a, t, b) :: es). split; [constructor; auto|reflexivity]. }
  destruct K as (es & E1 & E2). exists es. split; [intros ->; apply H1; now rewrite <- E2|]. split; auto. now rewrite E2.
Qed.
Theorem C48_to_list_other (l : list str) :
  to_list (NList l) = Ok (Some l) /\ to_list (NTuple l) = Ok (Some l) /\ to_list NNone = Ok None /\ to_list NOther = Err ValueError.
Proof. auto. Qed.
(** join_list concatenates what to_list gives for its arguments, None contributing nothing. *)
Theorem C48_join_list (args : list names_arg) (ls : list (option (list str))) :
  Forall2 (fun a l => to_list a = Ok l) args ls ->
  join_list args = Ok (flat_map (fun l => match l with Some x => x | None => [] end) ls).
Proof.
  induction 1 as [|a l args ls H _ IH]; auto. cbn [join_list flat_map].
  destruct a; cbn [to_list] in H; try discriminate; injection H as <-; rewrite IH; reflexivity.
Qed.

(** ** C49 *)
Definition no_upper (s : str) : Prop := Forall (fun c => is_upper c = false) s.
Definition all_upper (s : str) : Prop := Forall (fun c => is_upper c = true) s.
Definition no_leading_underscore (s : str) : Prop := forall r, s <> underscore :: r.

Lemma lower_not_upper c : is_upper (lower c) = false.
Proof. destruct c as [[] [] [] [] [] [] [] []]; vm_compute; reflexivity. Qed.
Lemma lower_id c : is_upper c = false -> lower c = c.
Proof. unfold lower. now intros ->. Qed.
Lemma snake_no_upper s : forall last, no_upper (snake_loop last s).
Proof.
  induction s as [|c s IH]; intros last; cbn [snake_loop]; [constructor|]. apply Forall_app. split; [|apply IH].
  destruct (is_upper c) eqn:E; [|repeat constructor; auto]. apply Forall_app. split; [|repeat constructor; apply lower_not_upper].
  destruct last as [[|]|]; repeat constructor.
Qed.
Lemma lstrip_suffix f s : exists p, s = p ++ lstrip f s.
Proof. induction s as [|c s (p & IH)]; cbn [lstrip]; [exists []; auto|]. destruct (f c); [exists (c :: p); cbn; congruence|exists []; auto]. Qed.
Lemma lstrip_head f s c r : lstrip f s = c :: r -> f c = false.
Proof. induction s as [|d s IH]; cbn [lstrip]; [discriminate|]. destruct (f d) eqn:E; auto. now intros [= <- _]. Qed.

Theorem C49_form (s : str) : no_upper (to_snake_case s) /\ no_leading_underscore (to_snake_case s).
Proof.
  unfold to_snake_case. split.
  - destruct (lstrip_suffix (fun c => eqb c underscore) (snake_loop None s)) as (p & E).
    pose proof (snake_no_upper s None) as H. rewrite E in H. now apply Forall_app in H.
  - intros r E. apply lstrip_head in E. now rewrite eqb_refl in E.
Qed.
Lemma snake_lower s : forall last, no_upper s -> snake_loop last s = s.
Proof.
  induction s as [|c s IH]; intros last H; auto. inversion H; subst. cbn [snake_loop]. rewrite H2. cbn [app]. f_equal. now apply IH.
Qed.
Theorem C49_fixpoint (s : str) : no_upper s -> no_leading_underscore s -> to_snake_case s = s.
Proof.
  intros H N. unfold to_snake_case. rewrite snake_lower by auto. destruct s as [|c s]; auto. cbn [lstrip].
  destruct (eqb_spec c underscore) as [->|]; auto. now elim (N s).
Qed.
(** Words: a run of capitals followed by a non-empty run without capitals.  Only the first word may lack its
    capitals; a run of capitals may follow the last word.  The result is the lower-cased words joined by
    underscores.  (Every string except those without a lower-case part has this form.) *)
Definition word (w : str * str) : Prop := all_upper (fst w) /\ snd w <> [] /\ no_upper (snd w).
Definition text (w : str * str) : str := fst w ++ snd w.

Lemma snake_app s t : forall last, snake_loop last (s ++ t) =
  snake_loop last s ++ snake_loop (match rev s with [] => last | c :: _ => Some (is_upper c) end) t.
Proof.
  induction s as [|c s IH]; intros last; cbn [app snake_loop]; auto. rewrite IH, <- app_assoc. do 2 f_equal. cbn [rev].
  destruct (rev s) as [|d r]; reflexivity.
Qed.
Lemma snake_upper s : forall last, last <> Some false -> all_upper s -> snake_loop last s = map lower s.
Proof.
  induction s as [|c s IH]; intros last L H; auto. inversion H; subst. cbn [snake_loop map]. rewrite H2.
  replace (match last with Some false => [underscore] | _ => [] end) with (@nil ascii) by (destruct last as [[|]|]; auto; congruence).
  cbn [app]. f_equal. apply IH; auto. discriminate.
Qed.
Lemma map_lower_id s : no_upper s -> map lower s = s.
Proof. induction 1 as [|c s Hc _ IH]; auto. cbn [map]. rewrite lower_id, IH; auto. Qed.
Lemma snake_word (w : str * str) last : fst w <> [] -> all_upper (fst w) -> no_upper (snd w) ->
  snake_loop last (text w) = (match last with Some false => [underscore] | _ => [] end) ++ map lower (text w).
Proof.
  intros Hn Hu Hl. unfold text. rewrite snake_app, map_app, (map_lower_id Hl), (@snake_lower (snd w) _ Hl).
  destruct w as [[|c s] l]; [easy|]. cbn [fst snd] in *. inversion Hu; subst. cbn [snake_loop map]. rewrite H1.
  rewrite <- app_assoc. rewrite snake_upper by (auto; discriminate). cbn [app]. rewrite <- app_assoc. reflexivity.
Qed.
Lemma last_is_lower (s l : str) : l <> [] -> no_upper l -> match rev (s ++ l) with [] => None | c :: _ => Some (is_upper c) end = Some false.
Proof.
  intros Hn Hl. rewrite rev_app_distr. assert (X : no_upper (rev l)) by now apply Forall_rev.
  destruct (rev l) as [|c r] eqn:E; [apply (f_equal (@rev ascii)) in E; rewrite rev_involutive in E; easy|]. cbn. inversion X; subst. now rewrite H1.
Qed.

Lemma snake_words ws last : Forall word ws -> Forall (fun w => fst w <> []) ws -> all_upper last ->
  snake_loop (Some false) (flat_map text ws ++ last) =
  flat_map (fun p => underscore :: map lower p) (map text ws ++ match last with [] => [] | _ => [last] end).
Proof.
  intros H F L. induction H as [|w ws (H1 & H2 & H3) _ IH]; cbn [flat_map map app].
  - destruct last as [|c s]; auto. cbn [flat_map app]. inversion L; subst. cbn [snake_loop map]. rewrite H1. cbn [app].
    rewrite snake_upper by (auto; discriminate). now rewrite app_nil_r.
  - inversion F; subst. rewrite <- app_assoc, snake_app, snake_word by auto. cbn [app].
    rewrite <- IH by auto. f_equal. f_equal. f_equal. unfold text at 1.
    pose proof (last_is_lower (fst w) H2 H3) as E. destruct (rev (fst w ++ snd w)); congruence.
Qed.
Theorem C49_words (w : str * str) (ws : list (str * str)) (last : str) :
  Forall word (w :: ws) -> Forall (fun w => fst w <> []) ws -> all_upper last -> no_leading_underscore (text w) ->
  to_snake_case (flat_map text (w :: ws) ++ last) =
    join [underscore] (map (map lower) (map text (w :: ws) ++ match last with [] => [] | _ => [last] end)).
Proof.
  intros H F L N. inversion H as [|? ? (H1 & H2 & H3) H']; subst. unfold to_snake_case. cbn [flat_map].
  rewrite <- app_assoc, snake_app.
  assert (E : match rev (text w) with [] => None | c :: _ => Some (is_upper c) end = Some false) by now apply last_is_lower.
  rewrite E, snake_words by auto. clear E.
  assert (E : snake_loop None (text w) = map lower (text w)).
  { unfold text. rewrite snake_app, map_app, (map_lower_id H3), (@snake_lower (snd w) _ H3). f_equal. apply snake_upper; auto. discriminate. }
  rewrite E. cbn [map app]. set (ps := map text ws ++ match last with [] => [] | _ => [last] end).
  assert (J : forall p ps, join [underscore] (p :: ps) = p ++ flat_map (fun q => underscore :: q) ps).
  { clear. intros p ps. revert p. induction ps as [|q ps IH]; intros p; [cbn; now rewrite app_nil_r|].
    change (join [underscore] (p :: q :: ps)) with (p ++ [underscore] ++ join [underscore] (q :: ps)). rewrite IH. reflexivity. }
  rewrite J. replace (flat_map (fun q => underscore :: q) (map (map lower) ps)) with (flat_map (fun p => underscore :: map lower p) ps)
    by (induction ps as [|q r IHr]; cbn; auto; now rewrite IHr).
  destruct (text w) as [|c t] eqn:Et.
  - exfalso. unfold text in Et. apply app_eq_nil in Et. tauto.
  - cbn [map app lstrip]. destruct (eqb_spec (lower c) underscore) as [X|X]; auto. exfalso. clear - X N. unfold lower in X.
    destruct (is_upper c) eqn:Eu; [|subst; now apply (N t)].
    revert X Eu. destruct c as [[] [] [] [] [] [] [] []]; vm_compute; discriminate.
Qed.

(** ** C50 *)
Theorem C50_drop_none {V} (kw : list (str * option V)) :
  map (fun e => (fst e, Some (snd e))) (drop_none kw) = filter (fun e => match snd e with Some _ => true | None => false end) kw.
Proof.
  unfold drop_none. induction kw as [|[k [v|]] kw IH]; cbn [flat_map map filter fst snd app]; auto. f_equal. exact IH.
Qed.
(** The wrapped method runs exactly when the flag is truthy; otherwise ValueError, whatever the method would do. *)
Theorem C50_check_fitted {Obj Val Res : Type} (truthy : Val -> bool) (same : Val -> Val -> bool) (vnone : Val)
    (getattr : Obj -> option Val) (fn : Obj -> res Res) (obj : Obj) :
  truthy vnone = false ->
  (forall v, getattr obj = Some v -> truthy v = true -> check_and_call truthy same vnone getattr (CNone _ _) fn obj = fn obj) /\
  ((forall v, getattr obj = Some v -> truthy v = false) -> check_and_call truthy same vnone getattr (CNone _ _) fn obj = Err ValueError) /\
  (forall f, check_and_call truthy same vnone getattr (CFun f) fn obj = if truthy (f obj) then fn obj else Err ValueError) /\
  (forall v a, getattr obj = Some a -> check_and_call truthy same vnone getattr (CValue _ v) fn obj = if same a v then Err ValueError else fn obj).
Proof.
  intros Hn. unfold check_and_call. repeat split.
  - intros v -> ->. reflexivity.
  - intros H. destruct (getattr obj) as [v|]; [now rewrite (H v)|now rewrite Hn].
  - intros v a ->. now destruct (same a v).
Qed.

(** ** C51 *)
Section C51.
  Variable exceeds : nat -> nat -> bool.
  (** the values that are looked at *)
  Definition kept (dropna : bool) (excludes y : list yval) (v : yval) : Prop :=
    In v y /\ (dropna = true -> v <> YNan /\ v <> YNone) /\ ~ In v excludes.
  Definition uniques (dropna : bool) (excludes y : list yval) : list yval :=
    diff (if dropna then filter (fun v => negb (eqb v YNan) && negb (eqb v YNone)) (dedup y) else dedup y) excludes.
  Lemma uniques_In d ex y v : In v (uniques d ex y) <-> kept d ex y v.
  Proof.
    unfold uniques, kept. rewrite diff_In. destruct d.
    - rewrite filter_In, dedup_In, andb_true_iff, !negb_true_iff, !eqb_neq. intuition congruence.
    - rewrite dedup_In. intuition congruence.
  Qed.
  Lemma uniques_NoDup d ex y : NoDup (uniques d ex y).
  Proof. apply diff_NoDup. destruct d; [apply NoDup_filter|]; apply dedup_NoDup. Qed.
  (** [n] distinct values are looked at *)
  Definition distinct (dropna : bool) (excludes y : list yval) (n : nat) : Prop :=
    exists l, NoDup l /\ (forall v, In v l <-> kept dropna excludes y v) /\ List.length l = n.
  Lemma distinct_len d ex y n : distinct d ex y n <-> List.length (uniques d ex y) = n.
  Proof.
    split.
    - intros (l & ND & H & <-). apply Nat.le_antisymm; apply NoDup_incl_length; auto using uniques_NoDup; intros v Hv.
      + apply H, uniques_In, Hv.
      + apply uniques_In, H, Hv.
    - intros <-. exists (uniques d ex y). split; [apply uniques_NoDup|]. split; [apply uniques_In|reflexivity].
  Qed.

  Lemma insert_val_In v x l : In x (insert_val v l) <-> x = v \/ In x l.
  Proof. induction l as [|a l IH]; cbn; [intuition|]. destruct (Nat.leb v a); cbn; [intuition|]. rewrite IH. intuition. Qed.
  Lemma insert_val_sorted v l : StronglySorted lt l -> ~ In v l -> StronglySorted lt (insert_val v l).
  Proof.
    induction 1 as [|a l H IH HF]; intros N; cbn; [repeat constructor|]. destruct (Nat.leb_spec v a) as [L|L].
    - constructor; [now constructor|]. assert (v < a) by (destruct (Nat.eq_dec v a); [subst; elim N; now left|lia]).
      constructor; auto. eapply Forall_impl; [|exact HF]. cbn. intros; lia.
    - constructor; [apply IH; intros X; apply N; now right|]. apply Forall_forall. intros x Hx. apply insert_val_In in Hx as [->|Hx]; auto. rewrite Forall_forall in HF. auto.
  Qed.
  Lemma sort_vals_spec l : NoDup l -> StronglySorted lt (sort_vals l) /\ forall x, In x (sort_vals l) <-> In x l.
  Proof.
    induction 1 as [|a l Ha ND [IH1 IH2]]; cbn; [split; [constructor|tauto]|]. split.
    - apply insert_val_sorted; auto. now rewrite IH2.
    - intros x. rewrite insert_val_In, IH2. intuition.
  Qed.

  Theorem C51_infer_task_type (k : kind) (dropna : bool) (excludes y : list yval) (n : nat) :
    distinct dropna excludes y n ->
    (n < 2 -> infer_task_type exceeds 1 k dropna excludes y = Err ValueError) /\
    (2 <= n -> exists t labels, infer_task_type exceeds 1 k dropna excludes y = Ok (t, labels) /\
      (t = Binary <-> n = 2) /\
      (t = Regression <-> 3 <= n /\ (k = KFloat \/ (k = KInt /\ exceeds n (List.length y) = true))) /\
      (t = Multiclass <-> 3 <= n /\ (k = KOtherKind \/ (k = KInt /\ exceeds n (List.length y) = false))) /\
      (t = Regression -> labels = []) /\
      (t <> Regression -> (forall v, kept dropna excludes y v -> exists a, v = YV a) ->
         exists vs, labels = map YV vs /\ StronglySorted lt vs /\ forall a, In a vs <-> kept dropna excludes y (YV a))).
  Proof.
    intros Hd. apply distinct_len in Hd.
    assert (E : infer_task_type exceeds 1 k dropna excludes y =
      let u := uniques dropna excludes y in
      let labels := map YV (sort_vals (values_of u)) ++ filter (fun v => match v with YV _ => false | _ => true end) u in
      match List.length u with
      | 0 | 1 => Err ValueError
      | 2 => Ok (Binary, labels)
      | nu => match k with
          | KFloat => Ok (Regression, [])
          | KInt => if exceeds nu (List.length y) then Ok (Regression, []) else Ok (Multiclass, labels)
          | KOtherKind => Ok (Multiclass, labels) end end) by reflexivity.
    cbv zeta in E. rewrite Hd in E.
    set (labels := map YV (sort_vals (values_of (uniques dropna excludes y))) ++ filter (fun v => match v with YV _ => false | _ => true end) (uniques dropna excludes y)) in E.
    assert (HL : (forall v, kept dropna excludes y v -> exists a, v = YV a) ->
      exists vs, labels = map YV vs /\ StronglySorted lt vs /\ forall a, In a vs <-> kept dropna excludes y (YV a)).
    { intros H. exists (sort_vals (values_of (uniques dropna excludes y))). split.
      - assert (X : forall v, In v (uniques dropna excludes y) -> exists a, v = YV a) by (intros v Hv; apply H, uniques_In, Hv).
        assert (Z : filter (fun v => match v with YV _ => false | _ => true end) (uniques dropna excludes y) = []).
        { clear - X. induction (uniques dropna excludes y) as [|v l IH]; auto. cbn. destruct (X v (or_introl eq_refl)) as (a & ->). apply IH. intros; apply X; now right. }
        unfold labels. rewrite Z. apply app_nil_r.
      - assert (VI : forall l a, In a (values_of l) <-> In (YV a) l).
        { intros l a. unfold values_of. rewrite in_flat_map. split.
          - intros ([b| | |] & Hb & Ha); cbn in Ha; try tauto. destruct Ha as [->|[]]. exact Hb.
          - intros Ha. exists (YV a). split; auto. now left. }
        assert (VN : NoDup (values_of (uniques dropna excludes y))).
        { pose proof (uniques_NoDup dropna excludes y) as ND. clear - ND VI. induction ND as [|v l Hv ND IH]; [constructor|].
          destruct v as [a| | |]; try exact IH. change (NoDup (a :: values_of l)). constructor; [now rewrite VI|exact IH]. }
        destruct (sort_vals_spec VN) as [S1 S2]. split; auto. intros a. rewrite S2, VI. apply uniques_In. }
    split.
    - intros Hn. rewrite E. destruct n as [|[|n]]; auto; lia.
    - intros Hn. destruct n as [|[|[|n]]]; try lia.
      + exists Binary, labels. split; [exact E|]. repeat split; intros; try discriminate; try lia; auto.
      + destruct k; [exists Regression, []|destruct (exceeds (S (S (S n))) (List.length y)) eqn:Ex; [exists Regression, []|exists Multiclass, labels]|exists Multiclass, labels];
          (split; [exact E|]); repeat split; intros; try discriminate; try lia; auto;
          repeat match goal with H : _ /\ _ |- _ => destruct H | H : _ \/ _ |- _ => destruct H end; try discriminate; try congruence.
  Qed.
  Theorem C51_multilabel (ncols : nat) (k : kind) (dropna : bool) (excludes y : list yval) : 2 <= ncols ->
    exists labels, infer_task_type exceeds ncols k dropna excludes y = Ok (Multilabel, labels).
  Proof. intros H. unfold infer_task_type. destruct (Nat.ltb_spec 1 ncols); [eauto|lia]. Qed.
  (** dropna does not drop the NaN of a float column: a binary float outcome with a missing value is called regression,
      a constant one with a missing value binary. *)
  Theorem C51_refuted_nan :
    infer_task_type exceeds 1 KFloat true [] [YV 0; YV 1; YFloatNan; YV 0] = Ok (Regression, []) /\
    exists labels, infer_task_type exceeds 1 KFloat true [] [YV 1; YFloatNan; YV 1] = Ok (Binary, labels).
  Proof. split; [reflexivity|]. eexists. vm_compute. reflexivity. Qed.
End C51.

(** ** Non-vacuity *)
Example select_ex : select_by_task (fun x => Nat.even x) [1; 2; 4; 5; 6] 2 true = [2; 4].
Proof. reflexivity. Qed.
Example align_ex : align_task_to_first (fun x => Nat.even x) [1; 2; 4; 5; 6] 1 = Ok [1; 5].
Proof. reflexivity. Qed.
Example remove_ex : safe_remove (Some [1; 2; 3; 2]) [2; 5] true = (Some [1; 2; 3; 2], Some [1; 3; 2]).
Proof. reflexivity. Qed.
Example to_list_ex : to_list (NStr (list_ascii_of_string " a, bc ,,d e")) =
  Ok (Some (map list_ascii_of_string ["a"; "bc"; "d e"]%string)).
Proof. vm_compute. reflexivity. Qed.
Example snake_ex : string_of_list_ascii (to_snake_case (list_ascii_of_string "IVModelTest")) = "ivmodel_test"%string.
Proof. vm_compute. reflexivity. Qed.
Example snake_word_ex : word (list_ascii_of_string "IVM", list_ascii_of_string "odel").
Proof. split; [repeat constructor|]. split; [discriminate|repeat constructor]. Qed.
Example infer_ex : infer_task_type (fun _ _ => false) 1 KInt true [] [YV 3; YV 1; YV 2; YV 1; YNone] = Ok (Multiclass, [YV 1; YV 2; YV 3]).
Proof. reflexivity. Qed.
Example distinct_ex : distinct true [] [YV 3; YV 1; YNan; YV 2; YV 1; YNone] 3.
Proof. apply distinct_len. reflexivity. Qed.

Print Assumptions C40_select_by_task.
Print Assumptions C40_align_task_to_first_partial.
Print Assumptions C40_refuted_limit_one.
Print Assumptions C41_safe_remove.
Print Assumptions C41_first_occurrence.
Print Assumptions C42_safe_treat_control.
Print Assumptions C42_safe_treat_control_list.
Print Assumptions C42_accepted.
Print Assumptions C48_to_list_string.
Print Assumptions C48_every_string.
Print Assumptions C48_to_list_other.
Print Assumptions C48_join_list.
Print Assumptions C49_form.
Print Assumptions C49_fixpoint.
Print Assumptions C49_words.
Print Assumptions C50_drop_none.
Print Assumptions C50_check_fitted.
Print Assumptions C51_infer_task_type.
Print Assumptions C51_multilabel.
Print Assumptions C51_refuted_nan.
