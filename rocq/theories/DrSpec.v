(** What a successful fit of a new DoublyRobust object is, in the vocabulary of groups. *)
From Coq Require Import ZArith Reals Lra FunctionalExtensionality.
From Verif Require Import Base ApiModel EstUtilsModel EstUtilsProps MetaModel MetaSpec MetaProofs MetaProps MetaRefit MetaT MetaX
  CrossFitModel CrossFitProofs DrModel DrProofs.
Local Notation length := List.length.
Local Notation concat := List.concat.

(** the groups of a fit: given categories, or the values that occur *)
Definition dr_values (categories : option (list (list label))) (x : list (list label)) (j : nat) (v : label) : Prop :=
  match categories with None => occurs x j v | Some cs => In v (nth j cs []) end.

(** the effect of group number i against group number c on row r, outcome j *)
Definition pseudo_effect (keys x : list (list label)) (y : list row) (p : nat -> nat -> R) (h : nat -> nat -> nat -> R)
    (c i r j : nat) : R := (pseudo keys x y p h r j i - pseudo keys x y p h r j c)%R.

Lemma dr_prime_pseudo_all keys x y p h r j i :
  (forall g, In g keys -> g <> []) -> i < length keys ->
  dr_prime (map (ind keys) x) y p h r j i = pseudo keys x y p h r j i.
Proof.
  intros Hk Hi. destruct (Nat.lt_ge_cases r (length x)) as [Hr|Hr]; [now apply dr_prime_pseudo|].
  unfold dr_prime, pseudo. rewrite (nth_overflow (map _ _)) by (now rewrite map_length).
  rewrite (nth_overflow x) by auto. replace (nth i [] 0%Z) with 0%Z by now destruct i. cbn [Z.eqb].
  destruct (eqb_spec (@nil label) (nth i keys [])) as [E|_]; [|reflexivity].
  exfalso. apply (Hk (nth i keys [])); [now apply nth_In|now rewrite <- E].
Qed.

Lemma group_no_nth keys r q : NoDup keys -> nth_error keys q = Some r -> group_no keys r = q.
Proof. intros ND H. unfold group_no. now rewrite (index_of_nth r keys q ND H). Qed.
Lemma group_no_lt keys r : In r keys -> group_no keys r < length keys /\ nth_error keys (group_no keys r) = Some r.
Proof.
  intros H. destruct (index_of_In r keys H) as (q & E). unfold group_no. rewrite E.
  pose proof (index_of_Some _ _ E) as E2. split; auto. apply nth_error_Some. congruence.
Qed.

(** a successful fit: groups, nuisance predictions p and h, and -- when control and treat name groups -- the whole
    state *)
Lemma dr_fit_spec Lx Ly Lf categories cf a s1 d :
  Forall (fun r => length r = d) (a_x a) -> (forall cs, categories = Some cs -> Forall (@NoDup label) cs) ->
  dr_fit Lx Ly Lf categories cf a (dr_new Lf) = (s1, Ok tt) ->
  exists keys wv p h,
    groups_of d (dr_values categories (a_x a)) keys /\ (d = 1 -> categories = None -> increasing keys) /\
    (forall r, In r (a_x a) -> In r keys) /\ a_x a <> [] /\ (forall g, In g keys -> g <> []) /\
    get_wv [a_w a; a_v a] = Ok wv /\ length wv = length (a_x a) /\
    dr_cross_x Lx wv (group_nos keys (a_x a)) (length keys) cf = Ok p /\
    dr_cross_y Ly (own_features keys wv (a_x a)) (a_y a) (length keys) cf = Ok h /\
    forall rc rt, asks d keys 0 (a_control a) rc -> In rc keys -> asks d keys 1 (a_treat a) rt -> In rt keys ->
    exists e f, Enc e d keys /\
      s1 = mkDR Lf e (a_v a) (match a_v a with Some _ => true | None => false end) (length keys) (width (a_y a)) true
                (Some f) (Some (Z.of_nat (group_no keys rt))) (Some (Z.of_nat (group_no keys rc))) /\
      let eff := fun i r j => pseudo_effect keys (a_x a) (a_y a) p h (group_no keys rc) i r j in
      match a_v a with
      | None => exists g, f = FEffect (length (a_x a)) g /\ forall r j i, i < length keys -> g r j i = eff i r j
      | Some v => exists ms, f = FModels ms /\ length ms = length keys /\
          forall i m, nth_error ms i = Some m -> l_fit Lf v (effect_target (length (a_x a)) (width (a_y a)) (eff i)) = Ok m
      end.
Proof.
  intros HL HN H.
  destruct (dr_fit_inv _ _ _ _ _ _ _ _ HL HN H)
    as (e & keys & wv & p & h & e2 & e3 & c & t & Hg & Hi & Hall & Hx & HE & Ew & El & Ep & Eh & Ec & Et & f & Es & Hf).
  assert (Hk : forall g, In g keys -> g <> []).
  { intros g Ig. destruct (Enc_keys HE) as (_ & HLk & Hd). rewrite Forall_forall in HLk. specialize (HLk g Ig). intros ->.
    cbn in HLk. congruence. }
  exists keys, wv, p, h. do 9 (split; [assumption|]).
  intros rc rt Ac Ic At It.
  destruct (group_no_lt _ _ Ic) as [Lc Nc]. destruct (group_no_lt _ _ It) as [Lt Nt].
  rewrite (dr_tr_ok _ _ _ false _ _ _ HE Ac Nc) in Ec. injection Ec as <- <-.
  rewrite (dr_tr_ok _ _ _ true _ _ _ HE At Nt) in Et. injection Et as <- <-.
  exists e, f. split; [exact HE|]. split; [exact Es|]. cbn zeta in Hf |- *.
  rewrite Nat2Z.id in Hf. destruct (a_v a) as [v|].
  - destruct Hf as (ms & -> & Elm & Hm). exists ms. split; auto. split; auto. intros i m Em. rewrite <- (Hm i m Em).
    assert (i < length keys) by (rewrite <- Elm; apply nth_error_Some; congruence).
    f_equal. unfold effect_target. f_equal. f_equal. apply functional_extensionality. intros idx.
    unfold pseudo_effect. now rewrite !dr_prime_pseudo_all by auto.
  - eexists. split; [exact Hf|]. intros r j i Hi'. cbn beta. unfold pseudo_effect. now rewrite !dr_prime_pseudo_all by auto.
Qed.
