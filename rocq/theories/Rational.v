(** Evaluating structural models with rational tables: used only to exhibit concrete counterexample models. *)
From Coq Require Import QArith Qreals Qreduction.
From Verif Require Import Base GraphModel CausalModel Bn ScmSpec.
Set Implicit Arguments.
Local Open Scope list_scope.

Section Rat.
  Context {A : Type} {EA : EqDec A}.
  Variable dom : A -> list nat.
  Fixpoint sumQ (f : nat -> Q) (l : list nat) : Q :=
    match l with [] => 0%Q | d :: r => Qred (f d + sumQ f r)%Q end.
  Fixpoint sumsQ (vs : list A) (f : (A -> nat) -> Q) : (A -> nat) -> Q :=
    match vs with [] => f | v :: r => fun a => sumQ (fun d => sumsQ r f (upd a v d)) (dom v) end.
  Fixpoint prodlQ (f : A -> (A -> nat) -> Q) (l : list A) (a : A -> nat) : Q :=
    match l with [] => 1%Q | v :: r => (f v a * prodlQ f r a)%Q end.

  Lemma Q2R_red q : Q2R (Qred q) = Q2R q.
  Proof. apply Qeq_eqR, Qred_correct. Qed.
  Lemma Q2R_1 : Q2R 1 = 1%R.
  Proof. unfold Q2R. simpl. lra. Qed.
  Lemma sumR_Q f l : sumR (fun d => Q2R (f d)) l = Q2R (sumQ f l).
  Proof.
    induction l as [|d l IH]; cbn [sumR sumQ]; [unfold Q2R; simpl; lra|]. now rewrite Q2R_red, Q2R_plus, IH.
  Qed.
  Lemma sums_Q vs : forall f a, sums dom vs (fun b => Q2R (f b)) a = Q2R (sumsQ vs f a).
  Proof.
    induction vs as [|v vs IH]; intros f a; cbn [sums sumsQ]; auto. unfold sumv. rewrite <- sumR_Q.
    apply sumR_ext. intros d _. apply IH.
  Qed.
  Lemma prodl_Q f l a : prodl (fun v b => Q2R (f v b)) l a = Q2R (prodlQ f l a).
  Proof. induction l as [|v l IH]; cbn; [now rewrite Q2R_1|]. rewrite Q2R_mult. now rewrite <- IH. Qed.
End Rat.

Section RatScm.
  Variable g : cg.
  Variable h : nat -> node.
  Variable dom : node -> list nat.
  Variable q : node -> (node -> nat) -> Q.
  Definition rcpt v a := Q2R (q v a).
  Lemma P_obs_Q S a : P_obs g h dom rcpt S a = Q2R (sumsQ dom (diff (vars g h) S) (prodlQ q (vars g h)) a).
  Proof. unfold P_obs. rewrite <- sums_Q. apply sums_eq. intros b. apply prodl_Q. Qed.
  Lemma P_do_Q X S a :
    P_do g h dom rcpt X S a = Q2R (sumsQ dom (diff (diff (vars g h) X) S) (prodlQ q (diff (vars g h) X)) a).
  Proof. unfold P_do. rewrite <- sums_Q. apply sums_eq. intros b. apply prodl_Q. Qed.
End RatScm.
