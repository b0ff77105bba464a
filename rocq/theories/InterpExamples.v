(** The interpreters on concrete data: the hypotheses of C189 - C199 are met, and the defects are reached. *)
From Coq Require Import ZArith Reals Lra String.
From Verif Require Import Base EstUtilsModel EstUtilsProps MetaProofs TreeCritModel TreeCritProps SplitterModel SplitterSpec TreeSpec SplitterProofs CritOk TreeProps TreeExamples
  BestFirstModel BestFirstProofs BestFirstShape BestFirstProps PolicyModel PolicyProps RlossModel InterpModel InterpSpec InterpProofs InterpPolicy InterpProps InterpCe.
Set Implicit Arguments.
Local Notation length := List.length.
Local Open Scope nat_scope.

(** *** PolicyInterpreter on the four units of C100_example *)
Definition cf4 : config := mkConfig PolicyReg env0 pol_g first_largest None.
Lemma cf4_proper : proper cf4.
Proof. split; [exact C96_sane|]. split; [exact C98_takes_largest|]. split; [cbn; lia|]. intros m [=]. Qed.

Definition fit4 (names : option (list string)) (ce : nat -> nat -> R) :=
  @pi_fit unit unit string frame4 (fun _ _ => mkEff 2 ce 4) (fun x => x) (fun _ => 1) cf4 pi_new (mkPA tt None (Some tt) names None (Some (mkEff 2 ce 4))).

Theorem C189_example names ce : exists o, fit4 names ce = (o, Ok tt) /\
  exists es, @pi_interpret unit unit string frame4 (fun x => x) cf4 o None = Ok es /\ length es = 4.
Proof.
  destruct (@C195_fit_succeeds unit unit string frame4 (fun _ _ => mkEff 2 ce 4) (fun x => x) (fun _ => 1) cf4 pi_new
    (mkPA tt None (Some tt) names None (Some (mkEff 2 ce 4))) tt (mkEff 2 ce 4) cf4_proper eq_refl) as [o Ho]; try reflexivity; [discriminate|now left|discriminate|].
  exists o. split; [exact Ho|].
  destruct (@C189_explanation _ _ _ _ _ _ _ cf4 _ _ o None (mkEff 2 ce 4) cf4_proper (fun x => eq_refl) eq_refl Ho eq_refl (le_n 2)) as (es & Ei & L & _); [discriminate|].
  exists es. split; [exact Ei|]. exact L.
Qed.

(** Treatment 1 is the better one for every unit and only treatment 0 has a name: fit accepts the names, interpret recommends, decide raises IndexError. *)
Theorem C191_names_refuted : exists o es, fit4 (Some ["none"%string]) (fun _ k => INR k) = (o, Ok tt) /\
  @pi_interpret unit unit string frame4 (fun x => x) cf4 o None = Ok es /\ length es = 4 /\
  @pi_decide unit unit string frame4 (fun x => x) cf4 o None = Err IndexError.
Proof.
  set (ce := fun _ k : nat => INR k). destruct (C189_example (Some ["none"%string]) ce) as (o & Ho & es & Ei & L). exists o, es.
  split; [exact Ho|]. split; [exact Ei|]. split; [exact L|].
  destruct (@C189_explanation _ _ _ _ _ _ _ cf4 _ _ o None (mkEff 2 ce 4) cf4_proper (fun x => eq_refl) eq_refl Ho eq_refl (le_n 2)) as (es' & Ei' & _ & H); [discriminate|].
  assert (es' = es) as -> by congruence.
  destruct (@C191_agree _ _ _ _ _ _ _ cf4 _ _ o None (mkEff 2 ce 4) cf4_proper (fun x => eq_refl) eq_refl Ho eq_refl (le_n 2)) as (es' & pr & Ei1 & _ & _ & _ & A); [discriminate|].
  assert (es' = es) as -> by congruence. cbn [pa_names] in A. destruct A as (_ & A & _). apply A.
  destruct es as [|e es]; [discriminate|]. exists e. split; [now left|]. cbn [length].
  destruct (H 0 e eq_refl) as (x & _ & _ & Hs & Ht & _ & Hm & _). cbv zeta in *. cbn [ef_out ef_ce] in *.
  set (s := who (ex_lines e) _) in *. clearbody s. destruct (ex_treat e) as [|k]; [|lia]. exfalso.
  specialize (Hm 1 ltac:(lia)).
  assert (M : forall c, mean (fun _ => c) s = c).
  { intros c. unfold mean. assert (forall l : list nat, fold_right Rplus 0%R (map (fun _ => c) l) = (INR (length l) * c)%R) as ->.
    { induction l as [|y l IH]; [cbn; ring|]. cbn [map fold_right length]. rewrite IH, S_INR. ring. }
    assert (INR (length s) <> 0%R). { destruct s; [contradiction|]. apply not_0_INR. discriminate. } field. auto. }
  unfold ce in Hm. rewrite !M in Hm. cbn in Hm. lra.
Qed.

(** *** CEInterpreter: a regressor that makes one split, of feature 0 at 1/2, when there are rows on both sides *)
Definition stump : list node := [mkNode (To 1) (To 2) 0 (1/2) 0 0 0; node0; node0].
Definition low (x : nat -> R) : bool := if Rle_dec (x 0) (1/2) then true else false.
Definition stump_fit (m : mat) (eff : list (list R)) : res stree :=
  match mt_rows m with
  | [] => Err ValueError
  | _ => let nodes := if existsb low (mt_rows m) && existsb (fun x => negb (low x)) (mt_rows m) then stump else [node0] in
         Ok (mkST nodes
               (map (fun j => map (fun k => mean (fun i => nth k (nth i eff []) 0%R) (going nodes (mt_rows m) j))
                                  (seq 0 (match eff with r :: _ => length r | [] => 0 end))) (seq 0 (length nodes)))
               (mt_w m))
  end.

Lemma stump_path x : tree_path stump x = Ok [0; if low x then 1 else 2].
Proof. unfold low. cbn. destruct (Rle_dec (x 0) (1/2)); reflexivity. Qed.

Lemma cast_id v : cast (fun x => x) v = v.
Proof. unfold cast. induction v as [|x v IH]; cbn [map]; [auto|]. now rewrite IH. Qed.

Theorem C196_promise_example : sk_promise (fun x => x) stump_fit /\ sk_means (fun x => x) stump_fit.
Proof.
  split; intros m eff t; unfold stump_fit; rewrite cast_id; destruct (mt_rows m) as [|x0 v] eqn:Ev; try discriminate; intros [= <-]; cbn [st_nf st_nodes st_values].
  - split; [auto|]. change (if (low x0 || existsb low v) && (negb (low x0) || existsb (fun x => negb (low x)) v) then stump else [node0]) with (if existsb low (x0 :: v) && existsb (fun x => negb (low x)) (x0 :: v) then stump else [node0]).
    destruct (existsb low (x0 :: v) && existsb (fun x => negb (low x)) (x0 :: v)) eqn:B.
    + apply andb_prop in B. destruct B as [B1 B2]. apply existsb_exists in B1, B2. destruct B1 as (a & Ha & La), B2 as (b & Hb & Lb). split.
      * intros x. rewrite stump_path. eauto.
      * intros [|[|[|j]]] Hj; [| | |cbn in Hj; lia].
        -- exists a. eexists. split; [auto|]. rewrite stump_path. split; [auto|]. now left.
        -- exists a. eexists. split; [auto|]. rewrite stump_path, La. split; [auto|]. right. now left.
        -- exists b. eexists. split; [auto|]. rewrite stump_path. destruct (low b); [discriminate|]. split; [auto|]. right. now left.
      * reflexivity.
    + split.
      * intros x. exists [0]. reflexivity.
      * intros [|j] Hj; [|cbn in Hj; lia]. exists x0, [0]. split; [now left|]. split; [auto|]. now left.
      * reflexivity.
  - intros j Hj. now rewrite nth_map_seq by auto.
Qed.

(** two units, covariates a and b, effects 10 and 20 *)
Definition data2 : frame := [("a"%string, [0%R; 1%R]); ("b"%string, [1%R; 0%R]); ("y"%string, [5%R; 6%R])].
Definition est2 : cest := mkCE true (Some ["a"%string; "b"%string]) None (fun _ => Ok [[10%R]; [20%R]]).

Lemma dec_le (A : Type) (a b : R) (u w : A) : (a <= b)%R -> (if Rle_dec a b then u else w) = u.
Proof. intros H. destruct (Rle_dec a b); [auto|contradiction]. Qed.
Lemma dec_gt (A : Type) (a b : R) (u w : A) : (b < a)%R -> (if Rle_dec a b then u else w) = w.
Proof. intros H. destruct (Rle_dec a b); [lra|auto]. Qed.

Definition tree2 : stree := mkST stump [[15%R]; [10%R]; [20%R]] 2.
Lemma fit2 : stump_fit (mat_of 2 [[0%R; 1%R]; [1%R; 0%R]]) [[10%R]; [20%R]] = Ok tree2.
Proof.
  unfold stump_fit, mat_of. cbn [seq map mt_rows mt_w length].
  set (r0 := fun c : nat => nth 0 (nth c [[0%R; 1%R]; [1%R; 0%R]] []) 0%R). set (r1 := fun c : nat => nth 1 (nth c [[0%R; 1%R]; [1%R; 0%R]] []) 0%R).
  assert (L0 : low r0 = true) by (unfold low; apply dec_le; cbn; lra). assert (L1 : low r1 = false) by (unfold low; apply dec_gt; cbn; lra).
  cbn [existsb]. rewrite L0, L1. cbn [orb andb negb]. unfold tree2. do 2 f_equal. cbn [length stump seq map].
  assert (G : forall j, going stump [r0; r1] j = (if existsb (Nat.eqb j) [0; 1] then [0] else []) ++ (if existsb (Nat.eqb j) [0; 2] then [1] else [])).
  { intros j. unfold going. cbn [length seq filter]. change (nth 0 [r0; r1] (fun _ => 0%R)) with r0. change (nth 1 [r0; r1] (fun _ => 0%R)) with r1.
    rewrite !stump_path, L0, L1. destruct (existsb (Nat.eqb j) [0; 1]), (existsb (Nat.eqb j) [0; 2]); reflexivity. }
  rewrite !G. unfold mean. cbn. repeat (f_equal; try field).
Qed.

Lemma stump_apply x : tree_apply stump x = Ok (if low x then 1 else 2).
Proof. unfold low. cbn. destruct (Rle_dec (x 0) (1/2)); reflexivity. Qed.
Lemma paths2 : sk_paths (fun x => x) tree2 (mat_of 2 [[0%R; 1%R]; [1%R; 0%R]]) = Ok [[0; 1]; [0; 2]].
Proof.
  unfold sk_paths, sk_rows, mat_of, tree2. cbn [seq map mt_rows mt_w st_nf st_nodes length Nat.eqb bind]. rewrite cast_id. cbn [mapX]. rewrite !stump_path.
  unfold low. rewrite dec_le by (cbn; lra). rewrite dec_gt by (cbn; lra). reflexivity.
Qed.

(** fit succeeds and splits, so C196 - C198 are about something.  Two frames with the same named columns, in another
    order, get the same explanation from interpret and different effects from predict. *)
Theorem C198_swapped_refuted : exists o t fr fr' ess,
  ci_fit (fun x => x) stump_fit ci_new data2 est2 = (o, Ok tt) /\ ci_tree o = Some t /\ length (st_nodes t) = 3 /\
  (forall c, get_col fr c = get_col fr' c) /\
  ci_interpret (fun x => x) o (QFrame fr) = Ok ess /\ ci_interpret (fun x => x) o (QFrame fr') = Ok ess /\
  ci_predict (fun x => x) o fr = Ok [[10%R]] /\ ci_predict (fun x => x) o fr' = Ok [[20%R]].
Proof.
  set (fr := [("a"%string, [0%R]); ("b"%string, [1%R])]). set (fr' := [("b"%string, [1%R]); ("a"%string, [0%R])]).
  eexists _, tree2, fr, fr', [[mkLine 0 0 0 0 true (1/2)]]. split.
  { unfold ci_fit. cbn [est2 ce_fitted ce_cov negb ce_estimate]. 
    change (do m <- mat_cols data2 ["a"%string; "b"%string]; ci_transform (Some est2) m) with (Ok (mat_of 2 [[0%R; 1%R]; [1%R; 0%R]])). cbv iota.
    rewrite fit2, paths2. reflexivity. }
  split; [reflexivity|]. split; [reflexivity|]. split.
  { intros c. unfold fr, fr'. cbn [get_col]. destruct (String.eqb_spec c "a") as [->|]; [reflexivity|]. destruct (String.eqb_spec c "b"); reflexivity. }
  assert (R1 : forall f, f = fr \/ f = fr' -> mat_cols f ["a"%string; "b"%string] = Ok (mat_of 1 [[0%R]; [1%R]])) by (intros f [->| ->]; reflexivity).
  assert (P1 : forall a b : R, sk_predict (fun x => x) tree2 (mat_of 1 [[a]; [b]]) = Ok [if Rle_dec a (1/2) then [10%R] else [20%R]]).
  { intros a b. unfold sk_predict, sk_apply, sk_rows, mat_of, tree2. cbn [seq map mt_rows mt_w st_nf st_nodes length Nat.eqb bind]. rewrite cast_id. cbn [mapX].
    rewrite stump_apply. cbn [bind map st_values]. unfold low. cbn [nth]. destruct (Rle_dec a (1/2)); reflexivity. }
  assert (I1 : (do v <- Ok (mkMat 2 (cast (fun x : R => x) (mt_rows (mat_of 1 [[0%R]; [1%R]]))));
                do paths <- sk_paths (fun x => x) tree2 v; do leaves <- sk_apply (fun x => x) tree2 v; Ok (all_lines (st_nodes tree2) (mt_rows v) leaves paths))
               = Ok [[mkLine 0 0 0 0 true (1/2)]]).
  { cbn [bind]. rewrite cast_id. unfold sk_paths, sk_apply, sk_rows, mat_of, tree2. cbn [seq map mt_rows mt_w st_nf st_nodes length Nat.eqb bind]. rewrite !cast_id. cbn [mapX].
    rewrite stump_path, stump_apply. cbn [bind]. unfold low. cbn [nth]. rewrite !dec_le by lra. cbn. rewrite !dec_le by lra. reflexivity. }
  split; [|split; [|split]].
  - unfold ci_interpret. cbn [ci_fitted negb ci_tree]. unfold ci_features. cbn [ci_cov ci_est]. rewrite R1 by auto. exact I1.
  - unfold ci_interpret. cbn [ci_fitted negb ci_tree]. unfold ci_features. cbn [ci_cov ci_est]. rewrite R1 by auto. exact I1.
  - unfold ci_predict. cbn [ci_est ci_tree]. change (ci_transform (Some est2) (mat_all fr)) with (Ok (mat_of 1 [[0%R]; [1%R]])). cbn [bind]. rewrite P1, dec_le by lra. reflexivity.
  - unfold ci_predict. cbn [ci_est ci_tree]. change (ci_transform (Some est2) (mat_all fr')) with (Ok (mat_of 1 [[1%R]; [0%R]])). cbn [bind]. rewrite P1, dec_gt by lra. reflexivity.
Qed.
Print Assumptions C189_example.
Print Assumptions C191_names_refuted.
Print Assumptions C196_promise_example.
Print Assumptions C198_swapped_refuted.
