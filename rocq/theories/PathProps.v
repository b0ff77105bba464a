(** Properties C19-C21: backdoor paths and colliders. *)
From Verif Require Import Base NxModel NxSpec ReachProofs NxProofs GraphModel GraphSpec GraphProofs ExplicitProofs
  GraphProps CausalModel Bn BnProofs ScmSpec ScmProofs PowersetProofs BackdoorSpec BackdoorProofs BackdoorProps
  PathSpec PathProofs.
Set Implicit Arguments.
Local Open Scope string_scope.
Local Open Scope list_scope.

(** a name occurs in the drawn graph iff some edge (observed or from a latent variable) touches it *)
Definition drawn (g : cg) (v : node) : Prop := exists m, cause g uname v m \/ cause g uname m v.
Lemma drawn_nodes g v : user_graph g -> (In v (nodes (explicit_unob_var_dag g)) <-> drawn g v).
Proof.
  intros U. rewrite (explicit_nodes (ug_wf U)). unfold drawn, cause, is_parent. split.
  - intros [(m & H)|(i & a & b & Hi & [->|[->| ->]])].
    + exists m. tauto.
    + exists a. left. right. exists i, a, b. auto.
    + exists (uname i). right. right. exists i, a, b. auto.
    + exists (uname i). right. right. exists i, a, b. auto.
  - intros (m & [[H|(i & a & b & Hi & -> & _)]|[H|(i & a & b & Hi & -> & Hv)]]).
    + left. eauto. + right. exists i, a, b. auto. + left. eauto. + right. exists i, a, b. tauto.
Qed.
(** the edges of a concrete graph, as a list *)
Lemma cause_list g p v : user_graph g ->
  (cause g uname p v <-> In (p, v) (map fst (edges (explicit_unob_var_dag g)))).
Proof.
  intros U. rewrite <- (X_ed U). unfold ed. rewrite in_map_iff. split.
  - intros (k & H). exists (p, v, k). auto. - intros ([[a b] k] & H & Hi). cbn in H. injection H as -> ->. eauto.
Qed.
Lemma drawn_by g l : user_graph g -> subset l (nodes (explicit_unob_var_dag g)) = true -> forall v, In v l -> drawn g v.
Proof. intros U H v Hv. apply drawn_nodes; auto. apply subset_spec in H. auto. Qed.

(* ------------------------------------------------------------------ C19 *)
Theorem C19_get_backdoor_path g t o : user_graph g -> t <> o ->
  In t (keys (causation g)) -> In o (keys (causation g)) -> drawn g t -> drawn g o ->
  exists ps, get_backdoor_path g t o = Ok ps /\ NoDup ps /\
    forall p, In p ps <-> backdoor_path (cause g uname) p t o.
Proof. intros U Hne Kt Ko Nt No. apply get_backdoor_path_spec; auto; now apply drawn_nodes. Qed.
(** the two ends may not be names without edges: those raise NodeNotFound *)
Example C19_isolated : get_backdoor_path (init [("A", []); ("B", []); ("C", ["B"])] None []) "A" "C" = Err NodeNotFound.
Proof. reflexivity. Qed.
Definition g19 := init [("Z", []); ("W", ["Z"]); ("X", ["Z"; "W"]); ("Y", ["X"; "W"])] None [("X", "Y")].
Lemma g19_ok : user_graph g19.
Proof. user_graph. Qed.
Example C19_example : drawn g19 "X" /\ drawn g19 "Y" /\
  get_backdoor_path g19 "X" "Y" = Ok [["X"; "Z"; "W"; "Y"]; ["X"; "W"; "Y"]; ["X"; "U0"; "Y"]].
Proof.
  split; [|split; [|reflexivity]]; (apply (@drawn_by g19 ["X"; "Y"] g19_ok); [reflexivity|simpl; auto]).
Qed.

(* ------------------------------------------------------------------ C20 *)
(** Exact behaviour on every path with at least three nodes: besides the colliders, the code also answers True on
    paths of four or more nodes all of whose edges point backward. *)
Theorem C20_has_collider g p : user_graph g -> uwalk (cause g uname) p -> 3 <= List.length p ->
  exists b : bool, has_collider g p true = Ok b /\
    (b = true <-> has_coll (cause g uname) p \/ (~ some_forward (cause g uname) p /\ 4 <= List.length p)).
Proof.
  intros U Hw Hl. apply has_collider_exact; auto. intros v Hv. apply drawn_nodes; auto.
  destruct (in_split _ _ Hv) as (l1 & l2 & ->). destruct l2 as [|c l2].
  - destruct (@exists_last _ l1) as (q & y & ->); [intros ->; simpl in Hl; lia|].
    rewrite <- app_assoc in Hw. cbn in Hw. clear - Hw.
    induction q as [|a [|b q] IH]; cbn [app uwalk] in Hw; [|apply IH; apply Hw|apply IH; apply Hw].
    exists y. tauto.
  - clear - Hw. induction l1 as [|a [|b q] IH]; cbn [app uwalk] in Hw; [|apply IH; apply Hw|apply IH; apply Hw].
    exists c. tauto.
Qed.
(** Missing for the full claim: long paths without any forward edge (C20_refuted). *)
Theorem C20_has_collider_partial g p : user_graph g -> uwalk (cause g uname) p -> 3 <= List.length p ->
  some_forward (cause g uname) p \/ List.length p = 3 ->
  exists b : bool, has_collider g p true = Ok b /\ (b = true <-> has_coll (cause g uname) p).
Proof.
  intros U Hw Hl Hf. destruct (C20_has_collider p U Hw Hl) as (b & Hb & Hs). exists b. split; auto. rewrite Hs.
  split; [intros [H|[H H']]|]; auto. destruct Hf; [tauto|lia].
Qed.
(** Whatever backdoor_path is, the answer is right for paths that start with a forward edge. *)
Theorem C20_forward g x y r flag : user_graph g -> uwalk (cause g uname) (x :: y :: r) -> r <> [] ->
  cause g uname x y ->
  exists b : bool, has_collider g (x :: y :: r) flag = Ok b /\ (b = true <-> has_coll (cause g uname) (x :: y :: r)).
Proof.
  intros U Hw Hr Hxy. destruct flag.
  - destruct (@C20_has_collider_partial g (x :: y :: r) U Hw) as (b & Hb & Hs).
    + destruct r; [easy|simpl; lia]. + left. exists [], x, y, r. auto. + eauto.
  - assert (Hl : 3 <= List.length (x :: y :: r)) by (destruct r; [easy|simpl; lia]).
    destruct (C20_has_collider (x :: y :: r) U Hw Hl) as (b0 & Hb0 & _).
    unfold has_collider in *. destruct (check_nodes _ _) as [[]|]; [|discriminate]. cbn [bind] in *.
    destruct (Nat.leb (List.length (x :: y :: r)) 2) eqn:Hl2; [apply Nat.leb_le in Hl2; lia|].
    destruct (negb _); [discriminate|]. cbn [andb].
    eexists. split; [reflexivity|]. now apply any_back_fwd.
Qed.
Definition g20 := init [("D", []); ("C", ["D"]); ("B", ["C"]); ("A", ["B"])] None [].
Lemma g20_ok : user_graph g20.
Proof. user_graph. Qed.
Lemma g20_parent a b : cause g20 uname a b -> (a, b) = ("D", "C") \/ (a, b) = ("C", "B") \/ (a, b) = ("B", "A").
Proof. intros H. apply (@cause_list g20 a b g20_ok) in H. vm_compute in H. intuition congruence. Qed.
Theorem C20_refuted :
  exists g p, user_graph g /\ uwalk (cause g uname) p /\ NoDup p /\ has_collider g p true = Ok true /\
    ~ has_coll (cause g uname) p.
Proof.
  exists g20, ["A"; "B"; "C"; "D"]. split; [apply g20_ok|]. split; [|split; [|split]].
  - cbn [uwalk]. repeat split; right; left; vm_compute; auto.
  - repeat constructor; simpl; intuition discriminate.
  - reflexivity.
  - intros (l1 & a & m & b & l2 & He & H1 & H2).
    apply g20_parent in H1, H2.
    destruct H1 as [H1|[H1|H1]]; injection H1 as -> ->; destruct H2 as [H2|[H2|H2]]; inversion H2; subst;
      repeat (destruct l1 as [|? l1]; [discriminate|]; (discriminate || (injection He as He1 He; subst))).
Qed.
Example C20_example :
  uwalk (cause g19 uname) ["X"; "Z"; "W"; "Y"; "U0"] /\ some_forward (cause g19 uname) ["X"; "Z"; "W"; "Y"; "U0"] /\
  has_collider g19 ["X"; "Z"; "W"; "Y"; "U0"] true = Ok true /\ has_collider g19 ["X"; "Z"; "W"; "Y"] true = Ok false.
Proof.
  assert (E1 : cause g19 uname "Z" "X") by (left; vm_compute; auto).
  assert (E2 : cause g19 uname "Z" "W") by (left; vm_compute; auto).
  assert (E3 : cause g19 uname "W" "Y") by (left; vm_compute; auto).
  assert (E4 : cause g19 uname "U0" "Y") by (right; exists 0, "X", "Y"; vm_compute; auto).
  split; [cbn [uwalk]; tauto|]. split; [exists ["X"], "Z", "W", ["Y"; "U0"]; auto|]. split; reflexivity.
Qed.

(* ------------------------------------------------------------------ C21 *)
Theorem C21_is_connected g x y r : user_graph g ->
  let p := x :: y :: r in let E := cause g uname in
  uwalk E p -> E y x -> In x (keys (causation g)) -> In (last p x) (keys (causation g)) ->
  exists b : bool, is_connected_backdoor_path g p = Ok b /\
    (b = true <-> backdoor_path E p x (last p x) /\ ~ has_coll E p /\ (some_forward E p \/ List.length p = 3)).
Proof.
  intros U p E Hw Hyx Kx Kl. unfold is_connected_backdoor_path.
  assert (HX : incl p (nodes (explicit_unob_var_dag g))).
  { intros v Hv. apply drawn_nodes; auto. subst p. destruct (in_split _ _ Hv) as (l1 & l2 & He).
    destruct l1 as [|a l1]; cbn in He; inversion He; subst; [exists y; now right|].
    clear Hv He Kl. fold E in Hw. cbn [uwalk] in Hw. destruct (@exists_last _ (a :: l1)) as (q & z & Hq); [discriminate|].
    change (uwalk E (a :: y :: r)) in Hw. rewrite H1 in Hw. 
    assert (Hw' : uwalk E (q ++ z :: v :: l2)).
    { replace (q ++ z :: v :: l2) with ((a :: l1) ++ v :: l2); auto. rewrite Hq, <- app_assoc. reflexivity. }
    clear - Hw'. induction q as [|c [|d q] IH]; cbn [app uwalk] in Hw'; [|apply IH; apply Hw'|apply IH; apply Hw'].
    exists z. tauto. }
  subst p. rewrite (proj2 (check_nodes_ok _ _) HX). cbn [bind].
  rewrite (proj2 (mem_In _ _) (proj2 (X_pred U y x) Hyx)). cbn [negb].
  assert (NS : List.length (x :: y :: r) <> 3 -> ~ some_forward E (x :: y :: r) -> List.length (x :: y :: r) = 2 \/ 4 <= List.length (x :: y :: r)).
  { simpl. lia. }
  assert (GB : exists ps, get_backdoor_path g x (last (x :: y :: r) x) = Ok ps /\
                 (In (x :: y :: r) ps <-> backdoor_path E (x :: y :: r) x (last (x :: y :: r) x))).
  { set (z := last (x :: y :: r) x) in *. assert (Nx : In x (nodes (explicit_unob_var_dag g))) by (apply HX; now left).
    assert (Nz : In z (nodes (explicit_unob_var_dag g))) by (apply HX, last_In; discriminate).
    destruct (eqb_spec x z) as [Hz|Hz].
    - exists []. split.
      + unfold get_backdoor_path. assert (Hc : check_all (keys (causation g)) [Str x; Str z] = Ok tt).
        { apply check_nodes_ok. intros v Hv. cbn [flat_map app] in Hv. rewrite app_nil_r in Hv.
          apply in_app_iff in Hv as [Hv|Hv]; apply str_items in Hv; subst v; auto. }
        rewrite Hc. cbn [bind]. unfold asp. rewrite (proj2 (mem_In _ _) Nx), (proj2 (mem_In _ _) Nz). cbn [negb].
        rewrite <- Hz. assert (Hm : mem x [x] = true) by (apply mem_In; now left). now rewrite Hm.
      + split; [intros []|]. intros ((ND & _) & _). exfalso. apply NoDup_cons_iff in ND as [Hn _]. apply Hn. rewrite Hz.
        change z with (last (y :: r) x). apply last_In. discriminate.
    - destruct (C19_get_backdoor_path U Hz Kx Kl) as (ps & Hps & _ & Hs); [now apply drawn_nodes|now apply drawn_nodes|].
      exists ps. split; auto. }
  destruct GB as (ps & Hps & Hin). destruct r as [|z r].
  - assert (Hh : has_collider g [x; y] true = Ok false).
    { unfold has_collider. rewrite (proj2 (check_nodes_ok _ _) HX). cbn [bind]. reflexivity. }
    rewrite Hh. cbn [bind]. rewrite Hps. cbn [bind]. exists (mem [x; y] ps). split; auto. rewrite mem_In, Hin.
    split; [intros (_ & b & c & r & H & _); discriminate|tauto].
  - destruct (C20_has_collider (x :: y :: z :: r) U Hw) as (b & Hb & Hs); [simpl; lia|]. rewrite Hb. cbn [bind]. destruct b.
    + exists false. split; auto. split; [discriminate|]. intros (_ & Hc & Hf). destruct (proj1 Hs eq_refl) as [H|[H H']]; [tauto|].
      destruct Hf as [Hf|Hf]; [tauto|]. rewrite Hf in H'. lia.
    + rewrite Hps. cbn [bind]. exists (mem (x :: y :: z :: r) ps). split; auto. rewrite mem_In, Hin.
      split; [|tauto]. intros H. split; auto.
      assert (Hn : ~ (has_coll E (x :: y :: z :: r) \/ ~ some_forward E (x :: y :: z :: r) /\ 4 <= List.length (x :: y :: z :: r))).
      { intros Hc. apply Hs in Hc. discriminate. }
      split; [tauto|].
      destruct (Nat.eq_dec (List.length (x :: y :: z :: r)) 3) as [H3|H3]; auto. left.
      destruct (first_fwd (explicit_unob_var_dag g) (x :: y :: z :: r)) eqn:Hf.
      * exact (@first_fwd_some g U _ _ Hf).
      * apply (first_fwd_none U _ Hw) in Hf. exfalso. apply Hn. right. split; auto. simpl in *. lia.
Qed.
(** Missing for the full claim: long paths without forward edges (C21_refuted). *)
Theorem C21_is_connected_partial g x y r : user_graph g ->
  let p := x :: y :: r in let E := cause g uname in
  uwalk E p -> E y x -> In x (keys (causation g)) -> In (last p x) (keys (causation g)) ->
  some_forward E p \/ List.length p <= 3 ->
  exists b : bool, is_connected_backdoor_path g p = Ok b /\
    (b = true <-> backdoor_path E p x (last p x) /\ ~ has_coll E p).
Proof.
  intros U p E Hw Hyx Kx Kl Hf. destruct (C21_is_connected U Hw Hyx Kx Kl) as (b & Hb & Hs). exists b. split; auto.
  fold p E in Hs. rewrite Hs. split; [tauto|]. intros [H1 H2]. split; auto. split; auto. destruct Hf as [Hf|Hf]; auto.
  right. destruct H1 as (_ & b' & c' & r' & He & _). subst p. injection He as -> ->. simpl in *. lia.
Qed.
Theorem C21_refuted :
  exists g p x y, user_graph g /\ backdoor_path (cause g uname) p x y /\ ~ has_coll (cause g uname) p /\
    is_connected_backdoor_path g p = Ok false.
Proof.
  exists g20, ["A"; "B"; "C"; "D"], "A", "D". split; [apply g20_ok|]. split; [|split; [|reflexivity]].
  - split; [|exists "B", "C", ["D"]; split; auto; left; vm_compute; auto].
    split; [repeat constructor; simpl; intuition discriminate|]. split; [|exists ["B"; "C"; "D"]; auto].
    cbn [uwalk]. repeat split; right; left; vm_compute; auto.
  - intros (l1 & a & m & b & l2 & He & H1 & H2).
    apply g20_parent in H1, H2.
    destruct H1 as [H1|[H1|H1]]; injection H1 as -> ->; destruct H2 as [H2|[H2|H2]]; inversion H2; subst;
      repeat (destruct l1 as [|? l1]; [discriminate|]; (discriminate || (injection He as He1 He; subst))).
Qed.
Example C21_example :
  uwalk (cause g19 uname) ["X"; "Z"; "W"; "Y"] /\ cause g19 uname "Z" "X" /\ some_forward (cause g19 uname) ["X"; "Z"; "W"; "Y"] /\
  is_connected_backdoor_path g19 ["X"; "Z"; "W"; "Y"] = Ok true.
Proof.
  assert (E1 : cause g19 uname "Z" "X") by (left; vm_compute; auto).
  assert (E2 : cause g19 uname "Z" "W") by (left; vm_compute; auto).
  assert (E3 : cause g19 uname "W" "Y") by (left; vm_compute; auto).
  split; [cbn [uwalk]; tauto|]. split; auto. split; [exists ["X"], "Z", "W", ["Y"]; auto|]. reflexivity.
Qed.

Print Assumptions C19_get_backdoor_path.
Print Assumptions C20_has_collider.
Print Assumptions C21_is_connected.
