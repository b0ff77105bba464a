(** Properties C26, C27, C28: the ID algorithm. *)
From Coq Require Import QArith Qreals.
From Verif Require Import Base NxModel NxSpec ReachProofs NxProofs GraphModel GraphSpec GraphProofs ExplicitProofs
  GraphProps CausalModel Bn ScmSpec ScmProofs BackdoorSpec BackdoorProofs BackdoorProps PathSpec PathProofs PathProps
  Rational IdProofs.
Set Implicit Arguments.
Local Open Scope string_scope.
Local Open Scope list_scope.
Local Open Scope nat_scope.

(** networkx's sorter as modelled, one of the sorters the theorems allow *)
Lemma topo_order_spec : topo_spec topo_order.
Proof.
  intros g ND D. destruct (C10_topo_order g ND D) as (l & H1 & H2 & H3 & H4). exists l. split; auto. split; auto. split; [|exact H4].
  intros v. rewrite H3. unfold is_parent. split; intros (m & H); exists m; tauto.
Qed.

(** A question to the graph: outcomes and treatments are distinct names of the graph, none in both. *)
Record query (g : cg) (y x : list node) : Prop := {
  q_y : incl y (keys (causation g));
  q_x : incl x (keys (causation g));
  q_some : y <> [];
  q_disj : forall v, In v y -> ~ In v x }.
Definition no_arcs (g : cg) : Prop := latent_confounding_arcs g = [].
(** every name has an edge or an arc *)
Definition all_drawn (g : cg) : Prop := forall v, In v (keys (causation g)) -> drawn g v.

Lemma drawn_dag g v : user_graph g -> drawn g v -> In v (keys (causation g)) -> In v (nodes (dag g)).
Proof.
  intros U (m & H) Hv. pose proof (ug_wf U) as W.
  assert (G : forall a b, cause g uname a b -> In v [a; b] -> In v (nodes (dag g))).
  { intros a b [Hp|(i & c & d & Hi & -> & Hb)] Hab.
    - destruct (parent_nodes W _ _ Hp). destruct Hab as [<-|[<-|[]]]; auto.
    - destruct Hab as [<-|[<-|[]]]; [elim (ug_names U i Hv)|]. apply nth_error_In in Hi.
      assert (Ha : arcE g c d) by (apply (latent_arcs_spec W (ug_sym U) (ug_acyclic U)); left; exact Hi).
      assert (He : ed (dag g) c d) by (exists Kn; exact Ha). apply (wf_ends (gwf_wf (wc_dag W))) in He. destruct Hb; subst; tauto. }
  destruct H as [H|H]; [apply (G v m H)|apply (G m v H)]; simpl; auto.
Qed.
Lemma no_arcs_arc g : user_graph g -> no_arcs g -> forall a b, ~ arcE g a b.
Proof.
  intros U N a b H. apply (latent_arcs_spec (ug_wf U) (ug_sym U) (ug_acyclic U)) in H. rewrite N in H. destruct H as [[]|[]].
Qed.

(* ------------------------------------------------------------------ C26 *)
(** Whatever order the sorter chooses: the estimand returned by a run in which steps 6 and 7 are reached only with the
    original distribution ([id_strict], which answers exactly what [id] answers) denotes P(y|do(x)) in every compatible
    model.  Missing: the runs in which step 6 or 7 is reached with a distribution made by an earlier step 7
    (where the code is wrong, see C26_refuted), and names without any edge or arc (C26_refuted_isolated). *)
Theorem C26_id_sound_partial topo g y x r h dom cpt a : topo_spec topo ->
  user_graph g -> all_drawn g -> query g (raw_set y) (raw_set x) -> hidden_fresh g h -> compatible g h dom cpt ->
  id_strict topo g y x = Ok r ->
  CausalModel.id topo g y x = Ok r /\ eval g h dom cpt r a = P_do g h dom cpt (raw_set x) (raw_set y) a.
Proof.
  intros T U D [Hy Hx _ Hd] HF M H. split; [now apply idg_strict|].
  assert (D' : forall v, In v (keys (causation g)) -> In v (nodes (dag g))) by (intros v Hv; apply drawn_dag; auto).
  assert (ND : forall n, NoDup (raw_set n)) by (intros []; apply dedup_NoDup).
  rewrite (@P_do_target g U D' h HF dom cpt M) by auto. unfold id_strict in H.
  eapply (@idg_sound g U D' h HF dom cpt M topo T); eauto using sub_self.
  left. exists (keys (causation g)). split; auto. intros q v _ Hq. now apply (parent_keys (ug_wf U) (ug_closed U)) in Hq.
Qed.
(** Without latent arcs: the call returns, and the estimand is right. *)
Theorem C26_id_without_arcs topo g y x h dom cpt : topo_spec topo ->
  user_graph g -> all_drawn g -> no_arcs g -> query g (raw_set y) (raw_set x) -> hidden_fresh g h -> compatible g h dom cpt ->
  exists r, CausalModel.id topo g y x = Ok r /\ forall a, eval g h dom cpt r a = P_do g h dom cpt (raw_set x) (raw_set y) a.
Proof.
  intros T U D N Q HF M.
  assert (D' : forall v, In v (keys (causation g)) -> In v (nodes (dag g))) by (intros v Hv; apply drawn_dag; auto).
  assert (G : good g true (id_strict topo g y x)).
  { unfold id_strict. apply (@idg_total g U D' topo T true); try apply Q; auto using sub_self. left. unfold id_fuel. lia. }
  assert (NA : ~ has_arc g) by (intros (a & b & H); exact (no_arcs_arc U N a b H)).
  destruct (id_strict topo g y x) as [r|e] eqn:E; [|exfalso; destruct e; cbn in G; tauto].
  exists r. split; [now apply idg_strict|]. intros a. now apply (@C26_id_sound_partial topo g y x r h dom cpt a T U D Q HF M E).
Qed.

(** the front-door graph: the classical use of the algorithm *)
Definition g26 := init [("X", []); ("M", ["X"]); ("Y", ["M"])] None [("X", "Y")].
Lemma g26_ok : user_graph g26.
Proof. user_graph. Qed.
Lemma drawn_all g : user_graph g -> subset (keys (causation g)) (nodes (explicit_unob_var_dag g)) = true -> all_drawn g.
Proof. intros U H v Hv. apply drawn_nodes; auto. apply subset_spec in H. auto. Qed.
Lemma query_by g y x : subset y (keys (causation g)) && subset x (keys (causation g)) && is_nil (inter y x) = true -> y <> [] ->
  query g y x.
Proof.
  intros H Hy. apply andb_true_iff in H as [H H3]. apply andb_true_iff in H as [H1 H2]. split; auto; try now apply subset_spec.
  intros v Hv Hx. apply is_nil_spec in H3. assert (Hc : In v (inter y x)) by now apply inter_In. rewrite H3 in Hc. destruct Hc.
Qed.
Definition r26 : prob := Pr [] [] ["M"] [Pr [] [] [] [Pr ["M"] ["X"] [] []];
  Pr [] [] ["X"] [Pr ["X"] [] [] []; Pr ["Y"] ["X"; "M"] [] []]].
Example C26_example : all_drawn g26 /\ query g26 ["Y"] ["X"] /\ hidden_fresh g26 uname /\
  compatible g26 uname (fun _ => [0; 1]) (fun _ _ => (/ 2)%R) /\
  id_strict topo_order g26 (SetOf ["Y"]) (SetOf ["X"]) = Ok r26.
Proof.
  split; [apply drawn_all; [apply g26_ok|reflexivity]|]. split; [now apply query_by|].
  split; [apply ug_fresh, g26_ok|]. split; [apply coins|reflexivity].
Qed.
(** The front-door formula, for every model of that graph. *)
Example C26_frontdoor_formula dom cpt a : compatible g26 uname dom cpt ->
  eval g26 uname dom cpt r26 a = P_do g26 uname dom cpt ["X"] ["Y"] a.
Proof.
  intros M. destruct C26_example as (D & Q & HF & _ & H).
  exact (proj2 (@C26_id_sound_partial topo_order g26 (SetOf ["Y"]) (SetOf ["X"]) r26 uname dom cpt a topo_order_spec g26_ok D Q HF M H)).
Qed.
Definition g28 := init [("X", []); ("Z", ["X"]); ("W", ["X"; "Z"]); ("Y", ["W"; "Z"])] None [].
Lemma g28_ok : user_graph g28.
Proof. user_graph. Qed.
Example C26_without_arcs_example : all_drawn g28 /\ no_arcs g28 /\ query g28 ["Y"] ["Z"; "W"] /\ query g28 ["Y"] ["Z"].
Proof.
  split; [apply drawn_all; [apply g28_ok|reflexivity]|]. split; [reflexivity|]. split; now apply query_by.
Qed.

(** The napkin graph: the answer P(Y|X) is wrong. *)
Definition napkin := init [("W", []); ("Z", ["W"]); ("X", ["Z"]); ("Y", ["X"])] None [("W", "X"); ("W", "Y")].
Lemma napkin_ok : user_graph napkin.
Proof. user_graph. Qed.
(** noisy copies along U1 -> W -> Z -> X and U1 -> Y; U0 and the edge X -> Y without effect *)
Definition copy (v p : node) (a : node -> nat) : Q :=
  if Bool.eqb (Nat.odd (a v)) (Nat.odd (a p)) then 3 # 4 else 1 # 4.
Definition nap_q (v : node) : (node -> nat) -> Q :=
  match v with
  | "W" => copy "W" "U1" | "Z" => copy "Z" "W" | "X" => copy "X" "Z" | "Y" => copy "Y" "U1"
  | _ => fun _ => 1 # 2
  end.
Lemma copy_sum v p a : p <> v -> sumv (fun _ => [0; 1]) v (fun b => Q2R (copy v p b)) a = 1%R.
Proof.
  intros N. unfold sumv, sumR, copy. rewrite !upd_same, !upd_other by auto.
  destruct (Nat.odd (a p)); cbn; unfold Q2R; cbn; lra.
Qed.
Lemma copy_dep v p : dep (fun b => Q2R (copy v p b)) (fun w => w = v \/ w = p).
Proof. intros a b H. unfold copy. rewrite (H v), (H p); auto. Qed.
Lemma nap_compatible : compatible napkin uname (fun _ => [0; 1]) (rcpt nap_q).
Proof.
  assert (C : forall v, In v (vars napkin uname) ->
    (exists p, p <> v /\ cause napkin uname p v /\ nap_q v = copy v p) \/ nap_q v = fun _ => 1 # 2).
  { intros v Hv. vm_compute in Hv. 
    repeat (destruct Hv as [<-|Hv]; [|]); try destruct Hv; try (right; reflexivity); left;
      [exists "U1"|exists "W"|exists "Z"|exists "U1"]; (split; [discriminate|]; split; [|reflexivity]);
      apply (@cause_list napkin _ _ napkin_ok); vm_compute; tauto. }
  split; [discriminate| | |].
  - intros v Hv. unfold rcpt. destruct (C v Hv) as [(p & _ & Hp & ->)| ->].
    + eapply dep_mono; [apply copy_dep|]. intros w [->| ->]; auto.
    + intros a b _. reflexivity.
  - intros v a Hv. unfold rcpt. destruct (C v Hv) as [(p & Np & _ & ->)| ->]; [now apply copy_sum|].
    unfold sumv, sumR, Q2R. cbn. lra.
  - intros v a Hv. unfold rcpt. destruct (C v Hv) as [(p & Np & _ & ->)| ->].
    + unfold copy. destruct (Bool.eqb _ _); unfold Q2R; cbn; lra.
    + unfold Q2R; cbn; lra.
Qed.
Theorem C26_refuted : exists g y x r dom cpt a,
  user_graph g /\ all_drawn g /\ query g y x /\ compatible g uname dom cpt /\
  CausalModel.id topo_order g (SetOf y) (SetOf x) = Ok r /\
  eval g uname dom cpt r a <> P_do g uname dom cpt x y a.
Proof.
  exists napkin, ["Y"], ["X"], (Pr [] [] [] [Pr ["Y"] ["X"] [] []]), (fun _ => [0; 1]), (rcpt nap_q), (fun _ => 1).
  split; [apply napkin_ok|]. split; [apply drawn_all; [apply napkin_ok|reflexivity]|]. split; [now apply query_by|].
  split; [apply nap_compatible|]. split; [reflexivity|].
  cbn [eval sums fold_right]. unfold P_cond at 1 2. cbn [app].
  rewrite !P_obs_Q, P_do_Q.
  set (q1 := sumsQ _ (diff (vars napkin uname) ["Y"; "X"]) _ _).
  set (q2 := sumsQ _ (diff (vars napkin uname) ["X"]) (prodlQ nap_q (vars napkin uname)) _).
  set (q3 := sumsQ _ _ (prodlQ nap_q (diff _ _)) _).
  assert (H1 : (q1 == 17 # 64)%Q) by (vm_compute; reflexivity).
  assert (H2 : (q2 == 1 # 2)%Q) by (vm_compute; reflexivity).
  assert (H3 : (q3 == 1 # 2)%Q) by (vm_compute; reflexivity).
  rewrite (Qeq_eqR _ _ H1), (Qeq_eqR _ _ H2), (Qeq_eqR _ _ H3). unfold Q2R. cbn. lra.
Qed.
(** A name without edges and arcs: the outcome Y gets lost. *)
Theorem C26_refuted_isolated : exists g y x r dom cpt a,
  user_graph g /\ no_arcs g /\ query g y x /\ compatible g uname dom cpt /\
  CausalModel.id topo_order g (SetOf y) (SetOf x) = Ok r /\
  eval g uname dom cpt r a <> P_do g uname dom cpt x y a.
Proof.
  exists (init [("X", []); ("B", ["X"]); ("Y", [])] None []), ["Y"; "B"], ["X"], (Pr [] [] [] [Pr ["B"] ["X"] [] []]),
    (fun _ => [0; 1]), (fun _ _ => (/ 2)%R), (fun _ => 1).
  split; [user_graph|]. split; [reflexivity|]. split; [now apply query_by|]. split; [apply coins|]. split; [reflexivity|].
  cbn. unfold P_obs, P_do, sumv. cbn. lra.
Qed.

(* ------------------------------------------------------------------ C27 *)
(** The run ends within 4(|V|+1) nested calls with a Prob, an IdentificationError or a ValueError.  Missing: names
    without any edge or arc, and that ValueError never happens (it does: C27_refuted). *)
Theorem C27_id_terminates_partial topo g y x : topo_spec topo ->
  user_graph g -> all_drawn g -> query g (raw_set y) (raw_set x) ->
  (exists r, CausalModel.id topo g y x = Ok r) \/ CausalModel.id topo g y x = Err IdentificationError \/
  CausalModel.id topo g y x = Err ValueError.
Proof.
  intros T U D Q.
  assert (D' : forall v, In v (keys (causation g)) -> In v (nodes (dag g))) by (intros v Hv; apply drawn_dag; auto).
  assert (G : good g false (CausalModel.id topo g y x)).
  { unfold CausalModel.id. apply (@idg_total g U D' topo T false); try apply Q; auto using sub_self. left. unfold id_fuel. lia. }
  destruct (CausalModel.id topo g y x) as [r|[]]; cbn in G; try tauto; eauto. now destruct G.
Qed.
(** More fuel gives the same result: the model's bound on the recursion is no restriction. *)
Lemma mapM_weak {A B} (f f' : A -> res B) l e : (forall a e, f a = Err e -> e <> OutOfFuel -> f' a = Err e) ->
  (forall a b, f a = Ok b -> f' a = Ok b) -> mapM f l = Err e -> e <> OutOfFuel -> mapM f' l = Err e.
Proof.
  intros H1 H2. induction l as [|a l IH]; cbn [mapM]; [discriminate|]. destruct (f a) as [b|e'] eqn:Ef; cbn [bind].
  - rewrite (H2 a b Ef). cbn [bind]. destruct (mapM f l) as [bs|e'']; cbn [bind]; [discriminate|]. intros [= ->] He. now rewrite IH.
  - intros [= ->] He. now rewrite (H1 a e Ef He).
Qed.
Lemma idg_more topo strict fuel : forall k y x p g r, fuel <= k -> idg topo strict fuel y x p g = r -> r <> Err OutOfFuel ->
  idg topo strict k y x p g = r.
Proof.
  induction fuel as [|f IH]; intros k y x p g r Hk; [intros <- []; reflexivity|]. destruct k as [|k]; [lia|].
  assert (Hk' : f <= k) by lia. cbn [idg]. destruct (topo g) as [pre|e]; cbn [bind]; auto. destruct (is_nil x); auto.
  destruct (negb _). { destruct (build_sub_graph _ _); cbn [bind]; auto. }
  destruct (remove_incoming_edges_new g x) as [gx|]; cbn [bind]; auto. destruct (negb _); auto.
  destruct (c_components (remove_nodes_new g x)) as [|s [|s2 cs]]; auto.
  - destruct (c_components g) as [|c0 cs]; auto. destruct (seteq c0 _); auto. destruct (strict && _); auto.
    destruct (existsb _ _); auto. destruct (find _ _); auto. destruct (mapM (factor pre) l); cbn [bind]; auto.
    destruct (build_sub_graph g l); cbn [bind]; auto.
  - set (c := s :: s2 :: cs). destruct (mapM _ c) as [ps|e] eqn:Em; cbn [bind]; intros <- Hr.
    + rewrite (@mapM_mono _ _ (fun s0 => idg topo strict f s0 (diff (keys (causation g)) s0) p g)
                 (fun s0 => idg topo strict k s0 (diff (keys (causation g)) s0) p g) c ps); auto.
      intros a b Hab. now apply (IH k _ _ _ _ _ Hk' Hab).
    + rewrite (@mapM_weak _ _ (fun s0 => idg topo strict f s0 (diff (keys (causation g)) s0) p g)
                 (fun s0 => idg topo strict k s0 (diff (keys (causation g)) s0) p g) c e); auto; [| |congruence].
      * intros a e' Ha He. apply (IH k _ _ _ _ _ Hk' Ha). congruence.
      * intros a b Hab. now apply (IH k _ _ _ _ _ Hk' Hab).
Qed.
Theorem C27_fuel_irrelevant topo g y x k : id_fuel g <= k -> CausalModel.id topo g y x <> Err OutOfFuel ->
  idg topo false k (raw_set y) (raw_set x) (graph_prob g) g = CausalModel.id topo g y x.
Proof. intros H1 H2. unfold CausalModel.id in *. now apply (@idg_more topo false (id_fuel g)). Qed.
Example C27_example : all_drawn napkin /\ query napkin ["Y"] ["X"] /\
  CausalModel.id topo_order (init [("Z", []); ("X", ["Z"]); ("Y", ["X"])] None [("X", "Y")]) (SetOf ["Y"]) (SetOf ["X"])
    = Err IdentificationError.
Proof.
  split; [apply drawn_all; [apply napkin_ok|reflexivity]|]. split; [now apply query_by|reflexivity].
Qed.
(** A ValueError although the empty set is a valid adjustment set, so that P(Y|do(X)) = P(Y|X) is identified. *)
Theorem C27_refuted : exists g y x, user_graph g /\ all_drawn g /\ query g y x /\
  CausalModel.id topo_order g (SetOf y) (SetOf x) = Err ValueError /\
  forall dom cpt a, compatible g uname dom cpt ->
    adjustment g uname dom cpt x y [] a = P_do g uname dom cpt x y a.
Proof.
  set (g := init [("A", []); ("X", []); ("B", ["X"]); ("Y", ["A"; "B"])] None [("A", "B")]).
  assert (U : user_graph g) by user_graph.
  exists g, ["Y"], ["X"]. split; auto. split; [apply drawn_all; auto; reflexivity|]. split; [now apply query_by|].
  split; [reflexivity|]. intros dom cpt a M.
  assert (HK : incl (["X"] ++ ["Y"] ++ []) (keys (causation g))) by (apply subset_spec; reflexivity).
  apply (@criterion_adjustment g U ["X"] (fun v Hv => HK v (in_or_app _ _ v (or_introl Hv))) dom cpt M ["Y"] [] a); auto;
    try (repeat constructor; simpl; tauto). split; [intros x v _ []|].
  intros l (x & y & [<-|[]] & [<-|[]] & (Hn & Hw & l' & -> & Hl) & Hin) _.
  destruct l' as [|c l]; [discriminate Hl|]. cbn [NxSpec.uwalk] in Hw. cbn [into] in Hin.
  destruct Hin as (Hin & _). destruct Hw as [[Hw|Hw] _]; [apply (Hin Hw); now left|].
  apply (@cause_list g _ _ U) in Hw. vm_compute in Hw. intuition congruence.
Qed.
(** Outcome and treatment overlapping: IndexError.  Names as strings are split into letters: the names t1 and y1 are
    not found. *)
Theorem C27_refuted_overlap : CausalModel.id topo_order napkin (SetOf ["Y"]) (SetOf ["Y"]) = Err IndexError.
Proof. reflexivity. Qed.
Definition g27s := init [("t1", []); ("m1", ["t1"]); ("y1", ["m1"])] None [("t1", "y1")].
Theorem C27_refuted_strings :
  CausalModel.id topo_order g27s (Str "y1") (Str "t1") = Err AssertionError /\
  exists r, CausalModel.id topo_order g27s (SetOf ["y1"]) (SetOf ["t1"]) = Ok r.
Proof. split; [reflexivity|]. eexists. vm_compute. reflexivity. Qed.

(* ------------------------------------------------------------------ C28 *)
Theorem C28_no_arcs topo g y x : topo_spec topo -> user_graph g -> no_arcs g ->
  (forall v, In v (raw_set y) -> ~ In v (raw_set x)) -> CausalModel.id topo g y x <> Err IdentificationError.
Proof.
  intros T U N Hd. apply idg_noarc; auto. split; [apply U|]. split; [apply (ug_acyclic U)|now apply no_arcs_arc].
Qed.
Theorem C28_no_arcs_succeeds topo g y x : topo_spec topo -> user_graph g -> all_drawn g -> no_arcs g ->
  query g (raw_set y) (raw_set x) -> exists r, CausalModel.id topo g y x = Ok r.
Proof.
  intros T U D N Q. destruct (@C26_id_without_arcs topo g y x uname _ _ T U D N Q (ug_fresh U) (coins g uname)) as (r & H & _). eauto.
Qed.
Example C28_example : no_arcs g28 /\ exists r, CausalModel.id topo_order g28 (SetOf ["Y"]) (SetOf ["Z"; "W"]) = Ok r.
Proof. split; [reflexivity|]. eexists. vm_compute. reflexivity. Qed.

Print Assumptions C26_id_sound_partial.
Print Assumptions C26_id_without_arcs.
Print Assumptions C26_refuted.
Print Assumptions C26_refuted_isolated.
Print Assumptions C27_id_terminates_partial.
Print Assumptions C27_fuel_irrelevant.
Print Assumptions C27_refuted.
Print Assumptions C28_no_arcs.
Print Assumptions C28_no_arcs_succeeds.
