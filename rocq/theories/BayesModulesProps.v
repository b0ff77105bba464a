(** Properties C227-C230: the modules of a Bayesian network. *)
From Coq Require Import Reals Lra Lia DecimalString DecimalNat DecimalFacts.
From Verif Require Import Base NxModel NxSpec UtilsModel BayesModel BayesProps BayesModulesModel.
Local Open Scope nat_scope.
Local Open Scope list_scope.
Set Implicit Arguments.
Local Notation length := List.length.

(** ** C227: the guide draws exactly the latent variables of the model *)
Definition same_latents (m : res (list site)) (gd : res (list (str * site))) : Prop :=
  match m, gd with
  | Ok l, Ok d => Permutation l (map snd d) /\ (forall e, In e d -> fst e = sname (snd e))
  | Err e, Err e' => e = e'
  | _, _ => False
  end.
Lemma same_err e : same_latents (Err e) (Err e).
Proof. exact eq_refl. Qed.
#[local] Hint Resolve same_err : core.
Lemma linear_same name ni no r b : same_latents (linear_init name ni no r b) (linear_guide name ni no r b).
Proof.
  unfold linear_init, linear_guide, assert_. destruct (Nat.ltb 0 ni); cbn [bind]; auto.
  destruct (Nat.ltb 0 no); cbn [bind]; auto. destruct r; cbn [random_ok bind]; try reflexivity; destruct b; cbn [same_latents map snd];
    (split; [reflexivity|]); intros e; cbn [In]; intros [<-|H]; try reflexivity; try (destruct H as [<-|[]]); cbn [fst snd]; try easy;
    destruct (Nat.ltb 1 no); reflexivity.
Qed.
Lemma concat_same {X} (f : X -> res (list site)) (h : X -> res (list (str * site))) l :
  (forall x, In x l -> same_latents (f x) (h x)) ->
  same_latents (do ls <- mapE f l ; Ok (List.concat ls)) (do ls <- mapE h l ; Ok (List.concat ls)).
Proof.
  induction l as [|x l IH]; intros H; cbn [mapE bind].
  - cbn. split; [constructor|easy].
  - pose proof (H x (or_introl eq_refl)) as Hx. specialize (IH (fun y Hy => H y (or_intror Hy))).
    destruct (f x) as [a|e]; destruct (h x) as [b|e']; cbn [same_latents bind] in *; try easy.
    destruct (mapE f l) as [la|e]; destruct (mapE h l) as [lb|e']; cbn [same_latents bind] in *; try easy.
    cbn [List.concat]. destruct Hx as (P1 & K1), IH as (P2 & K2). split.
    + rewrite map_app. now apply Permutation_app.
    + intros e [He|He]%in_app_iff; auto.
Qed.
Lemma mlp_same name ni no h r b : same_latents (mlp_init name ni no h r b) (mlp_guide name ni no h r b).
Proof. apply concat_same. intros. apply linear_same. Qed.
Lemma fn_same f o name ni no : same_latents (fn_init f o name ni no) (fn_guide f o name ni no).
Proof. unfold fn_init, fn_guide. destruct f, (o_hidden o); try reflexivity; try apply linear_same; apply mlp_same. Qed.

Lemma module_same a b name st k :
  same_latents (module_init (node_cls a b st k) name st k) (module_guide (node_cls a b st k) name st k).
Proof.
  destruct st as [n|], k as [|k]; cbn [node_cls module_init module_guide is_cat negb assert_ Nat.eqb bind].
  - cbn. split; auto. intros e [<-|[]]; reflexivity.
  - cbn [Nat.ltb Nat.leb bind]. pose proof (fn_same (fst a) (snd a) name (S k) (n_outputs (Cat n))) as H.
    destruct (fn_init _ _ _ _ _), (fn_guide _ _ _ _ _); cbn [same_latents bind] in *; auto. now rewrite app_nil_r.
  - cbn. split; auto. intros e [<-|[<-|[]]]; reflexivity.
  - cbn [Nat.ltb Nat.leb bind]. pose proof (fn_same (fst b) (snd b) name (S k) (n_outputs Num)) as H.
    destruct (fn_init _ _ _ _ _), (fn_guide _ _ _ _ _); cbn [same_latents bind] in *; auto.
    destruct H as (P & K). split.
    + rewrite map_app. cbn [map snd]. rewrite <- Permutation_cons_append. now constructor.
    + intros e [He|[<-|[]]]%in_app_iff; auto.
Qed.

(** for every graph, node states and choice of functions, the hand-written guide fails exactly when the model does, and
    otherwise draws the same latent variables: the same names, with the same distribution families and shapes *)
Theorem C227_guide micat minum g state :
  same_latents (model_latents micat minum g state) (guide micat minum g state).
Proof.
  apply concat_same. intros n _. unfold get_node_function, node_guide.
  destruct (node_state state n) as [st|e]; cbn [bind]; [|reflexivity].
  destruct (get_parents g n) as [ps|e]; cbn [bind]; [|reflexivity]. apply module_same.
Qed.

(** what they are with the classes BayesianModel uses, in plain words.  [p]: number of parents *)
Definition expected_node (n : str) (st : nstate) (p : nat) : list site :=
  match st, p with
  | Cat c, 0 => [Site (n ++ lit "__weight") Dirichlet [] [c]]
  | Cat c, _ => [Site (n ++ lit "__weight") Dirichlet [] [p; c]]
  | Num, 0 => [Site (n ++ lit "__mean") Normal [] []; Site (n ++ lit "__scale") FoldedNormal [] []]
  | Num, _ => [Site (n ++ lit "__scale") FoldedNormal [] []; Site (n ++ lit "__weight") Normal [] [p; 1];
               Site (n ++ lit "__bias") Normal [] []]
  end.
Definition default_cat := (FLinear, Options (Some RDirichlet) (Some false) None).
Definition default_num := (FLinear, no_options).
Definition state_of (state : dict nstate) (n : str) : nstate := match dget state n with Some s => s | None => Num end.
Lemma mapE_ok_map {X Y} (f : X -> res Y) (h : X -> Y) l :
  (forall x, In x l -> f x = Ok (h x)) -> mapE f l = Ok (map h l).
Proof.
  induction l as [|x l IH]; intros H; cbn [mapE map]; auto. rewrite H by now left. cbn [bind]. rewrite IH; auto.
  intros y Hy. apply H. now right.
Qed.
Theorem C227_default g state :
  (forall n, In n (nodes g) -> exists s, dget state n = Some s /\ match s with Cat c => 2 <= c | Num => True end) ->
  model_latents default_cat default_num g state =
  Ok (List.concat (map (fun n => expected_node n (state_of state n) (length (predecessors g n))) (nodes g))).
Proof.
  intros H. unfold model_latents. erewrite mapE_ok_map; [cbn [bind]; reflexivity|].
  intros n Hn. destruct (H n Hn) as (s & Hs & Hc). unfold get_node_function, node_state, state_of, get_parents. rewrite Hs. cbn [bind].
  replace (mem n (nodes g)) with true by (symmetry; now apply mem_In). cbn [bind].
  rewrite (Permutation_length (sorted_perm str_leb (predecessors g n))).
  destruct s as [c|]; destruct (length (predecessors g n)) as [|k]; cbn [node_cls]; try reflexivity.
  destruct c as [|c]; [lia|]. reflexivity.
Qed.
Lemma mapE_map {X Y Z} (f : Y -> res Z) (h : X -> Y) l : mapE f (map h l) = mapE (fun x => f (h x)) l.
Proof. induction l as [|x l IH]; cbn [map mapE]; auto. now rewrite IH. Qed.
Lemma mapE_in_ok {X Y} (f : X -> res Y) l ys : mapE f l = Ok ys -> forall x, In x l -> exists y, f x = Ok y.
Proof.
  revert ys. induction l as [|x l IH]; intros ys H y Hy; [easy|]. cbn [mapE] in H.
  destruct (f x) as [z|] eqn:F; [|discriminate]. cbn [bind] in H. destruct (mapE f l); [|discriminate].
  destruct Hy as [->|Hy]; [eauto|]. eapply IH; eauto.
Qed.
Lemma combine_seq {X} (l : list X) d k : combine (seq k (length l)) l = map (fun i => (i + k, nth i l d)) (seq 0 (length l)).
Proof.
  revert k. induction l as [|x l IH]; intros k; cbn [length seq combine map nth]; auto.
  f_equal. rewrite IH, <- seq_shift, map_map. apply map_ext. intros i. f_equal. lia.
Qed.
Lemma combine_tl (l : list nat) :
  combine l (tl l) = map (fun i => (nth i l 0, nth (S i) l 0)) (seq 0 (length l - 1)).
Proof.
  destruct l as [|x l]; [reflexivity|]. cbn [tl length]. replace (S (length l) - 1) with (length l) by lia.
  revert x. induction l as [|y l IH]; intros x; [reflexivity|].
  change (combine (x :: y :: l) (y :: l)) with ((x, y) :: combine (y :: l) l). cbn [length seq map]. f_equal.
  rewrite IH, <- seq_shift, map_map. apply map_ext. intros i. reflexivity.
Qed.
Lemma mlp_layers_eq dims :
  mlp_layers dims = map (fun i => (i, (nth i dims 0, nth (S i) dims 0))) (seq 0 (length dims - 1)).
Proof.
  unfold mlp_layers. cbn zeta. rewrite (combine_seq _ (0, 0)). rewrite combine_tl, map_length, seq_length.
  apply map_ext_in. intros i Hi. rewrite Nat.add_0_r. f_equal.
  rewrite (nth_indep _ _ ((fun i => (nth i dims 0, nth (S i) dims 0)) 0)) by (rewrite map_length; rewrite seq_length; apply in_seq in Hi; lia).
  rewrite (map_nth (fun i => (nth i dims 0, nth (S i) dims 0))). rewrite seq_nth; [reflexivity|]. apply in_seq in Hi; lia.
Qed.
(** an MLP has one weight (and bias) per layer, named L0, L1, ..., between consecutive dimensions *)
Theorem C227_mlp name ni no hidden random bias l :
  mlp_init name ni no hidden random bias = Ok l ->
  let dims := ni :: (match hidden with None => [ni] | Some h => h end) ++ [no] in
  (forall d, In d dims -> 0 < d) /\
  l = List.concat (map (fun i =>
        let a := nth i dims 0 in let b := nth (S i) dims 0 in let n := name ++ lit "__L" ++ lit (NilEmpty.string_of_uint (Nat.to_uint i)) in
        Site (n ++ lit "__weight") (match random with RDirichlet => Dirichlet | _ => Normal end) [] [a; b] ::
        (if bias then [Site (n ++ lit "__bias") (match random with RDirichlet => Dirichlet | _ => Normal end) []
                         (match random with RDirichlet => [b] | _ => if Nat.ltb 1 b then [b] else [] end)] else []))
      (seq 0 (length dims - 1))).
Proof.
  intros H dims. assert (D : dims = mlp_dims ni no hidden) by reflexivity. clearbody dims.
  unfold mlp_init in H. rewrite <- D, mlp_layers_eq in H.
  destruct (mapE _ _) as [ls|e] eqn:M; [|discriminate]. injection H as <-.
  rewrite mapE_map in M. cbn [fst snd] in M.
  assert (E : forall i, In i (seq 0 (length dims - 1)) -> 0 < nth i dims 0 /\ 0 < nth (S i) dims 0 /\ random_ok random = true).
  { intros i Hi. destruct (mapE_in_ok _ _ M i Hi) as (y & Hy). unfold linear_init, assert_ in Hy.
    destruct (Nat.ltb_spec 0 (nth i dims 0)); [|discriminate]. cbn [bind] in Hy.
    destruct (Nat.ltb_spec 0 (nth (S i) dims 0)); [|discriminate]. cbn [bind] in Hy.
    destruct (random_ok random); [easy|discriminate]. }
  split.
  - intros d (j & Hj & Hd)%(In_nth _ _ 0). rewrite <- Hd.
    assert (L : 1 < length dims) by (rewrite D; unfold mlp_dims; cbn [length]; rewrite app_length; cbn [length]; lia).
    destruct j as [|j].
    + apply (E 0). apply in_seq. lia.
    + apply (E j). apply in_seq. lia.
  - f_equal. erewrite mapE_ok_map in M; [injection M as <-; reflexivity|].
    intros i Hi. destruct (E i Hi) as (E1 & E2 & E3). unfold linear_init, assert_.
    apply Nat.ltb_lt in E1, E2. rewrite E1, E2, E3. cbn [bind]. unfold N, layer. rewrite <- !app_assoc. cbn [app].
    destruct random; try discriminate; destruct bias; try reflexivity;
      destruct (Nat.ltb 1 (nth (S i) dims 0)); reflexivity.
Qed.

(** ** The names of the sample statements of a run are pairwise distinct *)
(** the name contains two underscores in a row *)
Definition has_uu (n : str) : Prop := exists a b, n = a ++ lit "__" ++ b.
Definition not_us (r : str) : Prop := match r with c :: _ => c <> "_"%char | [] => True end.

Lemma app_split {X} (a b c d : list X) : a ++ b = c ++ d ->
  (exists t, c = a ++ t /\ b = t ++ d) \/ (exists t, a = c ++ t /\ d = t ++ b).
Proof.
  revert c. induction a as [|x a IH]; intros c H.
  - left. exists c. split; [reflexivity|exact H].
  - destruct c as [|y c].
    + right. exists (x :: a). split; [reflexivity|exact (eq_sym H)].
    + cbn [app] in H. injection H as -> H. destruct (IH _ H) as [(t & -> & ->)|(t & -> & ->)]; [left|right]; exists t; split; reflexivity.
Qed.
Lemma uu_tail n1 t r1 r2 : ~ has_uu (n1 ++ t) -> not_us r1 ->
  lit "__" ++ r1 = t ++ lit "__" ++ r2 -> t = [] /\ r1 = r2.
Proof.
  intros H N1 E. destruct t as [|x t].
  - cbn in E. injection E as E. auto.
  - exfalso. change (lit "__") with ["_"%char; "_"%char] in E. cbn [app] in E. injection E as <- E.
    destruct t as [|y t].
    + cbn [app] in E. injection E as ->. cbn in N1. congruence.
    + cbn [app] in E. injection E as <- E. apply H. exists n1, t. reflexivity.
Qed.
Lemma uu_inj n1 n2 r1 r2 : ~ has_uu n1 -> ~ has_uu n2 -> not_us r1 -> not_us r2 ->
  n1 ++ lit "__" ++ r1 = n2 ++ lit "__" ++ r2 -> n1 = n2 /\ r1 = r2.
Proof.
  intros H1 H2 U1 U2 E. destruct (app_split _ _ _ _ E) as [(t & -> & Et)|(t & -> & Et)].
  - destruct (uu_tail _ _ _ H2 U1 Et) as (-> & ->). rewrite app_nil_r. auto.
  - destruct (uu_tail _ _ _ H1 U2 Et) as (-> & ->). rewrite app_nil_r. auto.
Qed.

Definition no_us (s : str) : Prop := ~ In "_"%char s.
Lemma no_us_uu s : no_us s -> ~ has_uu s.
Proof. intros H (a & b & ->). apply H. apply in_app_iff. right. now left. Qed.
Lemma digits_no_us d : no_us (lit (NilEmpty.string_of_uint d)).
Proof. unfold no_us, lit. induction d; cbn; auto; intros [H|H]; auto; discriminate. Qed.
Lemma layer_no_us i : no_us (layer i).
Proof.
  unfold layer, no_us. intros H. cbn [lit list_ascii_of_string app In] in H. destruct H as [H|H]; [discriminate|].
  now apply digits_no_us in H.
Qed.
Lemma lit_inj a b : lit a = lit b -> a = b.
Proof. intros H. rewrite <- (string_of_list_ascii_of_string a), <- (string_of_list_ascii_of_string b). now f_equal. Qed.
Lemma layer_inj i j : layer i = layer j -> i = j.
Proof.
  unfold layer. cbn [lit list_ascii_of_string app]. intros H. injection H as H. apply lit_inj in H.
  apply (f_equal NilEmpty.uint_of_string) in H. rewrite !NilEmpty.usu in H. injection H as H.
  apply (f_equal Nat.of_uint) in H. now rewrite !Unsigned.of_to in H.
Qed.

Lemma NoDup_app_intro {X} (a b : list X) : NoDup a -> NoDup b -> (forall x, In x a -> ~ In x b) -> NoDup (a ++ b).
Proof.
  induction a as [|x a IH]; intros Na Nb D; cbn [app]; auto. inversion_clear Na as [|? ? Nx Na']. constructor.
  - intros [H|H]%in_app_iff; [easy|]. now apply (D x (or_introl eq_refl)).
  - apply IH; auto. intros y Hy. apply D. now right.
Qed.

(** the parts of the names after "<node>__" *)
Definition local_names (n : str) (l : list site) (rs : list str) : Prop :=
  map sname l = map (fun r => n ++ lit "__" ++ r) rs /\ NoDup rs /\ Forall not_us rs.
Lemma linear_local n ni no r b l : linear_init n ni no r b = Ok l ->
  local_names n l (lit "weight" :: if b then [lit "bias"] else []).
Proof.
  unfold linear_init, assert_. intros H.
  destruct (Nat.ltb 0 ni); [|discriminate]; cbn [bind] in H. destruct (Nat.ltb 0 no); [|discriminate]; cbn [bind] in H.
  destruct (random_ok r) eqn:R; [|discriminate]; cbn [bind] in H. injection H as <-. unfold local_names.
  split; [|split].
  - destruct r; try discriminate; destruct b; try reflexivity; destruct (Nat.ltb 1 no); reflexivity.
  - destruct b; repeat constructor; cbn; intuition discriminate.
  - destruct b; repeat constructor; cbn; discriminate.
Qed.
Lemma mlp_local n ni no h r b l : mlp_init n ni no h r b = Ok l ->
  exists rs, local_names n l rs /\ ~ In (lit "scale") rs.
Proof.
  unfold mlp_init. rewrite mlp_layers_eq. set (dims := mlp_dims ni no h). rewrite mapE_map. cbn [fst snd].
  set (k := length dims - 1). intros H. destruct (mapE _ _) as [ls|] eqn:M; [|discriminate]. injection H as <-.
  set (ws := lit "weight" :: if b then [lit "bias"] else []).
  exists (List.concat (map (fun i => map (fun w => layer i ++ lit "__" ++ w) ws) (seq 0 k))).
  assert (NW : NoDup ws /\ Forall not_us ws)
    by (unfold ws; split; destruct b; repeat constructor; cbn; intuition discriminate).
  assert (G : forall s ls, NoDup s -> mapE (fun i => linear_init (N [n; layer i]) (nth i dims 0) (nth (S i) dims 0) r b) s = Ok ls ->
    local_names n (List.concat ls) (List.concat (map (fun i => map (fun w => layer i ++ lit "__" ++ w) ws) s)) /\
    (forall x, In x (List.concat (map (fun i => map (fun w => layer i ++ lit "__" ++ w) ws) s)) -> exists i w, In i s /\ In w ws /\ x = layer i ++ lit "__" ++ w)).
  { clear M ls. induction s as [|i s IH]; intros ls NS M.
    - cbn in M. injection M as <-. cbn. split; [|easy]. repeat constructor.
    - cbn [mapE] in M. destruct (linear_init _ _ _ _ _) as [l1|] eqn:L; [|discriminate]. cbn [bind] in M.
      destruct (mapE _ s) as [l2|] eqn:M2; [|discriminate]. injection M as <-.
      inversion_clear NS as [|? ? Ni NS']. destruct (IH _ NS' eq_refl) as ((A & B & C) & D).
      destruct (linear_local _ _ _ _ _ L) as (A1 & _ & _). fold ws in A1. cbn [List.concat map]. split.
      + repeat split.
        * rewrite !map_app, A, A1. f_equal. rewrite map_map. apply map_ext. intros w. unfold N.
          rewrite <- !app_assoc. reflexivity.
        * apply NoDup_app_intro; auto.
          -- apply FinFun.Injective_map_NoDup; [|apply NW]. intros x y E. apply app_inv_head in E. now apply app_inv_head in E.
          -- intros x (w & <- & Hw)%in_map_iff Hx. destruct (D _ Hx) as (j & w' & Hj & Hw' & E).
             apply uu_inj in E as (E & _); [apply layer_inj in E; congruence| | | | ];
               try (apply no_us_uu, layer_no_us); eapply (proj1 (Forall_forall _ _) (proj2 NW)); eauto.
        * apply Forall_app. split; auto. apply Forall_forall. intros x (w & <- & Hw)%in_map_iff. cbn. discriminate.
      + intros x [(w & <- & Hw)%in_map_iff|Hx]%in_app_iff; [exists i, w; cbn; auto|].
        destruct (D _ Hx) as (j & w & Hj & Hw & E). exists j, w. cbn. auto. }
  destruct (G _ _ (seq_NoDup _ _) M) as (A & B). split; auto. intros H. destruct (B _ H) as (i & w & _ & _ & E). discriminate E.
Qed.
Lemma fn_local f o n ni no l : fn_init f o n ni no = Ok l -> exists rs, local_names n l rs /\ ~ In (lit "scale") rs.
Proof.
  unfold fn_init. destruct f, (o_hidden o); try discriminate; intros H; try (now apply mlp_local in H).
  apply linear_local in H. eexists. split; [exact H|]. destruct (or_default _ _); cbn; intuition discriminate.
Qed.
Lemma module_local c n st k l : module_init c n st k = Ok l -> exists rs, local_names n l rs.
Proof.
  destruct c; cbn [module_init]; unfold assert_; intros H;
    (destruct (is_cat st) eqn:E; cbn [negb bind] in H; try discriminate).
  - destruct (Nat.eqb k 0); [|discriminate]. injection H as <-. exists [lit "weight"]. repeat constructor; cbn; auto; discriminate.
  - destruct (Nat.eqb k 0); [|discriminate]. injection H as <-. exists [lit "mean"; lit "scale"].
    repeat constructor; cbn; auto; try discriminate. intuition discriminate.
  - destruct (Nat.ltb 0 k); [|discriminate]. cbn [bind] in H. destruct (fn_local _ _ _ _ _ H) as (rs & A & _). eauto.
  - destruct (Nat.ltb 0 k); [|discriminate]. cbn [bind] in H. destruct (fn_init _ _ _ _ _) eqn:F; [|discriminate].
    injection H as <-. destruct (fn_local _ _ _ _ _ F) as (rs & (A & B & C) & D). exists (lit "scale" :: rs).
    repeat split.
    + cbn [map]. rewrite A. reflexivity.
    + now constructor.
    + constructor; auto. cbn. discriminate.
Qed.

Section Names.
  Variables (micat minum : fn_cls * options) (g : graph) (state : dict nstate).
  Lemma node_local n l : get_node_function micat minum g state n = Ok l -> exists rs, local_names n l rs.
  Proof.
    unfold get_node_function. intros H. destruct (node_state state n); [|discriminate]. cbn [bind] in H.
    destruct (get_parents g n); [|discriminate]. cbn [bind] in H. eapply module_local, H.
  Qed.
  Lemma latents_names ns ls : NoDup ns -> (forall n, In n ns -> ~ has_uu n) ->
    mapE (get_node_function micat minum g state) ns = Ok ls ->
    NoDup (map sname (List.concat ls)) /\
    (forall x, In x (map sname (List.concat ls)) -> exists n r, In n ns /\ not_us r /\ x = n ++ lit "__" ++ r).
  Proof.
    revert ls. induction ns as [|n ns IH]; intros ls ND U M.
    - cbn in M. injection M as <-. cbn. split; [constructor|easy].
    - cbn [mapE] in M. destruct (get_node_function _ _ _ _ n) as [l|] eqn:L; [|discriminate]. cbn [bind] in M.
      destruct (mapE _ ns) as [ls'|] eqn:M2; [|discriminate]. injection M as <-.
      inversion_clear ND as [|? ? Nn ND']. destruct (IH _ ND' (fun m Hm => U m (or_intror Hm)) eq_refl) as (A & B).
      destruct (node_local _ L) as (rs & E & NR & UR). cbn [List.concat]. rewrite map_app, E. split.
      + apply NoDup_app_intro; auto.
        * apply FinFun.Injective_map_NoDup; auto. intros x y Hxy. apply app_inv_head in Hxy. now apply app_inv_head in Hxy.
        * intros x (r & <- & Hr)%in_map_iff Hx. destruct (B _ Hx) as (m & r' & Hm & Ur' & Hx').
          apply uu_inj in Hx' as (-> & _); auto; [apply U; now left|apply U; now right|].
          eapply (proj1 (Forall_forall _ _) UR); eauto.
      + intros x [(r & <- & Hr)%in_map_iff|Hx]%in_app_iff.
        * exists n, r. repeat split; [now left|]. eapply (proj1 (Forall_forall _ _) UR); eauto.
        * destruct (B _ Hx) as (m & r' & Hm & Ur' & Hx'). exists m, r'. repeat split; auto. now right.
  Qed.

  (** distinct node names without "__" and other than "graph" give distinct statement names, so pyro accepts the run *)
  Theorem C227_names_partial order l :
    NoDup (nodes g) -> NoDup order -> incl order (nodes g) ->
    (forall n, In n (nodes g) -> ~ has_uu n /\ n <> lit "graph") ->
    trace_names micat minum g state order = Ok l -> NoDup l.
  Proof.
    unfold trace_names, model_latents. intros ND NO I U H.
    destruct (mapE _ _) as [ls|] eqn:M; [|discriminate]. cbn [bind] in H. injection H as <-.
    destruct (latents_names ND (fun n Hn => proj1 (U n Hn)) M) as (A & B).
    apply NoDup_app_intro; auto.
    - constructor; auto. intros Hg. now apply (proj2 (U _ (I _ Hg))).
    - intros x Hx [<-|Ho].
      + destruct (B _ Hx) as (n & r & Hn & _ & E).
        assert (G : has_uu (lit "graph")) by (exists n, r; exact E). revert G. apply no_us_uu. unfold no_us. cbn. intuition discriminate.
      + destruct (B _ Hx) as (n & r & Hn & _ & ->). apply (proj1 (U _ (I _ Ho))). exists n, r. reflexivity.
  Qed.
End Names.

(** ** C228: which latent variables get point estimates (AutoDelta) and which a normal distribution (AutoNormal) *)
(** [p] is the part of the name [n] before its first underscore (all of it when there is none) *)
Definition before_us (n p : str) : Prop := no_us p /\ (n = p \/ exists rest, n = p ++ "_"%char :: rest).
Lemma hd_split n : before_us n (hd [] (split_on "_"%char n)).
Proof.
  induction n as [|c n IH]; cbn [split_on].
  - split; [easy|now left].
  - destruct (eqb_spec c "_"%char) as [->|E].
    + cbn. split; [easy|]. right. exists n. reflexivity.
    + destruct (split_on "_" n) as [|p ps]; cbn [hd] in *.
      * destruct IH as (_ & [->|(r & H)]).
        -- split; [|now left]. intros [H|[]]. auto.
        -- split; [intros [?|[]]; auto|]. right. exists r. rewrite H. reflexivity.
      * destruct IH as (U & H). split; [intros [?|?]; auto|]. destruct H as [->|(r & ->)]; [now left|]. right. exists r. reflexivity.
Qed.
Lemma before_us_unique n p q : before_us n p -> before_us n q -> p = q.
Proof.
  intros (U & P) (V & Q). destruct P as [->|(r & ->)], Q as [E|(s & E)]; auto.
  - exfalso. apply U. rewrite E. apply in_app_iff. right. now left.
  - exfalso. apply V. rewrite <- E. apply in_app_iff. right. now left.
  - destruct (app_split _ _ _ _ E) as [(t & -> & H)|(t & -> & H)]; destruct t as [|x t]; rewrite ?app_nil_r; auto;
      cbn [app] in H; injection H as <- H; exfalso; [apply V|apply U]; apply in_app_iff; right; now left.
Qed.
Lemma before_us_latent n p r : before_us n p -> before_us (n ++ lit "__" ++ r) p.
Proof.
  intros (U & [->|(s & ->)]); split; auto; right; eexists.
  - reflexivity.
  - rewrite <- app_assoc. reflexivity.
Qed.

Section Auto.
  Variables (micat minum : fn_cls * options) (g : graph) (state : dict nstate).
  Definition column_is_cat (c : str) : Prop := exists k, dget state c = Some (Cat k).
  Lemma site_is_cat_iff n p : before_us n p -> (site_is_cat state n = true <-> column_is_cat p).
  Proof.
    intros H. unfold site_is_cat. rewrite (before_us_unique (hd_split n) H). unfold column_is_cat.
    destruct (dget state p) as [[k|]|]; cbn; split; eauto; try discriminate; intros (k' & E); discriminate.
  Qed.
  (** all names: the latents that are not named like nodes are split between the two guides, and the part of the node's
      name before the first underscore decides *)
  Theorem C228_any n p l all s :
    before_us n p -> get_node_function micat minum g state n = Ok l -> In s l ->
    incl l all -> ~ In (sname s) (nodes g) ->
    let (nums, cats) := auto_guide g state all in
    (In s cats <-> column_is_cat p) /\ (In s nums <-> ~ column_is_cat p).
  Proof.
    intros B L Hs I N. unfold auto_guide. destruct (node_local _ _ _ _ _ L) as (rs & E & _ & _).
    assert (B' : before_us (sname s) p).
    { assert (H : In (sname s) (map sname l)) by now apply in_map. rewrite E in H.
      apply in_map_iff in H as (r & <- & _). now apply before_us_latent. }
    rewrite !filter_In, (negb_true_iff (site_is_cat state (sname s))). pose proof (site_is_cat_iff B') as C.
    assert (M : negb (mem (sname s) (nodes g)) = true) by (destruct (mem (sname s) (nodes g)) eqn:ME; auto; apply mem_In in ME; contradiction).
    split; split.
    - intros (_ & H). now apply C.
    - intros H. split; [split; auto|]. now apply C.
    - intros ((_ & _) & H) K. apply C in K. congruence.
    - intros H. split; [split; auto|]. destruct (site_is_cat state (sname s)); auto. exfalso. apply H. now apply C.
  Qed.
  (** names without underscores: exactly the latents of categorical nodes get point estimates *)
  Theorem C228_partial all n l s :
    (forall m, In m (nodes g) -> no_us m) -> model_latents micat minum g state = Ok all ->
    In n (nodes g) -> get_node_function micat minum g state n = Ok l -> In s l ->
    let (nums, cats) := auto_guide g state all in
    (In s cats <-> column_is_cat n) /\ (In s nums <-> ~ column_is_cat n).
  Proof.
    intros U A Hn L Hs. apply (C228_any (n := n) (p := n) (l := l)); auto.
    - split; [now apply U|now left].
    - unfold model_latents in A. destruct (mapE _ _) as [ls|] eqn:M; [|discriminate]. injection A as <-.
      clear -M L Hn. revert ls M. induction (nodes g) as [|m ns IH]; intros ls M; [easy|]. cbn [mapE] in M.
      destruct (get_node_function _ _ _ _ m) as [l1|] eqn:L1; [|discriminate]. cbn [bind] in M.
      destruct (mapE _ ns) as [l2|] eqn:M2; [|discriminate]. injection M as <-. cbn [List.concat]. intros x Hx. apply in_app_iff.
      destruct Hn as [->|Hn]; [left; congruence|right; now apply (IH Hn l2 eq_refl)].
    - intros H. apply U in H. apply H. destruct (node_local _ _ _ _ _ L) as (rs & E & _ & _).
      assert (H1 : In (sname s) (map sname l)) by now apply in_map. rewrite E in H1.
      apply in_map_iff in H1 as (r & <- & _). apply in_app_iff. right. now left.
  Qed.
End Auto.

(** ** C230: MiCategorical[F, options] *)
Section CacheProps.
  Context {O : Type}.
  Notation req := (cls * cls * O)%type. (* module class, function class, options *)
  Definition req_name (q : req) : str := cname (snd (fst q)) ++ cname (fst (fst q)).
  Definition as_stub (q : req) : stub O := Stub (fst (fst q)) (snd (fst q)) (snd q).

  Lemma dget_dset_same {V} (d : dict V) k v : dget (dset d k v) k = Some v.
  Proof.
    unfold dset, dget. destruct (mem k (map fst d)) eqn:M.
    - apply mem_In in M. induction d as [|[k' v'] d IH]; [easy|]. cbn [map find fst] in *.
      destruct (eqb_spec k' k) as [->|E]; cbn [fst].
      + now rewrite eqb_refl.
      + rewrite (proj2 (eqb_neq k' k) E). apply IH. destruct M as [->|M]; [easy|exact M].
    - assert (N : ~ In k (map fst d)) by (rewrite <- mem_In; congruence). clear M.
      induction d as [|[k' v'] d IH]; cbn [app find fst]; [now rewrite eqb_refl|].
      rewrite (proj2 (eqb_neq k' k)); [apply IH; intros H; apply N; now right|]. intros ->. apply N. now left.
  Qed.
  Lemma dget_dset_other {V} (d : dict V) k k' v : k' <> k -> dget (dset d k v) k' = dget d k'.
  Proof.
    intros H. unfold dset, dget. destruct (mem k (map fst d)).
    - induction d as [|[a b] d IH]; cbn [map find fst]; auto. destruct (eqb_spec a k) as [->|E]; cbn [fst].
      + rewrite (proj2 (eqb_neq k k')) by congruence. exact IH.
      + destruct (eqb a k'); auto.
    - induction d as [|[a b] d IH]; cbn [app find fst]; [now rewrite (proj2 (eqb_neq k k')) by congruence|].
      destruct (eqb a k'); auto.
  Qed.
  (** the cache holds the first request of every name *)
  Lemma requests_get (cache : dict (stub O)) (l : list req) i s :
    nth_error (snd (requests cache l)) i = Some s ->
    exists q, nth_error l i = Some q /\
      match dget cache (req_name q) with
      | Some s' => s = s'
      | None => exists j q', j <= i /\ nth_error l j = Some q' /\ s = as_stub q' /\ req_name q' = req_name q /\
                  forall k q'', k < j -> nth_error l k = Some q'' -> req_name q'' <> req_name q
      end.
  Proof.
    revert cache i. induction l as [|[[m f] o] l IH]; intros cache i H; [destruct i; discriminate|].
    cbn [requests] in H. unfold get_cls in H. fold (req_name (m, f, o)) in H.
    set (name := cname f ++ cname m) in H. change name with (req_name (m, f, o)) in H. clear name.
    destruct (dget cache (req_name (m, f, o))) as [s0|] eqn:D.
    - destruct (requests cache l) as [c' ss] eqn:R. cbn [snd] in H. destruct i as [|i].
      + cbn in H. injection H as <-. exists (m, f, o). split; auto. now rewrite D.
      + cbn [nth_error] in H. destruct (IH cache i) as (q & Q1 & Q2); [now rewrite R|].
        exists q. split; auto. destruct (dget cache (req_name q)) eqn:D'; auto.
        destruct Q2 as (j & q' & Hj & Hq & -> & E & F). exists (S j), q'. repeat split; auto; [lia|].
        intros [|k] q'' Hk Hq''; [|apply (F k); auto; lia]. cbn in Hq''. injection Hq'' as <-. congruence.
    - destruct (requests (dset cache (req_name (m, f, o)) (Stub m f o)) l) as [c' ss] eqn:R. cbn [snd] in H. destruct i as [|i].
      + cbn in H. injection H as <-. exists (m, f, o). split; auto. rewrite D. exists 0, (m, f, o). repeat split; auto. intros; lia.
      + cbn [nth_error] in H. destruct (IH (dset cache (req_name (m, f, o)) (Stub m f o)) i) as (q & Q1 & Q2); [now rewrite R|].
        exists q. split; auto. destruct (eq_dec (req_name q) (req_name (m, f, o))) as [E|E].
        * rewrite E, dget_dset_same in Q2. subst s. rewrite E, D. exists 0, (m, f, o). repeat split; auto; [lia|]. intros; lia.
        * rewrite dget_dset_other in Q2 by auto. destruct (dget cache (req_name q)) eqn:D'; auto.
          destruct Q2 as (j & q' & Hj & Hq & -> & E' & F). exists (S j), q'. repeat split; auto; [lia|].
          intros [|k] q'' Hk Hq''; [|apply (F k); auto; lia]. cbn in Hq''. injection Hq'' as <-. congruence.
  Qed.
  Lemma requests_length (cache : dict (stub O)) l : length (snd (requests cache l)) = length l.
  Proof.
    revert cache. induction l as [|[[m f] o] l IH]; intros c; cbn [requests]; auto. destruct (get_cls c m f o) as [c1 s].
    specialize (IH c1). destruct (requests c1 l). cbn in *. now rewrite IH.
  Qed.
  (** every request gets the class made for the first request, in the whole history of the process, whose function and
      module class names join to the same string *)
  Theorem C230_first l i m f o : nth_error l i = Some (m, f, o) ->
    exists s j q, nth_error (snd (requests [] l)) i = Some s /\ j <= i /\ nth_error l j = Some q /\ s = as_stub q /\
      cname (snd (fst q)) ++ cname (fst (fst q)) = cname f ++ cname m /\
      forall k q'', k < j -> nth_error l k = Some q'' -> cname (snd (fst q'')) ++ cname (fst (fst q'')) <> cname f ++ cname m.
  Proof.
    intros H. destruct (nth_error (snd (requests [] l)) i) as [s|] eqn:E.
    - destruct (requests_get _ _ _ E) as (q & Hq & K). rewrite H in Hq. injection Hq as <-. cbn in K.
      destruct K as (j & q' & A & B & C & D & F). exists s, j, q'. auto 10.
    - exfalso. apply nth_error_None in E. rewrite requests_length in E.
      assert (i < length l) by (apply nth_error_Some; congruence). lia.
  Qed.
  (** so it gets what it asked for when no earlier request with these names differs *)
  Theorem C230_partial (l : list req) i m f o :
    nth_error l i = Some (m, f, o) ->
    (forall k q, k < i -> nth_error l k = Some q -> cname (snd (fst q)) ++ cname (fst (fst q)) = cname f ++ cname m -> q = (m, f, o)) ->
    nth_error (snd (requests [] l)) i = Some (Stub m f o).
  Proof.
    intros H U. destruct (@C230_first l _ _ _ _ H) as (s & j & q & A & B & C & -> & E & _). rewrite A. f_equal.
    destruct (Nat.eq_dec j i) as [->|N]; [rewrite H in C; injection C as <-; reflexivity|].
    rewrite (U j q); auto. lia.
  Qed.
  (** options of a later request with known names are ignored, whatever happens in between *)
  Theorem C230_refuted : forall (m f : cls) (o1 o2 : O) (h : list req), o1 <> o2 ->
    exists s, nth_error (snd (requests [] ((m, f, o1) :: h ++ [(m, f, o2)]))) (S (length h)) = Some s /\
      s_opts s = o1 /\ s_opts s <> o2.
  Proof.
    intros m f o1 o2 h N. set (l := (m, f, o1) :: h ++ [(m, f, o2)]).
    assert (H : nth_error l (S (length h)) = Some (m, f, o2)).
    { unfold l. cbn [nth_error]. rewrite nth_error_app2 by lia. now rewrite Nat.sub_diag. }
    destruct (@C230_first l _ _ _ _ H) as (s & j & q & A & B & C & -> & E & F). exists (as_stub q). split; auto.
    destruct j as [|j].
    - cbn in C. injection C as <-. cbn. auto.
    - exfalso. apply (F 0 (m, f, o1)); auto. lia.
  Qed.
End CacheProps.

(** the four requests of the import of _modules.py, and what users get afterwards *)
Definition clsMiCategorical := Cls (lit "MiCategorical") 0.
Definition clsMiNormal := Cls (lit "MiNormal") 1.
Definition clsLinear := Cls (lit "Linear") 2.
Definition clsMLP := Cls (lit "MLP") 3.
Definition at_import : list (cls * cls * options) :=
  [(clsMiCategorical, clsLinear, Options (Some RDirichlet) (Some false) None);
   (clsMiCategorical, clsMLP, Options (Some RDirichlet) (Some false) None);
   (clsMiNormal, clsLinear, no_options); (clsMiNormal, clsMLP, no_options)].
(** whatever was requested since the import, MiCategorical[Linear, options] uses a Dirichlet prior without bias, and
    MiNormal[MLP, options] uses the default hidden layers, for every value of the options *)
Theorem C230_import : forall (h : list (cls * cls * options)) (o : options),
  nth_error (snd (requests [] (at_import ++ h ++ [(clsMiCategorical, clsLinear, o)]))) (4 + length h) =
    Some (Stub clsMiCategorical clsLinear (Options (Some RDirichlet) (Some false) None)) /\
  nth_error (snd (requests [] (at_import ++ h ++ [(clsMiNormal, clsMLP, o)]))) (4 + length h) =
    Some (Stub clsMiNormal clsMLP no_options).
Proof.
  intros h o. split.
  - set (l := at_import ++ h ++ [(clsMiCategorical, clsLinear, o)]).
    assert (H : nth_error l (4 + length h) = Some (clsMiCategorical, clsLinear, o)).
    { unfold l. cbn [nth_error at_import app Nat.add]. rewrite nth_error_app2 by lia. now rewrite Nat.sub_diag. }
    destruct (@C230_first _ l _ _ _ _ H) as (s & j & q & A & _ & C & -> & E & F). rewrite A. f_equal.
    destruct j as [|j].
    + cbn in C. injection C as <-. reflexivity.
    + exfalso. apply (F 0 (clsMiCategorical, clsLinear, Options (Some RDirichlet) (Some false) None)); auto. lia.
  - set (l := at_import ++ h ++ [(clsMiNormal, clsMLP, o)]).
    assert (H : nth_error l (4 + length h) = Some (clsMiNormal, clsMLP, o)).
    { unfold l. cbn [nth_error at_import app Nat.add]. rewrite nth_error_app2 by lia. now rewrite Nat.sub_diag. }
    destruct (@C230_first _ l _ _ _ _ H) as (s & j & q & A & _ & C & -> & E & F). rewrite A. f_equal.
    destruct j as [|[|[|[|j]]]]; try (cbn in C; injection C as <-; cbn in E; try discriminate E; try reflexivity).
    exfalso. apply (F 3 (clsMiNormal, clsMLP, no_options)); auto. lia.
Qed.

(** ** Examples and counterexamples for C227, C228 *)
Section Examples.
  Definition nm (s : string) : str := list_ascii_of_string s.
  (** a categorical a and a numerical x are parents of a categorical b *)
  Definition g1 : graph := of_edges [(nm "a", nm "b", K 0); (nm "x", nm "b", K 0)].
  Definition st1 : dict nstate := [(nm "a", Cat 3); (nm "x", Num); (nm "b", Cat 2)].
  Example ex_guide : model_latents default_cat default_num g1 st1 =
    Ok [Site (nm "a__weight") Dirichlet [] [3]; Site (nm "b__weight") Dirichlet [] [2; 2];
        Site (nm "x__mean") Normal [] []; Site (nm "x__scale") FoldedNormal [] []].
  Proof. vm_compute. reflexivity. Qed.
  Example ex_names : exists l, trace_names (FMLP, no_options) default_num g1 st1 [nm "a"; nm "x"; nm "b"] = Ok l /\ length l = 11.
  Proof. eexists. split; [vm_compute; reflexivity|reflexivity]. Qed.
  Example ex_mlp : exists l, mlp_init (nm "b") 2 3 (Some [4]) RNormal true = Ok l /\
    map event l = [[2; 4]; [4]; [4; 3]; [3]].
  Proof. eexists. split; [vm_compute; reflexivity|reflexivity]. Qed.
  Example ex_auto : auto_guide g1 st1 (match model_latents default_cat default_num g1 st1 with Ok l => l | _ => [] end) =
    ([Site (nm "x__mean") Normal [] []; Site (nm "x__scale") FoldedNormal [] []],
     [Site (nm "a__weight") Dirichlet [] [3]; Site (nm "b__weight") Dirichlet [] [2; 2]]).
  Proof. vm_compute. reflexivity. Qed.

  (** two statements of one run have the same name: a node "graph"; nodes "A" and "A__weight" *)
  Theorem C227_names_refuted : exists g g' state state' order order' l l',
    NoDup (nodes g) /\ is_dag1 g = true /\ trace_names default_cat default_num g state order = Ok l /\ ~ NoDup l /\
    ~ (exists n, In n (nodes g) /\ has_uu n) /\
    NoDup (nodes g') /\ is_dag1 g' = true /\ trace_names default_cat default_num g' state' order' = Ok l' /\ ~ NoDup l' /\
    ~ In (lit "graph") (nodes g').
  Proof.
    exists (of_edges [(nm "graph", nm "b", K 0)]), (of_edges [(nm "A", nm "A__weight", K 0)]),
      [(nm "graph", Cat 2); (nm "b", Num)], [(nm "A", Cat 2); (nm "A__weight", Num)], [nm "graph"; nm "b"], [nm "A"; nm "A__weight"].
    do 2 eexists. split; [vm_compute; repeat constructor; cbn; intuition discriminate|]. split; [vm_compute; reflexivity|].
    split; [vm_compute; reflexivity|]. split.
    { intros H. do 4 (inversion_clear H as [|? ? _ H']; rename H' into H).
      inversion_clear H as [|? ? N _]. apply N. cbn. auto. }
    split.
    { intros (n & Hn & U). revert U. vm_compute in Hn. destruct Hn as [<-|[<-|[]]]; apply no_us_uu; unfold no_us; cbn; intuition discriminate. }
    split; [vm_compute; repeat constructor; cbn; intuition discriminate|]. split; [vm_compute; reflexivity|].
    split; [vm_compute; reflexivity|]. split.
    { intros H. inversion_clear H as [|? ? N _]. apply N. cbn. intuition. }
    vm_compute. intuition discriminate.
  Qed.
  (** a categorical node "a_b" gets a normal guide; a numerical node "c_d" next to a categorical column "c" a point estimate *)
  Definition g2 : graph := of_edges [(nm "a_b", nm "c_d", K 0); (nm "c_d", nm "c", K 0)].
  Definition st2 : dict nstate := [(nm "a_b", Cat 2); (nm "c_d", Num); (nm "c", Cat 2)].
  Theorem C228_refuted : exists all,
    is_dag1 g2 = true /\ model_latents default_cat default_num g2 st2 = Ok all /\
    let (nums, cats) := auto_guide g2 st2 all in
    In (Site (nm "a_b__weight") Dirichlet [] [2]) nums /\ column_is_cat st2 (nm "a_b") /\
    In (Site (nm "c_d__scale") FoldedNormal [] []) cats /\ ~ column_is_cat st2 (nm "c_d").
  Proof.
    eexists. split; [vm_compute; reflexivity|]. split; [vm_compute; reflexivity|]. cbv zeta.
    match goal with |- let (_, _) := ?x in _ => let v := eval vm_compute in x in change x with v end. cbv iota beta.
    split; [vm_compute; auto|]. split; [now exists 2|]. split; [vm_compute; auto|]. intros (k & H). vm_compute in H. discriminate.
  Qed.
End Examples.

(** ** C229: which distributions the modules can express *)
Section Express.
  Local Open Scope R_scope.
  (** a point of the support of a Dirichlet distribution with [n] components *)
  Definition simplex (n : nat) (w : list R) : Prop :=
    length w = n /\ (forall x, In x w -> 0 <= x) /\ rsum w = 1.

  Lemma rsum_app a b : rsum (a ++ b) = rsum a + rsum b.
  Proof. induction a as [|x a IH]; cbn [app rsum fold_right]; [unfold rsum; cbn; lra|]. fold (rsum (a ++ b)) (rsum a). rewrite IH. lra. Qed.
  Lemma rsum_cons x l : rsum (x :: l) = x + rsum l.
  Proof. reflexivity. Qed.
  Lemma rsum_nonneg l : (forall x, In x l -> 0 <= x) -> 0 <= rsum l.
  Proof.
    induction l as [|x l IH]; intros H; [unfold rsum; cbn; lra|]. rewrite rsum_cons.
    pose proof (H x (or_introl eq_refl)). specialize (IH (fun y Hy => H y (or_intror Hy))). lra.
  Qed.
  Lemma rsum_perm l l' : Permutation l l' -> rsum l = rsum l'.
  Proof. induction 1; rewrite ?rsum_cons; lra. Qed.

  (** the chord above the exponential function *)
  Lemma exp_chord x : 0 <= x <= 1 -> exp x <= 1 + (exp 1 - 1) * x.
  Proof.
    intros H. pose proof (exp_pos x) as P.
    assert (A : exp x * (1 - x) <= 1).
    { pose proof (exp_ineq1_le (- x)) as E. rewrite exp_Ropp in E. apply (Rmult_le_compat_l (exp x)) in E; [|lra].
      rewrite Rinv_r in E by lra. lra. }
    assert (B : exp x * (2 - x) <= exp 1).
    { pose proof (exp_ineq1_le (1 - x)) as E. unfold Rminus in E. rewrite exp_plus, exp_Ropp in E.
      apply (Rmult_le_compat_l (exp x)) in E; [|lra]. replace (exp x * (exp 1 * / exp x)) with (exp 1) in E by (field; lra). lra. }
    nra.
  Qed.
  Lemma exp_ge1 x : 0 <= x -> 1 <= exp x.
  Proof. intros H. pose proof (exp_ineq1_le x). lra. Qed.

  Lemma rsum_exp_ge l : (forall x, In x l -> 0 <= x) -> INR (length l) <= rsum (map exp l).
  Proof.
    induction l as [|x l IH]; intros H; [unfold rsum; cbn; lra|]. cbn [length map]. rewrite S_INR, rsum_cons.
    pose proof (exp_ge1 (H x (or_introl eq_refl))). specialize (IH (fun y Hy => H y (or_intror Hy))). lra.
  Qed.
  Lemma rsum_exp_le l : (forall x, In x l -> 0 <= x <= 1) -> rsum (map exp l) <= INR (length l) + (exp 1 - 1) * rsum l.
  Proof.
    induction l as [|x l IH]; intros H; [unfold rsum; cbn; lra|]. cbn [length map]. rewrite S_INR, !rsum_cons.
    pose proof (exp_chord (H x (or_introl eq_refl))). specialize (IH (fun y Hy => H y (or_intror Hy))). lra.
  Qed.
  Lemma simplex_split n w k : simplex n w -> (k < n)%nat ->
    exists r, Permutation w (nth k w 0 :: r) /\ S (length r) = n /\
      (forall x, In x r -> 0 <= x <= 1) /\ 0 <= nth k w 0 <= 1 /\ rsum r = 1 - nth k w 0.
  Proof.
    intros (L & P & S1) Hk. subst n. destruct (nth_split w 0 Hk) as (a & b & E & La).
    set (y := nth k w 0) in *. exists (a ++ b).
    assert (PM : Permutation w (y :: a ++ b)) by (rewrite E; symmetry; apply Permutation_middle).
    assert (Y : 0 <= y) by (apply P; rewrite E; apply in_app_iff; right; now left).
    assert (R : forall x, In x (a ++ b) -> 0 <= x) by (intros x Hx; apply P; eapply Permutation_in; [symmetry; exact PM|now right]).
    pose proof (rsum_perm PM) as S2. rewrite rsum_cons, S1 in S2. pose proof (rsum_nonneg _ R) as N.
    split; [exact PM|]. split; [now apply Permutation_length in PM|]. split; [|split; lra].
    intros x Hx. split; [now apply R|]. destruct (in_split _ _ Hx) as (c & d & Ecd).
    assert (S3 : rsum (a ++ b) = x + rsum (c ++ d)).
    { rewrite Ecd, !rsum_app, rsum_cons. lra. }
    assert (0 <= rsum (c ++ d)).
    { apply rsum_nonneg. intros z Hz. apply R. rewrite Ecd. apply in_app_iff. apply in_app_iff in Hz as [?|?]; [now left|right; now right]. }
    lra.
  Qed.

  (** a root categorical node with n classes: whatever the sampled weight, every class has a probability between
      1/(e+n-1) and e/(e+n-1) *)
  Theorem C229_root_bounds n w k : (2 <= n)%nat -> simplex n w -> (k < n)%nat ->
    1 / (exp 1 + INR n - 1) <= nicategorical_prob w k <= exp 1 / (exp 1 + INR n - 1).
  Proof.
    intros Hn Sw Hk. destruct (simplex_split Sw Hk) as (r & PM & Lr & Rr & Y & Sr).
    unfold nicategorical_prob, categorical_prob. set (y := nth k w 0) in *.
    assert (D : rsum (map exp w) = exp y + rsum (map exp r)) by (rewrite (rsum_perm (Permutation_map exp PM)); reflexivity).
    rewrite D. clear D.
    pose proof (rsum_exp_ge r (fun x Hx => proj1 (Rr x Hx))) as G. pose proof (rsum_exp_le r Rr) as U. rewrite Sr in U.
    assert (En : INR n = INR (length r) + 1) by (rewrite <- Lr, S_INR; lra).
    assert (Rn : 1 <= INR (length r)) by (apply (le_INR 1); lia).
    pose proof (exp_pos y) as Py. pose proof (exp_ge1 (proj1 Y)) as Gy. pose proof (exp_chord Y) as Cy.
    assert (E1 : 2 <= exp 1) by (pose proof (exp_ineq1_le 1); lra).
    assert (Ey : exp y <= exp 1) by (destruct (Req_dec y 1) as [->|N]; [lra|left; apply exp_increasing; lra]).
    rewrite En. set (m := INR (length r)) in *. set (T := rsum (map exp r)) in *. set (e := exp 1) in *. set (z := exp y) in *.
    assert (D1 : 0 < e + (m + 1) - 1) by lra. assert (D2 : 0 < z + T) by lra. split.
    - apply Rmult_le_reg_r with (e + (m + 1) - 1); auto. apply Rmult_le_reg_r with (z + T); auto.
      unfold Rdiv. replace (1 * / (e + (m + 1) - 1) * (e + (m + 1) - 1) * (z + T)) with (z + T) by (field; lra).
      replace (z * / (z + T) * (e + (m + 1) - 1) * (z + T)) with (z * (e + m)) by (field; lra).
      (* T <= m + (e-1)(1-y) <= z(e+m-1) *)
      assert (K : (e - 1) * (1 - y) <= e - z) by (clear - Cy; nra).
      assert (T <= m + (e - z)) by lra.
      assert (z * m >= m) by (clear - Gy Rn; nra).
      assert (z * e >= e) by (clear - Gy E1; nra). lra.
    - apply Rmult_le_reg_r with (e + (m + 1) - 1); auto. apply Rmult_le_reg_r with (z + T); auto.
      unfold Rdiv. replace (e * / (e + (m + 1) - 1) * (e + (m + 1) - 1) * (z + T)) with (e * (z + T)) by (field; lra).
      replace (z * / (z + T) * (e + (m + 1) - 1) * (z + T)) with (z * (e + m)) by (field; lra).
      assert (m * (e - z) >= 0) by (clear - Ey Rn; nra).
      assert (e * T >= e * m) by (clear - G E1; nra). lra.
  Qed.
  (** both bounds are attained, and class probabilities such as (9/10, 1/10) are out of reach *)
  Lemma exp1_lt3 : exp 1 < 9.
  Proof. pose proof exp_le_3. lra. Qed.
  Theorem C229_root_refuted : exists p, simplex 2 p /\
    forall w, simplex 2 w -> ~ (forall k, (k < 2)%nat -> nicategorical_prob w k = nth k p 0).
  Proof.
    exists [9/10; 1/10]. split.
    - split; [reflexivity|]. split; [intros x [<-|[<-|[]]]; lra|]. unfold rsum. cbn. lra.
    - intros w Sw H. pose proof (C229_root_bounds (n := 2) ltac:(lia) Sw (k := 0%nat) ltac:(lia)) as (_ & B).
      rewrite (H 0%nat) in B by lia. cbn [nth INR] in B. pose proof exp1_lt3. pose proof (exp_pos 1).
      apply Rmult_le_compat_r with (r := exp 1 + (1 + 1) - 1) in B; [|lra]. unfold Rdiv in B.
      rewrite (Rmult_assoc (exp 1)), Rinv_l in B by lra. lra.
  Qed.
  Example ex_root : simplex 2 [1; 0] /\ nicategorical_prob [1; 0] 0 = exp 1 / (exp 1 + INR 2 - 1) /\
    nicategorical_prob [1; 0] 1 = 1 / (exp 1 + INR 2 - 1).
  Proof.
    split; [split; [reflexivity|]; split; [intros x [<-|[<-|[]]]; lra|unfold rsum; cbn; lra]|].
    unfold nicategorical_prob, categorical_prob, rsum. cbn [map nth fold_right INR]. rewrite exp_0.
    split; f_equal; lra.
  Qed.

  (** *** nodes with parents *)
  Definition comp (x : list R) (W : list (list R)) (k : nat) : R :=
    rsum (map (fun p => fst p * nth k (snd p) 0) (combine x W)).
  Lemma vecmat_length n x W : length (vecmat n x W) = n.
  Proof. unfold vecmat. now rewrite map_length, seq_length. Qed.
  Lemma vecmat_nth n x W k : (k < n)%nat -> nth k (vecmat n x W) 0 = comp x W k.
  Proof.
    intros H. unfold vecmat. rewrite (nth_indep _ 0 (comp x W 0%nat)) by (rewrite map_length, seq_length; lia).
    rewrite (map_nth (comp x W)), seq_nth by lia. reflexivity.
  Qed.
  Lemma comp_cons x xs w W k : comp (x :: xs) (w :: W) k = x * nth k w 0 + comp xs W k.
  Proof. reflexivity. Qed.
  Lemma map_nth_seq (w : list R) : map (fun k => nth k w 0) (seq 0 (length w)) = w.
  Proof.
    induction w as [|x w IH]; [reflexivity|]. cbn [length seq map nth]. f_equal. rewrite <- seq_shift, map_map. exact IH.
  Qed.
  Lemma comp_nonneg x W k n : (forall v, In v x -> 0 <= v) -> Forall (simplex n) W -> 0 <= comp x W k.
  Proof.
    intros Hx HW. apply rsum_nonneg. intros v (p & <- & Hp)%in_map_iff. destruct p as [a w]. cbn [fst snd].
    pose proof (in_combine_l _ _ _ _ Hp) as Ha. pose proof (in_combine_r _ _ _ _ Hp) as Hw.
    apply Rmult_le_pos; [now apply Hx|]. pose proof (proj1 (Forall_forall _ _) HW _ Hw) as (L & P & _).
    destruct (nth_in_or_default k w 0) as [HI|E0]; [now apply P|rewrite E0; lra].
  Qed.

  (** when all parents have their first class (code 0), the distribution is uniform, whatever the weights *)
  Theorem C229_child_zero ni no W k : (0 < no)%nat -> (k < no)%nat ->
    linear_categorical_prob ni no W (repeat 0 ni) k = Ok (1 / INR no).
  Proof.
    intros Hn Hk. unfold linear_categorical_prob, linear_call. rewrite repeat_length, Nat.eqb_refl. cbn [bind].
    assert (Z : forall W, vecmat no (repeat 0 ni) W = repeat 0 no).
    { intros V. apply nth_ext with 0 0; rewrite vecmat_length, ?repeat_length; auto. intros j Hj. rewrite vecmat_nth, nth_repeat by auto.
      clear. revert V. induction ni as [|m IH]; intros V; [reflexivity|]. destruct V as [|w V]; [reflexivity|].
      cbn [repeat]. rewrite comp_cons, IH. lra. }
    rewrite Z. unfold categorical_prob. rewrite nth_repeat, exp_0. f_equal.
    assert (E : rsum (map exp (repeat 0 no)) = INR no).
    { clear. induction no as [|m IH]; [reflexivity|]. cbn [repeat map]. rewrite rsum_cons, IH, S_INR, exp_0. lra. }
    now rewrite E.
  Qed.
  (** in general the odds of two classes are the exponential of a linear function of the codes with coefficients
      between -1 and 1 *)
  Theorem C229_child_odds ni no W x k l : length W = ni -> Forall (simplex no) W -> length x = ni ->
    (k < no)%nat -> (l < no)%nat ->
    exists p q c, linear_categorical_prob ni no W x k = Ok p /\ linear_categorical_prob ni no W x l = Ok q /\
      length c = ni /\ (forall v, In v c -> -1 <= v <= 1) /\
      p = q * exp (rsum (map (fun e => fst e * snd e) (combine c x))).
  Proof.
    intros LW SW Lx Hk Hl. unfold linear_categorical_prob, linear_call. rewrite Lx, Nat.eqb_refl. cbn [bind].
    do 2 eexists. exists (map (fun w => nth k w 0 - nth l w 0) W). split; [reflexivity|]. split; [reflexivity|].
    split; [now rewrite map_length|]. split.
    - intros v (w & <- & Hw)%in_map_iff. pose proof (proj1 (Forall_forall _ _) SW _ Hw) as S1.
      destruct (simplex_split S1 Hk) as (_ & _ & _ & _ & A & _). destruct (simplex_split S1 Hl) as (_ & _ & _ & _ & B & _). lra.
    - unfold categorical_prob. rewrite !vecmat_nth by auto.
      assert (E : comp x W k = comp x W l + rsum (map (fun e => fst e * snd e) (combine (map (fun w => nth k w 0 - nth l w 0) W) x))).
      { clear. revert x. induction W as [|w W IH]; intros [|v x]; try (unfold comp, rsum; cbn; lra).
        cbn [map combine]. rewrite !comp_cons, rsum_cons, (IH x). cbn [fst snd]. lra. }
      rewrite E, exp_plus. unfold Rdiv. lra.
  Qed.
  (** a conditional distribution as simple as (3/4, 1/4) for one class of the parent and (1/4, 3/4) for the other is out
      of reach *)
  Theorem C229_child_refuted : exists t : list (list R), Forall (simplex 2) t /\
    forall W, ~ (forall c k, (c < 2)%nat -> (k < 2)%nat ->
      linear_categorical_prob 1 2 W [INR c] k = Ok (nth k (nth c t []) 0)).
  Proof.
    exists [[3/4; 1/4]; [1/4; 3/4]]. split.
    - constructor; [|constructor; [|constructor]]; (split; [reflexivity|]; split; [intros x [<-|[<-|[]]]; lra|unfold rsum; cbn; lra]).
    - intros W H. specialize (H 0%nat 0%nat ltac:(lia) ltac:(lia)). cbn [nth] in H.
      pose proof (@C229_child_zero 1%nat 2%nat W 0%nat ltac:(lia) ltac:(lia)) as Z. cbn [repeat] in Z.
      change (INR 0) with 0 in H. rewrite Z in H. injection H as H. cbn [INR] in H. lra.
  Qed.
  (** numerical nodes with parents: every affine function of the parents is the mean for some weight and bias *)
  Theorem C229_normal : forall a c, exists W b, length W = length a /\ Forall (fun w => length w = 1%nat) W /\
    forall x, length x = length a -> linear_normal_mean (length a) W b x = Ok (rsum (map (fun e => fst e * snd e) (combine a x)) + c).
  Proof.
    intros a c. exists (map (fun v => [v]) a), c. split; [now rewrite map_length|]. split.
    { apply Forall_forall. intros w (v & <- & _)%in_map_iff. reflexivity. }
    intros x Lx. unfold linear_normal_mean, linear_call. rewrite Lx, Nat.eqb_refl. cbn [bind vecmat seq map combine nth fst snd].
    f_equal. f_equal. clear Lx. revert x. induction a as [|v a IH]; intros [|y x]; try reflexivity.
    cbn [map combine]. rewrite !rsum_cons, IH. cbn [fst snd nth]. lra.
  Qed.

  (** *** MLPCategorical *)
  Lemma comb_lin k a f1 f2 s (W : list (list R)) :
    rsum (map (fun p => fst p * nth k (snd p) 0) (combine (map (fun j : nat => a * f1 j + f2 j) s) W)) =
    a * rsum (map (fun p => fst p * nth k (snd p) 0) (combine (map f1 s) W)) +
    rsum (map (fun p => fst p * nth k (snd p) 0) (combine (map f2 s) W)).
  Proof.
    revert W. induction s as [|i s IH]; intros [|w W]; cbn [map combine]; try (unfold rsum; cbn; lra).
    rewrite !rsum_cons, IH. cbn [fst snd]. lra.
  Qed.
  Definition matmul (n : nat) (A B : list (list R)) : list (list R) := map (fun r => vecmat n r B) A.
  Lemma comp_matmul n1 n2 x A B k : (k < n2)%nat -> Forall (fun w => length w = n1) A ->
    comp (vecmat n1 x A) B k = comp x (matmul n2 A B) k.
  Proof.
    intros Hk. revert A. induction x as [|v x IH]; intros A HA.
    - unfold vecmat, comp at 1. cbn [combine map]. unfold comp. cbn [combine map]. clear.
      change (rsum []) with 0. generalize (seq 0 n1). intros s. revert B.
      induction s as [|i s IH]; intros [|w B]; try reflexivity. cbn [map combine]. rewrite rsum_cons, IH. cbn. lra.
    - destruct A as [|w A].
      + unfold vecmat, comp at 1. cbn [combine map]. unfold comp. cbn [combine map]. clear.
        change (rsum []) with 0. generalize (seq 0 n1). intros s. revert B.
        induction s as [|i s IH]; intros [|w B]; try reflexivity. cbn [map combine]. rewrite rsum_cons, IH. cbn. lra.
      + cbn [matmul map]. rewrite comp_cons, vecmat_nth by auto. fold (matmul n2 A B). inversion_clear HA as [|? ? Hw HA'].
        rewrite <- IH by auto. unfold comp at 1. unfold vecmat at 1.
        rewrite (map_ext _ (fun j => v * nth j w 0 + comp x A j)) by reflexivity.
        rewrite comb_lin. f_equal. f_equal. subst n1. rewrite map_nth_seq. reflexivity.
  Qed.
  Lemma simplex_vecmat n1 n2 w B : simplex n1 w -> length B = n1 -> Forall (simplex n2) B -> simplex n2 (vecmat n2 w B).
  Proof.
    intros (L & P & S1) LB SB. split; [apply vecmat_length|]. split.
    - intros v Hv. apply (In_nth _ _ 0) in Hv as (k & Hk & <-). rewrite vecmat_length in Hk. rewrite vecmat_nth by auto.
      now apply comp_nonneg with n2.
    - assert (E : rsum (vecmat n2 w B) = rsum w).
      { rewrite <- L in LB. clear S1 L. revert B LB SB. induction w as [|x w IH]; intros [|b B] LB SB; try discriminate.
        - unfold vecmat. cbn [combine map]. change (rsum []) with 0. clear. generalize (seq 0 n2).
          intros s. induction s as [|i s IH]; [reflexivity|]. cbn [map]. rewrite rsum_cons, IH. lra.
        - inversion_clear SB as [|? ? (Lb & Pb & Sb) SB']. cbn [length] in LB. injection LB as LB.
          rewrite rsum_cons, <- (IH (fun y Hy => P y (or_intror Hy)) B LB SB'). unfold vecmat.
          rewrite (map_ext (fun k => rsum _) (fun k => x * nth k b 0 + comp w B k)) by reflexivity.
          assert (Q : forall s, rsum (map (fun k => x * nth k b 0 + comp w B k) s) =
                    x * rsum (map (fun k => nth k b 0) s) + rsum (map (comp w B) s)).
          { induction s as [|i s IHs]; [unfold rsum; cbn; lra|]. cbn [map]. rewrite !rsum_cons, IHs. lra. }
          rewrite Q. rewrite <- Lb at 1. rewrite map_nth_seq, Sb. unfold comp. lra. }
      now rewrite E.
  Qed.
  (** consecutive layers fit together, and every row of every weight is a point of the Dirichlet support *)
  Fixpoint dirichlet_layers (ni : nat) (ls : list (nat * nat * list (list R) * option (list R))) (no : nat) : Prop :=
    match ls with
    | [] => ni = no
    | (i, o, W, b) :: r => i = ni /\ length W = ni /\ Forall (simplex o) W /\ b = None /\ dirichlet_layers o r no
    end.
  Lemma elu_nonneg x : 0 <= x -> elu x = x.
  Proof. intros H. unfold elu. destruct (Rlt_dec 0 x); auto. replace x with 0 by lra. rewrite exp_0. lra. Qed.
  (** with nonnegative inputs (class codes are), an MLP with Dirichlet weights and no bias computes what a single linear
      layer with Dirichlet weights computes: hidden layers add nothing *)
  Theorem C229_mlp ls : forall ni no, ls <> [] -> dirichlet_layers ni ls no ->
    exists W, length W = ni /\ Forall (simplex no) W /\
      forall x, length x = ni -> (forall v, In v x -> 0 <= v) -> mlp_call ls x = linear_call ni no W None x.
  Proof.
    induction ls as [|[[[i o] W] b] ls IH]; intros ni no NE D; [easy|]. cbn [dirichlet_layers] in D.
    destruct D as (-> & LW & SW & -> & D). destruct ls as [|l2 ls].
    - cbn in D. subst o. exists W. auto.
    - destruct (IH o no ltac:(discriminate) D) as (V & LV & SV & HV). exists (matmul no W V).
      split; [unfold matmul; now rewrite map_length|]. split.
      + apply Forall_forall. intros r (w & <- & Hw)%in_map_iff.
        apply simplex_vecmat with o; auto. exact (proj1 (Forall_forall _ _) SW _ Hw).
      + intros x Lx Px. destruct l2 as [[[i2 o2] W2] b2].
        assert (Y : forall v, In v (vecmat o x W) -> 0 <= v).
        { intros v Hv. apply (In_nth _ _ 0) in Hv as (k & Hk & <-). rewrite vecmat_length in Hk.
          rewrite vecmat_nth by auto. now apply comp_nonneg with o. }
        transitivity (do y <- linear_call ni o W None x ; mlp_call ((i2, o2, W2, b2) :: ls) (map elu y)); [reflexivity|].
        unfold linear_call at 1. rewrite Lx, Nat.eqb_refl. cbn [bind].
        assert (E : map elu (vecmat o x W) = vecmat o x W).
        { rewrite <- (map_id (vecmat o x W)) at 2. apply map_ext_in. intros v Hv. apply elu_nonneg. now apply Y. }
        rewrite E, HV by (rewrite ?vecmat_length; auto). unfold linear_call. rewrite vecmat_length, Lx, !Nat.eqb_refl. f_equal.
        apply nth_ext with 0 0; rewrite !vecmat_length; auto. intros k Hk. rewrite !vecmat_nth by auto.
        apply comp_matmul; auto. eapply Forall_impl; [|exact SW]. intros w (L & _). exact L.
  Qed.
  (** it does matter for negative inputs *)
  Example ex_mlp_negative : forall W : R, mlp_call [(1%nat, 1%nat, [[1]], None); (1%nat, 1%nat, [[1]], None)] [-1] = linear_call 1 1 [[W]] None [-1] -> W <> 1.
  Proof.
    intros W H E. subst W. unfold linear_call, mlp_call, linear_call, vecmat, rsum in H. cbn in H. injection H as H.
    unfold elu in H. destruct (Rlt_dec _ _); [lra|]. pose proof (exp_pos (-1 * 1 + 0)). lra.
  Qed.
  Example ex_dirichlet_layers : dirichlet_layers 2 [(2%nat, 2%nat, [[1/2; 1/2]; [1; 0]], None); (2%nat, 1%nat, [[1]; [1]], None)] 1.
  Proof.
    cbn [dirichlet_layers]. split; [reflexivity|]. split; [reflexivity|]. split.
    { constructor; [|constructor; [|constructor]]; (split; [reflexivity|]; split; [intros x [<-|[<-|[]]]; lra|unfold rsum; cbn; lra]). }
    split; [reflexivity|]. split; [reflexivity|]. split; [reflexivity|]. split.
    { constructor; [|constructor; [|constructor]]; (split; [reflexivity|]; split; [intros x [<-|[]]; lra|unfold rsum; cbn; lra]). }
    split; reflexivity.
  Qed.
End Express.

Print Assumptions C227_guide.
Print Assumptions C227_default.
Print Assumptions C227_mlp.
Print Assumptions C227_names_partial.
Print Assumptions C227_names_refuted.
Print Assumptions C228_any.
Print Assumptions C228_partial.
Print Assumptions C228_refuted.
Print Assumptions C229_root_bounds.
Print Assumptions C229_root_refuted.
Print Assumptions C229_child_zero.
Print Assumptions C229_child_odds.
Print Assumptions C229_child_refuted.
Print Assumptions C229_normal.
Print Assumptions C229_mlp.
Print Assumptions C230_first.
Print Assumptions C230_partial.
Print Assumptions C230_refuted.
Print Assumptions C230_import.
