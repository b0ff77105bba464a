(** Properties C24, C25: instruments. *)
From Verif Require Import Base NxModel NxSpec ReachProofs NxProofs GraphModel GraphSpec GraphProofs ExplicitProofs
  GraphProps CausalModel Bn ScmSpec ScmProofs BackdoorSpec BackdoorProofs BackdoorProps PathSpec PathProofs PathProps
  FrontdoorProps IvSpec IvProofs.
Set Implicit Arguments.
Local Open Scope string_scope.
Local Open Scope list_scope.

(* ------------------------------------------------------------------ C24 *)
(** What is returned, in every graph: the parents of the treatment that share no cause with the outcome, the outcome
    itself not being counted as a cause (t's incoming edges removed). *)
Theorem C24_get_iv_exact g t o iv : user_graph g -> get_iv g t o = Ok iv ->
  NoDup iv /\ forall p, In p iv <->
    is_parent g p t /\
    forall r, reach (cut_into (cause g uname) t) r p -> reach (cut_into (cause g uname) t) r o -> r = o.
Proof. intros U H. now apply get_iv_spec. Qed.
(** Each returned node is a valid instrument unless the outcome is a cause of the treatment. *)
Theorem C24_get_iv_partial g t o iv p : user_graph g -> In o (keys (causation g)) -> ~ reach (is_parent g) o t ->
  get_iv g t o = Ok iv -> In p iv -> instrument g t o p.
Proof. intros U Ko Hot H Hp. destruct (@get_iv_instruments g U t o _ Ko Hot H) as [_ HI]. now apply HI. Qed.

Definition g24 := init [("Z", []); ("W", []); ("X", ["Z"; "W"]); ("Y", ["X"; "W"])] None [("X", "Y")].
Lemma g24_ok : user_graph g24.
Proof. user_graph. Qed.
Example C24_example :
  In "Y" (keys (causation g24)) /\ ~ reach (is_parent g24) "Y" "X" /\ get_iv g24 "X" "Y" = Ok ["Z"] /\
  instrument g24 "X" "Y" "Z".
Proof.
  assert (H1 : In "Y" (keys (causation g24))) by (vm_compute; tauto).
  assert (H2 : ~ reach (is_parent g24) "Y" "X") by (apply (@not_anc_by g24 "X" ["Y"] g24_ok); [reflexivity|now left]).
  assert (H3 : get_iv g24 "X" "Y" = Ok ["Z"]) by reflexivity.
  split; auto. split; auto. split; auto. apply (@C24_get_iv_partial g24 "X" "Y" ["Z"]); auto using g24_ok. now left.
Qed.
(** The outcome itself, or a variable that the outcome causes, can be returned. *)
Theorem C24_refuted :
  exists g, user_graph g /\ get_iv g "X" "Y" = Ok ["Y"] /\ ~ instrument g "X" "Y" "Y".
Proof.
  exists (init [("Y", []); ("X", ["Y"])] None []). split; [user_graph|]. split; [reflexivity|].
  intros (_ & H & _). now apply H.
Qed.
Theorem C24_refuted_child :
  exists g, user_graph g /\ get_iv g "X" "Y" = Ok ["A"] /\ ~ instrument g "X" "Y" "A".
Proof.
  set (g := init [("Y", []); ("A", ["Y"]); ("X", ["A"])] None []). assert (U : user_graph g) by user_graph.
  exists g. split; auto. split; [reflexivity|]. intros (_ & _ & H).
  apply (@dsep_common _ _ _ (@C_acyclic g U "X")) with (r := "Y") in H; [apply H; constructor|].
  apply reach_one. split; [left; vm_compute; auto|discriminate].
Qed.

(* ------------------------------------------------------------------ C25 *)
(** Complete: every valid instrument is returned; and the call answers whenever both names have an edge or arc. *)
Theorem C25_get_iv_complete g t o iv p : user_graph g -> get_iv g t o = Ok iv -> instrument g t o p -> In p iv.
Proof.
  intros U H (H1 & H2 & H3). apply (@get_iv_spec g U t o iv H). split; auto.
  intros r Hr1 Hr2. exfalso. exact (proj1 (@dsep_common _ _ _ (@C_acyclic g U t) p o) H3 r Hr1 Hr2).
Qed.
Theorem C25_get_iv_total g t o : user_graph g -> In t (keys (causation g)) -> In o (keys (causation g)) ->
  drawn g t -> drawn g o -> exists iv, get_iv g t o = Ok iv.
Proof. intros U Kt Ko Dt Do. apply get_iv_total; auto; now apply drawn_nodes. Qed.
(** is_valid_iv: True iff there is an instrument and all elements are among the returned ones; an exception iff
    there is none. *)
Theorem C25_is_valid_iv g t o s : user_graph g -> In o (keys (causation g)) -> ~ reach (is_parent g) o t ->
  (forall b, is_valid_iv g t o s = Ok b ->
     (b = true <-> forall v, In v (as_set s) -> instrument g t o v) /\ exists p, instrument g t o p) /\
  (In t (keys (causation g)) -> drawn g t -> drawn g o -> (exists p, instrument g t o p) -> exists b, is_valid_iv g t o s = Ok b).
Proof.
  intros U Ko Hot. unfold is_valid_iv. split.
  - intros b. destruct (get_iv g t o) as [iv|] eqn:H; [|discriminate]. cbn [bind].
    destruct (@get_iv_instruments g U t o _ Ko Hot H) as [_ HI].
    destruct iv as [|p iv]; [discriminate|]. intros Hb. assert (Hb' : b = forallb (fun e => mem e (p :: iv)) (as_set s)) by now inversion Hb. subst b. clear Hb. split.
    + rewrite forallb_forall. split; intros Hf v Hv; [apply HI, mem_In, Hf; auto|apply (proj2 (mem_In v (p :: iv))), HI, Hf; auto].
    + exists p. apply HI. now left.
  - intros Kt Dt Do (p & Hp). destruct (C25_get_iv_total U Kt Ko Dt Do) as (iv & H). rewrite H. cbn [bind].
    apply (@get_iv_instruments g U t o iv Ko Hot H) in Hp. destruct iv; [destruct Hp|]. cbn [is_nil]. eauto.
Qed.
Example C25_example :
  drawn g24 "X" /\ drawn g24 "Y" /\ is_valid_iv g24 "X" "Y" (Str "Z") = Ok true /\
  is_valid_iv g24 "X" "Y" (SetOf ["Z"; "W"]) = Ok false.
Proof.
  split; [apply (@drawn_by g24 ["X"] g24_ok); [reflexivity|now left]|].
  split; [apply (@drawn_by g24 ["Y"] g24_ok); [reflexivity|now left]|]. split; reflexivity.
Qed.

Print Assumptions C24_get_iv_partial.
Print Assumptions C25_is_valid_iv.
