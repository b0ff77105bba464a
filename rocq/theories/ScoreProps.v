(** C262, C263: properties of calc_score (ylearn/utils/metrics.py). *)
From Coq Require Import Reals String Ascii List Bool Lra.
From Verif Require Import Base ScoreModel.
Unset Implicit Arguments.
Local Notation length := List.length.
Local Open Scope string_scope.
Local Open Scope list_scope.
Local Open Scope nat_scope.

(** ** C262: upper and lower case alike: A..Z become a..z, every other character stays *)
Definition letters (s : string) : list ascii := list_ascii_of_string s.
Theorem C262_case : forall s, list_ascii_of_string (lower s) =
  map (fun a => match find (fun p => Ascii.eqb (fst p) a) (combine (letters "ABCDEFGHIJKLMNOPQRSTUVWXYZ") (letters "abcdefghijklmnopqrstuvwxyz")) with
                | Some p => snd p | None => a end) (list_ascii_of_string s).
Proof.
  induction s as [|a s IH]; [reflexivity|]. cbn [lower list_ascii_of_string map]. f_equal; [|exact IH].
  destruct a as [[|] [|] [|] [|] [|] [|] [|] [|]]; vm_compute; reflexivity.
Qed.
(** the names that calc_score knows *)
Definition known_names : list string :=
  ["auc"; "accuracy"; "recall"; "precision"; "f1"; "mse"; "mae"; "msle"; "rmse"; "rootmeansquarederror"; "root_mean_squared_error"; "r2"; "logloss"; "log_loss"].

Section Spec.
  Context {Arr L : Type}.
  Variable columns : Arr -> option nat.
  Variable column1 : Arr -> res Arr.
  Variable sk : @call Arr L -> res R.
  (** the key of a metric, and whether it is computed *)
  Definition key (m : @metric Arr) : string := match m with Named s => s | Fn n _ => n end.
  Definition known (m : @metric Arr) : bool := match m with Named s => existsb (String.eqb (lower s)) known_names | Fn _ _ => true end.
  (** the score of a metric: y true values, p predictions, pr probabilities *)
  Inductive scored (t : task) (y p pr : Arr) (o : @options L) : @metric Arr -> R -> Prop :=
    | s_fn : forall n f v, f y p = Ok v -> scored t y p pr o (Fn n f) v
    | s_auc1 : forall s v, lower s = "auc" -> columns pr = None -> sk (roc_auc y pr) = Ok v -> scored t y p pr o (Named s) v
    | s_auc2 : forall s k c v, lower s = "auc" -> columns pr = Some k -> t <> Multiclass -> column1 pr = Ok c -> sk (roc_auc y c) = Ok v ->
                 scored t y p pr o (Named s) v
    | s_aucm : forall s k v, lower s = "auc" -> columns pr = Some k -> t = Multiclass -> sk (roc_auc_ovo y pr (labels o)) = Ok v ->
                 scored t y p pr o (Named s) v
    | s_acc : forall s v, lower s = "accuracy" -> sk (accuracy y p) = Ok v -> scored t y p pr o (Named s) v
    | s_rec : forall s v, lower s = "recall" -> sk (recall y p o) = Ok v -> scored t y p pr o (Named s) v
    | s_pre : forall s v, lower s = "precision" -> sk (precision y p o) = Ok v -> scored t y p pr o (Named s) v
    | s_f1 : forall s v, lower s = "f1" -> sk (f1 y p o) = Ok v -> scored t y p pr o (Named s) v
    | s_mse : forall s v, lower s = "mse" -> sk (mean_squared_error y p) = Ok v -> scored t y p pr o (Named s) v
    | s_mae : forall s v, lower s = "mae" -> sk (mean_absolute_error y p) = Ok v -> scored t y p pr o (Named s) v
    | s_msle : forall s v, lower s = "msle" -> sk (mean_squared_log_error y p) = Ok v -> scored t y p pr o (Named s) v
    | s_rmse : forall s v, In (lower s) ["rmse"; "rootmeansquarederror"; "root_mean_squared_error"] -> sk (mean_squared_error y p) = Ok v ->
                 scored t y p pr o (Named s) (sqrt v)
    | s_r2 : forall s v, lower s = "r2" -> sk (r2 y p) = Ok v -> scored t y p pr o (Named s) v
    | s_ll : forall s v, In (lower s) ["logloss"; "log_loss"] -> sk (log_loss y pr (labels o)) = Ok v -> scored t y p pr o (Named s) v.

  Lemma branch_known : forall t y p pr o s, branch columns column1 sk t y p pr o (lower s) = None <-> known (Named s) = false.
  Proof.
    intros. unfold branch, known, known_names. cbn [existsb].
    repeat (match goal with |- context [String.eqb ?a ?b] => destruct (String.eqb a b) eqn:?; cbn [orb]; [split; discriminate|] end). split; reflexivity.
  Qed.
  Lemma branch_scored : forall t y p pr o s v, branch columns column1 sk t y p pr o (lower s) = Some (Ok v) -> scored t y p pr o (Named s) v.
  Proof.
    intros t y p pr o s v. unfold branch.
    destruct (String.eqb (lower s) "auc") eqn:E1.
    { apply String.eqb_eq in E1. intros [= H]. destruct (columns pr) as [k|] eqn:Ec; [|apply s_auc1; assumption].
      destruct t eqn:Et; try (destruct (column1 pr) as [c|] eqn:E2; [|discriminate]; eapply s_auc2; eauto; discriminate). eapply s_aucm; eauto. }
    destruct (String.eqb (lower s) "accuracy") eqn:E2; [apply String.eqb_eq in E2; intros [= H]; apply s_acc; assumption|].
    destruct (String.eqb (lower s) "recall") eqn:E3; [apply String.eqb_eq in E3; intros [= H]; apply s_rec; assumption|].
    destruct (String.eqb (lower s) "precision") eqn:E4; [apply String.eqb_eq in E4; intros [= H]; apply s_pre; assumption|].
    destruct (String.eqb (lower s) "f1") eqn:E5; [apply String.eqb_eq in E5; intros [= H]; apply s_f1; assumption|].
    destruct (String.eqb (lower s) "mse") eqn:E6; [apply String.eqb_eq in E6; intros [= H]; apply s_mse; assumption|].
    destruct (String.eqb (lower s) "mae") eqn:E7; [apply String.eqb_eq in E7; intros [= H]; apply s_mae; assumption|].
    destruct (String.eqb (lower s) "msle") eqn:E8; [apply String.eqb_eq in E8; intros [= H]; apply s_msle; assumption|].
    destruct (String.eqb (lower s) "rmse" || String.eqb (lower s) "rootmeansquarederror" || String.eqb (lower s) "root_mean_squared_error") eqn:E9.
    { intros [= H]. destruct (sk (mean_squared_error y p)) as [w|] eqn:Es; [|discriminate]. injection H as <-. apply s_rmse; [|assumption].
      rewrite !orb_true_iff, !String.eqb_eq in E9. cbn [In]. intuition. }
    destruct (String.eqb (lower s) "r2") eqn:E10; [apply String.eqb_eq in E10; intros [= H]; apply s_r2; assumption|].
    destruct (String.eqb (lower s) "logloss" || String.eqb (lower s) "log_loss") eqn:E11; [|discriminate].
    intros [= H]. apply s_ll; [|assumption]. rewrite !orb_true_iff, !String.eqb_eq in E11. cbn [In]. intuition.
  Qed.
  Lemma put_new : forall {V} (s : list (string * V)) k v, ~ In k (map fst s) -> put s k v = s ++ [(k, v)].
  Proof.
    intros V s k v H. unfold put. destruct (existsb _ s) eqn:E; [|reflexivity]. exfalso. apply existsb_exists in E as [e [He Ee]].
    apply String.eqb_eq in Ee. apply H. rewrite <- Ee. apply in_map. exact He.
  Qed.
  Lemma loop_scores : forall t y p pr o ms acc out, loop columns column1 sk t y p pr o ms acc = Ok out ->
    NoDup (map fst acc ++ map key (filter known ms)) ->
    exists new, out = acc ++ new /\ Forall2 (fun m e => fst e = key m /\ scored t y p pr o m (snd e)) (filter known ms) new.
  Proof.
    intros t y p pr o. induction ms as [|m ms IH]; intros acc out H N.
    - cbn in H. injection H as <-. exists []. rewrite app_nil_r. split; [reflexivity|constructor].
    - assert (step : forall k v, k = key m -> scored t y p pr o m v -> known m = true -> loop columns column1 sk t y p pr o ms (put acc k v) = Ok out ->
        exists new, out = acc ++ new /\ Forall2 (fun m e => fst e = key m /\ scored t y p pr o m (snd e)) (filter known (m :: ms)) new).
      { intros k v Ek Sv Km Hl. cbn [filter] in *. rewrite Km in *. cbn [map] in N. subst k.
        assert (Hn : ~ In (key m) (map fst acc)).
        { apply NoDup_remove_2 in N. intros C. apply N. apply in_or_app. left. exact C. }
        rewrite put_new in Hl by exact Hn. apply IH in Hl.
        - destruct Hl as [new [-> F]]. exists ((key m, v) :: new). rewrite <- app_assoc. split; [reflexivity|]. constructor; [split; [reflexivity|exact Sv]|exact F].
        - rewrite map_app, <- app_assoc. exact N. }
      destruct m as [s|n f]; cbn [loop] in H.
      + destruct (branch columns column1 sk t y p pr o (lower s)) as [[v|x]|] eqn:E; cbn in H; try discriminate.
        * apply (step s v eq_refl (branch_scored _ _ _ _ _ _ _ E)); [|exact H]. destruct (known (Named s)) eqn:K; [reflexivity|].
          apply (branch_known t y p pr o) in K. congruence.
        * apply (branch_known t y p pr o) in E. cbn [filter] in *. rewrite E in *. apply IH; assumption.
      + destruct (f y p) as [v|x] eqn:E; [|discriminate]. apply (step n v eq_refl (s_fn _ _ _ _ _ _ _ _ E) eq_refl H).
  Qed.
End Spec.

Section Props.
  Context {Arr L : Type}.
  Variable columns : Arr -> option nat.
  Variable flat : Arr -> Arr.
  Variable column1 : Arr -> res Arr.
  Variable infer : Arr -> res task.
  Variable classes_of : Arr -> res (list L).
  Variable sk : @call Arr L -> res R.
  Notation calc := (calc_score columns flat column1 infer classes_of sk).
  (** a column vector is flattened *)
  Definition one_dim (a b : Arr) : Prop := (columns a = Some 1 /\ b = flat a) \/ (columns a <> Some 1 /\ b = a).

  (** ** C262: the metrics asked for, in this order under the names given, each with its score from sklearn - for metrics of different keys, unknown
      names left out *)
  Theorem C262_scores_partial : forall y p0 pr0 ms t pos_label classes avg out,
    calc y (Some p0) pr0 (Some ms) (Some t) pos_label classes avg = Ok out -> NoDup (map key (filter known ms)) ->
    exists p pr o, one_dim p0 p /\ one_dim (match pr0 with Some a => a | None => p0 end) pr /\
      make_options classes_of t y pos_label classes avg = Ok o /\
      map fst out = map key (filter known ms) /\
      Forall2 (fun m e => scored columns column1 sk t y p pr o m (snd e)) (filter known ms) out.
  Proof.
    intros y p0 pr0 ms t pl cs avg out H N. unfold calc_score in H. cbn in H.
    destruct (make_options classes_of t y pl cs avg) as [o|] eqn:Eo; [|discriminate]. cbn in H.
    apply loop_scores in H; [|exact N]. destruct H as [new [E F]]. cbn in E. subst new.
    exists (squeeze columns flat p0), (squeeze columns flat (match pr0 with Some a => a | None => p0 end)), o.
    assert (S : forall a, one_dim a (squeeze columns flat a)).
    { intros a. unfold one_dim, squeeze. destruct (columns a) as [[|[|k]]|]; (left; split; [reflexivity|reflexivity]) || (right; split; [discriminate|reflexivity]). }
    repeat split; try apply S; clear -F.
    - induction F as [|m e ms0 es [A B] F IH]; cbn; [reflexivity|]. f_equal; assumption.
    - induction F as [|m e ms0 es [A B] F IH]; constructor; assumption.
  Qed.
  (** a misspelled name is silently left out, for every sklearn *)
  Theorem C262_unknown_refuted : forall y p0 pr0 t pos_label classes avg, t <> Binary ->
    calc y (Some p0) pr0 (Some [Named "acc"; Named "f1_score"; Named "roc_auc"]) (Some t) pos_label classes avg = Ok [].
  Proof. intros y p0 pr0 t pl cs avg Ht. destruct t; try contradiction; destruct pl; reflexivity. Qed.
  (** two functions of the same __name__ (lambdas): one score is lost *)
  Theorem C262_lambda_refuted : forall y p0 a b, a <> b ->
    calc y (Some p0) None (Some [Fn "<lambda>" (fun _ _ => Ok a); Fn "<lambda>" (fun _ _ => Ok b)]) (Some Regression) None None None = Ok [("<lambda>", b)].
  Proof. intros y p0 a b Hab. reflexivity. Qed.
  (** no scores without predictions, even of metrics that use the probabilities only *)
  Theorem C262_probabilities_only_refuted : forall y pr0 ms t pos_label classes avg, calc y None pr0 ms t pos_label classes avg = Err AttributeError.
  Proof. reflexivity. Qed.

  (** ** C263: recall, precision and f1 are of the positive class: of two sorted classes the last, binary *)
  Theorem C263_positive : forall y p0 p a b s c, one_dim p0 p -> classes_of y = Ok [a; b] ->
    In (s, c) [("recall", recall y p (mkOpt "binary" (Some [a; b]) (Some b))); ("precision", precision y p (mkOpt "binary" (Some [a; b]) (Some b)));
               ("f1", f1 y p (mkOpt "binary" (Some [a; b]) (Some b)))] ->
    calc y (Some p0) None (Some [Named s]) (Some Binary) None None None = (do v <- sk c; Ok [(s, v)]).
  Proof.
    intros y p0 p a b s c Hp Hc Hs. assert (Ep : squeeze columns flat p0 = p).
    { unfold squeeze. destruct Hp as [[E ->]|[E ->]]; [rewrite E; reflexivity|]. destruct (columns p0) as [[|[|k]]|]; try reflexivity. contradiction. }
    cbn [In] in Hs. destruct Hs as [E|[E|[E|[]]]]; injection E as <- <-; unfold calc_score, make_options; rewrite Hc, Ep; reflexivity.
  Qed.
  (** ... of more or fewer than two classes an error *)
  Theorem C263_two_classes : forall y p0 pr0 ms classes avg cs, (classes = Some cs \/ classes = None /\ classes_of y = Ok cs) -> length cs <> 2 ->
    calc y (Some p0) pr0 ms (Some Binary) None classes avg = Err AssertionError.
  Proof.
    intros y p0 pr0 ms classes avg cs H Hl. unfold calc_score, make_options.
    assert (E : (do cs <- match classes with Some cs => Ok cs | None => classes_of y end; match cs with [_; b] => Ok (Some cs, Some b) | _ => Err AssertionError end) = Err AssertionError).
    { destruct H as [-> | [-> ->]]; cbn; destruct cs as [|? [|? [|? ?]]]; try reflexivity; exfalso; apply Hl; reflexivity. }
    cbn. rewrite E. reflexivity.
  Qed.
  (** ... and of many classes the mean over the classes, without a positive class *)
  Theorem C263_macro : forall y p0 p classes, one_dim p0 p ->
    calc y (Some p0) None (Some [Named "f1"]) (Some Multiclass) None classes None =
      (do v <- sk (f1 y p (mkOpt "macro" classes None)); Ok [("f1", v)]).
  Proof.
    intros y p0 p classes Hp. assert (Ep : squeeze columns flat p0 = p).
    { unfold squeeze. destruct Hp as [[E ->]|[E ->]]; [rewrite E; reflexivity|]. destruct (columns p0) as [[|[|k]]|]; try reflexivity. contradiction. }
    unfold calc_score, make_options. cbn. rewrite Ep. reflexivity.
  Qed.
  (** but the auc of two columns of probabilities is of the second column, whatever positive class is asked for *)
  Theorem C263_auc_refuted : forall y p0 pr0 c pos_label avg classes, columns pr0 = Some 2 -> column1 pr0 = Ok c ->
    calc y (Some p0) (Some pr0) (Some [Named "auc"]) (Some Binary) (Some pos_label) classes avg = (do v <- sk (roc_auc y c); Ok [("auc", v)]).
  Proof.
    intros y p0 pr0 c pl avg classes H2 Hc. unfold calc_score, make_options, squeeze. cbn.
    rewrite H2. change (String _ (String _ (String (lower_char "c") ""))) with "auc". unfold branch. cbn. rewrite H2, Hc. reflexivity.
  Qed.
End Props.

(** ** the hypotheses are met: an array is its list of rows; y = [0;1;1], predictions with one error *)
Definition ex_sk (c : @call (list nat) nat) : res R := match c with accuracy _ _ => Ok 2%R | mean_squared_error _ _ => Ok 9%R | _ => Err ValueError end.
Example ex_scores : exists v, calc_score (fun _ : list nat => None) (fun a => a) (fun _ => Err IndexError) (fun _ => Err ValueError) (fun _ => Ok [0; 1]) ex_sk
    [0; 1; 1] (Some [0; 1; 0]) None (Some [Named "Accuracy"; Named "acc"; Named "RMSE"]) (Some Binary) None None None = Ok [("Accuracy", 2%R); ("RMSE", v)] /\ v = 3%R.
Proof. exists (sqrt 9). split; [reflexivity|]. replace 9%R with (3 * 3)%R by lra. apply sqrt_square. lra. Qed.
Example ex_known : NoDup (map key (filter known [@Named (list nat) "Accuracy"; Named "acc"; Named "RMSE"])).
Proof. change (NoDup ["Accuracy"; "RMSE"]). repeat constructor; cbn; intuition discriminate. Qed.

Print Assumptions C262_case.
Print Assumptions C262_scores_partial.
Print Assumptions C262_unknown_refuted.
Print Assumptions C262_lambda_refuted.
Print Assumptions C262_probabilities_only_refuted.
Print Assumptions C263_positive.
Print Assumptions C263_two_classes.
Print Assumptions C263_macro.
Print Assumptions C263_auc_refuted.
