(** DataCleaner: the caller's frame, defects, and cases that meet the hypotheses. *)
From Coq Require Import ZArith QArith Qcanon String.
From Verif Require Import Base EstUtilsModel MetaModel MetaProofs CforestProofs CleanModel CleanSpec CleanProofs CleanProps CleanHist.
Set Implicit Arguments.
Local Notation length := List.length.
Local Open Scope string_scope.
Local Open Scope list_scope.
Local Open Scope nat_scope.

Section K.
Variable parse : string -> option cell.
Variable parse_int : string -> option Z.
Variable show : cell -> string.

Definition apart (x : frame) (w : work) : Prop := w_same w = false /\ w_caller w = x.
Lemma apart_place x g w : apart x w -> apart x (in_place g w).
Proof. intros [A B]. unfold apart, in_place. cbn. rewrite A. auto. Qed.
Lemma apart_fresh x f w : apart x w -> apart x (fresh f w).
Proof. intros [A B]. split; auto. Qed.
Lemma apart_drop x l w : apart x w -> apart x (drop_cols l w).
Proof. intros H. destruct l; [auto|]. now apply apart_fresh. Qed.
Lemma apart_step x on get put find w s s' w' : apart x w -> drop_step on get put find w s = (s', Ok w') -> apart x w'.
Proof.
  intros H E. unfold drop_step in E. destruct on; [|injection E as <- <-; auto]. unfold mbind, mget, mlift, mset, mret in E. destruct (get s); [injection E as <- <-; now apply apart_drop|].
  destruct (find (w_cur w)); [injection E as <- <-; now apply apart_drop|discriminate].
Qed.
Lemma apart_clean p meta x w y s s' w' y' : apart x w -> clean_data parse parse_int show p meta w y s = (s', Ok (w', y')) -> apart x w'.
Proof.
  intros H E. unfold clean_data in E. unfold mbind at 1, mlift at 1 in E.
  destruct (match y with None => Ok w | Some (d, v) => _ end) as [w0|] eqn:E0; [|discriminate].
  assert (H0 : apart x w0). { destruct y as [[d v]|]; [|injection E0 as <-; auto]. destruct (negb _); [discriminate|]. injection E0 as <-. now apply apart_place. }
  clear E0 H w. set (w1 := match c_nan_chars p with None => w0 | Some cs => _ end) in E. assert (H1 : apart x w1) by (unfold w1; destruct (c_nan_chars p); [now apply apart_fresh|auto]). clearbody w1. clear H0 w0.
  set (wy := match y with None => (w1, None) | Some _ => _ end) in E. assert (H2 : apart x (fst wy)).
  { unfold wy. destruct y as [[d v]|]; [|exact H1]. cbn [fst]. apply apart_place. destruct (c_label_nan p); [now apply apart_fresh|auto]. }
  clearbody wy. destruct wy as [w2 y2]. cbn [fst] in H2. clear H1. unfold mbind at 1, mget at 1 in E. cbv zeta in E.
  set (w3 := match s_drop s with None => w2 | Some cols => _ end) in E. assert (H3 : apart x w3) by (unfold w3; destruct (s_drop s); [now apply apart_drop|auto]). clearbody w3. clear H2 w2.
  apply mbind_inv in E. destruct E as (s4 & w4 & E4 & E). pose proof (apart_step _ _ _ _ _ H3 E4) as H4. clear E4 H3.
  apply mbind_inv in E. destruct E as (s5 & w5 & E5 & E). pose proof (apart_step _ _ _ _ _ H4 E5) as H5. clear E5 H4.
  apply mbind_inv in E. destruct E as (s6 & w6 & E6 & E). pose proof (apart_step _ _ _ _ _ H5 E6) as H6. clear E6 H5.
  set (w7 := match c_inf p with None => w6 | Some v => _ end) in E.
  assert (H7 : apart x w7) by (unfold w7; destruct (c_inf p); [destruct (of_type [DInt] (w_cur w6)); [now apply apart_fresh|now apply apart_place]|auto]). clearbody w7. clear H6 w6.
  apply mbind_inv in E. destruct E as (s8 & w8 & E8 & E).
  assert (H8 : apart x w8). { unfold mlift in E8. destruct (c_correct p); [|injection E8 as <- <-; auto]. destruct (correct parse parse_int p meta (w_cur w7)); [|discriminate]. cbn [bind] in E8. injection E8 as <- <-. now apply apart_place. }
  unfold mret in E. injection E as <- <- <-. now do 2 apply apart_place.
Qed.

(** C210: with copy_data the caller's frame is not changed *)
Theorem clean_copy_safe p x y s :
  (forall s' g y' cl, fit_transform parse parse_int show p true x y s = (s', Ok (g, y', cl)) -> cl = x) /\
  (forall s' g y' cl, transform parse parse_int show p true x y s = (s', Ok (g, y', cl)) -> cl = x).
Proof.
  assert (A : apart x (given true x)) by (split; reflexivity). split; intros s' g y' cl E.
  - unfold fit_transform in E. apply mbind_inv in E. destruct E as (s1 & [w y1] & E1 & E). eapply apart_clean in E1; [|exact A]. unfold mbind, mset, mret in E. injection E as _ _ _ <-. apply E1.
  - unfold transform in E. unfold mbind at 1, mget at 1 in E. apply mbind_inv in E. destruct E as (s1 & [w y1] & E1 & E). eapply apart_clean in E1; [|exact A]. unfold mbind at 1, mget at 1 in E. unfold mbind at 1, mlift at 1 in E.
    destruct (s_cols s1); [|discriminate]. unfold mbind, mlift, mret in E. destruct (select l (w_cur w)); [|discriminate]. injection E as _ _ _ <-. apply E1.
Qed.
End K.

(** ** Examples and defects *)
Definition eparse (s : string) : option cell := if String.eqb s "inf" then Some (CInf true) else if String.eqb s "1" then Some (CNum 1%Qc) else if String.eqb s "2" then Some (CNum (Q2Qc 2)) else None.
Definition eparse_int (s : string) : option Z := None.
Definition eshow (c : cell) : string := match c with CStr s => s | CNaN => "nan" | CInf true => "inf" | CInf false => "-inf" | CNum _ => "number" | CBool true => "True" | CBool false => "False" end.
Definition n0 := CNum 0%Qc. Definition n1 := CNum 1%Qc. Definition n2 := CNum (Q2Qc 2). Definition n3 := CNum (Q2Qc 3). Definition half := CNum (Q2Qc (1 # 2)).
(** DataCleaner(drop_label_nan_rows=False, drop_idness_columns=False, int_convert_to=None, reserve_columns=res) *)
Definition dflt (res : option (list string)) : cparams := mkCP None true true false false (Some CNaN) res false None.
Notation efit := (fit_transform eparse eparse_int eshow).
Notation etr := (transform eparse eparse_int eshow).
Definition cst_of {A} (r : cst * res A) : cst := fst r.

Lemma good_cols r cs : NoDup (map k_name cs) -> Forall (fun c => length (k_cells c) = r) cs -> (forall c, In c cs -> k_type c = DInt -> forall v, In v (k_cells c) -> exists q, v = CNum q) ->
  ~ In y_name (map k_name cs) -> good_input (mkF r cs) None.
Proof. intros A B C D. repeat split; auto. intros d v E. discriminate. Qed.
Ltac good := apply good_cols; [repeat constructor; cbn; intuition discriminate|repeat constructor|intros c Hc; cbn in Hc; repeat (destruct Hc as [<-|Hc]; [cbn; intros; try discriminate; repeat (match goal with H : _ \/ _ |- _ => destruct H as [<-|H] end; [eexists; reflexivity|]); contradiction|]); contradiction|cbn; intuition discriminate].

(** C207: a text column may bring infinities in *)
Definition xinf := mkF 2 [mkCol "a" DObj [CStr "inf"; CStr "1"]].
Theorem clean_no_infinity_refuted : good_input xinf None /\
  exists s g, efit (dflt None) true xinf None (cl_new None) = (s, Ok (g, None, xinf)) /\ exists c, In c (f_cols g) /\ In (CInf true) (k_cells c).
Proof. split; [good|]. eexists. eexists. split; [vm_compute; reflexivity|]. eexists. split; [left; reflexivity|]. left. reflexivity. Qed.

(** C209: one cell that is not a number turns the column of a transformed frame into texts *)
Definition xnum := mkF 2 [mkCol "a" DObj [CStr "1"; CStr "2"]].
Definition xbad := mkF 2 [mkCol "a" DObj [CStr "1"; CStr "x"]].
Theorem clean_transform_dtype_refuted : good_input xnum None /\ good_input xbad None /\
  exists s g s2 g2, efit (dflt None) true xnum None (cl_new None) = (s, Ok (g, None, xnum)) /\ g = mkF 2 [mkCol "a" DFloat [n1; n2]] /\
    etr (dflt None) true xbad None s = (s2, Ok (g2, None, xbad)) /\ g2 = mkF 2 [mkCol "a" DObj [CStr "1"; CStr "x"]].
Proof. split; [good|]. split; [good|]. do 4 eexists. split; [vm_compute; reflexivity|]. split; [vm_compute; reflexivity|]. split; vm_compute; reflexivity. Qed.
(** ... and the values of a reserved column are changed to the type seen at the fit *)
Definition xint := mkF 2 [mkCol "a" DInt [n1; n2]; mkCol "b" DFloat [n1; n2]].
Definition xflt := mkF 2 [mkCol "a" DFloat [half; n2]; mkCol "b" DFloat [n1; n2]].
Theorem clean_reserved_refuted : good_input xint None /\ good_input xflt None /\
  exists s g s2 g2, efit (dflt (Some ["a"])) true xint None (cl_new None) = (s, Ok (g, None, xint)) /\
    etr (dflt (Some ["a"])) true xflt None s = (s2, Ok (g2, None, xflt)) /\ g2 = mkF 2 [mkCol "a" DInt [n0; n2]; mkCol "b" DFloat [n1; n2]].
Proof. split; [good|]. split; [good|]. do 4 eexists. split; [vm_compute; reflexivity|]. split; vm_compute; reflexivity. Qed.

(** C210: a second fit drops what the first one dropped, and keeps a constant column *)
Definition xab := mkF 2 [mkCol "a" DFloat [n1; n1]; mkCol "b" DFloat [n1; n2]].
Definition xba := mkF 2 [mkCol "a" DFloat [n1; n2]; mkCol "b" DFloat [n1; n1]].
Theorem clean_refit_refuted : good_input xab None /\ good_input xba None /\
  exists s g s2 g2 s3 g3, efit (dflt None) true xab None (cl_new None) = (s, Ok (g, None, xab)) /\
    efit (dflt None) true xba None s = (s2, Ok (g2, None, xba)) /\ map k_name (f_cols g2) = ["b"] /\
    efit (dflt None) true xba None (cl_new None) = (s3, Ok (g3, None, xba)) /\ map k_name (f_cols g3) = ["a"].
Proof. split; [good|]. split; [good|]. do 6 eexists. split; [vm_compute; reflexivity|]. split; [vm_compute; reflexivity|]. split; [vm_compute; reflexivity|]. split; vm_compute; reflexivity. Qed.
(** a transform before the fit raises but is remembered *)
Theorem clean_early_transform_refuted :
  exists s s2 g2, etr (dflt None) true xab None (cl_new None) = (s, Err KeyError) /\ efit (dflt None) true xba None s = (s2, Ok (g2, None, xba)) /\ map k_name (f_cols g2) = ["b"].
Proof. do 3 eexists. split; [vm_compute; reflexivity|]. split; vm_compute; reflexivity. Qed.
(** append_drop_columns: before the fit it raises, for every list; what it removed after a fit is back after another fit *)
Theorem clean_append_before_fit drop cols : exists s, append_drop cols (cl_new drop) = (s, Err TypeError) /\
  s_drop s = Some (match drop with Some d => d | None => [] end ++ cols).
Proof. eexists. split; vm_compute; reflexivity. Qed.
Definition xkeep := mkF 2 [mkCol "a" DFloat [n1; n2]; mkCol "b" DFloat [n2; n3]].
Theorem clean_append_forgotten_refuted : good_input xkeep None /\
  exists s g s2 s3 g3 s4 g4, efit (dflt None) true xkeep None (cl_new None) = (s, Ok (g, None, xkeep)) /\ append_drop ["a"] s = (s2, Ok tt) /\
    etr (dflt None) true xkeep None s2 = (s3, Ok (g3, None, xkeep)) /\ map k_name (f_cols g3) = ["b"] /\
    efit (dflt None) true xkeep None s3 = (s4, Ok (g4, None, xkeep)) /\ map k_name (f_cols g4) = ["a"; "b"].
Proof. split; [good|]. do 7 eexists. do 5 (split; [vm_compute; reflexivity|]). vm_compute; reflexivity. Qed.
(** without copy_data the labels stay in the caller's frame as a column *)
Definition pl : cparams := mkCP None true true true false (Some CNaN) None false None.
Theorem clean_caller_refuted : exists s g y' cl, efit pl false xkeep (Some (DFloat, [n1; CNaN])) (cl_new None) = (s, Ok (g, y', cl)) /\ map k_name (f_cols cl) = ["a"; "b"; y_name].
Proof. do 4 eexists. split; vm_compute; reflexivity. Qed.

(** ** the hypotheses are met *)
(** all options on: a label that is NaN, a duplicate, an id, a constant and a reserved constant column *)
Definition pall : cparams := mkCP (Some ["?"%string]) true true true true (Some CNaN) (Some ["r"%string]) true (Some ToFloat).
Definition xall := mkF 4 [mkCol "i" DInt [n0; n1; n2; n3]; mkCol "a" DFloat [n1; n2; CInf true; n1]; mkCol "b" DFloat [n1; n2; n3; n1]; mkCol "d" DFloat [n1; n2; n0; n1]; mkCol "k" DObj [CStr "?"; CStr "u"; CStr "v"; CStr "u"]; mkCol "r" DFloat [n1; n1; n2; n1]].
Definition yall := Some (DFloat, [n1; n1; CNaN; n2]).
Example clean_all_case : exists s g y' cl, good_input xall yall /\ (forall t, eshow (CStr t) = t) /\ efit pall true xall yall (cl_new (Some ["zz"%string])) = (s, Ok (g, y', cl)) /\
  g = mkF 3 [mkCol "a" DFloat [n1; n2; n1]; mkCol "r" DFloat [n1; n1; n1]] /\ y' = Some (DFloat, [n1; n1; n2]).
Proof.
  do 4 eexists. split; [|split; [reflexivity|split; [vm_compute; reflexivity|split; vm_compute; reflexivity]]].
  destruct (@good_cols 4 (f_cols xall)) as (A & B & C & _); [repeat constructor; cbn; intuition discriminate|repeat constructor| |cbn; intuition discriminate|].
  - intros c Hc. cbn in Hc. repeat (destruct Hc as [<-|Hc]; [cbn; intros; try discriminate; repeat (match goal with H : _ \/ _ |- _ => destruct H as [<-|H] end; [eexists; reflexivity|]); contradiction|]). contradiction.
  - split; [exact A|]. split; [exact B|]. split; [exact C|]. intros d v [= <- <-]. reflexivity.
Qed.
Example clean_hist_case : exists s g y' cl, efit (dflt None) true xkeep None (cl_new None) = (s, Ok (g, y', cl)) /\ good_input xkeep None /\ good_input xflt None /\ floats_ok (dflt None) xflt /\
  exists g2, snd (etr (dflt None) true xflt None (fold_left (exec eparse eparse_int eshow (dflt None)) [OTransform true xflt None; OAppendDrop ["b"%string]] s)) = Ok (g2, None, xflt) /\ g2 = mkF 2 [mkCol "a" DFloat [half; n2]].
Proof.
  do 4 eexists. split; [vm_compute; reflexivity|]. split; [good|]. split; [good|]. split.
  - split; [|intros r [= <-]; exact I]. intros c [<-|[<-|[]]] _ v Hv; cbn in Hv; repeat (destruct Hv as [<-|Hv]; [exact I|]); contradiction.
  - eexists. split; vm_compute; reflexivity.
Qed.
Print Assumptions clean_first_fit_columns.
Print Assumptions clean_fit_values.
Print Assumptions clean_training_again.
Print Assumptions clean_transform_columns.
Print Assumptions clean_transform_local.
Print Assumptions clean_copy_safe.
