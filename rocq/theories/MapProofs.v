(** Lemmas about DataFrameMapper. *)
From Coq Require Import String.
From Verif Require Import Base EstUtilsModel MetaModel MetaProofs CforestProofs CleanProofs MapModel MapSpec.
Set Implicit Arguments.
Local Notation length := List.length.
Local Open Scope nat_scope.

Lemma mem_In c l : mem c l = true <-> In c l.
Proof. unfold mem. rewrite existsb_exists. split; [intros (x & H & E); apply String.eqb_eq in E; now subst|intros H; exists c; split; [auto|apply String.eqb_refl]]. Qed.
Lemma mem_not c l : mem c l = false <-> ~ In c l.
Proof. rewrite <- mem_In. destruct (mem c l); split; intros; [discriminate|exfalso; auto|discriminate|auto]. Qed.

Lemma NoDup_app_l {A} (l l' : list A) : NoDup (l ++ l') -> NoDup l.
Proof. induction l as [|a l IH]; cbn; intros H; [constructor|]. inversion H; subst. constructor; [intros K; apply H2, in_or_app; auto|auto]. Qed.

Section P.
Variables (V Y T : Type).
Notation mframe := (mframe V).
Variable t_fit : T -> bool * mframe -> option Y -> T * res unit.
Variable t_tr : T -> bool * mframe -> res (list (list V)).
Variable t_ft : T -> option (bool * mframe -> option Y -> T * res (list (list V))).
Variable t_names : T -> list (list string -> option (list string)).
Variable md5 : string -> string.
Variable num : nat -> string.
Notation feature := (feature V).
Notation mparams := (mparams V).
Notation mst := (mst T).
Notation get_names := (get_names t_names md5 num).
Notation fit_obj := (fit_obj t_fit).
Notation tr_obj := (tr_obj t_tr).
Notation ft_obj := (ft_obj t_fit t_tr t_ft).
Notation fit_loop := (fit_loop t_fit).
Notation tr_loop := (tr_loop t_tr t_names md5 num).
Notation ft_loop := (ft_loop t_fit t_tr t_ft t_names md5 num).
Notation mfit := (mfit t_fit).
Notation mtransform := (mtransform t_tr t_names md5 num).
Notation mfit_transform := (mfit_transform t_fit t_tr t_ft t_names md5 num).

(** who gets which columns *)
Fixpoint assign (X : mframe) (fs : list feature) (sel : list string) : list fitted :=
  match fs with [] => [] | (d, t, o) :: r => let c := filter (fun c => negb (mem c sel)) (named d X) in (c, t, o) :: assign X r (sel ++ c) end.
Definition cols (e : fitted) : list string := fst (fst e).
Definition all_cols (l : list fitted) : list string := flat_map cols l.
Definition has_cols (e : fitted) : bool := match cols e with [] => false | _ => true end.
Definition inp (p : mparams) (o : opts) : bool := match o_input o with Some b => b | None => mp_input p end.

Definition fit_entry (p : mparams) (X : mframe) (y : Y) (e : fitted) : M mst unit :=
  match e with
  | ([], _, _) | (_, None, _) => mret tt
  | (c, Some i, o) => mdo Xt <- mlift (subset X c); fit_obj i (inp p o, Xt) y
  end.
Fixpoint fit_entries p X y (l : list fitted) : M mst unit := match l with [] => mret tt | e :: r => mdo _ <- fit_entry p X y e; fit_entries p X y r end.

Lemma mbind_assoc {S A B C} (m : M S A) (f : A -> M S B) (g : B -> M S C) s : mbind (mbind m f) g s = mbind m (fun a => mbind (f a) g) s.
Proof. unfold mbind. destruct (m s) as [s' [a|e]]; reflexivity. Qed.
Lemma mbind_ext {S A B} (m : M S A) (f g : A -> M S B) s : (forall a s', f a s' = g a s') -> mbind m f s = mbind m g s.
Proof. intros H. unfold mbind. destruct (m s) as [s' [a|e]]; auto. Qed.

Lemma fit_loop_entries p X y fs sel done s : fit_loop p X y fs sel done s =
  (mdo _ <- fit_entries p X y (assign X fs sel); mret (sel ++ all_cols (assign X fs sel), done ++ assign X fs sel)) s.
Proof.
  revert sel done s. induction fs as [|[[d t] o] fs IH]; intros sel done s; cbn [MapModel.fit_loop assign fit_entries all_cols flat_map cols fst].
  - unfold mbind, mret. now rewrite !app_nil_r.
  - set (c := filter (fun c => negb (mem c sel)) (named d X)). rewrite mbind_assoc. unfold all_cols. cbn [flat_map cols fst]. destruct c as [|c0 c1] eqn:E.
    + rewrite IH. cbn [fit_entry]. unfold mbind at 2, mret at 2. cbn [app]. rewrite app_nil_r. apply mbind_ext. intros _ s'. unfold mret. now rewrite <- app_assoc.
    + unfold fit_entry, inp. destruct t as [i|].
      * apply mbind_ext. intros _ s'. rewrite IH. apply mbind_ext. intros _ s2. unfold mret, all_cols. now rewrite <- !app_assoc.
      * apply mbind_ext. intros _ s'. rewrite IH. apply mbind_ext. intros _ s2. unfold mret, all_cols. now rewrite <- !app_assoc.
Qed.

(** the entry of the default *)
Definition dflt_entry (p : mparams) (X : mframe) (sel : list string) : list fitted :=
  match mp_default p with
  | DDrop => []
  | d => if length sel <? length X then [(filter (fun c => negb (mem c sel)) (fnames X), match d with DTr i => Some i | _ => None end, no_opts)] else []
  end.
Definition entries (p : mparams) (X : mframe) : list fitted := assign X (mp_features p) [] ++ dflt_entry p X (all_cols (assign X (mp_features p) [])).

Lemma fit_entries_app p X y a b s : fit_entries p X y (a ++ b) s = (mdo _ <- fit_entries p X y a; fit_entries p X y b) s.
Proof. revert s. induction a as [|e a IH]; intros s; cbn [app fit_entries]; [reflexivity|]. rewrite mbind_assoc. apply mbind_ext. auto. Qed.

Lemma rest_nonempty (X : mframe) sel : NoDup (fnames X) -> length sel < length X -> filter (fun c => negb (mem c sel)) (fnames X) <> [].
Proof.
  intros ND L E. assert (I : incl (fnames X) sel).
  { intros c Hc. destruct (mem c sel) eqn:M; [now apply mem_In|]. assert (In c (filter (fun c => negb (mem c sel)) (fnames X))) by (apply filter_In; rewrite M; auto). rewrite E in H. contradiction. }
  apply (NoDup_incl_length ND) in I. unfold fnames in I. rewrite map_length in I. lia.
Qed.

Lemma mfit_entries p X y s : NoDup (fnames X) -> mfit p X y s = (mdo _ <- fit_entries p X y (entries p X); mset (fun s => mkMS (h_objs s) (Some (fnames X)) (Some (entries p X)))) s.
Proof.
  intros ND. unfold MapModel.mfit. set (sel := all_cols (assign X (mp_features p) [])).
  transitivity ((mdo _ <- (mdo _ <- fit_entries p X y (assign X (mp_features p) []); fit_entries p X y (dflt_entry p X sel)); mset (fun s => mkMS (h_objs s) (Some (fnames X)) (Some (entries p X)))) s).
  2: { unfold mbind at 1 3. unfold entries. rewrite fit_entries_app. reflexivity. }
  rewrite mbind_assoc. unfold mbind at 1. rewrite fit_loop_entries. unfold mbind at 1. symmetry. unfold mbind at 1. symmetry. unfold entries. fold sel.
  destruct (fit_entries p X y (assign X (mp_features p) []) s) as [s1 [[]|e]]; [|reflexivity]. unfold mret at 1. cbn [app]. fold sel.
  unfold dflt_entry. destruct (mp_default p) as [| |i]; cbn [fit_entries].
  - unfold mbind, mret. now rewrite app_nil_r.
  - destruct (length sel <? length X); cbn [fit_entries fit_entry]; unfold mbind, mret; [destruct (filter _ _); reflexivity|now rewrite app_nil_r].
  - destruct (length sel <? length X) eqn:L; [|cbn [fit_entries]; unfold mbind, mret; now rewrite app_nil_r]. apply Nat.ltb_lt in L. cbn [fit_entries fit_entry].
    pose proof (rest_nonempty X sel ND L) as NE. destruct (filter (fun c => negb (mem c sel)) (fnames X)) as [|c0 c] eqn:E; [contradiction|].
    unfold mbind, mlift, mret. destruct (subset X (c0 :: c)) as [Xt|e]; [|reflexivity]. cbn [inp no_opts o_input]. destruct (fit_obj i (mp_input p, Xt) y s1) as [s2 [[]|e]]; reflexivity.
Qed.

(** *** transform *)
Definition obj_of (objs : list T) (t : option nat) : option T := match t with Some i => nth_error objs i | None => None end.
Definition ev (p : mparams) (X : mframe) (objs : list T) (e : fitted) : res (list (list V) * list string) :=
  let '(c, t, o) := e in
  do Xt <- subset X c;
  do out <- match t with None => Ok (map snd Xt) | Some i => match nth_error objs i with Some u => t_tr u (inp p o, Xt) | None => Err AttributeError end end;
  Ok (out, get_names c (obj_of objs t) (length out) (o_alias o)).
Lemma set_same {A} i (a : A) l : nth_error l i = Some a -> set_nth i a l = l.
Proof. revert i. induction l as [|x l IH]; intros [|i] H; cbn in *; try discriminate; [now injection H as ->|]. now rewrite IH. Qed.
Lemma tr_obj_pure i a s : tr_obj i a s = (s, match nth_error (h_objs s) i with Some t => t_tr t a | None => Err AttributeError end).
Proof. unfold MapModel.tr_obj, on_obj. destruct (nth_error (h_objs s) i) as [t|] eqn:E; [|reflexivity]. rewrite set_same by auto. now destruct s. Qed.
Definition app_res (ex : list (list (list V))) (ns : list string) (r : list (list (list V) * list string)) := (ex ++ map fst r, ns ++ flat_map snd r).
Lemma tr_loop_ev p X ffs ex ns s : tr_loop p X ffs ex ns s = (s, do r <- mapX (ev p X (h_objs s)) (filter has_cols ffs); Ok (app_res ex ns r)).
Proof.
  revert ex ns. induction ffs as [|[[c t] o] ffs IH]; intros ex ns; cbn [MapModel.tr_loop filter has_cols cols fst].
  - unfold mret. cbn. unfold app_res. cbn. now rewrite !app_nil_r.
  - destruct c as [|c0 c]; [apply IH|]. change (has_cols (c0 :: c, t, o)) with true. cbn [mapX ev]. unfold mbind at 1, mlift at 1. destruct (subset X (c0 :: c)) as [Xt|e]; [|reflexivity]. cbn [bind]. unfold mbind at 1.
    assert (X1 : (match t with None => mret (map snd Xt) | Some i => tr_obj i (match o_input o with Some b => b | None => mp_input p end, Xt) end) s =
      (s, match t with None => Ok (map snd Xt) | Some i => match nth_error (h_objs s) i with Some u => t_tr u (inp p o, Xt) | None => Err AttributeError end end)).
    { destruct t as [i|]; [|reflexivity]. now rewrite tr_obj_pure. }
    rewrite X1. destruct (match t with None => Ok (map snd Xt) | Some i => _ end) as [out|e]; [|reflexivity]. cbn [bind]. unfold mbind, mget. rewrite IH. f_equal.
    destruct (mapX (ev p X (h_objs s)) (filter has_cols ffs)) as [r|e]; [|reflexivity]. cbn [bind]. unfold app_res. cbn [map flat_map fst snd]. rewrite <- !app_assoc. reflexivity.
Qed.
Lemma mtransform_ev p X s : mtransform p X s = (s, match h_fitted s with
  | None => Err TypeError
  | Some ffs => do r <- mapX (ev p X (h_objs s)) (filter has_cols ffs); to_result p (map fst r) (flat_map snd r) end).
Proof.
  unfold MapModel.mtransform. unfold mbind at 1, mget. unfold mbind at 1, mlift at 1. destruct (h_fitted s) as [ffs|]; [|reflexivity]. unfold mbind. rewrite tr_loop_ev. unfold mlift.
  destruct (mapX (ev p X (h_objs s)) (filter has_cols ffs)) as [r|e]; reflexivity.
Qed.

(** *** fit_transform *)
Definition ft_entry (p : mparams) (X : mframe) (y : Y) (e : fitted) : M mst (list (list V) * list string) :=
  let '(c, t, o) := e in
  mdo Xt <- mlift (subset X c);
  mdo out <- match t with None => mret (map snd Xt) | Some i => ft_obj i (inp p o, Xt) y end;
  mdo s <- mget; mret (out, get_names c (obj_of (h_objs s) t) (length out) (o_alias o)).
Fixpoint ft_entries p X y (l : list fitted) : M mst (list (list (list V) * list string)) :=
  match l with [] => mret [] | e :: r => mdo a <- ft_entry p X y e; mdo b <- ft_entries p X y r; mret (a :: b) end.

Lemma filter_nooverlap sel l : existsb (fun c => mem c sel) l = false -> filter (fun c => negb (mem c sel)) l = l.
Proof. induction l as [|c l IH]; cbn; [auto|]. intros H. apply orb_false_iff in H. destruct H as [H1 H2]. rewrite H1. cbn. now rewrite IH. Qed.
Lemma ft_loop_entries p X y fs sel done ex ns s : (forall d t o, In (d, t, o) fs -> is_tuple d = false) -> ft_loop p X y fs sel done ex ns s =
  (mdo r <- ft_entries p X y (filter has_cols (assign X fs sel));
   mret (sel ++ all_cols (assign X fs sel), done ++ filter has_cols (assign X fs sel), fst (app_res ex ns r), snd (app_res ex ns r))) s.
Proof.
  revert sel done ex ns s. induction fs as [|[[d t] o] fs IH]; intros sel done ex ns s NT.
  - cbn. unfold mbind, mret. cbn. now rewrite !app_nil_r.
  - cbn [MapModel.ft_loop assign filter has_cols cols fst]. assert (TD : is_tuple d = false) by (apply (NT d t o); now left). assert (NT' : forall d t o, In (d, t, o) fs -> is_tuple d = false) by (intros d' t' o' H; apply (NT d' t' o'); now right).
    assert (CE : (if existsb (fun c => mem c sel) (named d X) then filter (fun c => negb (mem c sel)) (named d X) else named d X) = filter (fun c => negb (mem c sel)) (named d X)).
    { destruct (existsb _ _) eqn:E; [reflexivity|]. now rewrite filter_nooverlap. }
    rewrite CE. set (c := filter (fun c => negb (mem c sel)) (named d X)). unfold all_cols. cbn [flat_map cols fst]. destruct c as [|c0 c1] eqn:E.
    + rewrite IH by auto. cbn [app]. rewrite app_nil_r. apply mbind_ext. intros r s'. reflexivity.
    + change (has_cols (c0 :: c1, t, o)) with true. cbn [ft_entries]. rewrite TD. cbn [andb]. unfold ft_entry, inp. unfold mbind, mget, mret, mlift.
      destruct (subset X (c0 :: c1)) as [Xt|e]; [|reflexivity]. destruct t as [i|].
      * destruct (ft_obj i _ y s) as [s2 [out|e]]; [|reflexivity].
        rewrite IH by auto. unfold mbind, mret. destruct (ft_entries p X y (filter has_cols (assign X fs (sel ++ c0 :: c1))) s2) as [s3 [r|e]]; [|reflexivity].
        unfold app_res, obj, obj_of, all_cols. cbn [fst snd map flat_map]. unfold mret. rewrite <- !app_assoc. reflexivity.
      * rewrite IH by auto. unfold mbind, mret. destruct (ft_entries p X y (filter has_cols (assign X fs (sel ++ c0 :: c1))) s) as [s3 [r|e]]; [|reflexivity].
        unfold app_res, obj, obj_of, all_cols. cbn [fst snd map flat_map]. unfold mret. rewrite <- !app_assoc. reflexivity.
Qed.

Definition eids (l : list fitted) : list nat := flat_map (fun e : fitted => match e with (_, Some i, _) => [i] | _ => [] end) l.

Lemma nth_set_same {A} i (a : A) l x : nth_error l i = Some x -> nth_error (set_nth i a l) i = Some a.
Proof. revert i. induction l as [|z l IH]; intros [|i] H; cbn in *; try discriminate; auto. Qed.
Lemma nth_set_other {A} i j (a : A) l : i <> j -> nth_error (set_nth i a l) j = nth_error l j.
Proof. revert i j. induction l as [|z l IH]; intros [|i] [|j] H; cbn; auto; try (exfalso; auto; fail). Qed.
Lemma set_set {A} i (a b : A) l : set_nth i a (set_nth i b l) = set_nth i a l.
Proof. revert i. induction l as [|z l IH]; intros [|i]; cbn; auto. now rewrite IH. Qed.

Lemma on_obj_names {R} i (f : T -> T * res R) s : h_names (fst (on_obj i f s)) = h_names s /\ h_fitted (fst (on_obj i f s)) = h_fitted s.
Proof. unfold on_obj. destruct (nth_error _ _); [|auto]. destruct (f t) as [t' r]. cbn. auto. Qed.
Lemma on_obj_frame {R} i j (f : T -> T * res R) s : i <> j -> nth_error (h_objs (fst (on_obj i f s))) j = nth_error (h_objs s) j.
Proof. intros H. unfold on_obj. destruct (nth_error (h_objs s) i); [|auto]. destruct (f t) as [t' r]. cbn. now apply nth_set_other. Qed.

Lemma fit_entry_frame p X y e s j : ~ In j (eids [e]) -> nth_error (h_objs (fst (fit_entry p X y e s))) j = nth_error (h_objs s) j.
Proof.
  destruct e as [[[|c0 c] [i|]] o]; cbn [fit_entry eids flat_map]; auto. intros H. unfold mbind, mlift. destruct (subset X (c0 :: c)); [|reflexivity]. apply on_obj_frame. cbn in H. tauto.
Qed.
Lemma fit_entries_frame p X y l s j : ~ In j (eids l) -> nth_error (h_objs (fst (fit_entries p X y l s))) j = nth_error (h_objs s) j.
Proof.
  revert s. induction l as [|e l IH]; intros s H; cbn [fit_entries]; [reflexivity|]. unfold mbind. pose proof (fit_entry_frame p X y e s j) as F.
  assert (H1 : ~ In j (eids [e])) by (intros K; apply H; unfold eids in *; cbn [flat_map] in *; rewrite app_nil_r in K; apply in_or_app; auto).
  assert (H2 : ~ In j (eids l)) by (intros K; apply H; unfold eids in *; cbn [flat_map]; apply in_or_app; auto).
  specialize (F H1). destruct (fit_entry p X y e s) as [s1 [[]|e1]]; cbn [fst] in F; [|auto]. now rewrite IH.
Qed.
Lemma fit_entry_names p X y e s : h_names (fst (fit_entry p X y e s)) = h_names s /\ h_fitted (fst (fit_entry p X y e s)) = h_fitted s.
Proof. destruct e as [[[|c0 c] [i|]] o]; cbn [fit_entry]; auto. unfold mbind, mlift. destruct (subset X (c0 :: c)); [|auto]. apply on_obj_names. Qed.
Lemma ev_ext p X o1 o2 e : (forall i, In i (eids [e]) -> nth_error o1 i = nth_error o2 i) -> ev p X o1 e = ev p X o2 e.
Proof.
  destruct e as [[c [i|]] o]; intros H; [|reflexivity]. unfold ev, obj_of. rewrite (H i) by (cbn; auto). reflexivity.
Qed.
Lemma fit_entries_filter p X y l s : fit_entries p X y (filter has_cols l) s = fit_entries p X y l s.
Proof.
  revert s. induction l as [|e l IH]; intros s; [reflexivity|]. cbn [filter]. destruct (has_cols e) eqn:H; cbn [fit_entries].
  - apply mbind_ext. auto.
  - rewrite IH. destruct e as [[[|c0 c] t] o]; [|discriminate]. reflexivity.
Qed.

(** fit_transform of a transformer is fit, then transform *)
Lemma ft_obj_contract i a y s : contract t_fit t_tr t_ft -> ft_obj i a y s = (mdo _ <- fit_obj i a y; tr_obj i a) s.
Proof.
  intros (C1 & C2 & C3). unfold MapModel.ft_obj, mbind, MapModel.fit_obj, MapModel.tr_obj, on_obj. destruct (nth_error (h_objs s) i) as [t|] eqn:E; [|reflexivity].
  destruct (t_ft t) as [f|] eqn:F; [|unfold mbind; rewrite ?E; reflexivity].
  unfold call_fit. rewrite F. rewrite (C1 t f F a (Some y)). pose proof (C3 t a (Some y)) as K. destruct (t_fit t a (Some y)) as [t1 r1] eqn:F1. cbn [fst] in K.
  destruct r1 as [[]|e1].
  - cbn [h_objs]. rewrite (nth_set_same _ _ _ E). rewrite set_set. cbn [h_objs h_names h_fitted]. specialize (C2 t1 a). destruct (t_tr t1 a) as [o|e2]; [reflexivity|]. destruct e2; try reflexivity. contradiction.
  - destruct e1; try reflexivity. destruct (t_ft t1) as [f1|] eqn:G; [|pose proof (proj1 K eq_refl); congruence].
    rewrite (C1 t1 f1 G a None). destruct (t_fit t1 a None) as [t2 r2]. destruct r2 as [[]|e2]; [|reflexivity].
    cbn [h_objs]. rewrite (nth_set_same _ _ _ E). rewrite set_set. reflexivity.
Qed.
Lemma ft_entry_split p X y e s : contract t_fit t_tr t_ft -> has_cols e = true -> ft_entry p X y e s =
  (fst (fit_entry p X y e s), do _ <- snd (fit_entry p X y e s); ev p X (h_objs (fst (fit_entry p X y e s))) e).
Proof.
  intros C H. destruct e as [[[|c0 c] t] o]; [discriminate|]. unfold ft_entry, fit_entry, ev. unfold mbind at 1, mlift at 1. destruct t as [i|].
  - unfold mbind, mlift. destruct (subset X (c0 :: c)) as [Xt|e1]; [|reflexivity]. cbn [bind]. rewrite ft_obj_contract by auto. unfold mbind. destruct (fit_obj i (inp p o, Xt) y s) as [s1 [[]|e1]] eqn:F; [|reflexivity].
    rewrite tr_obj_pure. cbn [fst snd bind]. destruct (match nth_error (h_objs s1) i with Some u => t_tr u (inp p o, Xt) | None => Err AttributeError end) as [out|e2]; reflexivity.
  - unfold mret, mbind. cbn [fst snd bind]. destruct (subset X (c0 :: c)) as [Xt|e1]; reflexivity.
Qed.

Lemma ft_entries_iff p X y l s s' r : contract t_fit t_tr t_ft -> NoDup (eids l) ->
  ft_entries p X y (filter has_cols l) s = (s', Ok r) <-> fit_entries p X y l s = (s', Ok tt) /\ mapX (ev p X (h_objs s')) (filter has_cols l) = Ok r.
Proof.
  intros C. revert s r. induction l as [|e l IH]; intros s r ND.
  - cbn. unfold mret. split; [intros E; injection E as <- <-; auto|intros [E1 E2]; injection E1 as <-; injection E2 as <-; auto].
  - assert (ND2 : NoDup (eids l)) by (unfold eids in *; cbn [flat_map] in ND; now apply NoDup_app_remove_l in ND).
    cbn [filter]. destruct (has_cols e) eqn:H.
    + cbn [ft_entries fit_entries mapX]. unfold mbind at 1. rewrite ft_entry_split by auto. pose proof (fit_entries_frame p X y l) as FR. unfold mbind at 2. destruct (fit_entry p X y e s) as [s1 [[]|e1]]; cbn [fst snd bind].
      2: { split; [discriminate|intros [A _]; discriminate]. }
      assert (EV : forall s2, fit_entries p X y l s1 = (s2, Ok tt) -> ev p X (h_objs s2) e = ev p X (h_objs s1) e).
      { intros s2 F. apply ev_ext. intros i Hi. specialize (FR s1 i). rewrite F in FR. apply FR. intros K. unfold eids in *. cbn [flat_map] in *. rewrite app_nil_r in Hi.
        destruct e as [[ce [ie|]] oe]; [|contradiction]. destruct Hi as [->|[]]. cbn in ND. inversion ND; auto. }
      split.
      * intros A. destruct (ev p X (h_objs s1) e) as [x|e1] eqn:Ex; [|discriminate]. apply mbind_inv in A. destruct A as (s2 & b & A & B). injection B as <- <-. apply IH in A; auto. destruct A as [A1 A2].
        rewrite A1. rewrite (EV _ A1), ?Ex. cbn [bind]. rewrite A2. auto.
      * intros [A B]. rewrite (EV _ A) in B. destruct (ev p X (h_objs s1) e) as [x|e1]; [|discriminate]. cbn [bind] in B. destruct (mapX (ev p X (h_objs s')) (filter has_cols l)) as [b|e1] eqn:Eb; [|discriminate].
        injection B as <-. unfold mbind. rewrite (proj2 (IH s1 b ND2) (conj A eq_refl)). reflexivity.
    + cbn [fit_entries]. unfold mbind. destruct e as [[[|c0 c] t] o]; [|discriminate]. cbn [fit_entry mret]. apply IH. auto.
Qed.

Lemma eids_assign X fs sel : eids (assign X fs sel) = flat_map (fun f : feature => match f with (_, Some i, _) => [i] | _ => [] end) fs.
Proof. revert sel. induction fs as [|[[d [i|]] o] fs IH]; intros sel; cbn [assign eids flat_map]; auto; cbn; f_equal; apply IH. Qed.
Lemma eids_app a b : eids (a ++ b) = eids a ++ eids b.
Proof. unfold eids. apply flat_map_app. Qed.
Lemma eids_entries p X : NoDup (ids p) -> NoDup (eids (entries p X)).
Proof.
  unfold ids, entries. rewrite eids_app, eids_assign. intros H. unfold dflt_entry. destruct (mp_default p) as [| |i]; [exact H|..].
  - destruct (_ <? _); cbn; auto.
  - destruct (_ <? _); cbn; auto. rewrite app_nil_r. apply NoDup_app_l in H. auto.
Qed.

(** the name of a lone left-over column is not abbreviated *)
Definition short_rest (p : mparams) (X : mframe) : Prop :=
  forall c, mp_default p = DPass -> dflt_entry p X (all_cols (assign X (mp_features p) [])) = [([c], None, no_opts)] -> String.length c <= 64.
Lemma rest_names c k : length c = k -> (forall x, c = [x] -> String.length x <= 64) -> c <> [] -> get_names c None k None = c.
Proof.
  intros L S NE. unfold MapModel.get_names. destruct (1 <? k) eqn:K.
  - cbn [step_names rev]. rewrite L, Nat.eqb_refl, L, Nat.eqb_refl. reflexivity.
  - apply Nat.ltb_ge in K. destruct c as [|x [|x2 c]]; [contradiction| |cbn in L; lia]. unfold base_name. cbn [String.concat]. specialize (S x eq_refl).
    destruct (64 <? String.length x) eqn:E; [apply Nat.ltb_lt in E; lia|reflexivity].
Qed.
Lemma subset_len (X : mframe) cs Xt : subset X cs = Ok Xt -> length Xt = length cs.
Proof. intros H. apply mapX_inv in H. symmetry; eapply F2_length; exact H. Qed.

Lemma mfit_transform_entries p X y s : NoDup (fnames X) -> (forall d t o, In (d, t, o) (mp_features p) -> is_tuple d = false) -> short_rest p X ->
  mfit_transform p X y s = (mdo r <- ft_entries p X y (filter has_cols (entries p X));
    mdo _ <- mset (fun s => mkMS (h_objs s) (Some (fnames X)) (Some (filter has_cols (entries p X))));
    mlift (to_result p (map fst r) (flat_map snd r))) s.
Proof.
  intros ND NT SH. unfold MapModel.mfit_transform. unfold mbind at 1. rewrite (ft_loop_entries _ _ _ _ _ _ _ _ _ NT). unfold entries. set (sel := all_cols (assign X (mp_features p) [])).
  assert (FA : forall a b s, ft_entries p X y (a ++ b) s = (mdo r1 <- ft_entries p X y a; mdo r2 <- ft_entries p X y b; mret (r1 ++ r2)) s).
  { clear. induction a as [|e a IH]; intros b s; cbn [app ft_entries].
    - unfold mbind, mret. destruct (ft_entries p X y b s) as [s1 [r|e]]; reflexivity.
    - unfold mbind. destruct (ft_entry p X y e s) as [s1 [x|e1]]; [|reflexivity]. rewrite IH. unfold mbind, mret. destruct (ft_entries p X y a s1) as [s2 [r1|e1]]; [|reflexivity].
      destruct (ft_entries p X y b s2) as [s3 [r2|e1]]; reflexivity. }
  rewrite filter_app. symmetry. unfold mbind at 1. rewrite FA. unfold mbind at 1. symmetry. unfold mbind at 1. set (A := filter has_cols (assign X (mp_features p) [])). destruct (ft_entries p X y A s) as [s1 [r|e]]; [|reflexivity].
  unfold mret at 1. cbn [app app_res fst snd]. fold sel. fold A. unfold short_rest in SH. fold sel in SH. unfold dflt_entry in *. destruct (mp_default p) as [| |i].
  - cbn [filter ft_entries]. unfold mbind, mret, mset. now rewrite !app_nil_r.
  - destruct (length sel <? length X) eqn:L; [|cbn [filter ft_entries]; unfold mbind, mret, mset; now rewrite !app_nil_r]. apply Nat.ltb_lt in L.
    pose proof (rest_nonempty X sel ND L) as NE. destruct (filter (fun c => negb (mem c sel)) (fnames X)) as [|c0 c] eqn:E; [contradiction|]. cbn [filter]. change (has_cols (c0 :: c, None, no_opts)) with true.
    cbn [ft_entries]. unfold ft_entry. unfold mbind, mlift, mret, mget, mset. destruct (subset X (c0 :: c)) as [Xt|e] eqn:SB; [|reflexivity]. cbn [obj_of o_alias no_opts].
    rewrite rest_names; [|rewrite map_length; symmetry; now apply subset_len in SB|intros x Hx; apply SH; auto; now rewrite Hx|auto]. rewrite map_app, flat_map_app. cbn [map flat_map fst snd]. rewrite app_nil_r. reflexivity.
  - destruct (length sel <? length X) eqn:L; [|cbn [filter ft_entries]; unfold mbind, mret, mset; now rewrite !app_nil_r]. apply Nat.ltb_lt in L.
    pose proof (rest_nonempty X sel ND L) as NE. destruct (filter (fun c => negb (mem c sel)) (fnames X)) as [|c0 c] eqn:E; [contradiction|]. cbn [filter]. change (has_cols (c0 :: c, Some i, no_opts)) with true.
    cbn [ft_entries]. unfold ft_entry. unfold mbind, mlift, mret, mget, mset. destruct (subset X (c0 :: c)) as [Xt|e] eqn:SB; [|reflexivity]. cbn [obj_of o_alias no_opts inp o_input].
    destruct (ft_obj i (mp_input p, Xt) y s1) as [s2 [out|e]]; [|reflexivity]. rewrite map_app, flat_map_app. cbn [map flat_map fst snd]. rewrite app_nil_r. reflexivity.
Qed.

(** fit_transform and fit then transform *)
Lemma fit_transform_iff p X y s out : NoDup (fnames X) -> (forall d t o, In (d, t, o) (mp_features p) -> is_tuple d = false) -> short_rest p X -> contract t_fit t_tr t_ft -> NoDup (ids p) ->
  forall s', mfit_transform p X y s = (s', Ok out) <->
  exists s1 fl, mfit p X y s = (s1, Ok tt) /\ mtransform p X s1 = (s1, Ok out) /\ h_fitted s1 = Some fl /\ s' = mkMS (h_objs s1) (h_names s1) (Some (filter has_cols fl)).
Proof.
  intros ND NT SH C NI s'. rewrite (@mfit_transform_entries p X y s ND NT SH). rewrite (@mfit_entries p X y s ND). pose proof (@eids_entries p X NI) as NE. split.
  - intros H. apply mbind_inv in H. destruct H as (s2 & r & A & B). apply ft_entries_iff in A; auto. destruct A as [A1 A2]. unfold mbind, mset, mlift in B. injection B as <- B.
    exists (mkMS (h_objs s2) (Some (fnames X)) (Some (entries p X))), (entries p X). unfold mbind. rewrite A1. split; [reflexivity|]. rewrite mtransform_ev. cbn [h_fitted h_objs h_names]. rewrite A2. cbn [bind]. rewrite B. auto.
  - intros (s1 & fl & A & B & F & ->). unfold mbind in A. destruct (fit_entries p X y (entries p X) s) as [s2 [[]|e]] eqn:FE; [|discriminate]. unfold mset in A. injection A as <-.
    rewrite mtransform_ev in B. cbn [h_fitted h_objs h_names] in *. injection F as <-. injection B as B.
    destruct (mapX (ev p X (h_objs s2)) (filter has_cols (entries p X))) as [r|e] eqn:R; [|discriminate]. cbn [bind] in B. unfold mbind at 1. rewrite (proj2 (@ft_entries_iff p X y (entries p X) s s2 r C NE) (conj FE R)).
    unfold mbind, mset, mlift. now rewrite B.
Qed.
End P.
