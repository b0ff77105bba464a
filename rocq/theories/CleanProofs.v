(** Lemmas about DataCleaner. *)
From Coq Require Import ZArith QArith Qcanon String.
From Verif Require Import Base EstUtilsModel MetaModel MetaProofs CleanModel CleanSpec.
Set Implicit Arguments.
Local Notation length := List.length.
Local Open Scope nat_scope.

Lemma inb_In n l : inb n l = true <-> In n l.
Proof. unfold inb. rewrite existsb_exists. split; [intros (x & H & E); apply String.eqb_eq in E; now subst|intros H; exists n; split; [auto|apply String.eqb_refl]]. Qed.
Lemma inb_not n l : inb n l = false <-> ~ In n l.
Proof. rewrite <- inb_In. destruct (inb n l); split; intros; [discriminate|exfalso; auto|discriminate|auto]. Qed.
Lemma dtype_eqb_eq a b : dtype_eqb a b = true <-> a = b.
Proof. destruct a, b; split; intros H; auto; discriminate. Qed.
Lemma without_nil f : without [] f = f.
Proof. destruct f as [r cs]. unfold without. cbn. f_equal. induction cs as [|c cs IH]; cbn; [auto|]. now rewrite IH. Qed.
Lemma drop_cols_cur l w : w_cur (drop_cols l w) = without l (w_cur w).
Proof. destruct l; [cbn; now rewrite without_nil|reflexivity]. Qed.
Lemma in_place_cur g w : w_cur (in_place g w) = g (w_cur w).
Proof. reflexivity. Qed.

Lemma NoDup_app_remove_l {A} (l l' : list A) : NoDup (l ++ l') -> NoDup l'.
Proof. induction l as [|a l IH]; cbn; [auto|]. intros H. inversion H; auto. Qed.

Section C.
Variable parse : string -> option cell.
Variable parse_int : string -> option Z.
Variable show : cell -> string.
Notation clean_data := (clean_data parse parse_int show).
Notation try_type := (try_type parse parse_int).
Notation correct := (correct parse parse_int).
Notation correct_all := (correct_all parse parse_int).
Notation int_step := (int_step parse parse_int show).
Notation obj_step := (obj_step show).
Notation yty := (option (dtype * list cell)).

(** clean_data without the bookkeeping of the caller's frame *)
Definition prep (p : cparams) (f : frame) (y : yty) : res (frame * yty) :=
  do f0 <- (match y with None => Ok f | Some (d, v) => if negb (length v =? f_rows f) then Err ValueError else Ok (put_col (mkCol y_name d v) f) end);
  let f1 := match c_nan_chars p with None => f0 | Some cs => map_cols (on_cells (nan_char cs)) f0 end in
  match y with
  | None => Ok (f1, None)
  | Some _ => let f2 := if c_label_nan p then dropna y_name f1 else f1 in
              Ok (without [y_name] f2, option_map (fun c => (k_type c, k_cells c)) (find_col y_name f2))
  end.
Definition inf_col (p : cparams) (c : column) : column :=
  match c_inf p with None => c | Some v => if dtype_eqb (k_type c) DInt then c else on_cells (rep_inf v) c end.
Definition finish (p : cparams) meta (f : frame) : res frame :=
  do g <- (if c_correct p then correct p meta (map_cols (inf_col p) f) else Ok (map_cols (inf_col p) f));
  Ok (map_cols (obj_step p) (map_cols (int_step p) g)).

Definition pstep (on : bool) (get : cst -> option (list string)) (put : list string -> cst -> cst) (find : frame -> res (list string)) (f : frame) (s : cst) : cst * res frame :=
  if on then match get s with
             | Some l => (s, Ok (without l f))
             | None => match find f with Ok l => (put l s, Ok (without l f)) | Err x => (s, Err x) end
             end
  else (s, Ok f).
Definition put_dup l s := mkCS (s_drop s) (s_meta s) (s_cols s) (s_const s) (s_id s) (Some l).
Definition put_id l s := mkCS (s_drop s) (s_meta s) (s_cols s) (s_const s) (Some l) (s_dup s).
Definition put_const l s := mkCS (s_drop s) (s_meta s) (s_cols s) (Some l) (s_id s) (s_dup s).
Definition dropped_first (s : cst) (f : frame) : frame := match s_drop s with None => f | Some l => without l f end.

Definition pclean (p : cparams) meta (f : frame) (y : yty) : M cst (frame * yty) :=
  mdo (f0, y0) <- mlift (prep p f y);
  mdo s <- mget;
  mdo f2 <- pstep (c_dup p) s_dup put_dup (fun f => Ok (dup_cols p f)) (dropped_first s f0);
  mdo f3 <- pstep (c_id p) s_id put_id (id_cols p) f2;
  mdo f4 <- pstep (c_const p) s_const put_const (fun f => Ok (const_cols p f)) f3;
  mdo f5 <- mlift (finish p meta f4);
  mret (f5, y0).

Definition forget {Y} (r : cst * res (work * Y)) : cst * res (frame * Y) :=
  match r with (s, Ok (w, y)) => (s, Ok (w_cur w, y)) | (s, Err x) => (s, Err x) end.

Lemma of_type_nil f : of_type [DInt] f = [] -> forall c, In c (f_cols f) -> dtype_eqb (k_type c) DInt = false.
Proof.
  unfold of_type. intros H c Hc. destruct (dtype_eqb (k_type c) DInt) eqn:E; [|auto]. exfalso. apply map_eq_nil in H.
  assert (In c (filter (fun c => existsb (dtype_eqb (k_type c)) [DInt]) (f_cols f))); [|rewrite H in *; contradiction]. apply filter_In. split; [auto|]. cbn. now rewrite E.
Qed.

Lemma clean_pure p meta w y s : forget (clean_data p meta w y s) = pclean p meta (w_cur w) y s.
Proof.
  unfold CleanModel.clean_data, pclean, prep.
  set (A := match y with None => Ok w | Some (d, v) => if negb (length v =? f_rows (w_cur w)) then Err ValueError else Ok (in_place (put_col (mkCol y_name d v)) w) end).
  set (A' := match y with None => Ok (w_cur w) | Some (d, v) => if negb (length v =? f_rows (w_cur w)) then Err ValueError else Ok (put_col (mkCol y_name d v) (w_cur w)) end).
  assert (HA : A' = match A with Ok w => Ok (w_cur w) | Err x => Err x end).
  { unfold A, A'. destruct y as [[d v]|]; [|reflexivity]. destruct (negb (length v =? f_rows (w_cur w))); reflexivity. }
  rewrite HA. clearbody A. clear A' HA. unfold mbind at 1, mlift at 1. unfold mbind at 7, mlift at 3. destruct A as [w0|x]; [|reflexivity]. cbn [bind].
  set (w1 := match c_nan_chars p with None => w0 | Some cs => fresh (map_cols (on_cells (nan_char cs)) (w_cur w0)) w0 end).
  set (f1 := match c_nan_chars p with None => w_cur w0 | Some cs => map_cols (on_cells (nan_char cs)) (w_cur w0) end).
  assert (H1 : f1 = w_cur w1) by (unfold f1, w1; destruct (c_nan_chars p); reflexivity). rewrite H1. clearbody w1. clear f1 H1 w0.
  assert (STEP : forall on get put find w s (k : work -> M cst (work * yty)) (k' : frame -> M cst (frame * yty)),
     (forall w s, forget (k w s) = k' (w_cur w) s) -> forget (mbind (drop_step on get put find w) k s) = mbind (pstep on get put find (w_cur w)) k' s).
  { clear. intros on get put find w s k k' H. unfold drop_step, pstep. destruct on; [|apply H]. unfold mbind, mget, mlift, mset, mret. destruct (get s); [rewrite H; now rewrite drop_cols_cur|].
    destruct (find (w_cur w)); [rewrite H; now rewrite drop_cols_cur|reflexivity]. }
  assert (MAIN : forall w (y : yty) s, forget ((
    mdo s <- mget;
    let w := match s_drop s with None => w | Some cols => drop_cols cols w end in
    mdo w <- drop_step (c_dup p) s_dup (fun l s => mkCS (s_drop s) (s_meta s) (s_cols s) (s_const s) (s_id s) (Some l)) (fun f => Ok (dup_cols p f)) w;
    mdo w <- drop_step (c_id p) s_id (fun l s => mkCS (s_drop s) (s_meta s) (s_cols s) (s_const s) (Some l) (s_dup s)) (id_cols p) w;
    mdo w <- drop_step (c_const p) s_const (fun l s => mkCS (s_drop s) (s_meta s) (s_cols s) (Some l) (s_id s) (s_dup s)) (fun f => Ok (const_cols p f)) w;
    let w := match c_inf p with
           | None => w
           | Some v => match of_type [DInt] (w_cur w) with
                       | [] => fresh (map_cols (on_cells (rep_inf v)) (w_cur w)) w
                       | _ => in_place (map_cols (fun c => if dtype_eqb (k_type c) DInt then c else on_cells (rep_inf v) c)) w
                       end
           end in
    mdo w <- mlift (if c_correct p then do f <- correct p meta (w_cur w); Ok (in_place (fun _ => f) w) else Ok w);
    let w := in_place (map_cols (int_step p)) w in
    let w := in_place (map_cols (obj_step p)) w in
    mret (w, y)) s) =
    (mdo s <- mget;
     mdo f2 <- pstep (c_dup p) s_dup put_dup (fun f => Ok (dup_cols p f)) (dropped_first s (w_cur w));
     mdo f3 <- pstep (c_id p) s_id put_id (id_cols p) f2;
     mdo f4 <- pstep (c_const p) s_const put_const (fun f => Ok (const_cols p f)) f3;
     mdo f5 <- mlift (finish p meta f4);
     mret (f5, y)) s).
  { clear w1 s y. intros w1 y s. unfold mbind at 1, mget at 1. unfold mbind at 5, mget at 1. cbv zeta.
    assert (D : dropped_first s (w_cur w1) = w_cur (match s_drop s with None => w1 | Some cols => drop_cols cols w1 end)) by (unfold dropped_first; destruct (s_drop s); [now rewrite drop_cols_cur|reflexivity]).
    rewrite D. apply STEP. clear - STEP. intros w s. apply STEP. clear w s. intros w s. apply STEP. clear w s. intros w s.
    set (w' := match c_inf p with None => w | Some v => match of_type [DInt] (w_cur w) with [] => fresh (map_cols (on_cells (rep_inf v)) (w_cur w)) w
        | _ => in_place (map_cols (fun c => if dtype_eqb (k_type c) DInt then c else on_cells (rep_inf v) c)) w end end).
    assert (HI : w_cur w' = map_cols (inf_col p) (w_cur w)).
    { unfold w'. assert (EX : forall f, f = map_cols (fun c => c) f) by (intros [r cs]; unfold map_cols; cbn; now rewrite map_id).
      unfold map_cols, inf_col. destruct (c_inf p) as [v|]; [|apply EX]. destruct (of_type [DInt] (w_cur w)) eqn:E; [|reflexivity].
      cbn [fresh w_cur]. f_equal. apply map_ext_in. intros c Hc. now rewrite (@of_type_nil _ E c Hc). }
    unfold mbind, mlift, finish. rewrite <- HI. clearbody w'. destruct (c_correct p); [|reflexivity]. destruct (correct p meta (w_cur w')); reflexivity. }
  destruct y as [[d v]|].
  - cbn [bind]. destruct (c_label_nan p).
    + exact (MAIN (in_place (without [y_name]) (fresh (dropna y_name (w_cur w1)) w1)) _ s).
    + exact (MAIN (in_place (without [y_name]) w1) _ s).
  - cbn [bind]. apply MAIN.
Qed.

(** *** names *)
Lemma try_name d c : k_name (try_type d c) = k_name c.
Proof. unfold CleanModel.try_type. destruct (astype parse parse_int d c) as [c'|] eqn:E; [|auto]. destruct d; cbn in E; try (injection E as <-; reflexivity).
  - destruct (mapX _ _); [injection E as <-; reflexivity|discriminate]. - destruct (mapX _ _); [injection E as <-; reflexivity|discriminate]. Qed.
Lemma int_name p c : k_name (int_step p c) = k_name c.
Proof. unfold CleanModel.int_step. destruct (c_int p) as [[|]|]; [| |auto]; destruct (_ && _); auto using try_name. Qed.
Lemma obj_name p c : k_name (obj_step p c) = k_name c.
Proof. unfold CleanModel.obj_step. destruct (_ && _); auto. Qed.
Lemma inf_name p c : k_name (inf_col p c) = k_name c.
Proof. unfold inf_col. destruct (c_inf p); [|auto]. destruct (dtype_eqb _ _); auto. Qed.
Lemma inf_type p c : k_type (inf_col p c) = k_type c.
Proof. unfold inf_col. destruct (c_inf p); [|auto]. destruct (dtype_eqb _ _); auto. Qed.
Lemma names_map g f : (forall c, k_name (g c) = k_name c) -> names (map_cols g f) = names f.
Proof. intros H. unfold names, map_cols. cbn. rewrite map_map. apply map_ext. auto. Qed.
Lemma map_cols_comp g h f : map_cols g (map_cols h f) = map_cols (fun c => g (h c)) f.
Proof. unfold map_cols. cbn. now rewrite map_map. Qed.
Lemma map_cols_ext g h f : (forall c, In c (f_cols f) -> g c = h c) -> map_cols g f = map_cols h f.
Proof. intros H. unfold map_cols. f_equal. now apply map_ext_in. Qed.

Lemma find_col_In n f c : find_col n f = Some c -> In c (f_cols f) /\ k_name c = n.
Proof. unfold find_col. intros H. apply find_some in H. destruct H as [H E]. apply String.eqb_eq in E. auto. Qed.
Lemma find_col_uniq f c : NoDup (names f) -> In c (f_cols f) -> find_col (k_name c) f = Some c.
Proof.
  unfold names, find_col. induction (f_cols f) as [|d cs IH]; intros ND HI; [contradiction|]. cbn. inversion ND as [|? ? NI ND']; subst. destruct HI as [->|HI]; [now rewrite String.eqb_refl|].
  destruct (String.eqb_spec (k_name c) (k_name d)) as [E|E]; [|auto]. exfalso. apply NI. rewrite <- E. now apply in_map.
Qed.
Lemma find_col_some n f : In n (names f) -> exists c, find_col n f = Some c.
Proof. unfold names, find_col. induction (f_cols f) as [|d cs IH]; cbn; [contradiction|]. intros [<-|H]; [rewrite String.eqb_refl; eauto|]. destruct (String.eqb n (k_name d)); eauto. Qed.
Lemma uniq f c d : NoDup (names f) -> In c (f_cols f) -> In d (f_cols f) -> k_name c = k_name d -> c = d.
Proof. intros ND Hc Hd E. pose proof (find_col_uniq _ _ ND Hc) as A. pose proof (find_col_uniq _ _ ND Hd) as B. rewrite E in A. congruence. Qed.

(** *** the types remembered *)
Definition flat (m : list (dtype * list string)) : list string := flat_map snd m.
Fixpoint lookup (m : list (dtype * list string)) (n : string) : option dtype :=
  match m with [] => None | (d, l) :: r => if inb n l then Some d else lookup r n end.
Lemma lookup_flat m n : In n (flat m) <-> lookup m n <> None.
Proof.
  induction m as [|[d l] m IH]; cbn; [split; [contradiction|congruence]|]. rewrite in_app_iff, IH. destruct (inb n l) eqn:E.
  - apply inb_In in E. split; [discriminate|auto]. - apply inb_not in E. tauto.
Qed.
Definition ttype (o : option dtype) (c : column) : column := match o with Some d => if dtype_eqb (k_type c) d then c else try_type d c | None => c end.
Lemma ttype_name o c : k_name (ttype o c) = k_name c.
Proof. unfold ttype. destruct o; [|auto]. destruct (dtype_eqb _ _); auto using try_name. Qed.

Lemma correct_all_ok m f : NoDup (flat m) -> (forall n, In n (flat m) -> In n (names f)) -> correct_all m f = Ok (map_cols (fun c => ttype (lookup m (k_name c)) c) f).
Proof.
  revert f. induction m as [|[d l] m IH]; intros f ND HI.
  - cbn. f_equal. destruct f as [r cs]. unfold map_cols. cbn. now rewrite map_id.
  - cbn [CleanModel.correct_all]. unfold correct_as. cbn [flat flat_map snd] in ND, HI.
    assert (FB : forallb (fun n => inb n (names f)) l = true) by (apply forallb_forall; intros n Hn; apply inb_In, HI, in_or_app; now left). rewrite FB. cbn [bind].
    set (g := fun c => if inb (k_name c) l && negb (dtype_eqb (k_type c) d) then try_type d c else c).
    assert (GN : forall c, k_name (g c) = k_name c) by (intros c; unfold g; destruct (_ && _); auto using try_name).
    rewrite IH.
    + f_equal. rewrite map_cols_comp. apply map_cols_ext. intros c _. rewrite GN. cbn [lookup]. unfold g. destruct (inb (k_name c) l) eqn:E.
      * assert (NL : lookup m (k_name c) = None).
        { destruct (lookup m (k_name c)) eqn:X; [|auto]. exfalso. apply inb_In in E. assert (I2 : In (k_name c) (flat m)) by (apply lookup_flat; congruence).
          apply in_split in E. destruct E as (l1 & l2 & ->). rewrite <- app_assoc in ND. apply NoDup_app_remove_l in ND. cbn in ND. apply NoDup_cons_iff in ND. apply (proj1 ND). apply in_or_app. now right. }
        rewrite NL. cbn [ttype andb]. destruct (dtype_eqb (k_type c) d); reflexivity.
      * reflexivity.
    + now apply NoDup_app_remove_l in ND.
    + intros n Hn. rewrite names_map by auto. apply HI, in_or_app. now right.
Qed.
Lemma correct_all_missing m f n : In n (flat m) -> ~ In n (names f) -> correct_all m f = Err KeyError.
Proof.
  revert f. induction m as [|[d l] m IH]; intros f HI HN; [contradiction|]. cbn [CleanModel.correct_all]. unfold correct_as. cbn [flat flat_map snd] in HI. apply in_app_iff in HI.
  destruct (forallb (fun n => inb n (names f)) l) eqn:FB; [|reflexivity]. rewrite forallb_forall in FB. destruct HI as [HI|HI]; [apply FB, inb_In in HI; contradiction|].
  cbn [bind]. apply IH; [auto|]. rewrite names_map; [auto|]. intros c. destruct (_ && _); auto using try_name.
Qed.

Lemma add_flat d n m : Permutation (flat (add_meta d n m)) (n :: flat m).
Proof.
  induction m as [|[d' l] m IH]; cbn; [auto|]. destruct (dtype_eqb d d'); cbn.
  - rewrite <- app_assoc. cbn. symmetry. apply Permutation_middle.
  - eapply Permutation_trans; [apply Permutation_app_head, IH|]. symmetry. apply Permutation_middle.
Qed.
Lemma add_lookup d n m x : ~ In n (flat m) -> lookup (add_meta d n m) x = if String.eqb x n then Some d else lookup m x.
Proof.
  induction m as [|[d' l] m IH]; intros NI; cbn.
  - destruct (String.eqb x n); reflexivity.
  - cbn in NI. rewrite in_app_iff in NI. destruct (dtype_eqb d d') eqn:E; cbn [lookup].
    + apply dtype_eqb_eq in E. subst d'. unfold inb. rewrite existsb_app. cbn [existsb]. rewrite orb_false_r. destruct (String.eqb x n); [now rewrite orb_true_r|]. now rewrite orb_false_r.
    + rewrite IH by tauto. destruct (String.eqb x n) eqn:EX; [|reflexivity]. apply String.eqb_eq in EX. rewrite EX. assert (Y : inb n l = false) by (apply inb_not; tauto). now rewrite Y.
Qed.
Lemma meta_gen cs m : NoDup (map k_name cs) -> (forall c, In c cs -> ~ In (k_name c) (flat m)) ->
  let r := fold_left (fun m c => add_meta (k_type c) (k_name c) m) cs m in
  Permutation (flat r) (map k_name cs ++ flat m) /\ (forall c, In c cs -> lookup r (k_name c) = Some (k_type c)) /\ forall n, ~ In n (map k_name cs) -> lookup r n = lookup m n.
Proof.
  revert m. induction cs as [|c cs IH]; intros m ND HN r; cbn [fold_left] in r; [unfold r; repeat split; auto; contradiction|].
  cbn [map] in ND. inversion ND as [|? ? NI ND']; subst. destruct (IH (add_meta (k_type c) (k_name c) m) ND') as (P & L1 & L2).
  { intros d Hd HI. apply (Permutation_in _ (add_flat _ _ _)) in HI. destruct HI as [E|HI]; [apply NI; rewrite E; now apply in_map|]. apply (HN d); [now right|auto]. }
  fold r in P, L1, L2. split; [|split].
  - eapply Permutation_trans; [exact P|]. eapply Permutation_trans; [apply Permutation_app_head, add_flat|]. cbn. symmetry. apply Permutation_middle.
  - intros d [<-|Hd]; [|auto]. rewrite L2 by auto. rewrite add_lookup by (apply HN; now left). now rewrite String.eqb_refl.
  - intros n Hn. cbn in Hn. rewrite L2 by tauto. rewrite add_lookup by (apply HN; now left). destruct (String.eqb_spec n (k_name c)); [subst; tauto|auto].
Qed.
Lemma meta_of_spec f : NoDup (names f) -> NoDup (flat (meta_of f)) /\ (forall n, In n (flat (meta_of f)) <-> In n (names f)) /\
  forall c, In c (f_cols f) -> lookup (meta_of f) (k_name c) = Some (k_type c).
Proof.
  intros ND. destruct (@meta_gen (f_cols f) [] ND ltac:(auto)) as (P & L1 & _). cbn [flat flat_map] in P. rewrite app_nil_r in P. split; [|split; [|exact L1]].
  - eapply Permutation_NoDup; [symmetry; exact P|exact ND].
  - intros n. split; intros H; [eapply Permutation_in; [exact P|auto]|eapply Permutation_in; [symmetry; exact P|auto]].
Qed.

(** *** the columns one by one *)
Definition fit_col (p : cparams) (c : column) : column :=
  let c := inf_col p c in
  let c := if c_correct p && dtype_eqb (k_type c) DObj && negb (reserved p (k_name c)) then try_type DFloat c else c in
  obj_step p (int_step p c).
Definition tr_col (p : cparams) (o : option dtype) (c : column) : column :=
  let c := inf_col p c in obj_step p (int_step p (if c_correct p then ttype o c else c)).
Lemma fit_col_name p c : k_name (fit_col p c) = k_name c.
Proof. unfold fit_col. rewrite obj_name, int_name. destruct (_ && _); rewrite ?try_name, inf_name; auto. Qed.
Lemma tr_col_name p o c : k_name (tr_col p o c) = k_name c.
Proof. unfold tr_col. rewrite obj_name, int_name. destruct (c_correct p); rewrite ?ttype_name, inf_name; auto. Qed.

Lemma of_type_In f c : NoDup (names f) -> In c (f_cols f) -> (In (k_name c) (of_type [DObj] f) <-> k_type c = DObj).
Proof.
  intros ND HC. unfold of_type. rewrite in_map_iff. split.
  - intros (d & E & H). apply filter_In in H. destruct H as [H T]. assert (d = c) by (eapply uniq; eauto). subst d. cbn in T. rewrite orb_false_r in T. now apply dtype_eqb_eq.
  - intros T. exists c. split; [auto|]. apply filter_In. split; [auto|]. now rewrite T.
Qed.
Lemma finish_fit p f : NoDup (names f) -> finish p None f = Ok (map_cols (fit_col p) f).
Proof.
  intros ND. unfold finish, CleanModel.correct. set (g := map_cols (inf_col p) f).
  assert (NG : names g = names f) by (apply names_map, inf_name).
  assert (X : (if c_correct p then correct_all [(DObj, []); (DFloat, filter (fun n => negb (reserved p n)) (of_type [DObj] g))] g else Ok g)
     = Ok (map_cols (fun c => if c_correct p && dtype_eqb (k_type c) DObj && negb (reserved p (k_name c)) then try_type DFloat c else c) g)).
  { destruct (c_correct p); cbn [andb]; [|destruct g as [r cs]; unfold map_cols; cbn; f_equal; now rewrite map_id].
    rewrite correct_all_ok.
    - f_equal. apply map_cols_ext. intros c Hc. cbn [lookup]. change (inb (k_name c) []) with false. cbv iota. pose proof (@of_type_In g c ltac:(rewrite NG; auto) Hc) as OT.
      destruct (dtype_eqb (k_type c) DObj) eqn:T.
      + destruct (reserved p (k_name c)) eqn:R; cbn [andb negb].
        * assert (E : inb (k_name c) (filter (fun n => negb (reserved p n)) (of_type [DObj] g)) = false) by (apply inb_not; rewrite filter_In, R; intros [_ ?]; discriminate). now rewrite E.
        * assert (E : inb (k_name c) (filter (fun n => negb (reserved p n)) (of_type [DObj] g)) = true) by (apply inb_In; rewrite filter_In, R; split; [apply OT; now apply dtype_eqb_eq|auto]). rewrite E.
          apply dtype_eqb_eq in T. cbn [ttype]. now rewrite T.
      + assert (E : inb (k_name c) (filter (fun n => negb (reserved p n)) (of_type [DObj] g)) = false).
        { apply inb_not. rewrite filter_In, OT. intros [E _]. rewrite E in T. discriminate. }
        now rewrite E.
    - cbn [flat flat_map snd app]. rewrite app_nil_r. apply NoDup_filter. unfold of_type. clear - ND NG. rewrite <- NG in ND. unfold names in ND. induction (f_cols g) as [|c cs IH]; cbn; [constructor|].
      cbn in ND. inversion ND; subst. destruct (_ || _); cbn; [constructor; auto|auto]. intros H. apply in_map_iff in H. destruct H as (d & E & H). apply filter_In in H. apply H1. rewrite <- E. apply in_map. tauto.
    - cbn [flat flat_map snd app]. rewrite app_nil_r. intros n Hn. apply filter_In in Hn. destruct Hn as [Hn _]. unfold of_type in Hn. apply in_map_iff in Hn. destruct Hn as (c & <- & Hc). apply filter_In in Hc. apply in_map. tauto. }
  rewrite X. cbn [bind]. f_equal. unfold g. rewrite !map_cols_comp. reflexivity.
Qed.
Lemma finish_tr p m f : NoDup (flat m) -> (forall n, In n (flat m) -> In n (names f)) -> finish p (Some m) f = Ok (map_cols (fun c => tr_col p (lookup m (k_name c)) c) f).
Proof.
  intros ND HI. unfold finish, CleanModel.correct. rewrite correct_all_ok; [|auto|rewrite names_map by apply inf_name; auto].
  assert (X : (if c_correct p then Ok (map_cols (fun c => ttype (lookup m (k_name c)) c) (map_cols (inf_col p) f)) else Ok (map_cols (inf_col p) f)) =
    Ok (map_cols (fun c => if c_correct p then ttype (lookup m (k_name c)) c else c) (map_cols (inf_col p) f))).
  { destruct (c_correct p); [reflexivity|]. f_equal. destruct (map_cols (inf_col p) f) as [r cs]. unfold map_cols. cbn. now rewrite map_id. }
  rewrite X. cbn [bind]. f_equal. rewrite !map_cols_comp. apply map_cols_ext. intros c _. unfold tr_col. now rewrite inf_name.
Qed.

(** transforming the training column again with the type it got *)
Lemma int_res p c : reserved p (k_name c) = true -> int_step p c = c.
Proof. unfold CleanModel.int_step. intros ->. rewrite andb_false_r. destruct (c_int p); reflexivity. Qed.
Lemma obj_res p c : reserved p (k_name c) = true -> obj_step p c = c.
Proof. unfold CleanModel.obj_step. intros ->. now rewrite andb_false_r. Qed.
Lemma fit_res p c : reserved p (k_name c) = true -> fit_col p c = inf_col p c.
Proof. intros R. unfold fit_col. rewrite inf_name, R, !andb_false_r. rewrite int_res by now rewrite inf_name. apply obj_res. now rewrite inf_name. Qed.
Lemma tr_fit_col p c : (forall s, show (CStr s) = s) -> tr_col p (Some (k_type (fit_col p c))) c = fit_col p c.
Proof.
  intros HS. destruct (reserved p (k_name c)) eqn:R.
  - rewrite fit_res by auto. unfold tr_col, ttype. assert (X : dtype_eqb (k_type (inf_col p c)) (k_type (inf_col p c)) = true) by now apply dtype_eqb_eq. rewrite X.
    replace (if c_correct p then inf_col p c else inf_col p c) with (inf_col p c) by (destruct (c_correct p); reflexivity). rewrite int_res by now rewrite inf_name. apply obj_res. now rewrite inf_name.
  - rewrite <- (inf_name p c) in R. unfold tr_col, fit_col. set (b := inf_col p c) in *. clearbody b. destruct (c_correct p); [|reflexivity]. cbn [andb].
    unfold CleanModel.obj_step, CleanModel.int_step, as_str, CleanModel.try_type, ttype, CleanModel.try_type, astype.
    assert (SS : forall l, map (fun v => CStr (show v)) (map (fun v => CStr (show v)) l) = map (fun v => CStr (show v)) l) by (intros l; rewrite map_map; apply map_ext; intros v; now rewrite HS).
    destruct b as [n t v]. cbn [k_type k_name k_cells] in R |- *.
    destruct t; cbn [dtype_eqb andb negb k_type k_name k_cells]; rewrite ?R; cbn [dtype_eqb andb negb k_type k_name k_cells];
      repeat (match goal with
              | |- context [mapX (to_float parse) v] => let E := fresh "E" in destruct (mapX (to_float parse) v) eqn:E; cbn [bind]
              | |- context [c_int p] => destruct (c_int p) as [[|]|]
              | H : _ = Ok _ |- _ => progress rewrite H
              | H : _ = Err _ |- _ => progress rewrite H
              | _ => progress (rewrite ?R, ?SS; cbn [dtype_eqb andb negb k_type k_name k_cells bind])
              end); first [reflexivity|discriminate|congruence].
Qed.
End C.
