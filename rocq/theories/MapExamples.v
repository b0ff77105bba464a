(** DataFrameMapper: concrete cases, and what does not hold (C211-C214). *)
From Coq Require Import String.
From Verif Require Import Base EstUtilsModel MetaModel MapModel MapSpec MapProofs MapProps.
Local Notation length := List.length.
Local Open Scope string_scope.
Local Open Scope list_scope.
Local Open Scope nat_scope.

(** a transformer that adds the first value it was fitted on; it cannot be fitted on an empty column *)
Definition shift := option nat.
Definition sh_fit (t : shift) (a : bool * mframe nat) (y : option unit) : shift * res unit :=
  match snd a with (_, v :: _) :: _ => (Some v, Ok tt) | _ => (None, Err ValueError) end.
Definition sh_tr (t : shift) (a : bool * mframe nat) : res (list (list nat)) :=
  match t with Some k => Ok (map (fun c => map (Nat.add k) (snd c)) (snd a)) | None => Err ValueError end.
Definition sh_ft (t : shift) : option (bool * mframe nat -> option unit -> shift * res (list (list nat))) :=
  Some (fun a y => let (t', r) := sh_fit t a y in match r with Ok _ => (t', sh_tr t' a) | Err e => (t', Err e) end).
Definition sh_names (t : shift) : list (list string -> option (list string)) := [].
Definition md5x (s : string) := "#".
Definition numx (n : nat) := match n with 0 => "0" | 1 => "1" | _ => "2" end.
Notation xfit := (mfit sh_fit).
Notation xtransform := (mtransform sh_tr sh_names md5x numx).
Notation xfit_transform := (mfit_transform sh_fit sh_tr sh_ft sh_names md5x numx).

Lemma sh_contract : contract sh_fit sh_tr sh_ft.
Proof. split; [intros t f E a y; injection E as <-; reflexivity|]. split; [intros [k|] a; discriminate|]. intros t a y. split; discriminate. Qed.
Lemma sh_memoryless : memoryless sh_fit sh_ft (fun _ => tt).
Proof. split; [intros t t' a y _; reflexivity|]. split; [reflexivity|reflexivity]. Qed.

Definition fresh n := mkMS (repeat (@None nat) n) None None.
Definition X3 : mframe nat := [("a", [1; 2]); ("b", [10; 20]); ("c", [5; 6]); ("d", [7; 8])].
(** two features that overlap in b, the rest passed through *)
Definition p3 : mparams nat := mkMP [(CList ["b"; "a"], Some 0, no_opts); (CList ["c"; "b"], Some 1, no_opts)] DPass true true.

Example ex_fit : exists s, xfit p3 X3 tt (fresh 2) = (s, Ok tt) /\ h_fitted s = Some [(["b"; "a"], Some 0, no_opts); (["c"], Some 1, no_opts); (["d"], None, no_opts)].
Proof. eexists. split; vm_compute; reflexivity. Qed.
Example ex_hyps : NoDup (map fst X3) /\ clean_defs (mp_features p3) X3 /\ NoDup (ids p3) /\ (forall d t o, In (d, t, o) (mp_features p3) -> is_tuple d = false) /\ lone_short p3 X3.
Proof.
  split; [repeat constructor; cbn; intuition congruence|]. split.
  { intros d t o [E|[E|[]]]; injection E as <- <- <-; cbn [named]; (split; [repeat constructor; cbn; intuition congruence|cbn; intuition]). }
  split; [repeat constructor; cbn; intuition congruence|]. split; [intros d t o [E|[E|[]]]; now injection E as <- <- <-|].
  intros _ c H _ _. cbn in H. repeat destruct H as [<-|H]; try contradiction; cbn; lia.
Qed.
Example ex_ft : snd (xfit_transform p3 X3 tt (fresh 2)) = Ok (ODf [("b", [20; 30]); ("a", [11; 12]); ("c", [10; 11]); ("d", [7; 8])]).
Proof. vm_compute. reflexivity. Qed.
Example ex_refit : snd (xtransform p3 X3 (fst (xfit p3 X3 tt (mrun sh_fit sh_tr sh_ft sh_names md5x numx p3 [OFit [("a", [9]); ("b", [9]); ("c", [9])] tt; OTr X3] (fresh 2))))) = snd (xtransform p3 X3 (fst (xfit p3 X3 tt (fresh 2)))).
Proof. vm_compute. reflexivity. Qed.

(** a name given twice in a definition makes the default forget a column *)
Theorem C211_repeated_name_refuted : exists (p : mparams nat) X s', NoDup (map fst X) /\ mp_default p = DPass /\ xfit p X tt (fresh 0) = (s', Ok tt) /\
  exists c fl, In c (map fst X) /\ unpicked (mp_features p) X c /\ h_fitted s' = Some fl /\ ~ In c (flat_map (fun e => fst (fst e)) fl).
Proof.
  exists (mkMP [(CList ["a"; "a"], None, no_opts)] DPass true true), [("a", [1]); ("b", [2])]. eexists. split; [repeat constructor; cbn; intuition congruence|]. split; [auto|]. split; [vm_compute; reflexivity|].
  exists "b". eexists. split; [cbn; auto|]. split; [|split; [reflexivity|cbn; intuition congruence]]. intros [|i] (d & t & o & E & H); [injection E as <- <- <-; cbn in H; intuition congruence|destruct i; discriminate].
Qed.

(** features given as tuples: fit and transform work, fit_transform does not *)
Theorem C212_tuple_refuted : exists (p : mparams nat) X s1 out, NoDup (map fst X) /\ NoDup (ids p) /\ lone_short p X /\
  xfit p X tt (fresh 1) = (s1, Ok tt) /\ xtransform p X s1 = (s1, Ok out) /\ snd (xfit_transform p X tt (fresh 1)) = Err KeyError.
Proof.
  exists (mkMP [(CTuple ["a"; "b"], Some 0, no_opts)] DDrop true true), [("a", [1]); ("b", [2])]. do 2 eexists. split; [repeat constructor; cbn; intuition congruence|]. split; [repeat constructor; cbn; intuition congruence|].
  split; [discriminate|]. split; [vm_compute; reflexivity|]. split; vm_compute; reflexivity.
Qed.
(** a transformer object used by two features: fit_transform returns other values than fit, then transform *)
Theorem C212_shared_transformer_refuted : exists (p : mparams nat) X s1 out out', NoDup (map fst X) /\ lone_short p X /\ (forall d t o, In (d, t, o) (mp_features p) -> is_tuple d = false) /\
  xfit p X tt (fresh 1) = (s1, Ok tt) /\ xtransform p X s1 = (s1, Ok out) /\ snd (xfit_transform p X tt (fresh 1)) = Ok out' /\ out <> out'.
Proof.
  exists (mkMP [(CList ["a"], Some 0, no_opts); (CList ["b"], Some 0, no_opts)] DDrop true true), [("a", [1]); ("b", [2])]. do 3 eexists. split; [repeat constructor; cbn; intuition congruence|].
  split; [discriminate|]. split; [intros d t o [E|[E|[]]]; now injection E as <- <- <-|]. split; [vm_compute; reflexivity|]. split; [vm_compute; reflexivity|]. split; [vm_compute; reflexivity|discriminate].
Qed.
(** a lone left-over column with a long name is renamed by transform, not by fit_transform *)
Definition long := "a123456789b123456789c123456789d123456789e123456789f123456789g123456789".
Theorem C212_long_name_refuted : exists (p : mparams nat) X s1, NoDup (map fst X) /\ NoDup (ids p) /\ (forall d t o, In (d, t, o) (mp_features p) -> is_tuple d = false) /\
  xfit p X tt (fresh 0) = (s1, Ok tt) /\ snd (xfit_transform p X tt (fresh 0)) = Ok (ODf [(long, [1])]) /\ snd (xtransform p X s1) = Ok (ODf [(String.append (substring 0 32 long) (md5x long), [1])]).
Proof.
  exists (mkMP [] DPass true true), [(long, [1])]. eexists. split; [repeat constructor; cbn; intuition congruence|]. split; [constructor|]. split; [intros d t o []|]. split; [vm_compute; reflexivity|]. split; vm_compute; reflexivity.
Qed.

(** a transformer that puts out no column: transform fails although the others have results *)
Definition none_tr (t : shift) (a : bool * mframe nat) : res (list (list nat)) := match t with Some 0 => Ok [] | _ => sh_tr t a end.
Theorem C213_no_column_refuted : exists (p : mparams nat) X s1, mp_df_out p = true /\ xfit p X tt (fresh 2) = (s1, Ok tt) /\
  (forall cs i o fl, h_fitted s1 = Some fl -> In (cs, Some i, o) fl -> exists t, nth_error (h_objs s1) i = Some t /\ forall Xt, exists b, none_tr t (match o_input o with Some d => d | None => mp_input p end, Xt) = Ok b) /\
  (forall fl e c, h_fitted s1 = Some fl -> In e fl -> In c (fst (fst e)) -> In c (map fst X)) /\ snd (mtransform none_tr sh_names md5x numx p X s1) = Err ValueError.
Proof.
  exists (mkMP [(CList ["a"], Some 0, no_opts); (CList ["b"], Some 1, no_opts)] DDrop true true), [("a", [0]); ("b", [2])]. eexists. split; [auto|]. split; [vm_compute; reflexivity|]. split; [|split].
  - intros cs i o fl E H. injection E as <-. destruct H as [H|[H|[]]]; injection H as <- <- <-; (eexists; split; [reflexivity|]); intros Xt; eexists; reflexivity.
  - intros fl e c E H Hc. injection E as <-. destruct H as [<-|[<-|[]]]; cbn in *; intuition.
  - vm_compute. reflexivity.
Qed.

(** a refit that fails leaves the mapper with old columns and new transformers: transform answers, differently *)
Theorem C214_failed_refit_refuted : exists (p : mparams nat) X1 X2 s1 s2 e out out', xfit p X1 tt (fresh 2) = (s1, Ok tt) /\ xtransform p X1 s1 = (s1, Ok out) /\
  xfit p X2 tt s1 = (s2, Err e) /\ h_fitted s2 = h_fitted s1 /\ xtransform p X1 s2 = (s2, Ok out') /\ out' <> out.
Proof.
  exists (mkMP [(CList ["a"], Some 0, no_opts); (CList ["b"; "c"], None, no_opts); (CList ["d"], Some 1, no_opts)] DDrop true true), X3, [("a", [9]); ("b", []); ("c", [])]. do 5 eexists.
  split; [vm_compute; reflexivity|]. split; [vm_compute; reflexivity|]. split; [vm_compute; reflexivity|]. split; [reflexivity|]. split; [vm_compute; reflexivity|discriminate].
Qed.
Print Assumptions C211_repeated_name_refuted.
Print Assumptions C212_tuple_refuted.
Print Assumptions C212_shared_transformer_refuted.
Print Assumptions C212_long_name_refuted.
Print Assumptions C213_no_column_refuted.
Print Assumptions C214_failed_refit_refuted.
