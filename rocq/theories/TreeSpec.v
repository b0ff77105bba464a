(** Vocabulary of the theorems about whole trees (TreeProps.v). *)
From Coq Require Import ZArith Reals Lra.
From Verif Require Import Base TreeCritModel TreeCritProps SplitterModel SplitterSpec GrfCritModel GrfCritSpec.
Set Implicit Arguments.
Local Notation length := List.length.
Open Scope nat_scope.

(** The parameters of the splitter and of the builder. *)
Record settings := mkSettings {
  g_max_features : nat; g_min_samples_leaf : nat; g_min_weight_leaf : R; g_min_samples_split : nat;
  g_max_depth : nat; g_min_decrease : R; g_random : bool
}.

(** what is assumed of the sort of the samples of a node by a feature (SortProps.v proves it of the code) *)
Definition sorts (srt : (nat -> R) -> list nat -> list nat) : Prop :=
  forall key l, Permutation (srt key l) l /\
    forall i j, i <= j -> j < length l -> (key (nth i (srt key l) 0%nat) <= key (nth j (srt key l) 0%nat))%R.

(** The surroundings of a run: how samples are sorted, the random numbers, and their largest value. *)
Record surround := mkSurround { e_sort : (nat -> R) -> list nat -> list nat; e_rnd : nat -> nat; e_rmax : R }.
Definition sane (e : surround) : Prop :=
  sorts (e_sort e) /\ (0 < e_rmax e)%R /\ forall t, (INR (e_rnd e t) <= e_rmax e)%R.

(** build with these parameters *)
Definition grow {C V} (cr : crit C V) (e : surround) (g : settings) (X : nat -> nat -> R) (d : data) (n nf : nat) : res (@bst V) :=
  build cr X (e_sort e) (e_rnd e) (e_rmax e) (g_max_features g) (g_min_samples_leaf g) (g_min_weight_leaf g)
        (g_min_samples_split g) (g_max_depth g) (g_min_decrease g) (g_random g) d n nf.

(** The criterion objects and what they compute on data [d] with total weight [N].  [ranking] leaves out
    PRegCriteria1, whose proxy does not rank splits like its improvement (C62_policy_test1_refuted). *)
Inductive ranking (d : data) (N : R) : forall C V, crit C V -> cspec V -> Prop :=
| rk_honest w : d_out d = 1 -> d_w d = Some w -> ranking d N (honest_crit d) (causal_spec honest_impurity eps d)
| rk_cmse w : d_out d = 1 -> d_w d = Some w -> ranking d N (cmse_crit d) (causal_spec cmse_impurity 0 d)
| rk_mse : ranking d N (mse_crit d) (mse_spec d N)
| rk_preg : ranking d N (preg_crit d) (preg_spec false d N)
| rk_grf la p tr : d_out d = 1 -> order_free la -> ranking d N (grf_crit la p tr d) (grf_spec la p tr d).
Inductive computes (d : data) (N : R) : forall C V, crit C V -> cspec V -> Prop :=
| co_ranking C V (cr : crit C V) sp : ranking d N cr sp -> computes d N cr sp
| co_preg1 : computes d N (preg1_crit d) (preg_spec true d N).

(** the samples of [s] whose decision path goes through node [j]; that end in node [j] *)
Definition passing (nodes : list node) (X : nat -> nat -> R) (j : nat) (s : list nat) : list nat :=
  filter (fun i => match tree_path nodes (X i) with Ok p => existsb (Nat.eqb j) p | Err _ => false end) s.
Definition samples_at (nodes : list node) (X : nat -> nat -> R) (j : nat) (s : list nat) : list nat :=
  filter (fun i => match tree_apply nodes (X i) with Ok k => k =? j | Err _ => false end) s.

(** node [j] is [depth] edges below the root: it comes [depth] nodes after the first on every decision path *)
Definition at_depth (nodes : list node) (j depth : nat) : Prop :=
  forall x p, tree_path nodes x = Ok p -> In j p -> exists p1 p2, p = p1 ++ j :: p2 /\ length p1 = depth.
