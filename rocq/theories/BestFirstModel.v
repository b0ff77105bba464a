(** Model of BestFirstTreeBuilder (ylearn/sklearn_ex/cloned/tree/_tree.pyx:333-546), which PolicyTree uses when
    max_leaf_nodes is given.  The frontier is a list; the heap of C++ (push_heap, pop_heap with _compare_records) is
    the parameter [pick]: the position of a record of largest improvement (which one among equals is unspecified). *)
From Coq Require Import ZArith Reals Lra.
From Verif Require Import Base TreeCritModel SplitterModel TreeSpec.
Set Implicit Arguments.
Local Notation length := List.length.
Open Scope R_scope.

(** _tree.pxd / _tree.pyx:306-316 FrontierRecord *)
Record frec := mkFrec { fr_id : nat; fr_start : nat; fr_end : nat; fr_pos : nat; fr_depth : nat; fr_leaf : bool;
                        fr_imp : R; fr_il : R; fr_ir : R; fr_gain : R }.

Section BestFirst.
Context {C V : Type}.
Variable cr : crit C V.
Variable X : nat -> nat -> R.
Variable srt : (nat -> R) -> list nat -> list nat.
Variable rnd : nat -> nat.
Variable rmax : R.
Variables (max_features min_samples_leaf : nat) (min_weight_leaf : R).
Variables (min_samples_split max_depth : nat) (min_impurity_decrease : R).
Variable N : R.
Variable random : bool.

(** _tree.pyx:471-546 _add_split_node; [imp] = None stands for is_first *)
Definition add_split_node (start end_ : nat) (imp : option R) (is_left : bool) (parent : option nat) (depth : nat)
           (b : @bst V) : res (@bst V * frec) :=
  let c := cr_init cr N (p_samples (b_spl b)) start end_ in
  let imp := match imp with None => cr_node cr c | Some v => v end in
  let n := (end_ - start)%nat in
  let is_leaf := ((max_depth <=? depth) || (n <? min_samples_split) || (n <? 2 * min_samples_leaf)
                  || (if Rlt_dec (cr_wn cr c) (2 * min_weight_leaf) then true else false)
                  || (if Rle_dec imp EPSILON then true else false))%nat%bool in
  let wn := cr_wn cr c in
  do r <- (if is_leaf then Ok (b_spl b, c, None, 0%nat)
           else node_split cr X srt rnd rmax max_features min_samples_leaf min_weight_leaf random imp start end_ 0 c (b_spl b)) ;
  let '(spl, c, best, _) := r in
  let best := match best with
              | Some s => if Rlt_dec (sp_improvement s + EPSILON) min_impurity_decrease then None else Some s
              | None => None
              end in
  let id := length (b_nodes b) in
  let values := b_values b ++ [cr_value cr c] in
  match best with
  | None =>
      Ok (mkBst (add_node (b_nodes b) parent is_left (mkNode Leaf Leaf 0 0 imp n wn)) values spl (b_max b),
          mkFrec id start end_ end_ depth true imp imp imp 0)
  | Some s =>
      Ok (mkBst (add_node (b_nodes b) parent is_left (mkNode Unset Unset (sp_feature s) (sp_thr s) imp n wn)) values spl (b_max b),
          mkFrec id start end_ (sp_pos s) depth false imp (sp_il s) (sp_ir s) (sp_improvement s))
  end.

(** the position of the record that pop_heap takes *)
Variable pick : list frec -> nat.

(** _tree.pyx:421-425: the node becomes a leaf *)
Definition close_node (nodes : list node) (id : nat) : list node :=
  let n := nth id nodes node0 in lset nodes id (mkNode Leaf Leaf 0 0 (nd_imp n) (nd_n n) (nd_w n)).

(** _tree.pyx:411-459 the loop: [budget] is max_split_nodes.  max_depth_seen starts at -1 in the code; the root
    (depth 0) is always taken, so 0 is as good. *)
Fixpoint bf_loop (fuel : nat) (frontier : list frec) (budget : nat) (b : @bst V) : res (@bst V) :=
  match frontier with
  | [] => Ok b
  | _ =>
      match fuel with
      | O => Err OutOfFuel
      | S k =>
          let i := pick frontier in
          match nth_error frontier i with
          | None => Err IndexError
          | Some r =>
              let rest := firstn i frontier ++ skipn (S i) frontier in
              let seen b := mkBst (b_nodes b) (b_values b) (b_spl b) (Nat.max (fr_depth r) (b_max b)) in
              if (fr_leaf r || (budget <=? 0))%nat%bool
              then bf_loop k rest budget
                     (seen (mkBst (close_node (b_nodes b) (fr_id r)) (b_values b) (b_spl b) (b_max b)))
              else
                do lr <- add_split_node (fr_start r) (fr_pos r) (Some (fr_il r)) true (Some (fr_id r)) (S (fr_depth r)) b ;
                do rr <- add_split_node (fr_pos r) (fr_end r) (Some (fr_ir r)) false (Some (fr_id r)) (S (fr_depth r)) (fst lr) ;
                bf_loop k (rest ++ [snd lr; snd rr]) (budget - 1) (seen (fst rr))
          end
      end
  end.

(** _tree.pyx:380-469 _build_tree (max_leaf_nodes >= 1): at most 2 * max_leaf_nodes - 1 rounds *)
Definition bf_build (max_leaf_nodes : nat) (samples : list nat) (n_features : nat) : res (@bst V) :=
  do r <- add_split_node 0 (length samples) None true None 0
            (mkBst [] [] (mkSpl samples (seq 0 n_features) (repeat 0%nat n_features) 0) 0) ;
  bf_loop (2 * max_leaf_nodes) [snd r] (max_leaf_nodes - 1) (fst r).
End BestFirst.

(** _tree.pyx:355-378 build: _init_splitter is called without the sample weights, so splitter.init sees none *)
Definition without_weights (d : data) : data := mkData (d_out d) (d_y d) None.
Definition bf_grow {C V} (mk : data -> crit C V) (e : surround) (g : settings) (pick : list frec -> nat) (max_leaf_nodes : nat)
           (X : nat -> nat -> R) (d : data) (n nf : nat) : res (@bst V) :=
  let d := without_weights d in
  bf_build (mk d) X (e_sort e) (e_rnd e) (e_rmax e) (g_max_features g) (g_min_samples_leaf g) (g_min_weight_leaf g)
           (g_min_samples_split g) (g_max_depth g) (g_min_decrease g) (weighted_n d n) (g_random g) pick max_leaf_nodes
           (kept_samples d n) nf.
