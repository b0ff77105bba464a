(** Model of the dense tree engine: ylearn/sklearn_ex/cloned/tree/_splitter.pyx (Splitter, BestSplitter,
    RandomSplitter) and _tree.pyx (DepthFirstTreeBuilder, Tree._add_node, apply, predict).
    Doubles are exact reals (no NaN, no infinities); the integer types are unbounded; memory allocation
    succeeds.  The sort of _splitter.pyx:458-569 is a parameter [srt] (SortProps.v proves what is needed of
    it), the pseudo-random sequence of our_rand_r is a parameter [rnd]. *)
From Coq Require Import ZArith Reals Lra.
From Verif Require Import Base TreeCritModel.
Set Implicit Arguments.
Local Notation length := List.length.
Open Scope R_scope.

(* ------------------------------------------------------------------------------------------------ *)
(** ** Arrays *)

(** a[i] = v *)
Fixpoint lset {A} (l : list A) (i : nat) (v : A) : list A :=
  match l, i with
  | [], _ => []
  | _ :: r, O => v :: r
  | x :: r, S j => x :: lset r j v
  end.
(** a[i], a[j] = a[j], a[i] *)
Definition swap (l : list nat) (i j : nat) : list nat :=
  lset (lset l i (nth j l 0%nat)) j (nth i l 0%nat).
(** a[start:start+len(m)] = m *)
Definition put {A} (l : list A) (start : nat) (m : list A) : list A :=
  firstn start l ++ m ++ skipn (start + length m) l.

(* ------------------------------------------------------------------------------------------------ *)
(** ** The criterion as the splitter uses it (the virtual methods of Criterion) *)

Record crit (C V : Type) := mkCrit {
  cr_init : R -> list nat -> nat -> nat -> C;
  cr_reset : C -> C;
  cr_update : C -> list nat -> nat -> res C;
  cr_wn : C -> R;                       (* weighted_n_node_samples *)
  cr_wl : C -> R; cr_wr : C -> R;       (* weighted_n_left, weighted_n_right *)
  cr_proxy : C -> R;
  cr_node : C -> R;                     (* node_impurity *)
  cr_children : C -> list nat -> R * R; (* children_impurity *)
  cr_improve : C -> R -> R -> R -> R;   (* impurity_improvement *)
  cr_value : C -> V                     (* node_value *)
}.

Definition honest_crit (d : data) : crit hc R :=
  mkCrit (hc_init d) hc_reset (hc_update d) hwn hwl hwr (hc_proxy honest_impurity)
         (fun c => honest_impurity (htot c))
         (fun c _ => (honest_impurity (hleft c), honest_impurity (hright c)))
         honest_improvement hc_value.
Definition cmse_crit (d : data) : crit hc R :=
  mkCrit (hc_init d) hc_reset (hc_update d) hwn hwl hwr (hc_proxy cmse_impurity)
         (fun c => cmse_impurity (htot c))
         (fun c _ => (cmse_impurity (hleft c), cmse_impurity (hright c)))
         cmse_improvement hc_value.
Definition mse_crit (d : data) : crit rc (nat -> R) :=
  mkCrit (rc_init d) rc_reset (fun c s p => Ok (rc_update d c s p)) rwn rwl rwr (mse_proxy d)
         (mse_impurity d) (mse_children d) std_improvement rc_value.
Definition preg_crit (d : data) : crit rc (nat -> R) :=
  mkCrit (rc_init d) rc_reset (fun c s p => Ok (rc_update d c s p)) rwn rwl rwr (preg_proxy d)
         (preg_impurity d) (fun c _ => preg_children d c) std_improvement rc_value.
Definition preg1_crit (d : data) : crit rc (nat -> R) :=
  mkCrit (rc_init d) rc_reset (fun c s p => Ok (rc_update d c s p)) rwn rwl rwr (preg1_proxy d)
         (preg_impurity d) (fun c _ => preg_children d c) std_improvement rc_value.

(* ------------------------------------------------------------------------------------------------ *)
(** ** Splitter *)

(** _splitter.pyx:37 FEATURE_THRESHOLD *)
Definition FT : R := 1 / 10000000.

(** _splitter.pyx:147-164 Splitter.init: the samples kept (only weight != 0) and weighted_n_samples *)
Definition kept_samples (d : data) (n : nat) : list nat :=
  filter (fun i => match d_w d with
                   | None => true
                   | Some w => if Req_EM_T (w i) 0 then false else true
                   end) (seq 0 n).
Definition weighted_n (d : data) (n : nat) : R := fold_left (fun a i => a + wt d i) (seq 0 n) 0.

(** a candidate split: feature, pos, threshold and its proxy improvement.  [None] is the record of
    _init_split (pos = end, best_proxy_improvement = -INFINITY). *)
Record cand := mkCand { ca_feature : nat; ca_pos : nat; ca_thr : R; ca_proxy : R }.

(** the SplitRecord returned *)
Record split := mkSplit { sp_feature : nat; sp_pos : nat; sp_thr : R;
                          sp_il : R; sp_ir : R; sp_improvement : R }.

Section Splitter.
Context {C V : Type}.
Variable cr : crit C V.
Variable X : nat -> nat -> R.                       (* X[sample, feature] *)
Variable srt : (nat -> R) -> list nat -> list nat.  (* sort samples by feature value *)
Variable rnd : nat -> nat.                          (* the t-th value of our_rand_r *)
Variable rmax : R.                                  (* RAND_R_MAX *)
Variables (max_features min_samples_leaf : nat) (min_weight_leaf : R).

(** _splitter.pyx:384-386 the inner while: skip values closer than FEATURE_THRESHOLD.  At most [fuel] steps,
    called with fuel = end. *)
Fixpoint skip_equal (fuel : nat) (xf : nat -> R) (end_ p : nat) : nat :=
  match fuel with
  | O => p
  | S k => if (S p <? end_)%nat then
             if Rle_dec (xf (S p)) (xf p + FT) then skip_equal k xf end_ (S p) else p
           else p
  end.

(** _splitter.pyx:411-419 threshold *)
Definition mid_threshold (xf : nat -> R) (p : nat) : R :=
  let t := xf (p - 1)%nat / 2 + xf p / 2 in
  if Req_EM_T t (xf p) then xf (p - 1)%nat else t.

(** [current_proxy_improvement > best_proxy_improvement] *)
Definition better (pr : R) (best : option cand) : bool :=
  match best with None => true | Some b => if Rgt_dec pr (ca_proxy b) then true else false end.

(** _splitter.pyx:381-421 the scan over the sorted values of one feature *)
Fixpoint scan (fuel : nat) (feature start end_ : nat) (samples : list nat) (xf : nat -> R)
         (p : nat) (c : C) (best : option cand) : res (C * option cand) :=
  match fuel with
  | O => Err OutOfFuel
  | S k =>
      if (p <? end_)%nat then
        let p := S (skip_equal end_ xf end_ p) in
        if (p <? end_)%nat then
          if ((p - start <? min_samples_leaf) || (end_ - p <? min_samples_leaf))%nat%bool
          then scan k feature start end_ samples xf p c best
          else
            do c <- cr_update cr c samples p ;
            if Rlt_dec (cr_wl cr c) min_weight_leaf then scan k feature start end_ samples xf p c best
            else if Rlt_dec (cr_wr cr c) min_weight_leaf then scan k feature start end_ samples xf p c best
            else
              let pr := cr_proxy cr c in
              let best := if better pr best then Some (mkCand feature p (mid_threshold xf p) pr) else best in
              scan k feature start end_ samples xf p c best
        else scan k feature start end_ samples xf p c best
      else Ok (c, best)
  end.

(** the part of the splitter state that changes while features are evaluated: samples, criterion, best,
    current.feature (None before the first assignment: uninitialised), number of random numbers drawn *)
Record sst := mkSst { s_samples : list nat; s_crit : C; s_best : option cand; s_cur : option nat; s_t : nat }.

(** _splitter.pyx:356-421 BestSplitter: one feature; the boolean says that it is constant *)
Definition eval_best (start end_ feature : nat) (s : sst) : res (bool * sst) :=
  let node := at_range (s_samples s) start end_ in
  let samples := put (s_samples s) start (srt (fun i => X i feature) node) in
  let xf p := X (nth p samples 0%nat) feature in
  if Rle_dec (xf (end_ - 1)%nat) (xf start + FT)
  then Ok (true, mkSst samples (s_crit s) (s_best s) (Some feature) (s_t s))
  else
    do r <- scan (S (end_ - start)) feature start end_ samples xf start (cr_reset cr (s_crit s)) (s_best s) ;
    Ok (false, mkSst samples (fst r) (snd r) (Some feature) (s_t s)).

(** _splitter.pyx:424-435, 700-709, 736-745 the partition loop; [fuel] >= pe - p rounds *)
Fixpoint partition (fuel feature : nat) (thr : R) (samples : list nat) (p pe : nat) : list nat * nat :=
  match fuel with
  | O => (samples, pe)
  | S k =>
      if (p <? pe)%nat then
        if Rle_dec (X (nth p samples 0%nat) feature) thr
        then partition k feature thr samples (S p) pe
        else partition k feature thr (swap samples p (pe - 1)) p (pe - 1)
      else (samples, pe)
  end.

(** _splitter.pyx:663-677 RandomSplitter: min and max *)
Definition min_max (samples : list nat) (start end_ feature : nat) : R * R :=
  fold_left (fun mm i => let v := X i feature in
               if Rlt_dec v (fst mm) then (v, snd mm)
               else if Rgt_dec v (snd mm) then (fst mm, v) else mm)
            (at_range samples (S start) end_)
            (X (nth start samples 0%nat) feature, X (nth start samples 0%nat) feature).

(** _splitter.pyx:658-732 RandomSplitter: one feature *)
Definition eval_random (start end_ feature : nat) (s : sst) : res (bool * sst) :=
  let mm := min_max (s_samples s) start end_ feature in
  if Rle_dec (snd mm) (fst mm + FT)
  then Ok (true, mkSst (s_samples s) (s_crit s) (s_best s) (Some feature) (s_t s))
  else
    let u := (snd mm - fst mm) * INR (rnd (s_t s)) / rmax + fst mm in
    let thr := if Req_EM_T u (snd mm) then fst mm else u in
    let '(samples, pos) := partition (end_ - start) feature thr (s_samples s) start end_ in
    let st c b := mkSst samples c b (Some feature) (S (s_t s)) in
    if ((pos - start <? min_samples_leaf) || (end_ - pos <? min_samples_leaf))%nat%bool
    then Ok (false, st (s_crit s) (s_best s))
    else
      do c <- cr_update cr (cr_reset cr (s_crit s)) samples pos ;
      if Rlt_dec (cr_wl cr c) min_weight_leaf then Ok (false, st c (s_best s))
      else if Rlt_dec (cr_wr cr c) min_weight_leaf then Ok (false, st c (s_best s))
      else
        let pr := cr_proxy cr c in
        Ok (false, st c (if better pr (s_best s) then Some (mkCand feature pos thr pr) else s_best s)).

(** _splitter.pyx:313-421, 616-732 the loop that draws features.  State: features, f_i, n_drawn_constants,
    n_found_constants, n_visited_features.  The C loop needs no bound; [fuel] = n_features suffices. *)
Record draw := mkDraw { dr_features : list nat; dr_fi : nat; dr_drawn : nat; dr_found : nat; dr_visited : nat }.

Fixpoint draw_loop (eval : nat -> sst -> res (bool * sst)) (n_known : nat) (fuel : nat) (q : draw) (s : sst)
  : res (draw * sst) :=
  let n_total := (n_known + dr_found q)%nat in
  if ((n_total <? dr_fi q) &&
      ((dr_visited q <? max_features) || (dr_visited q <=? dr_found q + dr_drawn q)))%nat%bool
  then
    match fuel with
    | O => Err OutOfFuel
    | S k =>
        let low := dr_drawn q in
        let high := (dr_fi q - dr_found q)%nat in
        let fj := (low + rnd (s_t s) mod (high - low))%nat in
        let s := mkSst (s_samples s) (s_crit s) (s_best s) (s_cur s) (S (s_t s)) in
        if (fj <? n_known)%nat
        then draw_loop eval n_known k
               (mkDraw (swap (dr_features q) (dr_drawn q) fj) (dr_fi q) (S (dr_drawn q)) (dr_found q)
                       (S (dr_visited q))) s
        else
          let fj := (fj + dr_found q)%nat in
          do r <- eval (nth fj (dr_features q) 0%nat) s ;
          if fst r
          then draw_loop eval n_known k
                 (mkDraw (swap (dr_features q) fj n_total) (dr_fi q) (dr_drawn q) (S (dr_found q))
                         (S (dr_visited q))) (snd r)
          else draw_loop eval n_known k
                 (mkDraw (swap (dr_features q) (dr_fi q - 1) fj) (dr_fi q - 1) (dr_drawn q) (dr_found q)
                         (S (dr_visited q))) (snd r)
    end
  else Ok (q, s).

(** the splitter between nodes: samples, features, constant_features, random numbers drawn *)
Record spl := mkSpl { p_samples : list nat; p_features : list nat; p_const : list nat; p_t : nat }.

(** _splitter.pyx:271-453 and 585-767 node_split; [random] selects RandomSplitter.  Result: the splitter, the
    criterion, the split (None when best.pos >= end) and n_constant_features. *)
Definition node_split (random : bool) (impurity : R) (start end_ : nat) (n_known : nat) (c : C) (p : spl)
  : res (spl * C * option split * nat) :=
  let n_features := length (p_features p) in
  do r <- draw_loop (if random then eval_random start end_ else eval_best start end_) n_known n_features
            (mkDraw (p_features p) n_features 0 0 0)
            (mkSst (p_samples p) c None None (p_t p)) ;
  let '(q, s) := r in
  do fin <- match s_best s with
            | None => Ok (s_samples s, s_crit s, None)
            | Some b =>
                let samples :=
                  if (random && match s_cur s with Some f => Nat.eqb f (ca_feature b) | None => false end)%bool
                  then s_samples s
                  else fst (partition (end_ - start) (ca_feature b) (ca_thr b) (s_samples s) start end_) in
                do c <- cr_update cr (cr_reset cr (s_crit s)) samples (ca_pos b) ;
                let il := fst (cr_children cr c samples) in
                let ir := snd (cr_children cr c samples) in
                Ok (samples, c, Some (mkSplit (ca_feature b) (ca_pos b) (ca_thr b) il ir
                                              (cr_improve cr c impurity il ir)))
            end ;
  let '(samples, c, sp) := fin in
  let features := put (dr_features q) 0 (firstn n_known (p_const p)) in
  let const := put (p_const p) n_known (at_range features n_known (n_known + dr_found q)) in
  Ok (mkSpl samples features const (s_t s), c, sp, (n_known + dr_found q)%nat).

(* ------------------------------------------------------------------------------------------------ *)
(** ** Tree and builder *)

(** a child link: _TREE_LEAF, not yet written, or a node id *)
Inductive link := Leaf | Unset | To (id : nat).
Record node := mkNode { nd_left : link; nd_right : link; nd_feature : nat; nd_thr : R;
                        nd_imp : R; nd_n : nat; nd_w : R }.

(** _tree.pyx:776-816 _add_node: the id of the new node is the number of nodes *)
Definition set_child (is_left : bool) (id : nat) (n : node) : node :=
  if is_left then mkNode (To id) (nd_right n) (nd_feature n) (nd_thr n) (nd_imp n) (nd_n n) (nd_w n)
  else mkNode (nd_left n) (To id) (nd_feature n) (nd_thr n) (nd_imp n) (nd_n n) (nd_w n).
Definition node0 : node := mkNode Leaf Leaf 0 0 0 0 0.
Definition add_node (nodes : list node) (parent : option nat) (is_left : bool) (new : node) : list node :=
  let id := length nodes in
  let nodes := match parent with
               | None => nodes
               | Some q => lset nodes q (set_child is_left id (nth q nodes node0))
               end in
  nodes ++ [new].

(** _tree.pyx:130-138 StackRecord *)
Record srec := mkSrec { sr_start : nat; sr_end : nat; sr_depth : nat; sr_parent : option nat; sr_left : bool;
                        sr_imp : R; sr_const : nat }.

Variables (min_samples_split max_depth : nat) (min_impurity_decrease : R).
Variable N : R. (* weighted_n_samples *)

(** np.finfo('double').eps *)
Definition EPSILON : R := / 2 ^ 52.

Record bst := mkBst { b_nodes : list node; b_values : list V; b_spl : spl; b_max : nat }.

(** _tree.pyx:198-266 one round of the loop: the record taken from the stack, the new state and the records
    pushed (the first is on top).  [first] is the flag of the first round. *)
Definition build_step (random first : bool) (r : srec) (b : bst) : res (bst * list srec) :=
  let n := (sr_end r - sr_start r)%nat in
  let c := cr_init cr N (p_samples (b_spl b)) (sr_start r) (sr_end r) in
  let stop := ((max_depth <=? sr_depth r) || (n <? min_samples_split) || (n <? 2 * min_samples_leaf)
               || (if Rlt_dec (cr_wn cr c) (2 * min_weight_leaf) then true else false))%nat%bool in
  let imp := if first then cr_node cr c else sr_imp r in
  let stop := (stop || if Rle_dec imp EPSILON then true else false)%bool in
  let wn := cr_wn cr c in
  do sp <- (if stop then Ok (b_spl b, c, None, sr_const r)
            else node_split random imp (sr_start r) (sr_end r) (sr_const r) c (b_spl b)) ;
  let '(spl, c, best, kc) := sp in
  let best := match best with
              | Some s => if Rlt_dec (sp_improvement s + EPSILON) min_impurity_decrease then None else Some s
              | None => None
              end in
  let id := length (b_nodes b) in
  let values := b_values b ++ [cr_value cr c] in
  match best with
  | None =>
      let nodes := add_node (b_nodes b) (sr_parent r) (sr_left r) (mkNode Leaf Leaf 0 0 imp n wn) in
      Ok (mkBst nodes values spl (Nat.max (sr_depth r) (b_max b)), [])
  | Some s =>
      let nodes := add_node (b_nodes b) (sr_parent r) (sr_left r)
                     (mkNode Unset Unset (sp_feature s) (sp_thr s) imp n wn) in
      Ok (mkBst nodes values spl (Nat.max (sr_depth r) (b_max b)),
          [mkSrec (sr_start r) (sp_pos s) (S (sr_depth r)) (Some id) true (sp_il s) kc;
           mkSrec (sp_pos s) (sr_end r) (S (sr_depth r)) (Some id) false (sp_ir s) kc])
  end.

(** the loop over the stack (top first) *)
Fixpoint build_loop (random : bool) (fuel : nat) (first : bool) (stack : list srec) (b : bst) : res bst :=
  match stack with
  | [] => Ok b
  | r :: rest =>
      match fuel with
      | O => Err OutOfFuel
      | S k => do s <- build_step random first r b ;
               build_loop random k false (snd s ++ rest) (fst s)
      end
  end.

End Splitter.

(** _tree.pyx:153-276 DepthFirstTreeBuilder.build on n samples with n_features features, weights and outcomes
    in [d]; at most 2n-1 nodes (one when n = 0) are built. *)
Definition build {C V} (cr : crit C V) X srt rnd rmax max_features min_samples_leaf min_weight_leaf
           min_samples_split max_depth min_impurity_decrease (random : bool)
           (d : data) (n n_features : nat) : res (@bst V) :=
  let samples := kept_samples d n in
  let k := length samples in
  build_loop cr X srt rnd rmax max_features min_samples_leaf min_weight_leaf min_samples_split max_depth
             min_impurity_decrease (weighted_n d n) random (2 * k + 1) true
             [mkSrec 0 k 0 None false 0 0]
             (mkBst [] [] (mkSpl samples (seq 0 n_features) (repeat 0%nat n_features) 0) 0).

(** _tree.pyx:853-867 apply on one row; [fuel] bounds the number of steps by the number of nodes *)
Fixpoint apply_row (fuel : nat) (nodes : list node) (x : nat -> R) (id : nat) : res nat :=
  match fuel with
  | O => Err OutOfFuel
  | S k =>
      let n := nth id nodes node0 in
      match nd_left n with
      | Leaf => Ok id
      | l => match (if Rle_dec (x (nd_feature n)) (nd_thr n) then l else nd_right n) with
             | To j => apply_row k nodes x j
             | _ => Err IndexError
             end
      end
  end.
Definition tree_apply (nodes : list node) (x : nat -> R) : res nat := apply_row (length nodes) nodes x 0.

(** _tree.pyx:818-824 predict on one row *)
Definition tree_predict {V} (dflt : V) (b : @bst V) (x : nat -> R) : res V :=
  do i <- tree_apply (b_nodes b) x ; Ok (nth i (b_values b) dflt).

(** _tree.pyx:979-1000 decision path of one row: the node ids in the order they are visited *)
Fixpoint path_row (fuel : nat) (nodes : list node) (x : nat -> R) (id : nat) : res (list nat) :=
  match fuel with
  | O => Err OutOfFuel
  | S k =>
      let n := nth id nodes node0 in
      match nd_left n with
      | Leaf => Ok [id]
      | l => match (if Rle_dec (x (nd_feature n)) (nd_thr n) then l else nd_right n) with
             | To j => do p <- path_row k nodes x j ; Ok (id :: p)
             | _ => Err IndexError
             end
      end
  end.
Definition tree_path (nodes : list node) (x : nat -> R) : res (list nat) := path_row (length nodes) nodes x 0.

(** _tree.pyx:972-1000 the buffer [indices] of n_samples * (1 + max_depth) entries: the paths are written one
    after the other.  [Err IndexError] is a write past the end. *)
Definition decision_path (nodes : list node) (max_depth : nat) (rows : list (nat -> R)) : res (list (list nat)) :=
  do ps <- fold_left (fun acc x => do l <- acc ; do p <- tree_path nodes x ; Ok (l ++ [p])) rows (Ok []) ;
  if (length (List.concat ps) <=? length rows * (1 + max_depth))%nat then Ok ps else Err IndexError.

(** _tree.pyx:1118-1129 importance_data before the division: the entry of feature f *)
Definition is_leafb (n : node) : bool := match nd_left n with Leaf => true | _ => false end.
Definition link_id (l : link) : nat := match l with To j => j | _ => 0 end.
Definition decrease (nodes : list node) (n : node) : R :=
  let l := nth (link_id (nd_left n)) nodes node0 in
  let r := nth (link_id (nd_right n)) nodes node0 in
  nd_w n * nd_imp n - nd_w l * nd_imp l - nd_w r * nd_imp r.
Definition raw_importance (nodes : list node) (f : nat) : R :=
  fold_left (fun a n => if is_leafb n then a else if Nat.eqb (nd_feature n) f then a + decrease nodes n else a)
            nodes 0.
(** _tree.pyx:1102-1138 compute_feature_importances(normalize=True) *)
Definition importances (nodes : list node) (nf : nat) : list R :=
  let w0 := nd_w (nth 0 nodes node0) in
  let imps := map (fun f => raw_importance nodes f / w0) (seq 0 nf) in
  let total := fold_left Rplus imps 0 in
  if Rgt_dec total 0 then map (fun v => v / total) imps else imps.

(** _tree.pyx:623-627 n_leaves *)
Definition n_leaves (nodes : list node) : nat :=
  length (filter (fun n => match nd_left n, nd_right n with Leaf, Leaf => true | _, _ => false end) nodes).
