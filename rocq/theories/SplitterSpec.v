(** What the tree engine is supposed to do, stated on lists of samples: which samples a split sends left, when a
    split is allowed, when a feature is constant, and what a criterion computes. *)
From Coq Require Import ZArith Reals Lra.
From Verif Require Import Base TreeCritModel TreeCritProps SplitterModel.
Set Implicit Arguments.
Local Notation length := List.length.
Open Scope R_scope.

(** the samples of a node with X[i, f] <= t, and the others *)
Definition left_of (X : nat -> nat -> R) (f : nat) (t : R) (node : list nat) : list nat :=
  filter (fun i => if Rle_dec (X i f) t then true else false) node.
Definition right_of (X : nat -> nat -> R) (f : nat) (t : R) (node : list nat) : list nat :=
  filter (fun i => if Rle_dec (X i f) t then false else true) node.

(** all values of feature f in the node lie within FEATURE_THRESHOLD of each other *)
Definition constant_on (X : nat -> nat -> R) (f : nat) (node : list nat) : Prop :=
  forall i j, In i node -> In j node -> X j f <= X i f + FT.

(** What a criterion computes from the samples on the two sides of a split (first argument: left) or from the
    samples of a node. *)
Record cspec (V : Type) := mkCspec {
  cs_proxy : list nat -> list nat -> R;
  cs_wl : list nat -> list nat -> R;
  cs_wr : list nat -> list nat -> R;
  cs_wn : list nat -> R;
  cs_node : list nat -> R;
  cs_children : list nat -> list nat -> R * R;
  cs_improve : list nat -> list nat -> R -> R -> R -> R;
  cs_value : list nat -> V
}.

(** a split of the node that respects min_samples_leaf and min_weight_leaf, both sides non-empty *)
Definition allowed {V} (sp : cspec V) (X : nat -> nat -> R) (msl : nat) (mwl : R)
           (f : nat) (t : R) (node : list nat) : Prop :=
  let l := left_of X f t node in
  let r := right_of X f t node in
  l <> [] /\ r <> [] /\ (msl <= length l)%nat /\ (msl <= length r)%nat /\
  mwl <= cs_wl sp l r /\ mwl <= cs_wr sp l r.

(** the two sides are more than FEATURE_THRESHOLD apart *)
Definition separated (X : nat -> nat -> R) (f : nat) (t : R) (node : list nat) : Prop :=
  forall i j, In i (left_of X f t node) -> In j (right_of X f t node) -> X i f + FT < X j f.

(** The criterion object [cr] computes [sp]: [rel start end node c samples pos] says that the object [c] was set
    up for the samples [node] = samples[start:end] and stands at split position [pos]. *)
Record crit_ok {C V} (cr : crit C V) (sp : cspec V) (N : R)
       (rel : nat -> nat -> list nat -> C -> list nat -> nat -> Prop) : Prop := mkCritOk {
  k_perm : forall l l' r r', Permutation l l' -> Permutation r r' ->
    cs_proxy sp l r = cs_proxy sp l' r' /\ cs_wl sp l r = cs_wl sp l' r' /\ cs_wr sp l r = cs_wr sp l' r' /\
    cs_wn sp l = cs_wn sp l' /\ cs_node sp l = cs_node sp l' /\
    cs_children sp l r = cs_children sp l' r' /\
    (forall a b c, cs_improve sp l r a b c = cs_improve sp l' r' a b c) /\ cs_value sp l = cs_value sp l';
  k_init : forall samples start end_, (start <= end_ <= length samples)%nat ->
    rel start end_ (slice samples start end_) (cr_init cr N samples start end_) samples start;
  k_reset : forall start end_ node c s p s', rel start end_ node c s p ->
    (end_ <= length s')%nat -> Permutation (slice s' start end_) node ->
    rel start end_ node (cr_reset cr c) s' start;
  k_update : forall start end_ node c s p q, rel start end_ node c s p -> (p <= q <= end_)%nat ->
    exists c', cr_update cr c s q = Ok c' /\ rel start end_ node c' s q;
  k_facts : forall start end_ node c s p, rel start end_ node c s p ->
    let l := slice s start p in let r := slice s p end_ in
    (start <= p <= end_)%nat /\ (end_ <= length s)%nat /\ Permutation (slice s start end_) node /\
    cr_wn cr c = cs_wn sp node /\ cr_node cr c = cs_node sp node /\ cr_value cr c = cs_value sp node /\
    cr_wl cr c = cs_wl sp l r /\ cr_wr cr c = cs_wr sp l r /\ cr_proxy cr c = cs_proxy sp l r /\
    cr_children cr c s = cs_children sp l r /\
    (forall a b d, cr_improve cr c a b d = cs_improve sp l r a b d)
}.

(** ** The five criteria *)

(** weighted mean of output k *)
Definition wmean (d : data) (l : list nat) (k : nat) : R := wy_sum d l k / w_sum d l.

(** number of samples *)
Definition cnt (l : list nat) : R := INR (length l).

(** HonestCMSE and CMSE; weighted_n_left and weighted_n_right are never written: always 0 *)
Definition causal_spec (imp : gstat -> R) (e : R) (d : data) : cspec R := {|
  cs_proxy := fun l r => - cnt r * imp (stats_of d r) - cnt l * imp (stats_of d l);
  cs_wl := fun _ _ => 0;
  cs_wr := fun _ _ => 0;
  cs_wn := w_sum d;
  cs_node := fun l => imp (stats_of d l);
  cs_children := fun l r => (imp (stats_of d l), imp (stats_of d r));
  cs_improve := fun l r p il ir =>
    p - cnt r / (cnt (l ++ r) + e) * ir - cnt l / (cnt (l ++ r) + e) * il;
  cs_value := fun l => yt (stats_of d l) / nte (stats_of d l) - y0 (stats_of d l) / n0e (stats_of d l)
|}.

(** MSE: sum over the outputs of the weighted variance; node_impurity divides by the number of outputs *)
Definition variance_sum (d : data) (l : list nat) : R :=
  wy2_sum d l / w_sum d l - ksum (d_out d) (fun k => (wmean d l k) ^ 2).
Definition std_spec_improve (d : data) (N : R) (l r : list nat) (p il ir : R) : R :=
  w_sum d (l ++ r) / N * (p - w_sum d r / w_sum d (l ++ r) * ir - w_sum d l / w_sum d (l ++ r) * il).
Definition mse_spec (d : data) (N : R) : cspec (nat -> R) := {|
  cs_proxy := fun l r => ksum (d_out d) (fun k => wy_sum d l k * wy_sum d l k) / w_sum d l +
                         ksum (d_out d) (fun k => wy_sum d r k * wy_sum d r k) / w_sum d r;
  cs_wl := fun l _ => w_sum d l;
  cs_wr := fun _ r => w_sum d r;
  cs_wn := w_sum d;
  cs_node := fun l => variance_sum d l / INR (d_out d);
  cs_children := fun l r => (variance_sum d l, variance_sum d r);
  cs_improve := std_spec_improve d N;
  cs_value := wmean d
|}.

(** PRegCriteria ([one] = false) and PRegCriteria1 ([one] = true): the largest of the treatments' sums *)
Definition preg_spec (one : bool) (d : data) (N : R) : cspec (nat -> R) := {|
  cs_proxy := fun l r => if one then kmax (d_out d) (wy_sum d l) / w_sum d l + kmax (d_out d) (wy_sum d r) / w_sum d r
                         else kmax (d_out d) (wy_sum d l) + kmax (d_out d) (wy_sum d r);
  cs_wl := fun l _ => w_sum d l;
  cs_wr := fun _ r => w_sum d r;
  cs_wn := w_sum d;
  cs_node := fun l => alpha - kmax (d_out d) (wy_sum d l) / w_sum d l;
  cs_children := fun l r => (alpha - kmax (d_out d) (wy_sum d l) / w_sum d l,
                             alpha - kmax (d_out d) (wy_sum d r) / w_sum d r);
  cs_improve := std_spec_improve d N;
  cs_value := wmean d
|}.

(* ------------------------------------------------------------------------------------------------ *)
(** ** Trees *)

Section TreeSpec.
Context {V : Type}.
Variable sp : cspec V.
Variable X : nat -> nat -> R.
Variable nf : nat.                      (* number of features *)
Variable max_features : nat.
Variables (msl : nat) (mwl : R) (mss max_depth : nat) (min_decrease : R).

(** [ex] are the features whose splits were examined at a node with samples [s]: distinct, none constant on [s].
    Either all features that are not constant were examined, or max_features is smaller than the number of
    features, at least one was examined, and with the constant ones seen they are at least max_features. *)
Definition searched (s ex : list nat) : Prop :=
  NoDup ex /\ (forall f, In f ex -> (f < nf)%nat /\ ~ constant_on X f s) /\
  ((forall f, (f < nf)%nat -> constant_on X f s \/ In f ex) \/
   (exists cs, NoDup cs /\ (forall f, In f cs -> (f < nf)%nat /\ constant_on X f s) /\
      ex <> [] /\ (max_features <= length cs + length ex)%nat /\ (max_features < nf)%nat)).

(** no split of the samples by one of these features, allowed and separated, has a larger proxy than (f, t) *)
Definition optimal (ex : list nat) (f : nat) (t : R) (s : list nat) : Prop :=
  forall f' t', In f' ex -> allowed sp X msl mwl f' t' s -> separated X f' t' s ->
    cs_proxy sp (left_of X f' t' s) (right_of X f' t' s) <= cs_proxy sp (left_of X f t s) (right_of X f t s).

(** the improvement of the split (f, t) of samples whose node impurity is [imp] *)
Definition gain (imp : R) (f : nat) (t : R) (s : list nat) : R :=
  let l := left_of X f t s in
  let r := right_of X f t s in
  cs_improve sp l r imp (fst (cs_children sp l r)) (snd (cs_children sp l r)).

(** why a node with these samples may be a leaf *)
Definition leaf_reason (depth : nat) (imp : R) (s : list nat) : Prop :=
  (max_depth <= depth)%nat \/ (length s < mss)%nat \/ (length s < 2 * msl)%nat \/ cs_wn sp s < 2 * mwl \/
  imp <= EPSILON \/
  (exists ex, searched s ex /\ forall f t, In f ex -> allowed sp X msl mwl f t s -> ~ separated X f t s) \/
  (exists ex f t, searched s ex /\ In f ex /\ allowed sp X msl mwl f t s /\ separated X f t s /\ optimal ex f t s /\
               gain imp f t s + EPSILON < min_decrease).

(** The nodes with ids in [id, stop) form the subtree of a node at depth [depth] with impurity [imp] that
    received the training samples [s]; [deepest] is the largest depth of a leaf in it.  [best]: the splitter is
    BestSplitter (otherwise RandomSplitter). *)
Inductive subtree (best : Prop) (nodes : list node) (values : list V)
  : nat -> nat -> R -> list nat -> nat -> nat -> Prop :=
| st_leaf id depth imp s nd :
    nth_error nodes id = Some nd -> nd_left nd = Leaf ->
    nd_imp nd = imp -> nd_n nd = length s -> nd_w nd = cs_wn sp s ->
    nth_error values id = Some (cs_value sp s) ->
    (depth <= max_depth)%nat ->
    (best -> leaf_reason depth imp s) ->
    nd_right nd = Leaf ->
    subtree best nodes values id depth imp s (S id) depth
| st_split id depth imp s nd m stop dl dr :
    nth_error nodes id = Some nd -> nd_left nd = To (S id) -> nd_right nd = To m ->
    nd_imp nd = imp -> nd_n nd = length s -> nd_w nd = cs_wn sp s ->
    nth_error values id = Some (cs_value sp s) ->
    (depth < max_depth)%nat -> (mss <= length s)%nat ->
    (nd_feature nd < nf)%nat ->
    allowed sp X msl mwl (nd_feature nd) (nd_thr nd) s ->
    min_decrease <= gain imp (nd_feature nd) (nd_thr nd) s + EPSILON ->
    (exists ex, searched s ex /\ In (nd_feature nd) ex /\
       (best -> separated X (nd_feature nd) (nd_thr nd) s /\ optimal ex (nd_feature nd) (nd_thr nd) s)) ->
    let l := left_of X (nd_feature nd) (nd_thr nd) s in
    let r := right_of X (nd_feature nd) (nd_thr nd) s in
    subtree best nodes values (S id) (S depth) (fst (cs_children sp l r)) l m dl ->
    subtree best nodes values m (S depth) (snd (cs_children sp l r)) r stop dr ->
    subtree best nodes values id depth imp s stop (Nat.max dl dr).
End TreeSpec.
