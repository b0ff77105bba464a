(** Model of ylearn/bayesian/_modules.py and of the parts of _network.py that use it (BayesianModel.node_functions,
    get_node_function, get_node_function_cls, guide; _is_cat of SviBayesianNetwork._fit).
    A pyro sample statement is recorded by its name, its distribution family and its batch and event shapes; the values
    of distribution parameters other than shapes are not modelled.  Forward computations are over the real numbers. *)
From Coq Require Import Reals DecimalString.
From Verif Require Import Base NxModel UtilsModel BayesModel.
Local Open Scope nat_scope.
Local Open Scope list_scope.
Set Implicit Arguments.

Definition lit (s : string) : str := list_ascii_of_string s.

(** ** Sample statements *)
Inductive family := Dirichlet | Normal | FoldedNormal.
Record site := Site { sname : str; sdist : family; batch : list nat; event : list nat }.
(** dist.Dirichlet(t) for a tensor t of the given shape: the last dimension is the event *)
Definition dirichlet (n : str) (shape : list nat) : site := Site n Dirichlet (removelast shape) [last shape 0].
(** dist.Normal(t, t'): elementwise, no event dimension *)
Definition normal (n : str) (shape : list nat) : site := Site n Normal shape [].
(** dist.FoldedDistribution(dist.Normal(t, t')) *)
Definition folded (n : str) (shape : list nat) : site := Site n FoldedNormal shape [].
(** .to_event(k): the last k batch dimensions become event dimensions *)
Definition to_event (k : nat) (s : site) : site :=
  let i := List.length (batch s) - k in
  Site (sname s) (sdist s) (firstn i (batch s)) (skipn i (batch s) ++ event s).

(** _modules.py:35-39 N(...): '__'.join *)
Fixpoint N (args : list str) : str :=
  match args with [] => [] | [x] => x | x :: r => x ++ lit "__" ++ N r end.
(** f'L{i}' *)
Definition layer (i : nat) : str := lit "L" ++ lit (NilEmpty.string_of_uint (Nat.to_uint i)).

Definition assert_ (b : bool) : res unit := if b then Ok tt else Err AssertionError.
(** the argument [random]; any other string fails the assertion *)
Inductive random_arg := RNormal | RDirichlet | ROther.
Definition random_ok (r : random_arg) : bool := match r with ROther => false | _ => true end.

(** ** Linear *)
(** _modules.py:59-95 Linear.__init__: the sample statements, in order *)
Definition linear_init (name : str) (n_in n_out : nat) (random : random_arg) (bias : bool) : res (list site) :=
  do _ <- assert_ (Nat.ltb 0 n_in) ; do _ <- assert_ (Nat.ltb 0 n_out) ; do _ <- assert_ (random_ok random) ;
  let weight := match random with
    | RDirichlet => to_event 1 (dirichlet (N [name; lit "weight"]) [n_in; n_out])
    | _ => to_event 2 (normal (N [name; lit "weight"]) [n_in; n_out])
    end in
  let b := if bias then
      [match random with
       | RDirichlet => dirichlet (N [name; lit "bias"]) [n_out]
       | _ => if Nat.ltb 1 n_out then to_event 1 (normal (N [name; lit "bias"]) [n_out])
              else normal (N [name; lit "bias"]) []
       end]
    else [] in
  Ok (weight :: b).
(** _modules.py:108-174 Linear.guide: the entries of the resulting dictionary, each with its sample statement *)
Definition linear_guide (name : str) (n_in n_out : nat) (random : random_arg) (bias : bool) : res (list (str * site)) :=
  do _ <- assert_ (Nat.ltb 0 n_in) ; do _ <- assert_ (Nat.ltb 0 n_out) ; do _ <- assert_ (random_ok random) ;
  let weight := match random with
    | RDirichlet => to_event 1 (dirichlet (N [name; lit "weight"]) [n_in; n_out])
    | _ => to_event 2 (normal (N [name; lit "weight"]) [n_in; n_out])
    end in
  let b := if bias then
      [(N [name; lit "bias"],
        match random with
        | RDirichlet => dirichlet (N [name; lit "bias"]) [n_out]
        | _ => if Nat.ltb 1 n_out then to_event 1 (normal (N [name; lit "bias"]) [n_out])
               else normal (N [name; lit "bias"]) []
        end)]
    else [] in
  Ok ((N [name; lit "weight"], weight) :: b).

(** ** MLP *)
(** _modules.py:181-184, 203-205: [n_inputs, *hidden_dims, n_output] *)
Definition mlp_dims (n_in n_out : nat) (hidden : option (list nat)) : list nat :=
  n_in :: (match hidden with None => [n_in] | Some h => h end) ++ [n_out].
(** enumerate(zip(dims, dims[1:])) *)
Definition mlp_layers (dims : list nat) : list (nat * (nat * nat)) :=
  let z := combine dims (tl dims) in combine (seq 0 (List.length z)) z.
(** _modules.py:178-194 MLP.__init__ *)
Definition mlp_init (name : str) (n_in n_out : nat) (hidden : option (list nat)) (random : random_arg) (bias : bool) :
    res (list site) :=
  do ls <- mapE (fun e => linear_init (N [name; layer (fst e)]) (fst (snd e)) (snd (snd e)) random bias)
             (mlp_layers (mlp_dims n_in n_out hidden)) ;
  Ok (List.concat ls).
(** _modules.py:201-212 MLP.guide *)
Definition mlp_guide (name : str) (n_in n_out : nat) (hidden : option (list nat)) (random : random_arg) (bias : bool) :
    res (list (str * site)) :=
  do ls <- mapE (fun e => linear_guide (N [name; layer (fst e)]) (fst (snd e)) (snd (snd e)) random bias)
             (mlp_layers (mlp_dims n_in n_out hidden)) ;
  Ok (List.concat ls).

(** ** Modules *)
(** _base.py NodeState: a category state with its number of classes, or a numerical one *)
Inductive nstate := Cat (n_classes : nat) | Num.
Definition is_cat (s : nstate) : bool := match s with Cat _ => true | Num => false end.
(** _modules.py:234-239 n_outputs; also 298-301 *)
Definition n_outputs (s : nstate) : nat := match s with Cat n => n | Num => 1 end.

(** the classes that can be put into MiCategorical[...] / MiNormal[...] and the keyword options for them; an option that
    is not given takes the default of the signature, and Linear has no parameter hidden_dims (TypeError) *)
Inductive fn_cls := FLinear | FMLP.
Record options := Options { o_random : option random_arg; o_bias : option bool; o_hidden : option (option (list nat)) }.
Definition no_options : options := Options None None None.
Definition or_default {A} (o : option A) (d : A) : A := match o with Some x => x | None => d end.
(** fn_cls(name, n_inputs, n_outputs, **fn_options) *)
Definition fn_init (f : fn_cls) (o : options) (name : str) (n_in n_out : nat) : res (list site) :=
  match f, o_hidden o with
  | FLinear, Some _ => Err TypeError
  | FLinear, None => linear_init name n_in n_out (or_default (o_random o) RNormal) (or_default (o_bias o) true)
  | FMLP, h => mlp_init name n_in n_out (or_default h None) (or_default (o_random o) RNormal) (or_default (o_bias o) true)
  end.
(** fn_cls.guide(name, n_inputs, n_outputs, **fn_options) *)
Definition fn_guide (f : fn_cls) (o : options) (name : str) (n_in n_out : nat) : res (list (str * site)) :=
  match f, o_hidden o with
  | FLinear, Some _ => Err TypeError
  | FLinear, None => linear_guide name n_in n_out (or_default (o_random o) RNormal) (or_default (o_bias o) true)
  | FMLP, h => mlp_guide name n_in n_out (or_default h None) (or_default (o_random o) RNormal) (or_default (o_bias o) true)
  end.

Inductive module_cls :=
| NiCategorical | NiNormal
| MiCategorical (f : fn_cls) (o : options) | MiNormal (f : fn_cls) (o : options).

(** __init__ of the modules: NiCategorical 342-350 (BModule 223-229, NiModule 251-253), NiNormal 370-376, the Stub class
    288-290 over MiCategorical 419-422 / MiNormal 439-445 (MiModule 261-263) *)
Definition module_init (c : module_cls) (name : str) (st : nstate) (n_in : nat) : res (list site) :=
  match c with
  | NiCategorical =>
      do _ <- assert_ (is_cat st) ; do _ <- assert_ (Nat.eqb n_in 0) ;
      Ok [dirichlet (N [name; lit "weight"]) [n_outputs st]]
  | NiNormal =>
      do _ <- assert_ (negb (is_cat st)) ; do _ <- assert_ (Nat.eqb n_in 0) ;
      Ok [normal (N [name; lit "mean"]) []; folded (N [name; lit "scale"]) []]
  | MiCategorical f o =>
      do _ <- assert_ (is_cat st) ; do _ <- assert_ (Nat.ltb 0 n_in) ; fn_init f o name n_in (n_outputs st)
  | MiNormal f o =>
      do _ <- assert_ (negb (is_cat st)) ; do _ <- assert_ (Nat.ltb 0 n_in) ;
      do l <- fn_init f o name n_in (n_outputs st) ; Ok (folded (N [name; lit "scale"]) [] :: l)
  end.
(** guide of the modules: 356-366, 382-411, the Stub's 296-307, 429-431, 452-465.  NiCategorical.guide with a numerical
    state and NiNormal.guide with a category state: AttributeError *)
Definition module_guide (c : module_cls) (name : str) (st : nstate) (n_in : nat) : res (list (str * site)) :=
  match c with
  | NiCategorical =>
      if is_cat st then Ok [(N [name; lit "weight"], dirichlet (N [name; lit "weight"]) [n_outputs st])]
      else Err AttributeError
  | NiNormal =>
      if is_cat st then Err AttributeError
      else Ok [(N [name; lit "mean"], normal (N [name; lit "mean"]) []);
               (N [name; lit "scale"], folded (N [name; lit "scale"]) [])]
  | MiCategorical f o => do l <- fn_guide f o name n_in (n_outputs st) ; Ok (l ++ [])
  | MiNormal f o =>
      do l <- fn_guide f o name n_in (n_outputs st) ;
      if is_cat st then Err AttributeError
      else Ok (l ++ [(N [name; lit "scale"], folded (N [name; lit "scale"]) [])])
  end.

(** _modules.py:468-472 *)
Definition LinearCategorical : module_cls := MiCategorical FLinear (Options (Some RDirichlet) (Some false) None).
Definition MLPCategorical : module_cls := MiCategorical FMLP (Options (Some RDirichlet) (Some false) None).
Definition LinearNormal : module_cls := MiNormal FLinear no_options.
Definition MLPNormal : module_cls := MiNormal FMLP no_options.

(** ** The network *)
Section Network.
  (** the class attributes MiCategorical and MiNumerical of BayesianModel: a fn class with options each
      (_network.py:79-80 sets the linear ones; a user may override them) *)
  Variables (micat minum : fn_cls * options).
  Variables (g : graph) (state : dict nstate).

  (** _network.py:177-192 get_node_function_cls, and the choice in 160-175 get_node_function *)
  Definition node_cls (st : nstate) (n_parents : nat) : module_cls :=
    match st, n_parents with
    | Cat _, 0 => NiCategorical
    | Cat _, _ => MiCategorical (fst micat) (snd micat)
    | Num, 0 => NiNormal
    | Num, _ => MiNormal (fst minum) (snd minum)
    end.
  Definition node_state (n : str) : res nstate := match dget state n with Some s => Ok s | None => Err KeyError end.
  (** 160-175 get_node_function; the root modules have the default n_inputs=0 *)
  Definition get_node_function (n : str) : res (list site) :=
    do st <- node_state n ; do ps <- get_parents g n ;
    let k := List.length ps in module_init (node_cls st k) n st k.
  (** 154-158 node_functions(): the latent sample statements at the start of every run of the model *)
  Definition model_latents : res (list site) := do ls <- mapE get_node_function (nodes g) ; Ok (List.concat ls).
  (** 194-205 guide() for all nodes *)
  Definition node_guide (n : str) : res (list (str * site)) :=
    do st <- node_state n ; do ps <- get_parents g n ;
    let k := List.length ps in module_guide (node_cls st k) n st k.
  Definition guide : res (list (str * site)) := do ls <- mapE node_guide (nodes g) ; Ok (List.concat ls).
  (** 92-152: the names of all sample statements of a run that generates the nodes [order]: the latents, the plate
      'graph' (pyro draws its subsample with a sample statement of the plate's name), and each node's own value.  pyro's
      Trace refuses two sample statements with one name *)
  Definition trace_names (order : list str) : res (list str) :=
    do ls <- model_latents ; Ok (map sname ls ++ lit "graph" :: order).

  (** _network.py:600-602 _is_cat: the name of a site up to the first underscore *)
  Definition site_is_cat (name : str) : bool :=
    match dget state (hd [] (split_on "_"%char name)) with Some s => is_cat s | None => false end.
  (** _network.py:604-609: the sites AutoNormal and AutoDelta get (block with hide_fn / expose_fn of the sites that are
      not nodes) *)
  Definition auto_guide (l : list site) : list site * list site :=
    let l' := filter (fun s => negb (mem (sname s) (nodes g))) l in
    (filter (fun s => negb (site_is_cat (sname s))) l', filter (fun s => site_is_cat (sname s)) l').
End Network.

(** ** The class cache of the metaclass *)
Section Cache.
  (** classes are objects with a __name__; [O]: option dictionaries *)
  Context {O : Type}.
  Record cls := Cls { cname : str; cid : nat }.
  (** a generated Stub class *)
  Record stub := Stub { s_mod : cls; s_fn : cls; s_opts : O }.
  (** _modules.py:276-319 _get_cls and 327-338 __getitem__: (cache afterwards, the class); the type checks of the key
      are not modelled *)
  Definition get_cls (cache : dict stub) (m f : cls) (o : O) : dict stub * stub :=
    let name := cname f ++ cname m in
    match dget cache name with
    | Some s => (cache, s)
    | None => let s := Stub m f o in (dset cache name s, s)
    end.
  (** a history of requests *)
  Fixpoint requests (cache : dict stub) (l : list (cls * cls * O)) : dict stub * list stub :=
    match l with
    | [] => (cache, [])
    | (m, f, o) :: r =>
        let (c, s) := get_cls cache m f o in
        let (c', ss) := requests c r in (c', s :: ss)
    end.
End Cache.
Arguments stub O : clear implicits.

(** ** Forward computations on one row *)
Section Forward.
  Local Open Scope R_scope.
  Definition rsum (l : list R) : R := fold_right Rplus 0 l.
  (** x @ W for a row x and a matrix with [n] columns, given by rows *)
  Definition vecmat (n : nat) (x : list R) (W : list (list R)) : list R :=
    map (fun k => rsum (map (fun p => fst p * nth k (snd p) 0) (combine x W))) (seq 0 n).
  (** _modules.py:97-106 Linear.__call__; [b]: the bias, already broadcast *)
  Definition linear_call (n_in n_out : nat) (W : list (list R)) (b : option (list R)) (x : list R) : res (list R) :=
    if Nat.eqb (List.length x) n_in then
      let r := vecmat n_out x W in
      Ok (match b with Some b => map (fun p => fst p + snd p) (combine r b) | None => r end)
    else Err AssertionError.
  (** nn.ELU() *)
  Definition elu (x : R) : R := if Rlt_dec 0 x then x else exp x - 1.
  (** _modules.py:184-199 MLP.__init__ and __call__: linear layers with ELU after all but the last one; a layer is (n_in, n_out,
      weight, bias) *)
  Fixpoint mlp_call (ls : list (nat * nat * list (list R) * option (list R))) (x : list R) : res (list R) :=
    match ls with
    | [] => Ok x
    | [(ni, no, W, b)] => linear_call ni no W b x
    | (ni, no, W, b) :: r => do y <- linear_call ni no W b x ; mlp_call r (map elu y)
    end.
  (** dist.Categorical(logits=...): the probability of class k *)
  Definition categorical_prob (logits : list R) (k : nat) : R := exp (nth k logits 0) / rsum (map exp logits).
  (** _modules.py:352-354 NiCategorical.__call__: the sampled weight is used as logits *)
  Definition nicategorical_prob (weight : list R) (k : nat) : R := categorical_prob weight k.
  (** _modules.py:424-427 MiCategorical.__call__ with the linear function *)
  Definition linear_categorical_prob (n_in n_out : nat) (W : list (list R)) (x : list R) (k : nat) : res R :=
    do l <- linear_call n_in n_out W None x ; Ok (categorical_prob l k).
  (** _modules.py:447-450 MiNormal.__call__ with the linear function: the mean (n_output = 1, scalar bias) *)
  Definition linear_normal_mean (n_in : nat) (W : list (list R)) (b : R) (x : list R) : res R :=
    do l <- linear_call n_in 1 W (Some [b]) x ; Ok (nth 0 l 0).
End Forward.
